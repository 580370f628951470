(** Base64 and data URLs by what they say *)
From Coq Require Import List Bool Arith.
From Verif Require Import ImgModel.
Import ListNotations.

Definition byte (b : nat) : Prop := b < 256.
(** A number by its digits, the first the most significant *)
Fixpoint number (base : nat) (ds : list nat) : nat := match ds with [] => 0 | d :: ds' => d * base ^ length ds' + number base ds' end.

(** Base64 (RFC 4648): groups of three bytes are the numbers written with four digits of base 64; a last group of one or two bytes
    is followed by zero bits to make two or three digits, and padded. [digit c v]: the character is that digit. *)
Definition digit (c v : nat) : Prop :=
  v < 26 /\ c = 65 + v \/ 26 <= v < 52 /\ c = 97 + (v - 26) \/ 52 <= v < 62 /\ c = 48 + (v - 52) \/ v = 62 /\ c = 43 \/ v = 63 /\ c = 47.
Inductive base64 : list nat -> list nat -> Prop :=
| b64_end : base64 [] []
| b64_one : forall a v w c d, byte a -> digit c v -> digit d w -> number 64 [v; w] = a * 2 ^ 4 -> base64 [c; d; 61; 61] [a]
| b64_two : forall a b v w x c d e, byte a -> byte b -> digit c v -> digit d w -> digit e x -> number 64 [v; w; x] = number 256 [a; b] * 2 ^ 2 -> base64 [c; d; e; 61] [a; b]
| b64_three : forall a1 a2 a3 v1 v2 v3 v4 c1 c2 c3 c4 s bs, byte a1 -> byte a2 -> byte a3 ->
    digit c1 v1 -> digit c2 v2 -> digit c3 v3 -> digit c4 v4 -> number 64 [v1; v2; v3; v4] = number 256 [a1; a2; a3] -> base64 s bs ->
    base64 (c1 :: c2 :: c3 :: c4 :: s) (a1 :: a2 :: a3 :: bs).

(** Data URLs (RFC 2397) of images: [data:image/kind;base64,data] has the bytes encoded by [data], [data:image/kind,data] the characters
    of [data], here without percent escapes. *)
Inductive url_means : list nat -> list nat -> Prop :=
| um_base64 : forall kind s bs, ~ In 44 kind -> base64 s bs -> url_means (data_image ++ kind ++ semi_base64 ++ 44 :: s) bs
| um_plain : forall kind s, ~ In 44 kind -> ~ In 37 s -> Forall byte s -> (forall k, kind <> k ++ semi_base64) -> url_means (data_image ++ kind ++ 44 :: s) s.
