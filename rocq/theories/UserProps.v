(** C44: prompts. *)
From Coq Require Import String List Bool ZArith.
From Verif Require Import JsonModel JsonSpec UserModel UserSpec UserProofs.
Import ListNotations.
Local Open Scope string_scope.
Local Open Scope list_scope.

(** The message is the template's pieces in order (literals, and fields replaced by the pieces of
    their encoding), each run of texts merged into one and blocks where they stand; it raises
    exactly if some field has no pieces. *)
Theorem C44_merged : forall dumps_scalar block_types l,
  match call_user dumps_scalar block_types l with
  | Some out => exists ps, pieces_of dumps_scalar block_types l ps /\ merged ps out
  | None => forall ps, ~ pieces_of dumps_scalar block_types l ps
  end.
Proof. exact user_spec. Qed.
Print Assumptions C44_merged.

(** The pieces are determined by the template. *)
Theorem C44_pieces_unique : forall dumps_scalar block_types l ps qs,
  pieces_of dumps_scalar block_types l ps -> pieces_of dumps_scalar block_types l qs -> ps = qs.
Proof. exact pieces_fun. Qed.
Print Assumptions C44_pieces_unique.

(** Without blocks, conversions and format specs the message is one text: the template with each
    field replaced by its string or its JSON. *)
Theorem C44_plain : forall dumps_scalar block_types l, Forall (plain block_types) l ->
  let text := String.concat "" (map (segment_text dumps_scalar) l) in
  call_user dumps_scalar block_types l = Some [BText text] \/
  (call_user dumps_scalar block_types l = Some [] /\ text = "").
Proof. exact user_plain. Qed.
Print Assumptions C44_plain.

(** A conversion is applied to each text of a field apart, not to the field: around a block, to
    what is before it and what is after it. *)
Definition quote (s : string) : option string := Some ("'" ++ s ++ "'")%string.
Definition image : json := JObj [("type", JStr "image_url"); ("image_url", JStr "u")].
Definition digits (v : json) : string := match v with JInt 1 => "1" | JInt 2 => "2" | _ => "?" end%string.
Theorem C44_conversion_refuted : exists f v out,
  encoded f = Some v /\ convert f = quote /\ (forall s, format f s = Some s) /\
  call_user digits ["text"; "image_url"] [("", Some f)] = Some out /\
  to_content_blocks digits ["text"; "image_url"] v = Some [BText "[1, "; BVal image; BText ", 2]"] /\
  out = [BText "'[1, '"; BVal image; BText "', 2]'"].
Proof.
  exists {| encoded := Some (JArr [JInt 1; image; JInt 2]); convert := quote; format := fun s => Some s |}.
  eexists. eexists. repeat split.
Qed.
Print Assumptions C44_conversion_refuted.

Example C44_example :
  let f v := {| encoded := Some v; convert := fun s => Some s; format := fun s => Some s |} in
  call_user digits ["text"; "image_url"]
    [("look: ", Some (f (JArr [JInt 1; image]))); (" and ", Some (f (JStr "b"))); (".", None)] =
  Some [BText "look: [1, "; BVal image; BText "] and b."] /\
  plain ["text"; "image_url"] ("x", Some (f (JArr [JInt 1; JInt 2]))).
Proof.
  split; [reflexivity|]. split; [reflexivity|]. split; [reflexivity|]. eexists. split; [reflexivity|].
  split; [reflexivity|]. intros x R. inversion R as [|l v y I R'|]; subst; [intros []|].
  destruct I as [<-|[<-|[]]]; inversion R'; subst; intros [].
Qed.
