(** What gathering means: positions of the new value are looked up in the old one. *)
From Coq Require Import String List Bool Arith ZArith.
From Verif Require Import ArrModel ArrSpec NopModel NopSpec GatModel.
Import ListNotations.

(** The indices an index set gives to a dimension *)
Definition picks (sym : string -> nat) (s : IdxModel.indexset) (n : nat) (l : list Z) : Prop := exists name, In (name, l) s /\ sym name = n.
(** Index [z] of an axis of size [d] is position [i]; negative ones count from the end *)
Definition index_is (d : nat) (z : Z) (i : nat) : Prop := i < d /\ (Z.of_nat i = z \/ Z.of_nat i = (z + Z.of_nat d)%Z).
(** Position [i] of dimension [n] of the new value is position [j] of the old one *)
Definition moves (sym : string -> nat) (s : IdxModel.indexset) (n d i j : nat) : Prop :=
  (forall l, picks sym s n l -> exists z, nth_error l i = Some z /\ index_is d z j) /\ ((forall l, ~ picks sym s n l) -> j = i).
(** Names are given once, and distinct names are distinct dimensions *)
Definition proper (sym : string -> nat) (s : IdxModel.indexset) : Prop := NoDup (map (fun p => sym (fst p)) s).
(** The value of an array with named dimensions at a position *)
Definition at_pos {V} (env : nat -> nat) (v : val V) : option (arr V) :=
  match v with VArr _ a => Some a | VGet _ a dims => index_arr env a dims | _ => None end.
(** Values as indexing, operations, [gather] and [stack] make them *)
Definition normal {V} (v : val V) : Prop :=
  match v with VArr _ _ => True | VGet _ a dims => built a dims /\ Forall (fun k => k = KAll \/ exists n, k = KName n) dims | _ => False end.
