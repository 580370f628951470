(** What index sets and selection mean. *)
From Coq Require Import String List Bool Arith ZArith.
From Verif Require Import IdxModel.
Import ListNotations.

(** Name [k] has an entry; [i] is one of its indices. *)
Definition has (a : indexset) (k : string) : Prop := exists s, get a k = Some s.
Definition elem (a : indexset) (k : string) (i : Z) : Prop := exists s, get a k = Some s /\ In i s.

(** Python's [==] on dictionaries of sets. *)
Definition same (a b : indexset) : Prop :=
  (forall k, has a k <-> has b k) /\ (forall k i, elem a k i <-> elem b k i).

(** Built by the constructor. *)
Definition made (a : indexset) : Prop := exists mapping, NoDup (keys mapping) /\ make mapping = Ok a.

(** Some iteration order of a set of names. *)
Definition iterates (order : list string -> list string) : Prop :=
  forall l, NoDup (order l) /\ (forall k, In k (order l) <-> In k l).

(** The indices that [cond_n] looks at. *)
Definition first_indices (a : indexset) (i : Z) : Prop := exists k s r, a = (k, s) :: r /\ In i s.
