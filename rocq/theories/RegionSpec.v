(** What the check of a region should report, and which lines belong to which code. *)
From Coq Require Import String List Bool Arith ZArith.
From Verif Require Import JsonModel RegionModel.
Import ListNotations.

(** [l'] keeps exactly the elements of [l] with [P], in order. *)
Inductive selects {A} (P : A -> Prop) : list A -> list A -> Prop :=
| sel_nil : selects P [] []
| sel_keep : forall x l l', P x -> selects P l l' -> selects P (x :: l) (x :: l')
| sel_drop : forall x l l', ~ P x -> selects P l l' -> selects P (x :: l) l'.

(** The diagnostics printed, a line each; empty lines carry none. *)
Inductive printed (loads : string -> option json) (blank : string -> bool) : list string -> list json -> Prop :=
| pr_nil : printed loads blank [] []
| pr_blank : forall s l ds, blank s = true -> printed loads blank l ds -> printed loads blank (s :: l) ds
| pr_diag : forall s l d ds, blank s = false -> loads s = Some d -> printed loads blank l ds -> printed loads blank (s :: l) (d :: ds).

Definition field (d : json) (k : string) (v : json) : Prop := exists l, d = JObj l /\ jget l k = Some v.
(** An error within the bounds that are given *)
Definition region_error (lo hi : option Z) (d : json) : Prop :=
  field d "severity" (JStr "error") /\
  (lo = None /\ hi = None \/
   exists z, field d "line" (JInt z) /\ (forall a, lo = Some a -> (a <= z)%Z) /\ (forall b, hi = Some b -> (z <= b)%Z)).

(** A line of code belongs to a node: it is its own, or one of its decorators. *)
Definition belongs (ln : line) (q : path) : Prop := ln = Own q \/ ln = Deco q.
(** The node at [q] lies in the statements from position [k] of the body of the definition at [p]. *)
Definition in_body (p : path) (k : nat) (q : path) : Prop := exists i r, q = (p ++ i :: r)%list /\ k <= i.
