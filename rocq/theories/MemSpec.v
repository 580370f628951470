(** When calls are the same call, and what a session with a cache should give. *)
From Coq Require Import ZArith String List Bool.
From Verif Require Import MemModel.
Import ListNotations.

(** [==] of values *)
Inductive same_value : value -> value -> Prop :=
| same_number : forall a b z, halves_of a = Some z -> halves_of b = Some z -> same_value a b
| same_string : forall s, same_value (VStr s) (VStr s)
| same_none : same_value VNone VNone
| same_tuple : forall l m, Forall2 same_value l m -> same_value (VTuple l) (VTuple m)
| same_list : forall l m, Forall2 same_value l m -> same_value (VList l) (VList m)
| same_object : forall i, same_value (VObj i) (VObj i).

(** a lone argument that is an integer or a string, and not of another type *)
Definition lone (args : list value) (kwds : list (string * value)) : Prop :=
  exists v, args = [v] /\ kwds = [] /\ (match v with VInt _ | VStr _ => True | _ => False end).

(** the same call: equal positional arguments, and equal keyword arguments under the same
    names in the same order; a lone integer is not a lone True or 1.0 *)
Definition same_call (args1 : list value) (kwds1 : list (string * value))
  (args2 : list value) (kwds2 : list (string * value)) : Prop :=
  Forall2 same_value args1 args2 /\
  Forall2 (fun p q => fst p = fst q /\ same_value (snd p) (snd q)) kwds1 kwds2 /\
  (lone args1 kwds1 <-> lone args2 kwds2).

Definition same_event (e e' : event) : Prop := same_call (eargs e) (ekwds e) (eargs e') (ekwds e').

(** the calls in a tree, itself included *)
Inductive within : call -> call -> Prop :=
| within_self : forall t, within t t
| within_inner : forall t t' args kwds inner a, In t' inner -> within t t' -> within t (Call args kwds inner a).

Definition args_of (t : call) := let (a, _, _, _) := t in a.
Definition kwds_of (t : call) := let (_, k, _, _) := t in k.
Definition inner_of (t : call) := let (_, _, i, _) := t in i.
Definition ending_of (t : call) := let (_, _, _, e) := t in e.

(** no call is made again while it runs *)
Definition not_reentrant (t : call) : Prop :=
  forall u t' w, within u t -> In t' (inner_of u) -> within w t' ->
  ~ same_call (args_of u) (kwds_of u) (args_of w) (kwds_of w).

(** a list is the value or within it *)
Inductive has_list : value -> Prop :=
| has_here : forall l, has_list (VList l)
| has_member : forall v l, In v l -> has_list v -> has_list (VTuple l).
