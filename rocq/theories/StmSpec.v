(** The operations a collection holds, at any depth *)
From Coq Require Import List.
From Verif Require Import TermModel.
Import ListNotations.
Local Open Scope list_scope.

Inductive holds (v : op) : expr -> Prop :=
| ho_op : holds v (EOp v)
| ho_coll : forall c l e, In c [KTuple; KList; KDict; KSet] -> In e l -> holds v e -> holds v (EColl c l).
