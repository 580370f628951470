(** Where imports may stand *)
From Coq Require Import List Bool Arith.
From Verif Require Import SnpModel.
Import ListNotations.

(** The imports of a statement: [inside blocks scopes future star s], one inside so many blocks and functions or classes *)
Inductive import_at : nat -> nat -> bool -> bool -> stmt -> Prop :=
| at_here : forall f s, import_at 0 0 f s (SFrom f s)
| at_block : forall b k f s x body, In x body -> import_at b k f s x -> import_at (S b) k f s (SBlock body)
| at_scope : forall b k f s x body, In x body -> import_at b k f s x -> import_at b (S k) f s (SScope body).
Definition imports (body : list stmt) (b k : nat) (f s : bool) : Prop := exists x, In x body /\ import_at b k f s x.

(** Allowed in the body of a function: neither future nor star imports, at any depth *)
Definition nestable (body : list stmt) : Prop := forall b k f s, imports body b k f s -> f = false /\ s = false.

(** States met: every snippet in the cache has a name handed out *)
Definition fair (st : state) : Prop := forall n e, In (Snippet n, e) (cache st) -> n < next st /\ fst e = false.
