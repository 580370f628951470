(** Model of [defstream] (effectful/ops/syntax.py 744-750), the operation for for-expressions: its signature is
    [defstream(body: Scoped[A | B], streams: Mapping[Operation, Iterable] Scoped[B]) -> Scoped[A]], with A = 0 and B = 1. The
    parameter [streams] is not itself an operation, so the operations it binds are looked for inside it (syntax.py 362-377). It has
    no rule of its own ([raise NotHandled]). *)
From Coq Require Import String List.
From Verif Require Import TermModel.
Import ListNotations.
Local Open Scope list_scope.

Definition stream_sig : sig :=
  mksig [] [mkparam "body" false [0; 1] None; mkparam "streams" false [1] None] None [] None [0].
(** [{v: e, ...}] *)
Definition streams_of (bs : list (op * expr)) : expr :=
  EColl KDict (map (fun b => EColl KTuple [EOp (fst b); snd b]) bs).
