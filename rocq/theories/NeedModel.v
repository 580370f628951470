(** Model of [CallByNeed] (effectful/internals/product_n.py:17-34). *)
From Coq Require Import List ZArith.
Import ListNotations.

Inductive outcome := Ok (v : Z) | Exn (e : nat).

Section Need.
(** Everything user code can read and write. *)
Variable W : Type.

(** User code: [Act] is any step not involving the cell, [Req] calls the cell; both go on
    with the outcome, so exceptions may be caught. *)
Inductive prog :=
| Ret (v : Z)
| Raise (e : nat)
| Act (f : W -> outcome * W) (k : outcome -> prog)
| Req (k : outcome -> prog).

(** Log of the ends of runs of [self.func] and of the answers of [__call__]. *)
Inductive event := ERun (r : outcome) | EAns (r : outcome).

(** [cell] is [self.value] if [self.initialized]. *)
Record st := mkst { cell : option Z; log : list event; world : W }.

Definition note (e : event) (s : st) : st := mkst (cell s) (log s ++ [e]) (world s).
Definition store (v : Z) (s : st) : st := mkst (Some v) (log s) (world s).

(** [self.func( *self.args, **self.kwargs )] *)
Variable func : prog.

(** [None]: out of fuel. [Req] is [CallByNeed.__call__] (product_n.py:30-34). *)
Fixpoint exec (n : nat) (p : prog) (s : st) : option (outcome * st) :=
  match n with
  | 0 => None
  | S n =>
    match p with
    | Ret v => Some (Ok v, s)
    | Raise e => Some (Exn e, s)
    | Act f k => let '(r, w) := f (world s) in exec n (k r) (mkst (cell s) (log s) w)
    | Req k =>
        match cell s with
        | Some v => exec n (k (Ok v)) (note (EAns (Ok v)) s)
        | None =>
            match exec n func s with
            | Some (Ok v, s') => exec n (k (Ok v)) (note (EAns (Ok v)) (store v (note (ERun (Ok v)) s')))
            | Some (Exn e, s') => exec n (k (Exn e)) (note (EAns (Exn e)) (note (ERun (Exn e)) s'))
            | None => None
            end
        end
    end
  end.

Definition start (w : W) : st := mkst None [] w.
End Need.
Arguments Ret {W}. Arguments Raise {W}. Arguments Act {W}. Arguments Req {W}.
Arguments mkst {W}. Arguments cell {W}. Arguments log {W}. Arguments world {W}. Arguments start {W}. Arguments exec {W}.
