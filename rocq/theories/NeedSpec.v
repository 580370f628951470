(** What computing once on demand means. *)
From Coq Require Import List ZArith.
From Verif Require Import NeedModel.
Import ListNotations.

(** The logs allowed: failed runs, each answered by its exception; then, if ever a run
    succeeds, that run, and all answers from then on are its value. *)
Inductive failures : list event -> Prop :=
| failures_nil : failures []
| failures_more l e : failures l -> failures (l ++ [ERun (Exn e); EAns (Exn e)]).
Inductive once_log : option Z -> list event -> Prop :=
| once_none l : failures l -> once_log None l
| once_first l v : failures l -> once_log (Some v) (l ++ [ERun (Ok v); EAns (Ok v)])
| once_more l v : once_log (Some v) l -> once_log (Some v) (l ++ [EAns (Ok v)]).

Definition is_run (e : event) : bool := match e with ERun _ => true | _ => false end.
Definition is_ok_run (e : event) : bool := match e with ERun (Ok _) => true | _ => false end.
Definition is_request (e : event) : bool := match e with EAns _ => true | _ => false end.
Definition count (f : event -> bool) (l : list event) : nat := length (filter f l).

(** Code that never calls the cell. *)
Inductive no_req {W} : prog W -> Prop :=
| no_ret v : no_req (Ret v)
| no_raise e : no_req (Raise e)
| no_act f k : (forall r, no_req (k r)) -> no_req (Act f k).
