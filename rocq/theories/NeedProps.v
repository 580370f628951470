(** Property C29: [CallByNeed] computes once, on demand. *)
From Coq Require Import List ZArith Lia.
From Verif Require Import NeedModel NeedSpec NeedProofs.
Import ListNotations.

(** For any program calling the cell and any function that does not call it: failed runs
    are answered by their exception and tried again at the next call; at most one run
    succeeds; from then on every call answers its value without running the function; without
    a call there is no run. *)
Theorem C29_once_partial : forall W (func : prog W) n p w r s, no_req func -> exec func n p (start w) = Some (r, s) ->
  once_log (cell s) (log s) /\ count is_ok_run (log s) <= 1 /\ (count is_request (log s) = 0 -> count is_run (log s) = 0) /\
  (forall v v', In (EAns (Ok v)) (log s) -> In (EAns (Ok v')) (log s) -> v = v').
Proof. exact at_most_once. Qed.
Print Assumptions C29_once_partial.

(** A function failing twice before it succeeds, called four times. *)
Definition flaky : prog nat := Act (fun w => (if Nat.ltb w 2 then Exn w else Ok 7%Z, S w)) (fun r => match r with Ok v => Ret v | Exn e => Raise e end).
Example C29_example : no_req flaky /\
  exists s, exec flaky 9 (Req (fun _ => Req (fun _ => Req (fun _ => Req (fun _ => Ret 0%Z))))) (start 0) = Some (Ok 0%Z, s) /\
    log s = [ERun (Exn 0); EAns (Exn 0); ERun (Exn 1); EAns (Exn 1); ERun (Ok 7%Z); EAns (Ok 7%Z); EAns (Ok 7%Z)].
Proof. split; [constructor; intros [v|e]; constructor|]. eexists. split; vm_compute; reflexivity. Qed.

(** Missing above: a function that calls its own cell. It may succeed twice, with different
    values, both of which are answered. *)
Theorem C29_reentrant_refuted : exists (func : prog nat) n p w r s, exec func n p (start w) = Some (r, s) /\
  count is_ok_run (log s) = 2 /\ exists v v', v <> v' /\ In (EAns (Ok v)) (log s) /\ In (EAns (Ok v')) (log s).
Proof.
  exists (Act (fun w => (Ok (Z.of_nat w), S w)) (fun r => match r with Ok 0%Z => Req (fun _ => Ret 5%Z) | _ => Ret 6%Z end)), 9, (Req (fun _ => Ret 0%Z)), 0.
  eexists _, _. split; [vm_compute; reflexivity|]. split; [reflexivity|]. exists 5%Z, 6%Z. split; [discriminate|]. split; cbn; tauto.
Qed.
Print Assumptions C29_reentrant_refuted.
