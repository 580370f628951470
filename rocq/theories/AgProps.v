(** C83: an agent's template methods continue the conversation of that agent and no other, under the system prompt of module and
    class, with the agent as [self]. *)
From Coq Require Import List Bool Arith.
Import ListNotations.
From Verif Require Import AgModel AgSpec AgProofs.

(** What is sent and raised is what persons with a memory would, if agents are not copied and their histories not assigned. *)
Theorem C83_requests_partial : forall w l, uniform w -> Forall simple l -> log (program w l) = plog (lives w l).
Proof. exact (fun w l U Sm => proj1 (conversations_l w U l Sm)). Qed.
Print Assumptions C83_requests_partial.

(** The history of an agent is its conversation. *)
Theorem C83_histories_partial : forall w l, uniform w -> Forall simple l -> forall i,
  match hist (program w l) i with
  | Some h => hs (program w l) h = [] /\ conv (lives w l) i = [] \/ exists y, hs (program w l) h = Sys y :: said (conv (lives w l) i)
  | None => conv (lives w l) i = []
  end.
Proof. exact (fun w l U Sm => proj2 (conversations_l w U l Sm)). Qed.
Print Assumptions C83_histories_partial.

(** A world with agents (class 0), plain objects (1), agents with a term as a field (2); module 7 for all templates but number 9 *)
Definition w0 : world := {| agent := fun c => negb (c =? 1); plain := fun c => negb (c =? 2); class_doc := fun c => Some c; has := fun _ t => t <? 5; module_doc := fun t => if t =? 9 then None else Some 7 |}.
Example C83_example :
  let l := [New 0; New 0; New 1; Call 0 1 11 [] (Some 21); Call 1 1 12 [Call 0 1 50 [] (Some 60)] (Some 22); GetClass 2; Call 0 2 13 [] None; Call 2 1 14 [] (Some 24); Call 0 2 15 [Clear 0] (Some 25)] in
  uniform w0 /\ Forall simple l /\
  log (program w0 l) =
    [Sent 0 1 (Some 0) [Sys [7; 0]; Usr 11]; Sent 1 1 (Some 1) [Sys [7; 0]; Usr 12]; Sent 0 1 (Some 0) [Sys [7; 0]; Usr 11; Asst 21; Usr 50];
     Sent 0 2 (Some 0) [Sys [7; 0]; Usr 11; Asst 21; Usr 13]; Sent 2 1 (Some 2) [Sys [7]; Usr 14]; Sent 0 2 (Some 0) [Sys [7; 0]; Usr 11; Asst 21; Usr 15]] /\
  conv (lives w0 l) 0 = [(11, 21); (15, 25)] /\ conv (lives w0 l) 1 = [(12, 22)].
Proof.
  cbv zeta. split; [|split; [repeat constructor|split; [|split]; vm_compute; reflexivity]].
  intros c t t' _ H H'. cbn in *. destruct t as [|[|[|[|[|t]]]]], t' as [|[|[|[|[|t']]]]]; try reflexivity; discriminate.
Qed.

(** A copy of an agent whose template was used goes on in the conversation of the original, and with the original as [self]; with its other
    templates it goes on in that conversation as itself. *)
Theorem C83_copy_refuted : exists w l i j t t', uniform w /\ i <> j /\
  log (program w l) = [Sent i t (Some i) [Sys [7; 0]; Usr 11]; Sent j t (Some i) [Sys [7; 0]; Usr 11; Asst 21; Usr 12]; Sent i t (Some i) [Sys [7; 0]; Usr 11; Asst 21; Usr 12; Asst 22; Usr 13]; Sent j t' (Some j) [Sys [7; 0]; Usr 11; Asst 21; Usr 12; Asst 22; Usr 13; Asst 23; Usr 14]].
Proof.
  exists w0, [New 0; Call 0 1 11 [] (Some 21); Copy 0; Call 1 1 12 [] (Some 22); Call 0 1 13 [] (Some 23); Call 1 2 14 [] (Some 24)], 0, 1, 1, 2.
  split; [exact (proj1 C83_example)|split; [discriminate|vm_compute; reflexivity]].
Qed.
Print Assumptions C83_copy_refuted.

(** A dictionary assigned to [__history__] is not used by the templates already looked up, only by the others. *)
Theorem C83_assign_refuted : exists w l i t t', uniform w /\ t <> t' /\
  log (program w l) = [Sent i t (Some i) [Sys [7; 0]; Usr 11]; Sent i t (Some i) [Sys [7; 0]; Usr 11; Asst 21; Usr 12]; Sent i t' (Some i) [Sys [7; 0]; Usr 13]] .
Proof.
  exists w0, [New 0; Call 0 1 11 [] (Some 21); Assign 0; Call 0 1 12 [] (Some 22); Call 0 2 13 [] (Some 23)], 0, 1, 2.
  split; [exact (proj1 C83_example)|split; [discriminate|vm_compute; reflexivity]].
Qed.
Print Assumptions C83_assign_refuted.

(** The system prompt is that of the first template called: a template inherited from another module is never sent with its own. *)
Theorem C83_modules_refuted : exists w l i t t', prompt w t 0 <> prompt w t' 0 /\ Forall simple l /\
  log (program w l) = [Sent i t (Some i) [Sys (prompt w t 0); Usr 11]; Sent i t' (Some i) [Sys (prompt w t 0); Usr 11; Asst 21; Usr 12]].
Proof.
  exists {| agent := fun _ => true; plain := fun _ => true; class_doc := fun c => Some 0; has := fun _ _ => true; module_doc := fun t => Some t |},
    [New 0; Call 0 1 11 [] (Some 21); Call 0 2 12 [] (Some 22)], 0, 1, 2.
  split; [discriminate|split; [repeat constructor|vm_compute; reflexivity]].
Qed.
Print Assumptions C83_modules_refuted.

(** What an agent is asked by a tool of another call, be it another agent's or its own, it forgets. *)
Theorem C83_forgets_refuted : exists w l i j t, uniform w /\ i <> j /\ Forall simple l /\
  log (program w l) = [Sent i t (Some i) [Sys [7; 0]; Usr 11]; Sent j t (Some j) [Sys [7; 0]; Usr 12]; Sent j t (Some j) [Sys [7; 0]; Usr 13]; Sent j t (Some j) [Sys [7; 0]; Usr 14]].
Proof.
  exists w0, [New 0; New 0; Call 0 1 11 [Call 1 1 12 [] (Some 22); Call 1 1 13 [] (Some 23)] (Some 21); Call 1 1 14 [] (Some 24)], 0, 1, 1.
  split; [exact (proj1 C83_example)|split; [discriminate|split; [repeat constructor|vm_compute; reflexivity]]].
Qed.
Print Assumptions C83_forgets_refuted.

(** Every look-up on the class changes the context of the class's template: a [self] that is [None], each time one more. *)
Theorem C83_class_access_refuted : exists w t, above (program w [New 0; GetClass t; GetClass t]) t = [None; None] /\ above (program w [New 0]) t = [].
Proof. exists w0, 1. split; reflexivity. Qed.
Print Assumptions C83_class_access_refuted.

(** An agent with free variables, as a dataclass with a term as a field, cannot be asked. *)
Theorem C83_term_refuted : exists w l i t, has w 2 t = true /\ agent w 2 = true /\ log (program w l) = [Raised i t].
Proof. exists w0, [New 2; Call 0 1 11 [] (Some 21)], 0, 1. repeat split. Qed.
Print Assumptions C83_term_refuted.
