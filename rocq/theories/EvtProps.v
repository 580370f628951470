(** [to_event] of distributions with named dimensions. *)
From Coq Require Import List Bool Arith Lia Permutation.
From Verif Require Import ArrModel ArrSpec DistModel DistSpec DistExamples UnbModel UnbSpec UnbProps EvtModel EvtSpec EvtProofs EvtUnbind.
Import ListNotations.

(** ** C75 *)

(** Sums of arrays of numbers, used in the examples *)
Fixpoint sum_all (sh : list nat) (f : list nat -> nat) : nat :=
  match sh with [] => f [] | n :: sh => list_sum (map (fun i => sum_all sh (fun j => f (i :: j))) (seq 0 n)) end.
Lemma sum_all_sums : sums nat sum_all.
Proof.
  intros sh. induction sh as [|n sh IH]; intros f g H; cbn [sum_all]; [apply H; constructor|]. f_equal. apply map_ext_in. intros i Hi. apply in_seq in Hi.
  apply IH. intros j Wj. apply H. constructor; [lia|assumption].
Qed.
(** [Normal(x[i()], y[j()])] with batch shape (4, 2), the last axis made part of the event, and both *)
Definition stacked (n : option nat) : dterm nat := TEvent nat (TDist nat normal [AArr nat (along_i [4; 2]); AArr nat (along_j [4; 1])]) n.
Lemma stacked_good k : good nat 2 [(1, 3); (2, 2)] (stacked (Some k)).
Proof.
  split; [|discriminate]. split; [apply normal_lawful|]. split; [split; [repeat constructor|right; left; exact Logic.I]|].
  intros a [H|[H|[]]]; injection H as <-; [apply along_i_proper|apply along_j_proper].
Qed.

(** The shapes are those of NumPyro's distribution at the positions of the names: the last [n] batch axes, none of which
    is a name, move to the event. Missing: [to_event()] without a number, and more axes than there are. *)
Theorem C75_shapes_partial : forall V order, (forall l, Permutation (order l) l) -> forall total, sums V total ->
  forall b m d, good V b m d -> tindices V d = Ok m -> forall env q, plain V total env d = Some q ->
  tbatch V order total d = Ok (pbatch V q) /\ tevent V order total d = Ok (pevent V q).
Proof. exact shapes_law. Qed.
Print Assumptions C75_shapes_partial.

Example C75_shapes_example : sums nat sum_all /\ good nat 2 [(1, 3); (2, 2)] (stacked (Some 1)) /\ tindices nat (stacked (Some 1)) = Ok [(1, 3); (2, 2)] /\
  (exists q, plain nat sum_all (fun _ => 0) (stacked (Some 1)) = Some q /\ pbatch nat q = [4] /\ pevent nat q = [2]) /\
  tbatch nat rev_order sum_all (stacked (Some 1)) = Ok [4] /\ tevent nat rev_order sum_all (stacked (Some 1)) = Ok [2].
Proof.
  split; [exact sum_all_sums|]. split; [apply stacked_good|]. split; [reflexivity|]. split; [eexists; repeat split; reflexivity|]. split; reflexivity.
Qed.

(** [log_prob]: at all positions of the names, the log density there of the value there, summed over the axes of the
    event alone. *)
Theorem C75_log_prob_partial : forall V order, (forall l, Permutation (order l) l) -> forall total, sums V total ->
  forall b m d value, good V b m d -> tindices V d = Ok m -> proper V value -> compatible m (nsizes V value) ->
  forall env0 q0, plain V total env0 d = Some q0 -> length (pbatch V q0) + length (pevent V q0) <= length (nshape V value) ->
  plog V q0 (at_env V env0 value) <> None ->
  exists r, tlog_prob V order total d value = Ok r /\
    pointwise V (m ++ nsizes V value) r (fun env => match plain V total env d with Some q => plog V q (at_env V env value) | None => None end).
Proof. exact log_prob_event. Qed.
Print Assumptions C75_log_prob_partial.

Example C75_log_prob_example : let value := along_ij [5; 4; 2] in
  proper nat value /\ compatible [(1, 3); (2, 2)] (nsizes nat value) /\
  (exists q, plain nat sum_all (fun _ => 0) (stacked (Some 1)) = Some q /\ length (pbatch nat q) + length (pevent nat q) <= length (nshape nat value) /\
     plog nat q (at_env nat (fun _ => 0) value) <> None) /\
  exists r, tlog_prob nat rev_order sum_all (stacked (Some 1)) value = Ok r /\ nshape nat r = [5; 4] /\
    nelt nat r (fun n => if Nat.eqb n 1 then 2 else 1) [4; 3] = (100 * 23 + 10 * 8 + 32) + (100 * 24 + 10 * 8 + 33).
Proof.
  cbn zeta. split; [apply along_ij_proper|]. split; [intros n d d' [H|[H|[]]] [K|[K|[]]]; congruence|].
  split; [eexists; split; [reflexivity|]; split; [cbn; lia|discriminate]|].
  destruct (found (tlog_prob nat rev_order sum_all (stacked (Some 1)) (along_ij [5; 4; 2]))
    (fun r => list_eqb (nshape nat r) [5; 4] && (nelt nat r (fun n => if Nat.eqb n 1 then 2 else 1) [4; 3] =? (100 * 23 + 10 * 8 + 32) + (100 * 24 + 10 * 8 + 33)))) as [r [E H]];
    [vm_compute; reflexivity|].
  apply andb_prop in H. destruct H as [H1 H2]. exists r. split; [exact E|]. split; [now apply eqb_list|now apply Nat.eqb_eq].
Qed.

(** [mean] *)
Theorem C75_mean_partial : forall V order, (forall l, Permutation (order l) l) -> forall total, sums V total ->
  forall b m d, good V b m d -> tindices V d = Ok m -> forall env0, plain V total env0 d <> None ->
  exists r, tmean V order total d = Ok r /\ pointwise V m r (fun env => option_map (pmean V) (plain V total env d)).
Proof. exact mean_event. Qed.
Print Assumptions C75_mean_partial.

Example C75_mean_example : plain nat sum_all (fun _ => 0) (stacked (Some 2)) <> None /\
  exists r, tmean nat rev_order sum_all (stacked (Some 2)) = Ok r /\ nshape nat r = [4; 2] /\ nelt nat r (fun n => if Nat.eqb n 1 then 2 else 1) [3; 1] = 24.
Proof.
  split; [discriminate|]. destruct (found (tmean nat rev_order sum_all (stacked (Some 2)))
    (fun r => list_eqb (nshape nat r) [4; 2] && (nelt nat r (fun n => if Nat.eqb n 1 then 2 else 1) [3; 1] =? 24))) as [r [E H]]; [vm_compute; reflexivity|].
  apply andb_prop in H. destruct H as [H1 H2]. exists r. split; [exact E|]. split; [now apply eqb_list|now apply Nat.eqb_eq].
Qed.

(** [unbind_dims] names leading batch axes: at each position of the names, the new distribution is the given one at that
    position, as long as there are that many batch axes left. Missing: as in C72; more names than batch axes. *)
Theorem C75_unbind_partial : forall V total, sums V total -> forall b d names d' env p, nameable V (length names) b d -> tunbind V d names = Ok d' ->
  plain V total env d = Some p -> length names <= length (pbatch V p) -> within (firstn (length names) (pbatch V p)) (map env names) ->
  exists q, plain V total env d' = Some q /\ cut_of V (map env names) p q.
Proof. exact unbind_event_law. Qed.
Print Assumptions C75_unbind_partial.

Example C75_unbind_example : let d := TEvent nat (TDist nat normal [AArr nat (grid [2; 3; 4]); AArr nat (grid [2; 1; 4])]) (Some 1) in
  nameable nat 1 2 d /\ (exists p, plain nat sum_all (fun _ => 1) d = Some p /\ pbatch nat p = [2; 3] /\ pevent nat p = [4]) /\
  exists d', tunbind nat d [7] = Ok d' /\ tindices nat d' = Ok [(7, 2)] /\ tbatch nat rev_order sum_all d' = Ok [3] /\ tevent nat rev_order sum_all d' = Ok [4].
Proof.
  cbn zeta. split; [split; [apply normal_lawful|]; split; [|left; cbn; discriminate]; constructor; [split; [now left|reflexivity]|]; constructor; [split; [now left|reflexivity]|]; constructor|].
  split; [eexists; repeat split; reflexivity|]. eexists. split; [cbn; reflexivity|]. split; [vm_compute; reflexivity|]. split; vm_compute; reflexivity.
Qed.

(** [bind_dims] puts names back in front of the batch axes. Missing: [to_event()] without a number. *)
Theorem C75_bind_partial : forall V order, (forall l, Permutation (order l) l) -> forall total, sums V total ->
  forall b m d names d' env q, good V b m d -> numbered V d -> arrays V d -> tindices V d = Ok m -> NoDup names -> tbind V order d names = Ok d' ->
  valid env m -> plain V total env d = Some q -> exists p, plain V total env d' = Some p /\ cut_of V (map env names) p q.
Proof. exact bind_event_law. Qed.
Print Assumptions C75_bind_partial.

Example C75_bind_example : numbered nat (stacked (Some 1)) /\ arrays nat (stacked (Some 1)) /\ valid (fun _ => 1) [(1, 3); (2, 2)] /\
  exists d', tbind nat rev_order (stacked (Some 1)) [2] = Ok d' /\ tindices nat d' = Ok [(1, 3)] /\ tbatch nat rev_order sum_all d' = Ok [2; 4] /\
    tevent nat rev_order sum_all d' = Ok [2].
Proof.
  split; [split; [discriminate|exact Logic.I]|]. split; [left; exact Logic.I|]. split; [intros n d [H|[H|[]]]; injection H as <- <-; lia|].
  destruct (found (tbind nat rev_order (stacked (Some 1)) [2]) (fun d' => match tindices nat d', tbatch nat rev_order sum_all d', tevent nat rev_order sum_all d' with
    | Ok [(1, 3)], Ok [2; 4], Ok [2] => true | _, _, _ => false end)) as [d' [E H]]; [vm_compute; reflexivity|].
  exists d'. split; [exact E|]. destruct (tindices nat d') as [[|[[|[|]] [|[|[|[|]]]]] [|]]| | | | |]; try discriminate.
  destruct (tbatch nat rev_order sum_all d') as [[|[|[|[|]]] [|[|[|[|[|[|]]]]] [|]]]| | | | |]; try discriminate.
  destruct (tevent nat rev_order sum_all d') as [[|[|[|[|]]] [|]]| | | | |]; try discriminate. auto.
Qed.

(** More names than batch axes left are accepted: [unbind_dims] then names axes of the event. NumPyro has no distribution
    at the positions of the name, and the event has the shape it had. *)
Theorem C75_unbind_refuted : exists d d' p, plain nat sum_all (fun _ => 0) d = Some p /\ pbatch nat p = [] /\ pevent nat p = [3] /\ tunbind nat d [7] = Ok d' /\
  tindices nat d' = Ok [(7, 3)] /\ plain nat sum_all (fun _ => 0) d' = None /\ tevent nat rev_order sum_all d' = Ok [3].
Proof.
  exists (TEvent nat (TDist nat normal [AArr nat (grid [3]); AArr nat (grid [3])]) (Some 1)). do 2 eexists. repeat split; reflexivity.
Qed.
Print Assumptions C75_unbind_refuted.

(** [bind_dims] of [to_event()] without a number puts the name into the event. *)
Theorem C75_bind_none_refuted : exists d d' q, tindices nat d = Ok [(1, 3)] /\ plain nat sum_all (fun _ => 0) d = Some q /\ pbatch nat q = [] /\ pevent nat q = [2] /\
  tbind nat rev_order d [1] = Ok d' /\ tbatch nat rev_order sum_all d' = Ok [] /\ tevent nat rev_order sum_all d' = Ok [3; 2].
Proof.
  exists (TEvent nat (TDist nat normal [AArr nat (along_i [2]); AArr nat (along_i [2])]) None). do 2 eexists. repeat split; vm_compute; reflexivity.
Qed.
Print Assumptions C75_bind_none_refuted.

(** [to_event()] without a number takes the names too: the event has an axis per name, and the density, which should
    have the names, is summed over them; then [log_prob] raises for the missing axes. *)
Theorem C75_none_refuted : exists d value q, tindices nat d = Ok [(1, 3)] /\ plain nat sum_all (fun _ => 0) d = Some q /\ pevent nat q = [2] /\
  tevent nat rev_order sum_all d = Ok [3; 2] /\ plog nat q (at_env nat (fun _ => 0) value) <> None /\
  forall r, tlog_prob nat rev_order sum_all d value <> Ok r.
Proof.
  exists (TEvent nat (TDist nat normal [AArr nat (along_i [2]); AArr nat (along_i [2])]) None), (along_i [2]). eexists.
  split; [reflexivity|]. split; [reflexivity|]. split; [reflexivity|]. split; [reflexivity|]. split; [discriminate|]. intros r H. vm_compute in H. discriminate.
Qed.
Print Assumptions C75_none_refuted.

(** More axes than the batch has are an error of NumPyro at all positions of the names, but accepted: the names are used up. *)
Theorem C75_too_many_refuted : exists d, tindices nat d = Ok [(1, 3)] /\ (forall env, plain nat sum_all env d = None) /\ tevent nat rev_order sum_all d = Ok [3; 2].
Proof. exists (TEvent nat (TDist nat normal [AArr nat (along_i [2]); AArr nat (along_i [2])]) (Some 2)). repeat split; reflexivity. Qed.
Print Assumptions C75_too_many_refuted.

(** [expand] does nothing, where NumPyro gives a distribution of the batch shape asked for. *)
Theorem C75_expand_refuted : exists d d', tbatch nat rev_order sum_all d = Ok [1] /\ texpand nat rev_order sum_all d [4] = Ok d' /\ tbatch nat rev_order sum_all d' = Ok [1].
Proof.
  exists (TEvent nat (TDist nat normal [AArr nat (along_i [1; 2]); AArr nat (along_i [1; 2])]) (Some 1)). eexists. repeat split; reflexivity.
Qed.
Print Assumptions C75_expand_refuted.
