From Coq Require Import List ZArith Lia.
From Verif Require Import NeedModel NeedSpec.
Import ListNotations.

Section Proofs.
Variables (W : Type) (func : prog W).

Lemma no_req_quiet n : forall p s r s', no_req p -> exec func n p s = Some (r, s') -> cell s' = cell s /\ log s' = log s.
Proof.
  induction n as [|n IH]; intros p s r s' Hp H; [discriminate H|]. destruct Hp as [v|e|f k Hk]; cbn [exec] in H.
  - inversion H; subst. auto.
  - inversion H; subst. auto.
  - destruct (f (world s)) as [x w]. apply IH in H; [exact H|apply Hk].
Qed.

Lemma exec_once n : forall p s r s', no_req func -> once_log (cell s) (log s) -> exec func n p s = Some (r, s') -> once_log (cell s') (log s').
Proof.
  induction n as [|n IH]; intros p s r s' Hf Hs H; [discriminate H|]. destruct p as [v|e|f k|k]; cbn [exec] in H.
  - inversion H; subst. exact Hs.
  - inversion H; subst. exact Hs.
  - destruct (f (world s)) as [x w]. apply IH in H; assumption.
  - destruct (cell s) as [v|] eqn:Ec.
    + apply IH in H; [exact H|exact Hf|]. cbn [note cell log]. rewrite Ec. apply once_more. exact Hs.
    + destruct (exec func n func s) as [[[v|e] s1]|] eqn:E; [| |discriminate H]; destruct (no_req_quiet _ _ _ _ _ Hf E) as [C1 C2];
        apply IH in H; try exact H; try exact Hf; cbn [note store cell log]; rewrite C2, <- app_assoc; cbn [app]; inversion Hs; subst.
      * apply once_first. assumption.
      * rewrite C1, Ec. apply once_none. apply failures_more. assumption.
Qed.

Lemma failures_counts l : failures l -> count is_ok_run l = 0 /\ count is_run l = count is_request l.
Proof. unfold count. induction 1 as [|l e H IH]; [auto|]. rewrite !filter_app, !app_length. cbn. lia. Qed.

Lemma once_counts c l : once_log c l -> count is_ok_run l <= 1 /\ (count is_request l = 0 -> count is_run l = 0) /\
  (forall v, In (EAns (Ok v)) l -> c = Some v) /\ (forall v, In (ERun (Ok v)) l -> c = Some v).
Proof.
  assert (F : forall l, failures l -> forall v, ~ In (EAns (Ok v)) l /\ ~ In (ERun (Ok v)) l).
  { induction 1 as [|l0 e H IH]; intros v; [split; intros []|]. destruct (IH v) as [I1 I2]. rewrite !in_app_iff. cbn. split; intros [H0|[H0|[H0|[]]]]; auto; discriminate H0. }
  induction 1 as [l H|l v H|l v H IH].
  - pose proof (F l H) as F'. apply failures_counts in H. split; [lia|]. split; [lia|]. split; intros v Hv; exfalso; destruct (F' v); auto.
  - pose proof (F l H) as F'. apply failures_counts in H. unfold count in *. rewrite !filter_app, !app_length. cbn. split; [lia|]. split; [lia|].
    split; intros v' Hv; apply in_app_or in Hv; destruct (F' v') as [I1 I2]; destruct Hv as [Hv|[Hv|[Hv|[]]]]; try contradiction; inversion Hv; reflexivity.
  - destruct IH as (H1 & H2 & H3 & H4). unfold count in *. rewrite !filter_app, !app_length. cbn. split; [lia|]. split; [lia|].
    split; intros v' Hv; apply in_app_or in Hv; destruct Hv as [Hv|[Hv|[]]]; auto; inversion Hv; reflexivity.
Qed.

Theorem at_most_once n p w r s : no_req func -> exec func n p (start w) = Some (r, s) ->
  once_log (cell s) (log s) /\ count is_ok_run (log s) <= 1 /\ (count is_request (log s) = 0 -> count is_run (log s) = 0) /\
  (forall v v', In (EAns (Ok v)) (log s) -> In (EAns (Ok v')) (log s) -> v = v').
Proof.
  intros Hf H. apply exec_once in H; [|exact Hf|constructor; constructor]. pose proof (once_counts _ _ H) as (H1 & H2 & H3 & _). split; [exact H|]. split; [exact H1|]. split; [exact H2|].
  intros v v' A B. apply H3 in A, B. congruence.
Qed.
End Proofs.
