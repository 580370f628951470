(** [fvsof] against the free variables of the specification. *)
From Coq Require Import List ZArith String Bool Arith Lia.
From Verif Require Import TermModel TermSpec TermProofs TermScopes TermData TermEval TermSubst TermUser.
Import ListNotations.
Set Implicit Arguments.

Section Fvs.
Variable sigs : nat -> sig.
Hypothesis Hsigs : forall b, wf_sig (sigs b).

Let none : env := fun _ => None.
Let ev := evaluate (fun o : op => o) (update_fvs sigs).

(** What evaluating [t] does to the accumulated set. *)
Definition acc_ok (fvt bvt : list op) (S S' : list op) : Prop :=
  (forall v, In v S' -> (In v S /\ ~ In v bvt) \/ In v fvt) /\
  (forall v, ~ In v bvt -> In v S \/ In v fvt -> In v S').

Lemma acc_nil S : acc_ok [] [] S S.
Proof. split; intros v; [intros H; left; split; [exact H|intros []]|intros _ [H|[]]; exact H]. Qed.

Lemma acc_cons f1 b1 f2 b2 S S1 S2 : acc_ok f1 b1 S S1 -> acc_ok f2 b2 S1 S2 -> acc_ok (f1 ++ f2) (b1 ++ b2) S S2.
Proof.
  intros [A1 A2] [B1 B2]. split; intros v; rewrite !in_app_iff.
  - intros H. destruct (B1 v H) as [[H1 H2]|H1]; [|tauto]. destruct (A1 v H1) as [[H3 H4]|H3]; tauto.
  - intros Hn H. apply B2; [tauto|]. destruct H as [H|[H|H]]; [left; apply A2; tauto|left; apply A2; tauto|right; exact H].
Qed.

Definition fvs_ev (t : expr) : Prop := forall S n, below n t ->
  exists t' S' n', ev t (S, n) = Ok (t', (S', n')) /\ eval_under sigs none t n = Ok (t', n') /\
    n <= n' /\ evals sigs none n n' t t' /\ acc_ok (fv sigs t) (bv sigs t) S S'.

Lemma mapm_fvs : forall l, (forall e, In e l -> fvs_ev e) -> forall S n, (forall e, In e l -> below n e) ->
  exists l' S' n', mapm ev l (S, n) = Ok (l', (S', n')) /\ mapm (eval_under sigs none) l n = Ok (l', n') /\
    n <= n' /\ Forall2 (evals sigs none n n') l l' /\ acc_ok (flat_map (fv sigs) l) (flat_map (bv sigs) l) S S'.
Proof.
  induction l as [|e l IH]; intros He S n Hb.
  - exists [], S, n. split; [reflexivity|]. split; [reflexivity|]. split; [lia|]. split; [constructor|apply acc_nil].
  - destruct (He e (or_introl eq_refl) S n (Hb e (or_introl eq_refl))) as (e' & S1 & n1 & E1 & F1 & L1 & R1 & A1).
    destruct (IH (fun x Hx => He x (or_intror Hx)) S1 n1) as (l' & S2 & n2 & E2 & F2 & L2 & R2 & A2).
    { intros x Hx. eapply below_mono; [exact L1|]. apply Hb. right. exact Hx. }
    exists (e' :: l'), S2, n2. cbn [mapm]. rewrite E1, E2, F1, F2. split; [reflexivity|]. split; [reflexivity|]. split; [lia|]. split.
    + constructor; [eapply evals_mono; [|exact L2|exact R1]; lia|].
      eapply Forall2_impl; [|exact R2]. intros x y Hxy. eapply evals_mono; [|apply Nat.le_refl|exact Hxy]. exact L1.
    + cbn [flat_map]. exact (acc_cons A1 A2).
Qed.

Lemma mapk_fvs : forall (l : kwargs), (forall e, In e l -> fvs_ev (snd e)) -> forall S n, (forall e, In e l -> below n (snd e)) ->
  exists l' S' n', mapk ev l (S, n) = Ok (l', (S', n')) /\ mapk (eval_under sigs none) l n = Ok (l', n') /\
    n <= n' /\ Forall2 (fun x x' => fst x' = fst x /\ evals sigs none n n' (snd x) (snd x')) l l' /\
    acc_ok (flat_map (fun x => fv sigs (snd x)) l) (flat_map (fun x => bv sigs (snd x)) l) S S'.
Proof.
  induction l as [|e l IH]; intros He S n Hb.
  - exists [], S, n. split; [reflexivity|]. split; [reflexivity|]. split; [lia|]. split; [constructor|apply acc_nil].
  - destruct (He e (or_introl eq_refl) S n (Hb e (or_introl eq_refl))) as (e' & S1 & n1 & E1 & F1 & L1 & R1 & A1).
    destruct (IH (fun x Hx => He x (or_intror Hx)) S1 n1) as (l' & S2 & n2 & E2 & F2 & L2 & R2 & A2).
    { intros x Hx. eapply below_mono; [exact L1|]. apply Hb. right. exact Hx. }
    exists ((fst e, e') :: l'), S2, n2. cbn [mapk]. rewrite E1, E2, F1, F2. split; [reflexivity|]. split; [reflexivity|]. split; [lia|]. split.
    + constructor; [split; [reflexivity|]; eapply evals_mono; [|exact L2|exact R1]; lia|].
      eapply Forall2_impl; [|exact R2]. intros x y [Hf Hxy]. split; [exact Hf|].
      eapply evals_mono; [|apply Nat.le_refl|exact Hxy]. exact L1.
    + cbn [flat_map]. exact (acc_cons A1 A2).
Qed.

Lemma slots_fv o a k v : let s := sigs (base o) in
  In v (flat_map (fv sigs) a ++ flat_map (fun x => fv sigs (snd x)) k) <-> exists x, In x (slots s a k) /\ In v (fv sigs (snd x)).
Proof.
  intros s. rewrite in_app_iff, !in_flat_map. split.
  - intros [(e & He & Hv)|(e & He & Hv)].
    + destruct (slots_of_in_a s a k e He) as (p & Hp & _). exists (p, e). split; assumption.
    + exists (kw_param s (fst e), snd e). split; [apply slots_of_in_k; exact He|exact Hv].
  - intros (x & Hx & Hv). apply slots_in in Hx. destruct Hx as [Hx|Hx]; [left; exists (snd x); split; assumption|].
    apply in_map_iff in Hx. destruct Hx as (y & Ey & Hy). right. exists y. split; [exact Hy|]. rewrite Ey. exact Hv.
Qed.

Theorem fvs_ev_wf t : wf sigs t -> fvs_ev t.
Proof.
  induction t as [z|o|o a k IHa IHk|c l IHl] using expr_ind2; intros Hwf S n Hb.
  - exists (EConst z), S, n. split; [reflexivity|]. split; [reflexivity|]. split; [lia|]. split; [|apply acc_nil].
    constructor; [exact Hb|constructor|reflexivity|intros x []|reflexivity].
  - exists (EOp o), S, n. split; [reflexivity|]. split; [reflexivity|]. split; [lia|]. split; [|apply acc_nil].
    constructor; [exact Hb|constructor|reflexivity|intros x []|reflexivity].
  - destruct (@eval_subst sigs Hsigs none (ETerm o a k) Hwf) with (n := n) as (t' & n' & E & L & Ev).
    { intros x _. split; [reflexivity|]. intros o' v H. discriminate H. }
    { constructor; intros o' v H; discriminate H. }
    { exact Hb. }
    inversion Hwf as [| |o' a' k' Ba Bk Hn Hf Ha Hk| |]; subst. rewrite Forall_forall in IHa, IHk, Ha, Hk.
    destruct (@mapm_fvs a) with (S := S) (n := n) as (a' & S1 & n1 & E1 & F1 & L1 & R1 & A1).
    { intros e He. apply IHa; [exact He|apply Ha; exact He]. }
    { intros e He v Hv. apply Hb. cbn [ops]. right. apply in_or_app. left. apply in_flat_map. exists e. split; assumption. }
    destruct (@mapk_fvs k) with (S := S1) (n := n1) as (k' & S2 & n2 & E2 & F2 & L2 & R2 & A2).
    { intros e He. apply IHk; [exact He|apply Hk; exact He]. }
    { intros e He. eapply below_mono; [exact L1|]. intros v Hv. apply Hb. cbn [ops]. right. apply in_or_app. right.
      apply in_flat_map. exists e. split; assumption. }
    unfold eval_under in E. cbn [evaluate] in E. unfold eval_under in F1, F2. rewrite F1, F2 in E.
    unfold call_op in E. cbn [none] in E. change (none o) with (@None expr) in E. cbv iota in E.
    set (s := sigs (base o)) in *.
    assert (SA : Forall2 (slot_ren s (fun x => x)) (slots_pos (posonly s ++ poskw s) (varpos s) a) (slots_pos (posonly s ++ poskw s) (varpos s) a')).
    { eapply Forall2_impl; [|exact (slots_pos_forall2 (varpos s) R1 (posonly s ++ poskw s))].
      intros x y [Hxf Hxy]. split; [exact Hxf|]. intros q _ _. rewrite map_id. apply (ev_ops Hxy). }
    assert (SK : Forall2 (fun x x' => fst x' = fst x /\ erel s (fun x => x) (kw_param s (fst x)) (snd x) (snd x')) k k').
    { eapply Forall2_impl; [|exact R2]. intros x y [Hxf Hxy]. split; [exact Hxf|]. intros q _ _. rewrite map_id. apply (ev_ops Hxy). }
    destruct (@fvs_rule_rel s (fun x => x) a k a' k' Ba Bk (Hsigs _) Hn SA SK (fun x y _ _ E => E) Hf) as [G1 G2].
    assert (Eid : map (map (fun x : op => x)) Ba = Ba) by (rewrite (map_ext _ (fun l => l)); [apply map_id|intros l; apply map_id]).
    assert (Eid2 : map (fun x : string * list op => (fst x, map (fun y : op => y) (snd x))) Bk = Bk).
    { rewrite (map_ext _ (fun l => l)); [apply map_id|]. intros [m l]. cbn [fst snd]. rewrite map_id. reflexivity. }
    rewrite Eid, Eid2 in G1.
    set (bound := List.concat Ba ++ List.concat (map snd Bk)).
    assert (HB : forall v, In v bound <-> In v (binders s (slots s a k))).
    { intros v. pose proof (union_binders _ _ (Hsigs _) Hn Hf v) as H. rewrite nodup_In in H. exact H. }
    exists t', (filter (fun v => negb (memo v bound)) (o :: S2)), n'.
    split; [|split; [|split; [exact L|split; [exact Ev|]]]].
    + unfold ev in E1, E2 |- *. cbn [evaluate]. rewrite E1, E2. unfold update_fvs, sig_of. fold s.
      rewrite G1. fold bound. rewrite E. reflexivity.
    + unfold eval_under. cbn [evaluate]. rewrite F1, F2. exact E.
    + assert (AA := acc_cons A1 A2). destruct AA as [AA1 AA2]. clear A1 A2.
      split; intros v.
      * intros H. apply filter_In in H. destruct H as [H1 H2]. apply negb_true_iff, memo_notin in H2. rewrite HB in H2.
        destruct H1 as [<-|H1]; [right; left; reflexivity|].
        destruct (AA1 v H1) as [[H3 H4]|H3].
        -- left. split; [exact H3|]. cbn [bv]. fold s. intros Hc. apply in_app_or in Hc. destruct Hc; [contradiction|contradiction].
        -- right. apply fv_term. right. apply (slots_fv o) in H3. destruct H3 as (x & Hx & H3). exists x. split; [exact Hx|]. split; [exact H3|].
           intros Hc. apply H2. apply binders_in. eapply scope_binders. exact Hc.
      * intros Hn' H. cbn [bv] in Hn'. fold s in Hn'. apply filter_In. split.
        -- destruct H as [H|H].
           ++ right. apply AA2; [intros Hc; apply Hn'; apply in_or_app; right; exact Hc|left; exact H].
           ++ apply fv_term in H. destruct H as [->|(x & Hx & H & _)]; [left; reflexivity|right].
              apply AA2; [intros Hc; apply Hn'; apply in_or_app; right; exact Hc|right]. apply (slots_fv o). exists x. split; assumption.
        -- apply negb_true_iff, memo_notin. rewrite HB. intros Hc. apply Hn'. apply in_or_app. left. exact Hc.
  - inversion Hwf as [| | |c' l' Hc Hl|c' l' Hc Hl]; subst.
    + rewrite Forall_forall in IHl, Hl.
      destruct (@eval_subst sigs Hsigs none (EColl c l) Hwf) with (n := n) as (t' & n' & E & L & Ev).
      { intros x _. split; [reflexivity|]. intros o' v H. discriminate H. }
      { constructor; intros o' v H; discriminate H. }
      { exact Hb. }
      destruct (@mapm_fvs l) with (S := S) (n := n) as (a' & S1 & n1 & E1 & F1 & L1 & R1 & A1).
      { intros e He. apply IHl; [exact He|apply Hl; exact He]. }
      { intros e He v Hv. apply Hb. cbn [ops]. apply in_flat_map. exists e. split; assumption. }
      unfold eval_under in E. cbn [evaluate] in E. unfold eval_under in F1. rewrite Hc, F1 in E. inversion E; subst.
      exists (EColl c a'), S1, n'. split; [|split; [|split; [exact L|split; [exact Ev|exact A1]]]].
      * unfold ev. cbn [evaluate]. unfold ev in E1. rewrite Hc, E1. reflexivity.
      * unfold eval_under. cbn [evaluate]. rewrite Hc, F1. reflexivity.
    + destruct (@eval_subst sigs Hsigs none (EColl c l) Hwf) with (n := n) as (t' & n' & E & L & Ev).
      { intros x _. split; [reflexivity|]. intros o' v H. discriminate H. }
      { constructor; intros o' v H; discriminate H. }
      { exact Hb. }
      unfold eval_under in E. cbn [evaluate] in E. rewrite Hc in E. inversion E; subst.
      exists (EColl c l), S, n'. split; [unfold ev; cbn [evaluate]; rewrite Hc; reflexivity|].
      split; [unfold eval_under; cbn [evaluate]; rewrite Hc; reflexivity|]. split; [lia|]. split; [exact Ev|].
      assert (Hfv : forall v, ~ In v (fv sigs (EColl c l))).
      { intros v Hv. assert (Hv' : In v (fvo sigs (EColl c l)) \/ True) by (right; exact I). clear Hv'.
        assert (G : forall e, incl (fv sigs e) (ops e)).
        { clear. induction e as [z|o|o a k IHa IHk|c l IHl] using expr_ind2; cbn [fv ops]; try (intros x []; fail).
          - rewrite Forall_forall in IHa, IHk. intros v [<-|Hv]; [left; reflexivity|right]. apply in_app_or in Hv. apply in_or_app.
            destruct Hv as [Hv|Hv]; [left|right].
            + apply in_concat_zipp in Hv. destruct Hv as (x & Hx & Hv). apply in_minus in Hv. destruct Hv as [Hv _].
              apply slots_pos_in in Hx. apply in_flat_map. exists (snd x). split; [exact Hx|]. apply IHa; assumption.
            + apply in_concat_map in Hv. destruct Hv as (x & Hx & Hv). apply in_minus in Hv. destruct Hv as [Hv _].
              apply in_flat_map. exists x. split; [exact Hx|]. apply IHk; assumption.
          - rewrite Forall_forall in IHl. intros v Hv. apply in_flat_map in Hv. destruct Hv as (e & He & Hv). apply in_flat_map.
            exists e. split; [exact He|]. apply IHl; assumption. }
        apply G in Hv. cbn [ops] in Hv. rewrite Hl in Hv. destruct Hv. }
      assert (Hbv : forall v, ~ In v (bv sigs (EColl c l))).
      { intros v Hv. apply bv_ops in Hv. cbn [ops] in Hv. rewrite Hl in Hv. destruct Hv. }
      split; intros v; [intros H; left; split; [exact H|apply Hbv]|]. intros _ [H|H]; [exact H|]. exfalso. exact (Hfv v H).
Qed.

(** [fvsof] never reports a variable that is not free, and reports every free
    variable that is not also bound somewhere in the term. *)
Theorem fvsof_bounds t n : wf sigs t -> below n t ->
  exists l, fvsof sigs t n = Ok l /\
    (forall v, In v l -> In v (fv sigs t)) /\
    (forall v, In v (fv sigs t) -> ~ In v (bv sigs t) -> In v l).
Proof.
  intros Hw Hb. destruct (fvs_ev_wf Hw [] Hb) as (t' & S' & n' & E & _ & _ & _ & A1 & A2).
  exists S'. split; [unfold fvsof; unfold ev in E; rewrite E; reflexivity|]. split.
  - intros v Hv. destruct (A1 v Hv) as [[[] _]|H]. exact H.
  - intros v Hv Hn. apply A2; [exact Hn|right; exact Hv].
Qed.

Hypothesis Hdflt : forall b p e, In p (params (sigs b)) -> dflt p = Some e -> user sigs 1 e.

Lemma fv_fvo t : incl (fv sigs t) (fvo sigs t).
Proof.
  induction t as [z|o|o a k IHa IHk|c l IHl] using expr_ind2; cbn [fv fvo]; try (intros x []; fail).
  - rewrite Forall_forall in IHa, IHk. intros v [<-|Hv]; [left; reflexivity|right]. apply in_app_or in Hv. apply in_or_app.
    destruct Hv as [Hv|Hv]; [left|right].
    + apply in_concat_zipp in Hv. destruct Hv as (x & Hx & Hv). apply in_minus in Hv. destruct Hv as [Hv Hn].
      apply in_concat_zipp. exists x. split; [exact Hx|]. apply in_minus. split; [|exact Hn].
      apply slots_pos_in in Hx. apply IHa; assumption.
    + apply in_concat_map in Hv. destruct Hv as (x & Hx & Hv). apply in_minus in Hv. destruct Hv as [Hv Hn].
      apply in_concat_map. exists x. split; [exact Hx|]. apply in_minus. split; [|exact Hn]. apply IHk; assumption.
  - rewrite Forall_forall in IHl. intros v Hv. apply in_flat_map in Hv. destruct Hv as (e & He & Hv). apply in_flat_map.
    exists e. split; [exact He|]. apply IHl; assumption.
Qed.

(** For every term a program can build, [fvsof] is exact. *)
Theorem fvsof_reach n t : reach sigs n t ->
  exists l, fvsof sigs t n = Ok l /\ forall v, In v l <-> In v (fv sigs t).
Proof.
  intros H. destruct (@reach_user sigs Hsigs Hdflt n t H) as [_ Hu].
  destruct (fvsof_bounds (us_wf Hu) (us_below Hu)) as (l & E & H1 & H2).
  exists l. split; [exact E|]. intros v. split; [apply H1|]. intros Hv. apply H2; [exact Hv|].
  intros Hb. apply (us_bv Hu) in Hb. apply Hb. apply (us_fvo Hu). apply fv_fvo. exact Hv.
Qed.

End Fvs.
