(** Construction preserves meaning; evaluation is substitution. *)
From Coq Require Import List ZArith String Bool Arith Lia.
From Verif Require Import TermModel TermSpec TermProofs TermScopes TermData.
Import ListNotations.
Set Implicit Arguments.

Definition below (n : nat) (e : expr) : Prop := forall v, In v (ops e) -> copy v < n.

Lemma ops_rename r e : walkable e = true -> forall v, In v (ops (rename r e)) <-> In v (map r (ops e)).
Proof.
  induction e as [z|o|o a k IHa IHk|c l IHl] using expr_ind2; cbn [ops rename walkable map]; intros Hw v; try reflexivity.
  - apply andb_true_iff in Hw. destruct Hw as [Hwa Hwk]. rewrite forallb_forall in Hwa, Hwk.
    cbn [In]. rewrite map_app, !in_app_iff, !flat_map_map, !map_flat_map, !in_flat_map.
    split; (intros [H|[(e & He & H)|(e & He & H)]]; [left; exact H|right; left|right; right]); exists e; (split; [exact He|]).
    + apply (proj1 (Forall_forall _ _) IHa e He (Hwa e He)). exact H.
    + apply (proj1 (Forall_forall _ _) IHk e He (Hwk e He)). exact H.
    + apply (proj1 (Forall_forall _ _) IHa e He (Hwa e He)). exact H.
    + apply (proj1 (Forall_forall _ _) IHk e He (Hwk e He)). exact H.
  - destruct (walks c); cbn [ops].
    + rewrite forallb_forall in Hw. rewrite flat_map_map, map_flat_map, !in_flat_map.
      split; intros (e & He & H); exists e; (split; [exact He|]); apply (proj1 (Forall_forall _ _) IHl e He (Hw e He)); exact H.
    + destruct (flat_map ops l); [reflexivity|discriminate Hw].
Qed.

Lemma walkable_rename r e : walkable e = true -> walkable (rename r e) = true.
Proof.
  induction e as [z|o|o a k IHa IHk|c l IHl] using expr_ind2; cbn [rename walkable]; intros Hw; try reflexivity.
  - apply andb_true_iff in Hw. destruct Hw as [Hwa Hwk]. rewrite forallb_forall in Hwa, Hwk.
    apply andb_true_iff. split; apply forallb_forall; intros x Hx; apply in_map_iff in Hx; destruct Hx as (y & <- & Hy).
    + apply (proj1 (Forall_forall _ _) IHa y Hy). apply Hwa. exact Hy.
    + apply (proj1 (Forall_forall _ _) IHk y Hy). apply Hwk. exact Hy.
  - destruct (walks c) eqn:Ec; cbn [walkable]; rewrite Ec; [|exact Hw].
    rewrite forallb_forall in *. intros x Hx. apply in_map_iff in Hx. destruct Hx as (y & <- & Hy).
    apply (proj1 (Forall_forall _ _) IHl y Hy). apply Hw. exact Hy.
Qed.

Section Eval.
Variable sigs : nat -> sig.
Hypothesis Hsigs : forall b, wf_sig (sigs b).

(** Well-formed expressions: every call has its arguments in the normal form that
    construction produces, and its binders can be analysed. *)
Inductive wf : expr -> Prop :=
| WfConst z : wf (EConst z)
| WfOp o : wf (EOp o)
| WfTerm o a k Ba Bk :
    normal (sigs (base o)) (List.length a) (map fst k) ->
    fvs_rule (sigs (base o)) a k = Ok (Ba, Bk) ->
    Forall wf a -> Forall (fun x => wf (snd x)) k -> wf (ETerm o a k)
| WfColl c l : walks c = true -> Forall wf l -> wf (EColl c l)
| WfFlat c l : walks c = false -> flat_map ops l = [] -> wf (EColl c l).

Lemma wf_walkable t : wf t -> walkable t = true.
Proof.
  induction t as [z|o|o a k IHa IHk|c l IHl] using expr_ind2; intros H; cbn [walkable]; try reflexivity.
  - inversion H as [| |o' a' k' Ba Bk Hn Hf Ha Hk| |]; subst. rewrite Forall_forall in *.
    apply andb_true_iff. split; apply forallb_forall; intros x Hx; [apply IHa|apply IHk]; auto.
  - inversion H as [| | |c' l' Hc Hl|c' l' Hc Hl]; subst; rewrite Hc.
    + rewrite Forall_forall in *. apply forallb_forall. intros x Hx. apply IHl; auto.
    + rewrite Hl. reflexivity.
Qed.

(** *** Slots of renamed arguments *)

Lemma ren_slots s sl r a k :
  slots s (ren_a s sl r a) (ren_k s sl r k) =
  map (fun x => (fst x, rename (restrict r (scope s sl (fst x))) (snd x))) (slots s a k).
Proof.
  unfold slots, slots_kw, ren_a, ren_k. rewrite map_app, !map_map. cbn [fst snd]. f_equal.
  generalize (posonly s ++ poskw s) as ps. induction a as [|e a IH]; intros ps; [reflexivity|].
  destruct ps as [|p ps]; cbn [zipp slots_pos map fst snd]; f_equal; apply IH.
Qed.

Lemma ren_slots_pos s sl r a ps :
  slots_pos ps (varpos s) (zipp (fun p e => rename (restrict r (scope s sl p)) e) (varpos s) ps a) =
  map (fun x => (fst x, rename (restrict r (scope s sl (fst x))) (snd x))) (slots_pos ps (varpos s) a).
Proof.
  revert ps. induction a as [|e a IH]; intros ps; [reflexivity|].
  destruct ps as [|p ps]; cbn [zipp slots_pos map fst snd]; f_equal; apply IH.
Qed.

Lemma restrict_map r B l : incl l B -> map (restrict r B) l = map r l.
Proof.
  intros H. apply map_ext_in. intros x Hx. unfold restrict. apply H, memo_in in Hx. rewrite Hx. reflexivity.
Qed.

Lemma slot_ren_one s sl r x : In x sl -> walkable (snd x) = true ->
  slot_ren s r x (fst x, rename (restrict r (scope s sl (fst x))) (snd x)).
Proof.
  intros Hx Hw. split; [reflexivity|]. intros q Hq Hb. cbn [snd].
  rewrite ops_of_rename by exact Hw. rewrite restrict_map; [reflexivity|].
  intros v Hv. rewrite Hq. destruct x as [p e]. cbn [fst snd] in *. subst p. exact (@own_scope s sl q e v Hx Hb Hv).
Qed.

Lemma slot_ren_all s r sl0 sl : incl sl0 sl -> (forall x, In x sl -> walkable (snd x) = true) ->
  Forall2 (slot_ren s r) sl0 (map (fun x => (fst x, rename (restrict r (scope s sl (fst x))) (snd x))) sl0).
Proof.
  intros Hi Hw. induction sl0 as [|x sl0 IH]; [constructor|]. cbn [map]. constructor.
  - apply slot_ren_one; [apply Hi; left; reflexivity|apply Hw, Hi; left; reflexivity].
  - apply IH. intros y Hy. apply Hi. right. exact Hy.
Qed.

(** Everything [defdata] needs to know about one call. *)
Record node (o : op) (a : args) (k : kwargs) (n : nat) (U : list op) : Prop := {
  nd_set : same_set U (binders (sigs (base o)) (slots (sigs (base o)) a k));
  nd_walk : forall x, In x (slots (sigs (base o)) a k) -> walkable (snd x) = true;
  nd_below : forall x, In x (slots (sigs (base o)) a k) -> below n (snd x) }.

Lemma node_raw o a k n U : node o a k n U -> incl (raw_binders (sigs (base o)) (slots (sigs (base o)) a k)) U.
Proof. intros [H _ _] v Hv. apply H. apply binders_in. exact Hv. Qed.

Lemma node_scope o a k n U p : node o a k n U -> incl (scope (sigs (base o)) (slots (sigs (base o)) a k) p) U.
Proof. intros H v Hv. apply (node_raw H). eapply scope_binders. exact Hv. Qed.

Lemma node_U o a k n U : node o a k n U -> forall v, In v U -> copy v < n.
Proof.
  intros H v Hv. apply (nd_set H) in Hv. apply binders_in in Hv. apply raw_binders_ops in Hv.
  destruct Hv as (x & Hx & Hv). exact (nd_below H _ Hx v Hv).
Qed.

Lemma fresh_inj_U n U l : (forall v, In v l -> copy v < n) -> inj_on l (fresh_ren n U).
Proof.
  intros Hl x y Hx Hy H. apply (@fresh_inj n U U l (incl_refl _) Hl x y Hx Hy).
  assert (E : forall v, restrict (fresh_ren n U) U v = fresh_ren n U v).
  { intros v. unfold restrict. destruct (memo v U) eqn:E; [reflexivity|]. unfold fresh_ren. rewrite E. reflexivity. }
  rewrite !E. exact H.
Qed.

Lemma slots_of_in_a s a k e : In e a -> exists p, In (p, e) (slots s a k) /\ In (p, e) (slots_pos (posonly s ++ poskw s) (varpos s) a).
Proof.
  intros H. unfold slots.
  assert (G : forall ps, exists p, In (p, e) (slots_pos ps (varpos s) a)).
  { clear k. induction a as [|e0 a IH]; [destruct H|]. intros ps.
    destruct H as [->|H].
    - destruct ps as [|p ps]; cbn [slots_pos]; eexists; left; reflexivity.
    - destruct ps as [|p ps]; cbn [slots_pos]; destruct (IH H []) as [q Hq]; [exists q; right; exact Hq|].
      destruct (IH H ps) as [q' Hq']. exists q'. right. exact Hq'. }
  destruct (G (posonly s ++ poskw s)) as [p Hp]. exists p. split; [apply in_or_app; left; exact Hp|exact Hp].
Qed.
Lemma slots_of_in_k s a k x : In x k -> In (kw_param s (fst x), snd x) (slots s a k).
Proof.
  intros H. unfold slots, slots_kw. apply in_or_app. right. apply in_map_iff. exists x. split; [reflexivity|exact H].
Qed.

(** Label of a renamed name in the scope of one argument. *)
Lemma enter_fresh o a k n U m p e v :
  node o a k n U -> In (p, e) (slots (sigs (base o)) a k) -> In v (ops e) ->
  let s := sigs (base o) in let sl := slots s a k in let r := fresh_ren n U in
  label (enter m (map r (binders s sl)) (map r (scope s sl p))) (restrict r (scope s sl p) v)
  = label (enter m (binders s sl) (scope s sl p)) v.
Proof.
  intros Hnd Hi Hv s sl r.
  pose proof (nd_below Hnd _ Hi _ Hv) as Hlt. cbn [snd] in Hlt.
  unfold restrict, label, enter. destruct (memo v (scope s sl p)) eqn:Em.
  - apply memo_in in Em. assert (Em2 : memo (r v) (map r (scope s sl p)) = true) by (apply memo_in, in_map; exact Em).
    rewrite Em2. replace (base (r v)) with (base v) by (symmetry; apply fresh_base). f_equal.
    apply index_map. apply fresh_inj_U. intros x [<-|Hx]; [exact Hlt|].
    apply (node_U Hnd). apply (nd_set Hnd). exact Hx.
  - assert (Em2 : memo v (map r (scope s sl p)) = false).
    { apply memo_notin. intros H. apply in_map_iff in H. destruct H as (y & Hy & Hs).
      pose proof (node_scope p Hnd _ Hs) as HyU. unfold r in Hy. rewrite fresh_in in Hy by exact HyU.
      rewrite <- Hy in Hlt. cbn [copy] in Hlt. lia. }
    rewrite Em2. reflexivity.
Qed.

(** The renamed call means the same as the original one. *)
Lemma canon_ren o a k n U m : node o a k n U ->
  let s := sigs (base o) in let sl := slots s a k in
  canon sigs m (ETerm o (ren_a s sl (fresh_ren n U) a) (ren_k s sl (fresh_ren n U) k)) = canon sigs m (ETerm o a k).
Proof.
  intros Hnd s sl. cbn [canon]. fold s. rewrite ren_slots. fold sl.
  set (r := fresh_ren n U).
  pose proof (@slot_ren_all s r sl sl (incl_refl _) (nd_walk Hnd)) as Hren.
  set (sl' := map (fun x => (fst x, rename (restrict r (scope s sl (fst x))) (snd x))) sl) in *.
  assert (HU : binders s sl' = map r (binders s sl)).
  { apply binders_ren; [exact Hren|]. apply fresh_inj_U. intros v Hv. apply (node_U Hnd). apply (node_raw Hnd). exact Hv. }
  rewrite HU. f_equal.
  - unfold ren_a. rewrite zipp_slots, ren_slots_pos, zipp_slots, map_map. apply map_ext_in. intros x Hx. cbn [fst snd].
    assert (Hsl : In x sl) by (unfold sl, slots; apply in_or_app; left; exact Hx). destruct x as [p e]. cbn [fst snd].
    rewrite (scope_ren p Hren). apply canon_rename.
    + intros v. apply restrict_base. apply fresh_base.
    + exact (nd_walk Hnd _ Hsl).
    + apply fresh_inj; [exact (node_scope p Hnd)|exact (nd_below Hnd _ Hsl)].
    + intros v Hv. exact (@enter_fresh o a k n U m p e v Hnd Hsl Hv).
  - unfold ren_k. rewrite map_map. apply map_ext_in. intros x Hx. cbn [fst snd]. f_equal.
    pose proof (slots_of_in_k s a k _ Hx) as Hsl.
    rewrite (scope_ren (kw_param s (fst x)) Hren). apply canon_rename.
    + intros v. apply restrict_base. apply fresh_base.
    + exact (nd_walk Hnd _ Hsl).
    + apply fresh_inj; [exact (node_scope (kw_param s (fst x)) Hnd)|exact (nd_below Hnd _ Hsl)].
    + intros v Hv. exact (@enter_fresh o a k n U m (kw_param s (fst x)) (snd x) v Hnd Hsl Hv).
Qed.

(** Binders of the result are the fresh names. *)
Lemma binders_ren_node o a k n U : node o a k n U ->
  let s := sigs (base o) in let sl := slots s a k in
  binders s (slots s (ren_a s sl (fresh_ren n U) a) (ren_k s sl (fresh_ren n U) k)) = map (fresh_ren n U) (binders s sl).
Proof.
  intros Hnd s sl. rewrite ren_slots. fold sl. apply binders_ren.
  - apply slot_ren_all; [apply incl_refl|exact (nd_walk Hnd)].
  - apply fresh_inj_U. intros v Hv. apply (node_U Hnd). apply (node_raw Hnd). exact Hv.
Qed.

Lemma restrict_copy n U B v : incl B U -> copy v < n -> copy (restrict (fresh_ren n U) B v) < n + List.length U.
Proof.
  intros HB Hv. unfold restrict. destruct (memo v B) eqn:E; [|lia]. apply memo_in, HB in E.
  rewrite fresh_in by exact E. cbn [copy]. pose proof (index_lt _ _ E). lia.
Qed.

Lemma below_ren o a k n U : node o a k n U -> copy o < n ->
  let s := sigs (base o) in let sl := slots s a k in
  below (n + List.length U) (ETerm o (ren_a s sl (fresh_ren n U) a) (ren_k s sl (fresh_ren n U) k)).
Proof.
  intros Hnd Ho s sl v Hv. cbn [ops] in Hv. destruct Hv as [<-|Hv]; [lia|].
  assert (G : forall p e, In (p, e) sl -> In v (ops (rename (restrict (fresh_ren n U) (scope s sl p)) e)) -> copy v < n + List.length U).
  { intros p e Hi H. apply ops_rename in H; [|exact (nd_walk Hnd _ Hi)]. apply in_map_iff in H. destruct H as (w & <- & Hw).
    apply restrict_copy; [exact (node_scope p Hnd)|exact (nd_below Hnd _ Hi _ Hw)]. }
  apply in_app_or in Hv. destruct Hv as [Hv|Hv]; apply in_flat_map in Hv; destruct Hv as (e & He & Hv).
  - unfold ren_a in He. rewrite zipp_slots in He. apply in_map_iff in He. destruct He as ([p e0] & <- & Hi). cbn [fst snd] in Hv.
    apply (G p e0); [unfold sl, slots; apply in_or_app; left; exact Hi|exact Hv].
  - unfold ren_k in He. apply in_map_iff in He. destruct He as (x & <- & Hi). cbn [fst snd] in Hv.
    apply (G (kw_param s (fst x)) (snd x)); [apply slots_of_in_k; exact Hi|exact Hv].
Qed.

(** *** Renaming keeps terms well formed *)

Lemma wf_rename r t : (forall v, base (r v) = base v) -> wf t -> inj_on (ops t) r -> wf (rename r t).
Proof.
  intros Hb. induction t as [z|o|o a k IHa IHk|c l IHl] using expr_ind2; intros H Hinj; cbn [rename]; try constructor.
  - pose proof (wf_walkable H) as Hw. cbn [walkable] in Hw. apply andb_true_iff in Hw. destruct Hw as [Hwa Hwk].
    rewrite forallb_forall in Hwa, Hwk.
    inversion H as [| |o' a' k' Ba Bk Hn Hf Ha Hk| |]; subst. set (s := sigs (base o)) in *.
    rewrite Forall_forall in IHa, IHk, Ha, Hk. cbn [ops] in Hinj.
    assert (Hsl : forall x, In x (slots s a k) -> walkable (snd x) = true).
    { intros x Hx. apply slots_in in Hx. destruct Hx as [Hx|Hx]; [apply Hwa; exact Hx|].
      apply in_map_iff in Hx. destruct Hx as (y & <- & Hy). apply Hwk. exact Hy. }
    destruct (@fvs_rule_rel s r a k (map (rename r) a) (map (fun x => (fst x, rename r (snd x))) k) Ba Bk (Hsigs _) Hn) as [F1 F2].
    + rewrite slots_pos_map.
      assert (Hsl' : forall x, In x (slots_pos (posonly s ++ poskw s) (varpos s) a) -> walkable (snd x) = true)
        by (intros x Hx; apply Hsl; unfold slots; apply in_or_app; left; exact Hx).
      revert Hsl'. generalize (slots_pos (posonly s ++ poskw s) (varpos s) a) as sl.
      induction sl as [|x sl IH]; intros Hsl'; [constructor|]. cbn [map]. constructor.
      * split; [reflexivity|]. intros q _ _. apply ops_of_rename. apply Hsl'. left. reflexivity.
      * apply IH. intros y Hy. apply Hsl'. right. exact Hy.
    + clear -Hwk. induction k as [|x k IH]; [constructor|]. cbn [map]. constructor.
      * split; [reflexivity|]. intros q _ _. apply ops_of_rename. apply Hwk. left. reflexivity.
      * apply IH. intros y Hy. apply Hwk. right. exact Hy.
    + intros x y Hx Hy. assert (G : forall v, In v (raw_binders s (slots s a k)) -> In v (o :: flat_map ops a ++ flat_map (fun x => ops (snd x)) k)).
      { intros v Hv. apply raw_binders_ops in Hv. destruct Hv as (z & Hz & Hv). right. apply in_or_app.
        apply slots_in in Hz. destruct Hz as [Hz|Hz].
        - left. apply in_flat_map. exists (snd z). split; assumption.
        - right. apply in_map_iff in Hz. destruct Hz as (w & Ew & Hw). apply in_flat_map. exists w. rewrite Ew. split; assumption. }
      apply Hinj; apply G; assumption.
    + exact Hf.
    + eapply WfTerm; [rewrite Hb; exact F2|rewrite Hb; exact F1|..].
      * apply Forall_forall. intros e He. apply in_map_iff in He. destruct He as (y & <- & Hy). apply IHa; [exact Hy|apply Ha; exact Hy|].
        intros u v Hu Hv. apply Hinj; right; apply in_or_app; left; apply in_flat_map; exists y; split; assumption.
      * apply Forall_forall. intros e He. apply in_map_iff in He. destruct He as (y & <- & Hy). cbn [snd]. apply IHk; [exact Hy|apply Hk; exact Hy|].
        intros u v Hu Hv. apply Hinj; right; apply in_or_app; right; apply in_flat_map; exists y; split; assumption.
  - inversion H as [| | |c' l' Hc Hl|c' l' Hc Hl]; subst; rewrite Hc.
    + apply WfColl; [exact Hc|]. rewrite Forall_forall in *. intros e He. apply in_map_iff in He. destruct He as (y & <- & Hy).
      apply IHl; [exact Hy|apply Hl; exact Hy|]. intros u v Hu Hv. apply Hinj; cbn [ops]; apply in_flat_map; exists y; split; assumption.
    + apply WfFlat; assumption.
Qed.

(** The result of a construction is well formed. *)
Lemma wf_ren o a k n U Ba Bk : node o a k n U ->
  let s := sigs (base o) in let sl := slots s a k in
  normal s (List.length a) (map fst k) -> fvs_rule s a k = Ok (Ba, Bk) ->
  Forall wf a -> Forall (fun x => wf (snd x)) k ->
  wf (ETerm o (ren_a s sl (fresh_ren n U) a) (ren_k s sl (fresh_ren n U) k)).
Proof.
  intros Hnd s sl Hn Hf Ha Hk. set (r := fresh_ren n U).
  destruct (@fvs_rule_rel s r a k (ren_a s sl r a) (ren_k s sl r k) Ba Bk (Hsigs _) Hn) as [F1 F2].
  - unfold ren_a. rewrite ren_slots_pos. apply slot_ren_all; [|exact (nd_walk Hnd)].
    intros x Hx. unfold sl, slots. apply in_or_app. left. exact Hx.
  - assert (G : forall kk, incl kk k -> Forall2 (fun x x' => fst x' = fst x /\ erel s r (kw_param s (fst x)) (snd x) (snd x')) kk (ren_k s sl r kk)).
    { induction kk as [|x kk IH]; intros Hi; [constructor|]. cbn [ren_k map]. constructor.
      - split; [reflexivity|]. cbn [snd].
        pose proof (slots_of_in_k s a k x (Hi x (or_introl eq_refl))) as Hsl.
        pose proof (@slot_ren_one s sl r _ Hsl (nd_walk Hnd _ Hsl)) as [_ Hs]. cbn [fst snd] in Hs. exact Hs.
      - apply IH. intros y Hy. apply Hi. right. exact Hy. }
    apply G. apply incl_refl.
  - apply fresh_inj_U. intros v Hv. apply (node_U Hnd). apply (node_raw Hnd). exact Hv.
  - exact Hf.
  - rewrite Forall_forall in Ha, Hk. apply (@WfTerm o _ _ _ _ F2 F1); apply Forall_forall; intros e He.
    + unfold ren_a in He. rewrite zipp_slots in He. apply in_map_iff in He. destruct He as ([p e0] & <- & Hi). cbn [fst snd].
      assert (Hsl : In (p, e0) sl) by (unfold sl, slots; apply in_or_app; left; exact Hi).
      apply wf_rename.
      * intros v. apply restrict_base, fresh_base.
      * apply Ha. apply slots_pos_in in Hi. exact Hi.
      * apply fresh_inj; [exact (node_scope p Hnd)|exact (nd_below Hnd _ Hsl)].
    + unfold ren_k in He. apply in_map_iff in He. destruct He as (x & <- & Hi). cbn [fst snd].
      pose proof (slots_of_in_k s a k x Hi) as Hsl. apply wf_rename.
      * intros v. apply restrict_base, fresh_base.
      * apply Hk. exact Hi.
      * apply fresh_inj; [exact (node_scope (kw_param s (fst x)) Hnd)|exact (nd_below Hnd _ Hsl)].
Qed.

(** ** Construction *)

Lemma defdata_normal s a k Ba Bk : wf_sig s -> normal s (List.length a) (map fst k) -> fvs_rule s a k = Ok (Ba, Bk) ->
  forall o n, s = sigs (base o) -> defdata sigs o a k n =
    let U := nodup op_eq_dec (List.concat Ba ++ List.concat (map snd Bk)) in
    Ok (ETerm o (ren_a s (slots s a k) (fresh_ren n U) a) (ren_k s (slots s a k) (fresh_ren n U) k), n + List.length U).
Proof.
  intros Hw Hn Hf o n Es. unfold defdata, sig_of. rewrite <- Es, Hf, (bind_normal _ _ Hw Hn). cbv zeta.
  destruct (args_of_fill _ _ Hw Hn) as [-> ->].
  destruct (fvs_rule_scopes _ _ Hw Hn Hf) as [H1 H2].
  set (U := nodup op_eq_dec (List.concat Ba ++ List.concat (map snd Bk))).
  pose proof (@ren_args_spec (fresh_ren n U) _ _ _ H1) as R1. rewrite map_snd_slots in R1.
  pose proof (@ren_kwargs_spec (fresh_ren n U) (fun x => scope s (slots s a k) (kw_param s x)) _ _ H2) as R2.
  change (fun v : op => if memo v U then {| base := base v; copy := n + index v U |} else v) with (fresh_ren n U).
  rewrite R1, R2. unfold ren_a, ren_k. rewrite zipp_slots. reflexivity.
Qed.

End Eval.
