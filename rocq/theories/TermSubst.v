(** Free variables, and evaluation under handlers for variables as substitution. *)
From Coq Require Import List ZArith String Bool Arith Lia.
From Verif Require Import TermModel TermSpec TermProofs TermScopes TermData TermEval.
Import ListNotations.
Set Implicit Arguments.

(** ** Free variables can be read off the canonical form *)

Section CInd.
Variable P : cexpr -> Prop.
Hypothesis Hconst : forall z, P (CConst z).
Hypothesis Hop : forall l, P (COp l).
Hypothesis Hterm : forall l a k, Forall P a -> Forall (fun x => P (snd x)) k -> P (CTerm l a k).
Hypothesis Hcoll : forall c l, Forall P l -> P (CColl c l).
Fixpoint cexpr_ind2 (t : cexpr) : P t :=
  match t with
  | CConst z => Hconst z
  | COp o => Hop o
  | CTerm o a k =>
      Hterm o
        ((fix go (l : list cexpr) : Forall P l :=
            match l with [] => Forall_nil _ | e :: l' => Forall_cons e (cexpr_ind2 e) (go l') end) a)
        ((fix go (l : list (string * cexpr)) : Forall (fun x => P (snd x)) l :=
            match l with [] => Forall_nil _ | e :: l' => Forall_cons e (cexpr_ind2 (snd e)) (go l') end) k)
  | CColl c l =>
      Hcoll c
        ((fix go (l : list cexpr) : Forall P l :=
            match l with [] => Forall_nil _ | e :: l' => Forall_cons e (cexpr_ind2 e) (go l') end) l)
  end.
End CInd.

Definition free_lab (l : lab) : list op := match l with LFree o => [o] | LBound _ _ _ => [] end.

Fixpoint cfv (c : cexpr) : list op :=
  match c with
  | CConst _ => []
  | COp _ => []
  | CTerm l a k => free_lab l ++ flat_map cfv a ++ flat_map (fun x => cfv (snd x)) k
  | CColl _ l => flat_map cfv l
  end.
Fixpoint cfvo (c : cexpr) : list op :=
  match c with
  | CConst _ => []
  | COp l => free_lab l
  | CTerm l a k => free_lab l ++ flat_map cfvo a ++ flat_map (fun x => cfvo (snd x)) k
  | CColl _ l => flat_map cfvo l
  end.

Lemma in_minus v l B : In v (minus l B) <-> In v l /\ ~ In v B.
Proof.
  unfold minus. rewrite filter_In, negb_true_iff, memo_notin. reflexivity.
Qed.

Lemma free_label m o v : In v (free_lab (label m o)) <-> v = o /\ m v = None.
Proof.
  unfold label. destruct (m o) as [[u i]|] eqn:E; cbn [free_lab In].
  - split; [intros []|intros [-> H]; congruence].
  - split; [intros [<-|[]]; split; [reflexivity|exact E]|intros [-> _]; left; reflexivity].
Qed.

Lemma enter_none m U B v : enter m U B v = None <-> ~ In v B /\ m v = None.
Proof.
  unfold enter. destruct (memo v B) eqn:E.
  - apply memo_in in E. split; [discriminate|intros [H _]; contradiction].
  - apply memo_notin in E. destruct (m v) as [[u i]|]; split; try discriminate; try tauto. intros [_ H]. discriminate H.
Qed.

Section Subst.
Variable sigs : nat -> sig.
Hypothesis Hsigs : forall b, wf_sig (sigs b).

Lemma in_concat_zipp {B} (f : option param -> expr -> list B) vp ps a v :
  In v (List.concat (zipp f vp ps a)) <-> exists x, In x (slots_pos ps vp a) /\ In v (f (fst x) (snd x)).
Proof.
  rewrite zipp_slots, in_concat. split.
  - intros (l & Hl & Hv). apply in_map_iff in Hl. destruct Hl as (x & <- & Hx). exists x. split; assumption.
  - intros (x & Hx & Hv). exists (f (fst x) (snd x)). split; [apply in_map_iff; exists x; split; [reflexivity|exact Hx]|exact Hv].
Qed.
Lemma in_concat_map {A B} (f : A -> list B) l v : In v (List.concat (map f l)) <-> exists x, In x l /\ In v (f x).
Proof.
  rewrite in_concat. split.
  - intros (y & Hl & Hv). apply in_map_iff in Hl. destruct Hl as (x & <- & Hx). exists x. split; assumption.
  - intros (x & Hx & Hv). exists (f x). split; [apply in_map; exact Hx|exact Hv].
Qed.

Lemma cfv_canon t : forall m v, In v (cfv (canon sigs m t)) <-> In v (fv sigs t) /\ m v = None.
Proof.
  induction t as [z|o|o a k IHa IHk|c l IHl] using expr_ind2; intros m v; cbn [canon cfv fv].
  - cbn; tauto.
  - cbn; tauto.
  - set (s := sigs (base o)). set (sl := slots s a k). rewrite Forall_forall in IHa, IHk.
    rewrite !in_app_iff, free_label, zipp_slots, flat_map_map, in_flat_map, flat_map_map, in_flat_map. cbn [fst snd In].
    rewrite in_app_iff, in_concat_zipp, in_concat_map. split.
    + intros [[-> H]|[(x & Hx & H)|(x & Hx & H)]].
      * split; [left; reflexivity|exact H].
      * apply IHa in H; [|eapply slots_pos_in; exact Hx]. destruct H as [H1 H2]. apply enter_none in H2. destruct H2 as [H2 H3].
        split; [|exact H3]. right. left. exists x. split; [exact Hx|]. apply in_minus. split; assumption.
      * apply IHk in H; [|exact Hx]. destruct H as [H1 H2]. apply enter_none in H2. destruct H2 as [H2 H3].
        split; [|exact H3]. right. right. exists x. split; [exact Hx|]. apply in_minus. split; assumption.
    + intros [[->|[(x & Hx & H)|(x & Hx & H)]] Hm].
      * left. split; [reflexivity|exact Hm].
      * apply in_minus in H. destruct H as [H1 H2]. right. left. exists x. split; [exact Hx|].
        apply IHa; [eapply slots_pos_in; exact Hx|]. split; [exact H1|]. apply enter_none. split; assumption.
      * apply in_minus in H. destruct H as [H1 H2]. right. right. exists x. split; [exact Hx|].
        apply IHk; [exact Hx|]. split; [exact H1|]. apply enter_none. split; assumption.
  - rewrite flat_map_map, !in_flat_map. rewrite Forall_forall in IHl. split.
    + intros (x & Hx & H). apply IHl in H; [|exact Hx]. destruct H as [H1 H2]. split; [exists x; split; assumption|exact H2].
    + intros [(x & Hx & H) Hm]. exists x. split; [exact Hx|]. apply IHl; [exact Hx|]. split; assumption.
Qed.

Lemma cfvo_canon t : forall m v, In v (cfvo (canon sigs m t)) <-> In v (fvo sigs t) /\ m v = None.
Proof.
  induction t as [z|o|o a k IHa IHk|c l IHl] using expr_ind2; intros m v; cbn [canon cfvo fvo].
  - cbn; tauto.
  - rewrite free_label. cbn [In]. split; intros [H1 H2]; (split; [|exact H2]); [left; congruence|destruct H1 as [H1|[]]; congruence].
  - set (s := sigs (base o)). set (sl := slots s a k). rewrite Forall_forall in IHa, IHk.
    rewrite !in_app_iff, free_label, zipp_slots, flat_map_map, in_flat_map, flat_map_map, in_flat_map. cbn [fst snd In].
    rewrite in_app_iff, in_concat_zipp, in_concat_map. split.
    + intros [[-> H]|[(x & Hx & H)|(x & Hx & H)]].
      * split; [left; reflexivity|exact H].
      * apply IHa in H; [|eapply slots_pos_in; exact Hx]. destruct H as [H1 H2]. apply enter_none in H2. destruct H2 as [H2 H3].
        split; [|exact H3]. right. left. exists x. split; [exact Hx|]. apply in_minus. split; assumption.
      * apply IHk in H; [|exact Hx]. destruct H as [H1 H2]. apply enter_none in H2. destruct H2 as [H2 H3].
        split; [|exact H3]. right. right. exists x. split; [exact Hx|]. apply in_minus. split; assumption.
    + intros [[->|[(x & Hx & H)|(x & Hx & H)]] Hm].
      * left. split; [reflexivity|exact Hm].
      * apply in_minus in H. destruct H as [H1 H2]. right. left. exists x. split; [exact Hx|].
        apply IHa; [eapply slots_pos_in; exact Hx|]. split; [exact H1|]. apply enter_none. split; assumption.
      * apply in_minus in H. destruct H as [H1 H2]. right. right. exists x. split; [exact Hx|].
        apply IHk; [exact Hx|]. split; [exact H1|]. apply enter_none. split; assumption.
  - rewrite flat_map_map, !in_flat_map. rewrite Forall_forall in IHl. split.
    + intros (x & Hx & H). apply IHl in H; [|exact Hx]. destruct H as [H1 H2]. split; [exists x; split; assumption|exact H2].
    + intros [(x & Hx & H) Hm]. exists x. split; [exact Hx|]. apply IHl; [exact Hx|]. split; assumption.
Qed.

Lemma alpha_fv t u : alpha sigs t u -> forall v, In v (fv sigs t) <-> In v (fv sigs u).
Proof.
  intros H v. pose proof (cfv_canon t no_names v) as H1. pose proof (cfv_canon u no_names v) as H2.
  unfold alpha in H. rewrite H in H1. unfold no_names in *. tauto.
Qed.
Lemma alpha_fvo t u : alpha sigs t u -> forall v, In v (fvo sigs t) <-> In v (fvo sigs u).
Proof.
  intros H v. pose proof (cfvo_canon t no_names v) as H1. pose proof (cfvo_canon u no_names v) as H2.
  unfold alpha in H. rewrite H in H1. unfold no_names in *. tauto.
Qed.

(** The canonical form depends on the names of free operations only. *)
Lemma canon_fvo t : forall m m', (forall v, In v (fvo sigs t) -> m v = m' v) -> canon sigs m t = canon sigs m' t.
Proof.
  induction t as [z|o|o a k IHa IHk|c l IHl] using expr_ind2; intros m m' H; cbn [canon fvo] in *; try reflexivity.
  - unfold label. rewrite H by (left; reflexivity). reflexivity.
  - assert (El : label m o = label m' o) by (unfold label; rewrite (H o) by (left; reflexivity); reflexivity).
    rewrite El. set (s := sigs (base o)) in *. set (sl := slots s a k) in *. rewrite Forall_forall in IHa, IHk. f_equal.
    + rewrite !zipp_slots. apply map_ext_in. intros x Hx. apply IHa; [eapply slots_pos_in; exact Hx|].
      intros v Hv. unfold enter. destruct (memo v (scope s sl (fst x))) eqn:E; [reflexivity|].
      rewrite H; [reflexivity|]. right. apply in_or_app. left. apply in_concat_zipp. exists x. split; [exact Hx|].
      apply in_minus. split; [exact Hv|apply memo_notin; exact E].
    + apply map_ext_in. intros x Hx. f_equal. apply IHk; [exact Hx|].
      intros v Hv. unfold enter. destruct (memo v (scope s sl (kw_param s (fst x)))) eqn:E; [reflexivity|].
      rewrite H; [reflexivity|]. right. apply in_or_app. right. apply in_concat_map. exists x. split; [exact Hx|].
      apply in_minus. split; [exact Hv|apply memo_notin; exact E].
  - f_equal. apply map_ext_in. intros e He. apply (proj1 (Forall_forall _ _) IHl e He). intros v Hv. apply H.
    apply in_flat_map. exists e. split; assumption.
Qed.

(** ** Bound variables of renamed and constructed terms *)

Lemma bv_ops t : incl (bv sigs t) (ops t).
Proof.
  induction t as [z|o|o a k IHa IHk|c l IHl] using expr_ind2; cbn [bv ops]; try (intros x []; fail).
  - rewrite Forall_forall in IHa, IHk. intros v Hv. apply in_app_or in Hv. destruct Hv as [Hv|Hv].
    + apply binders_in, raw_binders_ops in Hv. destruct Hv as (x & Hx & Hv). right. apply in_or_app. apply slots_in in Hx.
      destruct Hx as [Hx|Hx]; [left; apply in_flat_map; exists (snd x); split; assumption|].
      right. apply in_map_iff in Hx. destruct Hx as (y & Ey & Hy). apply in_flat_map. exists y. rewrite Ey. split; assumption.
    + right. apply in_app_or in Hv. apply in_or_app. destruct Hv as [Hv|Hv]; [left|right]; apply in_flat_map in Hv;
        destruct Hv as (e & He & Hv); apply in_flat_map; exists e; (split; [exact He|]); [apply IHa|apply IHk]; assumption.
  - rewrite Forall_forall in IHl. intros v Hv. apply in_flat_map in Hv. destruct Hv as (e & He & Hv).
    apply in_flat_map. exists e. split; [exact He|]. apply IHl; assumption.
Qed.

Lemma bv_rename r t : (forall v, base (r v) = base v) -> walkable t = true -> inj_on (ops t) r ->
  forall v, In v (bv sigs (rename r t)) <-> In v (map r (bv sigs t)).
Proof.
  intros Hb. induction t as [z|o|o a k IHa IHk|c l IHl] using expr_ind2; cbn [bv rename walkable ops]; intros Hw Hinj v; try reflexivity.
  - apply andb_true_iff in Hw. destruct Hw as [Hwa Hwk]. rewrite forallb_forall in Hwa, Hwk.
    rewrite Forall_forall in IHa, IHk. rewrite Hb. set (s := sigs (base o)). rewrite slots_map. set (sl := slots s a k).
    assert (Hraw : incl (raw_binders s sl) (o :: flat_map ops a ++ flat_map (fun x => ops (snd x)) k)).
    { intros x Hx. apply raw_binders_ops in Hx. destruct Hx as (y & Hy & Hx). right. apply in_or_app.
      apply slots_in in Hy. destruct Hy as [Hy|Hy].
      - left. apply in_flat_map. exists (snd y). split; assumption.
      - right. apply in_map_iff in Hy. destruct Hy as (z & Ez & Hz). apply in_flat_map. exists z. rewrite Ez. split; assumption. }
    assert (HU : binders s (map (fun x => (fst x, rename r (snd x))) sl) = map r (binders s sl)).
    { apply binders_ren; [|intros x y Hx Hy; apply Hinj; apply Hraw; assumption].
      assert (Hwsl : forall x, In x sl -> walkable (snd x) = true).
      { intros x Hx. apply slots_in in Hx. destruct Hx as [Hx|Hx]; [apply Hwa; exact Hx|].
        apply in_map_iff in Hx. destruct Hx as (y & <- & Hy). apply Hwk. exact Hy. }
      clear -Hwsl. induction sl as [|x sl IH]; [constructor|]. cbn [map]. constructor.
      - split; [reflexivity|]. intros q _ _. apply ops_of_rename. apply Hwsl. left. reflexivity.
      - apply IH. intros y Hy. apply Hwsl. right. exact Hy. }
    rewrite HU, !map_app, !in_app_iff, !flat_map_map, !map_flat_map, !in_flat_map.
    assert (GA : forall e, In e a -> (In v (bv sigs (rename r e)) <-> In v (map r (bv sigs e)))).
    { intros e He. apply IHa; [exact He|apply Hwa; exact He|]. intros x y Hx Hy.
      apply Hinj; right; apply in_or_app; left; apply in_flat_map; exists e; split; assumption. }
    assert (GK : forall e, In e k -> (In v (bv sigs (rename r (snd e))) <-> In v (map r (bv sigs (snd e))))).
    { intros e He. apply IHk; [exact He|apply Hwk; exact He|]. intros x y Hx Hy.
      apply Hinj; right; apply in_or_app; right; apply in_flat_map; exists e; split; assumption. }
    cbn [snd]. split; (intros [H|[(e & He & H)|(e & He & H)]]; [left; exact H|right; left|right; right]); exists e; (split; [exact He|]);
      first [apply GA; assumption|apply GK; assumption].
  - destruct (walks c); cbn [bv].
    + rewrite forallb_forall in Hw. rewrite Forall_forall in IHl. rewrite flat_map_map, map_flat_map, !in_flat_map.
      assert (GA : forall e, In e l -> (In v (bv sigs (rename r e)) <-> In v (map r (bv sigs e)))).
      { intros e He. apply IHl; [exact He|apply Hw; exact He|]. intros x y Hx Hy.
        apply Hinj; apply in_flat_map; exists e; split; assumption. }
      split; intros (e & He & H); exists e; (split; [exact He|]); apply GA; assumption.
    + destruct (flat_map ops l) eqn:E; [|discriminate Hw].
      assert (E2 : forall x, ~ In x (flat_map (bv sigs) l)).
      { intros x Hx. apply in_flat_map in Hx. destruct Hx as (e & He & Hx). apply bv_ops in Hx.
        rewrite (flat_map_nil_in _ _ E _ He) in Hx. destruct Hx. }
      split; intros H; exfalso; [exact (E2 _ H)|]. apply in_map_iff in H. destruct H as (y & _ & Hy). exact (E2 _ Hy).
Qed.

Lemma bv_ren o a k n U : node sigs o a k n U ->
  let s := sigs (base o) in let sl := slots s a k in
  forall v, In v (bv sigs (ETerm o (ren_a s sl (fresh_ren n U) a) (ren_k s sl (fresh_ren n U) k))) ->
  n <= copy v \/ exists x, In x sl /\ In v (bv sigs (snd x)).
Proof.
  intros Hnd s sl v Hv. cbn [bv] in Hv. fold s in Hv.
  pose proof (binders_ren_node Hnd) as HU. cbv zeta in HU. fold s in HU. fold sl in HU. rewrite HU in Hv. clear HU.
  apply in_app_or in Hv. destruct Hv as [Hv|Hv].
  - left. apply in_map_iff in Hv. destruct Hv as (x & <- & Hx). apply (nd_set Hnd) in Hx. rewrite fresh_in by exact Hx. cbn [copy]. lia.
  - assert (G : forall p e, In (p, e) sl -> In v (bv sigs (rename (restrict (fresh_ren n U) (scope s sl p)) e)) ->
       n <= copy v \/ exists x, In x sl /\ In v (bv sigs (snd x))).
    { intros p e Hi H. apply bv_rename in H.
      - apply in_map_iff in H. destruct H as (w & <- & Hw). unfold restrict.
        destruct (memo w (scope s sl p)) eqn:E; [left|right; exists (p, e); split; assumption].
        apply memo_in in E. rewrite fresh_in by (apply (node_scope p Hnd); exact E). cbn [copy]. lia.
      - intros x. apply restrict_base, fresh_base.
      - exact (nd_walk Hnd _ Hi).
      - apply fresh_inj; [exact (node_scope p Hnd)|exact (nd_below Hnd _ Hi)]. }
    apply in_app_or in Hv. destruct Hv as [Hv|Hv]; apply in_flat_map in Hv; destruct Hv as (e & He & Hv).
    + unfold ren_a in He. rewrite zipp_slots in He. apply in_map_iff in He. destruct He as ([p e0] & <- & Hi). cbn [fst snd] in Hv.
      apply (G p e0); [unfold sl, slots; apply in_or_app; left; exact Hi|exact Hv].
    + unfold ren_k in He. apply in_map_iff in He. destruct He as (x & <- & Hi). cbn [fst snd] in Hv.
      apply (G (kw_param s (fst x)) (snd x)); [apply slots_of_in_k; exact Hi|exact Hv].
Qed.

(** ** Construction from arbitrary arguments *)

Lemma defdata_node o a k n t n' : NoDup (map fst k) -> defdata sigs o a k n = Ok (t, n') ->
  let s := sigs (base o) in
  exists b, bind s a k = Ok b /\
  let a0 := args_of s b in let k0 := kwargs_of s b in
  ((forall e, In e (a0 ++ map snd k0) -> walkable e = true /\ below n e) ->
   exists U, node sigs o a0 k0 n U /\ NoDup U /\ n' = n + List.length U /\
     t = ETerm o (ren_a s (slots s a0 k0) (fresh_ren n U) a0) (ren_k s (slots s a0 k0) (fresh_ren n U) k0) /\
     normal s (List.length a0) (map fst k0) /\ exists Ba Bk, fvs_rule s a0 k0 = Ok (Ba, Bk)).
Proof.
  intros Hk H s. destruct (defdata_spec sigs Hsigs _ _ _ _ Hk H) as (b & U & Hb & Hn & Hf & HU & Hnd & Hn' & Ht).
  fold s in Hb, Hn, Hf, HU, Ht. exists b. split; [exact Hb|]. cbv zeta. intros Hall. exists U.
  assert (Hsl : forall x, In x (slots s (args_of s b) (kwargs_of s b)) -> walkable (snd x) = true /\ below n (snd x)).
  { intros x Hx. apply Hall. apply in_or_app. apply slots_in in Hx. exact Hx. }
  repeat split; try assumption.
  - intros Hv. apply HU. exact Hv.
  - intros Hv. apply HU. exact Hv.
  - intros x Hx. apply Hsl. exact Hx.
  - intros x Hx. apply (Hsl x Hx).
  - destruct Hn as (H1 & H2 & extra & H3). exact H1.
  - destruct Hn as (H1 & H2 & extra & H3). exact H2.
  - destruct Hn as (H1 & H2 & H3). exact H3.
Qed.

(** ** Evaluation *)

Definition nullary (o : op) : Prop := params (sigs (base o)) = [].

Record henv (h : env) (n : nat) : Prop := {
  he_null : forall o v, h o = Some v -> nullary o;
  he_wf : forall o v, h o = Some v -> wf sigs v;
  he_ext : forall o v, h o = Some v -> extract v = [];
  he_below : forall o v, h o = Some v -> below n v }.

(** A name that is neither replaced nor free in a replacement. *)
Definition avoids (h : env) (x : op) : Prop :=
  h x = None /\ forall o v, h o = Some v -> ~ In x (fvo sigs v).

Definition hc (h : env) (o : op) : option cexpr := option_map (canon sigs no_names) (h o).

Record evals (h : env) (n0 n : nat) (t t' : expr) : Prop := {
  ev_below : below n t';
  ev_wf : wf sigs t';
  ev_ops : forall q, ops_of q t' = ops_of q t;
  ev_bv : forall x, In x (bv sigs t') -> n0 <= copy x \/ exists o v, h o = Some v /\ In x (bv sigs v);
  ev_canon : forall m, (forall x, m x <> None -> avoids h x) -> canon sigs m t' = csubst (hc h) (canon sigs m t) }.

Lemma below_mono n n' e : n <= n' -> below n e -> below n' e.
Proof. intros H Hb v Hv. specialize (Hb v Hv). lia. Qed.
Lemma henv_mono h n n' : n <= n' -> henv h n -> henv h n'.
Proof.
  intros H [H1 H2 H3 H4]. constructor; try assumption. intros o v Hv. eapply below_mono; [exact H|]. eapply H4. exact Hv.
Qed.
Lemma evals_mono h n0 n0' n n' t t' : n0' <= n0 -> n <= n' -> evals h n0 n t t' -> evals h n0' n' t t'.
Proof.
  intros H0 H [H1 H2 H3 H4 H5]. constructor; try assumption.
  - eapply below_mono; eassumption.
  - intros x Hx. destruct (H4 x Hx) as [Hc|Hc]; [left; lia|right; exact Hc].
Qed.

Lemma normal_nullary o (a : args) (k : kwargs) : nullary o -> normal (sigs (base o)) (List.length a) (map fst k) -> a = [] /\ k = [].
Proof.
  intros Hp (H1 & H2 & extra & H3 & H4 & _). unfold nullary, params in Hp.
  apply app_eq_nil in Hp. destruct Hp as [E1 Hp]. apply app_eq_nil in Hp. destruct Hp as [E2 Hp].
  apply app_eq_nil in Hp. destruct Hp as [E3 Hp]. apply app_eq_nil in Hp. destruct Hp as [E4 E5].
  destruct (varpos (sigs (base o))); [discriminate E3|]. destruct (varkw (sigs (base o))); [discriminate E5|].
  rewrite E1, E2, E4 in *. specialize (H2 eq_refl). specialize (H4 eq_refl). subst extra. cbn in H2, H3.
  destruct a; [|discriminate H2]. destruct k; [|discriminate H3]. split; reflexivity.
Qed.

Lemma extract_nil_ops v : extract v = [] -> forall q, ops_of q v = [].
Proof.
  intros H q. unfold ops_of. destruct (isvar q); [|exact H]. destruct v; try reflexivity. discriminate H.
Qed.

Lemma mapm_evals h n0 : forall l n,
  (forall e, In e l -> forall n, n0 <= n -> henv h n -> below n e ->
     exists t' n', eval_under sigs h e n = Ok (t', n') /\ n <= n' /\ evals h n n' e t') ->
  n0 <= n -> henv h n -> (forall e, In e l -> below n e) ->
  exists l' n', mapm (eval_under sigs h) l n = Ok (l', n') /\ n <= n' /\ Forall2 (evals h n n') l l'.
Proof.
  induction l as [|e l IH]; intros n H Hn0 Hh Hb.
  - exists [], n. split; [reflexivity|]. split; [lia|constructor].
  - destruct (H e (or_introl eq_refl) n Hn0 Hh (Hb e (or_introl eq_refl))) as (e' & n1 & E1 & L1 & R1).
    destruct (IH n1) as (l' & n2 & E2 & L2 & R2).
    + intros e0 He0. apply H. right. exact He0.
    + lia.
    + eapply henv_mono; eassumption.
    + intros e0 He0. eapply below_mono; [exact L1|]. apply Hb. right. exact He0.
    + exists (e' :: l'), n2. cbn [mapm]. rewrite E1, E2. split; [reflexivity|]. split; [lia|]. constructor.
      * eapply evals_mono; [|exact L2|exact R1]. lia.
      * eapply Forall2_impl; [|exact R2]. intros x y Hxy. eapply evals_mono; [|apply Nat.le_refl|exact Hxy]. exact L1.
Qed.

Lemma mapk_evals h n0 : forall (l : kwargs) n,
  (forall e, In e l -> forall n, n0 <= n -> henv h n -> below n (snd e) ->
     exists t' n', eval_under sigs h (snd e) n = Ok (t', n') /\ n <= n' /\ evals h n n' (snd e) t') ->
  n0 <= n -> henv h n -> (forall e, In e l -> below n (snd e)) ->
  exists l' n', mapk (eval_under sigs h) l n = Ok (l', n') /\ n <= n' /\
    Forall2 (fun x x' => fst x' = fst x /\ evals h n n' (snd x) (snd x')) l l'.
Proof.
  induction l as [|e l IH]; intros n H Hn0 Hh Hb.
  - exists [], n. split; [reflexivity|]. split; [lia|constructor].
  - destruct (H e (or_introl eq_refl) n Hn0 Hh (Hb e (or_introl eq_refl))) as (e' & n1 & E1 & L1 & R1).
    destruct (IH n1) as (l' & n2 & E2 & L2 & R2).
    + intros e0 He0. apply H. right. exact He0.
    + lia.
    + eapply henv_mono; eassumption.
    + intros e0 He0. eapply below_mono; [exact L1|]. apply Hb. right. exact He0.
    + exists ((fst e, e') :: l'), n2. cbn [mapk]. rewrite E1, E2. split; [reflexivity|]. split; [lia|]. constructor.
      * split; [reflexivity|]. cbn [snd]. eapply evals_mono; [|exact L2|exact R1]. lia.
      * eapply Forall2_impl; [|exact R2]. intros x y [Hf Hxy]. split; [exact Hf|].
        eapply evals_mono; [|apply Nat.le_refl|exact Hxy]. exact L1.
Qed.

Lemma csubst_other h l a k : (forall o, l = LFree o -> h o <> None -> a = [] -> k = [] -> False) ->
  csubst h (CTerm l a k) = CTerm l (map (csubst h) a) (map (fun x => (fst x, csubst h (snd x))) k).
Proof.
  intros H. cbn [csubst]. destruct l as [o|u i b]; [|reflexivity].
  destruct a as [|x a]; [|reflexivity]. destruct k as [|x k]; [|reflexivity].
  destruct (h o) as [v|] eqn:E; [|reflexivity]. exfalso. apply (H o); try reflexivity. rewrite E. discriminate.
Qed.

Lemma scope_same s sl sl' p : Forall2 (slot_ren s (fun x => x)) sl sl' -> scope s sl' p = scope s sl p.
Proof. intros H. rewrite (scope_ren p H). apply map_id. Qed.
Lemma binders_same s sl sl' : Forall2 (slot_ren s (fun x => x)) sl sl' -> binders s sl' = binders s sl.
Proof. intros H. rewrite (binders_ren H); [apply map_id|]. intros x y _ _ E. exact E. Qed.

Lemma slots_pos_forall2 (R : expr -> expr -> Prop) vp a a' : Forall2 R a a' -> forall ps,
  Forall2 (fun x x' => fst x' = fst x /\ R (snd x) (snd x')) (slots_pos ps vp a) (slots_pos ps vp a').
Proof.
  intros H. induction H as [|e e' a a' He _ IH]; intros ps; [constructor|].
  destruct ps as [|p ps]; cbn [slots_pos]; constructor; try (split; [reflexivity|exact He]); apply IH.
Qed.

Theorem eval_subst h t : wf sigs t -> (forall x, In x (bv sigs t) -> avoids h x) ->
  forall n, henv h n -> below n t ->
  exists t' n', eval_under sigs h t n = Ok (t', n') /\ n <= n' /\ evals h n n' t t'.
Proof.
  induction t as [z|o|o a k IHa IHk|c l IHl] using expr_ind2; intros Hwf Hbv n Hh Hb.
  - exists (EConst z), n. split; [reflexivity|]. split; [lia|]. constructor; [exact Hb|constructor|reflexivity|intros x []|reflexivity].
  - exists (EOp o), n. split; [reflexivity|]. split; [lia|]. constructor; [exact Hb|constructor|reflexivity|intros x []|reflexivity].
  - inversion Hwf as [| |o' a' k' Ba Bk Hn Hf Ha Hk| |]; subst. rewrite Forall_forall in IHa, IHk, Ha, Hk.
    set (s := sigs (base o)) in *. cbn [bv] in Hbv. fold s in Hbv.
    destruct (h o) as [v|] eqn:Eh.
    { (* a replaced variable *)
      destruct (@normal_nullary o a k (he_null Hh _ Eh) Hn) as [-> ->].
      exists v, n. split; [|split; [lia|]].
      - cbn [eval_under evaluate mapm mapk]. unfold call_op. rewrite Eh. reflexivity.
      - constructor.
        + exact (he_below Hh _ Eh).
        + exact (he_wf Hh _ Eh).
        + intros q. rewrite (extract_nil_ops _ (he_ext Hh _ Eh)). unfold ops_of. destruct (isvar q); reflexivity.
        + intros x Hx. right. exists o, v. split; assumption.
        + intros m Hm. cbn [canon slots]. assert (Emo : m o = None).
          { destruct (m o) as [y|] eqn:E; [|reflexivity]. assert (Hne : m o <> None) by (rewrite E; discriminate).
            destruct (Hm o Hne) as [Hn1 _]. congruence. }
          unfold label. rewrite Emo. cbn [map csubst]. fold s.
          change (zipp (fun p e => canon sigs (enter m (binders s (slots s [] [])) (scope s (slots s [] []) p)) e)
                    (varpos s) (posonly s ++ poskw s) []) with (@nil cexpr).
          unfold hc. rewrite Eh. cbn [option_map]. apply canon_fvo. intros x Hx. unfold no_names.
          destruct (m x) as [y|] eqn:E; [|reflexivity]. assert (Hne : m x <> None) by (rewrite E; discriminate).
          destruct (Hm x Hne) as [_ Hn2]. exfalso. exact (Hn2 _ _ Eh Hx). }
    assert (HbA : forall e, In e a -> below n e).
    { intros e He v Hv. apply Hb. cbn [ops]. right. apply in_or_app. left. apply in_flat_map. exists e. split; assumption. }
    assert (HbK : forall e, In e k -> below n (snd e)).
    { intros e He v Hv. apply Hb. cbn [ops]. right. apply in_or_app. right. apply in_flat_map. exists e. split; assumption. }
    destruct (@mapm_evals h n a n) as (a' & n1 & E1 & L1 & R1); [|lia|exact Hh|exact HbA|].
    { intros e He n2 Hn2 Hh2 Hb2. apply IHa; [exact He|apply Ha; exact He| |exact Hh2|exact Hb2].
      intros x Hx. apply Hbv. apply in_or_app. right. apply in_or_app. left. apply in_flat_map. exists e. split; assumption. }
    destruct (@mapk_evals h n k n1) as (k' & n2 & E2 & L2 & R2); [|lia|eapply henv_mono; eassumption| |].
    { intros e He n3 Hn3 Hh3 Hb3. apply IHk; [exact He|apply Hk; exact He| |exact Hh3|exact Hb3].
      intros x Hx. apply Hbv. apply in_or_app. right. apply in_or_app. right. apply in_flat_map. exists e. split; assumption. }
    { intros e He. eapply below_mono; [exact L1|]. apply HbK. exact He. }
    assert (R1' : Forall2 (evals h n n2) a a').
    { eapply Forall2_impl; [|exact R1]. intros x y Hxy. eapply evals_mono; [|exact L2|exact Hxy]. lia. }
    assert (R2' : Forall2 (fun x x' => fst x' = fst x /\ evals h n n2 (snd x) (snd x')) k k').
    { eapply Forall2_impl; [|exact R2]. intros x y [Hxf Hxy]. split; [exact Hxf|]. eapply evals_mono; [|apply Nat.le_refl|exact Hxy]. lia. }
    clear R1 R2.
    (* slots of the evaluated arguments *)
    pose proof (slots_pos_forall2 (varpos s) R1' (posonly s ++ poskw s)) as SP.
    assert (SA : Forall2 (slot_ren s (fun x => x)) (slots_pos (posonly s ++ poskw s) (varpos s) a) (slots_pos (posonly s ++ poskw s) (varpos s) a')).
    { eapply Forall2_impl; [|exact SP]. intros x y [Hxf Hxy]. split; [exact Hxf|]. intros q _ _. rewrite map_id. apply (ev_ops Hxy). }
    assert (SK : Forall2 (fun x x' => fst x' = fst x /\ erel s (fun x => x) (kw_param s (fst x)) (snd x) (snd x')) k k').
    { eapply Forall2_impl; [|exact R2']. intros x y [Hxf Hxy]. split; [exact Hxf|]. intros q _ _. rewrite map_id. apply (ev_ops Hxy). }
    assert (SKs : Forall2 (slot_ren s (fun x => x)) (slots_kw s k) (slots_kw s k')).
    { clear -SK. unfold slots_kw. induction SK as [|x x' k k' [Hf He] _ IH]; [constructor|]. cbn [map]. constructor; [|exact IH].
      split; [cbn [fst]; rewrite Hf; reflexivity|]. cbn [fst snd]. exact He. }
    assert (SL : Forall2 (slot_ren s (fun x => x)) (slots s a k) (slots s a' k')) by (apply Forall2_app; assumption).
    destruct (@fvs_rule_rel s (fun x => x) a k a' k' Ba Bk (Hsigs _) Hn SA SK (fun x y _ _ E => E) Hf) as [F1 F2].
    set (Ba' := map (map (fun x => x)) Ba) in *. set (Bk' := map (fun x => (fst x, map (fun y => y) (snd x))) Bk) in *.
    pose proof (@defdata_normal sigs s a' k' Ba' Bk' (Hsigs _) F2 F1 o n2 eq_refl) as D. cbv zeta in D.
    set (U := nodup op_eq_dec (List.concat Ba' ++ List.concat (map snd Bk'))) in *.
    assert (EA : forall e', In e' a' -> exists e, In e a /\ evals h n n2 e e').
    { intros e' He. clear -R1' He. induction R1' as [|x y a a' Hxy _ IH]; [destruct He|].
      destruct He as [<-|He]; [exists x; split; [left; reflexivity|exact Hxy]|].
      destruct (IH He) as (e & H1 & H2). exists e. split; [right; exact H1|exact H2]. }
    assert (EK : forall e', In e' k' -> exists e, In e k /\ evals h n n2 (snd e) (snd e')).
    { intros e' He. clear -R2' He. induction R2' as [|x y k k' [_ Hxy] _ IH]; [destruct He|].
      destruct He as [<-|He]; [exists x; split; [left; reflexivity|exact Hxy]|].
      destruct (IH He) as (e & H1 & H2). exists e. split; [right; exact H1|exact H2]. }
    assert (ES : forall x, In x (slots s a' k') -> exists e, evals h n n2 e (snd x)).
    { intros x Hx. apply slots_in in Hx. destruct Hx as [Hx|Hx].
      - destruct (EA _ Hx) as (e & _ & He). exists e. exact He.
      - apply in_map_iff in Hx. destruct Hx as (y & Ey & Hy). destruct (EK _ Hy) as (e & _ & He). rewrite <- Ey. exists (snd e). exact He. }
    assert (Hnd : node sigs o a' k' n2 U).
    { constructor.
      - exact (union_binders _ _ (Hsigs _) F2 F1).
      - intros x Hx. destruct (ES x Hx) as [e He]. exact (wf_walkable (ev_wf He)).
      - intros x Hx. destruct (ES x Hx) as [e He]. exact (ev_below He). }
    assert (Ho : copy o < n2) by (assert (copy o < n) by (apply Hb; left; reflexivity); lia).
    set (t' := ETerm o (ren_a s (slots s a' k') (fresh_ren n2 U) a') (ren_k s (slots s a' k') (fresh_ren n2 U) k')) in *.
    exists t', (n2 + List.length U). split; [|split; [lia|]].
    + unfold eval_under in E1, E2 |- *. cbn [evaluate].
      rewrite E1, E2. unfold call_op. rewrite Eh. exact D.
    + constructor.
      * exact (below_ren Hnd Ho).
      * apply (wf_ren Hsigs Hnd F2 F1).
        -- apply Forall_forall. intros e' He. destruct (EA _ He) as (e & _ & Hev). exact (ev_wf Hev).
        -- apply Forall_forall. intros e' He. destruct (EK _ He) as (e & _ & Hev). exact (ev_wf Hev).
      * intros q. unfold ops_of, t'. destruct (isvar q); reflexivity.
      * intros x Hx. apply (bv_ren Hnd) in Hx. destruct Hx as [Hx|(y & Hy & Hx)]; [left; lia|].
        destruct (ES y Hy) as [e He]. exact (ev_bv He _ Hx).
      * intros m Hm. transitivity (canon sigs m (ETerm o a' k')); [exact (canon_ren m Hnd)|]. cbn [canon]. fold s.
        rewrite (binders_same SL). set (U0 := binders s (slots s a k)).
        assert (Hm' : forall p x, enter m U0 (scope s (slots s a k) p) x <> None -> avoids h x).
        { intros p x Hx. unfold enter in Hx. destruct (memo x (scope s (slots s a k) p)) eqn:E.
          - apply memo_in in E. apply Hbv. apply in_or_app. left. apply binders_in. eapply scope_binders. exact E.
          - apply Hm. destruct (m x); [discriminate|exact Hx]. }
        rewrite csubst_other.
        -- f_equal.
           ++ rewrite !zipp_slots, map_map.
              revert SP. generalize (slots_pos (posonly s ++ poskw s) (varpos s) a') as X'.
              generalize (slots_pos (posonly s ++ poskw s) (varpos s) a) as X.
              intros X X' HF. induction HF as [|x x' X X' [Hxf Hxy] _ IH]; [reflexivity|]. cbn [map]. f_equal; [|exact IH].
              rewrite Hxf, (scope_same (fst x) SL). apply (ev_canon Hxy). apply Hm'.
           ++ rewrite map_map. cbn [fst snd].
              assert (G : forall K K', Forall2 (fun x x' => fst x' = fst x /\ evals h n n2 (snd x) (snd x')) K K' ->
                map (fun x => (fst x, canon sigs (enter m U0 (scope s (slots s a' k') (kw_param s (fst x)))) (snd x))) K' =
                map (fun x => (fst x, csubst (hc h) (canon sigs (enter m U0 (scope s (slots s a k) (kw_param s (fst x)))) (snd x)))) K).
              { intros K K' HF. induction HF as [|x x' X X' [Hxf Hxy] _ IH]; [reflexivity|]. cbn [map]. f_equal; [|exact IH].
                rewrite Hxf. f_equal. rewrite (scope_same (kw_param s (fst x)) SL). apply (ev_canon Hxy). apply Hm'. }
              exact (G _ _ R2').
        -- intros o1 Hl Hho _ _. unfold label in Hl. destruct (m o) as [[u i]|]; [discriminate Hl|]. inversion Hl; subst o1.
           apply Hho. unfold hc. rewrite Eh. reflexivity.
  - inversion Hwf as [| | |c' l' Hc Hl|c' l' Hc Hl]; subst.
    + rewrite Forall_forall in IHl, Hl. cbn [bv ops] in *.
      destruct (@mapm_evals h n l n) as (l' & n1 & E1 & L1 & R1); [|lia|exact Hh| |].
      { intros e He n2 Hn2 Hh2 Hb2. apply IHl; [exact He|apply Hl; exact He| |exact Hh2|exact Hb2].
        intros x Hx. apply Hbv. apply in_flat_map. exists e. split; assumption. }
      { intros e He v Hv. apply Hb. cbn [ops]. apply in_flat_map. exists e. split; assumption. }
      exists (EColl c l'), n1. split; [|split; [exact L1|]].
      * unfold eval_under in E1 |- *. cbn [evaluate]. rewrite Hc, E1. reflexivity.
      * assert (EA : forall e', In e' l' -> exists e, In e l /\ evals h n n1 e e').
        { intros e' He. clear -R1 He. induction R1 as [|x y a a' Hxy _ IH]; [destruct He|].
          destruct He as [<-|He]; [exists x; split; [left; reflexivity|exact Hxy]|].
          destruct (IH He) as (e & H1 & H2). exists e. split; [right; exact H1|exact H2]. }
        constructor.
        -- intros v Hv. cbn [ops] in Hv. apply in_flat_map in Hv. destruct Hv as (e' & He & Hv).
           destruct (EA _ He) as (e & _ & Hev). exact (ev_below Hev _ Hv).
        -- apply WfColl; [exact Hc|]. apply Forall_forall. intros e' He. destruct (EA _ He) as (e & _ & Hev). exact (ev_wf Hev).
        -- intros q. unfold ops_of. destruct (isvar q) eqn:Eq; [reflexivity|]. cbn [extract]. destruct (extracts c); [|reflexivity].
           clear -R1 Eq. induction R1 as [|x y a a' Hxy _ IH]; [reflexivity|]. cbn [flat_map]. f_equal; [|exact IH].
           pose proof (ev_ops Hxy q) as Ho. unfold ops_of in Ho. rewrite Eq in Ho. exact Ho.
        -- intros x Hx. cbn [bv] in Hx. apply in_flat_map in Hx. destruct Hx as (e' & He & Hx).
           destruct (EA _ He) as (e & _ & Hev). exact (ev_bv Hev _ Hx).
        -- intros m Hm. cbn [canon csubst]. f_equal. rewrite map_map.
           clear -R1 Hm. induction R1 as [|x y a a' Hxy _ IH]; [reflexivity|]. cbn [map]. f_equal; [|exact IH].
           apply (ev_canon Hxy). exact Hm.
    + exists (EColl c l), n. split; [cbn [eval_under evaluate]; rewrite Hc; reflexivity|]. split; [lia|]. constructor.
      * exact Hb.
      * exact Hwf.
      * reflexivity.
      * intros x Hx. apply bv_ops in Hx. cbn [ops] in Hx. rewrite Hl in Hx. destruct Hx.
      * intros m _. cbn [canon csubst]. f_equal. rewrite map_map. apply map_ext_in. intros e He.
        pose proof (flat_map_nil_in _ _ Hl _ He) as Ho.
        assert (G : forall e, ops e = [] -> forall m, csubst (hc h) (canon sigs m e) = canon sigs m e).
        { clear. induction e as [z|o|o a k IHa IHk|c l IHl] using expr_ind2; intros Ho m; cbn [ops canon csubst] in *; try reflexivity; try discriminate Ho.
          f_equal. rewrite map_map. apply map_ext_in. intros e He. apply (proj1 (Forall_forall _ _) IHl e He).
          exact (flat_map_nil_in _ _ Ho _ He). }
        symmetry. apply G. exact Ho.
Qed.

End Subst.
