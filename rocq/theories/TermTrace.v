(** [trace]: the term of a function, applied, is what the function returns. *)
From Coq Require Import List ZArith String Bool Arith Lia.
From Verif Require Import TermModel TermSpec TermProofs TermScopes TermData TermEval TermSubst TermUser TermFvs TermBeta.
Import ListNotations.
Set Implicit Arguments.

(** ** Composition of substitutions *)

Lemma csubst_comp (G H K : op -> option cexpr) c :
  (forall o, In o (cfv c) -> match G o with Some w => K o = Some (csubst H w) | None => H o = K o end) ->
  csubst H (csubst G c) = csubst K c.
Proof.
  induction c as [z|l|l a k IHa IHk|c l IHl] using cexpr_ind2; intros Hyp.
  - reflexivity.
  - reflexivity.
  - rewrite Forall_forall in IHa, IHk.
    assert (Ea : map (csubst H) (map (csubst G) a) = map (csubst K) a).
    { rewrite map_map. apply map_ext_in. intros x Hx. apply IHa; [exact Hx|]. intros o Ho. apply Hyp. cbn [cfv].
      rewrite !in_app_iff, !in_flat_map. right. left. exists x. split; assumption. }
    assert (Ek : map (fun x => (fst x, csubst H (snd x))) (map (fun x => (fst x, csubst G (snd x))) k) = map (fun x => (fst x, csubst K (snd x))) k).
    { rewrite map_map. apply map_ext_in. intros x Hx. cbn [fst snd]. f_equal. apply IHk; [exact Hx|]. intros o Ho. apply Hyp. cbn [cfv].
      rewrite !in_app_iff, !in_flat_map. right. right. exists x. split; assumption. }
    destruct l as [o|u i b]; [|cbn [csubst]; rewrite Ea, Ek; reflexivity].
    destruct a as [|x a]; [|cbn [csubst]; rewrite Ea, Ek; reflexivity].
    destruct k as [|y k]; [|cbn [csubst]; rewrite Ek; reflexivity].
    cbn [csubst]. specialize (Hyp o). destruct (G o) as [w|].
    + rewrite Hyp by (left; reflexivity). reflexivity.
    + cbn [map csubst]. rewrite Hyp by (left; reflexivity). reflexivity.
  - cbn [csubst]. f_equal. rewrite map_map. apply map_ext_in. intros x Hx. rewrite Forall_forall in IHl. apply IHl; [exact Hx|].
    intros o Ho. apply Hyp. cbn [cfv]. apply in_flat_map. exists x. split; assumption.
Qed.

Lemma csubst_ext (h h' : op -> option cexpr) c : (forall o, h o = h' o) -> csubst h c = csubst h' c.
Proof. intros H. rewrite <- (csubst_none c) at 1. apply csubst_comp. intros o _. apply H. Qed.

(** ** Operations used as values *)
Fixpoint cfval (c : cexpr) : list op :=
  match c with
  | CConst _ => []
  | COp l => free_lab l
  | CTerm l a k => flat_map cfval a ++ flat_map (fun x => cfval (snd x)) k
  | CColl _ l => flat_map cfval l
  end.

Lemma cfval_canon sigs t : forall m v, In v (cfval (canon sigs m t)) <-> In v (fval sigs t) /\ m v = None.
Proof.
  induction t as [z|o|o a k IHa IHk|c l IHl] using expr_ind2; intros m v; cbn [canon cfval fval].
  - cbn; tauto.
  - rewrite free_label. cbn [In]. split; intros [H1 H2]; (split; [|exact H2]); [left; congruence|destruct H1 as [H1|[]]; congruence].
  - set (s := sigs (base o)). set (sl := slots s a k). rewrite Forall_forall in IHa, IHk.
    rewrite !in_app_iff, zipp_slots, flat_map_map, in_flat_map, flat_map_map, in_flat_map. cbn [fst snd].
    rewrite in_concat_zipp, in_concat_map. split.
    + intros [(x & Hx & H)|(x & Hx & H)].
      * apply IHa in H; [|eapply slots_pos_in; exact Hx]. destruct H as [H1 H2]. apply enter_none in H2. destruct H2 as [H2 H3].
        split; [|exact H3]. left. exists x. split; [exact Hx|]. apply in_minus. split; assumption.
      * apply IHk in H; [|exact Hx]. destruct H as [H1 H2]. apply enter_none in H2. destruct H2 as [H2 H3].
        split; [|exact H3]. right. exists x. split; [exact Hx|]. apply in_minus. split; assumption.
    + intros [[(x & Hx & H)|(x & Hx & H)] Hm].
      * apply in_minus in H. destruct H as [H1 H2]. left. exists x. split; [exact Hx|].
        apply IHa; [eapply slots_pos_in; exact Hx|]. split; [exact H1|]. apply enter_none. split; assumption.
      * apply in_minus in H. destruct H as [H1 H2]. right. exists x. split; [exact Hx|].
        apply IHk; [exact Hx|]. split; [exact H1|]. apply enter_none. split; assumption.
  - rewrite flat_map_map, !in_flat_map. rewrite Forall_forall in IHl. split.
    + intros (x & Hx & H). apply IHl in H; [|exact Hx]. destruct H as [H1 H2]. split; [exists x; split; assumption|exact H2].
    + intros [(x & Hx & H) Hm]. exists x. split; [exact Hx|]. apply IHl; [exact Hx|]. split; assumption.
Qed.

Lemma fval_fvo sigs t : incl (fval sigs t) (fvo sigs t).
Proof.
  induction t as [z|o|o a k IHa IHk|c l IHl] using expr_ind2; cbn [fval fvo]; try (apply incl_refl).
  - rewrite Forall_forall in IHa, IHk. intros v Hv. right. apply in_app_or in Hv. apply in_or_app. destruct Hv as [Hv|Hv].
    + left. apply in_concat_zipp in Hv. apply in_concat_zipp. destruct Hv as (x & Hx & Hv). exists x. split; [exact Hx|]. apply in_minus in Hv. apply in_minus.
      destruct Hv as [Hv Hn]. split; [|exact Hn]. apply IHa; [eapply slots_pos_in; exact Hx|exact Hv].
    + right. apply in_concat_map in Hv. apply in_concat_map. destruct Hv as (x & Hx & Hv). exists x. split; [exact Hx|]. apply in_minus in Hv. apply in_minus.
      destruct Hv as [Hv Hn]. split; [|exact Hn]. apply IHk; [exact Hx|exact Hv].
  - rewrite Forall_forall in IHl. intros v Hv. apply in_flat_map in Hv. destruct Hv as (e & He & Hv).
    apply in_flat_map. exists e. split; [exact He|]. apply IHl; assumption.
Qed.

Lemma cfval_csubst h c v : In v (cfval (csubst h c)) ->
  In v (cfval c) \/ exists o w, In o (cfv c) /\ h o = Some w /\ In v (cfval w).
Proof.
  induction c as [z|l|l a k IHa IHk|c l IHl] using cexpr_ind2; cbn [csubst].
  - intros [].
  - intros H. left. exact H.
  - rewrite Forall_forall in IHa, IHk. intros H.
    assert (G : In v (cfval (CTerm l (map (csubst h) a) (map (fun x => (fst x, csubst h (snd x))) k))) ->
      In v (cfval (CTerm l a k)) \/ exists o w, In o (cfv (CTerm l a k)) /\ h o = Some w /\ In v (cfval w)).
    { cbn [cfval cfv]. rewrite !flat_map_map, !in_app_iff, !in_flat_map. cbn [snd].
      intros [(x & Hx & Hv)|(x & Hx & Hv)].
      - destruct (IHa x Hx Hv) as [Hc|(o & w & Ho & Hw & Hc)]; [left; left; exists x; split; assumption|].
        right. exists o, w. rewrite !in_app_iff, !in_flat_map. split; [right; left; exists x; split; assumption|split; assumption].
      - destruct (IHk x Hx Hv) as [Hc|(o & w & Ho & Hw & Hc)]; [left; right; exists x; split; assumption|].
        right. exists o, w. rewrite !in_app_iff, !in_flat_map. split; [right; right; exists x; split; assumption|split; assumption]. }
    destruct l as [o|u i b]; [|exact (G H)]. destruct a; [|exact (G H)]. destruct k; [|exact (G H)].
    destruct (h o) as [w|] eqn:E; [|exact (G H)]. right. exists o, w. cbn. split; [left; reflexivity|split; [exact E|exact H]].
  - rewrite Forall_forall in IHl. cbn [cfval cfv]. rewrite flat_map_map, !in_flat_map. intros (x & Hx & Hv).
    destruct (IHl x Hx Hv) as [Hc|(o & w & Ho & Hw & Hc)]; [left; exists x; split; assumption|].
    right. exists o, w. rewrite in_flat_map. split; [exists x; split; assumption|split; assumption].
Qed.

(** ** Binding the arguments of a function without starred parameters *)

Lemma bind_poskw_pos : forall ps (vs : args) (kws : kwargs), List.length vs = List.length ps ->
  (forall p, In p ps -> ~ In (pname p) (map fst kws)) ->
  bind_poskw ps vs kws = Ok (map (fun x => (fst x, A1 (snd x))) (combine ps vs), [], kws).
Proof.
  induction ps as [|p ps IH]; intros [|v vs] kws Hl Hn; try discriminate Hl; [reflexivity|]. cbn [bind_poskw combine map fst snd].
  rewrite take_absent by (apply Hn; left; reflexivity).
  rewrite (IH vs kws (eq_add_S _ _ Hl)) by (intros q Hq; apply Hn; right; exact Hq). reflexivity.
Qed.

Lemma bind_poskw_kw (g : param -> expr) : forall ps rest,
  bind_poskw ps [] (map (fun p => (pname p, g p)) ps ++ rest) = Ok (map (fun p => (p, A1 (g p))) ps, [], rest).
Proof.
  induction ps as [|p ps IH]; intros rest; [reflexivity|]. cbn [bind_poskw map app take]. rewrite String.eqb_refl, IH. reflexivity.
Qed.
Lemma bind_kwonly_kw (g : param -> expr) : forall ps,
  bind_kwonly ps (map (fun p => (pname p, g p)) ps) = Ok (map (fun p => (p, A1 (g p))) ps, []).
Proof.
  induction ps as [|p ps IH]; [reflexivity|]. cbn [bind_kwonly map take]. rewrite String.eqb_refl, IH. reflexivity.
Qed.

Lemma take_spec name e : forall k : kwargs, NoDup (map fst k) -> In (name, e) k ->
  exists k', take name k = Some (e, k') /\ NoDup (map fst k') /\ forall x, In x k' <-> In x k /\ fst x <> name.
Proof.
  induction k as [|[s y] k IH]; intros Hnd Hi; [destruct Hi|]. cbn [map fst] in Hnd. inversion Hnd as [|? ? Hs Hnd']; subst. cbn [take].
  destruct (String.eqb s name) eqn:E.
  - apply String.eqb_eq in E. subst s. exists k. destruct Hi as [Hi|Hi].
    + inversion Hi; subst. split; [reflexivity|]. split; [exact Hnd'|]. intros [s x]. cbn [In fst]. split.
      * intros H. split; [right; exact H|]. intros ->. apply Hs. apply in_map_iff. exists (name, x). split; [reflexivity|exact H].
      * intros [[H|H] Hne]; [inversion H; subst; exfalso; apply Hne; reflexivity|exact H].
    + exfalso. apply Hs. apply in_map_iff. exists (name, e). split; [reflexivity|exact Hi].
  - destruct Hi as [Hi|Hi]; [inversion Hi; subst; rewrite String.eqb_refl in E; discriminate E|].
    destruct (IH Hnd' Hi) as (k' & E' & N' & H'). rewrite E'. exists ((s, y) :: k'). split; [reflexivity|]. split.
    + cbn [map fst]. constructor; [|exact N']. intros Hc. apply Hs. apply in_map_iff in Hc. destruct Hc as (x & Ex & Hx).
      apply H' in Hx. destruct Hx as [Hx _]. apply in_map_iff. exists x. split; assumption.
    + intros x. cbn [In]. rewrite H'. apply String.eqb_neq in E. split.
      * intros [<-|[H1 H2]]; [split; [left; reflexivity|exact E]|split; [right; exact H1|exact H2]].
      * intros [[H|H] Hne]; [left; exact H|right; split; assumption].
Qed.

Lemma bind_kwonly_any : forall ps (kws : kwargs), NoDup (map pname ps) -> NoDup (map fst kws) ->
  (forall name, In name (map fst kws) <-> In name (map pname ps)) ->
  exists b, bind_kwonly ps kws = Ok (b, []) /\
    forall p v, In (p, v) b <-> In p ps /\ exists e, v = A1 e /\ In (pname p, e) kws.
Proof.
  induction ps as [|p ps IH]; intros kws Hp Hk Hn.
  - destruct kws as [|[s e] kws]; [|exfalso; apply (proj1 (Hn s)); left; reflexivity].
    exists []. split; [reflexivity|]. intros p v. split; [intros []|intros [[] _]].
  - cbn [map] in Hp. inversion Hp as [|? ? Hp1 Hp2]; subst. cbn [bind_kwonly].
    assert (Hi : In (pname p) (map fst kws)) by (apply Hn; left; reflexivity).
    apply in_map_iff in Hi. destruct Hi as ([s e] & Es & Hi). cbn [fst] in Es. subst s.
    destruct (@take_spec (pname p) e kws Hk Hi) as (k' & E & N & Hk'). rewrite E.
    destruct (IH k' Hp2 N) as (b & Eb & Hb).
    { intros name. split.
      - intros H. apply in_map_iff in H. destruct H as (x & <- & Hx). apply Hk' in Hx. destruct Hx as [Hx Hne].
        assert (G : In (fst x) (map pname (p :: ps))) by (apply Hn; apply in_map; exact Hx).
        destruct G as [G|G]; [exfalso; apply Hne; symmetry; exact G|exact G].
      - intros H. assert (G : In name (map fst kws)) by (apply Hn; right; exact H).
        apply in_map_iff in G. destruct G as (x & <- & Hx). apply in_map. apply Hk'. split; [exact Hx|].
        intros Ex. apply Hp1. rewrite <- Ex. exact H. }
    rewrite Eb. exists ((p, A1 e) :: b). split; [reflexivity|]. intros q v. cbn [In]. rewrite Hb. split.
    + intros [H|[H1 (x & -> & H2)]].
      * inversion H; subst. split; [left; reflexivity|]. exists e. split; [reflexivity|exact Hi].
      * split; [right; exact H1|]. exists x. split; [reflexivity|]. apply Hk' in H2. destruct H2 as [H2 _]. exact H2.
    + intros [[<-|H1] (x & -> & H2)].
      * left. f_equal. f_equal. exact (NoDup_fst_fun kws Hk _ _ _ Hi H2).
      * right. split; [exact H1|]. exists x. split; [reflexivity|]. apply Hk'. split; [exact H2|]. cbn [fst].
        intros Ex. apply Hp1. rewrite <- Ex. apply in_map. exact H1.
Qed.

Section Trace.
Variable sigs : nat -> sig.
Hypothesis Hsigs : forall b, wf_sig (sigs b).
Variable d : op.
Hypothesis Hd : sigs (base d) = deffn_sig.

Definition pvars (g : string -> op) (ps : list param) : list op := map (fun p => g (pname p)) ps.

(** The function: no positional-only and no starred parameters, no keyword-only
    parameter called [body]; its body is a term of the program. *)
Record plain (f : func) (n : nat) : Prop := {
  pl_posonly : posonly (fsig f) = [];
  pl_varpos : varpos (fsig f) = None;
  pl_varkw : varkw (fsig f) = None;
  pl_wf : wf_sig (fsig f);
  pl_body : ~ In "body"%string (map pname (kwonly (fsig f)));
  pl_user : user sigs n (fbody f);
  pl_ext : extract (fbody f) = [];
  pl_distinct : NoDup (pvars (fvar f) (params (fsig f)));
  pl_vars : forall p, In p (params (fsig f)) -> copy (fvar f (pname p)) = 0 /\ nullary sigs (fvar f (pname p)) }.

Lemma plain_params f n : plain f n -> params (fsig f) = poskw (fsig f) ++ kwonly (fsig f).
Proof. intros H. unfold params. rewrite (pl_posonly H), (pl_varpos H), (pl_varkw H). cbn [opt_list app]. rewrite app_nil_r. reflexivity. Qed.

Lemma plain_names f n : plain f n -> NoDup (map pname (poskw (fsig f)) ++ map pname (kwonly (fsig f))).
Proof. intros H. pose proof (pl_wf H) as Hw. unfold wf_sig in Hw. rewrite (plain_params H), map_app in Hw. exact Hw. Qed.

(** Calling it with everything given: substitution for its parameters. *)
Lemma call_func_spec f n (vs : args) (kws : kwargs) m : plain f n -> n <= m -> 1 <= n ->
  List.length vs = List.length (poskw (fsig f)) -> NoDup (map fst kws) ->
  (forall name, In name (map fst kws) <-> In name (map pname (kwonly (fsig f)))) ->
  (forall e, In e (vs ++ map snd kws) -> user sigs m e /\ extract e = []) ->
  exists t m', call_func sigs f vs kws m = Ok (t, m') /\ m <= m' /\ user sigs m' t /\ extract t = [] /\
    canon sigs no_names t = csubst (hc sigs (lookup_sub (applied (pvars (fvar f) (poskw (fsig f)))
       (map pname (kwonly (fsig f))) (pvars (fvar f) (kwonly (fsig f))) vs kws))) (canon sigs no_names (fbody f)).
Proof.
  intros Hf Hm Hn Hlv Hk Hnames Hvs.
  destruct (NoDup_app_inv _ _ (plain_names Hf)) as (N1 & N2 & N3).
  destruct (@bind_kwonly_any (kwonly (fsig f)) kws N2 Hk Hnames) as (b & Eb & Hb).
  set (b0 := map (fun x => (fst x, A1 (snd x))) (combine (poskw (fsig f)) vs)).
  assert (Ebind : bind (fsig f) vs kws = Ok (b0 ++ b)).
  { unfold bind. rewrite (pl_posonly Hf). cbn [bind_posonly]. rewrite bind_poskw_pos; [|exact Hlv|].
    - rewrite (pl_varpos Hf), Eb, (pl_varkw Hf). cbn [opt_list map app]. rewrite app_nil_r. reflexivity.
    - intros p Hp Hc. apply Hnames in Hc. apply (N3 (pname p)); [apply in_map; exact Hp|exact Hc]. }
  unfold call_func. rewrite Ebind.
  set (L := map (fun pv => (fvar f (pname (fst pv)), arg_value (snd pv))) (b0 ++ b)).
  set (xs := pvars (fvar f) (poskw (fsig f))). set (ys := pvars (fvar f) (kwonly (fsig f))). set (kn := map pname (kwonly (fsig f))).
  assert (Hnd : NoDup (xs ++ ys)).
  { pose proof (pl_distinct Hf) as H. rewrite (plain_params Hf) in H. unfold pvars in H. rewrite map_app in H. exact H. }
  assert (HL : forall o e, In (o, e) L <-> In (o, e) (combine xs vs) \/ exists name, In (name, o) (combine kn ys) /\ In (name, e) kws).
  { intros o e. unfold L. rewrite map_app, in_app_iff.
    assert (E1 : map (fun pv => (fvar f (pname (fst pv)), arg_value (snd pv))) b0 = combine xs vs).
    { unfold b0, xs, pvars. clear. revert vs. induction (poskw (fsig f)) as [|p ps IH]; intros [|v vs]; try reflexivity.
      cbn [combine map fst snd arg_value]. f_equal. apply IH. }
    rewrite E1. assert (G : In (o, e) (map (fun pv => (fvar f (pname (fst pv)), arg_value (snd pv))) b) <-> exists name, In (name, o) (combine kn ys) /\ In (name, e) kws).
    { assert (C : forall name, In (name, o) (combine kn ys) <-> exists p, In p (kwonly (fsig f)) /\ pname p = name /\ fvar f name = o).
      { intros name. unfold kn, ys, pvars. clear. induction (kwonly (fsig f)) as [|p ps IH]; cbn [map combine In].
        - split; [intros []|intros (p & [] & _)].
        - rewrite IH. split.
          + intros [H|(q & Hq & H)]; [inversion H; subst; exists p; split; [left; reflexivity|split; reflexivity]|exists q; split; [right; exact Hq|exact H]].
          + intros (q & [<-|Hq] & Hn & Ho); [left; subst; reflexivity|right; exists q; split; [exact Hq|split; assumption]]. }
      rewrite in_map_iff. split.
      - intros ([p v] & E & Hp). cbn [fst snd] in E. apply Hb in Hp. destruct Hp as [Hp (x & -> & Hx)]. cbn [arg_value] in E. inversion E; subst.
        exists (pname p). split; [|exact Hx]. apply C. exists p. split; [exact Hp|split; reflexivity].
      - intros (name & H1 & H2). apply C in H1. destruct H1 as (p & Hp & <- & <-). exists (p, A1 e). cbn [fst snd arg_value]. split; [reflexivity|].
        apply Hb. split; [exact Hp|]. exists e. split; [reflexivity|exact H2]. }
    rewrite G. reflexivity. }
  pose proof (@subs_functional xs kn ys vs kws L Hnd Hk HL) as HF.
  set (A := applied xs kn ys vs kws). pose proof (@applied_in xs kn ys vs kws Hk) as HA. fold A in HA.
  pose proof (@subs_functional xs kn ys vs kws A Hnd Hk HA) as HFA.
  assert (HLA : forall o, lookup_sub L o = lookup_sub A o).
  { intros o. destruct (lookup_sub L o) as [e|] eqn:E1.
    - apply (lookup_sub_spec _ _ HF), HL, HA, (lookup_sub_spec _ _ HFA) in E1. symmetry. exact E1.
    - destruct (lookup_sub A o) as [e|] eqn:E2; [|reflexivity].
      apply (lookup_sub_spec _ _ HFA), HA, HL, (lookup_sub_spec _ _ HF) in E2. congruence. }
  assert (Henv : user_env sigs (lookup_sub L) m).
  { intros o v Hv. apply lookup_sub_in, HL in Hv.
    assert (Ho : In o (xs ++ ys) /\ In v (vs ++ map snd kws)).
    { destruct Hv as [H|(s & H1 & H2)].
      - split; apply in_or_app; left; [eapply in_combine_l; exact H|eapply in_combine_r; exact H].
      - split; apply in_or_app; right; [eapply in_combine_r; exact H1|]. apply in_map_iff. exists (s, v). split; [reflexivity|exact H2]. }
    destruct Ho as [Ho Hv']. destruct (Hvs _ Hv') as [Hu He].
    assert (Hp : exists p, In p (params (fsig f)) /\ o = fvar f (pname p)).
    { rewrite (plain_params Hf). unfold xs, ys, pvars in Ho. rewrite <- map_app in Ho. apply in_map_iff in Ho. destruct Ho as (p & <- & Hp).
      exists p. split; [exact Hp|reflexivity]. }
    destruct Hp as (p & Hp & ->). destruct (pl_vars Hf _ Hp) as [V1 V2]. split; [exact V1|]. split; [exact V2|]. split; assumption. }
  assert (Hub : user sigs m (fbody f)) by (eapply user_mono; [exact Hm|exact (pl_user Hf)]).
  destruct (@user_subst sigs Hsigs (lookup_sub L) m (fbody f)) as (t & m' & E & Le & Hu & Hc); [lia|exact Hub|exact Henv|].
  exists t, m'. split; [exact E|]. split; [exact Le|]. split; [exact Hu|]. split.
  - destruct (@eval_subst sigs Hsigs (lookup_sub L) (fbody f) (us_wf Hub)) with (n := m) as (t1 & m1 & E1 & _ & Ev).
    + intros x Hx. apply (@user_avoids sigs (lookup_sub L) m x Henv). exact (us_bv Hub _ Hx).
    + exact (user_henv Henv).
    + exact (us_below Hub).
    + rewrite E in E1. inversion E1; subst. pose proof (ev_ops Ev (mkparam "" false [] None)) as Ho. cbn in Ho. rewrite Ho. exact (pl_ext Hf).
  - rewrite Hc. apply csubst_ext. intros o. unfold hc. rewrite HLA. reflexivity.
Qed.

Lemma user_var n x : 1 <= n -> copy x = 0 -> nullary sigs x -> user sigs n (ETerm x [] []).
Proof.
  intros Hn Hx Hp.
  assert (Hs : exists r, sigs (base x) = mksig [] [] None [] None r).
  { unfold nullary, params in Hp. destruct (sigs (base x)) as [a b c e g r]. cbn [posonly poskw varpos kwonly varkw] in Hp.
    apply app_eq_nil in Hp. destruct Hp as [-> Hp]. apply app_eq_nil in Hp. destruct Hp as [-> Hp].
    apply app_eq_nil in Hp. destruct Hp as [Hc Hp]. apply app_eq_nil in Hp. destruct Hp as [-> Hg].
    destruct c; [discriminate Hc|]. destruct g; [discriminate Hg|]. exists r. reflexivity. }
  destruct Hs as [r Hs]. constructor.
  - apply WfTerm with (Ba := []) (Bk := []); [|rewrite Hs; reflexivity|constructor|constructor].
    rewrite Hs. split; [cbn; lia|]. split; [reflexivity|]. exists []. split; [reflexivity|]. split; [reflexivity|]. split; [constructor|intros y []].
  - intros v [<-|[]]. lia.
  - intros v Hv. cbn in Hv. destruct Hv as [<-|[]]. exact Hx.
  - intros v Hv. cbn [bv] in Hv. rewrite Hs in Hv. destruct Hv.
Qed.

Lemma args_of_plain f n (g : param -> expr) : plain f n ->
  let b := map (fun p => (p, A1 (g p))) (poskw (fsig f) ++ kwonly (fsig f)) in
  args_of (fsig f) b = map g (poskw (fsig f)) /\
  kwargs_of (fsig f) b = map (fun p => (pname p, g p)) (kwonly (fsig f)).
Proof.
  intros Hf b. destruct (NoDup_app_inv _ _ (plain_names Hf)) as (N1 & N2 & N3).
  assert (K0 : forall p, In p (poskw (fsig f)) -> is_kwonly (fsig f) p = false).
  { intros p Hp. unfold is_kwonly. destruct (existsb _ _) eqn:E; [|reflexivity]. apply existsb_exists in E. destruct E as (q & Hq & E).
    apply String.eqb_eq in E. exfalso. apply (N3 (pname p)); [apply in_map; exact Hp|]. rewrite <- E. apply in_map. exact Hq. }
  assert (K1 : forall p, In p (kwonly (fsig f)) -> is_kwonly (fsig f) p = true).
  { intros p Hp. unfold is_kwonly. apply existsb_exists. exists p. split; [exact Hp|apply String.eqb_refl]. }
  unfold args_of, kwargs_of, b. rewrite map_app, !flat_map_app, !flat_map_map. cbn [fst snd].
  rewrite (flat_map_ext_in (fun x => if is_kwonly (fsig f) x then [] else [g x]) (fun x => [g x]) (poskw (fsig f))) by (intros p Hp; rewrite K0 by exact Hp; reflexivity).
  rewrite (flat_map_ext_in (fun x => if is_kwonly (fsig f) x then [] else [g x]) (fun x => []) (kwonly (fsig f))) by (intros p Hp; rewrite K1 by exact Hp; reflexivity).
  rewrite (flat_map_ext_in (fun x => if is_kwonly (fsig f) x then [(pname x, g x)] else []) (fun x => []) (poskw (fsig f))) by (intros p Hp; rewrite K0 by exact Hp; reflexivity).
  rewrite (flat_map_ext_in (fun x => if is_kwonly (fsig f) x then [(pname x, g x)] else []) (fun x => [(pname x, g x)]) (kwonly (fsig f))) by (intros p Hp; rewrite K1 by exact Hp; reflexivity).
  clear. split.
  - replace (flat_map (fun _ : param => @nil expr) (kwonly (fsig f))) with (@nil expr) by (induction (kwonly (fsig f)); cbn; auto).
    rewrite app_nil_r. induction (poskw (fsig f)) as [|p l IH]; [reflexivity|]. cbn. rewrite IH. reflexivity.
  - replace (flat_map (fun _ : param => @nil (string * expr)) (poskw (fsig f))) with (@nil (string * expr)) by (induction (poskw (fsig f)); cbn; auto).
    cbn [app]. induction (kwonly (fsig f)) as [|p l IH]; [reflexivity|]. cbn. rewrite IH. reflexivity.
Qed.

Lemma combine3 {B} (g h : string -> op) (ps : list param) : forall (vs : list B) x y,
  List.length vs = List.length ps ->
  In (x, y) (combine (pvars g ps) (pvars h ps)) -> exists e, In (x, e) (combine (pvars g ps) vs) /\ In (y, e) (combine (pvars h ps) vs).
Proof.
  induction ps as [|p ps IH]; intros [|v vs] x y Hl H; try discriminate Hl; [destruct H|]. cbn [pvars map combine] in *.
  destruct H as [H|H].
  - inversion H; subst. exists v. split; left; reflexivity.
  - destruct (IH vs x y (eq_add_S _ _ Hl) H) as (e & H1 & H2). exists e. split; right; assumption.
Qed.

(** C45 *)
Theorem trace_spec f n new : plain f n -> 1 <= n ->
  NoDup (pvars new (params (fsig f))) ->
  (forall p, In p (params (fsig f)) -> copy (new (pname p)) = 0 /\ nullary sigs (new (pname p)) /\ ~ In (new (pname p)) (fvo sigs (fbody f))) ->
  exists F n1, trace sigs d f new n = Ok (F, n1) /\ n <= n1 /\
  forall (vs : args) (kws : kwargs) n2, n1 <= n2 ->
  List.length vs = List.length (poskw (fsig f)) -> NoDup (map fst kws) ->
  (forall name, In name (map fst kws) <-> In name (map pname (kwonly (fsig f)))) ->
  (forall e, In e (vs ++ map snd kws) -> user sigs n2 e /\ extract e = []) ->
  exists t u n3 n4, call_deffn sigs d F vs kws n2 = Some (Ok (t, n3)) /\ call_func sigs f vs kws n2 = Ok (u, n4) /\ alpha sigs t u.
Proof.
  intros Hf Hn Hnew Hfresh.
  destruct (NoDup_app_inv _ _ (plain_names Hf)) as (N1 & N2 & N3).
  set (ps := poskw (fsig f)) in *. set (qs := kwonly (fsig f)) in *.
  assert (Hpar : params (fsig f) = ps ++ qs) by exact (plain_params Hf). rewrite Hpar in *.
  set (xs := pvars new ps). set (ys := pvars new qs). set (kn := map pname qs).
  assert (Hxy : pvars new (ps ++ qs) = xs ++ ys) by (unfold pvars; apply map_app). rewrite Hxy in Hnew.
  assert (Hlk : List.length kn = List.length ys) by (unfold kn, ys, pvars; rewrite !map_length; reflexivity).
  assert (Hprop : forall x, In x (xs ++ ys) -> copy x = 0 /\ nullary sigs x /\ ~ In x (fvo sigs (fbody f))).
  { intros x Hx. rewrite <- Hxy in Hx. unfold pvars in Hx. apply in_map_iff in Hx. destruct Hx as (p & <- & Hp). exact (Hfresh p Hp). }
  unfold trace. rewrite (pl_varpos Hf), (pl_varkw Hf).
  set (g := fun p : param => EOp (new (pname p))).
  assert (Eb : bind (fsig f) [] (map (fun p => (pname p, EOp (new (pname p)))) (params (fsig f))) = Ok (map (fun p => (p, A1 (g p))) (ps ++ qs))).
  { unfold bind. rewrite (pl_posonly Hf), Hpar. cbn [bind_posonly]. rewrite map_app. change (fun p => (pname p, EOp (new (pname p)))) with (fun p => (pname p, g p)).
    fold ps. rewrite bind_poskw_kw. rewrite (pl_varpos Hf), (pl_varkw Hf). fold qs. rewrite bind_kwonly_kw. cbn [opt_list map app]. rewrite app_nil_r, map_app. reflexivity. }
  rewrite Eb. destruct (@args_of_plain f n g Hf) as [Ea Ek]. fold ps in Ea, Ek. fold qs in Ea, Ek. cbv zeta. rewrite Ea, Ek.
  set (vs0 := map call_var (map g ps)). set (kws0 := map (fun x => (fst x, call_var (snd x))) (map (fun p => (pname p, g p)) qs)).
  assert (Evs0 : vs0 = map (fun x => ETerm x [] []) xs) by (unfold vs0, xs, pvars; rewrite !map_map; reflexivity).
  assert (Ekws0 : kws0 = combine kn (map (fun x => ETerm x [] []) ys)).
  { unfold kws0, kn, ys, pvars, g. rewrite !map_map. cbn [fst snd call_var]. clear. induction qs as [|q l IH]; [reflexivity|]. cbn. rewrite IH. reflexivity. }
  assert (Ename0 : map fst kws0 = kn) by (rewrite Ekws0; apply map_fst_combine; rewrite map_length; exact Hlk).
  assert (Eval0 : map snd kws0 = map (fun x => ETerm x [] []) ys) by (rewrite Ekws0; apply map_snd_combine; rewrite map_length; exact Hlk).
  destruct (@call_func_spec f n vs0 kws0 n Hf (Nat.le_refl _) Hn) as (body & n1 & Ecall & Le1 & Hub & Hext & Hcb).
  { unfold vs0. rewrite !map_length. reflexivity. }
  { rewrite Ename0. exact N2. }
  { intros name. rewrite Ename0. reflexivity. }
  { intros e He. rewrite Evs0, Eval0, <- map_app in He. apply in_map_iff in He. destruct He as (x & <- & Hx).
    destruct (Hprop x Hx) as (H1 & H2 & _). split; [apply user_var; assumption|reflexivity]. }
  rewrite Ecall. fold ps in Hcb. fold qs in Hcb. fold kn in Hcb.
  set (px := pvars (fvar f) ps) in *. set (py := pvars (fvar f) qs) in *.
  assert (Hpd : NoDup (px ++ py)).
  { pose proof (pl_distinct Hf) as H. rewrite Hpar in H. unfold pvars in H. rewrite map_app in H. exact H. }
  set (G := applied px kn py vs0 kws0) in *.
  assert (HG : forall o e, In (o, e) G <-> In (o, e) (combine px vs0) \/ exists name, In (name, o) (combine kn py) /\ In (name, e) kws0)
    by (apply applied_in; rewrite Ename0; exact N2).
  pose proof (@subs_functional px kn py vs0 kws0 G Hpd) as HGF. rewrite Ename0 in HGF. specialize (HGF N2 HG).
  assert (Hgval : forall o e, In (o, e) G -> exists x, In x (xs ++ ys) /\ e = ETerm x [] []).
  { intros o e H. apply HG in H. destruct H as [H|(s & _ & H2)].
    - apply in_combine_r in H. rewrite Evs0 in H. apply in_map_iff in H. destruct H as (x & <- & Hx). exists x. split; [apply in_or_app; left; exact Hx|reflexivity].
    - assert (He : In e (map snd kws0)) by (apply in_map_iff; exists (s, e); split; [reflexivity|exact H2]).
      rewrite Eval0 in He. apply in_map_iff in He. destruct He as (x & <- & Hx). exists x. split; [apply in_or_app; right; exact Hx|reflexivity]. }
  replace (map g ps) with (map EOp xs) by (unfold xs, pvars; rewrite map_map; reflexivity).
  replace (map (fun p => (pname p, g p)) qs) with (kwvars kn ys)
    by (unfold kwvars, kn, ys, pvars, g; clear; induction qs as [|q l IH]; [reflexivity|cbn; rewrite IH; reflexivity]).
  destruct (@apply_fresh sigs Hsigs d Hd body xs kn ys n1) as (F & n2 & EF & Le2 & Happ).
  { lia. }
  { exact Hub. }
  { exact Hext. }
  { exact Hnew. }
  { intros x Hx. destruct (Hprop x Hx) as (H1 & H2 & H3). split; [exact H1|]. split; [exact H2|]. intros Hc.
    assert (Hc' : In x (cfval (canon sigs no_names body))) by (apply cfval_canon; split; [exact Hc|reflexivity]).
    rewrite Hcb in Hc'. apply cfval_csubst in Hc'. destruct Hc' as [Hc'|(o & w & _ & Hw & Hc')].
    - apply cfval_canon in Hc'. destruct Hc' as [Hc' _]. apply H3. apply fval_fvo. exact Hc'.
    - unfold hc in Hw. destruct (lookup_sub G o) as [e|] eqn:E; [|discriminate Hw]. cbn [option_map] in Hw. inversion Hw; subst.
      apply lookup_sub_in, Hgval in E. destruct E as (z & _ & ->). cbn in Hc'. exact Hc'. }
  { exact Hlk. }
  { exact N2. }
  { exact (pl_body Hf). }
  exists F, n2. split; [exact EF|]. split; [lia|]. intros vs kws n3 Hn3 Hlv Hk Hnames Hvs.
  assert (Hlx : List.length vs = List.length xs) by (unfold xs, pvars; rewrite map_length; exact Hlv).
  destruct (Happ vs kws n3 Hn3 Hlx Hk Hnames Hvs) as (t & n4 & Et & _ & _ & Hct).
  destruct (@call_func_spec f n vs kws n3 Hf) as (u & n5 & Eu & _ & _ & _ & Hcu); [lia|lia|exact Hlv|exact Hk|exact Hnames|exact Hvs|].
  exists t, u, n4, n5. split; [exact Et|]. split; [exact Eu|]. unfold alpha. rewrite Hct, Hcu, Hcb. fold ps. fold qs. fold px. fold py. fold kn.
  set (A := applied xs kn ys vs kws). set (K := applied px kn py vs kws).
  pose proof (@applied_in xs kn ys vs kws Hk) as HA. fold A in HA. pose proof (@subs_functional xs kn ys vs kws A Hnew Hk HA) as HAF.
  pose proof (@applied_in px kn py vs kws Hk) as HK. fold K in HK. pose proof (@subs_functional px kn py vs kws K Hpd Hk HK) as HKF.
  apply csubst_comp. intros o Ho. apply cfv_canon in Ho. destruct Ho as [Ho _]. unfold hc at 1.
  destruct (lookup_sub G o) as [w|] eqn:E; cbn [option_map].
  - apply lookup_sub_in in E. pose proof E as E'. apply Hgval in E'. destruct E' as (x & Hx & ->). cbn [canon zipp map csubst label no_names].
    assert (Hv : exists e, In (x, e) A /\ In (o, e) K).
    { apply HG in E. destruct E as [E|(s & E1 & E2)].
      - rewrite Evs0 in E. assert (E' : In (o, x) (combine px xs)).
        { clear -E. revert E. generalize xs. induction px as [|p l IH]; intros [|z zs] E; try (destruct E; fail). cbn [map combine] in *.
          destruct E as [E|E]; [inversion E; subst; left; reflexivity|right; apply IH; exact E]. }
        destruct (@combine3 expr (fvar f) new ps vs o x Hlv E') as (e & H1 & H2). exists e. split; [apply HA|apply HK]; left; assumption.
      - rewrite Ekws0 in E2. assert (E' : In (s, x) (combine kn ys)).
        { clear -E2. revert E2. generalize ys. induction kn as [|p l IH]; intros [|z zs] E; try (destruct E; fail). cbn [map combine] in *.
          destruct E as [E|E]; [inversion E; subst; left; reflexivity|right; apply IH; exact E]. }
        assert (Hs : In s (map fst kws)) by (apply Hnames; eapply in_combine_l; exact E').
        apply in_map_iff in Hs. destruct Hs as ([s' e] & Es & Hi). cbn [fst] in Es. subst s'.
        exists e. split; [apply HA|apply HK]; right; exists s; split; assumption. }
    destruct Hv as (e & H1 & H2). apply (lookup_sub_spec _ _ HAF) in H1. apply (lookup_sub_spec _ _ HKF) in H2. unfold hc. rewrite H1, H2. reflexivity.
  - unfold hc. f_equal.
    assert (Hno : ~ In o (px ++ py)).
    { intros Hc. assert (Hg : exists e, In (o, e) G).
      { apply in_app_or in Hc. destruct Hc as [Hc|Hc].
        - destruct (@in_combine_ex _ _ px vs0 o) as [e He]; [rewrite Evs0; unfold px, xs, pvars; rewrite !map_length; reflexivity|exact Hc|].
          exists e. apply HG. left. exact He.
        - unfold py, pvars in Hc. apply in_map_iff in Hc. destruct Hc as (q & <- & Hq).
          exists (ETerm (new (pname q)) [] []). apply HG. right. exists (pname q). split.
          + unfold kn, py, pvars. clear -Hq. induction qs as [|z l IH]; [destruct Hq|]. cbn [map combine]. destruct Hq as [<-|Hq]; [left; reflexivity|right; apply IH; exact Hq].
          + rewrite Ekws0. unfold kn, ys, pvars. clear -Hq. induction qs as [|z l IH]; [destruct Hq|]. cbn [map combine]. destruct Hq as [<-|Hq]; [left; reflexivity|right; apply IH; exact Hq]. }
      destruct Hg as [e Hg]. apply (lookup_sub_spec _ _ HGF) in Hg. congruence. }
    assert (Hno2 : ~ In o (xs ++ ys)).
    { intros Hc. destruct (Hprop o Hc) as (_ & _ & H). apply H. apply fv_fvo. exact Ho. }
    destruct (lookup_sub A o) as [e|] eqn:EA.
    + apply lookup_sub_in, HA in EA. exfalso. apply Hno2. apply in_or_app. destruct EA as [EA|(s & EA & _)]; [left; eapply in_combine_l; exact EA|right; eapply in_combine_r; exact EA].
    + destruct (lookup_sub K o) as [e|] eqn:EK; [|reflexivity].
      apply lookup_sub_in, HK in EK. exfalso. apply Hno. apply in_or_app. destruct EK as [EK|(s & EK & _)]; [left; eapply in_combine_l; exact EK|right; eapply in_combine_r; exact EK].
Qed.

End Trace.
