(** Terms a program can build: free variables are the program's, bound ones are
    generated. Consequences for construction and evaluation. *)
From Coq Require Import List ZArith String Bool Arith Lia.
From Verif Require Import TermModel TermSpec TermProofs TermScopes TermData TermEval TermSubst.
Import ListNotations.
Set Implicit Arguments.

(** ** Where bound arguments come from *)

Definition from (s : sig) (a : args) (k : kwargs) (e : expr) : Prop :=
  In e a \/ In e (map snd k) \/ exists p, In p (params s) /\ dflt p = Some e.

Lemma take_in name k e k' : take name k = Some (e, k') -> In e (map snd k) /\ incl (map snd k') (map snd k).
Proof.
  revert e k'. induction k as [|[n x] k IH]; intros e k' H; cbn [take] in H; [discriminate H|].
  destruct (String.eqb n name).
  - inversion H; subst. split; [left; reflexivity|intros y Hy; right; exact Hy].
  - destruct (take name k) as [[x0 r]|]; [|discriminate H]. inversion H; subst.
    destruct (IH _ _ eq_refl) as [H1 H2]. split; [right; exact H1|].
    intros y [Hy|Hy]; [left; exact Hy|right; apply H2; exact Hy].
Qed.

Lemma bind_posonly_from ps : forall a b r, bind_posonly ps a = Ok (b, r) ->
  incl r a /\ forall p v e, In (p, v) b -> In e (vals v) -> In e a \/ exists q, In q ps /\ dflt q = Some e.
Proof.
  induction ps as [|p ps IH]; intros a b r H; cbn [bind_posonly] in H.
  - inversion H; subst. split; [apply incl_refl|intros ? ? ? []].
  - destruct a as [|e a].
    + destruct (dflt p) as [e|] eqn:Ed; [|discriminate H].
      destruct (bind_posonly ps []) as [[b' r']|] eqn:E; [|discriminate H]. inversion H; subst.
      destruct (IH _ _ _ E) as [H1 H2]. split; [exact H1|]. intros q v x [Hq|Hq] Hx.
      * inversion Hq; subst. destruct Hx as [<-|[]]. right. exists q. split; [left; reflexivity|exact Ed].
      * destruct (H2 _ _ _ Hq Hx) as [Hc|(y & Hy & Hd)]; [left; exact Hc|right; exists y; split; [right; exact Hy|exact Hd]].
    + destruct (bind_posonly ps a) as [[b' r']|] eqn:E; [|discriminate H]. inversion H; subst.
      destruct (IH _ _ _ E) as [H1 H2]. split; [intros y Hy; right; apply H1; exact Hy|]. intros q v x [Hq|Hq] Hx.
      * inversion Hq; subst. destruct Hx as [<-|[]]. left. left. reflexivity.
      * destruct (H2 _ _ _ Hq Hx) as [Hc|(y & Hy & Hd)]; [left; right; exact Hc|right; exists y; split; [right; exact Hy|exact Hd]].
Qed.

Lemma bind_poskw_from ps : forall a k b r k', bind_poskw ps a k = Ok (b, r, k') ->
  incl r a /\ incl (map snd k') (map snd k) /\
  forall p v e, In (p, v) b -> In e (vals v) -> In e a \/ In e (map snd k) \/ exists q, In q ps /\ dflt q = Some e.
Proof.
  induction ps as [|p ps IH]; intros a k b r k' H; cbn [bind_poskw] in H.
  - inversion H; subst. split; [apply incl_refl|]. split; [apply incl_refl|intros ? ? ? []].
  - destruct a as [|e a].
    + destruct (take (pname p) k) as [[e k1]|] eqn:Et.
      * destruct (bind_poskw ps [] k1) as [[[b' r'] k2]|] eqn:E; [|discriminate H]. inversion H; subst.
        destruct (take_in _ _ Et) as [T1 T2]. destruct (IH _ _ _ _ _ E) as (H1 & H2 & H3).
        split; [exact H1|]. split; [intros y Hy; apply T2, H2; exact Hy|]. intros q v x [Hq|Hq] Hx.
        -- inversion Hq; subst. destruct Hx as [<-|[]]. right. left. exact T1.
        -- destruct (H3 _ _ _ Hq Hx) as [Hc|[Hc|(y & Hy & Hd)]]; [left; exact Hc|right; left; apply T2; exact Hc|].
           right. right. exists y. split; [right; exact Hy|exact Hd].
      * destruct (dflt p) as [e|] eqn:Ed; [|discriminate H].
        destruct (bind_poskw ps [] k) as [[[b' r'] k2]|] eqn:E; [|discriminate H]. inversion H; subst.
        destruct (IH _ _ _ _ _ E) as (H1 & H2 & H3).
        split; [exact H1|]. split; [exact H2|]. intros q v x [Hq|Hq] Hx.
        -- inversion Hq; subst. destruct Hx as [<-|[]]. right. right. exists q. split; [left; reflexivity|exact Ed].
        -- destruct (H3 _ _ _ Hq Hx) as [Hc|[Hc|(y & Hy & Hd)]]; [left; exact Hc|right; left; exact Hc|].
           right. right. exists y. split; [right; exact Hy|exact Hd].
    + destruct (take (pname p) k) as [[e1 k1]|] eqn:Et; [discriminate H|].
      destruct (bind_poskw ps a k) as [[[b' r'] k2]|] eqn:E; [|discriminate H]. inversion H; subst.
      destruct (IH _ _ _ _ _ E) as (H1 & H2 & H3).
      split; [intros y Hy; right; apply H1; exact Hy|]. split; [exact H2|]. intros q v x [Hq|Hq] Hx.
      * inversion Hq; subst. destruct Hx as [<-|[]]. left. left. reflexivity.
      * destruct (H3 _ _ _ Hq Hx) as [Hc|[Hc|(y & Hy & Hd)]]; [left; right; exact Hc|right; left; exact Hc|].
        right. right. exists y. split; [right; exact Hy|exact Hd].
Qed.

Lemma bind_kwonly_from ps : forall k b k', bind_kwonly ps k = Ok (b, k') ->
  incl (map snd k') (map snd k) /\
  forall p v e, In (p, v) b -> In e (vals v) -> In e (map snd k) \/ exists q, In q ps /\ dflt q = Some e.
Proof.
  induction ps as [|p ps IH]; intros k b k' H; cbn [bind_kwonly] in H.
  - inversion H; subst. split; [apply incl_refl|intros ? ? ? []].
  - destruct (take (pname p) k) as [[e k1]|] eqn:Et.
    + destruct (bind_kwonly ps k1) as [[b' k2]|] eqn:E; [|discriminate H]. inversion H; subst.
      destruct (take_in _ _ Et) as [T1 T2]. destruct (IH _ _ _ E) as (H2 & H3).
      split; [intros y Hy; apply T2, H2; exact Hy|]. intros q v x [Hq|Hq] Hx.
      * inversion Hq; subst. destruct Hx as [<-|[]]. left. exact T1.
      * destruct (H3 _ _ _ Hq Hx) as [Hc|(y & Hy & Hd)]; [left; apply T2; exact Hc|].
        right. exists y. split; [right; exact Hy|exact Hd].
    + destruct (dflt p) as [e|] eqn:Ed; [|discriminate H].
      destruct (bind_kwonly ps k) as [[b' k2]|] eqn:E; [|discriminate H]. inversion H; subst.
      destruct (IH _ _ _ E) as (H2 & H3). split; [exact H2|]. intros q v x [Hq|Hq] Hx.
      * inversion Hq; subst. destruct Hx as [<-|[]]. right. exists q. split; [left; reflexivity|exact Ed].
      * destruct (H3 _ _ _ Hq Hx) as [Hc|(y & Hy & Hd)]; [left; exact Hc|].
        right. exists y. split; [right; exact Hy|exact Hd].
Qed.

Lemma bind_vals_from s a k b : bind s a k = Ok b ->
  forall p v e, In (p, v) b -> In e (vals v) -> from s a k e.
Proof.
  intros H p v e Hp He. unfold bind in H.
  destruct (bind_posonly (posonly s) a) as [[b1 a1]|] eqn:E1; [|discriminate H].
  destruct (bind_poskw (poskw s) a1 k) as [[[b2 a2] k2]|] eqn:E2; [|discriminate H].
  destruct (bind_posonly_from _ _ E1) as [P1 P2]. destruct (bind_poskw_from _ _ _ E2) as (Q1 & Q2 & Q3).
  assert (Hb : exists b3 k3, bind_kwonly (kwonly s) k2 = Ok (b3, k3) /\
    b = b1 ++ b2 ++ map (fun p => (p, APos a2)) (opt_list (varpos s)) ++ b3 ++ map (fun p => (p, AKw k3)) (opt_list (varkw s))).
  { destruct (varpos s) as [vp|]; [|destruct a2; [|discriminate H]];
    (destruct (bind_kwonly (kwonly s) k2) as [[b3 k3]|] eqn:E3; [|discriminate H]);
    (destruct (varkw s) as [vk|]; [|destruct k3; [|discriminate H]]);
    inversion H; subst; eexists; eexists; (split; [reflexivity|reflexivity]). }
  destruct Hb as (b3 & k3 & E3 & ->). destruct (bind_kwonly_from _ _ E3) as [R1 R2].
  assert (Pin : forall q, In q (posonly s) -> In q (params s)) by (intros q Hq; unfold params; rewrite !in_app_iff; tauto).
  assert (Qin : forall q, In q (poskw s) -> In q (params s)) by (intros q Hq; unfold params; rewrite !in_app_iff; tauto).
  assert (Kin : forall q, In q (kwonly s) -> In q (params s)) by (intros q Hq; unfold params; rewrite !in_app_iff; tauto).
  unfold from. rewrite !in_app_iff in Hp. destruct Hp as [Hp|[Hp|[Hp|[Hp|Hp]]]].
  - destruct (P2 _ _ _ Hp He) as [Hc|(q & Hq & Hd)]; [left; exact Hc|right; right; exists q; split; [apply Pin; exact Hq|exact Hd]].
  - destruct (Q3 _ _ _ Hp He) as [Hc|[Hc|(q & Hq & Hd)]]; [left; apply P1; exact Hc|right; left; exact Hc|].
    right; right; exists q; split; [apply Qin; exact Hq|exact Hd].
  - apply in_map_iff in Hp. destruct Hp as (q & Eq & _). inversion Eq; subst. cbn [vals] in He. left. apply P1, Q1. exact He.
  - destruct (R2 _ _ _ Hp He) as [Hc|(q & Hq & Hd)]; [right; left; apply Q2; exact Hc|].
    right; right; exists q; split; [apply Kin; exact Hq|exact Hd].
  - apply in_map_iff in Hp. destruct Hp as (q & Eq & _). inversion Eq; subst. cbn [vals] in He. right. left. apply Q2, R1. exact He.
Qed.

Lemma bind_from s a k b : bind s a k = Ok b ->
  forall e, In e (args_of s b ++ map snd (kwargs_of s b)) -> from s a k e.
Proof.
  intros H e He.
  assert (G : exists p v, In (p, v) b /\ In e (vals v)).
  { apply in_app_or in He. destruct He as [He|He].
    - unfold args_of in He. apply in_flat_map in He. destruct He as ([p v] & Hp & He). exists p, v. split; [exact Hp|].
      cbn [fst snd] in He. destruct v as [x|l|l]; cbn [vals]; [|exact He|destruct He].
      destruct (is_kwonly s p); [destruct He|exact He].
    - apply in_map_iff in He. destruct He as (x & <- & He).
      unfold kwargs_of in He. apply in_flat_map in He. destruct He as ([p v] & Hp & He). exists p, v. split; [exact Hp|].
      cbn [fst snd] in He. destruct v as [y|l|l]; cbn [vals]; [|destruct He|apply in_map; exact He].
      destruct (is_kwonly s p); [|destruct He]. destruct He as [<-|[]]. left. reflexivity. }
  destruct G as (p & v & Hp & Hv). exact (bind_vals_from _ _ _ H _ _ _ Hp Hv).
Qed.

Section User.
Variable sigs : nat -> sig.
Hypothesis Hsigs : forall b, wf_sig (sigs b).

(** ** Terms with the program's free variables and generated bound variables *)
Record user (n : nat) (t : expr) : Prop := {
  us_wf : wf sigs t;
  us_below : below n t;
  us_fvo : forall v, In v (fvo sigs t) -> copy v = 0;
  us_bv : forall v, In v (bv sigs t) -> copy v <> 0 }.

(** Default values of parameters. *)
Hypothesis Hdflt : forall b p e, In p (params (sigs b)) -> dflt p = Some e -> user 1 e.

Lemma user_mono n n' t : n <= n' -> user n t -> user n' t.
Proof. intros H [H1 H2 H3 H4]. constructor; try assumption. eapply below_mono; eassumption. Qed.

Lemma fvo_term o a k v : In v (fvo sigs (ETerm o a k)) ->
  v = o \/ exists x, In x (slots (sigs (base o)) a k) /\ In v (fvo sigs (snd x)) /\ ~ In v (scope (sigs (base o)) (slots (sigs (base o)) a k) (fst x)).
Proof.
  cbn [fvo]. set (s := sigs (base o)). intros [H|H]; [left; symmetry; exact H|right].
  apply in_app_or in H. destruct H as [H|H].
  - apply in_concat_zipp in H. destruct H as (x & Hx & H). apply in_minus in H. exists x.
    split; [unfold slots; apply in_or_app; left; exact Hx|exact H].
  - apply in_concat_map in H. destruct H as (x & Hx & H). apply in_minus in H. exists (kw_param s (fst x), snd x).
    split; [apply slots_of_in_k; exact Hx|exact H].
Qed.

Lemma fv_term o a k v : In v (fv sigs (ETerm o a k)) <->
  v = o \/ exists x, In x (slots (sigs (base o)) a k) /\ In v (fv sigs (snd x)) /\ ~ In v (scope (sigs (base o)) (slots (sigs (base o)) a k) (fst x)).
Proof.
  cbn [fv]. set (s := sigs (base o)). split.
  - intros [H|H]; [left; symmetry; exact H|right].
    apply in_app_or in H. destruct H as [H|H].
    + apply in_concat_zipp in H. destruct H as (x & Hx & H). apply in_minus in H. exists x.
      split; [unfold slots; apply in_or_app; left; exact Hx|exact H].
    + apply in_concat_map in H. destruct H as (x & Hx & H). apply in_minus in H. exists (kw_param s (fst x), snd x).
      split; [apply slots_of_in_k; exact Hx|exact H].
  - intros [->|(x & Hx & H)]; [left; reflexivity|right]. apply in_or_app. apply in_minus in H.
    unfold slots in Hx. apply in_app_or in Hx. destruct Hx as [Hx|Hx].
    + left. apply in_concat_zipp. exists x. split; assumption.
    + right. unfold slots_kw in Hx. apply in_map_iff in Hx. destruct Hx as (y & <- & Hy). apply in_concat_map. exists y. split; assumption.
Qed.

(** Construction (C14, C15). *)
Theorem construct_spec o a k n t n' : NoDup (map fst k) ->
  (forall e, from (sigs (base o)) a k e -> walkable e = true /\ below n e) ->
  defdata sigs o a k n = Ok (t, n') ->
  let s := sigs (base o) in
  exists b, bind s a k = Ok b /\
    let a0 := args_of s b in let k0 := kwargs_of s b in
    (forall m, canon sigs m t = canon sigs m (ETerm o a0 k0)) /\
    (exists a1 k1, t = ETerm o a1 k1 /\ List.length a1 = List.length a0 /\ map fst k1 = map fst k0 /\
       map base (binders s (slots s a1 k1)) = map base (binders s (slots s a0 k0)) /\
       forall x, In x (binders s (slots s a1 k1)) -> n <= copy x < n').
Proof.
  intros Hk Hall H s. destruct (@defdata_node sigs Hsigs o a k n t n' Hk H) as (b & Hb & Hnode). fold s in Hb, Hnode.
  exists b. split; [exact Hb|]. cbv zeta. destruct Hnode as (U & Hnd & HU & Hn' & Ht & Hn & Hf).
  { intros e He. apply Hall. exact (@bind_from _ _ _ _ Hb _ He). }
  set (a0 := args_of s b) in *. set (k0 := kwargs_of s b) in *. split.
  - intros m. rewrite Ht. exact (canon_ren m Hnd).
  - exists (ren_a s (slots s a0 k0) (fresh_ren n U) a0), (ren_k s (slots s a0 k0) (fresh_ren n U) k0).
    split; [exact Ht|]. split; [unfold ren_a; rewrite zipp_slots, map_length; apply slots_pos_length|].
    split; [unfold ren_k; rewrite map_map; reflexivity|].
    pose proof (binders_ren_node Hnd) as HB. cbv zeta in HB. fold s in HB. rewrite HB. split.
    + rewrite map_map. apply map_ext. intros x. apply fresh_base.
    + intros x Hx. apply in_map_iff in Hx. destruct Hx as (y & <- & Hy). apply (nd_set Hnd) in Hy.
      rewrite fresh_in by exact Hy. cbn [copy]. pose proof (index_lt _ _ Hy). lia.
Qed.

(** Free variables of a constructed term (C14). *)
Theorem construct_fv o a k n t n' : NoDup (map fst k) ->
  (forall e, from (sigs (base o)) a k e -> walkable e = true /\ below n e) ->
  defdata sigs o a k n = Ok (t, n') ->
  let s := sigs (base o) in
  exists b, bind s a k = Ok b /\
    let sl := slots s (args_of s b) (kwargs_of s b) in
    forall v, In v (fv sigs t) <->
      v = o \/ exists x, In x sl /\ In v (fv sigs (snd x)) /\ ~ In v (scope s sl (fst x)).
Proof.
  intros Hk Hall H s. destruct (@construct_spec o a k n t n' Hk Hall H) as (b & Hb & Hc & _).
  exists b. split; [exact Hb|]. cbv zeta. intros v. etransitivity; [apply alpha_fv; apply Hc|apply fv_term].
Qed.

Lemma construct_user o a k n t n' : NoDup (map fst k) -> copy o = 0 -> 1 <= n ->
  (forall e, In e (a ++ map snd k) -> user n e) ->
  defdata sigs o a k n = Ok (t, n') -> n <= n' /\ user n' t.
Proof.
  intros Hk Ho H1 Hu H.
  assert (Hfrom : forall e, from (sigs (base o)) a k e -> user n e).
  { intros e [He|[He|(p & Hp & Hd)]]; [apply Hu; apply in_or_app; left; exact He|apply Hu; apply in_or_app; right; exact He|].
    eapply user_mono; [exact H1|]. exact (Hdflt _ _ Hp Hd). }
  destruct (@defdata_node sigs Hsigs o a k n t n' Hk H) as (b & Hb & Hnode). cbv zeta in Hnode.
  pose proof (@bind_from _ _ _ _ Hb) as Hbf. set (s := sigs (base o)) in *.
  set (a0 := args_of s b) in *. set (k0 := kwargs_of s b) in *.
  destruct Hnode as (U & Hnd & HU & Hn' & Ht & Hn & Ba & Bk & Hf).
  { intros e He. specialize (Hfrom _ (Hbf _ He)). split; [exact (wf_walkable (us_wf Hfrom))|exact (us_below Hfrom)]. }
  assert (Hsl : forall x, In x (slots s a0 k0) -> user n (snd x)).
  { intros x Hx. apply Hfrom, Hbf. apply in_or_app. apply slots_in in Hx. exact Hx. }
  split; [lia|]. subst t n'. constructor.
  - apply (wf_ren Hsigs Hnd Hn Hf); apply Forall_forall; intros x Hx.
    + apply us_wf with n. apply Hfrom, Hbf. apply in_or_app. left. exact Hx.
    + apply us_wf with n. apply Hfrom, Hbf. apply in_or_app. right. apply in_map. exact Hx.
  - apply (below_ren Hnd). lia.
  - intros v Hv.
    assert (Hv' : In v (fvo sigs (ETerm o a0 k0))) by (eapply alpha_fvo; [|exact Hv]; symmetry; exact (canon_ren no_names Hnd)).
    apply fvo_term in Hv'. destruct Hv' as [->|(x & Hx & Hv' & _)]; [exact Ho|]. exact (us_fvo (Hsl _ Hx) _ Hv').
  - intros v Hv. apply (bv_ren Hnd) in Hv. destruct Hv as [Hv|(x & Hx & Hv)]; [lia|]. exact (us_bv (Hsl _ Hx) _ Hv).
Qed.

(** ** Substitution for the program's variables (C16) *)

Lemma csubst_none c : csubst (fun _ => None) c = c.
Proof.
  induction c as [z|l|l a k IHa IHk|c l IHl] using cexpr_ind2; cbn [csubst]; try reflexivity.
  - assert (Ea : map (csubst (fun _ => None)) a = a).
    { clear -IHa. induction IHa as [|x a Hx _ IH]; [reflexivity|]. cbn [map]. rewrite Hx, IH. reflexivity. }
    assert (Ek : map (fun x => (fst x, csubst (fun _ => None) (snd x))) k = k).
    { clear -IHk. induction IHk as [|[n x] k Hx _ IH]; [reflexivity|]. cbn [map fst snd] in *. rewrite Hx, IH. reflexivity. }
    rewrite Ea, Ek. destruct l as [o|u i b]; [|reflexivity]. destruct a; [|reflexivity]. destruct k; reflexivity.
  - f_equal. clear -IHl. induction IHl as [|x a Hx _ IH]; [reflexivity|]. cbn [map]. rewrite Hx, IH. reflexivity.
Qed.

Lemma cfv_csubst h c v : In v (cfv (csubst h c)) ->
  In v (cfv c) \/ exists o w, In o (cfv c) /\ h o = Some w /\ In v (cfv w).
Proof.
  induction c as [z|l|l a k IHa IHk|c l IHl] using cexpr_ind2; cbn [csubst].
  - intros [].
  - intros [].
  - rewrite Forall_forall in IHa, IHk. intros H.
    assert (G : In v (cfv (CTerm l (map (csubst h) a) (map (fun x => (fst x, csubst h (snd x))) k))) ->
      In v (cfv (CTerm l a k)) \/ exists o w, In o (cfv (CTerm l a k)) /\ h o = Some w /\ In v (cfv w)).
    { cbn [cfv]. rewrite !flat_map_map, !in_app_iff, !in_flat_map. cbn [snd].
      intros [Hv|[(x & Hx & Hv)|(x & Hx & Hv)]].
      - left. left. exact Hv.
      - destruct (IHa x Hx Hv) as [Hc|(o & w & Ho & Hw & Hc)]; [left; right; left; exists x; split; assumption|].
        right. exists o, w. rewrite !in_app_iff, !in_flat_map. split; [right; left; exists x; split; assumption|split; assumption].
      - destruct (IHk x Hx Hv) as [Hc|(o & w & Ho & Hw & Hc)]; [left; right; right; exists x; split; assumption|].
        right. exists o, w. rewrite !in_app_iff, !in_flat_map. split; [right; right; exists x; split; assumption|split; assumption]. }
    destruct l as [o|u i b]; [|exact (G H)]. destruct a; [|exact (G H)]. destruct k; [|exact (G H)].
    destruct (h o) as [w|] eqn:E; [|exact (G H)]. right. exists o, w. cbn. split; [left; reflexivity|split; [exact E|exact H]].
  - rewrite Forall_forall in IHl. cbn [cfv]. rewrite flat_map_map, !in_flat_map. intros (x & Hx & Hv).
    destruct (IHl x Hx Hv) as [Hc|(o & w & Ho & Hw & Hc)]; [left; exists x; split; assumption|].
    right. exists o, w. rewrite in_flat_map. split; [exists x; split; assumption|split; assumption].
Qed.

Lemma cfvo_csubst h c v : In v (cfvo (csubst h c)) ->
  In v (cfvo c) \/ exists o w, In o (cfvo c) /\ h o = Some w /\ In v (cfvo w).
Proof.
  induction c as [z|l|l a k IHa IHk|c l IHl] using cexpr_ind2; cbn [csubst].
  - intros [].
  - intros H. left. exact H.
  - rewrite Forall_forall in IHa, IHk. intros H.
    assert (G : In v (cfvo (CTerm l (map (csubst h) a) (map (fun x => (fst x, csubst h (snd x))) k))) ->
      In v (cfvo (CTerm l a k)) \/ exists o w, In o (cfvo (CTerm l a k)) /\ h o = Some w /\ In v (cfvo w)).
    { cbn [cfvo]. rewrite !flat_map_map, !in_app_iff, !in_flat_map. cbn [snd].
      intros [Hv|[(x & Hx & Hv)|(x & Hx & Hv)]].
      - left. left. exact Hv.
      - destruct (IHa x Hx Hv) as [Hc|(o & w & Ho & Hw & Hc)]; [left; right; left; exists x; split; assumption|].
        right. exists o, w. rewrite !in_app_iff, !in_flat_map. split; [right; left; exists x; split; assumption|split; assumption].
      - destruct (IHk x Hx Hv) as [Hc|(o & w & Ho & Hw & Hc)]; [left; right; right; exists x; split; assumption|].
        right. exists o, w. rewrite !in_app_iff, !in_flat_map. split; [right; right; exists x; split; assumption|split; assumption]. }
    destruct l as [o|u i b]; [|exact (G H)]. destruct a; [|exact (G H)]. destruct k; [|exact (G H)].
    destruct (h o) as [w|] eqn:E; [|exact (G H)]. right. exists o, w. cbn. split; [left; reflexivity|split; [exact E|exact H]].
  - rewrite Forall_forall in IHl. cbn [cfvo]. rewrite flat_map_map, !in_flat_map. intros (x & Hx & Hv).
    destruct (IHl x Hx Hv) as [Hc|(o & w & Ho & Hw & Hc)]; [left; exists x; split; assumption|].
    right. exists o, w. rewrite in_flat_map. split; [exists x; split; assumption|split; assumption].
Qed.

(** Replacements for program variables: nullary, by program terms. *)
Definition user_env (h : env) (n : nat) : Prop :=
  forall o v, h o = Some v -> copy o = 0 /\ nullary sigs o /\ user n v /\ extract v = [].

Lemma user_henv h n : user_env h n -> henv sigs h n.
Proof.
  intros H. constructor; intros o v Hv; destruct (H o v Hv) as (H1 & H2 & H3 & H4); try assumption;
    [exact (us_wf H3)|exact (us_below H3)].
Qed.

Lemma user_avoids h n x : user_env h n -> copy x <> 0 -> avoids sigs h x.
Proof.
  intros H Hx. split.
  - destruct (h x) as [v|] eqn:E; [|reflexivity]. destruct (H x v E) as [H0 _]. contradiction.
  - intros o v Hv Hi. destruct (H o v Hv) as (_ & _ & Hu & _). apply Hx. exact (us_fvo Hu _ Hi).
Qed.

Theorem user_subst h n t : 1 <= n -> user n t -> user_env h n ->
  exists t' n', eval_under sigs h t n = Ok (t', n') /\ n <= n' /\ user n' t' /\
    canon sigs no_names t' = csubst (hc sigs h) (canon sigs no_names t).
Proof.
  intros H1 Hu Hh.
  destruct (eval_subst Hsigs (us_wf Hu) (h := h)) with (n := n) as (t' & n' & E & L & Ev).
  - intros x Hx. apply (@user_avoids h n x Hh). exact (us_bv Hu _ Hx).
  - exact (user_henv Hh).
  - exact (us_below Hu).
  - assert (Ec : canon sigs no_names t' = csubst (hc sigs h) (canon sigs no_names t)).
    { apply (ev_canon Ev). intros x Hx. exfalso. apply Hx. reflexivity. }
    exists t', n'. split; [exact E|]. split; [exact L|]. split; [|exact Ec]. constructor.
    + exact (ev_wf Ev).
    + exact (ev_below Ev).
    + intros v Hv. assert (Hc : In v (cfvo (canon sigs no_names t'))) by (apply cfvo_canon; split; [exact Hv|reflexivity]).
      rewrite Ec in Hc. apply cfvo_csubst in Hc. destruct Hc as [Hc|(o & w & _ & Hw & Hc)].
      * apply cfvo_canon in Hc. destruct Hc as [Hc _]. exact (us_fvo Hu _ Hc).
      * unfold hc in Hw. destruct (h o) as [w0|] eqn:Eh; [|discriminate Hw]. cbn [option_map] in Hw. inversion Hw; subst.
        apply cfvo_canon in Hc. destruct Hc as [Hc _]. destruct (Hh _ _ Eh) as (_ & _ & Hu0 & _). exact (us_fvo Hu0 _ Hc).
    + intros v Hv. apply (ev_bv Ev) in Hv. destruct Hv as [Hv|(o & w & Ho & Hv)]; [lia|].
      destruct (Hh _ _ Ho) as (_ & _ & Hu0 & _). exact (us_bv Hu0 _ Hv).
Qed.

(** *** Everything a program can obtain by constructing terms and evaluating them
    with its variables replaced. *)
Inductive reach : nat -> expr -> Prop :=
| RConst n z : 1 <= n -> reach n (EConst z)
| ROp n o : 1 <= n -> copy o = 0 -> reach n (EOp o)
| RColl n c l : 1 <= n -> walks c = true -> (forall e, In e l -> reach n e) -> reach n (EColl c l)
| RCall n o a k t n' : 1 <= n -> copy o = 0 -> NoDup (map fst k) ->
    (forall e, In e (a ++ map snd k) -> reach n e) ->
    defdata sigs o a k n = Ok (t, n') -> reach n' t
| REval n (subs : list (op * expr)) t t' n' : reach n t ->
    (forall x, In x subs -> copy (fst x) = 0 /\ nullary sigs (fst x) /\ extract (snd x) = []) ->
    (forall x, In x subs -> reach n (snd x)) ->
    eval_under sigs (lookup_sub subs) t n = Ok (t', n') -> reach n' t'
| RMono n n' t : n <= n' -> reach n t -> reach n' t.

Lemma lookup_sub_in subs o v : lookup_sub subs o = Some v -> In (o, v) subs.
Proof.
  induction subs as [|[x e] subs IH]; cbn [lookup_sub]; [discriminate|]. destruct (op_eqb x o) eqn:E; intros H.
  - apply op_eqb_eq in E. inversion H; subst. left. reflexivity.
  - right. apply IH. exact H.
Qed.

Theorem reach_user n t : reach n t -> 1 <= n /\ user n t.
Proof.
  intros H. induction H as [n z Hn|n o Hn Ho|n c l Hn Hc _ IH|n o a k t n' Hn Ho Hk _ IH Hd|n subs t t' n' _ [Hn IHt] Hs _ IHs He|n n' t Hn _ [H1 IH]].
  - split; [exact Hn|]. constructor; [constructor|intros v []|intros v []|intros v []].
  - split; [exact Hn|]. constructor; [constructor|intros v [<-|[]]; lia|intros v [<-|[]]; exact Ho|intros v []].
  - split; [exact Hn|]. constructor.
    + apply WfColl; [exact Hc|]. apply Forall_forall. intros e He. destruct (IH e He) as [_ Hu]. exact (us_wf Hu).
    + intros v Hv. cbn [ops] in Hv. apply in_flat_map in Hv. destruct Hv as (e & He & Hv).
      destruct (IH e He) as [_ Hu]. exact (us_below Hu _ Hv).
    + intros v Hv. cbn [fvo] in Hv. apply in_flat_map in Hv. destruct Hv as (e & He & Hv).
      destruct (IH e He) as [_ Hu]. exact (us_fvo Hu _ Hv).
    + intros v Hv. cbn [bv] in Hv. apply in_flat_map in Hv. destruct Hv as (e & He & Hv).
      destruct (IH e He) as [_ Hu]. exact (us_bv Hu _ Hv).
  - destruct (@construct_user o a k n t n' Hk Ho Hn) as [L U]; [|exact Hd|split; [lia|exact U]].
    intros e He. destruct (IH e He) as [_ Hu]. exact Hu.
  - destruct (@user_subst (lookup_sub subs) n t Hn IHt) as (t1 & n1 & E & L & U & _).
    + intros o v Hv. apply lookup_sub_in in Hv. destruct (Hs _ Hv) as (H1 & H2 & H3). destruct (IHs _ Hv) as [_ Hu].
      split; [exact H1|]. split; [exact H2|]. split; [exact Hu|exact H3].
    + rewrite E in He. inversion He; subst. split; [lia|exact U].
  - split; [lia|]. eapply user_mono; [exact Hn|exact IH].
Qed.

(** Evaluation with no handlers (C19). *)
Theorem eval_identity n t : wf sigs t -> below n t ->
  exists t' n', eval_under sigs (fun _ => None) t n = Ok (t', n') /\ n <= n' /\ below n' t' /\ wf sigs t' /\
    (forall m, canon sigs m t' = canon sigs m t) /\
    forall x, In x (bv sigs t') -> n <= copy x.
Proof.
  intros Hw Hb. destruct (@eval_subst sigs Hsigs (fun _ => None) t Hw) with (n := n) as (t' & n' & E & L & Ev).
  - intros x _. split; [reflexivity|]. intros o v H. discriminate H.
  - constructor; intros o v H; discriminate H.
  - exact Hb.
  - exists t', n'. split; [exact E|]. split; [exact L|]. split; [exact (ev_below Ev)|]. split; [exact (ev_wf Ev)|]. split.
    + intros m. rewrite (ev_canon Ev); [apply csubst_none|]. intros x _. split; [reflexivity|]. intros o v H. discriminate H.
    + intros x Hx. destruct (ev_bv Ev _ Hx) as [H|(o & v & H & _)]; [exact H|discriminate H].
Qed.

Lemma eval_identity_fv n t : wf sigs t -> below n t ->
  exists t' n', eval_under sigs (fun _ => None) t n = Ok (t', n') /\ alpha sigs t' t /\
    forall v, In v (fv sigs t') <-> In v (fv sigs t).
Proof.
  intros Hw Hb. destruct (@eval_identity n t Hw Hb) as (t' & n' & E & _ & _ & _ & Hc & _).
  exists t', n'. split; [exact E|]. split; [apply Hc|]. apply alpha_fv. apply Hc.
Qed.

Lemma handler_arity h o v (a : args) (k : kwargs) n a' k' n1 n2 : h o = Some v -> a <> [] \/ k <> [] ->
  mapm (eval_under sigs h) a n = Ok (a', n1) -> mapk (eval_under sigs h) k n1 = Ok (k', n2) ->
  eval_under sigs h (ETerm o a k) n = Err ECall.
Proof.
  intros Ho Hne Ha Hk. unfold eval_under in *. cbn [evaluate]. rewrite Ha, Hk. unfold call_op. rewrite Ho.
  destruct a' as [|e' a'], k' as [|x' k']; try reflexivity. exfalso. destruct Hne as [Hne|Hne].
  - destruct a as [|e a]; [apply Hne; reflexivity|]. cbn [mapm] in Ha. destruct (evaluate _ _ e n) as [[e0 n0]|]; [|discriminate Ha].
    destruct (mapm _ a n0) as [[r n3]|]; discriminate Ha.
  - destruct k as [|e k]; [apply Hne; reflexivity|]. cbn [mapk] in Hk. destruct (evaluate _ _ (snd e) n1) as [[e0 n0]|]; [|discriminate Hk].
    destruct (mapk _ k n0) as [[r n3]|]; discriminate Hk.
Qed.

End User.
