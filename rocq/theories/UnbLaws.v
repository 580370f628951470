(** [bind_dims] of distributions, and both orders of [bind_dims] and [unbind_dims]. *)
From Coq Require Import List Bool Arith Lia Permutation.
From Verif Require Import ArrModel ArrSpec ArrProofs ArrNames ArrBind ArrUnbind DistModel DistSpec DistProofs DistBatch DistBridge DistLaws UnbModel UnbSpec UnbProofs.
Import ListNotations.

Section Laws.
Variable V : Type.
Variable order : list (nat * nat) -> list (nat * nat).
Hypothesis any : forall l, Permutation (order l) l.
Notation narr := (narr V).
Notation nsizes := (nsizes V).
Notation nshape := (nshape V).
Notation nelt := (nelt V).
Notation AArr := (AArr V).
Notation ANum := (ANum V).
Notation proper := (proper V).
Notation ranked := (ranked V).
Notation to_named := (to_named V).
Notation member := (member V).
Notation cuts := (cuts V).

Lemma sizes_of_names_inv m names : forall ix, sizes_of_names m names = Ok ix -> map fst ix = names /\ forall n d, In (n, d) ix -> lookup m n = Some d.
Proof.
  induction names as [|n names IH]; cbn [sizes_of_names]; intros ix E; [injection E as <-; split; [reflexivity|intros ? ? []]|].
  destruct (lookup m n) as [d|] eqn:EL; [|discriminate]. destruct (sizes_of_names m names) as [rest| | | | |]; try discriminate. cbn [bindr] in E.
  injection E as <-. destruct (IH rest eq_refl) as [I1 I2]. cbn. split; [now rewrite I1|]. intros n' d' [H|H]; [congruence|auto].
Qed.
Lemma sizes_of_names_ok m names : (forall n, In n names -> In n (map fst m)) -> exists ix, sizes_of_names m names = Ok ix.
Proof.
  induction names as [|n names IH]; intros H; [now exists []|]. destruct IH as [ix E]; [intros n' H'; apply H; now right|]. cbn [sizes_of_names].
  destruct (lookup m n) as [d|] eqn:EL; [rewrite E; cbn; eauto|]. exfalso. apply lookup_fst in EL. apply EL, H. now left.
Qed.
(** One parameter bound to the names [ix] *)
Definition bound_to (ix : list (nat * nat)) (x y : arg V) : Prop :=
  match x, y with
  | DistModel.ANum _ v, DistModel.ANum _ w => v = w
  | DistModel.AArr _ a, DistModel.AArr _ c => nshape c = map snd ix ++ nshape a /\
      (forall p, In p (nsizes c) <-> In p (nsizes a) /\ ~ In (fst p) (map fst ix)) /\ NoDup (map fst (nsizes c)) /\
      forall env i idx, length i = length ix -> within (nshape a) idx -> nelt c env (i ++ idx) = nelt a (assign env (map fst ix) i) idx
  | _, _ => False
  end.
Lemma positional_bound ix args : all_proper V args -> NoDup (map fst ix) ->
  (forall a n d d', In (AArr a) args -> In (n, d) ix -> In (n, d') (nsizes a) -> d = d') ->
  exists new, mapr (to_positional V order ix) args = Ok new /\ Forall2 (bound_to ix) args new.
Proof.
  intros P N K. induction args as [|x args IH]; [exists []; split; [reflexivity|constructor]|].
  destruct IH as [new [E Q]]; [intros a Ha; apply P; now right|intros a n d d' Ha; apply K; now right|]. cbn [mapr]. destruct x as [v|a].
  - cbn [to_positional bindr]. rewrite E. cbn [bindr]. eexists. split; [reflexivity|]. constructor; [reflexivity|assumption].
  - destruct (bind_named V order any ix a) as [r [Er [Sr [Ir [Nr Vr]]]]]; [apply P; now left|assumption|intros n d d'; apply K; now left|].
    cbn [to_positional]. destruct (broadcast_to_named V order a ix) as [t| | | | |]; try discriminate. cbn [bindr] in Er |- *. rewrite Er. cbn [bindr].
    rewrite E. cbn [bindr]. eexists. split; [reflexivity|]. constructor; [|assumption]. cbn. auto.
Qed.
Lemma indices_sizes args m : indices V args = Ok m -> NoDup (map fst m) /\ forall a n d, In (AArr a) args -> In (n, d) (nsizes a) -> lookup m n = Some d.
Proof.
  intros E. destruct (indices_in V args [] m E) as [N I]; [constructor|]. split; [assumption|]. intros a n d H1 H2. apply lookup_In; [assumption|].
  apply I. right. exists (AArr a). auto.
Qed.
Lemma bind_inv l F args names args' : NoDup names -> all_proper V args -> bind V order l F args names = Ok args' ->
  exists ix m, map fst ix = names /\ indices V args = Ok m /\ (forall n d, In (n, d) ix -> lookup m n = Some d) /\
    (forall a n d d', In (AArr a) args -> In (n, d) ix -> In (n, d') (nsizes a) -> d = d') /\ Forall2 (bound_to ix) args args'.
Proof.
  intros N P E. unfold bind in E. destruct (indices V args) as [m| | | | |] eqn:Em; try discriminate. cbn [bindr] in E.
  destruct (sizes_of_names m names) as [ix| | | | |] eqn:Ei; try discriminate. cbn [bindr] in E.
  destruct (sizes_of_names_inv _ _ _ Ei) as [I1 I2]. destruct (indices_sizes args m Em) as [_ I3].
  assert (K : forall a n d d', In (AArr a) args -> In (n, d) ix -> In (n, d') (nsizes a) -> d = d').
  { intros a n d d' H1 H2 H3. specialize (I2 n d H2). specialize (I3 a n d' H1 H3). congruence. }
  destruct (positional_bound ix args P) as [new [En Q]]; [now rewrite I1|assumption|]. rewrite En in E. cbn [bindr] in E. apply finish_inv in E. subst new.
  exists ix, m. auto.
Qed.
Definition has_array (args : list (arg V)) : bool := existsb (fun x => match x with DistModel.AArr _ _ => true | DistModel.ANum _ _ => false end) args.
Lemma assign_same env names n : assign env names (map env names) n = env n.
Proof.
  destruct (in_dec Nat.eq_dec n names) as [H|H]; [now apply assign_map|]. now apply assign_off.
Qed.
Lemma bound_cuts ix b rs args args' env : Forall2 (full_rank V b) rs args -> all_proper V args -> Forall2 (bound_to ix) args args' ->
  cuts (map snd ix) (map env (map fst ix)) b (has_array args) rs (member env args') (member env args).
Proof.
  intros R P Q. revert rs R. induction Q as [|x y args args' H Q IH]; intros rs R; inversion R as [|r ? rs' ? Hr R']; subst; [constructor|].
  specialize (IH (fun a Ha => P a (or_intror Ha)) rs' R'). destruct x as [v|a], y as [w|c]; cbn in H; try contradiction; cbn [DistSpec.member map has_array existsb orb].
  - subst w. cbn in Hr. subst r. apply cuts_short; [|exact IH]. split; [reflexivity|]. split; [cbn; lia|reflexivity].
  - destruct H as [H1 [_ [_ H2]]]. cbn in Hr. refine (cuts_long _ _ _ _ _ r _ _ _ _ _ _ IH). cbn [arg_at]. unfold at_env. split; [|split]; cbn [shape at_].
    + assumption.
    + assumption.
    + intros e W. rewrite H2 by (rewrite ?map_length; auto). apply (proj2 (P a (or_introl eq_refl))). intros n _. symmetry. apply assign_same.
Qed.
Theorem bind_law l F args names args' b m env : lawful V F -> full V b F args -> all_proper V args -> NoDup names -> Exists (is_array V) args ->
  bind V order l F args names = Ok args' -> indices V args = Ok m -> valid env m ->
  restricts V F b (map env names) (member env args') (member env args).
Proof.
  intros HF [R _] P N X E Em W. destruct (bind_inv l F args names args' N P E) as [ix [m' [I1 [I2 [I3 [_ Q]]]]]]. rewrite Em in I2. injection I2 as <-.
  assert (C := bound_cuts ix b (pranks V F) args args' env R P Q). rewrite I1 in C.
  assert (HA : has_array args = true).
  { clear - X. induction X as [x l H|x l _ IH]; cbn [has_array existsb]; [destruct x; [destruct H|reflexivity]|]. fold (has_array l). now rewrite IH, orb_true_r. }
  rewrite HA in C. apply (cut_restricts V (map snd ix)); [|assumption|assumption]. rewrite <- I1. apply valid_within. intros n d H. apply W.
  apply lookup_some_In. now apply I3.
Qed.
Lemma pyro_events F s i b f args new : cuts s i b f (pranks V F) (member (fun _ => 0) new) (member (fun _ => 0) args) ->
  lib_batch V (pranks V F) (member (fun _ => 0) args) <> None -> finish V Pyro F args new = Ok new.
Proof.
  intros C HB. assert (G := batch_cut _ _ _ _ _ _ _ _ C). assert (G2 := event_cut _ _ _ _ _ _ _ _ C). cbn [finish]. unfold pyro_event. cbv zeta.
  rewrite !(member_0 V). destruct (lib_batch V (pranks V F) (member (fun _ => 0) args)) as [B|]; [|contradiction]. destruct G as [_ [_ [G _]]].
  rewrite G. cbn [bindr]. unfold lib_event. rewrite G2, list_eqb_refl. reflexivity.
Qed.
Theorem bind_succeeds l F args names b m : full V b F args -> all_proper V args -> NoDup names -> indices V args = Ok m ->
  (forall n, In n names -> In n (map fst m)) -> lib_batch V (pranks V F) (member (fun _ => 0) args) <> None ->
  exists args', bind V order l F args names = Ok args' /\ forall p, has_size V args' p <-> has_size V args p /\ ~ In (fst p) names.
Proof.
  intros [R _] P N Em HN HB. destruct (sizes_of_names_ok m names HN) as [ix Ei]. destruct (sizes_of_names_inv _ _ _ Ei) as [I1 I2].
  destruct (indices_sizes args m Em) as [_ I3].
  destruct (positional_bound ix args P) as [new [En Q]]; [now rewrite I1| |].
  { intros a n d d' H1 H2 H3. specialize (I2 n d H2). specialize (I3 a n d' H1 H3). congruence. }
  exists new. split.
  - unfold bind. rewrite Em. cbn [bindr]. rewrite Ei. cbn [bindr]. rewrite En. cbn [bindr]. destruct l; [reflexivity|].
    exact (pyro_events F _ _ _ _ _ _ (bound_cuts ix b _ _ _ (fun _ => 0) R P Q) HB).
  - intros p. rewrite <- I1. clear - Q. induction Q as [|x y args new H Q IH].
    + split; [intros [a [[] _]]|intros [[a [[] _]] _]].
    + destruct x as [v|a], y as [w|c]; cbn in H; try contradiction.
      * split; [intros [a [[K|K] H2]]; [discriminate|]; destruct (proj1 IH (ex_intro _ a (conj K H2))) as [[a' [L1 L2]] L3]; split; [exists a'; split; [now right|assumption]|assumption]|].
        intros [[a [[K|K] H2]] H3]; [discriminate|]. destruct (proj2 IH (conj (ex_intro _ a (conj K H2)) H3)) as [a' [L1 L2]]. exists a'. split; [now right|assumption].
      * destruct H as [_ [H _]]. split.
        -- intros [a' [[K|K] H2]]; [injection K as <-; apply H in H2; destruct H2; split; [exists a; split; [now left|assumption]|assumption]|].
           destruct (proj1 IH (ex_intro _ a' (conj K H2))) as [[a'' [L1 L2]] L3]. split; [exists a''; split; [now right|assumption]|assumption].
        -- intros [[a' [[K|K] H2]] H3]; [injection K as <-; exists c; split; [now left|]; apply H; auto|].
           destruct (proj2 IH (conj (ex_intro _ a' (conj K H2)) H3)) as [a'' [L1 L2]]. exists a''. split; [now right|assumption].
Qed.

(** ** Round trips *)
(** What [unbind_dims] does to each parameter *)
Definition unbound_to (l : lib) (names : list nat) (x y : arg V) : Prop :=
  match x, y with
  | DistModel.ANum _ v, DistModel.ANum _ w => v = w
  | DistModel.AArr _ a, DistModel.AArr _ c =>
      if indexed V l a then length names <= length (nshape a) /\ nshape c = skipn (length names) (nshape a) /\
        (forall env idx, nelt c env idx = nelt a env (map env names ++ idx)) /\
        add_sizes (nsizes a) (combine names (nshape a)) = Ok (nsizes c)
      else c = a
  | _, _ => False
  end.
Lemma to_named_each l names args : forall seen args', to_named l names seen args = Ok args' -> Forall2 (unbound_to l names) args args'.
Proof.
  induction args as [|x args IH]; intros seen args' E; cbn [UnbModel.to_named] in E; [injection E as <-; constructor|]. destruct x as [v|a].
  - destruct (to_named l names seen args) as [rest| | | | |] eqn:ER; try discriminate. cbn [bindr] in E. injection E as <-. constructor; [reflexivity|eauto].
  - destruct (indexed V l a) eqn:EI.
    + destruct (validate (length names) seen (nshape a)) as [s1| | | | |] eqn:EV; try discriminate. cbn [bindr] in E.
      destruct (index_names V a 0 names) as [r1| | | | |] eqn:EN; try discriminate. cbn [bindr] in E.
      destruct (to_named l names (Some s1) args) as [rest| | | | |] eqn:ER; try discriminate. cbn [bindr] in E. injection E as <-.
      constructor; [|eauto]. cbn. rewrite EI. exact (index_inv V _ _ _ EN).
    + destruct (to_named l names seen args) as [rest| | | | |] eqn:ER; try discriminate. cbn [bindr] in E. injection E as <-.
      constructor; [cbn; now rewrite EI|eauto].
Qed.
Lemma unbind_each l F names args args' : unbind V l F args names = Ok args' -> Forall2 (unbound_to l names) args args'.
Proof.
  unfold unbind. destruct (to_named l names None args) as [new| | | | |] eqn:E; try discriminate. cbn [bindr]. intros H. apply finish_inv in H. subst new.
  exact (to_named_each _ _ _ _ _ E).
Qed.
Lemma combine_in_fst (a c : list nat) n d : In (n, d) (combine a c) -> In n a.
Proof. apply in_combine_l. Qed.
Lemma combine_size (names sh : list nat) (n d d' : nat) : NoDup names -> In (n, d) (combine names sh) -> In (n, d') (combine names sh) -> d = d'.
Proof.
  intros N. revert sh. induction N as [|x names H N IH]; intros [|y sh]; cbn; try contradiction. intros [K|K] [L|L].
  - congruence.
  - injection K as -> ->. apply in_combine_l in L. contradiction.
  - injection L as -> ->. apply in_combine_l in K. contradiction.
  - eauto.
Qed.
Lemma unbound_sizes l names a c : NoDup names -> (forall n d, In (n, d) (nsizes a) -> ~ In n names) -> proper a -> indexed V l a = true ->
  unbound_to l names (AArr a) (AArr c) -> proper c /\ nsizes c = nsizes a ++ combine names (nshape a).
Proof.
  intros N FR [P1 P2] EI H. cbn in H. rewrite EI in H. destruct H as [H1 [H2 [H3 H4]]].
  assert (Q : NoDup (map fst (combine names (nshape a)))) by (rewrite combine_fst by lia; assumption).
  assert (D : forall n, In n names -> ~ In n (map fst (nsizes a))).
  { intros n K L. apply in_map_iff in L. destruct L as [[n' d] [E L]]. cbn in E. subst n'. exact (FR n d L K). }
  rewrite add_sizes_new in H4; [|assumption|intros n K; rewrite combine_fst in K by lia; now apply D]. injection H4 as H4.
  split; [|now symmetry]. split; rewrite <- H4.
  - rewrite map_app, combine_fst by lia. apply NoDup_append; [assumption|assumption|]. intros n K L. exact (D n L K).
  - intros env env' K idx. rewrite !H3. rewrite map_app, combine_fst in K by lia. replace (map env' names) with (map env names).
    + apply P2. intros n Hn. apply K, in_app_iff. now left.
    + apply map_ext_in. intros n Hn. apply K, in_app_iff. now right.
Qed.
Lemma map_assign env names i : NoDup names -> length i = length names -> map (assign env names i) names = i.
Proof.
  intros N L. apply nth_ext with 0 0; [now rewrite map_length|]. intros j Hj. rewrite map_length in Hj.
  rewrite (nth_indep _ 0 (assign env names i 0)) by now rewrite map_length. rewrite map_nth.
  destruct (nth_error names j) as [n|] eqn:E; [|apply nth_error_None in E; lia]. rewrite (nth_error_nth _ _ 0 E). unfold assign.
  pose proof (index_of_spec n names) as X. destruct (index_of n names) as [j'|].
  - assert (j' = j) by (apply (proj1 (NoDup_nth_error names) N); [apply nth_error_Some; congruence|congruence]). subst j'. apply nth_indep. lia.
  - exfalso. apply X. now apply nth_error_In with j.
Qed.

(** Naming the leading axes and putting the names in front again *)
Theorem unbind_bind l F args names args1 args2 : all_proper V args -> fresh V names args -> (l = NumPyro -> forall p, ~ has_size V args p) ->
  (forall a, In (AArr a) args -> nshape a <> []) -> unbind V l F args names = Ok args1 -> bind V order l F args1 names = Ok args2 ->
  Forall2 (same_arg V) args2 args.
Proof.
  intros P [N FR] HN HZ E1 E2. assert (Q1 := unbind_each _ _ _ _ _ E1).
  assert (HI : forall a, In (AArr a) args -> indexed V l a = true).
  { intros a H. destruct l; [|reflexivity]. unfold indexed. specialize (HZ a H). destruct (nsizes a) as [|p m] eqn:Es.
    - now destruct (nshape a).
    - exfalso. apply (HN eq_refl p). exists a. split; [assumption|]. rewrite Es. now left. }
  assert (P1 : all_proper V args1).
  { clear E2. intros c Hc. clear E1. induction Q1 as [|x y xs ys H Q1 IH]; [destruct Hc|]. destruct Hc as [Hc|Hc].
    - subst y. destruct x as [v|a]; [destruct H|]. eapply unbound_sizes; [exact N| | | |exact H].
      + intros n d. apply FR. now left.
      + apply P. now left.
      + apply HI. now left.
    - apply IH; [intros a' H'; apply P; now right|intros a' n d H'; apply FR; now right|intros K p [a' [H1 H2]]; apply (HN K p); exists a'; split; [now right|assumption]
        |intros a' H'; apply HZ; now right|intros a' H'; apply HI; now right|assumption]. }
  destruct (bind_inv _ _ _ _ _ N P1 E2) as [ix [m [I1 [_ [_ [K Q2]]]]]]. clear E1 E2 HN HZ.
  revert args2 Q2. induction Q1 as [|x y xs ys H Q1 IH]; intros args2 Q2; inversion Q2 as [|? z ? zs H2 Q2']; subst; [constructor|]. constructor.
  2:{ apply IH; [intros a' H'; apply P; now right|intros a' n d H'; apply FR; now right|intros a' H'; apply HI; now right
        |intros a' H'; apply P1; now right|intros a' n d d' H'; apply K; now right|assumption]. }
  destruct x as [v|a], y as [w|c]; cbn in H; try contradiction; destruct z as [u|e]; cbn in H2; try contradiction; [cbn; congruence|].
  assert (Hi : indexed V l a = true) by (apply HI; now left).
  destruct (unbound_sizes l (map fst ix) a c N) as [_ Ec]; [intros n d; apply FR; now left|apply P; now left|assumption|exact H|].
  rewrite Hi in H. destruct H as [H1 [H3 [H4 _]]]. destruct H2 as [H5 [H6 [_ H7]]].
  assert (Ei : map snd ix = firstn (length (map fst ix)) (nshape a)).
  { assert (G : combine (map fst ix) (firstn (length (map fst ix)) (nshape a)) = combine (map fst ix) (map snd ix)).
    { rewrite combine_firstn.
      assert (G0 : combine (map fst ix) (map snd ix) = ix) by (clear; induction ix as [|[? ?] ? IHx]; cbn; [reflexivity|now rewrite IHx]).
      rewrite G0. assert (G1 : forall n d, In (n, d) ix -> In (n, d) (combine (map fst ix) (nshape a))).
      { intros n d Hn. assert (Hin : In n (map fst ix)) by now apply (in_map fst) in Hn.
        assert (Hc : In n (map fst (combine (map fst ix) (nshape a)))) by (rewrite combine_fst by lia; assumption).
        apply in_map_iff in Hc. destruct Hc as [[n' d'] [Q Hc]]. cbn in Q. subst n'. enough (d = d') by (subst; assumption).
        apply (K c n); [now left|assumption|]. rewrite Ec. apply in_app_iff. now right. }
      clear - G1 H1 N. revert G1 H1 N. generalize (nshape a). induction ix as [|[n d] ix IH]; intros sh G1 H1 N; [reflexivity|].
      destruct sh as [|d' sh]; [cbn in H1; lia|]. cbn [map fst combine]. cbn [map fst] in N, G1. inversion N as [|? ? N1 N2]; subst.
      assert (d = d'). { apply (combine_size (n :: map fst ix) (d' :: sh) n); [assumption| |now left]. exact (G1 n d (or_introl eq_refl)). }
      subst d'. f_equal. apply IH; [|cbn in H1; lia|assumption]. intros n' d' Hn. destruct (G1 n' d' (or_intror Hn)) as [G|G]; [|assumption].
      injection G as <- <-. apply (in_map fst) in Hn. contradiction. }
    clear - G H1. revert G H1. generalize (nshape a). induction ix as [|[n d] ix IH]; intros sh G H1; [reflexivity|].
    destruct sh as [|d' sh]; [cbn in H1; lia|]. cbn in G |- *. injection G as E G. f_equal; [now symmetry|]. apply IH; [assumption|cbn in H1; lia]. }
  cbn [same_arg]. split; [|split].
  - intros p. rewrite H6, Ec, in_app_iff. split.
    + intros [[L|L] L']; [assumption|]. destruct p as [n d]. apply in_combine_l in L. contradiction.
    + intros L. split; [now left|]. destruct p as [n d]. exact (FR a n d (or_introl eq_refl) L).
  - rewrite H5, Ei, H3. apply firstn_skipn.
  - rewrite H5. intros env idx W. destruct (within_split _ _ _ W) as [W1 W2].
    rewrite <- (firstn_skipn (length (map snd ix)) idx). assert (L1 := within_length _ _ W1).
    assert (L2 : length (firstn (length (map snd ix)) idx) = length ix) by (rewrite <- L1; apply map_length).
    rewrite H7 by assumption. rewrite H4. rewrite map_assign by (try assumption; rewrite L2; symmetry; apply map_length).
    apply (proj2 (P a (or_introl eq_refl))). intros n Hn. apply assign_off. intros L. apply in_map_iff in Hn. destruct Hn as [[n' d] [Q Hn]]. cbn in Q. subst n'.
    exact (FR a n d (or_introl eq_refl) Hn L).
Qed.

(** Putting names in front and naming the axes again *)
Theorem bind_unbind l F args names m args1 args2 b : full V b F args -> all_proper V args -> NoDup names -> names <> [] -> indices V args = Ok m ->
  (l = NumPyro -> forall n, In n (map fst m) -> In n names) -> bind V order l F args names = Ok args1 -> unbind V l F args1 names = Ok args2 ->
  Forall2 (fun x y => forall env, valid env m -> same_arr (arg_at V env y) (arg_at V env x)) args args2 /\
  forall p, has_size V args2 p -> In p m.
Proof.
  intros [R _] P N NE Em HN E1 E2. destruct (bind_inv _ _ _ _ _ N P E1) as [ix [m' [I1 [I2 [I3 [_ Q1]]]]]]. rewrite Em in I2. injection I2 as <-.
  assert (Q2 := unbind_each _ _ _ _ _ E2). destruct (indices_sizes args m Em) as [Nm Im].
  assert (Li : length ix = length names) by (rewrite <- I1; symmetry; apply map_length).
  assert (G0 : combine names (map snd ix) = ix) by (rewrite <- I1; clear; induction ix as [|[? ?] ? IHx]; cbn; [reflexivity|now rewrite IHx]).
  assert (G : forall a c e, In (AArr a) args -> bound_to ix (AArr a) (AArr c) -> unbound_to l names (AArr c) (AArr e) ->
    (forall env, same_arr (at_env V env e) (at_env V env a)) /\ forall p, In p (nsizes e) -> In p m).
  { intros a c e Ha H1 H2. cbn in H1, H2. destruct H1 as [S1 [Z1 [N1 T1]]].
    assert (EI : indexed V l c = true).
    { unfold indexed. destruct l; [|reflexivity]. destruct (nsizes c) as [|p q] eqn:Es.
      - rewrite S1. destruct ix as [|q ix']; [cbn in I1; congruence|reflexivity].
      - exfalso. destruct (proj1 (Z1 p)) as [L1 L2]; [now left|]. apply L2. rewrite I1. destruct p as [n d]. apply (HN eq_refl). cbn.
        apply (Im a n d Ha) in L1. apply lookup_some_In in L1. now apply (in_map fst) in L1. }
    rewrite EI in H2. destruct H2 as [L [S2 [T2 A2]]]. rewrite S1 in S2. rewrite skipn_len in S2 by now rewrite map_length. split.
    - intros env. unfold at_env. split; cbn [shape at_]; [assumption|]. rewrite S2. intros idx W. rewrite T2. rewrite T1 by (rewrite ?map_length; auto).
      apply (proj2 (P a Ha)). intros n _. rewrite I1. apply assign_same.
    - intros p Hp. assert (C : combine names (nshape c) = ix).
      { rewrite S1. rewrite <- combine_firstn, <- Li. replace (length ix) with (length (map snd ix)) by apply map_length.
        rewrite (firstn_len (map snd ix)) by reflexivity. exact G0. }
      rewrite C in A2. destruct (add_sizes_in _ _ _ A2 N1) as [_ A3]. apply A3 in Hp. destruct Hp as [Hp|Hp]; destruct p as [n d].
      + apply Z1 in Hp. apply lookup_some_In. now apply (Im a n d Ha).
      + apply lookup_some_In. now apply I3. }
  assert (GA : Forall2 (fun x y => match x, y with
     | DistModel.ANum _ v, DistModel.ANum _ w => v = w
     | DistModel.AArr _ a, DistModel.AArr _ e => (forall env, same_arr (at_env V env e) (at_env V env a)) /\ forall p, In p (nsizes e) -> In p m
     | _, _ => False end) args args2).
  { clear - Q1 Q2 G. revert args2 Q2. induction Q1 as [|x y xs ys H Q1 IH]; intros args2 Q2; inversion Q2 as [|? z ? zs H2 Q2']; subst; [constructor|].
    constructor; [|apply IH; [|assumption]; intros a c e Ha; apply G; now right].
    destruct x as [v|a], y as [w|c]; cbn in H; try contradiction; destruct z as [u|e]; cbn in H2; try contradiction; [congruence|].
    apply (G a c e); [now left|exact H|exact H2]. }
  split.
  - clear - GA. induction GA as [|x y xs ys H GA IH]; [constructor|]. constructor; [|exact IH]. intros env _.
    destruct x as [v|a], y as [w|e]; try contradiction; [subst w; split; reflexivity|apply H].
  - clear - GA. intros p [a [H1 H2]]. induction GA as [|x y xs ys H GA IH]; [destruct H1|]. destruct H1 as [H1|H1]; [|auto]. subst y.
    destruct x as [v|a']; [contradiction|]. now apply H.
Qed.

(** ** Pyro: naming in two steps *)
Lemma add_sizes_app l1 : forall m l2, add_sizes m (l1 ++ l2) = bindr (add_sizes m l1) (fun m' => add_sizes m' l2).
Proof.
  induction l1 as [|[n d] l1 IH]; intros m l2; [reflexivity|]. cbn [app add_sizes]. destruct (add_size m n d) as [m'| | | | |]; cbn [bindr]; auto.
Qed.
Lemma combine_app_l (n1 n2 sh : list nat) : length n1 <= length sh -> combine (n1 ++ n2) sh = combine n1 sh ++ combine n2 (skipn (length n1) sh).
Proof. revert sh. induction n1 as [|n n1 IH]; intros [|d sh]; cbn; intros H; try reflexivity; try lia. now rewrite IH by lia. Qed.
Lemma list_eqb_true' a : list_eqb a a = true.
Proof. apply list_eqb_refl. Qed.
Lemma firstn_add (l : list nat) a c : firstn (a + c) l = firstn a l ++ firstn c (skipn a l).
Proof. revert l. induction a as [|a IH]; intros [|x l]; cbn; try reflexivity; [now destruct c|]. now rewrite IH. Qed.
Lemma skipn_add (l : list nat) a c : skipn c (skipn a l) = skipn (a + c) l.
Proof. revert l. induction a as [|a IH]; intros [|x l]; cbn; try reflexivity; [now destruct c|]. apply IH. Qed.
Lemma validate_some k s sh : length s = k -> k <= length sh -> firstn k sh = s -> validate k (Some s) sh = Ok s.
Proof.
  intros L K E. unfold validate. destruct (Nat.ltb_spec (length sh) k) as [Q|_]; [lia|]. rewrite L, E, list_eqb_refl.
  destruct (Nat.ltb_spec (length sh) k) as [Q|_]; [lia|]. reflexivity.
Qed.
Lemma validate_none k s sh : k <= length sh -> firstn k sh = s -> validate k None sh = Ok s.
Proof.
  intros K <-. assert (L : length (firstn k sh) = k) by (rewrite firstn_length; lia). unfold validate. destruct (Nat.ltb_spec (length sh) k) as [Q|_]; [lia|].
  rewrite L, list_eqb_refl. destruct (Nat.ltb_spec (length sh) k) as [Q|_]; [lia|]. reflexivity.
Qed.
Lemma to_named_twice n1 n2 args : forall seen1 seen2 seen3 args1 args2,
  to_named Pyro n1 seen1 args = Ok args1 -> to_named Pyro n2 seen2 args1 = Ok args2 ->
  ((seen1 = None /\ seen2 = None /\ seen3 = None) \/
   exists s1 s2, seen1 = Some s1 /\ seen2 = Some s2 /\ seen3 = Some (s1 ++ s2) /\ length s1 = length n1 /\ length s2 = length n2) ->
  exists args3, to_named Pyro (n1 ++ n2) seen3 args = Ok args3 /\ Forall2 (same_arg V) args2 args3.
Proof.
  induction args as [|x args IH]; intros seen1 seen2 seen3 args1 args2 E1 E2 HS; cbn [UnbModel.to_named] in E1.
  { injection E1 as <-. cbn in E2. injection E2 as <-. exists []. split; [reflexivity|constructor]. }
  destruct x as [v|a].
  - destruct (to_named Pyro n1 seen1 args) as [rest| | | | |] eqn:ER; try discriminate. cbn [bindr] in E1. injection E1 as <-. cbn [UnbModel.to_named] in E2.
    destruct (to_named Pyro n2 seen2 rest) as [rest2| | | | |] eqn:ER2; try discriminate. cbn [bindr] in E2. injection E2 as <-.
    destruct (IH _ _ _ _ _ ER ER2 HS) as [args3 [E3 Q]]. cbn [UnbModel.to_named]. rewrite E3. cbn [bindr]. eexists. split; [reflexivity|]. constructor; [reflexivity|assumption].
  - cbn [indexed] in E1. destruct (validate (length n1) seen1 (nshape a)) as [s1| | | | |] eqn:V1; try discriminate. cbn [bindr] in E1.
    destruct (index_names V a 0 n1) as [c| | | | |] eqn:X1; try discriminate. cbn [bindr] in E1.
    destruct (to_named Pyro n1 (Some s1) args) as [rest| | | | |] eqn:ER; try discriminate. cbn [bindr] in E1. injection E1 as <-.
    cbn [UnbModel.to_named indexed] in E2. destruct (validate (length n2) seen2 (nshape c)) as [s2| | | | |] eqn:V2; try discriminate. cbn [bindr] in E2.
    destruct (index_names V c 0 n2) as [e| | | | |] eqn:X2; try discriminate. cbn [bindr] in E2.
    destruct (to_named Pyro n2 (Some s2) rest) as [rest2| | | | |] eqn:ER2; try discriminate. cbn [bindr] in E2. injection E2 as <-.
    destruct (index_inv V _ _ _ X1) as [L1 [S1 [T1 A1]]]. destruct (index_inv V _ _ _ X2) as [L2 [S2 [T2 A2]]].
    destruct (validate_inv _ _ _ _ V1) as [_ [F1 [K1 J1]]].
    { intros s0 Hs. destruct HS as [[-> _]|[u1 [u2 [-> [_ [_ [Hu _]]]]]]]; [discriminate|congruence]. }
    destruct (validate_inv _ _ _ _ V2) as [_ [F2 [K2 J2]]].
    { intros s0 Hs. destruct HS as [[_ [-> _]]|[u1 [u2 [_ [-> [_ [_ Hu]]]]]]]; [discriminate|congruence]. }
    rewrite S1 in L2, F2. rewrite skipn_length in L2.
    assert (F3 : firstn (length (n1 ++ n2)) (nshape a) = s1 ++ s2) by (rewrite app_length, firstn_add, F1, F2; reflexivity).
    assert (V3 : validate (length (n1 ++ n2)) seen3 (nshape a) = Ok (s1 ++ s2)).
    { destruct HS as [[_ [_ ->]]|[u1 [u2 [-> [-> [-> [Hu1 Hu2]]]]]]].
      - apply validate_none; [rewrite app_length; lia|assumption].
      - rewrite (J1 _ eq_refl), (J2 _ eq_refl). apply validate_some; [rewrite !app_length; lia|rewrite app_length; lia|assumption]. }
    cbn [UnbModel.to_named indexed]. rewrite V3. cbn [bindr].
    assert (X3 : exists g, index_names V a 0 (n1 ++ n2) = Ok g /\ nsizes g = nsizes e /\ nshape g = nshape e /\ forall env idx, nelt g env idx = nelt e env idx).
    { unfold index_names. rewrite app_length. destruct (Nat.ltb_spec (length (nshape a)) (0 + (length n1 + length n2))) as [Q|_]; [lia|]. cbn [skipn firstn Nat.add app].
      rewrite combine_app_l by assumption. rewrite add_sizes_app, A1. cbn [bindr]. rewrite <- S1, A2. cbn [bindr]. eexists. split; [reflexivity|].
      cbn [DistModel.nsizes DistModel.nshape DistModel.nelt]. split; [reflexivity|]. split; [now rewrite S2, S1, skipn_add|].
      intros env idx. rewrite T2, T1, map_app, <- app_assoc. reflexivity. }
    destruct X3 as [g [X3 [Z1 [Z2 Z3]]]]. rewrite X3. cbn [bindr].
    destruct (IH (Some s1) (Some s2) (Some (s1 ++ s2)) _ _ ER ER2) as [args3 [E3 Q]]; [right; exists s1, s2; auto|]. rewrite E3. cbn [bindr].
    eexists. split; [reflexivity|]. constructor; [|assumption]. cbn. rewrite Z1, Z2. split; [reflexivity|]. split; [reflexivity|]. intros. now rewrite Z3.
Qed.
Lemma same_shapes args args' : Forall2 (same_arg V) args args' -> forall rs env env',
  lib_batch V rs (member env args) = lib_batch V rs (member env' args') /\
  map (fun rp : nat * arr V => skipn (part V (fst rp) (snd rp)) (shape (snd rp))) (combine rs (member env args)) =
  map (fun rp : nat * arr V => skipn (part V (fst rp) (snd rp)) (shape (snd rp))) (combine rs (member env' args')).
Proof.
  induction 1 as [|x y xs ys H _ IH]; intros [|r rs] env env'; cbn [DistSpec.member map lib_batch combine]; try (split; reflexivity).
  destruct (IH rs env env') as [I1 I2].
  destruct x as [v|a], y as [w|c]; cbn in H; try contradiction.
  - cbn [arg_at map fst snd]. unfold DistSpec.member in I1. rewrite I1. split; [reflexivity|]. f_equal. exact I2.
  - destruct H as [_ [Hs _]]. cbn [arg_at map fst snd]. unfold part, at_env. cbn [shape]. unfold DistSpec.member in I1. rewrite Hs, I1. split; [reflexivity|].
    f_equal. exact I2.
Qed.
Theorem pyro_twice F args n1 n2 args1 args2 : unbind V Pyro F args n1 = Ok args1 -> unbind V Pyro F args1 n2 = Ok args2 ->
  exists args3, unbind V Pyro F args (n1 ++ n2) = Ok args3 /\ Forall2 (same_arg V) args2 args3.
Proof.
  unfold unbind. intros E1 E2. destruct (to_named Pyro n1 None args) as [m1| | | | |] eqn:T1; try discriminate. cbn [bindr] in E1.
  assert (m1 = args1) by (symmetry; exact (finish_inv _ _ _ _ _ _ E1)). subst m1.
  destruct (to_named Pyro n2 None args1) as [m2| | | | |] eqn:T2; try discriminate. cbn [bindr] in E2.
  assert (m2 = args2) by (symmetry; exact (finish_inv _ _ _ _ _ _ E2)). subst m2.
  destruct (to_named_twice n1 n2 args None None None args1 args2 T1 T2) as [args3 [E3 Q]]; [left; auto|]. exists args3. split; [|assumption].
  rewrite E3. cbn [bindr]. cbn [finish] in E1, E2 |- *.
  destruct (same_shapes _ _ Q (pranks V F) (fun _ => 0) (fun _ => 0)) as [B1 B2].
  assert (PE : pyro_event V F args3 = pyro_event V F args2).
  { unfold pyro_event. cbv zeta. rewrite !(member_0 V). rewrite B1. unfold lib_event. now rewrite B2. }
  rewrite PE. destruct (pyro_event V F args2) as [e2| | | | |]; try discriminate. cbn [bindr] in E2 |- *.
  destruct (pyro_event V F args1) as [e1| | | | |]; try discriminate. cbn [bindr] in E1, E2.
  destruct (pyro_event V F args) as [e0| | | | |]; try discriminate. cbn [bindr] in E1 |- *.
  destruct (list_eqb e1 e0) eqn:Q1; [|discriminate]. destruct (list_eqb e2 e1) eqn:Q2; [|discriminate].
  apply list_eqb_true in Q1, Q2. subst. now rewrite list_eqb_refl.
Qed.

(** ** NumPyro: the methods of the new distribution *)
Lemma same_tr (x y z : arr V) : same_arr x y -> same_arr y z -> same_arr x z.
Proof. intros [A1 A2] [B1 B2]. split; [congruence|]. intros idx W. rewrite A2 by assumption. apply B2. now rewrite <- A1. Qed.
Lemma full_unbound l F b names args args' : full V (length names + b) F args -> (forall a, In (AArr a) args -> indexed V l a = true) ->
  Forall2 (unbound_to l names) args args' -> Exists (is_array V) args -> full V b F args'.
Proof.
  intros [R _] HI Q X. split.
  - clear X. revert R HI. generalize (pranks V F). induction Q as [|x y xs ys H Q IH]; intros rs R HI; inversion R as [|r ? rs' ? Hr R']; subst; [constructor|].
    constructor; [|apply IH; [assumption|intros a Ha; apply HI; now right]].
    destruct x as [v|a], y as [w|c]; cbn in H; try contradiction; [exact Hr|]. rewrite (HI a (or_introl eq_refl)) in H. destruct H as [_ [Hs _]]. cbn in Hr |- *.
    rewrite Hs, skipn_length. lia.
  - right. clear R HI. induction Q as [|x y xs ys H Q IH]; [inversion X|]. apply Exists_cons in X. destruct X as [X|X]; [left|right; auto].
    destruct x as [v|a], y as [w|c]; cbn in H; try contradiction; exact Logic.I.
Qed.
Lemma plain_ranked k b F args : full V (k + b) F args -> (forall p, ~ has_size V args p) -> Exists (is_array V) args ->
  (forall a, In (AArr a) args -> nshape a <> []) -> all_ranked V NumPyro k b F args.
Proof.
  intros [R _] HN X HZ. split.
  - clear X. revert R HN HZ. generalize (pranks V F). induction args as [|x args IH]; intros rs R HN HZ; inversion R as [|r ? rs' ? Hr R']; subst; constructor.
    + destruct x as [v|a]; [exact Hr|]. cbn in Hr |- *. split; [now left|]. intros _. destruct (nsizes a) as [|p q] eqn:E; [reflexivity|]. exfalso. apply (HN p).
      exists a. split; [now left|]. rewrite E. now left.
    + apply IH; [assumption|intros p [a [H1 H2]]; apply (HN p); exists a; split; [now right|assumption]|intros a Ha; apply HZ; now right].
  - clear R HN. induction X as [x l H|x l X IH]; [left|right; apply IH; intros a Ha; apply HZ; now right]. destruct x as [v|a]; [destruct H|]. apply (HZ a). now left.
Qed.
Lemma unbound_ready F args names s b args' m : length s = length names -> names <> [] -> full V (length names + b) F args ->
  all_proper V args -> (forall p, ~ has_size V args p) -> NoDup names -> starts V s args -> Exists (is_array V) args ->
  unbind V NumPyro F args names = Ok args' -> indices V args' = Ok m -> lib_batch V (pranks V F) (member (fun _ => 0) args) <> None ->
  full V b F args' /\ all_proper V args' /\ (forall env, valid env m -> within s (map env names)) /\ all_ranked V NumPyro (length names) b F args /\
  (forall env A, lib_batch V (pranks V F) (member env args) = Some A -> firstn (length names) A = s).
Proof.
  intros L NE HF P HN N ST X E Em HB. assert (HZ : forall a, In (AArr a) args -> nshape a <> []).
  { intros a Ha E0. assert (K : exists r, In r (pranks V F) /\ length (nshape a) = length names + b + r).
    { clear - HF Ha. destruct HF as [R _]. induction R as [|r x rs args Hr R IH]; [destruct Ha|]. destruct Ha as [->|Ha]; [exists r; split; [now left|exact Hr]|].
      destruct (IH Ha) as [r' [K1 K2]]. exists r'. split; [now right|assumption]. }
    destruct K as [r [_ K]]. rewrite E0 in K. destruct names; [contradiction|cbn in K; lia]. }
  assert (AR := plain_ranked (length names) b F args HF HN X HZ). assert (Q := unbind_each _ _ _ _ _ E).
  assert (HI : forall a, In (AArr a) args -> indexed V NumPyro a = true).
  { intros a Ha. unfold indexed. specialize (HZ a Ha). destruct (nsizes a) as [|p q] eqn:Es; [now destruct (nshape a)|]. exfalso. apply (HN p). exists a. split; [assumption|].
    rewrite Es. now left. }
  assert (FR : fresh V names args) by (split; [assumption|]; intros a n d H1 H2; exfalso; apply (HN (n, d)); exists a; auto).
  destruct (unbind_succeeds V NumPyro F args names s b L AR FR ST HB) as [args'' [E2 HS]]. rewrite E in E2. injection E2 as <-.
  split; [exact (full_unbound _ _ _ _ _ _ HF HI Q X)|]. split; [|split; [|split; [assumption|]]].
  - clear - Q P FR HI. destruct FR as [N FR]. intros c Hc. induction Q as [|x y xs ys H Q IH]; [destruct Hc|]. destruct Hc as [->|Hc].
    + destruct x as [v|a]; [destruct H|]. eapply unbound_sizes; [exact N| | | |exact H].
      * intros n d. apply FR. now left.
      * apply P. now left.
      * apply HI. now left.
    + apply IH; [intros a' H'; apply P; now right|intros a' H'; apply HI; now right|intros a' n d H'; apply FR; now right|assumption].
  - intros env W. assert (K : forall n d, In (n, d) (combine names s) -> env n < d).
    { intros n d H. apply (W n d). destruct (indices_in V args' [] m Em) as [_ I]; [constructor|]. apply I. right.
      destruct (proj2 (HS (n, d)) (or_intror H)) as [a [H1 H2]]. exists (AArr a). auto. }
    clear - L K. revert s L K. induction names as [|n names IH]; intros [|d s] L K; try discriminate; cbn; constructor; [apply K; now left|].
    apply IH; [cbn in L; lia|]. intros n' d' H. apply K. now right.
  - intros env A HA. unfold unbind in E. destruct (to_named NumPyro names None args) as [new| | | | |] eqn:EN; try discriminate.
    destruct (to_named_cuts _ _ _ _ _ _ _ _ EN ltac:(discriminate) (proj1 AR)) as [s' [L' [_ [ST' C]]]]. specialize (C env).
    rewrite (big_spec _ _ (proj2 AR)) in C. assert (G := batch_cut _ _ _ _ _ _ _ _ C). rewrite HA in G.
    destruct (lib_batch V (pranks V F) (member env new)) as [B|]; [|discriminate]. destruct G as [_ [_ [G _]]]. injection G as ->. rewrite firstn_len by assumption.
    clear - X ST ST' HZ L L'. apply Exists_exists in X. destruct X as [x [Hx Hx']]. destruct x as [v|a]; [destruct Hx'|].
    rewrite <- (ST a Hx (HZ a Hx)), <- (ST' a Hx (HZ a Hx)), L, L'. reflexivity.
Qed.
Theorem unbound_mean F args names s b args' m : lawful V F -> length s = length names -> names <> [] -> full V (length names + b) F args ->
  all_proper V args -> (forall p, ~ has_size V args p) -> NoDup names -> starts V s args -> Exists (is_array V) args ->
  unbind V NumPyro F args names = Ok args' -> indices V args' = Ok m -> lib_mean V F (member (fun _ => 0) args) <> None ->
  exists r, mean V order F args' = Ok r /\ pointwise V m r (fun env => option_map (at_front V (map env names)) (lib_mean V F (member env args))).
Proof.
  intros HL L NE HF P HN N ST X E Em HM. assert (HB : lib_batch V (pranks V F) (member (fun _ => 0) args) <> None).
  { intros K. apply HM. unfold lib_mean. now rewrite K. }
  destruct (unbound_ready F args names s b args' m L NE HF P HN N ST X E Em HB) as [HF' [P' [W [AR FA]]]].
  assert (U : forall env, valid env m -> restricts V F b (map env names) (member env args) (member env args')).
  { intros env We. apply (unbind_law V NumPyro F args names args' b env HL AR E). intros A HA. rewrite (FA env A HA). now apply W. }
  assert (HM' : lib_mean V F (member (fun _ => 0) args') <> None).
  { unfold lib_mean in HM |- *. assert (G : exists B, lib_batch V (pranks V F) (member (fun _ => 0) args') = Some B).
    { unfold unbind in E. destruct (to_named NumPyro names None args) as [new| | | | |] eqn:EN; try discriminate. cbn in E. injection E as <-.
      destruct (to_named_cuts _ _ _ _ _ _ _ _ EN ltac:(discriminate) (proj1 AR)) as [s' [L' [_ [ST' C]]]]. specialize (C (fun _ => 0)).
      assert (G := batch_cut _ _ _ _ _ _ _ _ C). destruct (lib_batch V (pranks V F) (member (fun _ => 0) new)); [eauto|contradiction]. }
    destruct G as [B ->]. discriminate. }
  destruct (mean_law V order any b F args' m (fun _ => 0) HL HF' P' Em HM') as [r [E1 [H1 H2]]]. exists r. split; [assumption|]. split; [assumption|].
  intros env We. destruct (H2 env We) as [c [K1 K2]]. destruct (U env We) as [_ [U2 _]]. unfold front_of in U2. rewrite K1 in U2.
  destruct (lib_mean V F (member env args)) as [a|]; [|contradiction]. eexists. split; [reflexivity|]. exact (same_tr _ _ _ K2 U2).
Qed.
Theorem unbound_log_prob F args names s b args' m value : lawful V F -> length s = length names -> names <> [] -> full V (length names + b) F args ->
  all_proper V args -> (forall p, ~ has_size V args p) -> NoDup names -> starts V s args -> Exists (is_array V) args ->
  unbind V NumPyro F args names = Ok args' -> indices V args' = Ok m ->
  proper value -> compatible m (nsizes value) -> length (nshape value) = b + erank V F ->
  lib_log_prob V F (member (fun _ => 0) args) (at_env V (fun _ => 0) value) <> None -> valid (fun _ => 0) m ->
  exists r, log_prob V order F args' value = Ok r /\
    pointwise V (m ++ nsizes value) r (fun env => option_map (at_front V (map env names)) (lib_log_prob V F (member env args) (at_env V env value))).
Proof.
  intros HL L NE HF P HN N ST X E Em Pv HC Lv HM V0. assert (HB : lib_batch V (pranks V F) (member (fun _ => 0) args) <> None).
  { intros K. apply HM. unfold lib_log_prob. now rewrite K. }
  destruct (unbound_ready F args names s b args' m L NE HF P HN N ST X E Em HB) as [HF' [P' [W [AR FA]]]].
  assert (U : forall env, valid env m -> front_of V (map env names) (lib_log_prob V F (member env args) (at_env V env value)) (lib_log_prob V F (member env args') (at_env V env value))).
  { intros env We. assert (Q : restricts V F b (map env names) (member env args) (member env args')).
    { apply (unbind_law V NumPyro F args names args' b env HL AR E). intros A HA. rewrite (FA env A HA). now apply W. }
    destruct Q as [_ [_ [_ [_ Q]]]]. apply Q. unfold at_env. cbn [shape]. lia. }
  assert (HM' : lib_log_prob V F (member (fun _ => 0) args') (at_env V (fun _ => 0) value) <> None).
  { intros K. specialize (U _ V0). rewrite K in U. destruct (lib_log_prob V F (member (fun _ => 0) args) (at_env V (fun _ => 0) value)); [exact U|congruence]. }
  destruct (log_prob_law V order any b F args' m value (fun _ => 0) HL HF' P' Pv Em HC ltac:(lia) HM') as [r [E1 [H1 H2]]].
  exists r. split; [assumption|]. split; [assumption|].
  intros env We. destruct (H2 env We) as [c [K1 K2]]. assert (Wm : valid env m) by (intros n d H; apply We; rewrite in_app_iff; auto).
  specialize (U env Wm). unfold front_of in U. rewrite K1 in U.
  destruct (lib_log_prob V F (member env args) (at_env V env value)) as [a|]; [|contradiction]. eexists. split; [reflexivity|]. exact (same_tr _ _ _ K2 U).
Qed.

(** ** Pyro's check *)
Lemma event_env rs args env env' :
  map (fun rp : nat * arr V => skipn (part V (fst rp) (snd rp)) (shape (snd rp))) (combine rs (member env args)) =
  map (fun rp : nat * arr V => skipn (part V (fst rp) (snd rp)) (shape (snd rp))) (combine rs (member env' args)).
Proof.
  revert rs. induction args as [|x args IH]; intros [|r rs]; try reflexivity. cbn [DistSpec.member map combine fst snd]. f_equal; [now destruct x|apply IH].
Qed.
Lemma finish_events F args new r env : finish V Pyro F args new = Ok r ->
  lib_event V F (member env new) = lib_event V F (member env args) /\ lib_batch V (pranks V F) (member env new) <> None.
Proof.
  cbn [finish]. unfold pyro_event. cbv zeta. rewrite !(member_0 V). rewrite (batch_env V _ new env (fun _ => 0)).
  destruct (lib_batch V (pranks V F) (member (fun _ => 0) new)); [|discriminate]. cbn [bindr].
  destruct (lib_batch V (pranks V F) (member (fun _ => 0) args)); [|discriminate]. cbn [bindr].
  destruct (list_eqb (lib_event V F (member (fun _ => 0) new)) (lib_event V F (member (fun _ => 0) args))) eqn:E; [|discriminate]. intros _.
  apply list_eqb_true in E. split; [|discriminate]. unfold lib_event in *.
  rewrite (event_env _ new env (fun _ => 0)), (event_env _ args env (fun _ => 0)). exact E.
Qed.
Theorem pyro_events_kept F args names args' env : unbind V Pyro F args names = Ok args' \/ bind V order Pyro F args names = Ok args' ->
  lib_event V F (member env args') = lib_event V F (member env args) /\ lib_batch V (pranks V F) (member env args') <> None.
Proof.
  intros [E|E].
  - unfold unbind in E. destruct (to_named Pyro names None args) as [new| | | | |]; try discriminate. cbn [bindr] in E.
    assert (Q := finish_inv _ _ _ _ _ _ E). subst new. exact (finish_events _ _ _ _ env E).
  - unfold bind in E. destruct (indices V args); try discriminate. cbn [bindr] in E. destruct (sizes_of_names a names); try discriminate. cbn [bindr] in E.
    destruct (mapr (to_positional V order a0) args) as [new| | | | |]; try discriminate. cbn [bindr] in E.
    assert (Q := finish_inv _ _ _ _ _ _ E). subst new. exact (finish_events _ _ _ _ env E).
Qed.
End Laws.
