(** Proofs about [bind_dims] and [unbind_dims]. *)
From Coq Require Import List Bool Arith ZArith Lia Permutation.
From Verif Require Import ArrModel ArrSpec ArrProofs ArrNames ArrBind.
Import ListNotations.

Lemma stacked_nil {V} (v : tval V) : stacked [] [] v v.
Proof.
  intros env is W. inversion W; subst. change (assign env [] []) with env. destruct (den env v); [|exact I]. split; reflexivity.
Qed.

Lemma Forall2_nil_inv {A B} (R : A -> B -> Prop) l : Forall2 R [] l -> l = [].
Proof. intros H. inversion H. reflexivity. Qed.

Theorem bind_torch_meaning V (a : arr V) dims names szs env0 :
  built a dims -> NoDup names -> once dims names -> consistent (shape a) dims ->
  Forall2 (fun n d => indexes (shape a) dims n d) names szs -> den env0 (TGet a dims) <> None ->
  exists r, bind_dims_torch (TGet a dims) names = Ok r /\ stacked szs names r (TGet a dims).
Proof.
  intros B Hn Ho Hc F Hd. unfold bind_dims_torch. rewrite (proj2 (nodupb_NoDup names) Hn). cbn [negb sizes1].
  pose proof (add_names_spec (shape a) dims []) as S. destruct (add_names (shape a) dims []) as [m| | | | |]; try contradiction.
  - assert (Hne : names = [] \/ names <> []) by (destruct names; [left; reflexivity|right; discriminate]). destruct Hne as [->|Hne].
    + apply Forall2_nil_inv in F. subst. exists (TGet a dims). split; [reflexivity|apply stacked_nil].
    + assert (E : existsb (fun n => mem n (map fst m)) names = true).
      { destruct F as [|n d names szs F1 F]; [destruct (Hne eq_refl)|]. cbn [existsb]. apply orb_true_iff. left. apply mem_In. 
        assert (Hl : lookup m n = Some d) by (apply (proj1 S); right; exact F1). apply lookup_some_In in Hl. apply in_map_iff. exists (n, d). auto. }
      rewrite E. cbn [negb]. apply (bind_core_meaning V a dims names szs env0); auto. cbn [den] in Hd. unfold index_arr in Hd. destruct (index_axes env0 (shape a) dims); [discriminate|exfalso; apply Hd; reflexivity].
  - destruct S as (n & d & d' & Hne & [Hx|Hx] & Hy); [discriminate Hx|]. exfalso. apply Hne. eapply Hc; eassumption.
Qed.

Theorem bind_jax_meaning V (a : arr V) dims names szs env0 :
  built a dims -> NoDup names -> consistent (shape a) dims ->
  Forall2 (fun n d => indexes (shape a) dims n d) names szs -> den env0 (TGet a dims) <> None ->
  exists r, bind_dims_jax (TGet a dims) names = Ok r /\ stacked szs names r (TGet a dims).
Proof.
  intros B Hn Hc F Hd. assert (Hd' : index_axes env0 (shape a) dims <> None).
  { cbn [den] in Hd. unfold index_arr in Hd. destruct (index_axes env0 (shape a) dims); [discriminate|exfalso; apply Hd; reflexivity]. }
  destruct (partial_eval_ok V a dims env0 B Hd' Hc) as (a' & dims' & E & B' & N & O & I). pose proof (partial_eval_meaning V a dims _ B E) as M.
  unfold bind_dims_jax. rewrite E. destruct names as [|n0 names0] eqn:En.
  - apply Forall2_nil_inv in F. subst. exists (TGet a' dims'). split; [reflexivity|]. intros env is W. inversion W; subst. change (assign env [] []) with env. specialize (M env).
    destruct (den env (TGet a' dims')) as [b|], (den env (TGet a dims)) as [c|]; cbn in M; try contradiction; [|exact Logic.I]. destruct M as [M1 M2]. split; [exact M1|].
    intros idx Hw. apply M2. rewrite M1. exact Hw.
  - rewrite <- En in *. assert (F' : Forall2 (fun n d => indexes (shape a') dims' n d) names szs).
    { clear -F I. induction F; constructor; auto. apply I. assumption. }
    destruct (bind_core_meaning V a' dims' names szs env0) as (r & Er & Sr); auto.
    + rewrite En. discriminate.
    + intros n i j Hi. apply O. exists n0. apply N. rewrite En in F'. inversion F' as [|? ? ? ? (i0 & F1 & _) ?]; subst. eapply nth_error_In; exact F1.
    + intros n d d' H1 H2. apply I in H1, H2. eapply Hc; eassumption.
    + specialize (M env0). intros Hx. change (den env0 (TGet a' dims')) with (index_arr env0 a' dims') in M. unfold index_arr in M at 1. rewrite Hx in M. destruct (den env0 (TGet a dims)); [contradiction|apply Hd; reflexivity].
    + exists r. split; [exact Er|]. intros env is W. specialize (Sr env is W). specialize (M (assign env names is)).
      destruct (den env r) as [b|], (den (assign env names is) (TGet a' dims')) as [c'|], (den (assign env names is) (TGet a dims)) as [c|]; cbn in M; try contradiction; [|exact Logic.I].
      destruct M as [M1 M2]. destruct Sr as [S1 S2]. split; [congruence|]. intros idx Hw. rewrite S2 by (rewrite M1; exact Hw). apply M2. rewrite M1. exact Hw.
Qed.

(** ** [unbind_dims] *)
Lemma names_consistent sh names m : NoDup names -> consistent sh (map KName names ++ repeat KAll m).
Proof.
  intros Hn n d d' (i & H1 & H2) (j & H3 & H4). assert (E : forall i, nth_error (map KName names ++ repeat KAll m) i = Some (KName n) -> nth_error names i = Some n).
  { intros x Hx. destruct (Nat.lt_ge_cases x (length names)) as [Hlt|Hge].
    - rewrite nth_error_app1 in Hx by (rewrite map_length; exact Hlt). rewrite nth_error_map in Hx. destruct (nth_error names x); [|discriminate Hx]. cbn in Hx. inversion Hx. reflexivity.
    - rewrite nth_error_app2 in Hx by (rewrite map_length; exact Hge). apply nth_error_In, repeat_spec in Hx. discriminate Hx. }
  apply E in H1, H3. pose proof (index_of_nth _ _ _ Hn H1). pose proof (index_of_nth _ _ _ Hn H3). congruence.
Qed.

Lemma names_plain names m : plain (map KName names ++ repeat KAll m).
Proof.
  intros k Hk. apply in_app_or in Hk. destruct Hk as [Hk|Hk]; [apply in_map_iff in Hk; destruct Hk as (n & <- & _); reflexivity|apply repeat_spec in Hk; subst; reflexivity].
Qed.

Lemma unbind_ok V (a : arr V) names : NoDup names -> length names <= length (shape a) ->
  unbind_dims a names = Ok (match names with [] => TArr a | _ => TGet (reshape a (shape a)) (map KName names ++ repeat KAll (length (shape a) - length names)) end).
Proof.
  intros Hn L. unfold unbind_dims. destruct names as [|n0 names0] eqn:En; [reflexivity|]. rewrite <- En in *.
  rewrite getitem_nonempty by (rewrite En; discriminate). pose proof (names_plain names 0) as P. cbn [repeat] in P. rewrite app_nil_r in P.
  rewrite desugar_plain by (auto; rewrite map_length; exact L). rewrite map_length.
  assert (E1 : existsb is_name (map KName names) = true) by (rewrite En; reflexivity). rewrite E1.
  assert (E2 : forallb is_name (map KName names) = true) by (apply forallb_forall; intros k Hk; apply in_map_iff in Hk; destruct Hk as (n & <- & _); reflexivity). rewrite E2.
  pose proof (add_names_spec (shape a) (map KName names ++ repeat KAll (length (shape a) - length names)) []) as S.
  destruct (add_names (shape a) (map KName names ++ repeat KAll (length (shape a) - length names)) []) as [m| | | | |]; try contradiction; [reflexivity|].
  destruct S as (n & d & d' & Hne & [Hx|Hx] & Hy); [discriminate Hx|]. exfalso. apply Hne. eapply names_consistent; eassumption.
Qed.

Lemma map_assign env names is : NoDup names -> length is = length names -> map (assign env names is) names = is.
Proof.
  intros Hn L. apply nth_ext with (d := 0) (d' := 0); [rewrite map_length; auto|]. intros i Hi. rewrite map_length in Hi.
  rewrite (nth_indep _ 0 (assign env names is 0)) by (rewrite map_length; exact Hi). rewrite map_nth. unfold assign.
  rewrite (index_of_nth (nth i names 0) names i Hn) by (apply nth_error_nth'; exact Hi). apply nth_indep. lia.
Qed.

Lemma within_firstn sh k is rest : k <= length sh -> within (firstn k sh) is -> within (skipn k sh) rest -> within sh (is ++ rest).
Proof. intros L H1 H2. rewrite <- (firstn_skipn k sh). apply within_app; assumption. Qed.

Theorem unbind_meaning V (a : arr V) names : NoDup names -> length names <= length (shape a) ->
  exists v, unbind_dims a names = Ok v /\
    forall env is, within (firstn (length names) (shape a)) is ->
      exists c, den (assign env names is) v = Some c /\ shape c = skipn (length names) (shape a) /\
        forall idx, within (shape c) idx -> at_ c idx = at_ a (is ++ idx).
Proof.
  intros Hn L. rewrite (unbind_ok V a names Hn L). eexists. split; [reflexivity|]. intros env is W.
  assert (Li : length is = length names) by (rewrite <- (within_length _ _ W); apply firstn_length_le; exact L).
  destruct names as [|n0 names0] eqn:En.
  - exists a. cbn [length skipn]. destruct is; [|discriminate Li]. repeat split.
  - rewrite <- En in *. clear En n0 names0. cbn [den]. unfold index_arr. change (shape (reshape a (shape a))) with (shape a).
    destruct (names_axes (assign env names is) names (firstn (length names) (shape a)) (skipn (length names) (shape a))) as (g & Eg & Hg); [rewrite map_assign by auto; exact W|].
    rewrite firstn_skipn, skipn_length in Eg. rewrite Eg. eexists. split; [reflexivity|]. cbn [shape at_]. split; [reflexivity|]. intros idx Hi.
    rewrite Hg by (symmetry; apply within_length; exact Hi). rewrite map_assign by auto. apply reshape_same. eapply within_firstn; eassumption.
Qed.

(** Binding what was unbound. *)
Lemma stacked_unbind V (a : arr V) names v r : length names <= length (shape a) -> 0 < prod (firstn (length names) (shape a)) ->
  (forall env is, within (firstn (length names) (shape a)) is ->
      exists c, den (assign env names is) v = Some c /\ shape c = skipn (length names) (shape a) /\ forall idx, within (shape c) idx -> at_ c idx = at_ a (is ++ idx)) ->
  stacked (firstn (length names) (shape a)) names r v -> forall env, same (den env r) (Some a).
Proof.
  intros L Hp Hu Hs env. destruct (unravel_within _ _ Hp) as [W0 _]. destruct (Hu env _ W0) as (c & Ec & Sc & _). pose proof (Hs env _ W0) as H0. rewrite Ec in H0.
  destruct (den env r) as [b|] eqn:Eb; [|contradiction]. destruct H0 as [H0 _]. rewrite Sc, firstn_skipn in H0. split; [exact H0|]. intros idx Hi. rewrite H0 in Hi.
  rewrite <- (firstn_skipn (length names) (shape a)) in Hi. apply within_split in Hi. destruct Hi as [Wi Wr]. rewrite firstn_length_le in Wi, Wr by exact L.
  destruct (Hu env _ Wi) as (c' & Ec' & Sc' & Ac). pose proof (Hs env _ Wi) as H1. rewrite Ec', Eb in H1. destruct H1 as [_ H1]. rewrite Sc' in *.
  rewrite <- (firstn_skipn (length names) idx). rewrite H1 by exact Wr. rewrite Ac by exact Wr. reflexivity.
Qed.

Lemma Forall2_weaken {A B} (R R' : A -> B -> Prop) l l' : (forall x y, R x y -> R' x y) -> Forall2 R l l' -> Forall2 R' l l'.
Proof. intros H F. induction F; constructor; auto. Qed.

Lemma names_sizes names : forall sh m, length names <= length sh ->
  Forall2 (fun n d => indexes sh (map KName names ++ repeat KAll m) n d) names (firstn (length names) sh).
Proof.
  induction names as [|n names IH]; intros sh m L; [constructor|]. destruct sh as [|d sh]; [cbn in L; lia|]. cbn [length firstn map app]. constructor.
  - apply indexes_cons. auto.
  - cbn in L. assert (F := IH sh m ltac:(lia)). revert F. apply Forall2_weaken. intros x y H. apply indexes_cons. auto.
Qed.

Lemma names_once names m : NoDup names -> once (map KName names ++ repeat KAll m) names.
Proof.
  intros Hn n i j _ H1 H3. assert (E : forall i, nth_error (map KName names ++ repeat KAll m) i = Some (KName n) -> nth_error names i = Some n).
  { intros x Hx. destruct (Nat.lt_ge_cases x (length names)) as [Hlt|Hge].
    - rewrite nth_error_app1 in Hx by (rewrite map_length; exact Hlt). rewrite nth_error_map in Hx. destruct (nth_error names x); [|discriminate Hx]. cbn in Hx. inversion Hx. reflexivity.
    - rewrite nth_error_app2 in Hx by (rewrite map_length; exact Hge). apply nth_error_In, repeat_spec in Hx. discriminate Hx. }
  apply E in H1, H3. pose proof (index_of_nth _ _ _ Hn H1). pose proof (index_of_nth _ _ _ Hn H3). congruence.
Qed.

Lemma bind_unbind_gen V (a : arr V) names (bnd : tval V -> list nat -> res (tval V)) :
  (bnd (TArr a) [] = Ok (TArr a)) ->
  (forall dims szs env0, built (reshape a (shape a)) dims -> once dims names -> consistent (shape a) dims ->
    Forall2 (fun n d => indexes (shape a) dims n d) names szs -> den env0 (TGet (reshape a (shape a)) dims) <> None ->
    exists r, bnd (TGet (reshape a (shape a)) dims) names = Ok r /\ stacked szs names r (TGet (reshape a (shape a)) dims)) ->
  NoDup names -> length names <= length (shape a) -> 0 < prod (firstn (length names) (shape a)) ->
  exists v r, unbind_dims a names = Ok v /\ bnd v names = Ok r /\ forall env, same (den env r) (Some a).
Proof.
  intros Hnil Hb Hn L Hp. destruct (unbind_meaning V a names Hn L) as (v & Ev & Mv). exists v. rewrite (unbind_ok V a names Hn L) in Ev.
  destruct (unravel_within _ _ Hp) as [W0 _]. destruct (Mv (fun _ => 0) _ W0) as (c0 & Ec & _). rewrite (unbind_ok V a names Hn L).
  destruct names as [|n0 names0] eqn:En.
  - inversion Ev; subst v. exists (TArr a). split; [reflexivity|]. split; [exact Hnil|]. intros env. apply same_refl.
  - rewrite <- En in *. inversion Ev; subst v.
    destruct (Hb (map KName names ++ repeat KAll (length (shape a) - length names)) (firstn (length names) (shape a)) (assign (fun _ => 0) names (unravel (firstn (length names) (shape a)) 0))) as (r & Er & Sr).
    + split; [|apply names_plain]. rewrite app_length, map_length, repeat_length. cbn [reshape shape]. lia.
    + apply names_once. exact Hn.
    + apply names_consistent. exact Hn.
    + apply names_sizes. exact L.
    + rewrite Ec. discriminate.
    + exists r. split; [reflexivity|]. split; [exact Er|]. intros env. eapply stacked_unbind; eassumption.
Qed.

Theorem bind_unbind_torch V (a : arr V) names : NoDup names -> length names <= length (shape a) -> 0 < prod (firstn (length names) (shape a)) ->
  exists v r, unbind_dims a names = Ok v /\ bind_dims_torch v names = Ok r /\ forall env, same (den env r) (Some a).
Proof.
  intros Hn L Hp. apply (bind_unbind_gen V a names bind_dims_torch); auto. intros dims szs env0 B O C F D. eapply bind_torch_meaning; eassumption.
Qed.

Theorem bind_unbind_jax V (a : arr V) names : NoDup names -> length names <= length (shape a) -> 0 < prod (firstn (length names) (shape a)) ->
  exists v r, unbind_dims a names = Ok v /\ bind_dims_jax v names = Ok r /\ forall env, same (den env r) (Some a).
Proof.
  intros Hn L Hp. apply (bind_unbind_gen V a names bind_dims_jax); auto. intros dims szs env0 B O C F D. eapply bind_jax_meaning; eassumption.
Qed.

(** What is refused or left as a term *)
Lemma nodupb_false : forall names, ~ NoDup names -> nodupb names = false.
Proof. intros names H. destruct (nodupb names) eqn:E; [|reflexivity]. destruct H. apply nodupb_NoDup. exact E. Qed.
Lemma bind_twice V (v : tval V) names : ~ NoDup names -> bind_dims_torch v names = ValueError.
Proof. intros H. unfold bind_dims_torch. rewrite (nodupb_false names H). reflexivity. Qed.
Lemma oindex_none : forall n dims, ~ In (KName n) dims -> oindex n (names_of dims) = None.
Proof.
  intros n dims. unfold names_of. induction dims as [|k dims IH]; intros H; [reflexivity|].
  destruct k; cbn [map oindex]; try (rewrite IH; [reflexivity|]; intros X; apply H; right; exact X).
  destruct (Nat.eqb_spec n n0) as [->|]; [destruct H; left; reflexivity|]. rewrite IH; [reflexivity|]. intros X. apply H. right. exact X.
Qed.
Lemma bind_missing V (a : arr V) dims names sizes n m : NoDup names -> sizes1 (TGet a dims) = Ok sizes ->
  In n names -> In n (map fst sizes) -> In m names -> ~ In (KName m) dims -> bind_dims_torch (TGet a dims) names = NotHandled.
Proof.
  intros HN E Hn Hs Hm Hd. unfold bind_dims_torch. rewrite (proj2 (nodupb_NoDup names) HN). cbn [negb]. rewrite E.
  assert (X : existsb (fun n => mem n (map fst sizes)) names = true).
  { apply existsb_exists. exists n. split; [exact Hn|]. unfold mem. apply existsb_exists. exists n. split; [exact Hs|apply Nat.eqb_refl]. }
  rewrite X. cbn [negb]. unfold bind_core.
  assert (Y : forallb (fun n => match oindex n (names_of dims) with Some _ => true | None => false end) names = false).
  { destruct (forallb _ names) eqn:F; [|reflexivity]. rewrite forallb_forall in F. specialize (F m Hm). cbv beta in F.
    rewrite (oindex_none m dims Hd) in F. discriminate. }
  rewrite Y. reflexivity.
Qed.
