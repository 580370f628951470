(** The arrays with names of DistModel are what indexed arrays stand for: binding names and indexing with names in
    ArrModel do to an indexed array what [bind_names] and [index_names] do to what it stands for. *)
From Coq Require Import List Bool Arith Lia ZArith Permutation.
From Verif Require Import ArrModel ArrSpec ArrProofs ArrNames ArrBind ArrUnbind DistModel DistSpec DistProofs DistBatch.
Import ListNotations.

Section Bridge.
Variable V : Type.
(** [v] has the elements of [a] at all positions of the names. *)
Definition stands (v : tval V) (a : narr V) : Prop := forall env, valid env (nsizes V a) -> exists c, den env v = Some c /\ same_arr c (at_env V env a).

Lemma assign_off env ns is n : ~ In n ns -> assign env ns is n = env n.
Proof.
  intros H. unfold assign. pose proof (index_of_spec n ns) as X. destruct (index_of n ns) as [i|]; [|reflexivity]. exfalso. apply H. now apply nth_error_In with i.
Qed.
Lemma valid_assign (l m : list (nat * nat)) env is : NoDup (map fst l) -> (forall n d, In (n, d) m -> In n (map fst l) -> In (n, d) l) ->
  valid env (filter (fun p => negb (mem (fst p) (map fst l))) m) -> within (map snd l) is -> valid (assign env (map fst l) is) m.
Proof.
  intros N C W Hw n d H. destruct (in_dec Nat.eq_dec n (map fst l)) as [I|I].
  - apply (assign_lookup l is env n d Hw). apply lookup_In; [assumption|]. now apply C.
  - rewrite assign_off by assumption. apply W. apply filter_In. split; [assumption|]. cbn. destruct (mem n (map fst l)) eqn:E; [|reflexivity].
    apply mem_In in E. contradiction.
Qed.
Theorem bridge_bind (x : arr V) dims (a : narr V) names r : built x dims -> consistent (shape x) dims ->
  NoDup (map fst (nsizes V a)) -> (forall n d, In (n, d) (nsizes V a) <-> indexes (shape x) dims n d) -> (exists env, valid env (nsizes V a)) ->
  stands (TGet x dims) a -> NoDup (map fst names) -> bind_names V a names = Ok r ->
  exists v, bind_dims_jax (TGet x dims) (map fst names) = Ok v /\ stands v r.
Proof.
  intros HB HC Na HI [env0 W0] HS N H. unfold bind_names in H.
  destruct (forallb _ names) eqn:E; [|discriminate]. injection H as <-.
  assert (HN : forall n d, In (n, d) names -> In (n, d) (nsizes V a)).
  { intros n d K. rewrite forallb_forall in E. specialize (E _ K). cbn in E. destruct (lookup (nsizes V a) n) as [d'|] eqn:L; [|discriminate].
    apply Nat.eqb_eq in E. subst d'. now apply lookup_some_In. }
  destruct (bind_jax_meaning V x dims (map fst names) (map snd names) env0 HB N HC) as [v [Ev St]].
  - clear - HN HI. induction names as [|[n d] names IH]; cbn; constructor; [apply HI, HN; now left|apply IH; intros; apply HN; now right].
  - destruct (HS env0 W0) as [c [-> _]]. discriminate.
  - exists v. split; [assumption|]. intros env W. cbn [nsizes] in W.
    assert (V1 : forall is, within (map snd names) is -> valid (assign env (map fst names) is) (nsizes V a)).
    { intros is Hw. apply valid_assign; [assumption| |assumption|assumption]. intros n d K1 K2. apply in_map_iff in K2.
      destruct K2 as [[n' d'] [Q K2]]. cbn in Q. subst n'. assert (K3 := HN _ _ K2). apply lookup_In in K3; [|assumption]. apply lookup_In in K1; [|assumption].
      rewrite K1 in K3. injection K3 as ->. assumption. }
    assert (W1 : within (map snd names) (map env0 (map fst names))).
    { clear - HN W0. induction names as [|[n d] names IH]; cbn; constructor; [apply W0, HN; now left|apply IH; intros; apply HN; now right]. }
    assert (X1 := St env _ W1). destruct (HS _ (V1 _ W1)) as [c1 [D1 S1]]. rewrite D1 in X1. destruct (den env v) as [b|] eqn:Db; [|contradiction].
    destruct X1 as [Sb _]. exists b. split; [reflexivity|]. split.
    + rewrite Sb. cbn. f_equal. apply S1.
    + intros idx Wi. rewrite Sb in Wi. destruct (within_split _ _ _ Wi) as [Wa Wb].
      assert (X2 := St env _ Wa). destruct (HS _ (V1 _ Wa)) as [c2 [D2 S2]]. rewrite D2, Db in X2. destruct X2 as [Sb2 At].
      rewrite <- (firstn_skipn (length (map snd names)) idx) at 1. 
      assert (Wc : within (shape c2) (skipn (length (map snd names)) idx)).
      { rewrite Sb in Sb2. apply app_inv_head in Sb2. now rewrite <- Sb2. }
      rewrite (At _ Wc). rewrite (proj2 S2 _ Wc). unfold at_env. cbn [at_ nelt]. now rewrite map_length.
Qed.
Lemma walk_names env e ns sh : e = length sh - length ns -> length ns <= length sh -> within (firstn (length ns) sh) (map env ns) ->
  exists g, walk env e (map KName ns ++ [KEll]) sh = Some (skipn (length ns) sh, g) /\ forall idx, length idx = length sh - length ns -> g idx = map env ns ++ idx.
Proof.
  revert sh. induction ns as [|n ns IH]; intros sh He L W.
  - cbn. assert (Le : e = length sh) by (cbn in He; lia). rewrite Le, skipn_all, firstn_all, app_nil_r. eexists. split; [reflexivity|].
    cbn. intros idx Li. rewrite firstn_all2, app_nil_r by lia. reflexivity.
  - destruct sh as [|d sh]; [cbn in L; lia|]. cbn [length firstn map] in W. inversion W as [|? ? ? ? H1 H2]; subst.
    change (length (d :: sh) - length (n :: ns)) with (length sh - length ns) in *.
    destruct (IH sh) as [g [G1 G2]]; [reflexivity|cbn in L; lia|assumption|]. cbn [map app walk pick length Nat.sub skipn].
    rewrite (proj2 (Nat.ltb_lt _ _) H1). rewrite G1. eexists. split; [reflexivity|]. intros idx Li. cbn. f_equal. now apply G2.
Qed.
Lemma pick_all env d : pick env KAll d = Some (Keep d (fun i => 0 + i * 1)).
Proof.
  cbn. f_equal. f_equal. rewrite Nat.sub_0_r. change (Pos.to_nat 1) with 1. rewrite Nat.sub_diag, Nat.add_0_r. apply Nat.div_1_r.
Qed.
Lemma walk_key env e k ns sh : e = length sh - (k + length ns) -> k + length ns <= length sh -> within (firstn (length ns) (skipn k sh)) (map env ns) ->
  exists g, walk env e (repeat KAll k ++ map KName ns ++ [KEll]) sh = Some (firstn k sh ++ skipn (k + length ns) sh, g) /\
    forall idx, length idx = length sh - length ns -> g idx = firstn k idx ++ map env ns ++ skipn k idx.
Proof.
  revert sh. induction k as [|k IH]; intros sh He L W.
  - cbn [repeat app firstn skipn Nat.add] in *. destruct (walk_names env e ns sh He L W) as [g [G1 G2]]. eauto.
  - destruct sh as [|d sh]; [cbn in L; lia|]. destruct (IH sh) as [g [G1 G2]]; [cbn [length] in He; lia|cbn [length] in L; lia|exact W|].
    cbn [repeat app]. change (walk env e (KAll :: repeat KAll k ++ map KName ns ++ [KEll]) (d :: sh)) with
      (match pick env KAll d, walk env e (repeat KAll k ++ map KName ns ++ [KEll]) sh with
       | Some (Drop i), Some (s, g) => Some (s, fun idx => i :: g idx)
       | Some (Keep d' f), Some (s, g) => Some (d' :: s, fun idx => f (hd 0 idx) :: g (tl idx))
       | _, _ => None end).
    rewrite pick_all, G1. eexists. split; [reflexivity|]. intros idx Li. destruct idx as [|i idx]; [cbn [length] in Li, L; lia|].
    cbn [hd tl firstn skipn app]. f_equal; [lia|]. apply G2. cbn [length] in Li, L. lia.
Qed.
Lemma used_key k ns : used (repeat KAll k ++ map KName ns) = k + length ns.
Proof.
  unfold used. rewrite filter_app, app_length. f_equal.
  - induction k; [reflexivity|]. cbn. now f_equal.
  - induction ns; [reflexivity|]. cbn. now f_equal.
Qed.
Lemma no_ellipsis k ns : existsb is_ell (repeat KAll k ++ map KName ns) = false.
Proof. rewrite existsb_app. induction k; [cbn|assumption]. now induction ns. Qed.
Lemma no_ellipses k ns : ellipses (repeat KAll k ++ map KName ns) = 0.
Proof. unfold ellipses. rewrite filter_app, app_length. induction k; [cbn|assumption]. now induction ns. Qed.
Theorem bridge_index (x : arr V) k names r v : index_names V (positional V x) k names = Ok r ->
  getitem x (repeat KAll k ++ map KName names) = Ok v -> stands v r.
Proof.
  unfold index_names. cbn [positional nshape nsizes nelt]. destruct (Nat.ltb_spec (length (shape x)) (k + length names)) as [L|L]; [discriminate|].
  destruct (add_sizes [] (combine names (skipn k (shape x)))) as [m| | | | |] eqn:E; try discriminate. cbn [bindr]. intros [= <-] G env W. cbn [nsizes] in W.
  destruct (add_sizes_in _ _ _ E) as [_ I]; [constructor|].
  assert (Wn : within (firstn (length names) (skipn k (shape x))) (map env names)).
  { assert (L' : length names <= length (skipn k (shape x))) by (rewrite skipn_length; lia).
    assert (Q : forall n d, In (n, d) (combine names (skipn k (shape x))) -> env n < d) by (intros n d H; apply W, I; now right).
    clear - L' Q. revert L' Q. generalize (skipn k (shape x)). induction names as [|n names IH]; intros [|d l] L Q; cbn in *; try lia; constructor.
    - apply Q. now left.
    - apply IH; [lia|]. intros; apply Q. now right. }
  pose proof (getitem_meaning V x _ v G env) as M. unfold index_full_arr, index_full in M. rewrite used_key, no_ellipsis, no_ellipses in M.
  assert (L3 : (1 <? 0) || (length (shape x) <? k + length names) = false) by (cbn [orb]; apply Nat.ltb_ge in L; now rewrite L). rewrite L3 in M.
  destruct (walk_key env _ k names (shape x) eq_refl L Wn) as [g [G1 G2]]. rewrite <- app_assoc, G1 in M.
  destruct (den env v) as [c|]; [|contradiction]. exists c. split; [reflexivity|]. destruct M as [M1 M2]. cbn [shape at_] in M1, M2. split; [exact M1|].
  intros idx Wi. rewrite (M2 idx Wi). unfold at_env. cbn [at_ nelt]. f_equal. apply G2. rewrite M1 in Wi. apply within_length in Wi. rewrite <- Wi.
  rewrite app_length, firstn_length, skipn_length. lia.
Qed.
End Bridge.
