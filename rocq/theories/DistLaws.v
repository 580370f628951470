(** Proofs about distributions with named dimensions: a distribution term acts at each position of the names as the
    distribution with the parameters there. *)
From Coq Require Import List Bool Arith Lia Permutation.
From Verif Require Import ArrModel ArrSpec ArrProofs ArrNames ArrBind ArrUnbind DistModel DistSpec DistProofs DistBatch.
Import ListNotations.

Section Laws.
Variable V : Type.
Variable order : list (nat * nat) -> list (nat * nat).
Hypothesis any : forall l, Permutation (order l) l.
Notation narr := (narr V).
Notation nsizes := (nsizes V).
Notation nshape := (nshape V).
Notation nelt := (nelt V).
Notation AArr := (AArr V).
Notation ANum := (ANum V).
Notation proper := (proper V).
Notation bound := (bound V).

Lemma batch_env rs args env env' : lib_batch V rs (member V env args) = lib_batch V rs (member V env' args).
Proof.
  revert rs. induction args as [|x args IH]; intros [|r rs]; try reflexivity. cbn [member map lib_batch]. unfold member in IH. rewrite (IH rs).
  destruct x; reflexivity.
Qed.
Lemma event_bound b m rs args ps env : Forall2 (full_rank V b) rs args -> Forall2 (bound m) args ps ->
  map (fun rp : nat * arr V => skipn (part V (fst rp) (snd rp)) (shape (snd rp))) (combine rs ps) =
  map (fun rp : nat * arr V => skipn (part V (fst rp) (snd rp)) (shape (snd rp))) (combine rs (member V env args)).
Proof.
  intros R. revert ps. induction R as [|r x rs args Hr R IH]; intros ps Q; inversion Q as [|? p ? ps' Hp Q']; subst; [reflexivity|].
  cbn [member map combine fst snd]. unfold member in IH. f_equal; [|now apply IH]. destruct x as [v|a].
  - cbn in Hp. now subst p.
  - destruct Hp as [Sp _]. unfold part. cbn [arg_at]. unfold at_env. cbn [shape]. rewrite Sp. cbn in Hr. rewrite app_length.
    replace (length (map snd m) + length (nshape a) - r) with (length (map snd m) + b) by lia. replace (length (nshape a) - r) with b by lia.
    rewrite skipn_app, skipn_all2 by lia. cbn [app]. f_equal. lia.
Qed.
Lemma agree_names m (a : narr) env env0 idx : proper a -> (forall p, In p (nsizes a) -> In p m) ->
  nelt a (assign env0 (map fst m) (map env (map fst m))) idx = nelt a env idx.
Proof.
  intros [_ P] H. apply P. intros n Hn. apply assign_map. apply in_map_iff in Hn. destruct Hn as [p [<- Hp]]. apply in_map. now apply H.
Qed.
Lemma slices_bound b m rs args ps env x y ib : Forall2 (full_rank V b) rs args -> Forall2 (bound m) args ps -> all_proper V args ->
  (forall z p, In z args -> In p (arg_sizes V z) -> In p m) -> valid env m ->
  (forall r a, In (r, AArr a) (combine rs args) -> length ib = b /\ within (firstn b (nshape a)) (bx (firstn b (nshape a)) ib)) ->
  Forall2 same_arr (slices V rs ps (x ++ map env (map fst m) ++ ib)) (slices V rs (member V env args) (y ++ ib)).
Proof.
  intros R. revert ps. induction R as [|r z rs args Hr R IH]; intros ps Q P H W C; inversion Q as [|? p ? ps' Hp Q']; subst; [constructor|].
  unfold slices. cbn [member map combine fst snd]. constructor.
  2:{ apply IH; [assumption|intros a Ha; apply P; now right|intros w q Hw; apply H; now right|assumption|intros r' a Ha; exact (C r' a (or_intror Ha))]. }
  clear IH. destruct z as [v|a].
  - cbn in Hp, Hr. subst p r. cbn [arg_at]. split; [reflexivity|]. intros idx _. reflexivity.
  - destruct Hp as [Sp Vp]. cbn in Hr. destruct (C r a (or_introl eq_refl)) as [Lb Wb]. unfold slice, part. cbn [arg_at]. unfold at_env. cbn [shape at_].
    rewrite Sp, app_length. replace (length (map snd m) + length (nshape a) - r) with (length (map snd m) + b) by lia.
    replace (length (nshape a) - r) with b by lia. rewrite firstn_app_2. rewrite skipn_app, (skipn_all2 (map snd m)) by lia. cbn [app].
    replace (length (map snd m) + b - length (map snd m)) with b by lia. split; [reflexivity|]. cbn [shape at_]. intros e We.
    assert (Lf : length (firstn b (nshape a)) = b) by (rewrite firstn_length; lia).
    assert (Wm : within (map snd m) (map env (map fst m))).
    { clear - W. induction m as [|[n d] m IH]; cbn; constructor; [apply W; now left|apply IH; intros n' d' H; apply W; now right]. }
    rewrite bindex_skip by (rewrite !app_length, !map_length; lia). rewrite bindex_skip by lia. rewrite bx_app by now rewrite !map_length.
    rewrite (bx_id _ _ Wm). rewrite <- app_assoc. rewrite Vp.
    + apply agree_names; [apply P; now left|]. intros q Hq. exact (H (AArr a) q (or_introl eq_refl) Hq).
    + now rewrite !map_length.
    + now apply (within_firstn _ b); [lia| |].
Qed.

(** Everything about the parameters of a distribution *)
Record ready (b : nat) (F : family V) (args : list (arg V)) (m : list (nat * nat)) (ps : list (arr V)) (B : list nat) : Prop := {
  r_nodup : NoDup (map fst m);
  r_in : forall p, In p m <-> exists x, In x args /\ In p (arg_sizes V x);
  r_pos : pos_args V order args m = Ok ps;
  r_bound : Forall2 (bound m) args ps;
  r_batch : lib_batch V (pranks V F) ps = Some (map snd m ++ B);
  r_member : forall env, lib_batch V (pranks V F) (member V env args) = Some B;
  r_len : length B = b;
  r_cover : forall r a, In (r, AArr a) (combine (pranks V F) args) -> covers (firstn b (nshape a)) B;
  r_event : forall env, lib_event V F ps = lib_event V F (member V env args)
}.
Lemma make_ready b F args m env0 B : full V b F args -> all_proper V args -> indices V args = Ok m ->
  lib_batch V (pranks V F) (member V env0 args) = Some B -> exists ps, ready b F args m ps B.
Proof.
  intros [R HB] P Hm HL. destruct (indices_in V args [] m Hm) as [N In_]; [constructor|].
  assert (I : forall p, In p m <-> exists x, In x args /\ In p (arg_sizes V x)) by (intros p; rewrite In_; cbn; intuition).
  destruct (pos_bound V order any m args P N) as [ps [Ep Q]]; [intros x p Hx Hp; apply I; eauto|]. exists ps.
  destruct (batch_bound V b m _ _ _ env0 B R Q HL) as [HA HC].
  assert (X : length B = b /\ lib_batch V (pranks V F) ps = Some (map snd m ++ B)).
  { destruct (has_array V args) eqn:E; [assumption|]. destruct HA as [-> ->].
    assert (m = []).
    { destruct m as [|p m]; [reflexivity|]. exfalso. destruct (proj1 (I p) (or_introl eq_refl)) as [x [Hx Hp]]. destruct x as [v|a]; [destruct Hp|].
      exact (no_array V args E a Hx). }
    subst m. split; [|reflexivity]. destruct HB as [-> |HB]; [reflexivity|]. apply has_array_spec in HB. congruence. }
  destruct X as [X1 X2]. split; try assumption.
  - intros env. rewrite (batch_env _ _ env env0). assumption.
  - intros env. unfold lib_event. f_equal. exact (event_bound b m _ _ _ env R Q).
Qed.
Lemma batch_ready b F args m ps B : indices V args = Ok m -> ready b F args m ps B -> batch_shape V order F args = Ok B.
Proof.
  intros Hm R. unfold batch_shape. rewrite Hm. cbn [bindr]. rewrite (r_pos _ _ _ _ _ _ R). cbn [bindr]. rewrite (r_batch _ _ _ _ _ _ R). cbn [of_lib bindr].
  f_equal. apply skipn_len. now rewrite map_length.
Qed.
Lemma event_ready b F args m ps B : indices V args = Ok m -> ready b F args m ps B -> event_shape V order F args = Ok (lib_event V F ps).
Proof.
  intros Hm R. unfold event_shape. rewrite Hm. cbn [bindr]. rewrite (r_pos _ _ _ _ _ _ R). cbn [bindr]. rewrite (r_batch _ _ _ _ _ _ R). reflexivity.
Qed.

Theorem batch_law b F args m env B : full V b F args -> all_proper V args -> indices V args = Ok m ->
  lib_batch V (pranks V F) (member V env args) = Some B ->
  batch_shape V order F args = Ok B /\ event_shape V order F args = Ok (lib_event V F (member V env args)).
Proof.
  intros HF P Hm HB. destruct (make_ready b F args m env B HF P Hm HB) as [ps R]. split; [exact (batch_ready b F args m ps B Hm R)|].
  rewrite (event_ready b F args m ps B Hm R). f_equal. apply (r_event _ _ _ _ _ _ R).
Qed.
Lemma valid_within m env : valid env m -> within (map snd m) (map env (map fst m)).
Proof.
  intros W. induction m as [|[n d] m IH]; cbn; constructor; [apply W; now left|apply IH; intros n' d' H; apply W; now right].
Qed.

Theorem mean_law b F args m env0 : lawful V F -> full V b F args -> all_proper V args -> indices V args = Ok m ->
  lib_mean V F (member V env0 args) <> None ->
  exists r, mean V order F args = Ok r /\ pointwise V m r (fun env => lib_mean V F (member V env args)).
Proof.
  intros [_ [HF2 [_ _]]] HF P Hm HL. unfold lib_mean in HL. destruct (lib_batch V (pranks V F) (member V env0 args)) as [B|] eqn:HB; [|congruence].
  destruct (make_ready b F args m env0 B HF P Hm HB) as [ps R]. unfold mean. rewrite Hm. cbn [bindr]. rewrite (r_pos _ _ _ _ _ _ R). cbn [bindr].
  unfold lib_mean. rewrite (r_batch _ _ _ _ _ _ R). cbn [of_lib bindr]. unfold reindex_sample, index_names, positional.
  cbn [DistModel.nshape DistModel.nsizes DistModel.nelt shape at_ firstn skipn].
  assert (N := r_nodup _ _ _ _ _ _ R).
  match goal with |- context [?a <? ?c] => destruct (Nat.ltb_spec a c) as [L|L] end.
  { exfalso. rewrite !app_length, !map_length in L. lia. }
  rewrite <- !app_assoc, combine_fst_snd. rewrite add_sizes_new; [|assumption|intros ? ? []]. cbn [bindr app]. eexists. split; [reflexivity|]. split; [reflexivity|].
  intros env W. rewrite (r_member _ _ _ _ _ _ R env). eexists. split; [reflexivity|]. unfold at_env. cbn [DistModel.nshape DistModel.nelt].
  split; cbn [shape at_].
  - rewrite Nat.add_0_l, skipn_len by now rewrite !map_length. f_equal. apply (r_event _ _ _ _ _ _ R).
  - rewrite Nat.add_0_l, skipn_len by now rewrite !map_length. intros idx Wi. change (firstn 0 idx) with (@nil nat). change (skipn 0 idx) with idx. cbn [app].
    rewrite app_length. replace (length (map snd m)) with (length (map env (map fst m))) by now rewrite !map_length.
    rewrite firstn_app_2, skipn_app, (skipn_all2 (map env (map fst m))) by lia. rewrite Nat.add_comm, Nat.add_sub. cbn [app].
    apply HF2. assert (LI := within_split _ _ _ Wi). destruct LI as [W1 _].
    apply (slices_bound b m (pranks V F) args ps env [] [] (firstn (length B) idx) (proj1 HF) (r_bound _ _ _ _ _ _ R) P); [|assumption|].
    + intros z p Hz Hp. apply (r_in _ _ _ _ _ _ R). eauto.
    + intros r a Ha. split; [rewrite <- (r_len _ _ _ _ _ _ R); symmetry; now apply within_length|].
      exact (bx_within _ _ _ (r_cover _ _ _ _ _ _ R r a Ha) W1).
Qed.

Theorem log_prob_law b F args m value env0 : lawful V F -> full V b F args -> all_proper V args -> proper value -> indices V args = Ok m ->
  compatible m (nsizes value) -> b + erank V F <= length (nshape value) ->
  lib_log_prob V F (member V env0 args) (at_env V env0 value) <> None ->
  exists r, log_prob V order F args value = Ok r /\
    pointwise V (m ++ nsizes value) r (fun env => lib_log_prob V F (member V env args) (at_env V env value)).
Proof.
  intros [HF1 [_ [_ HE]]] HF P Pv Hm HC HL HN. unfold lib_log_prob in HN.
  destruct (lib_batch V (pranks V F) (member V env0 args)) as [B|] eqn:HB; [|congruence].
  destruct (make_ready b F args m env0 B HF P Hm HB) as [ps R]. unfold at_env in HN. cbn [shape] in HN.
  destruct (split_rank (nshape value) b (erank V F) HL) as [S [Vb [Ve [Ev [LS [LVb LVe]]]]]].
  assert (LB := r_len _ _ _ _ _ _ R). assert (N := r_nodup _ _ _ _ _ _ R).
  destruct (length (nshape value) <? erank V F) eqn:Lt; [congruence|]. unfold part in HN. cbn [shape] in HN.
  assert (Fv : firstn (length (nshape value) - erank V F) (nshape value) = S ++ Vb).
  { rewrite Ev at 2. rewrite app_assoc. apply firstn_len. rewrite Ev, !app_length. lia. }
  rewrite Fv, bshape_prefix in HN by lia. destruct (bzip Vb B) as [bz|] eqn:Ebz; [|cbn in HN; congruence]. clear HN.
  destruct (bzip_covers _ _ _ Ebz) as [CV CB]. destruct (bzip_length _ _ _ Ebz) as [_ Lbz].
  unfold log_prob. rewrite Hm. cbn [bindr]. rewrite (batch_ready b F args m ps B Hm R). cbn [bindr]. rewrite (event_ready b F args m ps B Hm R). cbn [bindr].
  assert (LE : length (lib_event V F ps) = erank V F) by apply HE. rewrite LE, LB.
  assert (Es : (if Nat.eqb (b + erank V F) 0 then length (nshape value) else length (nshape value) - (b + erank V F)) = length S).
  { destruct (Nat.eqb_spec (b + erank V F) 0); lia. }
  rewrite Es.
  destruct (bind_named V order any m value Pv N HC) as [v2 [E2 [S2 [I2 [N2 V2]]]]].
  destruct (broadcast_to_named V order value m) as [v1| | | | |]; try discriminate. cbn [bindr] in E2 |- *. rewrite E2. cbn [bindr].
  assert (L2 : length (nshape v2) = length m + length S + length (Vb ++ Ve)) by (rewrite S2, Ev, !app_length, map_length; lia).
  replace (length (nshape v2) - (length m + length S)) with (length (Vb ++ Ve)) by lia.
  fold (block (length m) (length S) (length (Vb ++ Ve))). unfold permute_dims.
  assert (EP : is_perm (length (nshape v2)) (block (length m) (length S) (length (Vb ++ Ve))) = true).
  { unfold is_perm. rewrite block_length, <- L2, Nat.eqb_refl. cbn [andb]. apply forallb_forall. intros i Hi. apply existsb_exists. exists i.
    split; [|apply Nat.eqb_refl]. apply (Permutation_in _ (Permutation_sym (block_permutation _ _ _))). now rewrite <- L2. }
  rewrite EP. cbn [bindr]. rewrite (r_pos _ _ _ _ _ _ R). cbn [bindr].
  assert (SH : map (fun i => nth i (nshape v2) 0) (block (length m) (length S) (length (Vb ++ Ve))) = S ++ map snd m ++ Vb ++ Ve).
  { rewrite S2, Ev. replace (length m) with (length (map snd m)) by now rewrite map_length. apply map_nth_block. }
  unfold lift. 
  set (v3 := NArr V _ _ _).
  assert (H3 : forall env, lib_log_prob V F ps (at_env V env v3) =
     Some (Arr (S ++ map snd m ++ bz) (fun idx => dens V F (slices V (pranks V F) ps idx) (slice V (erank V F) (at_env V env v3) idx)))).
  { intros env. unfold lib_log_prob. rewrite (r_batch _ _ _ _ _ _ R). unfold part, at_env. cbn [shape]. unfold v3. cbn [DistModel.nshape]. rewrite SH.
    destruct (Nat.ltb_spec (length (S ++ map snd m ++ Vb ++ Ve)) (erank V F)) as [Lx|Lx]; [rewrite !app_length in Lx; lia|].
    replace (firstn (length (S ++ map snd m ++ Vb ++ Ve) - erank V F) (S ++ map snd m ++ Vb ++ Ve)) with (S ++ (map snd m ++ Vb)).
    2:{ rewrite !app_assoc. symmetry. apply firstn_len. rewrite !app_length. lia. }
    rewrite bshape_prefix by (rewrite !app_length; lia). rewrite bzip_app by reflexivity. rewrite bzip_same, Ebz. reflexivity. }
  rewrite H3. cbn [bindr shape]. unfold reindex_sample, index_names. cbn [DistModel.nshape DistModel.nsizes DistModel.nelt].
  match goal with |- context [?a <? ?c] => destruct (Nat.ltb_spec a c) as [L|L] end.
  { exfalso. rewrite !app_length, !map_length in L. lia. }
  rewrite skipn_len by reflexivity. rewrite combine_fst_snd.
  rewrite add_sizes_new; [|assumption|].
  2:{ intros n Hn K. unfold v3 in K. cbn [DistModel.nsizes] in K. apply in_map_iff in K. destruct K as [p [<- K]]. now apply I2 in K. }
  cbn [bindr]. eexists. split; [reflexivity|]. split.
  { intros n d. cbn [DistModel.nsizes]. unfold v3. cbn [DistModel.nsizes]. rewrite !in_app_iff. split.
    - intros [H|H]; [right; now apply I2 in H|now left].
    - intros [H|H]; [now right|]. destruct (in_dec Nat.eq_dec n (map fst m)) as [Y|Y]; [|left; apply I2; auto].
      right. apply in_map_iff in Y. destruct Y as [[n' d'] [Q Y]]. cbn in Q. subst n'. now rewrite <- (HC n d' d Y H). }
  intros env W. unfold lib_log_prob at 1. rewrite (r_member _ _ _ _ _ _ R env). unfold at_env at 1 2 3. cbn [shape]. rewrite Lt. unfold part. cbn [shape]. rewrite Fv.
  rewrite bshape_prefix by lia. rewrite Ebz. cbn [option_map]. eexists. split; [reflexivity|].
  unfold at_env at 1. cbn [DistModel.nshape DistModel.nelt].
  rewrite firstn_len by reflexivity. replace (skipn (length S + length (map fst m)) (S ++ map snd m ++ bz)) with bz.
  2:{ rewrite app_assoc. symmetry. apply skipn_len. now rewrite app_length, !map_length. }
  split; cbn [shape at_]; [reflexivity|]. intros idx Wi. destruct (within_split _ _ _ Wi) as [W1 W2].
  rewrite <- (firstn_skipn (length S) idx). set (i1 := firstn (length S) idx) in *. set (i2 := skipn (length S) idx) in *.
  assert (L1 := within_length _ _ W1). assert (Li2 := within_length _ _ W2).
  rewrite firstn_len by now symmetry. rewrite skipn_len by now symmetry.
  rewrite (H3 env). cbn [at_].
  assert (Wm : valid env m) by (intros n d H; apply W; rewrite in_app_iff; auto).
  assert (Wmm := valid_within m env Wm).
  apply HF1.
  - apply (slices_bound b m (pranks V F) args ps env i1 i1 i2 (proj1 HF) (r_bound _ _ _ _ _ _ R) P); [|assumption|].
    + intros z p Hz Hp. apply (r_in _ _ _ _ _ _ R). eauto.
    + intros r a Ha. split; [lia|]. exact (bx_within _ _ _ (covers_trans _ _ _ (r_cover _ _ _ _ _ _ R r a Ha) CB) W2).
  - unfold slice, part, at_env. cbn [shape at_]. unfold v3. cbn [DistModel.nshape DistModel.nelt]. rewrite SH.
    replace (length (S ++ map snd m ++ Vb ++ Ve) - erank V F) with (length (S ++ map snd m ++ Vb)) by (rewrite !app_length; lia).
    replace (S ++ map snd m ++ Vb ++ Ve) with ((S ++ map snd m ++ Vb) ++ Ve) by now rewrite <- !app_assoc.
    rewrite firstn_len, skipn_len by reflexivity. rewrite Fv. replace (length (nshape value) - erank V F) with (length (S ++ Vb)) by (rewrite Ev, !app_length; lia).
    rewrite Ev. replace (S ++ Vb ++ Ve) with ((S ++ Vb) ++ Ve) by now rewrite <- app_assoc. rewrite skipn_len by reflexivity.
    split; cbn [shape at_]; [reflexivity|]. intros e We. assert (Le := within_length _ _ We).
    rewrite (bindex_eq (S ++ map snd m ++ Vb)) by (rewrite !app_length, !map_length; lia). rewrite (bindex_eq (S ++ Vb)) by (rewrite !app_length; lia).
    rewrite !bx_app by (rewrite ?map_length; lia). rewrite (bx_id _ _ W1), (bx_id _ _ Wmm). rewrite <- !app_assoc.
    assert (Wb : within Vb (bx Vb i2)) by exact (bx_within _ _ _ CV W2). assert (Lb := within_length _ _ Wb).
    rewrite block_length. 
    replace (length m) with (length (map env (map fst m))) by now rewrite !map_length.
    rewrite L1. replace (length (Vb ++ Ve)) with (length (bx Vb i2 ++ e)) by (rewrite !app_length; lia).
    rewrite unblock. rewrite V2.
    + apply (proj2 Pv). intros n Hn. destruct (in_dec Nat.eq_dec n (map fst m)) as [Y|Y]; [now apply assign_map|].
      unfold assign. pose proof (index_of_spec n (map fst m)) as X. destruct (index_of n (map fst m)) as [i|]; [|reflexivity].
      exfalso. apply Y. now apply nth_error_In with i.
    + now rewrite !map_length.
    + rewrite Ev. apply within_app; [assumption|]. now apply within_app.
Qed.
End Laws.
