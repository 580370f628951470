(** Proofs about [to_event] of distributions with named dimensions. *)
From Coq Require Import List Bool Arith Lia Permutation.
From Verif Require Import ArrModel ArrSpec ArrProofs ArrNames ArrBind ArrUnbind DistModel DistSpec DistProofs DistBatch DistBridge DistLaws.
From Verif Require Import EvtModel EvtSpec.
Import ListNotations.

Section Proofs.
Variable V : Type.
Variable order : list (nat * nat) -> list (nat * nat).
Hypothesis any : forall l, Permutation (order l) l.
Variable total : list nat -> (list nat -> V) -> V.
Hypothesis Hsum : sums V total.
Notation narr := (narr V).
Notation nsizes := (nsizes V).
Notation nshape := (nshape V).
Notation nelt := (nelt V).
Notation proper := (proper V).
Notation plain := (plain V total).
Notation dterm := (dterm V).
Notation tpos := (tpos V order total).
Notation tindices := (tindices V).
Notation pos := (pos V).

(** [v] at the positions [env] of the names [m], which are axes after [S], is [u]. *)
Definition cut (m : list (nat * nat)) (env : nat -> nat) (S : list nat) (T : list nat) (u v : arr V) : Prop :=
  forall i j, within S i -> within T j -> at_ u (i ++ j) = at_ v (i ++ map env (map fst m) ++ j).

(** A distribution with the names [m] as leading batch axes, and the distributions at their positions. *)
Record stacks (m : list (nat * nat)) (d : dterm) (p : pos) (B Ev : list nat) : Prop := {
  s_batch : pbatch V p = map snd m ++ B;
  s_event : pevent V p = Ev;
  s_plain : forall env, exists q, plain env d = Some q /\ pbatch V q = B /\ pevent V q = Ev /\ shape (pmean V q) = B ++ Ev /\
    (valid env m -> cut m env [] (B ++ Ev) (pmean V q) (pmean V p));
  s_mean : shape (pmean V p) = map snd m ++ B ++ Ev;
  s_log : forall S T, length T = length (B ++ Ev) ->
    (exists bz, length bz = length B /\
       forall v, shape v = S ++ map snd m ++ T -> exists w, plog V p v = Some w /\ shape w = S ++ map snd m ++ bz /\
       forall env q u, valid env m -> plain env d = Some q -> shape u = S ++ T -> cut m env S T u v ->
         exists w', plog V q u = Some w' /\ shape w' = S ++ bz /\ cut m env S bz w' w) \/
    (forall env q u, plain env d = Some q -> shape u = S ++ T -> plog V q u = None)
}.

Lemma within_app_inv a b i : within (a ++ b) i -> exists x y, i = x ++ y /\ within a x /\ within b y.
Proof. intros H. exists (firstn (length a) i), (skipn (length a) i). rewrite firstn_skipn. split; [reflexivity|]. exact (within_split _ _ _ H). Qed.

Lemma base_log b F args m ps B S T : lawful V F -> full V b F args -> all_proper V args -> ready V order b F args m ps B ->
  length T = length B + erank V F ->
  (exists bz, length bz = length B /\
     forall v, shape v = S ++ map snd m ++ T -> exists w, lib_log_prob V F ps v = Some w /\ shape w = S ++ map snd m ++ bz /\
     forall env u, valid env m -> shape u = S ++ T -> cut m env S T u v ->
       exists w', lib_log_prob V F (member V env args) u = Some w' /\ shape w' = S ++ bz /\ cut m env S bz w' w) \/
  (forall env u, shape u = S ++ T -> lib_log_prob V F (member V env args) u = None).
Proof.
  intros [HF1 _] HF P R HT. assert (LB := r_len _ _ _ _ _ _ _ _ R).
  destruct (split_two T b (erank V F)) as [Vb [Ve [-> [LVb LVe]]]]; [lia|].
  assert (Fu : forall (u : arr V), shape u = S ++ Vb ++ Ve -> (length (shape u) <? erank V F) = false /\
     firstn (part V (erank V F) u) (shape u) = S ++ Vb /\ skipn (part V (erank V F) u) (shape u) = Ve).
  { intros u Eu. unfold part. rewrite Eu. split; [apply Nat.ltb_ge; rewrite !app_length; lia|]. rewrite !app_assoc.
    split; [apply firstn_len|apply skipn_len]; rewrite !app_length; lia. }
  destruct (bzip Vb B) as [bz|] eqn:Ebz.
  2:{ right. intros env u Eu. unfold lib_log_prob. rewrite (r_member _ _ _ _ _ _ _ _ R env). destruct (Fu u Eu) as [-> [-> _]].
      rewrite bshape_prefix by lia. now rewrite Ebz. }
  left. destruct (bzip_covers _ _ _ Ebz) as [CV CB]. destruct (bzip_length _ _ _ Ebz) as [_ Lbz]. exists bz. split; [lia|].
  intros v Ev. unfold lib_log_prob at 1. rewrite (r_batch _ _ _ _ _ _ _ _ R).
  assert (Fv : (length (shape v) <? erank V F) = false /\
     firstn (part V (erank V F) v) (shape v) = S ++ map snd m ++ Vb /\ skipn (part V (erank V F) v) (shape v) = Ve).
  { unfold part. rewrite Ev. split; [apply Nat.ltb_ge; rewrite !app_length; lia|].
    replace (S ++ map snd m ++ Vb ++ Ve) with ((S ++ map snd m ++ Vb) ++ Ve) by now rewrite <- !app_assoc.
    split; [apply firstn_len|apply skipn_len]; rewrite !app_length; lia. }
  destruct Fv as [L1 [L2 L3]]. rewrite L1, L2. rewrite bshape_prefix by (rewrite !app_length; lia). rewrite bzip_app by reflexivity. rewrite bzip_same, Ebz.
  cbn [option_map]. eexists. split; [reflexivity|]. split; [reflexivity|].
  intros env u W Eu C. unfold lib_log_prob. rewrite (r_member _ _ _ _ _ _ _ _ R env). destruct (Fu u Eu) as [K1 [K2 K3]]. rewrite K1, K2.
  rewrite bshape_prefix by lia. rewrite Ebz. cbn [option_map]. eexists. split; [reflexivity|]. split; [reflexivity|].
  intros i1 i2 W1 W2. cbn [at_]. symmetry. assert (Li1 := within_length _ _ W1). assert (Li2 := within_length _ _ W2).
  assert (Wmm := valid_within m env W).
  apply HF1.
  - apply (slices_bound V b m (pranks V F) args ps env i1 i1 i2 (proj1 HF) (r_bound _ _ _ _ _ _ _ _ R) P); [|assumption|].
    + intros z p Hz Hp. apply (r_in _ _ _ _ _ _ _ _ R). eauto.
    + intros r a Ha. split; [lia|]. exact (bx_within _ _ _ (covers_trans _ _ _ (r_cover _ _ _ _ _ _ _ _ R r a Ha) CB) W2).
  - unfold slice. rewrite L2, L3, K2, K3. split; cbn [shape at_]; [reflexivity|]. intros e We. assert (Le := within_length _ _ We).
    rewrite (bindex_eq (S ++ map snd m ++ Vb)) by (rewrite !app_length, !map_length; lia). rewrite (bindex_eq (S ++ Vb)) by (rewrite !app_length; lia).
    rewrite !bx_app by (rewrite ?map_length; lia). rewrite (bx_id _ _ W1), (bx_id _ _ Wmm). rewrite <- !app_assoc. symmetry.
    apply C; [assumption|]. apply within_app; [|assumption]. exact (bx_within _ _ _ CV W2).
Qed.

Lemma base_stacks b F args m env0 : lawful V F -> full V b F args -> all_proper V args -> indices V args = Ok m ->
  plain env0 (TDist V F args) <> None -> exists p B Ev, tpos (TDist V F args) = Ok p /\ stacks m (TDist V F args) p B Ev /\ length (B ++ Ev) = b + erank V F.
Proof.
  intros HF0 HF P Hm HN. assert (HF1 := HF0). destruct HF1 as [_ [HF2 [_ HE]]].
  cbn [EvtSpec.plain] in HN. unfold lib_pos in HN. destruct (lib_batch V (pranks V F) (member V env0 args)) as [B|] eqn:HB; [|congruence].
  destruct (make_ready V order any b F args m env0 B HF P Hm HB) as [ps R].
  assert (LB := r_len _ _ _ _ _ _ _ _ R).
  assert (Em : lib_mean V F ps = Some (Arr ((map snd m ++ B) ++ lib_event V F ps)
     (fun idx => avg V F (slices V (pranks V F) ps (firstn (length (map snd m ++ B)) idx)) (skipn (length (map snd m ++ B)) idx)))).
  { unfold lib_mean. now rewrite (r_batch _ _ _ _ _ _ _ _ R). }
  assert (Emm : forall env, lib_mean V F (member V env args) = Some (Arr (B ++ lib_event V F ps)
     (fun idx => avg V F (slices V (pranks V F) (member V env args) (firstn (length B) idx)) (skipn (length B) idx)))).
  { intros env. unfold lib_mean. rewrite (r_member _ _ _ _ _ _ _ _ R env). now rewrite (r_event _ _ _ _ _ _ _ _ R env). }
  eexists _, B, (lib_event V F ps). split; [|split].
  - cbn [EvtModel.tpos]. rewrite Hm. cbn [bindr]. rewrite (r_pos _ _ _ _ _ _ _ _ R). cbn [bindr]. unfold lib_pos.
    rewrite (r_batch _ _ _ _ _ _ _ _ R), Em. cbn [of_lib]. reflexivity.
  - split; cbn [pbatch pevent pmean plog].
    + reflexivity.
    + reflexivity.
    + intros env. cbn [EvtSpec.plain]. unfold lib_pos. rewrite (r_member _ _ _ _ _ _ _ _ R env), Emm. eexists. split; [reflexivity|].
      cbn [pbatch pevent pmean shape]. split; [reflexivity|]. split; [symmetry; apply (r_event _ _ _ _ _ _ _ _ R)|]. split; [reflexivity|].
      intros W i j Wi Wj. assert (Li := within_length _ _ Wi). destruct i; [|discriminate Li]. cbn [app at_].
      rewrite app_length. replace (length (map snd m)) with (length (map env (map fst m))) by now rewrite !map_length.
      rewrite firstn_app_2, skipn_app, (skipn_all2 (map env (map fst m))) by lia. rewrite Nat.add_comm, Nat.add_sub. cbn [app]. symmetry.
      apply HF2. destruct (within_split _ _ _ Wj) as [W1 _].
      apply (slices_bound V b m (pranks V F) args ps env [] [] (firstn (length B) j) (proj1 HF) (r_bound _ _ _ _ _ _ _ _ R) P); [|assumption|].
      * intros z p Hz Hp. apply (r_in _ _ _ _ _ _ _ _ R). eauto.
      * intros r a Ha. split; [rewrite <- (r_len _ _ _ _ _ _ _ _ R); symmetry; now apply within_length|].
        exact (bx_within _ _ _ (r_cover _ _ _ _ _ _ _ _ R r a Ha) W1).
    + cbn [shape]. now rewrite <- app_assoc.
    + intros S T HT. unfold lib_event in HT. rewrite app_length, HE in HT.
      assert (Q : forall env q, plain env (TDist V F args) = Some q -> plog V q = lib_log_prob V F (member V env args)).
      { intros env q Hq. cbn [EvtSpec.plain] in Hq. unfold lib_pos in Hq. rewrite (r_member _ _ _ _ _ _ _ _ R env), Emm in Hq. injection Hq as <-. reflexivity. }
      destruct (base_log b F args m ps B S T HF0 HF P R HT) as [[bz [Lz H]]|H].
      * left. exists bz. split; [assumption|]. intros v Ev. destruct (H v Ev) as [w [H1 [H2 H3]]]. exists w. split; [assumption|]. split; [assumption|].
        intros env q u W Hq. rewrite (Q env q Hq). now apply H3.
      * right. intros env q u Hq. rewrite (Q env q Hq). apply H.
  - unfold lib_event. rewrite app_length, HE. lia.
Qed.

Lemma event_stacks m d p B Ev n env0 : stacks m d p B Ev -> (n = None -> m = []) -> plain env0 (TEvent V d n) <> None ->
  exists p' B' Ev', lib_to_event V total n p = Some p' /\ stacks m (TEvent V d n) p' B' Ev' /\ B' ++ Ev' = B ++ Ev.
Proof.
  intros S Hn HN. cbn [EvtSpec.plain] in HN. destruct (s_plain _ _ _ _ _ S env0) as [q0 [E0 [B0 [V0 _]]]]. rewrite E0 in HN.
  set (k := match n with Some k => k | None => length B end).
  assert (Hk : k <= length B).
  { subst k. destruct n as [k|]; [|lia]. unfold lib_to_event in HN. rewrite B0 in HN. destruct (Nat.ltb_spec (length B) k); [congruence|lia]. }
  assert (Hkp : match n with Some k0 => k0 | None => length (pbatch V p) end = k).
  { subst k. destruct n as [k|]; [reflexivity|]. rewrite (s_batch _ _ _ _ _ S), (Hn eq_refl). reflexivity. }
  assert (Hkq : forall q, pbatch V q = B -> match n with Some k0 => k0 | None => length (pbatch V q) end = k).
  { intros q ->. reflexivity. }
  assert (Ep : lib_to_event V total n p = Some (Pos V (map snd m ++ firstn (length B - k) B) (skipn (length B - k) B ++ Ev)
     (fun v => option_map (sum_last V total k) (plog V p v)) (pmean V p))).
  { unfold lib_to_event. rewrite Hkp. rewrite (s_batch _ _ _ _ _ S), (s_event _ _ _ _ _ S), app_length.
    destruct (Nat.ltb_spec (length (map snd m) + length B) k); [lia|]. replace (length (map snd m) + length B - k) with (length (map snd m) + (length B - k)) by lia.
    rewrite firstn_app_2, skipn_app, skipn_all2 by lia. replace (length (map snd m) + (length B - k) - length (map snd m)) with (length B - k) by lia. reflexivity. }
  assert (Eq : forall env, exists q, plain env d = Some q /\ pbatch V q = B /\ plain env (TEvent V d n) = Some (Pos V (firstn (length B - k) B) (skipn (length B - k) B ++ Ev)
     (fun v => option_map (sum_last V total k) (plog V q v)) (pmean V q))).
  { intros env. destruct (s_plain _ _ _ _ _ S env) as [q [E [Bq [Vq _]]]]. exists q. split; [assumption|]. split; [assumption|].
    cbn [EvtSpec.plain]. rewrite E. unfold lib_to_event. rewrite (Hkq q Bq), Bq, Vq. destruct (Nat.ltb_spec (length B) k); [lia|]. reflexivity. }
  assert (EB : firstn (length B - k) B ++ skipn (length B - k) B ++ Ev = B ++ Ev) by now rewrite app_assoc, firstn_skipn.
  eexists _, (firstn (length B - k) B), (skipn (length B - k) B ++ Ev). split; [exact Ep|]. split; [|exact EB].
  split; cbn [pbatch pevent pmean plog].
  - reflexivity.
  - reflexivity.
  - intros env. destruct (Eq env) as [q [E [Bq E']]]. eexists. split; [exact E'|]. cbn [pbatch pevent pmean]. rewrite EB.
    destruct (s_plain _ _ _ _ _ S env) as [q' [E1 [_ [_ [H1 H2]]]]]. rewrite E in E1. injection E1 as <-. auto.
  - rewrite EB. apply (s_mean _ _ _ _ _ S).
  - intros S0 T HT. rewrite EB in HT. destruct (s_log _ _ _ _ _ S S0 T HT) as [[bz [Lz H]]|H].
    + left. exists (firstn (length B - k) bz). split; [rewrite !firstn_length; lia|]. intros v Hv. destruct (H v Hv) as [w [H1 [H2 H3]]].
      rewrite H1. cbn [option_map]. eexists. split; [reflexivity|].
      assert (Sw : forall X, firstn (length (X ++ bz) - k) (X ++ bz) = X ++ firstn (length B - k) bz /\ skipn (length (X ++ bz) - k) (X ++ bz) = skipn (length B - k) bz).
      { intros X. rewrite app_length. replace (length X + length bz - k) with (length X + (length B - k)) by lia.
        rewrite firstn_app_2, skipn_app, skipn_all2 by lia. split; [reflexivity|]. cbn [app]. f_equal. lia. }
      unfold sum_last at 1. rewrite H2. rewrite !app_assoc. destruct (Sw (S0 ++ map snd m)) as [-> ->]. cbn [shape]. split; [reflexivity|].
      intros env q u W Hq Hu C. destruct (Eq env) as [q' [E [Bq E']]]. rewrite E' in Hq. injection Hq as <-. cbn [plog].
      destruct (H3 env q' u W E Hu C) as [w' [K1 [K2 K3]]]. rewrite K1. cbn [option_map]. eexists. split; [reflexivity|].
      unfold sum_last. rewrite K2, H2, !app_assoc. destruct (Sw S0) as [-> ->]. destruct (Sw (S0 ++ map snd m)) as [-> ->]. cbn [shape at_].
      split; [reflexivity|]. intros i j Wi Wj. cbn [at_]. apply Hsum. intros l Wl. rewrite <- !app_assoc. apply K3; [assumption|].
      rewrite <- (firstn_skipn (length B - k) bz). now apply within_app.
    + right. intros env q u Hq Hu. destruct (Eq env) as [q' [E [Bq E']]]. rewrite E' in Hq. injection Hq as <-. cbn [plog]. now rewrite (H env q' u E Hu).
Qed.

Lemma good_stacks b m d : good V b m d -> tindices d = Ok m -> forall env0, plain env0 d <> None ->
  exists p B Ev, tpos d = Ok p /\ stacks m d p B Ev.
Proof.
  induction d as [F args|d IH n]; intros G Hm env0 HN.
  - destruct G as [G1 [G2 G3]]. destruct (base_stacks b F args m env0 G1 G2 G3 Hm HN) as [p [B [Ev [H1 [H2 _]]]]]. eauto.
  - destruct G as [G1 G2]. destruct (IH G1 Hm env0) as [p [B [Ev [H1 H2]]]].
    { intros K. apply HN. cbn [EvtSpec.plain]. now rewrite K. }
    destruct (event_stacks m d p B Ev n env0 H2 G2 HN) as [p' [B' [Ev' [K1 [K2 _]]]]]. exists p', B', Ev'. split; [|assumption].
    cbn [EvtModel.tpos]. rewrite H1. cbn [bindr]. now rewrite K1.
Qed.
Lemma good_nodup b m d : good V b m d -> tindices d = Ok m -> NoDup (map fst m).
Proof.
  induction d as [F args|d IH n]; intros G Hm.
  - cbn [EvtModel.tindices] in Hm. destruct (indices_in V args [] m Hm) as [N _]; [constructor|assumption].
  - exact (IH (proj1 G) Hm).
Qed.

Lemma stack_shapes m d p B Ev : tindices d = Ok m -> tpos d = Ok p -> stacks m d p B Ev -> tbatch V order total d = Ok B /\ tevent V order total d = Ok Ev.
Proof.
  intros Hm Hp S. unfold tbatch, tevent. rewrite Hm, Hp. cbn [bindr]. rewrite (s_batch _ _ _ _ _ S), (s_event _ _ _ _ _ S).
  split; [|reflexivity]. f_equal. apply skipn_len. now rewrite map_length.
Qed.
Theorem shapes_law b m d : good V b m d -> tindices d = Ok m -> forall env q, plain env d = Some q ->
  tbatch V order total d = Ok (pbatch V q) /\ tevent V order total d = Ok (pevent V q).
Proof.
  intros G Hm env q Hq. destruct (good_stacks b m d G Hm env) as [p [B [Ev [H1 H2]]]]; [congruence|].
  destruct (s_plain _ _ _ _ _ H2 env) as [q' [E [Bq [Eq _]]]]. rewrite Hq in E. injection E as <-. rewrite Bq, Eq. exact (stack_shapes m d p B Ev Hm H1 H2).
Qed.
Theorem mean_event b m d : good V b m d -> tindices d = Ok m -> forall env0, plain env0 d <> None ->
  exists r, tmean V order total d = Ok r /\ pointwise V m r (fun env => option_map (pmean V) (plain env d)).
Proof.
  intros G Hm env0 HN. destruct (good_stacks b m d G Hm env0 HN) as [p [B [Ev [H1 H2]]]]. assert (N := good_nodup b m d G Hm).
  unfold tmean. rewrite Hm, H1. cbn [bindr]. unfold reindex_sample, index_names, positional.
  cbn [DistModel.nshape DistModel.nsizes DistModel.nelt firstn skipn]. rewrite (s_mean _ _ _ _ _ H2).
  match goal with |- context [?a <? ?c] => destruct (Nat.ltb_spec a c) as [L|L] end.
  { exfalso. rewrite !app_length, !map_length in L. lia. }
  rewrite combine_fst_snd. rewrite add_sizes_new; [|assumption|intros ? ? []]. cbn [bindr app]. eexists. split; [reflexivity|]. split; [reflexivity|].
  intros env W. destruct (s_plain _ _ _ _ _ H2 env) as [q [E [Bq [Eq [K1 K2]]]]]. rewrite E. cbn [option_map]. eexists. split; [reflexivity|].
  unfold at_env. cbn [DistModel.nshape DistModel.nelt]. rewrite Nat.add_0_l, skipn_len by now rewrite !map_length.
  split; cbn [shape at_]; [now rewrite K1|]. intros idx Wi. symmetry. exact (K2 W [] idx within_nil Wi).
Qed.

Theorem log_prob_event b m d value : good V b m d -> tindices d = Ok m -> proper value -> compatible m (nsizes value) ->
  forall env0 q0, plain env0 d = Some q0 -> length (pbatch V q0) + length (pevent V q0) <= length (nshape value) ->
  plog V q0 (at_env V env0 value) <> None ->
  exists r, tlog_prob V order total d value = Ok r /\
    pointwise V (m ++ nsizes value) r (fun env => match plain env d with Some q => plog V q (at_env V env value) | None => None end).
Proof.
  intros G Hm Pv HC env0 q0 Hq0 HL HN. destruct (good_stacks b m d G Hm env0) as [p [B [Ev [H1 H2]]]]; [congruence|].
  assert (N := good_nodup b m d G Hm). destruct (stack_shapes m d p B Ev Hm H1 H2) as [EB EE].
  destruct (s_plain _ _ _ _ _ H2 env0) as [q0' [E0 [Bq [Eq _]]]]. rewrite Hq0 in E0. injection E0 as <-. rewrite Bq, Eq in HL.
  unfold tlog_prob. rewrite Hm. cbn [bindr]. rewrite EB. cbn [bindr]. rewrite EE. cbn [bindr].
  destruct (split_two (nshape value) (length (nshape value) - (length B + length Ev)) (length B + length Ev)) as [S [T [Ev_ [LS LT]]]]; [lia|].
  assert (Es : (if Nat.eqb (length B + length Ev) 0 then length (nshape value) else length (nshape value) - (length B + length Ev)) = length S).
  { destruct (Nat.eqb_spec (length B + length Ev) 0); lia. }
  rewrite Es.
  destruct (bind_named V order any m value Pv N HC) as [v2 [E2 [S2 [I2 [N2 V2]]]]].
  destruct (broadcast_to_named V order value m) as [v1| | | | |]; try discriminate. cbn [bindr] in E2 |- *. rewrite E2. cbn [bindr].
  assert (L2 : length (nshape v2) = length m + length S + length T) by (rewrite S2, Ev_, !app_length, map_length; lia).
  replace (length (nshape v2) - (length m + length S)) with (length T) by lia.
  fold (block (length m) (length S) (length T)). unfold permute_dims.
  assert (EP : is_perm (length (nshape v2)) (block (length m) (length S) (length T)) = true).
  { unfold is_perm. rewrite block_length, <- L2, Nat.eqb_refl. cbn [andb]. apply forallb_forall. intros i Hi. apply existsb_exists. exists i.
    split; [|apply Nat.eqb_refl]. apply (Permutation_in _ (Permutation_sym (block_permutation _ _ _))). now rewrite <- L2. }
  rewrite EP. cbn [bindr]. rewrite H1. cbn [bindr].
  assert (SH : map (fun i => nth i (nshape v2) 0) (block (length m) (length S) (length T)) = S ++ map snd m ++ T).
  { rewrite S2, Ev_. replace (length m) with (length (map snd m)) by now rewrite map_length. apply map_nth_block. }
  unfold lift. set (v3 := NArr V _ _ _).
  assert (C3 : forall env, cut m env S T (at_env V env value) (at_env V env v3)).
  { intros env i j Wi Wj. unfold at_env. cbn [at_]. unfold v3. cbn [DistModel.nelt]. rewrite block_length.
    assert (Li := within_length _ _ Wi). assert (Lj := within_length _ _ Wj).
    replace (length m) with (length (map env (map fst m))) by now rewrite !map_length. rewrite Li, Lj. rewrite unblock. rewrite V2.
    - symmetry. apply (proj2 Pv). intros n Hn. destruct (in_dec Nat.eq_dec n (map fst m)) as [Y|Y]; [now apply assign_map|now apply assign_off].
    - now rewrite !map_length.
    - rewrite Ev_. now apply within_app. }
  assert (S3 : forall env, shape (at_env V env v3) = S ++ map snd m ++ T) by (intros env; exact SH).
  assert (Sv : forall env, shape (at_env V env value) = S ++ T) by (intros env; exact Ev_).
  destruct (s_log _ _ _ _ _ H2 S T ltac:(rewrite app_length; lia)) as [[bz [Lz H]]|H].
  2:{ exfalso. apply HN. exact (H env0 q0 _ Hq0 (Sv env0)). }
  destruct (H _ (S3 (fun _ => 0))) as [w0 [W1 [W2 _]]]. rewrite W1. cbn [bindr]. unfold reindex_sample, index_names.
  cbn [DistModel.nshape DistModel.nsizes DistModel.nelt]. rewrite W2.
  match goal with |- context [?a <? ?c] => destruct (Nat.ltb_spec a c) as [L|L] end.
  { exfalso. rewrite !app_length, !map_length in L. lia. }
  rewrite skipn_len by reflexivity. rewrite combine_fst_snd.
  rewrite add_sizes_new; [|assumption|].
  2:{ intros n Hn K. unfold v3 in K. cbn [DistModel.nsizes] in K. apply in_map_iff in K. destruct K as [x [<- K]]. now apply I2 in K. }
  cbn [bindr]. eexists. split; [reflexivity|]. split.
  { intros n x. cbn [DistModel.nsizes]. unfold v3. cbn [DistModel.nsizes]. rewrite !in_app_iff. split.
    - intros [K|K]; [right; now apply I2 in K|now left].
    - intros [K|K]; [now right|]. destruct (in_dec Nat.eq_dec n (map fst m)) as [Y|Y]; [|left; apply I2; auto].
      right. apply in_map_iff in Y. destruct Y as [[n' d'] [Q Y]]. cbn in Q. subst n'. now rewrite <- (HC n d' x Y K). }
  intros env W. assert (Wm : valid env m) by (intros n x K; apply W; rewrite in_app_iff; auto).
  destruct (s_plain _ _ _ _ _ H2 env) as [q [E _]]. rewrite E.
  destruct (H _ (S3 env)) as [w [X1 [X2 X3]]]. destruct (X3 env q _ Wm E (Sv env) (C3 env)) as [w' [Y1 [Y2 Y3]]].
  exists w'. split; [assumption|]. unfold at_env at 1. cbn [DistModel.nshape DistModel.nelt].
  rewrite firstn_len by reflexivity. replace (skipn (length S + length (map fst m)) (S ++ map snd m ++ bz)) with bz.
  2:{ rewrite app_assoc. symmetry. apply skipn_len. now rewrite app_length, !map_length. }
  split; cbn [shape at_]; [now rewrite Y2|]. intros idx Wi. destruct (within_app_inv _ _ _ Wi) as [i [j [-> [Wi1 Wj]]]].
  assert (Li := within_length _ _ Wi1). rewrite firstn_len, skipn_len by now symmetry. rewrite X1. symmetry. now apply Y3.
Qed.
End Proofs.
