(** Proofs about [PyroShim]'s naming. *)
From Coq Require Import List Bool Arith Lia Permutation.
From Verif Require Import ArrModel ArrSpec ArrProofs ArrNames ArrBind ArrUnbind DistModel DistSpec DistProofs DistBatch DistBridge ShimModel.
Import ListNotations.

(** * Index lists *)
Lemma nth_error_ext {A} (l l' : list A) : (forall j, nth_error l j = nth_error l' j) -> l = l'.
Proof.
  revert l'. induction l as [|x l IH]; intros [|y l'] H; [reflexivity|specialize (H 0); discriminate|specialize (H 0); discriminate|].
  f_equal; [specialize (H 0); now injection H|]. apply IH. intros j. exact (H (S j)).
Qed.
Lemma set_nth_length l i x : length (set_nth l i x) = length l.
Proof. revert i. induction l as [|y l IH]; intros [|i]; cbn; congruence. Qed.
Lemma set_nth_same l i x : i < length l -> nth_error (set_nth l i x) i = Some x.
Proof. revert i. induction l as [|y l IH]; intros [|i] H; cbn in *; try lia; [reflexivity|]. apply IH. lia. Qed.
Lemma set_nth_other l i j x : i <> j -> nth_error (set_nth l i x) j = nth_error l j.
Proof. revert i j. induction l as [|y l IH]; intros [|i] [|j] H; cbn; try reflexivity; try congruence. apply IH. congruence. Qed.
Lemma apply_key_spec r nm : forall key, length key = r -> (forall n d, In (n, d) nm -> 1 <= d <= r) -> NoDup (map snd nm) ->
  exists key', apply_key r nm key = Ok key' /\ length key' = r /\
    (forall n d, In (n, d) nm -> nth_error key' (r - d) = Some (Some n)) /\
    (forall j, (forall n d, In (n, d) nm -> r - d <> j) -> nth_error key' j = nth_error key j).
Proof.
  induction nm as [|[n d] nm IH]; intros key L B N.
  - exists key. split; [reflexivity|]. split; [assumption|]. split; [intros ? ? []|reflexivity].
  - inversion N as [|? ? N1 N2]; subst. assert (Bd := B n d (or_introl eq_refl)). cbn [apply_key]. destruct (Nat.leb_spec d (length key)); [|lia].
    destruct (IH (set_nth key (length key - d) (Some n))) as [key' [E [L' [H1 H2]]]]; [apply set_nth_length|intros n' d' H'; apply (B n' d'); now right|assumption|].
    exists key'. split; [exact E|]. split; [exact L'|]. split.
    + intros n' d' [H'|H']; [|now apply H1]. injection H' as <- <-. rewrite H2.
      * apply set_nth_same. lia.
      * intros n' d' H' Q. apply N1. assert (Bd' := B n' d' (or_intror H')). replace d with d' by lia. apply in_map_iff. now exists (n', d').
    + intros j Hj. rewrite H2 by (intros n' d' H'; apply (Hj n' d'); now right). apply set_nth_other. apply (Hj n d). now left.
Qed.
Lemma sub_seq_NoDup a n : forall s, s + n <= a -> NoDup (map (fun i => a - i) (seq s n)).
Proof.
  induction n as [|n IH]; intros s H; cbn; constructor; [|apply IH; lia]. intros Q. apply in_map_iff in Q. destruct Q as [x [Q Hx]]. apply in_seq in Hx. lia.
Qed.
(** The names [ns] on the axes before the last [e] ones *)
Lemma apply_key_block s ns e nm : Permutation nm (from_shape ns e) ->
  apply_key (s + length ns + e) nm (repeat None (s + length ns + e)) = Ok (repeat None s ++ map Some ns ++ repeat None e).
Proof.
  intros P. set (r := s + length ns + e).
  assert (I : forall n d, In (n, d) nm <-> exists i, nth_error ns i = Some n /\ i < length ns /\ d = e + length ns - i).
  { intros n d. split.
    - intros H. apply (Permutation_in _ P) in H. unfold from_shape in H. apply in_map_iff in H. destruct H as [i [H Hi]]. apply in_seq in Hi. injection H as <- <-.
      exists i. split; [apply nth_error_nth'; lia|]. lia.
    - intros [i [H [Hi ->]]]. apply (Permutation_in _ (Permutation_sym P)). unfold from_shape. apply in_map_iff. exists i. split; [|apply in_seq; lia].
      f_equal. now apply nth_error_nth. }
  destruct (apply_key_spec r nm (repeat None r)) as [key [E [L [H1 H2]]]].
  - apply repeat_length.
  - intros n d H. apply I in H. destruct H as [i [_ [Hi ->]]]. unfold r. lia.
  - apply (Permutation_NoDup (Permutation_map snd (Permutation_sym P))). unfold from_shape. rewrite map_map. cbn [snd].
    apply sub_seq_NoDup. lia.
  - rewrite E. f_equal. apply nth_error_ext. intros j.
    destruct (Nat.lt_ge_cases j s) as [Hj|Hj].
    { rewrite H2.
      - rewrite nth_error_app1 by (rewrite repeat_length; lia). rewrite !nth_error_repeat by (unfold r; lia). reflexivity.
      - intros n d H. apply I in H. destruct H as [i [_ [Hi ->]]]. unfold r. lia. }
    rewrite nth_error_app2 by (rewrite repeat_length; lia). rewrite repeat_length.
    destruct (Nat.lt_ge_cases (j - s) (length ns)) as [Hk|Hk].
    { rewrite nth_error_app1 by (rewrite map_length; lia). destruct (nth_error ns (j - s)) as [n|] eqn:Q; [|apply nth_error_None in Q; lia].
      rewrite (map_nth_error _ _ _ Q). replace j with (r - (e + length ns - (j - s))) by (unfold r; lia). apply H1. apply I. exists (j - s). auto. }
    rewrite nth_error_app2 by (rewrite map_length; lia). rewrite map_length. rewrite H2.
    { destruct (Nat.lt_ge_cases j r) as [Hr|Hr].
      - rewrite !nth_error_repeat by (unfold r in *; lia). reflexivity.
      - rewrite !(proj2 (nth_error_None _ _)) by (rewrite repeat_length; unfold r in *; lia). reflexivity. }
    intros n d H. apply I in H. destruct H as [i [_ [Hi ->]]]. unfold r. lia.
Qed.
Lemma fill_block env s ns e i0 idx : length i0 = s -> length idx = e ->
  fill (repeat None s ++ map Some ns ++ repeat None e) env (i0 ++ idx) = i0 ++ map env ns ++ idx.
Proof.
  intros <- <-. induction i0 as [|i i0 IH]; cbn; [|now rewrite IH]. induction ns as [|n ns IH]; cbn; [|now rewrite IH].
  induction idx as [|i idx IH]; cbn; [reflexivity|now rewrite IH].
Qed.
Lemma kept_block S ns szs e : length szs = length ns ->
  kept (repeat None (length S) ++ map Some ns ++ repeat None (length e)) (S ++ szs ++ e) = S ++ e.
Proof.
  intros L. induction S as [|d S IH]; cbn; [|now rewrite IH]. revert szs L. induction ns as [|n ns IH]; intros [|z szs] L; try discriminate; cbn.
  - induction e as [|d e IH]; cbn; [reflexivity|now rewrite IH].
  - apply IH. now injection L.
Qed.
Lemma named_block S ns szs e : length szs = length ns ->
  named (repeat None (length S) ++ map Some ns ++ repeat None (length e)) (S ++ szs ++ e) = combine ns szs.
Proof.
  intros L. induction S as [|d S IH]; cbn; [|now rewrite IH]. revert szs L. induction ns as [|n ns IH]; intros [|z szs] L; try discriminate; cbn.
  - induction e as [|d e IH]; cbn; [reflexivity|now rewrite IH].
  - f_equal. apply IH. now injection L.
Qed.
Lemma combine_fst_snd' (m : list (nat * nat)) : combine (map fst m) (map snd m) = m.
Proof. rewrite <- (app_nil_r (map snd m)). apply combine_fst_snd. Qed.

Section Shim.
Variable V : Type.
Notation narr := (narr V).
Notation nsizes := (nsizes V).
Notation nshape := (nshape V).
Notation nelt := (nelt V).
Notation proper := (proper V).

(** Names put on axes in the middle *)
Lemma apply_block m nm S e (p : narr) : NoDup (map fst m) -> nsizes p = [] -> Permutation nm (from_shape (map fst m) (length e)) ->
  nshape p = S ++ map snd m ++ e ->
  exists r, apply V nm p = Ok r /\ nsizes r = m /\ nshape r = S ++ e /\
    forall env i0 idx, length i0 = length S -> length idx = length e -> nelt r env (i0 ++ idx) = nelt p env (i0 ++ map env (map fst m) ++ idx).
Proof.
  intros N Z P Sh. unfold apply. rewrite Sh. rewrite !app_length, map_length.
  replace (length S + (length m + length e)) with (length S + length (map fst m) + length e) by (rewrite map_length; lia).
  rewrite (apply_key_block _ _ _ nm P). cbn [bindr]. unfold index_key. rewrite Z, Sh. rewrite named_block by now rewrite !map_length.
  rewrite kept_block by now rewrite !map_length. rewrite combine_fst_snd'. rewrite add_sizes_new; [|assumption|intros ? ? []]. cbn [bindr app].
  eexists. split; [reflexivity|]. split; [reflexivity|]. split; [reflexivity|]. intros env i0 idx L0 L1. cbn [DistModel.nelt]. f_equal. now apply fill_block.
Qed.
(** [t] is [t0] with the names of [done] as leading axes. *)
Definition binds (sh : list nat) (t0 : narr) (done : list (nat * nat)) (t : narr) : Prop :=
  nshape t = map snd done ++ sh /\ NoDup (map fst (nsizes t)) /\ (forall p, In p (nsizes t) <-> In p (nsizes t0) /\ ~ In (fst p) (map fst done)) /\ forall env i idx, within (map snd done) i -> within sh idx -> nelt t env (i ++ idx) = nelt t0 (assign env (map fst done) i) idx.
Lemma assign_cons env k ns i is n : assign env (k :: ns) (i :: is) n = if Nat.eqb n k then i else assign env ns is n.
Proof. unfold assign. cbn. destruct (Nat.eqb n k); [reflexivity|]. now destruct (index_of n ns). Qed.
Lemma assign_in env env' ns is n : length is = length ns -> In n ns -> assign env ns is n = assign env' ns is n.
Proof.
  intros L H. unfold assign. pose proof (index_of_spec n ns) as X. destruct (index_of n ns) as [i|]; [|contradiction]. apply nth_indep.
  rewrite L. apply nth_error_Some. congruence.
Qed.
Lemma bind1_binds sh t0 done t k d : proper t0 -> binds sh t0 done t -> In (k, d) (nsizes t0) -> ~ In k (map fst done) ->
  exists t', bind1 V t k = Ok t' /\ binds sh t0 ((k, d) :: done) t'.
Proof.
  intros P0 [B1 [B2 [B4 B5]]] Hk Nk. unfold bind1.
  assert (L : lookup (nsizes t) k = Some d) by (apply lookup_In; [assumption|]; apply B4; auto). rewrite L. unfold bind_names. cbn [forallb fst snd].
  rewrite L, Nat.eqb_refl. cbn [andb map fst snd length]. eexists. split; [reflexivity|]. split; [cbn; now rewrite B1|]. split; [|split].
  - now apply filter_NoDup_fst.
  - intros p. cbn [DistModel.nsizes]. rewrite filter_In, B4. cbn [map fst In mem existsb]. destruct (Nat.eqb_spec (fst p) k) as [->|Ne]; cbn; split.
    + intros [_ Q]. discriminate.
    + intros [_ Q]. exfalso. apply Q. now left.
    + intros [[Q1 Q2] _]. split; [assumption|]. intros [Q|Q]; [congruence|contradiction].
    + intros [Q1 Q2]. split; [split; [assumption|]|reflexivity]. intros Q. apply Q2. now right.
  - intros env i idx W Wi. cbn [map fst snd] in W |- *. inversion W as [|? ? j is Hj W']; subst. cbn [DistModel.nelt app firstn skipn]. rewrite B5 by assumption.
    apply P0. intros n Hn. rewrite assign_cons. destruct (Nat.eqb_spec n k) as [->|Ne].
    + rewrite assign_off by assumption. unfold assign. cbn. now rewrite Nat.eqb_refl.
    + destruct (in_dec Nat.eq_dec n (map fst done)) as [Hd|Hd].
      * apply assign_in; [|assumption]. apply within_length in W'. rewrite map_length in W' |- *. now symmetry.
      * rewrite !assign_off; auto. intros [Q|[]]. congruence.
Qed.
Lemma expand_binds sh t0 done t k d : proper t0 -> binds sh t0 done t -> ~ In k (map fst (nsizes t0)) ->
  exists t', broadcast_to V t (d :: nshape t) = Ok t' /\ binds sh t0 ((k, d) :: done) t'.
Proof.
  intros P0 [B1 [B2 [B4 B5]]] Nk. destruct (broadcast_front V t [d]) as [t' [E [S1 [S2 S3]]]]. exists t'. split; [exact E|]. split; [|split; [|split]].
  - rewrite S2, B1. reflexivity.
  - now rewrite S1.
  - intros p. rewrite S1, B4. cbn [map fst In]. split; intros [Q1 Q2]; split; auto. intros [Q|Q]; [|contradiction]. apply Nk. apply in_map_iff. now exists p.
  - intros env i idx W Wi. cbn [map fst snd] in W |- *. inversion W as [|? ? j is Hj W']; subst. change ((j :: is) ++ idx) with ([j] ++ (is ++ idx)).
    rewrite S3; [|reflexivity|rewrite B1; now apply within_app]. rewrite B5 by assumption. apply P0. intros n Hn. rewrite assign_cons.
    destruct (Nat.eqb_spec n k) as [->|Ne]; [contradiction|reflexivity].
Qed.
Lemma add_indices_binds sh t0 n l : proper t0 -> forall i done t, binds sh t0 done t -> NoDup (map fst l) -> (forall k, In k (map fst l) -> ~ In k (map fst done)) ->
  compatible l (nsizes t0) ->
  exists t', add_indices V (map fst (nsizes t0)) n i l t = Ok (t', map (fun j => (nth j (map fst l) 0, n + i + j + 1)) (seq 0 (length l))) /\ binds sh t0 (rev l ++ done) t'.
Proof.
  intros P0. induction l as [|[k v] l IH]; intros i done t B N D C.
  - exists t. split; [reflexivity|assumption].
  - inversion N as [|? ? N1 N2]; subst. cbn [add_indices].
    assert (Q : exists t1, (if mem k (map fst (nsizes t0)) then bind1 V t k else broadcast_to V t (v :: nshape t)) = Ok t1 /\ binds sh t0 ((k, v) :: done) t1).
    { destruct (mem k (map fst (nsizes t0))) eqn:M.
      - apply mem_In in M. apply in_map_iff in M. destruct M as [[k' d] [Q M]]. cbn in Q. subst k'. rewrite (C k v d (or_introl eq_refl) M).
        apply bind1_binds; auto. apply D. now left.
      - apply expand_binds; auto. intros Q. apply mem_In in Q. congruence. }
    destruct Q as [t1 [E1 B1]]. rewrite E1. cbn [bindr].
    destruct (IH (S i) ((k, v) :: done) t1 B1) as [t' [E2 B2]]; [assumption| |intros x a b Ha Hb; apply (C x); [now right|assumption]|].
    { intros x Hx [Q|Q]; [cbn in Q; congruence|]. apply (D x); [now right|assumption]. }
    rewrite E2. cbn [bindr fst snd]. exists t'. split.
    + f_equal. f_equal. cbn [length seq map nth]. f_equal; [f_equal; lia|]. rewrite <- seq_shift, map_map. apply map_ext. intros j. f_equal; lia.
    + cbn [rev]. now rewrite <- app_assoc.
Qed.
Lemma add_rest_binds sh t0 n l : proper t0 -> forall i done t, binds sh t0 done t -> NoDup (map fst l) -> (forall k, In k (map fst l) -> ~ In k (map fst done)) ->
  (forall p, In p l -> In p (nsizes t0)) ->
  exists t', add_rest V n i (map fst l) t = Ok (t', map (fun j => (nth j (map fst l) 0, n + i + j + 1)) (seq 0 (length l))) /\ binds sh t0 (rev l ++ done) t'.
Proof.
  intros P0. induction l as [|[k v] l IH]; intros i done t B N D C.
  - exists t. split; [reflexivity|assumption].
  - inversion N as [|? ? N1 N2]; subst. cbn [add_rest map fst].
    destruct (bind1_binds sh t0 done t k v P0 B (C _ (or_introl eq_refl)) (D k (or_introl eq_refl))) as [t1 [E1 B1]]. rewrite E1. cbn [bindr].
    destruct (IH (S i) ((k, v) :: done) t1 B1) as [t' [E2 B2]]; [assumption| |intros; apply C; now right|].
    { intros x Hx [Q|Q]; [cbn in Q; congruence|]. apply (D x); [now right|assumption]. }
    rewrite E2. cbn [bindr fst snd]. exists t'. split.
    + f_equal. f_equal. cbn [length seq map nth]. f_equal; [f_equal; lia|]. rewrite <- seq_shift, map_map. apply map_ext. intros j. f_equal; lia.
    + cbn [rev]. now rewrite <- app_assoc.
Qed.
Lemma from_shape_cons n ns e : from_shape (n :: ns) e = (n, e + S (length ns)) :: from_shape ns e.
Proof.
  unfold from_shape. cbn [length seq map nth]. f_equal; [f_equal; lia|]. rewrite <- seq_shift, map_map. apply map_ext. intros i. cbn [nth]. f_equal. lia.
Qed.
Lemma from_shape_app a b e : from_shape (a ++ b) e = from_shape a (e + length b) ++ from_shape b e.
Proof.
  induction a as [|n a IH]; [reflexivity|]. cbn [app]. rewrite !from_shape_cons, IH. cbn [app]. f_equal. f_equal. rewrite app_length. lia.
Qed.
Lemma from_shape_rev ns e : map (fun j => (nth j (rev ns) 0, e + 0 + j + 1)) (seq 0 (length ns)) = rev (from_shape ns e).
Proof.
  induction ns as [|n ns IH]; [reflexivity|]. rewrite from_shape_cons. cbn [rev]. rewrite <- IH. cbn [length]. rewrite seq_S, map_app. cbn [map Nat.add]. f_equal.
  - apply map_ext_in. intros j Hj. apply in_seq in Hj. f_equal. rewrite app_nth1 by (rewrite rev_length; lia). reflexivity.
  - f_equal. f_equal; [|lia]. rewrite app_nth2 by (rewrite rev_length; lia). rewrite rev_length, Nat.sub_diag. reflexivity.
Qed.
(** The elements of [t] at the position of the broadcast array *)
Theorem observe_law (t : narr) sh indices : proper t -> NoDup (map fst indices) -> compatible indices (nsizes t) ->
  (length (nshape t) = length sh \/ (length (nshape t) < length sh /\ bshape (nshape t) sh = Some sh)) ->
  exists p nm rest, broadcast_named V t sh indices = Ok (p, nm) /\ nsizes p = [] /\
    nshape p = rest ++ map snd indices ++ (if length (nshape t) <? length sh then sh else nshape t) /\
    exists r, apply V nm p = Ok r /\ nshape r = (if length (nshape t) <? length sh then sh else nshape t) /\
      (forall q, In q (nsizes r) <-> In q indices \/ In q (nsizes t)) /\
      forall env idx, valid env (indices ++ nsizes t) -> within (nshape r) idx -> nelt r env idx = nelt t env (bindex (nshape t) idx).
Proof.
  intros Pt N C HL. unfold broadcast_named. set (S' := if length (nshape t) <? length sh then sh else nshape t).
  assert (Q : exists t0, (if length (nshape t) <? length sh then broadcast_to V t sh else Ok t) = Ok t0 /\ nsizes t0 = nsizes t /\ nshape t0 = S' /\ proper t0 /\ length S' = length sh /\
    forall env idx, within S' idx -> nelt t0 env idx = nelt t env (bindex (nshape t) idx)).
  { unfold S'. destruct (Nat.ltb_spec (length (nshape t)) (length sh)) as [L|L].
    - destruct HL as [HL|[_ HL]]; [lia|]. unfold broadcast_to. rewrite HL, list_eqb_refl. eexists. split; [reflexivity|]. split; [reflexivity|]. split; [reflexivity|].
      split; [|split; reflexivity]. split; [exact (proj1 Pt)|]. cbn. intros env env' H idx. now apply (proj2 Pt).
    - destruct HL as [HL|[HL _]]; [|lia]. exists t. repeat (split; [assumption || reflexivity|]). intros env idx W. rewrite bindex_eq by now apply within_length. now rewrite bx_id. }
  destruct Q as [t0 [E0 [Z0 [S0 [P0 [LS V0]]]]]]. rewrite E0. cbn [bindr].
  assert (B0 : binds S' t0 [] t0).
  { split; [exact S0|]. split; [exact (proj1 P0)|]. split; [intros p; cbn; intuition|]. intros env i idx W Wi. inversion W; subst. reflexivity. }
  rewrite <- Z0. destruct (add_indices_binds S' t0 (length sh) (rev indices) P0 0 [] t0 B0) as [t1 [E1 B1]].
  { rewrite map_rev. now apply NoDup_rev. } { intros k _ []. }
  { intros k d d' H1 H2. apply in_rev in H1. rewrite Z0 in H2. exact (C k d d' H1 H2). }
  rewrite E1. cbn [bindr fst snd]. rewrite rev_involutive, app_nil_r in B1.
  destruct (B1) as [S1 [N1 [I1 _]]].
  destruct (add_rest_binds S' t0 (length (nshape t1)) (rev (nsizes t1)) P0 0 indices t1 B1) as [t2 [E2 B2]].
  { rewrite map_rev. now apply NoDup_rev. }
  { intros k Hk. rewrite map_rev in Hk. apply in_rev in Hk. apply in_map_iff in Hk. destruct Hk as [p [<- Hp]]. now apply I1 in Hp. }
  { intros p Hp. apply in_rev in Hp. now apply I1 in Hp. }
  rewrite map_rev in E2. rewrite E2. cbn [bindr fst snd]. rewrite rev_involutive in B2. destruct B2 as [S2 [N2 [I2 V2]]].
  assert (Z2 : nsizes t2 = []).
  { destruct (nsizes t2) as [|p l] eqn:Q; [reflexivity|]. exfalso. destruct (proj1 (I2 p) (or_introl eq_refl)) as [H1 H2]. apply H2. rewrite map_app, in_app_iff.
    destruct (in_dec Nat.eq_dec (fst p) (map fst indices)) as [X|X]; [now right|]. left. apply in_map. apply I1. auto. }
  exists t2. eexists. exists (map snd (nsizes t1)). split; [reflexivity|]. split; [exact Z2|]. split; [rewrite S2, map_app, <- app_assoc; reflexivity|].
  assert (ND : NoDup (map fst (nsizes t1 ++ indices))).
  { rewrite map_app. apply NoDup_append; [assumption|assumption|]. intros x H1 H2. apply in_map_iff in H1. destruct H1 as [p [<- H1]]. now apply I1 in H1. }
  destruct (apply_block (nsizes t1 ++ indices) (rev (from_shape (map fst (nsizes t1 ++ indices)) (length S'))) [] S' t2 ND Z2 (Permutation_sym (Permutation_rev _)) S2) as [r [Er [Zr [Sr Vr]]]].
  exists r. split; [|split; [exact Sr|split]].
  - rewrite <- Er. f_equal. rewrite map_app, from_shape_app, rev_app_distr. rewrite !map_length, !rev_length. f_equal.
    + rewrite map_rev, LS, <- from_shape_rev, map_length. reflexivity.
    + replace (length S' + length indices) with (length (nshape t1)) by (rewrite S1, app_length, !map_length; lia).
      rewrite <- from_shape_rev, map_length. reflexivity.
  - intros q. rewrite Zr, in_app_iff, I1, Z0. split; [intuition|]. intros [H|H]; [now right|].
    destruct (in_dec Nat.eq_dec (fst q) (map fst indices)) as [X|X]; [|left; auto]. right. apply in_map_iff in X. destruct X as [[k d] [X1 X2]]. destruct q as [k' d'].
    cbn in X1. subst k'. now rewrite <- (C k d d' X2 H).
  - intros env idx W Wi. rewrite Sr in Wi. cbn [app] in Wi. specialize (Vr env [] idx eq_refl). cbn [app] in Vr. rewrite Vr by now rewrite (within_length _ _ Wi).
    assert (Wm : within (map snd (nsizes t1 ++ indices)) (map env (map fst (nsizes t1 ++ indices)))).
    { assert (Wv : valid env (nsizes t1 ++ indices)).
      { intros n d H. apply W. rewrite in_app_iff in H |- *. destruct H as [H|H]; [|now left]. right. apply I1 in H. try rewrite <- Z0. apply H. }
      clear - Wv. induction (nsizes t1 ++ indices) as [|[n d] l IH]; cbn; constructor; [apply Wv; now left|apply IH; intros n' d' H; apply Wv; now right]. }
    rewrite V2 by assumption. rewrite <- V0 by assumption. apply (proj2 P0). intros n Hn. apply assign_map. rewrite map_app, in_app_iff.
    destruct (in_dec Nat.eq_dec n (map fst indices)) as [X|X]; [now right|]. left. apply in_map_iff in Hn. destruct Hn as [p [<- Hp]]. apply in_map. apply I1. auto.
Qed.
(** Samples *)
Theorem sample_law (x : narr) indices b e s dist_shape : NoDup (map fst indices) -> nsizes x = [] -> dist_shape = map snd indices ++ b ++ e ->
  nshape x = s ++ dist_shape ->
  exists r, post_sample V (from_shape (map fst indices) (length (b ++ e))) dist_shape x = Ok r /\ nsizes r = indices /\ nshape r = s ++ b ++ e /\
    forall env i idx, length i = length s -> length idx = length (b ++ e) -> nelt r env (i ++ idx) = nelt x env (i ++ map env (map fst indices) ++ idx).
Proof.
  intros N Z -> Sx. unfold post_sample. destruct (Nat.ltb_spec (length (nshape x)) (length (map snd indices ++ b ++ e))) as [L|_].
  { rewrite Sx, app_length in L. lia. }
  cbn [bindr]. exact (apply_block indices _ s (b ++ e) x N Z (Permutation_refl _) Sx).
Qed.
Theorem frames_law indices b e n d z : NoDup (map fst indices) -> In (n, d, z) (frames (from_shape (map fst indices) (length (b ++ e))) (length e) indices) ->
  In (n, z) indices /\ 1 <= d <= length (map snd indices ++ b) /\ nth_error (map snd indices ++ b) (length (map snd indices ++ b) - d) = Some z.
Proof.
  intros N H. unfold frames in H. apply in_flat_map in H. destruct H as [[n' d'] [H1 H2]]. cbn [fst snd] in H2.
  destruct (lookup indices n') as [z'|] eqn:L; [|destruct H2]. destruct H2 as [H2|[]]. injection H2 as <- <- <-. unfold from_shape in H1. apply in_map_iff in H1.
  destruct H1 as [i [H1 Hi]]. apply in_seq in Hi. rewrite map_length in Hi, H1. injection H1 as Hn Hd. assert (K := lookup_some_In _ _ _ L). split; [assumption|].
  rewrite !app_length, map_length in *. split; [lia|]. replace (length indices + length b - (d' - length e)) with i by lia.
  rewrite nth_error_app1 by (rewrite map_length; lia).
  destruct (nth_error indices i) as [[k y]|] eqn:Q; [|apply nth_error_None in Q; lia]. rewrite (map_nth_error snd _ _ Q). cbn. f_equal.
  assert (E : k = n'). { rewrite <- Hn. rewrite (nth_indep _ 0 (fst (k, y))) by (rewrite map_length; lia). rewrite map_nth. now rewrite (nth_error_nth _ _ (k, y) Q). }
  subst k. assert (K2 := nth_error_In _ _ Q). apply lookup_In in K2; [|assumption]. congruence.
Qed.
Lemma apply_key_fails r nm : forall key, apply_key r nm key = IndexError <-> exists n d, In (n, d) nm /\ r + r < d.
Proof.
  induction nm as [|[n d] nm IH]; intros key; cbn [apply_key].
  - split; [discriminate|intros (n & d & [] & _)].
  - assert (R : d <= r + r -> (exists n0 d0, In (n0, d0) nm /\ r + r < d0) <-> exists n0 d0, In (n0, d0) ((n, d) :: nm) /\ r + r < d0).
    { intros L. split; intros (n0 & d0 & H & K); exists n0, d0; (split; [|exact K]); [now right|]. destruct H as [H|H]; [injection H as <- <-; lia|exact H]. }
    destruct (Nat.leb_spec d r); [rewrite IH; apply R; lia|]. destruct (Nat.leb_spec d (r + r)); [rewrite IH; apply R; lia|].
    split; [|reflexivity]. intros _. exists n, d. split; [now left|lia].
Qed.
Lemma add_sizes_index m l : add_sizes m l <> IndexError.
Proof.
  revert m. induction l as [|[n d] l IH]; intros m; cbn [add_sizes]; [discriminate|]. unfold add_size.
  destruct (lookup m n) as [d'|]; [destruct (Nat.eqb d' d)|]; cbn [bindr]; try discriminate; apply IH.
Qed.
Lemma apply_key_outcome r nm : forall key, (exists k, apply_key r nm key = Ok k) \/ apply_key r nm key = IndexError.
Proof.
  induction nm as [|[n d] nm IH]; intros key; cbn [apply_key]; [left; now eexists|].
  destruct (d <=? r); [apply IH|]. destruct (d <=? r + r); [apply IH|]. now right.
Qed.
Theorem apply_fails nm (p : narr) : apply V nm p = IndexError <-> exists n d, In (n, d) nm /\ length (nshape p) + length (nshape p) < d.
Proof.
  unfold apply. rewrite <- (apply_key_fails (length (nshape p)) nm (repeat None (length (nshape p)))).
  destruct (apply_key_outcome (length (nshape p)) nm (repeat None (length (nshape p)))) as [[k E]|E]; rewrite E; cbn [bindr]; [|split; reflexivity].
  split; [|discriminate]. unfold index_key. intros H. exfalso. apply (add_sizes_index (nsizes p) (named k (nshape p))).
  destruct (add_sizes (nsizes p) (named k (nshape p))); try discriminate H. reflexivity.
Qed.
End Shim.
