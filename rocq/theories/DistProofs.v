(** Proofs about distributions with named dimensions: broadcasting, sizes, binding. *)
From Coq Require Import List Bool Arith Lia Permutation.
From Verif Require Import ArrModel ArrSpec ArrProofs ArrNames ArrBind ArrUnbind DistModel DistSpec.
Import ListNotations.

(** * Broadcasting *)
Lemma bdim_same x : bdim x x = Some x.
Proof. unfold bdim. now rewrite Nat.eqb_refl. Qed.
Lemma bdim_one_l x : bdim 1 x = Some x.
Proof. unfold bdim. destruct (Nat.eqb_spec 1 x) as [<-|_]; reflexivity. Qed.
Lemma bdim_one_r x : bdim x 1 = Some x.
Proof. unfold bdim. destruct (Nat.eqb_spec x 1) as [->|_]; reflexivity. Qed.
Lemma bdim_cover x y z : bdim x y = Some z -> (x = 1 \/ x = z) /\ (y = 1 \/ y = z).
Proof.
  unfold bdim. destruct (Nat.eqb_spec x y) as [<-|_]; [intros [= <-]; auto|]. destruct (Nat.eqb_spec x 1) as [->|_]; [intros [= <-]; auto|].
  destruct (Nat.eqb_spec y 1) as [->|_]; [intros [= <-]; auto|discriminate].
Qed.
Lemma bzip_same l : bzip l l = Some l.
Proof. induction l as [|x l IH]; [reflexivity|]. cbn. now rewrite bdim_same, IH. Qed.
Lemma bzip_ones_l l : bzip (repeat 1 (length l)) l = Some l.
Proof. induction l as [|x l IH]; [reflexivity|]. cbn [length repeat bzip]. now rewrite bdim_one_l, IH. Qed.
Lemma bzip_ones_r l : bzip l (repeat 1 (length l)) = Some l.
Proof. induction l as [|x l IH]; [reflexivity|]. cbn [length repeat bzip]. now rewrite bdim_one_r, IH. Qed.
Lemma bzip_app a a' b b' : length a = length b ->
  bzip (a ++ a') (b ++ b') = match bzip a b, bzip a' b' with Some x, Some y => Some (x ++ y) | _, _ => None end.
Proof.
  revert b. induction a as [|x a IH]; intros [|y b] L; try discriminate; cbn.
  - now destruct (bzip a' b').
  - injection L as L. rewrite (IH b L). destruct (bdim x y); [|reflexivity]. destruct (bzip a b); [|reflexivity]. now destruct (bzip a' b').
Qed.
Lemma bzip_length a : forall b c, bzip a b = Some c -> length a = length b /\ length c = length a.
Proof.
  induction a as [|x a IH]; intros [|y b] c H; try discriminate; cbn in H.
  - injection H as <-. auto.
  - destruct (bdim x y) as [z|]; [|discriminate]. destruct (bzip a b) as [c'|] eqn:E; [|discriminate]. injection H as <-.
    destruct (IH _ _ E). cbn. lia.
Qed.
(** [a] is stretched to [c]. *)
Definition covers : list nat -> list nat -> Prop := Forall2 (fun x z => x = 1 \/ x = z).
Lemma bzip_covers a : forall b c, bzip a b = Some c -> covers a c /\ covers b c.
Proof.
  induction a as [|x a IH]; intros [|y b] c H; try discriminate; cbn in H.
  - injection H as <-. split; constructor.
  - destruct (bdim x y) as [z|] eqn:D; [|discriminate]. destruct (bzip a b) as [c'|] eqn:E; [|discriminate]. injection H as <-.
    destruct (IH _ _ E). destruct (bdim_cover _ _ _ D). split; constructor; auto.
Qed.
Lemma covers_bzip a c : covers a c -> bzip a c = Some c.
Proof.
  induction 1 as [|x z a c H _ IH]; [reflexivity|]. cbn. rewrite IH. destruct H as [-> | ->]; [now rewrite bdim_one_l|now rewrite bdim_same].
Qed.
Lemma covers_trans a b c : covers a b -> covers b c -> covers a c.
Proof.
  intros H. revert c. induction H as [|x y a b Hx _ IH]; intros c K; inversion K as [|? z ? c' Hy K']; subst; constructor; [|now apply IH].
  destruct Hx as [-> | ->]; auto.
Qed.
Lemma covers_refl a : covers a a.
Proof. induction a; constructor; auto. Qed.
Lemma covers_length a c : covers a c -> length a = length c.
Proof. induction 1; cbn; congruence. Qed.
Lemma pad_long n a : n <= length a -> pad n a = a.
Proof. intros H. unfold pad. now replace (n - length a) with 0 by lia. Qed.
Lemma bshape_eq a b : length a = length b -> bshape a b = bzip a b.
Proof. intros H. unfold bshape. rewrite !pad_long by lia. reflexivity. Qed.
Lemma bshape_prefix s a b : length a = length b -> bshape (s ++ a) b = option_map (app s) (bzip a b).
Proof.
  intros H. unfold bshape. rewrite (pad_long (length b)) by (rewrite app_length; lia). unfold pad. rewrite app_length.
  replace (length s + length a - length b) with (length s) by lia. rewrite bzip_app by now rewrite repeat_length.
  rewrite bzip_ones_r. now destruct (bzip a b).
Qed.
Lemma bshape_prefix_r s a b : length a = length b -> bshape a (s ++ b) = option_map (app s) (bzip a b).
Proof.
  intros H. unfold bshape. rewrite (pad_long (length a)) by (rewrite app_length; lia). unfold pad. rewrite app_length.
  replace (length s + length b - length a) with (length s) by lia. rewrite bzip_app by now rewrite repeat_length.
  rewrite bzip_ones_l. now destruct (bzip a b).
Qed.
Lemma bshape_both s a b : length a = length b -> bshape (s ++ a) (s ++ b) = option_map (app s) (bzip a b).
Proof. intros H. rewrite bshape_eq by (rewrite !app_length; lia). rewrite bzip_app by reflexivity. rewrite bzip_same. now destruct (bzip a b). Qed.
Lemma bshape_nil_l b : bshape [] b = Some b.
Proof. unfold bshape, pad. cbn [length app]. rewrite app_nil_r, Nat.sub_0_r. replace (0 - length b) with 0 by lia. cbn. apply bzip_ones_l. Qed.
Lemma bshape_nil_r a : bshape a [] = Some a.
Proof. rewrite <- (app_nil_r a) at 1. rewrite bshape_prefix by reflexivity. cbn. now rewrite app_nil_r. Qed.
Definition bx (sh i : list nat) : list nat := map (fun di : nat * nat => if Nat.eqb (fst di) 1 then 0 else snd di) (combine sh i).
Lemma bindex_skip sh x i : length sh = length i -> bindex sh (x ++ i) = bx sh i.
Proof.
  intros L. unfold bindex, bx. rewrite app_length. replace (length x + length i - length sh) with (length x) by lia.
  now rewrite skipn_app, skipn_all, Nat.sub_diag.
Qed.
Lemma bindex_eq sh i : length sh = length i -> bindex sh i = bx sh i.
Proof. intros L. exact (bindex_skip sh [] i L). Qed.
Lemma bindex_nil i : bindex [] i = [].
Proof. reflexivity. Qed.
Lemma bx_app s a i j : length s = length i -> bx (s ++ a) (i ++ j) = bx s i ++ bx a j.
Proof.
  intros L. unfold bx. revert i L. induction s as [|d s IH]; intros [|x i] L; try discriminate; cbn; [reflexivity|].
  injection L as L. now rewrite <- (IH i L).
Qed.
Lemma bx_id sh i : within sh i -> bx sh i = i.
Proof.
  unfold bx. induction 1 as [|d sh i idx H _ IH]; [reflexivity|]. cbn. rewrite IH. destruct (Nat.eqb_spec d 1) as [->|_]; [|reflexivity]. f_equal. lia.
Qed.
Lemma bx_within a c i : covers a c -> within c i -> within a (bx a i).
Proof.
  intros C. revert i. unfold bx. induction C as [|x z a c H _ IH]; intros i W; inversion W as [|? ? i0 idx Hi W']; subst; cbn; constructor.
  - destruct (Nat.eqb_spec x 1) as [->|N]; [lia|]. destruct H as [H|H]; [congruence|]. cbn. lia.
  - now apply IH.
Qed.
Lemma bx_length a i : length a = length i -> length (bx a i) = length a.
Proof. intros L. unfold bx. rewrite map_length, combine_length. lia. Qed.
(** Stretching twice *)
Lemma bx_bx a b c i : covers a b -> covers b c -> within c i -> bx a (bx b i) = bx a i.
Proof.
  intros H. revert c i. unfold bx. induction H as [|x y a b Hx _ IH]; intros c i K W; [reflexivity|].
  inversion K as [|? z ? c' Hy K']; subst. inversion W as [|? ? i0 idx Hi W']; subst. cbn.
  destruct (Nat.eqb_spec x 1) as [->|N]; cbn.
  - now rewrite (IH c' idx K' W').
  - rewrite (IH c' idx K' W'). destruct Hx as [Hx|Hx]; [congruence|]. subst y. now destruct (Nat.eqb_spec x 1); [congruence|].
Qed.
(** * Sizes *)
Lemma combine_fst_snd (l : list (nat * nat)) sh : combine (map fst l) (map snd l ++ sh) = l.
Proof. induction l as [|[n d] l IH]; [reflexivity|]. cbn. now rewrite IH. Qed.
Lemma add_sizes_new l : forall m, NoDup (map fst l) -> (forall n, In n (map fst l) -> ~ In n (map fst m)) -> add_sizes m l = Ok (m ++ l).
Proof.
  induction l as [|[n d] l IH]; intros m N D; [cbn; now rewrite app_nil_r|]. inversion N as [|? ? N1 N2]; subst.
  assert (E : add_size m n d = Ok (m ++ [(n, d)])).
  { unfold add_size. destruct (lookup m n) as [d'|] eqn:L; [|reflexivity]. exfalso. apply (D n); [now left|].
    apply lookup_some_In in L. apply in_map_iff. now exists (n, d'). }
  cbn [add_sizes]. rewrite E. cbn [bindr]. rewrite IH; [now rewrite <- app_assoc|assumption|].
  intros x Hx. rewrite map_app, in_app_iff. intros [H|[H|[]]]; [now apply (D x); [right|]|]. cbn in H. subst x. contradiction.
Qed.
Lemma add_size_in m n d m' : add_size m n d = Ok m' -> NoDup (map fst m) ->
  NoDup (map fst m') /\ forall p, In p m' <-> In p m \/ p = (n, d).
Proof.
  unfold add_size. destruct (lookup m n) as [d'|] eqn:L.
  - destruct (Nat.eqb_spec d' d) as [->|]; [|discriminate]. intros [= <-] N. split; [assumption|]. intros p. split; [auto|].
    intros [H| ->]; [assumption|]. now apply lookup_some_In.
  - intros [= <-] N. split.
    + rewrite map_app. apply NoDup_append; [assumption|repeat constructor; intros []|]. intros x H [<-|[]]. apply lookup_fst in L. now apply L.
    + intros p. rewrite in_app_iff. cbn. intuition.
Qed.
Lemma add_sizes_in l : forall m m', add_sizes m l = Ok m' -> NoDup (map fst m) ->
  NoDup (map fst m') /\ forall p, In p m' <-> In p m \/ In p l.
Proof.
  induction l as [|[n d] l IH]; intros m m' H N; cbn in H.
  - injection H as <-. split; [assumption|]. cbn. intuition.
  - destruct (add_size m n d) as [m1| | | | |] eqn:E; try discriminate. cbn in H. destruct (add_size_in _ _ _ _ E N) as [N1 I1].
    destruct (IH _ _ H N1) as [N2 I2]. split; [assumption|]. intros p. rewrite I2, I1. cbn. intuition.
Qed.
Lemma add_sizes_ok l : forall m, NoDup (map fst m) -> compatible m l -> compatible l l -> exists m', add_sizes m l = Ok m'.
Proof.
  induction l as [|[n d] l IH]; intros m N C K; [now exists m|]. cbn.
  assert (E : exists m1, add_size m n d = Ok m1).
  { unfold add_size. destruct (lookup m n) as [d'|] eqn:L; [|eauto]. apply lookup_some_In in L.
    rewrite (C n d' d L (or_introl eq_refl)), Nat.eqb_refl. eauto. }
  destruct E as [m1 E]. rewrite E. cbn. destruct (add_size_in _ _ _ _ E N) as [N1 I1]. apply IH; [assumption| |].
  - intros x a b Ha Hb. apply I1 in Ha. destruct Ha as [Ha|Ha]; [apply (C x); [assumption|now right]|]. injection Ha as -> ->.
    apply (K n); [now left|now right].
  - intros x a b Ha Hb. apply (K x); now right.
Qed.

Section Named.
Variable V : Type.
Variable order : list (nat * nat) -> list (nat * nat).
Hypothesis any : forall l, Permutation (order l) l.
Notation narr := (narr V).
Notation NArr := (NArr V).
Notation nsizes := (nsizes V).
Notation nshape := (nshape V).
Notation nelt := (nelt V).
Notation AArr := (AArr V).
Notation ANum := (ANum V).
Notation proper := (proper V).
Notation missing := (missing V order).
Notation broadcast_to_named := (broadcast_to_named V order).

Lemma indices_in args : forall m m', indices_from V m args = Ok m' -> NoDup (map fst m) ->
  NoDup (map fst m') /\ forall p, In p m' <-> In p m \/ exists x, In x args /\ In p (arg_sizes V x).
Proof.
  induction args as [|x args IH]; intros m m' H N; cbn in H.
  - injection H as <-. split; [assumption|]. intros p. split; [auto|]. intros [K|[x [[] _]]]. assumption.
  - destruct (add_sizes m (arg_sizes V x)) as [m1| | | | |] eqn:E; try discriminate. cbn in H. destruct (add_sizes_in _ _ _ E N) as [N1 I1].
    destruct (IH _ _ H N1) as [N2 I2]. split; [assumption|]. intros p. rewrite I2, I1. split.
    + intros [[K|K]|[y [Hy K]]]; [now left|right; exists x; split; [now left|assumption]|right; exists y; split; [now right|assumption]].
    + intros [K|[y [[<-|Hy] K]]]; [now left; left|now left; right|right; now exists y].
Qed.
Lemma missing_in m a p : In p (missing m a) <-> In p m /\ ~ In (fst p) (map fst (nsizes a)).
Proof.
  unfold DistModel.missing. split.
  - intros H. apply (Permutation_in _ (any _)) in H. apply filter_In in H. destruct H as [H K]. split; [assumption|]. intros Q.
    apply mem_In in Q. now rewrite Q in K.
  - intros [H K]. apply (Permutation_in _ (Permutation_sym (any _))). apply filter_In. split; [assumption|].
    destruct (mem (fst p) (map fst (nsizes a))) eqn:E; [|reflexivity]. apply mem_In in E. contradiction.
Qed.
Lemma filter_NoDup_fst (f : nat * nat -> bool) l : NoDup (map fst l) -> NoDup (map fst (filter f l)).
Proof.
  induction l as [|x l IH]; [auto|]. cbn. intros N. inversion N as [|? ? N1 N2]; subst. destruct (f x); [|auto]. cbn. constructor; [|auto].
  intros H. apply N1. apply in_map_iff in H. destruct H as [y [<- H]]. apply filter_In in H. now apply in_map.
Qed.
Lemma missing_nodup m a : NoDup (map fst m) -> NoDup (map fst (missing m a)).
Proof.
  intros N. unfold DistModel.missing. apply (Permutation_NoDup (Permutation_map fst (Permutation_sym (any _)))). now apply filter_NoDup_fst.
Qed.
Lemma list_eqb_refl l : list_eqb l l = true.
Proof. unfold list_eqb. now destruct (list_eq_dec Nat.eq_dec l l). Qed.
Lemma broadcast_front (a : narr) l : exists t, broadcast_to V a (l ++ nshape a) = Ok t /\ nsizes t = nsizes a /\ nshape t = l ++ nshape a /\
  forall env i idx, length i = length l -> within (nshape a) idx -> nelt t env (i ++ idx) = nelt a env idx.
Proof.
  unfold broadcast_to. rewrite bshape_prefix_r by reflexivity. rewrite bzip_same. cbn. rewrite list_eqb_refl. eexists. split; [reflexivity|].
  split; [reflexivity|]. split; [reflexivity|]. intros env i idx _ W. cbn. rewrite bindex_skip by now apply within_length.
  now rewrite bx_id.
Qed.
Lemma named_front m (a : narr) : NoDup (map fst m) ->
  exists t, broadcast_to_named a m = Ok t /\ nsizes t = nsizes a ++ missing m a /\ nshape t = nshape a /\
  forall env idx, within (nshape a) idx -> nelt t env idx = nelt a env idx.
Proof.
  intros N. unfold DistModel.broadcast_to_named. destruct (broadcast_front a (map snd (missing m a))) as [t [E [S1 [S2 S3]]]]. rewrite E. cbn [bindr].
  unfold index_names. rewrite S2. cbn [skipn firstn]. rewrite combine_fst_snd, S1.
  destruct (Nat.ltb_spec (length (map snd (missing m a) ++ nshape a)) (0 + length (map fst (missing m a)))) as [L|L].
  { exfalso. rewrite app_length, !map_length in L. lia. }
  rewrite add_sizes_new; [|now apply missing_nodup|].
  2:{ intros n H. apply in_map_iff in H. destruct H as [p [<- H]]. now apply missing_in in H. }
  cbn [bindr]. eexists. split; [reflexivity|]. split; [reflexivity|]. split.
  - cbn [DistModel.nshape app]. rewrite map_length. replace (0 + length (missing m a)) with (length (map snd (missing m a))) by now rewrite map_length.
    now rewrite skipn_app, skipn_all, Nat.sub_diag.
  - intros env idx W. cbn [DistModel.nelt]. apply (S3 env (map env (map fst (missing m a))) idx); [now rewrite !map_length|assumption].
Qed.
Lemma bind_named m (a : narr) : proper a -> NoDup (map fst m) -> compatible m (nsizes a) ->
  exists r, bindr (broadcast_to_named a m) (fun t => bind_names V t m) = Ok r /\
    nshape r = map snd m ++ nshape a /\
    (forall p, In p (nsizes r) <-> In p (nsizes a) /\ ~ In (fst p) (map fst m)) /\
    NoDup (map fst (nsizes r)) /\
    forall env i idx, length i = length m -> within (nshape a) idx -> nelt r env (i ++ idx) = nelt a (assign env (map fst m) i) idx.
Proof.
  intros [Na Pa] N C. destruct (named_front m a N) as [t [E [S1 [S2 S3]]]]. rewrite E. cbn [bindr]. unfold bind_names.
  assert (Nt : NoDup (map fst (nsizes t))).
  { rewrite S1, map_app. apply NoDup_append; [assumption|now apply missing_nodup|]. intros x H K. apply in_map_iff in K.
    destruct K as [p [<- K]]. now apply missing_in in K. }
  assert (A : forallb (fun n : nat * nat => match lookup (nsizes t) (fst n) with Some d => Nat.eqb d (snd n) | None => false end) m = true).
  { apply forallb_forall. intros [n d] H. cbn [fst snd]. enough (L : lookup (nsizes t) n = Some d) by now rewrite L, Nat.eqb_refl.
    apply lookup_In; [assumption|]. rewrite S1, in_app_iff. destruct (in_dec Nat.eq_dec n (map fst (nsizes a))) as [I|I].
    - left. apply in_map_iff in I. destruct I as [[n' d'] [Q I]]. cbn in Q. subst n'. now rewrite (C n d d' H I).
    - right. apply missing_in. auto. }
  rewrite A. eexists. split; [reflexivity|]. cbn [DistModel.nshape DistModel.nsizes DistModel.nelt]. split; [now rewrite S2|]. split.
  - intros p. rewrite filter_In, S1, in_app_iff. split.
    + intros [[H|H] K]; (split; [|intros Q; apply mem_In in Q; now rewrite Q in K]); [assumption|].
      exfalso. apply missing_in in H. destruct H as [H _]. apply (in_map fst) in H. apply mem_In in H. now rewrite H in K.
    + intros [H K]. split; [now left|]. destruct (mem (fst p) (map fst m)) eqn:Q; [|reflexivity]. apply mem_In in Q. contradiction.
  - split; [now apply filter_NoDup_fst|]. intros env i idx L W. rewrite <- L. rewrite firstn_app, firstn_all, Nat.sub_diag, skipn_app, skipn_all, Nat.sub_diag.
    cbn [firstn skipn app]. rewrite app_nil_r. now apply S3.
Qed.
End Named.
