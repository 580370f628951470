(** Proofs about distributions with named dimensions: the parameters with their names bound. *)
From Coq Require Import List Bool Arith Lia Permutation.
From Verif Require Import ArrModel ArrSpec ArrProofs ArrNames ArrBind ArrUnbind DistModel DistSpec DistProofs.
Import ListNotations.

(** * Moving a block of axes *)
Lemma map_nth_seq {A} (d : A) pre mid post : map (fun i => nth i (pre ++ mid ++ post) d) (seq (length pre) (length mid)) = mid.
Proof.
  revert pre. induction mid as [|x mid IH]; intros pre; [reflexivity|]. cbn [length seq map]. f_equal.
  - rewrite app_nth2 by lia. now rewrite Nat.sub_diag.
  - specialize (IH (pre ++ [x])). rewrite app_length in IH. cbn [length] in IH. rewrite Nat.add_1_r in IH.
    rewrite <- IH at 2. apply map_ext. intros i. now rewrite <- app_assoc.
Qed.
Lemma nth_error_seq a n i : i < n -> nth_error (seq a n) i = Some (a + i).
Proof.
  revert a i. induction n as [|n IH]; intros a [|i] H; try lia; cbn; [f_equal; lia|]. rewrite IH by lia. f_equal. lia.
Qed.
Definition block (k s t : nat) : list nat := seq k s ++ seq 0 k ++ seq (k + s) t.
Lemma block_length k s t : length (block k s t) = k + s + t.
Proof. unfold block. rewrite !app_length, !seq_length. lia. Qed.
Lemma block_permutation k s t : Permutation (block k s t) (seq 0 (k + s + t)).
Proof.
  unfold block. rewrite app_assoc. rewrite !seq_app. cbn. apply Permutation_app_tail. apply Permutation_app_comm.
Qed.
Lemma block_NoDup k s t : NoDup (block k s t).
Proof. apply (Permutation_NoDup (Permutation_sym (block_permutation k s t))). apply seq_NoDup. Qed.
Lemma map_nth_block {A} (d : A) x y z :
  map (fun i => nth i (x ++ y ++ z) d) (block (length x) (length y) (length z)) = y ++ x ++ z.
Proof.
  unfold block. rewrite !map_app. f_equal; [apply map_nth_seq|]. f_equal.
  - exact (map_nth_seq d [] x (y ++ z)).
  - pose proof (map_nth_seq d (x ++ y) z []) as H. rewrite app_nil_r, app_length in H. rewrite <- H at 2. apply map_ext.
    intros i. now rewrite <- app_assoc.
Qed.
Lemma position_block k s t j : j < k + s + t ->
  position j (block k s t) = if j <? k then s + j else if j <? k + s then j - k else j.
Proof.
  intros H. apply position_nth; [apply block_NoDup|]. unfold block.
  destruct (Nat.ltb_spec j k) as [L|L].
  - rewrite nth_error_app2 by (rewrite seq_length; lia). rewrite seq_length. rewrite nth_error_app1 by (rewrite seq_length; lia).
    rewrite nth_error_seq by lia. f_equal. lia.
  - destruct (Nat.ltb_spec j (k + s)) as [M|M].
    + rewrite nth_error_app1 by (rewrite seq_length; lia). rewrite nth_error_seq by lia. f_equal. lia.
    + rewrite nth_error_app2 by (rewrite seq_length; lia). rewrite seq_length. rewrite nth_error_app2 by (rewrite seq_length; lia).
      rewrite seq_length. rewrite nth_error_seq by lia. f_equal. lia.
Qed.
Lemma map_add_seq a n : map (fun j => a + j) (seq 0 n) = seq a n.
Proof.
  enough (H : forall c, map (fun j => a + j) (seq c n) = seq (a + c) n) by (rewrite H; f_equal; lia).
  induction n as [|n IH]; intros c; [reflexivity|]. cbn. f_equal. rewrite IH. f_equal. lia.
Qed.
Lemma unblock x y z :
  map (fun j => nth (position j (block (length x) (length y) (length z))) (y ++ x ++ z) 0) (seq 0 (length x + length y + length z)) = x ++ y ++ z.
Proof.
  rewrite !seq_app, !map_app. cbn [Nat.add]. rewrite <- app_assoc. f_equal; [|f_equal].
  - transitivity (map (fun i => nth i (y ++ x ++ z) 0) (seq (length y) (length x))); [|apply map_nth_seq].
    rewrite <- (map_add_seq (length y)), map_map. apply map_ext_in. intros j H. apply in_seq in H. rewrite position_block by lia.
    destruct (Nat.ltb_spec j (length x)); [reflexivity|lia].
  - transitivity (map (fun i => nth i (y ++ x ++ z) 0) (seq 0 (length y))); [|exact (map_nth_seq 0 [] y (x ++ z))].
    rewrite <- (map_add_seq (length x)), map_map. apply map_ext_in. intros j H. apply in_seq in H. rewrite position_block by lia.
    destruct (Nat.ltb_spec (length x + j) (length x)); [lia|]. destruct (Nat.ltb_spec (length x + j) (length x + length y)); [|lia].
    f_equal. lia.
  - pose proof (map_nth_seq 0 (y ++ x) z []) as Q. rewrite app_nil_r, app_length in Q. etransitivity; [|exact Q]. rewrite (Nat.add_comm (length y)).
    apply map_ext_in. intros j H. apply in_seq in H. rewrite position_block by lia.
    destruct (Nat.ltb_spec j (length x)); [lia|]. destruct (Nat.ltb_spec j (length x + length y)); [lia|]. now rewrite <- app_assoc.
Qed.
Lemma split_rank (l : list nat) a b : a + b <= length l ->
  exists x y z, l = x ++ y ++ z /\ length x = length l - (a + b) /\ length y = a /\ length z = b.
Proof.
  intros H. exists (firstn (length l - (a + b)) l), (firstn a (skipn (length l - (a + b)) l)), (skipn a (skipn (length l - (a + b)) l)).
  rewrite !firstn_skipn. split; [reflexivity|]. rewrite !firstn_length, !skipn_length. lia.
Qed.
Lemma split_two (l : list nat) a b : length l = a + b -> exists x y, l = x ++ y /\ length x = a /\ length y = b.
Proof. intros H. exists (firstn a l), (skipn a l). rewrite firstn_skipn, firstn_length, skipn_length. split; [reflexivity|]. lia. Qed.
Lemma firstn_len {A} (x y : list A) n : length x = n -> firstn n (x ++ y) = x.
Proof. intros <-. now rewrite firstn_app, firstn_all, Nat.sub_diag, app_nil_r. Qed.
Lemma skipn_len {A} (x y : list A) n : length x = n -> skipn n (x ++ y) = y.
Proof. intros <-. now rewrite skipn_app, skipn_all, Nat.sub_diag. Qed.

Section Batch.
Variable V : Type.
Variable order : list (nat * nat) -> list (nat * nat).
Hypothesis any : forall l, Permutation (order l) l.
Notation narr := (narr V).
Notation nsizes := (nsizes V).
Notation nshape := (nshape V).
Notation nelt := (nelt V).
Notation AArr := (AArr V).
Notation ANum := (ANum V).
Notation proper := (proper V).

(** A parameter with the names [m] in front *)
Definition bound (m : list (nat * nat)) (x : arg V) (p : arr V) : Prop :=
  match x with
  | DistModel.ANum _ v => p = Arr [] (fun _ => v)
  | DistModel.AArr _ a => shape p = map snd m ++ nshape a /\
      forall i idx, length i = length m -> within (nshape a) idx -> at_ p (i ++ idx) = nelt a (assign (fun _ => 0) (map fst m) i) idx
  end.
Lemma pos_bound m args : all_proper V args -> NoDup (map fst m) -> (forall x p, In x args -> In p (arg_sizes V x) -> In p m) ->
  exists ps, pos_args V order args m = Ok ps /\ Forall2 (bound m) args ps.
Proof.
  intros P N H. unfold pos_args.
  enough (Q : exists l, mapr (to_positional V order m) args = Ok l /\ Forall2 (bound m) args (map (arg_at V (fun _ => 0)) l)).
  { destruct Q as [l [E Q]]. rewrite E. cbn [bindr]. eauto. }
  assert (U : forall n d d', In (n, d) m -> In (n, d') m -> d = d').
  { intros n d d' H1 H2. apply lookup_In in H1; [|assumption]. apply lookup_In in H2; [|assumption]. congruence. }
  induction args as [|x args IH]; [exists []; split; [reflexivity|constructor]|].
  destruct IH as [l [E Q]]; [intros a Ha; apply P; now right|intros y p Hy; apply H; now right|].
  cbn [mapr]. destruct x as [v|a].
  - cbn [to_positional bindr]. rewrite E. cbn [bindr]. eexists. split; [reflexivity|]. cbn. constructor; [reflexivity|assumption].
  - assert (Pa : proper a) by (apply P; now left).
    destruct (bind_named V order any m a Pa N) as [r [Er [Sr [_ [_ Vr]]]]].
    { intros n d d' H1 H2. apply (U n); [assumption|]. exact (H (AArr a) (n, d') (or_introl eq_refl) H2). }
    cbn [to_positional]. destruct (broadcast_to_named V order a m) as [t| | | | |]; try discriminate. cbn [bindr] in Er |- *. rewrite Er. cbn [bindr].
    rewrite E. cbn [bindr]. eexists. split; [reflexivity|]. cbn [map]. constructor; [|assumption]. cbn [bound arg_at at_env]. split; [exact Sr|].
    intros i idx L W. exact (Vr (fun _ => 0) i idx L W).
Qed.
Definition has_array (args : list (arg V)) : bool := existsb (fun x => match x with DistModel.AArr _ _ => true | DistModel.ANum _ _ => false end) args.
Lemma has_array_spec args : Exists (is_array V) args -> has_array args = true.
Proof. unfold has_array. induction 1 as [x l H|x l _ IH]; cbn [existsb]; [destruct x; [destruct H|reflexivity]|]. now rewrite IH, orb_true_r. Qed.
Lemma no_array args : has_array args = false -> forall a, ~ In (AArr a) args.
Proof.
  induction args as [|x args IH]; cbn; [auto|]. intros H a [->|K]; [discriminate|]. apply orb_false_elim in H. exact (IH (proj2 H) a K).
Qed.
(** The batch shape of the bound parameters *)
Lemma batch_bound b m rs args ps env B : Forall2 (full_rank V b) rs args -> Forall2 (bound m) args ps ->
  lib_batch V rs (member V env args) = Some B ->
  (if has_array args then length B = b /\ lib_batch V rs ps = Some (map snd m ++ B) else B = [] /\ lib_batch V rs ps = Some []) /\
  (forall r a, In (r, AArr a) (combine rs args) -> covers (firstn b (nshape a)) B).
Proof.
  intros R. revert ps B. induction R as [|r x rs args Hr R IH]; intros ps B Q H; inversion Q as [|? p ? ps' Hp Q']; subst.
  { cbn in H |- *. injection H as <-. split; [split; reflexivity|]. intros ? ? []. }
  cbn [member map lib_batch] in H. destruct (length (shape (arg_at V env x)) <? r) eqn:Lr; [discriminate|].
  destruct (lib_batch V rs (map (arg_at V env) args)) as [B'|] eqn:E; [|discriminate]. destruct (IH ps' B' Q' E) as [I1 I2]. clear IH.
  destruct x as [v|a].
  - cbn [bound] in Hp. subst p. cbn in Hr. subst r. cbn [arg_at shape part] in H. unfold part in H. cbn [shape length firstn Nat.sub] in H.
    rewrite bshape_nil_l in H. injection H as ->. cbn [has_array existsb orb]. fold (has_array args). split.
    + cbn [lib_batch shape length]. cbn [Nat.ltb Nat.leb]. unfold part. cbn [shape length firstn Nat.sub].
      destruct (has_array args); destruct I1 as [I1 ->]; now rewrite bshape_nil_l.
    + intros r' a' [K|K]; [discriminate|]. exact (I2 r' a' K).
  - destruct Hp as [Sp Vp]. cbn in Hr. unfold part in H. cbn [arg_at] in H. unfold at_env in H. cbn [shape] in H.
    assert (La : length (nshape a) - r = b) by lia. rewrite La in H. cbn [has_array existsb orb].
    assert (Lf : length (firstn b (nshape a)) = b) by (rewrite firstn_length; lia).
    assert (G : lib_batch V (r :: rs) (p :: ps') =
      match lib_batch V rs ps' with Some c => bshape (map snd m ++ firstn b (nshape a)) c | None => None end).
    { cbn [lib_batch]. unfold part. rewrite Sp. destruct (Nat.ltb_spec (length (map snd m ++ nshape a)) r) as [L|L].
      - rewrite app_length in L. lia.
      - rewrite app_length. replace (length (map snd m) + length (nshape a) - r) with (length (map snd m) + b) by lia.
        now rewrite firstn_app_2. }
    fold (has_array args) in I1. rewrite G. destruct (has_array args) eqn:EA.
    + destruct I1 as [I1 ->]. rewrite bshape_eq in H by lia. rewrite bshape_both by lia. rewrite H. cbn [option_map].
      destruct (bzip_length _ _ _ H) as [_ LB]. destruct (bzip_covers _ _ _ H) as [C1 C2]. split; [split; [lia|reflexivity]|].
      intros r' a' [K|K]; [now injection K as <- <-|]. exact (covers_trans _ _ _ (I2 r' a' K) C2).
    + destruct I1 as [-> ->]. rewrite bshape_nil_r in H. injection H as <-. rewrite bshape_nil_r. split; [split; [lia|reflexivity]|].
      intros r' a' [K|K]; [injection K as <- <-; apply covers_refl|].
      exfalso. apply in_combine_r in K. apply (no_array args EA a' K).
Qed.
End Batch.
