(** Proofs about distributions with named dimensions: [expand]. *)
From Coq Require Import List Bool Arith Lia Permutation.
From Verif Require Import ArrModel ArrSpec ArrProofs ArrNames ArrBind ArrUnbind DistModel DistSpec DistProofs DistBatch DistLaws.
Import ListNotations.

Section Expand.
Variable V : Type.
Variable order : list (nat * nat) -> list (nat * nat).
Hypothesis any : forall l, Permutation (order l) l.
Notation narr := (narr V).
Notation nsizes := (nsizes V).
Notation nshape := (nshape V).
Notation nelt := (nelt V).
Notation AArr := (AArr V).
Notation proper := (proper V).

Lemma bshape_onto B s : bshape B s = Some s -> exists s0 s1, s = s0 ++ s1 /\ length s1 = length B /\ covers B s1.
Proof.
  intros H. assert (L : length B <= length s).
  { unfold bshape in H. apply bzip_length in H. destruct H as [_ H]. unfold pad in H. rewrite app_length, repeat_length in H. lia. }
  exists (firstn (length s - length B) s), (skipn (length s - length B) s). rewrite firstn_skipn. split; [reflexivity|].
  assert (L1 : length (skipn (length s - length B) s) = length B) by (rewrite skipn_length; lia). split; [assumption|].
  rewrite <- (firstn_skipn (length s - length B) s) in H. rewrite bshape_prefix_r in H by now symmetry.
  destruct (bzip B _) as [c|] eqn:E; [|discriminate]. injection H as H. apply app_inv_head in H. subst c. now apply bzip_covers in E.
Qed.
(** One parameter, stretched *)
Lemma expand_array b r (a : narr) B s0 s1 : length (nshape a) = b + r -> length B = b -> covers (firstn b (nshape a)) B -> length s1 = b -> covers B s1 ->
  exists a', expand_to_batch_shape V a b (s0 ++ s1) = Ok a' /\ nsizes a' = nsizes a /\ nshape a' = (s0 ++ s1) ++ skipn b (nshape a) /\
    (proper a -> proper a') /\
    forall env, (forall idx, within (s0 ++ s1) idx ->
      same_arr (slice V r (at_env V env a') idx) (slice V r (at_env V env a) idx)).
Proof.
  intros La LB C L1 C1. unfold expand_to_batch_shape. destruct (Nat.ltb_spec (length (nshape a)) b); [lia|].
  destruct (Nat.ltb_spec (length (s0 ++ s1)) b) as [Lx|_]; [rewrite app_length in Lx; lia|].
  set (A := firstn b (nshape a)) in *. set (E := skipn b (nshape a)).
  assert (SA : nshape a = A ++ E) by (symmetry; apply firstn_skipn). assert (LA : length A = b) by (unfold A; rewrite firstn_length; lia).
  assert (LE : length E = r) by (unfold E; rewrite skipn_length; lia).
  assert (CA : covers A s1) by exact (covers_trans _ _ _ C C1).
  rewrite bshape_prefix_r by lia. rewrite (covers_bzip _ _ CA). cbn [option_map of_lib bindr]. unfold broadcast_to. rewrite SA.
  rewrite <- app_assoc, bshape_prefix_r by (rewrite !app_length; lia). rewrite bzip_app by lia. rewrite (covers_bzip _ _ CA), bzip_same. cbn [option_map].
  rewrite list_eqb_refl. eexists. split; [reflexivity|]. split; [reflexivity|]. split; [reflexivity|]. split.
  - intros [N P]. split; [exact N|]. cbn. intros env env' H1 idx. now apply P.
  - intros env idx W. unfold slice, part, at_env. cbn [shape at_ DistModel.nshape DistModel.nelt]. rewrite SA.
    replace (length (s0 ++ s1 ++ E) - r) with (length (s0 ++ s1)) by (rewrite !app_length; lia). rewrite app_assoc, firstn_len, skipn_len by reflexivity.
    replace (length (A ++ E) - r) with (length A) by (rewrite app_length; lia). rewrite firstn_len, skipn_len by reflexivity.
    split; cbn [shape at_]; [reflexivity|]. intros e We. f_equal. assert (Li := within_length _ _ W). rewrite (bindex_eq (s0 ++ s1)) by assumption.
    rewrite (bx_id _ _ W). destruct (within_split _ _ _ W) as [W0 W1]. rewrite <- (firstn_skipn (length s0) idx). set (i0 := firstn (length s0) idx) in *.
    set (i1 := skipn (length s0) idx) in *. assert (Li1 := within_length _ _ W1). assert (LWe := within_length _ _ We).
    rewrite <- app_assoc. rewrite bindex_skip by (rewrite !app_length; lia). rewrite bindex_skip by lia. rewrite bx_app by lia. now rewrite (bx_id E e We).
Qed.
Lemma batch_all s rs args env : args <> [] -> Forall2 (fun r x => exists a E, x = AArr a /\ nshape a = s ++ E /\ length E = r) rs args ->
  lib_batch V rs (member V env args) = Some s.
Proof.
  intros N H. induction H as [|r x rs args [a [E [-> [Sa LE]]]] H IH]; [congruence|]. cbn [member map lib_batch arg_at]. unfold at_env, part. cbn [shape]. rewrite Sa.
  destruct (Nat.ltb_spec (length (s ++ E)) r) as [L|_]; [rewrite app_length in L; lia|]. rewrite firstn_len by (rewrite app_length; lia).
  destruct args as [|y args].
  - inversion H; subst. cbn. apply bshape_nil_r.
  - unfold member in IH. rewrite IH by discriminate. rewrite bshape_eq by reflexivity. apply bzip_same.
Qed.
Theorem expand_law b F args m env0 B s : Forall (is_array V) args -> args <> [] -> full V b F args -> all_proper V args -> indices V args = Ok m ->
  lib_batch V (pranks V F) (member V env0 args) = Some B -> bshape B s = Some s ->
  exists args', expand V order F args s = Ok args' /\ all_proper V args' /\ full V (length s) F args' /\ indices V args' = Ok m /\
    batch_shape V order F args' = Ok s /\
    forall env idx, within s idx -> Forall2 same_arr (slices V (pranks V F) (member V env args') idx) (slices V (pranks V F) (member V env args) idx).
Proof.
  intros HA HN HF P Hm HB Hs. destruct (make_ready V order any b F args m env0 B HF P Hm HB) as [ps R].
  assert (EB := batch_ready V order b F args m ps B Hm R). unfold expand. rewrite EB. cbn [bindr].
  assert (LB := r_len _ _ _ _ _ _ _ _ R). assert (CV := r_cover _ _ _ _ _ _ _ _ R).
  assert (SR : forall l (q : list (arr V)) idx, Forall2 same_arr (slices V l q idx) (slices V l q idx)).
  { intros l q idx. induction (slices V l q idx) as [|z zs IH]; constructor; [split; reflexivity|assumption]. }
  unfold list_eqb at 1. destruct (list_eq_dec Nat.eq_dec B s) as [<-|_].
  { exists args. rewrite LB. repeat (split; [assumption || reflexivity|]). auto. }
  destruct (bshape_onto B s Hs) as [s0 [s1 [-> [L1 C1]]]]. destruct HF as [HR HE].
  assert (Q : exists args', mapr (fun x => match x with DistModel.ANum _ v => Ok x | DistModel.AArr _ a => bindr (expand_to_batch_shape V a (length B) (s0 ++ s1)) (fun r => Ok (AArr r)) end) args = Ok args' /\
    Forall (is_array V) args' /\ map (arg_sizes V) args' = map (arg_sizes V) args /\ all_proper V args' /\
    Forall2 (fun r x => exists a E, x = AArr a /\ nshape a = (s0 ++ s1) ++ E /\ length E = r) (pranks V F) args' /\
    forall env idx, within (s0 ++ s1) idx -> Forall2 same_arr (slices V (pranks V F) (member V env args') idx) (slices V (pranks V F) (member V env args) idx)).
  { clear HN Hm HB R EB HE Hs. induction HR as [|r x rs args Hr HR IH].
    - exists []. split; [reflexivity|]. split; [constructor|]. split; [reflexivity|]. split; [intros ? []|]. split; [constructor|]. intros; constructor.
    - inversion HA as [|? ? Hx HA']; subst. destruct IH as [args' [E1 [E2 [E3 [E4 [E5 E6]]]]]];
        [assumption|intros z Hz; apply P; now right|intros r' z Hz; exact (CV r' z (or_intror Hz))|].
      destruct x as [v|a]; [contradiction|]. cbn in Hr.
      destruct (expand_array (length B) r a B s0 s1 Hr eq_refl (CV r a (or_introl eq_refl)) L1 C1) as [a' [A1 [A2 [A3 [A4 A5]]]]].
      exists (AArr a' :: args'). cbn [mapr bindr]. rewrite A1. cbn [bindr]. rewrite E1. cbn [bindr]. split; [reflexivity|].
      split; [constructor; [exact Logic.I|assumption]|]. split; [cbn; now rewrite A2, E3|]. split.
      { intros z [Z|Z]; [injection Z as <-; apply A4, P; now left|now apply E4]. }
      split.
      { constructor; [|assumption]. exists a', (skipn (length B) (nshape a)). split; [reflexivity|]. split; [assumption|]. rewrite skipn_length. lia. }
      intros env idx W. unfold slices. cbn [member map combine fst snd arg_at]. constructor; [|exact (E6 env idx W)]. exact (A5 env idx W). }
  destruct Q as [args' [E1 [E2 [E3 [E4 [E5 E6]]]]]]. exists args'. split; [exact E1|]. split; [assumption|].
  assert (N' : args' <> []). { intros ->. destruct args; [congruence|discriminate]. }
  assert (F' : full V (length (s0 ++ s1)) F args').
  { split.
    - clear - E5. induction E5 as [|r x rs l [a [E [-> [Sa LE]]]] _ IH]; constructor; [|assumption]. cbn. rewrite Sa, app_length. lia.
    - right. destruct args' as [|x l]; [congruence|]. left. now inversion E2. }
  assert (I' : indices V args' = Ok m).
  { rewrite <- Hm. unfold indices. clear - E3. revert E3. generalize (@nil (nat * nat)). revert args.
    induction args' as [|x l IH]; intros [|y args] m0 E; try discriminate; [reflexivity|]. cbn in E. injection E as Ex El. cbn. rewrite Ex.
    destruct (add_sizes m0 (arg_sizes V y)); try reflexivity. cbn. now apply IH. }
  split; [assumption|]. split; [assumption|]. split; [|assumption].
  exact (proj1 (batch_law V order any (length (s0 ++ s1)) F args' m (fun _ => 0) (s0 ++ s1) F' E4 I' (batch_all _ _ _ _ N' E5))).
Qed.
End Expand.
