(** Proofs: naming the leading batch axes of a distribution gives the distribution at each position. *)
From Coq Require Import List Bool Arith Lia Permutation.
From Verif Require Import ArrModel ArrSpec ArrProofs ArrNames ArrBind ArrUnbind DistModel DistSpec DistProofs DistBatch DistLaws UnbModel UnbSpec.
Import ListNotations.

Lemma pad_more s n a : length a <= n -> pad (s + n) a = repeat 1 s ++ pad n a.
Proof.
  intros H. unfold pad. replace (s + n - length a) with (s + (n - length a)) by lia. now rewrite repeat_app, <- app_assoc.
Qed.
Lemma pad_length n a : length a <= n -> length (pad n a) = n.
Proof. intros H. unfold pad. rewrite app_length, repeat_length. lia. Qed.
Lemma bshape_more_r s a c : length a <= length c -> bshape a (s ++ c) = option_map (app s) (bshape a c).
Proof.
  intros H. unfold bshape. rewrite app_length, pad_more by assumption. rewrite (pad_long (length a) (s ++ c)) by (rewrite app_length; lia).
  rewrite (pad_long (length a) c) by assumption. rewrite bzip_app by apply repeat_length. rewrite bzip_ones_l. now destruct (bzip (pad (length c) a) c).
Qed.
Lemma bshape_more_l s a c : length a <= length c -> bshape (s ++ c) a = option_map (app s) (bshape c a).
Proof.
  intros H. unfold bshape. rewrite app_length, (pad_more _ (length c) a) by assumption. rewrite (pad_long (length a) (s ++ c)) by (rewrite app_length; lia).
  rewrite (pad_long (length a) c) by assumption. rewrite bzip_app by (rewrite repeat_length; reflexivity). rewrite bzip_ones_r. now destruct (bzip c (pad (length c) a)).
Qed.
Lemma bshape_cover_r a c d : length a <= length c -> bshape a c = Some d -> length d = length c /\ covers c d.
Proof.
  intros H E. unfold bshape in E. rewrite (pad_long (length a) c) in E by assumption. destruct (bzip_length _ _ _ E) as [L1 L2].
  rewrite pad_length in L2 by assumption. split; [assumption|]. exact (proj2 (bzip_covers _ _ _ E)).
Qed.
Lemma bshape_cover_l a c d : length a <= length c -> bshape c a = Some d -> length d = length c /\ covers c d.
Proof.
  intros H E. unfold bshape in E. rewrite (pad_long (length a) c) in E by assumption. destruct (bzip_length _ _ _ E) as [L1 L2].
  split; [assumption|]. exact (proj1 (bzip_covers _ _ _ E)).
Qed.
Lemma bshape_len a c d : bshape a c = Some d -> length d = Nat.max (length a) (length c).
Proof.
  intros E. destruct (Nat.le_ge_cases (length a) (length c)) as [H|H].
  - rewrite (proj1 (bshape_cover_r _ _ _ H E)). lia.
  - rewrite (proj1 (bshape_cover_l _ _ _ H E)). lia.
Qed.
Lemma bindex_last sh x ib : length sh <= length ib -> bindex sh (x ++ ib) = bindex sh ib.
Proof.
  intros H. unfold bindex. rewrite app_length. replace (length x + length ib - length sh) with (length x + (length ib - length sh)) by lia.
  rewrite skipn_app. rewrite skipn_all2 by lia. cbn [app]. do 3 f_equal. lia.
Qed.

Section Cut.
Variable V : Type.
Variable s i : list nat.
Variable b : nat.
Hypothesis inside : within s i.

(** [q] is [p] at the position [i] of its leading axes *)
Definition long (r : nat) (p q : arr V) : Prop :=
  shape p = s ++ shape q /\ length (shape q) = b + r /\ forall e, within (shape q) e -> at_ q e = at_ p (i ++ e).
(** [p] has no such axes *)
Definition short (r : nat) (p q : arr V) : Prop :=
  shape p = shape q /\ length (shape q) <= b + r /\ forall e, at_ q e = at_ p e.
Inductive cuts : bool -> list nat -> list (arr V) -> list (arr V) -> Prop :=
| cuts_nil : cuts false [] [] []
| cuts_long f r p q rs ps qs : long r p q -> cuts f rs ps qs -> cuts true (r :: rs) (p :: ps) (q :: qs)
| cuts_short f r p q rs ps qs : short r p q -> cuts f rs ps qs -> cuts f (r :: rs) (p :: ps) (q :: qs).

Lemma batch_cut f rs ps qs : cuts f rs ps qs ->
  match lib_batch V rs qs with
  | Some B => length B <= b /\ (f = true -> length B = b) /\ lib_batch V rs ps = Some (if f then s ++ B else B) /\
      forall r q, In (r, q) (combine rs qs) -> length (shape q) = b + r -> covers (firstn b (shape q)) B
  | None => lib_batch V rs ps = None
  end.
Proof.
  induction 1 as [|f r p q rs ps qs [S1 [S2 _]] _ IH|f r p q rs ps qs [S1 [S2 _]] _ IH].
  - cbn. split; [lia|]. split; [discriminate|]. split; [reflexivity|]. intros ? ? [].
  - cbn [lib_batch]. unfold part. rewrite S1, app_length, S2.
    destruct (Nat.ltb_spec (b + r) r) as [L|_]; [lia|]. destruct (Nat.ltb_spec (length s + (b + r)) r) as [L|_]; [lia|].
    replace (b + r - r) with b by lia. replace (length s + (b + r) - r) with (length s + b) by lia. rewrite firstn_app_2.
    destruct (lib_batch V rs qs) as [B|]; [|now rewrite IH]. destruct IH as [I1 [I2 [-> I4]]].
    assert (Lf : length (firstn b (shape q)) = b) by (rewrite firstn_length; lia).
    assert (E : bshape (s ++ firstn b (shape q)) (if f then s ++ B else B) = option_map (app s) (bshape (firstn b (shape q)) B)).
    { destruct f; [rewrite bshape_both by (rewrite I2 by reflexivity; lia); rewrite bshape_eq by (rewrite I2 by reflexivity; lia); reflexivity|].
      apply bshape_more_l. lia. }
    rewrite E. destruct (bshape (firstn b (shape q)) B) as [D|] eqn:ED; [|reflexivity]. cbn [option_map].
    destruct (bshape_cover_l B (firstn b (shape q)) D ltac:(lia) ED) as [L1 C1].
    split; [lia|]. split; [lia|]. split; [reflexivity|]. intros r' q' [K|K] Hl; [now injection K as <- <-|].
    specialize (I4 r' q' K Hl). assert (LB : length B = b) by (rewrite <- (covers_length _ _ I4), firstn_length; lia).
    rewrite bshape_eq in ED by lia. exact (covers_trans _ _ _ I4 (proj2 (bzip_covers _ _ _ ED))).
  - cbn [lib_batch]. unfold part. rewrite S1. destruct (Nat.ltb_spec (length (shape q)) r) as [L|L]; [reflexivity|].
    destruct (lib_batch V rs qs) as [B|]; [|now rewrite IH]. destruct IH as [I1 [I2 [-> I4]]].
    set (h := firstn (length (shape q) - r) (shape q)). assert (Lh : length h <= b) by (unfold h; rewrite firstn_length; lia).
    assert (E : bshape h (if f then s ++ B else B) = option_map (fun D => if f then s ++ D else D) (bshape h B)).
    { destruct f; [rewrite bshape_more_r by (rewrite I2 by reflexivity; lia); reflexivity|]. now destruct (bshape h B). }
    rewrite E. destruct (bshape h B) as [D|] eqn:ED; [|reflexivity]. cbn [option_map]. assert (LD := bshape_len _ _ _ ED).
    split; [lia|]. split; [intros Hf; specialize (I2 Hf); lia|]. split; [reflexivity|]. intros r' q' [K|K] Hl.
    + injection K as <- <-. assert (Eh : h = firstn b (shape q)) by (unfold h; f_equal; lia). rewrite <- Eh.
      assert (Lh' : length h = b) by (rewrite Eh, firstn_length; lia).
      destruct (bshape_cover_l B h D ltac:(lia) ED) as [_ C]. exact C.
    + specialize (I4 r' q' K Hl). assert (LB : length B = b) by (rewrite <- (covers_length _ _ I4), firstn_length; lia).
      destruct (bshape_cover_r h B D ltac:(lia) ED) as [_ C]. exact (covers_trans _ _ _ I4 C).
Qed.
Lemma slice_long r p q ib : long r p q -> length ib = b -> within (firstn b (shape q)) (bx (firstn b (shape q)) ib) ->
  same_arr (slice V r q ib) (slice V r p (i ++ ib)).
Proof.
  intros [S1 [S2 E]] Lb W. unfold slice, part. rewrite S1, app_length, S2.
  replace (b + r - r) with b by lia. replace (length s + (b + r) - r) with (length s + b) by lia. rewrite firstn_app_2.
  assert (Lf : length (firstn b (shape q)) = b) by (rewrite firstn_length; lia). assert (Li := within_length _ _ inside).
  split; cbn [shape at_].
  - rewrite skipn_app, (skipn_all2 s) by lia. cbn [app]. f_equal. lia.
  - intros e We. rewrite (bindex_eq (firstn b (shape q))) by lia. rewrite (bindex_eq (s ++ firstn b (shape q))) by (rewrite !app_length; lia).
    rewrite bx_app by lia. rewrite (bx_id _ _ inside), <- app_assoc. apply E. apply (within_firstn _ b); [lia|assumption|assumption].
Qed.
Lemma slice_short r p q ib : short r p q -> length ib = b -> same_arr (slice V r q ib) (slice V r p (i ++ ib)).
Proof.
  intros [S1 [S2 E]] Lb. unfold slice, part. rewrite S1. split; cbn [shape at_]; [reflexivity|]. intros e _. rewrite E.
  rewrite bindex_last; [reflexivity|]. rewrite firstn_length. lia.
Qed.
Lemma slices_cut f rs ps qs ib : cuts f rs ps qs -> length ib = b ->
  (forall r q, In (r, q) (combine rs qs) -> length (shape q) = b + r -> within (firstn b (shape q)) (bx (firstn b (shape q)) ib)) ->
  Forall2 same_arr (slices V rs qs ib) (slices V rs ps (i ++ ib)).
Proof.
  intros C Lb. induction C as [|f r p q rs ps qs H C IH|f r p q rs ps qs H C IH]; intros W; [constructor| |];
    unfold slices in *; cbn [combine map fst snd]; (constructor; [|apply IH; intros r' q' K; apply W; now right]).
  - apply slice_long; [assumption|assumption|]. apply (W r q); [now left|apply H].
  - now apply slice_short.
Qed.
Lemma event_cut f rs ps qs : cuts f rs ps qs ->
  map (fun rp : nat * arr V => skipn (part V (fst rp) (snd rp)) (shape (snd rp))) (combine rs ps) =
  map (fun rp : nat * arr V => skipn (part V (fst rp) (snd rp)) (shape (snd rp))) (combine rs qs).
Proof.
  induction 1 as [|f r p q rs ps qs [S1 [S2 _]] _ IH|f r p q rs ps qs [S1 [S2 _]] _ IH]; [reflexivity| |];
    cbn [combine map fst snd]; (f_equal; [|exact IH]); unfold part; rewrite S1; [|reflexivity].
  rewrite app_length, S2. rewrite skipn_app, (skipn_all2 s) by lia. cbn [app]. f_equal. lia.
Qed.
Lemma value_cut r p q (B : list nat) : length B = b -> (long r p q \/ short r p q) ->
  match (if length (shape q) <? r then None else bshape (firstn (part V r q) (shape q)) B) with
  | Some D => (if length (shape p) <? r then None else bshape (firstn (part V r p) (shape p)) (s ++ B)) = Some (s ++ D) /\
      length D = b /\ covers B D /\
      forall ib, within D ib -> same_arr (slice V r q ib) (slice V r p (i ++ ib))
  | None => (if length (shape p) <? r then None else bshape (firstn (part V r p) (shape p)) (s ++ B)) = None
  end.
Proof.
  intros LB [H|H]; pose proof H as [S1 [S2 E]]; unfold part; rewrite S1.
  - rewrite app_length, S2. destruct (Nat.ltb_spec (b + r) r) as [L|_]; [lia|]. destruct (Nat.ltb_spec (length s + (b + r)) r) as [L|_]; [lia|].
    replace (b + r - r) with b by lia. replace (length s + (b + r) - r) with (length s + b) by lia. rewrite firstn_app_2.
    assert (Lf : length (firstn b (shape q)) = b) by (rewrite firstn_length; lia).
    rewrite bshape_both by lia. rewrite bshape_eq by lia. destruct (bzip (firstn b (shape q)) B) as [D|] eqn:ED; [|reflexivity]. cbn [option_map].
    destruct (bzip_length _ _ _ ED) as [_ LD]. destruct (bzip_covers _ _ _ ED) as [C1 C2]. split; [reflexivity|]. split; [lia|]. split; [exact C2|].
    intros ib W. apply slice_long; [assumption|rewrite <- (within_length _ _ W); lia|]. exact (bx_within _ _ _ C1 W).
  - destruct (Nat.ltb_spec (length (shape q)) r) as [L|L]; [reflexivity|].
    set (h := firstn (length (shape q) - r) (shape q)). assert (Lh : length h <= b) by (unfold h; rewrite firstn_length; lia).
    rewrite bshape_more_r by lia. destruct (bshape h B) as [D|] eqn:ED; [|reflexivity]. cbn [option_map].
    destruct (bshape_cover_r h B D ltac:(lia) ED) as [LD C]. split; [reflexivity|]. split; [lia|]. split; [exact C|].
    intros ib W. apply slice_short; [assumption|]. rewrite <- (within_length _ _ W). lia.
Qed.
Lemma same_sym (x y : arr V) : same_arr x y -> same_arr y x.
Proof. intros [H1 H2]. split; [now symmetry|]. intros idx W. symmetry. apply H2. now rewrite H1. Qed.
Lemma cut_restricts F ps qs : lawful V F -> cuts true (pranks V F) ps qs -> restricts V F b i ps qs.
Proof.
  intros [HF1 [HF2 [HF3 _]]] C.
  assert (G := batch_cut _ _ _ _ C). assert (Li := within_length _ _ inside). unfold restricts, lib_mean, lib_entropy, lib_log_prob.
  destruct (lib_batch V (pranks V F) qs) as [B|] eqn:EB.
  2:{ rewrite G. repeat split. }
  destruct G as [_ [LB [-> G]]]. specialize (LB eq_refl).
  assert (SL : forall D ib, covers B D -> within D ib -> Forall2 same_arr (slices V (pranks V F) qs ib) (slices V (pranks V F) ps (i ++ ib))).
  { intros D ib CD W. apply (slices_cut true); [assumption| |].
    - rewrite <- (within_length _ _ W), <- (covers_length _ _ CD). assumption.
    - intros r q K Hl. exact (bx_within _ _ _ (covers_trans _ _ _ (G r q K Hl) CD) W). }
  split; [rewrite app_length; split; [lia|]; symmetry; now apply skipn_len|]. split; [|split; [|split]].
  - cbn [front_of]. split; unfold at_front; cbn [shape at_].
    + rewrite <- app_assoc, skipn_len by assumption. f_equal. symmetry. exact (f_equal (eshape V F) (event_cut _ _ _ _ C)).
    + intros idx W. destruct (within_split _ _ _ W) as [W1 W2]. rewrite app_length, Li.
      rewrite firstn_app_2, skipn_app, (skipn_all2 i) by lia. cbn [app].
      replace (length i + length B - length i) with (length B) by lia. apply HF2. exact (SL B _ (covers_refl B) W1).
  - cbn [front_of]. split; unfold at_front; cbn [shape at_]; [symmetry; now apply skipn_len|].
    intros idx W. apply HF3. exact (SL B _ (covers_refl B) W).
  - intros v B0 EB0 Lv Ev. injection EB0 as <-. rewrite <- Li in Ev. rewrite (firstn_len s B) in Ev by reflexivity.
    assert (Hv : long (erank V F) v (at_front V i v)).
    { unfold at_front. split; [|split]; cbn [shape at_].
      - rewrite <- Ev at 1. rewrite <- Li. symmetry. apply firstn_skipn.
      - rewrite skipn_length, Lv, app_length. lia.
      - reflexivity. }
    assert (Q := value_cut (erank V F) v (at_front V i v) B LB (or_introl Hv)). revert Q.
    destruct (length (shape (at_front V i v)) <? erank V F); [intros Q; destruct (length (shape v) <? erank V F); [exact Logic.I|now rewrite Q]|].
    destruct (bshape (firstn (part V (erank V F) (at_front V i v)) (shape (at_front V i v))) B) as [D|];
      [|intros Q; destruct (length (shape v) <? erank V F); [exact Logic.I|now rewrite Q]].
    destruct (length (shape v) <? erank V F); [intros [Q _]; discriminate|]. intros [-> [LD [CD Q]]]. cbn [front_of].
    split; unfold at_front at 1; cbn [shape at_]; [symmetry; now apply skipn_len|].
    intros idx W. apply HF1; [exact (SL D _ CD W)|now apply Q].
  - intros v Lv.
    assert (Hv : short (erank V F) v v) by (split; [reflexivity|split; [assumption|reflexivity]]).
    assert (Q := value_cut (erank V F) v v B LB (or_intror Hv)). revert Q.
    destruct (length (shape v) <? erank V F); [intros _; exact Logic.I|].
    destruct (bshape (firstn (part V (erank V F) v) (shape v)) B) as [D|]; [|intros ->; exact Logic.I].
    intros [-> [LD [CD Q]]]. cbn [front_of].
    split; unfold at_front at 1; cbn [shape at_]; [symmetry; now apply skipn_len|].
    intros idx W. apply HF1; [exact (SL D _ CD W)|now apply Q].
Qed.
End Cut.

Section Unbinding.
Variable V : Type.
Variable order : list (nat * nat) -> list (nat * nat).
Hypothesis any : forall l, Permutation (order l) l.
Notation narr := (narr V).
Notation nsizes := (nsizes V).
Notation nshape := (nshape V).
Notation nelt := (nelt V).
Notation AArr := (AArr V).
Notation ANum := (ANum V).
Notation proper := (proper V).
Notation ranked := (ranked V).
Notation to_named := (to_named V).
Notation member := (member V).
Notation cuts := (cuts V).

Definition big (x : arg V) : bool := match x with DistModel.AArr _ a => match nshape a with [] => false | _ => true end | _ => false end.
Lemma big_spec args : Exists (batched V) args -> existsb big args = true.
Proof.
  induction 1 as [x l H|x l _ IH]; cbn [existsb]; [|now rewrite IH, orb_true_r]. destruct x as [v|a]; [destruct H|]. cbn in H |- *. now destruct (nshape a).
Qed.
Lemma list_eqb_true a c : list_eqb a c = true -> a = c.
Proof. unfold list_eqb. destruct (list_eq_dec Nat.eq_dec a c); [trivial|discriminate]. Qed.
Lemma validate_inv k seen sh s : validate k seen sh = Ok s -> (forall s0, seen = Some s0 -> length s0 = k) ->
  k <= length sh /\ firstn k sh = s /\ length s = k /\ forall s0, seen = Some s0 -> s0 = s.
Proof.
  unfold validate. destruct (Nat.ltb_spec (length sh) k) as [L|L]; [discriminate|]. intros E H.
  set (c := match seen with Some b => b | None => firstn k sh end) in *.
  assert (Lc : length c = k) by (unfold c; destruct seen as [s0|]; [now apply H|rewrite firstn_length; lia]).
  destruct ((length sh <? length c) || negb (list_eqb (firstn (length c) sh) c)) eqn:K; [discriminate|]. injection E as <-.
  apply orb_false_elim in K. destruct K as [_ K]. apply negb_false_iff, list_eqb_true in K. rewrite Lc in K.
  split; [assumption|]. split; [assumption|]. split; [assumption|]. intros s0 E. subst c. now rewrite E.
Qed.
Lemma index_inv (a r : narr) names : index_names V a 0 names = Ok r ->
  length names <= length (nshape a) /\ nshape r = skipn (length names) (nshape a) /\
  (forall env idx, nelt r env idx = nelt a env (map env names ++ idx)) /\
  add_sizes (nsizes a) (combine names (nshape a)) = Ok (nsizes r).
Proof.
  unfold index_names. destruct (Nat.ltb_spec (length (nshape a)) (0 + length names)) as [L|L]; [discriminate|]. cbn [skipn firstn app Nat.add].
  destruct (add_sizes (nsizes a) (combine names (nshape a))) as [m| | | | |]; try discriminate. cbn [bindr]. intros E. injection E as <-. cbn. auto.
Qed.
Lemma to_named_cuts l names b args : forall rs seen args', to_named l names seen args = Ok args' ->
  (forall s0, seen = Some s0 -> length s0 = length names) -> Forall2 (ranked l (length names) b) rs args ->
  exists s, length s = length names /\ (forall s0, seen = Some s0 -> s0 = s) /\ starts V s args /\
    forall env, cuts s (map env names) b (existsb big args) rs (member env args) (member env args').
Proof.
  induction args as [|x args IH]; intros rs seen args' E HS R; inversion R as [|r ? rs' ? Hr R']; subst.
  { cbn in E. injection E as <-. exists (match seen with Some s => s | None => repeat 0 (length names) end).
    split; [destruct seen; [now apply HS|now rewrite repeat_length]|]. split; [intros s0 ->; reflexivity|]. split; [intros a []|]. intros env. constructor. }
  cbn [to_named UnbModel.to_named] in E. destruct x as [v|a].
  - destruct (to_named l names seen args) as [rest| | | | |] eqn:ER; try discriminate. cbn [bindr] in E. injection E as <-.
    destruct (IH rs' seen rest ER HS R') as [s [L [HH [HP C]]]]. exists s. split; [assumption|]. split; [assumption|]. split.
    { intros a [K|K]; [discriminate|]. now apply HP. }
    intros env. cbn [existsb big orb DistSpec.member map]. apply cuts_short; [|apply C].
    split; [reflexivity|]. split; [cbn; lia|reflexivity].
  - destruct Hr as [Hr Hn]. destruct (indexed V l a) eqn:EI.
    + destruct (validate (length names) seen (nshape a)) as [s1| | | | |] eqn:EV; try discriminate. cbn [bindr] in E.
      destruct (index_names V a 0 names) as [r1| | | | |] eqn:EN; try discriminate. cbn [bindr] in E.
      destruct (to_named l names (Some s1) args) as [rest| | | | |] eqn:ER; try discriminate. cbn [bindr] in E. injection E as <-.
      destruct (validate_inv _ _ _ _ EV HS) as [V1 [V2 [V3 V4]]]. destruct (index_inv _ _ _ EN) as [I1 [I2 [I3 _]]].
      destruct (IH rs' (Some s1) rest ER) as [s [L [HH [HP C]]]]; [intros s0 K; now injection K as <-|assumption|].
      assert (Q : s1 = s) by now apply HH. rewrite Q in V2, V4. clear HH Q. exists s. split; [assumption|]. split; [exact V4|].
      assert (Hr' : length (nshape a) = length names + b + r).
      { destruct Hr as [Hr|[-> [Hr _]]]; [assumption|]. cbn in EI. destruct (nsizes a); [rewrite Hr in EI|]; discriminate. }
      split. { intros a' [K|K] K'; [injection K as <-; now rewrite L|now apply HP]. }
      intros env. cbn [DistSpec.member map existsb].
      assert (G : long V s (map env names) b r (arg_at V env (AArr a)) (arg_at V env (AArr r1))).
      { cbn [arg_at]. unfold at_env. split; [|split]; cbn [shape at_].
        - rewrite I2, <- V2. now rewrite firstn_skipn.
        - rewrite I2, skipn_length. lia.
        - intros e _. apply I3. }
      destruct (big (AArr a)) eqn:EB; cbn [orb]; [exact (cuts_long _ _ _ _ _ r _ _ _ _ _ G (C env))|].
      cbn in EB. destruct (nshape a) as [|d sh] eqn:ES; [|discriminate]. apply cuts_short; [|apply C].
      assert (names = []) by (destruct names; [reflexivity|cbn in Hr'; lia]). subst names. cbn in I2.
      split; [|split]; cbn [arg_at at_env shape at_].
      * now rewrite I2, ES.
      * rewrite I2. cbn. lia.
      * intros e. now rewrite I3.
    + destruct (to_named l names seen args) as [rest| | | | |] eqn:ER; try discriminate. cbn [bindr] in E. injection E as <-.
      destruct (IH rs' seen rest ER HS R') as [s [L [HH [HP C]]]]. exists s. split; [assumption|]. split; [assumption|].
      unfold indexed in EI. destruct l; [|discriminate]. rewrite (Hn eq_refl) in EI. destruct (nshape a) as [|d sh] eqn:ES; [|discriminate].
      split. { intros a' [K|K] K'; [injection K as <-; contradiction|now apply HP]. }
      intros env. cbn [DistSpec.member map existsb big]. rewrite ES. cbn [orb].
      apply cuts_short; [|apply C]. split; [reflexivity|]. split; [cbn; rewrite ES; cbn; lia|reflexivity].
Qed.
Lemma finish_inv l F args new r : finish V l F args new = Ok r -> r = new.
Proof.
  destruct l; cbn [finish]; [congruence|]. destruct (pyro_event V F new); try discriminate. cbn [bindr].
  destruct (pyro_event V F args); try discriminate. cbn [bindr]. destruct (list_eqb _ _); congruence.
Qed.
Lemma none_restricts F b i s f ps qs : cuts s i b f (pranks V F) ps qs -> lib_batch V (pranks V F) ps = None -> restricts V F b i ps qs.
Proof.
  intros C E. assert (G := batch_cut V s i b _ _ _ _ C). unfold restricts, lib_mean, lib_entropy, lib_log_prob.
  destruct (lib_batch V (pranks V F) qs) as [B|]; [destruct G as [_ [_ [G _]]]; rewrite E in G; discriminate|]. rewrite E. repeat split.
Qed.

Theorem unbind_law l F args names args' b env : lawful V F -> all_ranked V l (length names) b F args -> unbind V l F args names = Ok args' ->
  (forall A, lib_batch V (pranks V F) (member env args) = Some A -> within (firstn (length names) A) (map env names)) ->
  restricts V F b (map env names) (member env args) (member env args').
Proof.
  intros HF [R X] E W. unfold unbind in E. destruct (to_named l names None args) as [new| | | | |] eqn:EN; try discriminate. cbn [bindr] in E.
  apply finish_inv in E. subst new. destruct (to_named_cuts l names b args (pranks V F) None args' EN) as [s [L [_ [_ C]]]]; [discriminate|assumption|].
  specialize (C env). rewrite (big_spec _ X) in C. assert (G := batch_cut _ _ _ _ _ _ _ _ C).
  destruct (lib_batch V (pranks V F) (member env args)) as [A|] eqn:EA; [|exact (none_restricts _ _ _ _ _ _ _ C EA)].
  destruct (lib_batch V (pranks V F) (member env args')) as [B|]; [|discriminate]. destruct G as [_ [_ [G _]]]. injection G as ->.
  specialize (W _ eq_refl). rewrite firstn_len in W by assumption. now apply (cut_restricts V s).
Qed.

(** ** When it succeeds *)
Lemma combine_firstn (names sh : list nat) : combine names (firstn (length names) sh) = combine names sh.
Proof. revert sh. induction names as [|n names IH]; intros [|d sh]; cbn; try reflexivity. now rewrite IH. Qed.
Lemma combine_fst (a c : list nat) : length a <= length c -> map fst (combine a c) = a.
Proof. revert c. induction a as [|x a IH]; intros [|y c]; cbn; intros H; try reflexivity; [lia|]. f_equal. apply IH. lia. Qed.
Lemma to_named_ok l names s b args : length s = length names -> forall rs seen,
  Forall2 (ranked l (length names) b) rs args -> fresh V names args -> starts V s args -> (seen = None \/ seen = Some s) ->
  exists args', to_named l names seen args = Ok args' /\
    Forall2 (fun x y => match x, y with
      | DistModel.AArr _ a, DistModel.AArr _ a' => nsizes a' = if indexed V l a then nsizes a ++ combine names s else nsizes a
      | DistModel.ANum _ _, DistModel.ANum _ _ => True
      | _, _ => False end) args args'.
Proof.
  intros L. induction args as [|x args IH]; intros rs seen R FR ST HS; inversion R as [|r ? rs' ? Hr R']; subst.
  { exists []. split; [reflexivity|constructor]. }
  assert (FR' : fresh V names args) by (destruct FR as [N FR]; split; [assumption|]; intros a n d H; apply FR; now right).
  assert (ST' : starts V s args) by (intros a H; apply ST; now right).
  cbn [UnbModel.to_named]. destruct x as [v|a].
  - destruct (IH rs' seen R' FR' ST' HS) as [args' [E Q]]. rewrite E. cbn [bindr]. eexists. split; [reflexivity|]. constructor; [exact Logic.I|assumption].
  - destruct (indexed V l a) eqn:EI.
    + destruct Hr as [Hr _]. assert (Hr' : length (nshape a) = length names + b + r).
      { destruct Hr as [Hr|[-> [Hr _]]]; [assumption|]. cbn in EI. destruct (nsizes a); [rewrite Hr in EI|]; discriminate. }
      assert (Es : firstn (length names) (nshape a) = s).
      { destruct (nshape a) as [|d sh] eqn:ES.
        - cbn in Hr'. assert (names = []) by (destruct names; [reflexivity|cbn in Hr'; lia]). subst names. destruct s; [reflexivity|discriminate].
        - rewrite <- ES, <- L. apply ST; [now left|]. congruence. }
      assert (EV : validate (length names) seen (nshape a) = Ok s).
      { unfold validate. destruct (Nat.ltb_spec (length (nshape a)) (length names)) as [K|_]; [lia|].
        replace (match seen with Some c => c | None => firstn (length names) (nshape a) end) with s by (destruct HS as [-> | ->]; [now symmetry|reflexivity]).
        rewrite L, Es, list_eqb_refl. destruct (Nat.ltb_spec (length (nshape a)) (length names)) as [K|_]; [lia|]. reflexivity. }
      rewrite EV. cbn [bindr]. unfold index_names. destruct (Nat.ltb_spec (length (nshape a)) (0 + length names)) as [K|_]; [lia|]. cbn [skipn].
      rewrite <- combine_firstn, Es. rewrite add_sizes_new.
      * cbn [bindr]. destruct (IH rs' (Some s) R' FR' ST' (or_intror eq_refl)) as [args' [E Q]]. rewrite E. cbn [bindr]. eexists. split; [reflexivity|].
        constructor; [|assumption]. rewrite EI. reflexivity.
      * rewrite combine_fst by lia. apply FR.
      * intros n H K. rewrite combine_fst in H by lia. apply in_map_iff in K. destruct K as [[n' d] [Q K]]. cbn in Q. subst n'.
        exact (proj2 FR a n d (or_introl eq_refl) K H).
    + destruct (IH rs' seen R' FR' ST' HS) as [args' [E Q]]. rewrite E. cbn [bindr]. eexists. split; [reflexivity|]. constructor; [|assumption]. now rewrite EI.
Qed.
Lemma member_0 args : map (arg_at V (fun _ => 0)) args = member (fun _ => 0) args.
Proof. reflexivity. Qed.
Theorem unbind_succeeds l F args names s b : length s = length names -> all_ranked V l (length names) b F args ->
  fresh V names args -> starts V s args -> lib_batch V (pranks V F) (member (fun _ => 0) args) <> None ->
  exists args', unbind V l F args names = Ok args' /\
    forall p, has_size V args' p <-> has_size V args p \/ In p (combine names s).
Proof.
  intros L [R X] FR ST HB. destruct (to_named_ok l names s b args L (pranks V F) None R FR ST (or_introl eq_refl)) as [args' [E Q]].
  exists args'. split.
  - unfold unbind. rewrite E. cbn [bindr]. destruct l; [reflexivity|]. cbn [finish].
    destruct (to_named_cuts _ _ _ _ _ _ _ E ltac:(discriminate) R) as [s' [_ [_ [_ C]]]]. specialize (C (fun _ => 0)).
    assert (G := batch_cut _ _ _ _ _ _ _ _ C). assert (G2 := event_cut _ _ _ _ _ _ _ _ C). unfold pyro_event. cbv zeta. rewrite !member_0.
    destruct (lib_batch V (pranks V F) (member (fun _ => 0) args')) as [B|]; [|contradiction]. destruct G as [_ [_ [G _]]].
    rewrite G. cbn [bindr]. unfold lib_event. rewrite G2, list_eqb_refl. reflexivity.
  - clear E. intros p.
    assert (A1 : forall a', In (AArr a') args' -> exists a, In (AArr a) args /\ nsizes a' = if indexed V l a then nsizes a ++ combine names s else nsizes a).
    { clear - Q. induction Q as [|x y xs ys H _ IH]; intros a' []; [subst y|destruct (IH a' H0) as [a [K1 K2]]; exists a; split; [now right|assumption]].
      destruct x as [|a]; [contradiction|]. exists a. split; [now left|assumption]. }
    assert (A2 : forall a, In (AArr a) args -> exists a', In (AArr a') args' /\ nsizes a' = if indexed V l a then nsizes a ++ combine names s else nsizes a).
    { clear - Q. induction Q as [|x y xs ys H _ IH]; intros a []; [subst x|destruct (IH a H0) as [a' [K1 K2]]; exists a'; split; [now right|assumption]].
      destruct y as [|a']; [contradiction|]. exists a'. split; [now left|assumption]. }
    split.
    + intros [a' [H1 H2]]. destruct (A1 a' H1) as [a [K1 K2]]. rewrite K2 in H2. destruct (indexed V l a); [|left; now exists a].
      apply in_app_iff in H2. destruct H2 as [H2|H2]; [left; now exists a|now right].
    + intros [[a [H1 H2]]|H].
      * destruct (A2 a H1) as [a' [K1 K2]]. exists a'. split; [assumption|]. rewrite K2. destruct (indexed V l a); [apply in_app_iff; now left|assumption].
      * assert (Hx : exists a, In (AArr a) args /\ nshape a <> [] /\ (l = NumPyro -> nsizes a = [])).
        { clear - R X. induction R as [|r x rs args Hr R IH]; [inversion X|]. apply Exists_cons in X. destruct X as [X|X].
          - destruct x as [|a]; [destruct X|]. exists a. split; [now left|]. split; [exact X|]. apply Hr.
          - destruct (IH X) as [a [K1 K2]]. exists a. split; [now right|assumption]. }
        destruct Hx as [a [H1 [H2 H3]]]. destruct (A2 a H1) as [a' [K1 K2]]. exists a'. split; [assumption|]. rewrite K2.
        replace (indexed V l a) with true; [apply in_app_iff; now right|]. unfold indexed. destruct l; [|reflexivity]. rewrite (H3 eq_refl).
        destruct (nshape a); [contradiction|reflexivity].
Qed.
End Unbinding.
