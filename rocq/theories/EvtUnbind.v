(** Proofs about naming and unnaming the leading batch axes of [to_event] terms. *)
From Coq Require Import List Bool Arith Lia Permutation.
From Verif Require Import ArrModel ArrSpec ArrProofs ArrNames ArrBind ArrUnbind DistModel DistSpec DistProofs DistBatch DistBridge DistLaws.
From Verif Require Import UnbModel UnbSpec UnbProofs UnbLaws EvtModel EvtSpec.
Import ListNotations.

Section Proofs.
Variable V : Type.
Variable order : list (nat * nat) -> list (nat * nat).
Hypothesis any : forall l, Permutation (order l) l.
Variable total : list nat -> (list nat -> V) -> V.
Hypothesis Hsum : sums V total.
Notation plain := (plain V total).
Notation pos := (pos V).

(** The density has a batch axis for each of the distribution's. *)
Definition regular (p : pos) : Prop :=
  forall v w, length (shape v) = length (pbatch V p) + length (pevent V p) -> plog V p v = Some w -> length (shape w) = length (pbatch V p).
Definition mean_shape (p : pos) : Prop := shape (pmean V p) = pbatch V p ++ pevent V p.

Lemma skip_len_le {A} (l : list A) k : length (skipn k l) = length l - k.
Proof. apply skipn_length. Qed.
Lemma firstn_skip {A} (l : list A) k j : firstn j (skipn k l) = skipn k (firstn (k + j) l).
Proof. revert l. induction k as [|k IH]; intros l; [reflexivity|]. destruct l; cbn [skipn Nat.add firstn]; [now rewrite firstn_nil|apply IH]. Qed.
Lemma skip_skip {A} (l : list A) k j : skipn j (skipn k l) = skipn (k + j) l.
Proof. revert l. induction k as [|k IH]; intros l; [reflexivity|]. destruct l; cbn [skipn Nat.add]; [now rewrite skipn_nil|apply IH]. Qed.

Lemma base_cut F b i ps qs p : lawful V F -> restricts V F b i ps qs -> lib_pos V F ps = Some p -> exists q, lib_pos V F qs = Some q /\ cut_of V i p q.
Proof.
  intros [_ [_ [_ HE]]] [R1 [R2 [_ [R4 _]]]] Hp. unfold lib_pos in Hp |- *. destruct (lib_batch V (pranks V F) ps) as [A|] eqn:EA; [|discriminate].
  destruct (lib_batch V (pranks V F) qs) as [B|] eqn:EB; [|contradiction]. destruct R1 as [LA EQ]. subst B.
  assert (MA : exists a, lib_mean V F ps = Some a /\ shape a = A ++ lib_event V F ps) by (unfold lib_mean; rewrite EA; eexists; split; reflexivity).
  assert (MB : exists a, lib_mean V F qs = Some a /\ shape a = skipn (length i) A ++ lib_event V F qs) by (unfold lib_mean; rewrite EB; eexists; split; reflexivity).
  destruct MA as [a [Ea Sa]]. destruct MB as [c [Ec Sc]]. rewrite Ea in Hp, R2. rewrite Ec in R2 |- *. cbn [front_of] in R2. injection Hp as <-.
  eexists. split; [reflexivity|]. unfold cut_of. cbn [pbatch pevent pmean plog]. split; [lia|]. split; [reflexivity|].
  assert (EV : lib_event V F qs = lib_event V F ps).
  { destruct R2 as [R2 _]. unfold at_front in R2. cbn [shape] in R2. rewrite Sa, Sc, skipn_app in R2.
    replace (length i - length A) with 0 in R2 by lia. cbn [skipn] in R2. exact (app_inv_head _ _ _ R2). }
  split; [assumption|]. split; [assumption|]. intros v Hl Hf. apply (R4 v A eq_refl); [|assumption].
  rewrite Hl. f_equal. apply HE.
Qed.
Lemma bzip_len a b c : bzip a b = Some c -> length c = length a.
Proof. intros H. apply bzip_length in H. lia. Qed.
Lemma base_regular F ps p : lawful V F -> lib_pos V F ps = Some p -> regular p /\ mean_shape p.
Proof.
  intros [_ [_ [_ HE]]] Hp. unfold lib_pos in Hp. destruct (lib_batch V (pranks V F) ps) as [A|] eqn:EA; [|discriminate].
  destruct (lib_mean V F ps) as [a|] eqn:Ea; [|discriminate]. injection Hp as <-. split.
  - intros v w. cbn [pbatch pevent plog]. unfold lib_event. rewrite HE. intros Hl Hw. unfold lib_log_prob in Hw. rewrite EA in Hw.
    destruct (length (shape v) <? erank V F); [discriminate|]. unfold part in Hw.
    destruct (bshape (firstn (length (shape v) - erank V F) (shape v)) A) as [c|] eqn:Ec; [|discriminate]. injection Hw as <-. cbn [shape].
    assert (L : length (firstn (length (shape v) - erank V F) (shape v)) = length A) by (rewrite firstn_length; lia).
    assert (K := bshape_prefix [] _ A L). cbn [app] in K. rewrite Ec in K. destruct (bzip (firstn (length (shape v) - erank V F) (shape v)) A) as [z|] eqn:Ez; [|discriminate].
    injection K as ->. apply bzip_len in Ez. lia.
  - unfold mean_shape. cbn [pbatch pevent pmean]. unfold lib_mean in Ea. rewrite EA in Ea. injection Ea as <-. reflexivity.
Qed.

Lemma event_cut i p q n p' : cut_of V i p q -> regular p -> mean_shape p -> lib_to_event V total n p = Some p' -> length i <= length (pbatch V p') ->
  (exists q', lib_to_event V total n q = Some q' /\ cut_of V i p' q') /\ regular p' /\ mean_shape p'.
Proof.
  intros [C1 [C2 [C3 [C4 C5]]]] R M Hp Hl. unfold lib_to_event in Hp |- *. set (k := match n with Some k => k | None => length (pbatch V p) end) in *.
  destruct (Nat.ltb_spec (length (pbatch V p)) k) as [|Hk]; [discriminate|]. injection Hp as <-. cbn [pbatch] in Hl. rewrite firstn_length in Hl.
  assert (Lq : length (pbatch V q) = length (pbatch V p) - length i) by (rewrite C2; apply skipn_length).
  assert (Hkq : match n with Some k0 => k0 | None => length (pbatch V q) end = k).
  { subst k. destruct n; [reflexivity|]. lia. }
  rewrite Hkq. split; [|split].
  - destruct (Nat.ltb_spec (length (pbatch V q)) k); [lia|]. eexists. split; [reflexivity|]. unfold cut_of. cbn [pbatch pevent pmean plog].
    split; [rewrite firstn_length; lia|]. split; [|split; [|split; [assumption|]]].
    + rewrite Lq, C2, firstn_skip. f_equal. f_equal. lia.
    + rewrite Lq, C2, C3, skip_skip. f_equal. f_equal. lia.
    + intros v Hv Hf. rewrite app_length, firstn_length, skipn_length in Hv. rewrite firstn_firstn in Hf. replace (Nat.min (length i) (length (pbatch V p) - k)) with (length i) in Hf by lia.
      assert (Hv' : length (shape v) = length (pbatch V p) + length (pevent V p)) by lia. specialize (C5 v Hv' Hf).
      destruct (plog V p v) as [w|] eqn:Ew; destruct (plog V q (at_front V i v)) as [w'|] eqn:Ew'; cbn [option_map front_of] in C5 |- *; try contradiction; [|exact Logic.I].
      assert (Lw := R v w Hv' Ew). destruct C5 as [S5 A5]. unfold at_front in S5. cbn [shape] in S5.
      assert (Lw' : length (shape w') = length (shape w) - length i) by (rewrite S5; apply skipn_length).
      unfold sum_last, at_front. split; cbn [shape at_].
      * rewrite Lw', S5, firstn_skip. f_equal. f_equal. lia.
      * intros idx Wi. rewrite Lw', S5, skip_skip. replace (length i + (length (shape w) - length i - k)) with (length (shape w) - k) by lia.
        apply Hsum. intros j Wj. rewrite <- app_assoc. rewrite A5; [reflexivity|]. rewrite <- (firstn_skipn (length (shape w') - k) (shape w')).
        apply within_app; [assumption|]. rewrite Lw', S5, skip_skip. replace (length i + (length (shape w) - length i - k)) with (length (shape w) - k) by lia. exact Wj.
  - intros v w. cbn [pbatch pevent plog]. intros Hv Hw. rewrite app_length, firstn_length, skipn_length in Hv.
    destruct (plog V p v) as [w0|] eqn:Ew; cbn [option_map] in Hw; [|discriminate]. injection Hw as <-. unfold sum_last. cbn [shape]. rewrite !firstn_length.
    rewrite (R v w0); [lia|lia|assumption].
  - unfold mean_shape in *. cbn [pbatch pevent pmean]. rewrite M. now rewrite app_assoc, firstn_skipn.
Qed.

Lemma unbind_event b d names d' : nameable V (length names) b d -> tunbind V d names = Ok d' -> forall env p, plain env d = Some p ->
  length names <= length (pbatch V p) -> within (firstn (length names) (pbatch V p)) (map env names) ->
  (exists q, plain env d' = Some q /\ cut_of V (map env names) p q) /\ regular p /\ mean_shape p.
Proof.
  revert d'. induction d as [F args|d IH n]; intros d' G H env p Hp Hl Hw; cbn [tunbind] in H.
  - destruct G as [G1 G2]. destruct (unbind V NumPyro F args names) as [args'| | | | |] eqn:Hu; try discriminate. cbn [bindr] in H. injection H as <-.
    cbn [EvtSpec.plain] in Hp |- *. split; [|exact (base_regular F _ p G1 Hp)].
    apply (base_cut F b (map env names) (member V env args) _ p G1); [|exact Hp].
    apply (unbind_law V NumPyro F args names args' b env G1 G2 Hu). intros A HA. unfold lib_pos in Hp. rewrite HA in Hp.
    destruct (lib_mean V F (member V env args)); [|discriminate]. injection Hp as <-. exact Hw.
  - destruct (tunbind V d names) as [d0| | | | |] eqn:Hu; try discriminate. cbn [bindr] in H. injection H as <-. cbn [EvtSpec.plain] in Hp |- *.
    destruct (plain env d) as [p0|] eqn:E0; [|discriminate].
    assert (HL : exists k, pbatch V p = firstn k (pbatch V p0)).
    { unfold lib_to_event in Hp. destruct (_ <? _); [discriminate|]. injection Hp as <-. cbn [pbatch]. eauto. }
    destruct HL as [k HL].
    destruct (IH d0 G eq_refl env p0 E0) as [[q0 [Eq C]] [R M]].
    { rewrite HL, firstn_length in Hl. lia. }
    { rewrite HL, firstn_firstn in Hw. rewrite HL, firstn_length in Hl. now replace (Nat.min (length names) k) with (length names) in Hw by lia. }
    destruct (event_cut _ p0 q0 n p C R M Hp) as [[q [Q1 Q2]] RM]; [now rewrite map_length|].
    split; [|exact RM]. exists q. rewrite Eq. auto.
Qed.
Theorem unbind_event_law b d names d' env p : nameable V (length names) b d -> tunbind V d names = Ok d' -> plain env d = Some p ->
  length names <= length (pbatch V p) -> within (firstn (length names) (pbatch V p)) (map env names) ->
  exists q, plain env d' = Some q /\ cut_of V (map env names) p q.
Proof. intros G H Hp Hl Hw. exact (proj1 (unbind_event b d names d' G H env p Hp Hl Hw)). Qed.

Notation arrays := (arrays V).
Lemma bind_event b m d names d' : good V b m d -> numbered V d -> arrays d -> tindices V d = Ok m -> NoDup names -> tbind V order d names = Ok d' ->
  forall env q, valid env m -> plain env d = Some q -> exists p, plain env d' = Some p /\ cut_of V (map env names) p q /\ regular p /\ mean_shape p.
Proof.
  revert d'. induction d as [F args|d IH n]; intros d' G N A Hm ND H env q W Hq; cbn [tbind] in H.
  - destruct G as [G1 [G2 G3]]. destruct (bind V order NumPyro F args names) as [args'| | | | |] eqn:Hb; try discriminate. cbn [bindr] in H. injection H as <-.
    cbn [EvtSpec.plain] in Hq |- *.
    assert (RS := bind_law V order any NumPyro F args names args' b m env G1 G2 G3 ND A Hb Hm W).
    destruct (lib_pos V F (member V env args')) as [p|] eqn:Ep.
    + exists p. split; [reflexivity|]. destruct (base_cut F b _ _ _ p G1 RS Ep) as [q' [E C]]. rewrite Hq in E. injection E as <-. split; [assumption|].
      exact (base_regular F _ p G1 Ep).
    + exfalso. destruct RS as [RS _]. unfold lib_pos in Hq, Ep. unfold lib_mean in Ep. destruct (lib_batch V (pranks V F) (member V env args')); [discriminate|].
      destruct (lib_batch V (pranks V F) (member V env args)); [contradiction|discriminate].
  - destruct (tbind V order d names) as [d0| | | | |] eqn:Hb; try discriminate. cbn [bindr] in H. injection H as <-. cbn [EvtSpec.plain] in Hq |- *.
    destruct G as [G _]. destruct N as [N1 N2]. destruct n as [k|]; [|congruence].
    destruct (plain env d) as [q0|] eqn:E0; [|discriminate].
    destruct (IH d0 G N2 A Hm ND eq_refl env q0 W E0) as [p0 [Ep [C [R M]]]]. rewrite Ep.
    assert (C' := C). destruct C' as [C1 [C2 _]].
    assert (Lq : length (pbatch V q0) = length (pbatch V p0) - length (map env names)) by (rewrite C2; apply skipn_length).
    assert (Hk : k <= length (pbatch V q0)).
    { unfold lib_to_event in Hq. destruct (Nat.ltb_spec (length (pbatch V q0)) k); [discriminate|lia]. }
    destruct (lib_to_event V total (Some k) p0) as [p|] eqn:Hp.
    + exists p. split; [reflexivity|]. destruct (event_cut _ p0 q0 _ p C R M Hp) as [[q' [Q1 Q2]] RM].
      { unfold lib_to_event in Hp. destruct (Nat.ltb_spec (length (pbatch V p0)) k); [discriminate|]. injection Hp as <-. cbn [pbatch]. rewrite firstn_length. lia. }
      rewrite Hq in Q1. injection Q1 as <-. auto.
    + exfalso. unfold lib_to_event in Hp. destruct (Nat.ltb_spec (length (pbatch V p0)) k); [lia|discriminate].
Qed.
Theorem bind_event_law b m d names d' env q : good V b m d -> numbered V d -> arrays d -> tindices V d = Ok m -> NoDup names -> tbind V order d names = Ok d' ->
  valid env m -> plain env d = Some q -> exists p, plain env d' = Some p /\ cut_of V (map env names) p q.
Proof. intros G N A Hm ND H W Hq. destruct (bind_event b m d names d' G N A Hm ND H env q W Hq) as [p [H1 [H2 _]]]. eauto. Qed.
End Proofs.
