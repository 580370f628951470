(** Proofs that the library's transformations are lawful. *)
From Coq Require Import List Bool Arith ZArith Lia.
From Verif Require Import ArrModel ArrSpec ArrProofs ArrNames ArrBind ArrUnbind NopModel NopSpec NopProofs FunModel FunSpec FunProofs FunLaws FunTrans.
Import ListNotations.

Section Inst.
Variable V : Type.

Lemma indexed_map (R : arr V -> arr V -> Prop) (f g : nat * arr V -> arr V) us vs : length us = length vs ->
  (forall i u v, nth_error us i = Some u -> nth_error vs i = Some v -> R (f (i, u)) (g (i, v))) ->
  Forall2 R (map f (combine (seq 0 (length us)) us)) (map g (combine (seq 0 (length vs)) vs)).
Proof.
  assert (G : forall s us vs, length us = length vs -> (forall i u v, nth_error us i = Some u -> nth_error vs i = Some v -> R (f (s + i, u)) (g (s + i, v))) ->
    Forall2 R (map f (combine (seq s (length us)) us)) (map g (combine (seq s (length vs)) vs))).
  { clear us vs. intros s us. revert s. induction us as [|u us IH]; intros s [|v vs] L H; try discriminate L; [constructor|]. cbn [length seq combine map]. constructor.
    - specialize (H 0 u v eq_refl eq_refl). rewrite Nat.add_0_r in H. exact H.
    - apply IH; [cbn in L; lia|]. intros i u' v' Hu Hv. specialize (H (S i) u' v' Hu Hv). rewrite Nat.add_succ_r in H. exact H. }
  exact (G 0 us vs).
Qed.

Lemma indexed_map1 (Q R : list nat -> arr V -> Prop) (f : nat * arr V -> arr V) szs us : Forall2 Q szs us -> (forall i sz u, Q sz u -> R sz (f (i, u))) ->
  Forall2 R szs (map f (combine (seq 0 (length us)) us)).
Proof. intros H HR. generalize 0. induction H as [|sz u szs us H1 H IH]; intros s; cbn [length seq combine map]; constructor; [apply HR; exact H1|apply IH]. Qed.
Lemma indexed_parts start (f g : nat * arr V -> arr V) poss us : length poss = length us ->
  (forall k is u, nth_error poss k = Some is -> nth_error us k = Some u -> same_arr (f (k, slice_at V 0 is u)) (slice_at V start is (g (k, u)))) ->
  Forall2 same_arr (map f (combine (seq 0 (length (parts V 0 poss us))) (parts V 0 poss us))) (parts V start poss (map g (combine (seq 0 (length us)) us))).
Proof.
  assert (G : forall s poss us, length poss = length us -> (forall k is u, nth_error poss k = Some is -> nth_error us k = Some u -> same_arr (f (s + k, slice_at V 0 is u)) (slice_at V start is (g (s + k, u)))) ->
    Forall2 same_arr (map f (combine (seq s (length (parts V 0 poss us))) (parts V 0 poss us))) (parts V start poss (map g (combine (seq s (length us)) us)))); [|exact (G 0 poss us)].
  clear poss us. intros s poss. revert s. induction poss as [|is poss IH]; intros s [|u us] L H; try discriminate L; [constructor|]. unfold parts. cbn [combine map length seq fst snd]. constructor.
  - specialize (H 0 is u eq_refl eq_refl). rewrite Nat.add_0_r in H. exact H.
  - apply (IH (S s) us); [cbn in L; lia|]. intros k is' u' H1 H2. specialize (H (S k) is' u' H1 H2). rewrite Nat.add_succ_r in H. exact H.
Qed.
Lemma parts_nth poss (os : list (arr V)) k is o : nth_error poss k = Some is -> nth_error os k = Some o -> forall start, nth_error (parts V start poss os) k = Some (slice_at V start is o).
Proof.
  intros Hk Ho start. unfold parts. rewrite nth_error_map. assert (Hc : nth_error (combine poss os) k = Some (is, o)); [|rewrite Hc; reflexivity].
  revert poss os Hk Ho. induction k as [|k IH]; intros [|p poss] [|q os] Hk Ho; try discriminate; cbn in *; [congruence|auto].
Qed.

Lemma related_shape (x y : option (list (arr V))) : related same_arr x y -> related same_shape x y.
Proof. destruct x, y; cbn [related]; auto. apply same_shapes. Qed.
Lemma related_shape_trans (x y z : option (list (arr V))) : related same_shape x y -> related same_shape y z -> related same_shape x z.
Proof. destruct x, y, z; cbn [related]; try contradiction; auto. apply same_shape_trans. Qed.
Lemma related_shape_sym (x y : option (list (arr V))) : related same_shape x y -> related same_shape y x.
Proof. destruct x, y; cbn [related]; auto. apply same_shape_sym. Qed.
Lemma called_shape T (xs us us' : list (arr V)) : called V T xs us -> called V T xs us' -> Forall2 same_shape us us'.
Proof. intros H H'. eapply same_shape_trans; [exact H|]. apply same_shape_sym. exact H'. Qed.

(** A function that agrees with one whose shapes follow the arguments has such shapes itself. *)
Lemma shaped_by T (F G : list (arr V) -> option (list (arr V))) xs us vs : shapely V G -> (forall us vs, called V T xs us -> Forall2 same_arr us vs -> related same_arr (F us) (G vs)) ->
  called V T xs us -> Forall2 same_shape us vs -> related same_shape (F us) (G vs).
Proof. intros Sh H Hu Hv. eapply related_shape_trans; [apply related_shape, (H us us Hu), same_arr_refl|]. apply Sh. exact Hv. Qed.
Lemma shaped_self T (F G : list (arr V) -> option (list (arr V))) xs us us' : shapely V G -> (forall us vs, called V T xs us -> Forall2 same_arr us vs -> related same_arr (F us) (G vs)) ->
  called V T xs us -> called V T xs us' -> related same_shape (F us) (F us').
Proof.
  intros Sh H Hu Hu'. eapply related_shape_trans; [apply (shaped_by T F G xs us us' Sh H Hu); eapply called_shape; eassumption|]. apply related_shape_sym, related_shape, (H us' us' Hu'), same_arr_refl.
Qed.

Lemma nth_at (os : list (arr V)) k o u : nth_error os k = Some u -> nth k os o = u.
Proof. intros H. apply nth_error_nth. exact H. Qed.

(** ** [vmap] *)
Lemma slice0_shape i (x : arr V) : shape (slice_at V 0 [i] x) = tl (shape x).
Proof. cbn [slice_at shape firstn length Nat.add app]. destruct (shape x); reflexivity. Qed.
Lemma slices_shape i j xs ys : Forall2 same_shape xs ys -> Forall2 same_shape (map (slice_at V 0 [i]) xs) (map (slice_at V 0 [j]) ys).
Proof. induction 1 as [|x y xs ys E H IH]; cbn [map]; constructor; [|exact IH]. unfold same_shape in *. rewrite !slice0_shape, E. reflexivity. Qed.
Lemma batch_shape xs ys : Forall2 same_shape xs ys -> batch V xs = batch V ys.
Proof.
  intros H. unfold batch. destruct H as [|x y xs ys E H]; [reflexivity|]. unfold same_shape in E. rewrite <- E. destruct (shape x) as [|d s] eqn:Es; [reflexivity|]. cbn [forallb]. rewrite <- E, Es.
  assert (F : forallb (fun z : arr V => match shape z with [] => false | e :: _ => e =? d end) xs = forallb (fun z : arr V => match shape z with [] => false | e :: _ => e =? d end) ys).
  { clear -H. induction H as [|x y xs ys E H IH]; [reflexivity|]. cbn [forallb]. unfold same_shape in E. rewrite E, IH. reflexivity. }
  rewrite F. reflexivity.
Qed.
Lemma batch_axes xs n : batch V xs = Some n -> Forall (fun x => exists s, shape x = n :: s) xs.
Proof.
  unfold batch. destruct xs as [|x xs]; [discriminate|]. destruct (shape x) as [|d s] eqn:Es; [discriminate|]. match goal with |- (if ?c then _ else _) = _ -> _ => destruct c eqn:E; [|discriminate] end.
  intros H. injection H as <-. rewrite forallb_forall in E. apply Forall_forall. intros z Hz. specialize (E z Hz). destruct (shape z) as [|e t]; [discriminate E|]. apply Nat.eqb_eq in E. subst. eauto.
Qed.
Lemma slices_same i n xs ys : i < n -> Forall (fun x => exists s, shape x = n :: s) xs -> Forall2 same_arr xs ys -> Forall2 same_arr (map (slice_at V 0 [i]) xs) (map (slice_at V 0 [i]) ys).
Proof.
  intros Hi F H. induction H as [|x y xs ys E H IH]; cbn [map]; constructor.
  - apply Forall_cons_iff in F. destruct F as [(s & Es) _]. apply (slice_same V 0 [i] x y [n]); [constructor; [exact Hi|constructor]|split; [lia|]; exists s; exact Es|exact E].
  - apply Forall_cons_iff in F. apply IH. exact (proj2 F).
Qed.
Lemma vmap_called d i xs : called V (torch_vmap V d) xs (map (slice_at V 0 [i]) xs).
Proof. unfold called. cbn [torch_vmap probe]. apply slices_shape, same_shape_refl. Qed.
Lemma leb0 (outs : list (arr V)) : forallb (fun o => Nat.leb 0 (length (shape o))) outs = true.
Proof. apply forallb_forall. reflexivity. Qed.

Lemma vmap_lawful : lawful_transform V (torch_vmap V 0) 1.
Proof.
  constructor.
  - intros F G xs ys Hxy Sh H. cbn [torch_vmap trans]. rewrite <- (batch_shape xs ys) by (apply same_shapes; exact Hxy). destruct (batch V xs) as [n|] eqn:Eb; [|exact Logic.I]. cbv zeta.
    pose proof (batch_axes xs n Eb) as Ax.
    pose proof (shaped_by (torch_vmap V 0) F G xs (map (slice_at V 0 [0]) xs) (map (slice_at V 0 [0]) ys) Sh H (vmap_called 0 0 xs) (slices_shape 0 0 xs ys (same_shapes V _ _ Hxy))) as S0.
    assert (Sf : forall i, related same_shape (F (map (slice_at V 0 [i]) xs)) (F (map (slice_at V 0 [0]) xs))) by (intros i; apply (shaped_self (torch_vmap V 0) F G xs); auto using vmap_called).
    assert (Sa : forall i, i < n -> related same_arr (F (map (slice_at V 0 [i]) xs)) (G (map (slice_at V 0 [i]) ys))) by (intros i Hi; apply H; [apply vmap_called|apply slices_same with (n := n); assumption]).
    destruct (F (map (slice_at V 0 [0]) xs)) as [us|] eqn:Eu, (G (map (slice_at V 0 [0]) ys)) as [vs|] eqn:Ev; try contradiction; [|exact Logic.I]. rewrite !leb0. cbn [related].
    apply indexed_map; [eapply Forall2_len; exact S0|]. intros k u v Hu Hv. cbn [fst snd insert_at firstn skipn app]. destruct (Forall2_nth _ _ _ _ _ S0 Hu) as (v' & Hv' & E). rewrite Hv in Hv'. injection Hv' as <-. unfold same_shape in E.
    split; cbn [shape at_]; [rewrite E; reflexivity|]. intros idx W. inversion W as [|? ? i rest Hi Wr]; subst. cbn [nth remove_at firstn skipn app]. specialize (Sa i Hi). specialize (Sf i).
    destruct (F (map (slice_at V 0 [i]) xs)) as [os|]; [|contradiction]. destruct (G (map (slice_at V 0 [i]) ys)) as [os'|]; [|contradiction]. cbn [related] in *.
    destruct (Forall2_nth _ _ _ _ _ (same_shape_sym V _ _ Sf) Hu) as (o & Ho & Eo). destruct (Forall2_nth _ _ _ _ _ Sa Ho) as (o' & Ho' & [_ Q]). rewrite (nth_at _ _ _ _ Ho), (nth_at _ _ _ _ Ho'). apply Q. unfold same_shape in Eo. rewrite <- Eo. exact Wr.
  - intros F Sh xs ys Hxy. cbn [torch_vmap trans]. rewrite <- (batch_shape xs ys Hxy). destruct (batch V xs) as [n|]; [|exact Logic.I]. cbv zeta. pose proof (Sh _ _ (slices_shape 0 0 xs ys Hxy)) as S0.
    destruct (F (map (slice_at V 0 [0]) xs)) as [us|], (F (map (slice_at V 0 [0]) ys)) as [vs|]; try contradiction; [|exact Logic.I]. rewrite !leb0. cbn [related].
    apply indexed_map; [eapply Forall2_len; exact S0|]. intros k u v Hu Hv. unfold same_shape. cbn [fst snd insert_at firstn skipn app shape]. destruct (Forall2_nth _ _ _ _ _ S0 Hu) as (v' & Hv' & E). rewrite Hv in Hv'. injection Hv' as <-. unfold same_shape in E. rewrite E. reflexivity.
  - intros xs ys H. apply slices_shape. exact H.
  - intros F xs H. cbn [torch_vmap trans]. destruct (batch V xs); [|reflexivity]. cbv zeta. rewrite (H _ (vmap_called 0 0 xs)). reflexivity.
  - intros F xs szs outs H E. cbn [torch_vmap trans] in E. destruct (batch V xs) as [n|]; [|discriminate E]. cbv zeta in E. destruct (F (map (slice_at V 0 [0]) xs)) as [us|] eqn:Eu; [|discriminate E]. rewrite leb0 in E. injection E as <-.
    specialize (H _ us (vmap_called 0 0 xs) Eu).
    apply indexed_map1 with (Q := prefixed V 0); [exact H|]. intros i sz u [_ (rest & P)]. cbn [fst snd insert_at firstn skipn app] in *. split; cbn [shape length]; [lia|]. exists rest. exact P.
  - intros F xs szs poss outs W Sh Re H E. cbn [torch_vmap trans] in *. destruct (batch V xs) as [n|]; [|discriminate E]. cbv zeta in *.
    destruct (F (map (slice_at V 0 [0]) xs)) as [us|] eqn:Eu; [|discriminate E]. rewrite leb0 in E. injection E as <-. cbn [option_map]. rewrite leb0. cbn [related].
    pose proof (H _ us (vmap_called 0 0 xs) Eu) as P0.
    assert (Lp : length poss = length us) by (rewrite <- (Forall2_len _ _ _ P0); symmetry; eapply Forall2_len; exact W).
    apply (indexed_parts 1); [exact Lp|]. intros k is u Hk Hu. cbn [fst snd insert_at firstn skipn app]. split; cbn [shape slice_at firstn skipn app Nat.add]; [reflexivity|]. intros idx Wi. inversion Wi as [|? ? i rest Hi Wr]; subst. cbn [at_ slice_at nth remove_at firstn skipn app].
    destruct (F (map (slice_at V 0 [i]) xs)) as [os|] eqn:Ei; cbn [option_map]; [|reflexivity].
    specialize (H _ os (vmap_called 0 i xs) Ei). assert (Lo : length os = length us) by (rewrite <- (Forall2_len _ _ _ H), (Forall2_len _ _ _ P0); reflexivity).
    assert (Ho : exists o, nth_error os k = Some o) by (destruct (nth_error os k) as [o|] eqn:En; [eauto|]; apply nth_error_None in En; assert (k < length us) by (apply nth_error_Some; congruence); lia).
    destruct Ho as [o Ho]. rewrite (nth_at _ _ _ _ (parts_nth poss os k is o Hk Ho 0)), (nth_at _ _ _ _ Ho). reflexivity.
Qed.

(** ** Derivatives *)
Section Jac.
Variable D : V -> (V -> V) -> V.
Hypothesis Dext : forall x f g, (forall t, f t = g t) -> D x f = D x g.

Lemma set_nth_rel (R : arr V -> arr V -> Prop) k u v xs ys : Forall2 R xs ys -> R u v -> Forall2 R (set_nth V k u xs) (set_nth V k v ys).
Proof. intros H Hu. revert k. induction H as [|x y xs ys E H IH]; intros [|k]; cbn [set_nth]; constructor; auto. Qed.
Lemma set_elem_same (x y : arr V) xi t : same_arr x y -> same_arr (set_elem V x xi t) (set_elem V y xi t).
Proof. intros [E S]. split; [exact E|]. cbn [set_elem shape at_]. intros idx W. destruct (list_eq_dec Nat.eq_dec idx xi); [reflexivity|apply S; exact W]. Qed.
Lemma set_shape k (x : arr V) xi t xs : nth_error xs k = Some x -> Forall2 same_shape (set_nth V k (set_elem V x xi t) xs) xs.
Proof.
  revert k. induction xs as [|y xs IH]; intros [|k] H; try discriminate; cbn [set_nth].
  - injection H as ->. constructor; [reflexivity|apply same_shape_refl].
  - constructor; [reflexivity|]. apply IH. exact H.
Qed.
Lemma jac_called k xs us : called V (torch_jac V D k) xs us <-> Forall2 same_shape us xs.
Proof. reflexivity. Qed.

Lemma jac_lawful k : lawful_transform V (torch_jac V D k) 0.
Proof.
  constructor.
  - intros F G xs ys Hxy Sh H. cbn [torch_jac trans]. pose proof (H xs ys (same_shape_refl V xs) Hxy) as H0.
    destruct (nth_error xs k) as [x|] eqn:Ex.
    2:{ assert (Ey : nth_error ys k = None) by (apply nth_error_None; rewrite <- (Forall2_len _ _ _ Hxy); apply nth_error_None; exact Ex). rewrite Ey. exact Logic.I. }
    destruct (Forall2_nth _ _ _ _ _ Hxy Ex) as (y & Ey & Sxy). rewrite Ey. destruct (F xs) as [us|] eqn:Eu, (G ys) as [vs|] eqn:Ev; try contradiction; [|exact Logic.I]. cbn [related] in *.
    apply indexed_map; [eapply Forall2_len; exact H0|]. intros i u v Hu Hv. cbn [fst snd]. destruct (Forall2_nth _ _ _ _ _ H0 Hu) as (v' & Hv' & [E1 E2]). rewrite Hv in Hv'. injection Hv' as <-.
    split; cbn [shape at_]; [rewrite E1, (proj1 Sxy); reflexivity|]. intros idx W. apply within_split in W. destruct W as [W1 W2]. rewrite <- E1, <- (proj2 Sxy) by exact W2. apply Dext. intros t.
    assert (Hc : called V (torch_jac V D k) xs (set_nth V k (set_elem V x (skipn (length (shape u)) idx) t) xs)) by (apply jac_called, set_shape; exact Ex).
    pose proof (H _ (set_nth V k (set_elem V y (skipn (length (shape u)) idx) t) ys) Hc (set_nth_rel same_arr k _ _ xs ys Hxy (set_elem_same x y _ t Sxy))) as Hs.
    pose proof (shaped_self (torch_jac V D k) F G xs _ xs Sh H Hc (same_shape_refl V xs)) as Sf. rewrite Eu in Sf.
    destruct (F (set_nth V k (set_elem V x (skipn (length (shape u)) idx) t) xs)) as [os|]; [|contradiction]. destruct (G (set_nth V k (set_elem V y (skipn (length (shape u)) idx) t) ys)) as [os'|]; [|contradiction]. cbn [related] in *.
    destruct (Forall2_nth _ _ _ _ _ (same_shape_sym V _ _ Sf) Hu) as (o & Ho & Eo). destruct (Forall2_nth _ _ _ _ _ Hs Ho) as (o' & Ho' & [_ Q]). rewrite (nth_at _ _ _ _ Ho), (nth_at _ _ _ _ Ho'). apply Q. unfold same_shape in Eo. rewrite <- Eo. exact W1.
  - intros F Sh xs ys Hxy. cbn [torch_jac trans]. pose proof (Sh xs ys Hxy) as H0. destruct (nth_error xs k) as [x|] eqn:Ex.
    2:{ assert (Ey : nth_error ys k = None) by (apply nth_error_None; rewrite <- (Forall2_len _ _ _ Hxy); apply nth_error_None; exact Ex). rewrite Ey. exact Logic.I. }
    destruct (Forall2_nth _ _ _ _ _ Hxy Ex) as (y & Ey & Sxy). rewrite Ey. destruct (F xs) as [us|], (F ys) as [vs|]; try contradiction; [|exact Logic.I]. cbn [related] in *.
    apply indexed_map; [eapply Forall2_len; exact H0|]. intros i u v Hu Hv. destruct (Forall2_nth _ _ _ _ _ H0 Hu) as (v' & Hv' & E). rewrite Hv in Hv'. injection Hv' as <-. unfold same_shape in *. cbn [fst snd shape]. rewrite E, Sxy. reflexivity.
  - intros xs ys H. exact H.
  - intros F xs H. cbn [torch_jac trans]. rewrite (H xs (same_shape_refl V xs)). destruct (nth_error xs k); reflexivity.
  - intros F xs szs outs H E. cbn [torch_jac trans] in E. destruct (nth_error xs k) as [x|]; [|discriminate E]. destruct (F xs) as [us|] eqn:Eu; [|discriminate E]. injection E as <-.
    apply indexed_map1 with (Q := prefixed V 0); [apply (H xs us); [apply same_shape_refl|exact Eu]|]. intros i sz u [_ (rest & P)]. split; [lia|]. cbn [fst snd shape skipn] in *. exists (rest ++ shape x). rewrite P, app_assoc. reflexivity.
  - intros F xs szs poss outs W Sh Re H E. cbn [torch_jac trans] in *. destruct (nth_error xs k) as [x|] eqn:Ex; [|discriminate E]. destruct (F xs) as [us|] eqn:Eu; [|discriminate E]. injection E as <-. cbn [option_map related].
    pose proof (H xs us (same_shape_refl V xs) Eu) as P0. assert (Lp : length poss = length us) by (rewrite <- (Forall2_len _ _ _ P0); symmetry; eapply Forall2_len; exact W).
    apply (indexed_parts 0); [exact Lp|]. intros i is u Hi Hu. cbn [fst snd].
    assert (Pu : length is <= length (shape u)).
    { clear -W P0 Hi Hu. revert us poss W P0 i Hi Hu. induction szs as [|sz szs IH]; intros us poss W P0 i Hi Hu; inversion W as [|? p ? poss' W1 W2]; subst; inversion P0 as [|? u' ? us' [_ (rest & P1)] P2]; subst; [destruct i; discriminate Hi|].
      destruct i as [|i]; cbn in Hi, Hu; [|eapply IH; eassumption]. injection Hi as ->. injection Hu as ->. cbn [skipn] in P1. rewrite P1, app_length, (within_length _ _ W1). lia. }
    split; cbn [shape slice_at firstn skipn app Nat.add].
    + rewrite skipn_app. replace (length is - length (shape u)) with 0 by lia. reflexivity.
    + intros idx Wi. cbn [at_ slice_at firstn skipn app]. rewrite skipn_length.
      assert (E1 : firstn (length (shape u)) (is ++ idx) = is ++ firstn (length (shape u) - length is) idx) by (rewrite firstn_app, firstn_all2 by lia; reflexivity).
      assert (E2 : skipn (length (shape u)) (is ++ idx) = skipn (length (shape u) - length is) idx) by (rewrite skipn_app, skipn_all2 by lia; reflexivity).
      rewrite E1, E2. apply Dext. intros t.
      assert (Hc : called V (torch_jac V D k) xs (set_nth V k (set_elem V x (skipn (length (shape u) - length is) idx) t) xs)) by (apply jac_called, set_shape; exact Ex).
      destruct (F (set_nth V k (set_elem V x (skipn (length (shape u) - length is) idx) t) xs)) as [os|] eqn:Eo; cbn [option_map]; [|reflexivity].
      specialize (H _ os Hc Eo). assert (Lo : length os = length us) by (rewrite <- (Forall2_len _ _ _ H), (Forall2_len _ _ _ P0); reflexivity).
      assert (Ho : exists o, nth_error os i = Some o) by (destruct (nth_error os i) as [o|] eqn:En; [eauto|]; apply nth_error_None in En; assert (i < length us) by (apply nth_error_Some; congruence); lia).
      destruct Ho as [o Ho]. rewrite (nth_at _ _ _ _ (parts_nth poss os i is o Hi Ho 0)), (nth_at _ _ _ _ Ho). reflexivity.
Qed.

Definition scalar (r : option (list (arr V))) : Prop := match r with Some [o] => shape o = [] | _ => False end.
Lemma scalar_dec r : scalar r \/ ~ scalar r.
Proof. destruct r as [[|o [|? ?]]|]; cbn; auto. destruct (shape o); [left; reflexivity|right; discriminate]. Qed.
Lemma grad_scalar k F xs : (scalar (F xs) -> trans V (torch_grad V D k) F xs = trans V (torch_jac V D k) F xs) /\ (~ scalar (F xs) -> trans V (torch_grad V D k) F xs = None).
Proof.
  unfold torch_grad. cbn [trans]. destruct (F xs) as [[|o [|? ?]]|]; cbn [scalar]; split; intros H; try contradiction; try reflexivity; [rewrite H; reflexivity|]. destruct (shape o); [destruct (H eq_refl)|reflexivity].
Qed.
Lemma scalar_rel x y : related same_shape x y -> scalar x -> scalar y.
Proof.
  destruct x as [[|o [|? ?]]|]; cbn [scalar]; try contradiction. destruct y as [l|]; cbn [related]; [|contradiction]. intros H E. inversion H as [|? v ? l' E' H']; subst. inversion H'; subst. unfold same_shape in E'. cbn. congruence.
Qed.

Lemma grad_lawful k : lawful_transform V (torch_grad V D k) 0.
Proof.
  pose proof (jac_lawful k) as J. constructor.
  - intros F G xs ys Hxy Sh H. pose proof (H xs ys (same_shape_refl V xs) Hxy) as H0. destruct (scalar_dec (F xs)) as [S|S].
    + rewrite (proj1 (grad_scalar k F xs) S), (proj1 (grad_scalar k G ys)) by (eapply scalar_rel; [apply related_shape; exact H0|exact S]). apply (law_ext _ _ _ J); assumption.
    + rewrite (proj2 (grad_scalar k F xs) S), (proj2 (grad_scalar k G ys)); [exact Logic.I|]. intros X. apply S. eapply scalar_rel; [apply related_shape_sym, related_shape; exact H0|exact X].
  - intros F Sh xs ys Hxy. pose proof (Sh xs ys Hxy) as H0. destruct (scalar_dec (F xs)) as [S|S].
    + rewrite (proj1 (grad_scalar k F xs) S), (proj1 (grad_scalar k F ys)) by (eapply scalar_rel; [exact H0|exact S]). apply (law_shape _ _ _ J); assumption.
    + rewrite (proj2 (grad_scalar k F xs) S), (proj2 (grad_scalar k F ys)); [exact Logic.I|]. intros X. apply S. eapply scalar_rel; [apply related_shape_sym; exact H0|exact X].
  - intros xs ys H. exact H.
  - intros F xs H. apply (grad_scalar k F xs). rewrite (H xs (same_shape_refl V xs)). cbn. auto.
  - intros F xs szs outs H E. destruct (scalar_dec (F xs)) as [S|S]; [|rewrite (proj2 (grad_scalar k F xs) S) in E; discriminate E]. rewrite (proj1 (grad_scalar k F xs) S) in E. apply (law_prefix _ _ _ J F xs szs outs); assumption.
  - intros F xs szs poss outs W Sh Re H E. destruct (scalar_dec (F xs)) as [S|S]; [|rewrite (proj2 (grad_scalar k F xs) S) in E; discriminate E]. rewrite (proj1 (grad_scalar k F xs) S) in E.
    rewrite (proj1 (grad_scalar k _ xs)).
    + apply (law_parts _ _ _ J F xs szs); assumption.
    + destruct (F xs) as [[|o [|? ?]]|] eqn:Ef; cbn [scalar] in S; try contradiction. pose proof (H xs _ (same_shape_refl V xs) Ef) as P. inversion P as [|sz ? szs' ? P1 P2]; subst. inversion P2; subst. inversion W as [|? is ? poss' W1 W2]; subst. inversion W2; subst.
      cbn [option_map parts combine map fst snd scalar slice_at shape firstn skipn app Nat.add]. rewrite S. apply skipn_nil.
Qed.
End Jac.

(** ** One transformation after another *)
Lemma after_lawful T U start : lawful_transform V T start -> lawful_transform V U 0 -> lawful_transform V (after V T U) start.
Proof.
  intros LT LU.
  assert (Ca : forall xs us ws, called V T xs us -> called V U us ws -> called V (after V T U) xs ws).
  { intros xs us ws H1 H2. unfold called in *. cbn [after probe]. eapply same_shape_trans; [exact H2|]. apply (law_probe _ _ _ LU). exact H1. }
  constructor.
  - intros F G xs ys Hxy Sh H. cbn [after trans]. apply (law_ext _ _ _ LT); [exact Hxy|apply (law_shape _ _ _ LU); exact Sh|]. intros us vs Hu Huv. apply (law_ext _ _ _ LU); [exact Huv|exact Sh|]. intros ws zs Hw Hwz. apply H; [eapply Ca; eassumption|exact Hwz].
  - intros F Sh. apply (law_shape _ _ _ LT), (law_shape _ _ _ LU). exact Sh.
  - intros xs ys H. apply (law_probe _ _ _ LU), (law_probe _ _ _ LT). exact H.
  - intros F xs H. apply (law_fails _ _ _ LT). intros us Hu. apply (law_fails _ _ _ LU). intros ws Hw. apply H. eapply Ca; eassumption.
  - intros F xs szs outs H E. apply (law_prefix _ _ _ LT) with (2 := E). intros us os Hu Eo. apply (law_prefix _ _ _ LU) with (2 := Eo). intros ws os' Hw. apply H. eapply Ca; eassumption.
  - intros F xs szs poss outs W Sh Re H E. cbn [after trans] in *. pose proof (law_shape _ _ _ LU F Sh) as ShU.
    assert (ReU : respectful V (trans V U F)) by (intros us vs Huv; apply (law_ext _ _ _ LU); auto).
    assert (Pf : forall us os, called V T xs us -> trans V U F us = Some os -> Forall2 (prefixed V 0) szs os).
    { intros us os Hu Eo. apply (law_prefix _ _ _ LU) with (2 := Eo). intros ws os' Hw. apply H. eapply Ca; eassumption. }
    assert (All : forall us, called V T xs us -> exists os, trans V U F us = Some os).
    { intros us Hu. destruct (trans V U F us) as [os|] eqn:Eo; [eauto|]. exfalso. rewrite (law_fails _ _ _ LT) in E; [discriminate E|]. intros us' Hu'. pose proof (ShU us us' (called_shape T xs us us' Hu Hu')) as R. rewrite Eo in R. destruct (trans V U F us'); [contradiction|reflexivity]. }
    apply related_same_trans with (y := trans V T (fun us => option_map (parts V 0 poss) (trans V U F us)) xs); [|apply (law_parts _ _ _ LT _ _ szs); assumption].
    apply (law_ext _ _ _ LT); [apply same_arr_refl|apply parts_shapely; exact ShU|]. intros us vs Hu Huv. destruct (All us Hu) as [os Eo].
    apply related_same_trans with (y := Some (parts V 0 poss os)).
    + apply (law_parts _ _ _ LU _ _ szs); [exact W|exact Sh|exact Re| |exact Eo]. intros ws os' Hw. apply H. eapply Ca; eassumption.
    + assert (Hs : called V T xs vs) by (unfold called in *; eapply same_shape_trans; [apply same_shape_sym, same_shapes; exact Huv|exact Hu]).
      destruct (All vs Hs) as [os' Eo']. rewrite Eo'. cbn [option_map related]. eapply parts_same; [exact W|exact (Pf us os Hu Eo)|].
      pose proof (ReU us vs Huv) as Q. rewrite Eo, Eo' in Q. exact Q.
Qed.
End Inst.

(** ** The meaning of [torch.func.vmap] *)
Lemma insert_len d n s : length (insert_at d n s) = S (length s).
Proof. unfold insert_at. rewrite app_length. cbn [length]. rewrite <- (firstn_skipn d s) at 3. rewrite app_length. lia. Qed.
Lemma nth_insert d i idx : d <= length idx -> nth d (insert_at d i idx) 0 = i.
Proof. intros H. unfold insert_at. rewrite app_nth2; rewrite firstn_length_le by exact H; [|lia]. rewrite Nat.sub_diag. reflexivity. Qed.
Lemma remove_insert d i idx : d <= length idx -> remove_at d (insert_at d i idx) = idx.
Proof.
  intros H. unfold remove_at, insert_at. rewrite firstn_app, skipn_app, firstn_firstn, firstn_length_le by exact H. rewrite Nat.min_id, Nat.sub_diag. cbn [firstn]. rewrite app_nil_r.
  rewrite (skipn_all2 (firstn d idx)) by (rewrite firstn_length_le by exact H; lia). replace (S d - d) with 1 by lia. cbn [skipn app]. apply firstn_skipn.
Qed.
Lemma vmap_means : forall V d F (xs : list (arr V)) outs, shapely V F -> trans V (torch_vmap V d) F xs = Some outs ->
  exists n, Forall (fun x => exists s, shape x = n :: s) xs /\ forall i, i < n -> exists os, F (map (slice_at V 0 [i]) xs) = Some os /\
  Forall2 (fun o r => shape o = insert_at d n (shape r) /\ forall idx, within (shape r) idx -> at_ o (insert_at d i idx) = at_ r idx) outs os.
Proof.
  intros V d F xs outs Sh H. cbn [torch_vmap trans] in H. destruct (batch V xs) as [n|] eqn:Eb; [|discriminate H]. cbv zeta in H. destruct (F (map (slice_at V 0 [0]) xs)) as [us|] eqn:Eu; [|discriminate H].
  destruct (forallb (fun o => Nat.leb d (length (shape o))) us) eqn:Le; [|discriminate H]. injection H as <-. exists n. split; [apply batch_axes; exact Eb|]. intros i Hi.
  assert (Si : related same_shape (F (map (slice_at V 0 [i]) xs)) (F (map (slice_at V 0 [0]) xs))) by (apply Sh; clear; induction xs as [|x xs IH]; constructor; [reflexivity|exact IH]).
  destruct (F (map (slice_at V 0 [i]) xs)) as [os|] eqn:Ei; [|rewrite Eu in Si; contradiction Si]. exists os. split; [reflexivity|]. rewrite Eu in Si. cbn [related] in Si. clear Eu Sh Eb.
  assert (Gen : forall pre us' os', Forall2 same_shape os' us' -> forallb (fun o => Nat.leb d (length (shape o))) us' = true -> os = pre ++ os' ->
    Forall2 (fun o r => shape o = insert_at d n (shape r) /\ (forall idx, within (shape r) idx -> at_ o (insert_at d i idx) = at_ r idx))
      (map (fun io : nat * arr V => Arr (insert_at d n (shape (snd io))) (fun idx => match F (map (slice_at V 0 [nth d idx 0]) xs) with Some os => at_ (nth (fst io) os (snd io)) (remove_at d idx) | None => at_ (snd io) (remove_at d idx) end))
        (combine (seq (length pre) (length us')) us')) os').
  { intros pre us' os' Hs. revert pre. induction Hs as [|o u os' us' E Hs IH]; intros pre Hl Ho; [constructor|]. cbn [forallb] in Hl. apply andb_true_iff in Hl. destruct Hl as [Hd Hl]. apply Nat.leb_le in Hd. cbn [length seq combine map]. constructor.
    - cbn [fst snd shape at_]. split; [rewrite E; reflexivity|]. intros idx W. assert (L : d <= length idx) by (rewrite <- (within_length _ _ W), E; exact Hd).
      rewrite (nth_insert d i idx L), (remove_insert d i idx L), Ei, Ho, app_nth2, Nat.sub_diag by lia. reflexivity.
    - replace (S (length pre)) with (length (pre ++ [o])) by (rewrite app_length; cbn [length]; lia). apply IH; [exact Hl|]. rewrite Ho, <- app_assoc. reflexivity. }
  apply (Gen [] us os Si Le eq_refl).
Qed.
