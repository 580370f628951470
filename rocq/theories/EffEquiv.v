(** Contextual equivalence of programs under the laws of [coproduct] and
    [handler]: replacing, anywhere in a program (also inside handlers and
    default rules), an interpretation by an equal one up to the laws. *)
From Coq Require Import List Bool Arith Lia String Relations.
From Verif Require Import EffModel EffSpec EffProofs EffRefine.
Import ListNotations.
Set Implicit Arguments.

Section Equiv.
Variable W : Type.

(** The laws. *)
Inductive law : mode -> iexp W -> iexp W -> Prop :=
| law_assoc m i j l : law m (ICop (ICop i j) l) (ICop i (ICop j l))
| law_unit_r m i : law m (ICop i (IDict [])) i
| law_unit_l i : law MHandler (ICop (IDict []) i) i.

(** Leave a block with the outcome of its body. *)
Definition done (r : outcome) : comp W :=
  match r with Ok v => Ret v | Exn e => Raise e end.

(** One use of a law at any number of places. *)
Inductive ceq : comp W -> comp W -> Prop :=
| q_ret v : ceq (Ret v) (Ret v)
| q_raise e : ceq (Raise e) (Raise e)
| q_act f k k' : (forall r, ceq (k r) (k' r)) -> ceq (Act f k) (Act f k')
| q_call o a k k' : (forall r, ceq (k r) (k' r)) -> ceq (Call o a k) (Call o a k')
| q_scope m i i' b b' k k' : ieq m i i' -> ceq b b' -> (forall r, ceq (k r) (k' r)) ->
    ceq (Scope m i b k) (Scope m i' b' k')
| q_look o k k' : (forall o', ceq (k o') (k' o')) -> ceq (LookOp o k) (LookOp o k')
| q_nest i j b b' k k' : ceq b b' -> (forall r, ceq (k r) (k' r)) ->
    ceq (Scope MHandler i (Scope MHandler j b done) k) (Scope MHandler (ICop i j) b' k')
| q_unnest i j b b' k k' : ceq b b' -> (forall r, ceq (k r) (k' r)) ->
    ceq (Scope MHandler (ICop i j) b k) (Scope MHandler i (Scope MHandler j b' done) k')
with beq : base W -> base W -> Prop :=
| q_fn nul f f' : (forall a, ceq (f a) (f' a)) -> beq (BFn nul f) (BFn nul f')
| q_op o : beq (BOp o) (BOp o)
with ieq : mode -> iexp W -> iexp W -> Prop :=
| q_dict m d d' : deq d d' -> ieq m (IDict d) (IDict d')
| q_cop m i i' j j' : ieq m i i' -> ieq MHandler j j' -> ieq m (ICop i j) (ICop i' j')
| q_law m i j : law m i j -> ieq m i j
| q_law_sym m i j : law m j i -> ieq m i j
with deq : list (hop * base W) -> list (hop * base W) -> Prop :=
| q_nil : deq [] []
| q_cons h b b' d d' : beq b b' -> deq d d' -> deq ((h, b) :: d) ((h, b') :: d').

Fixpoint ceq_refl (c : comp W) : ceq c c
with beq_refl (b : base W) : beq b b
with ieq_refl (m : mode) (i : iexp W) : ieq m i i.
Proof.
  - destruct c as [v|e|f k|o a k|m i b k|o k].
    + apply q_ret.
    + apply q_raise.
    + apply q_act. intros r. apply ceq_refl.
    + apply q_call. intros r. apply ceq_refl.
    + apply q_scope; [apply ieq_refl|apply ceq_refl|intros r; apply ceq_refl].
    + apply q_look. intros r. apply ceq_refl.
  - destruct b as [nul f|o].
    + apply q_fn. intros a. apply ceq_refl.
    + apply q_op.
  - destruct i as [d|i j].
    + apply q_dict. induction d as [|[h b] d IH]; [apply q_nil|apply q_cons; [apply beq_refl|exact IH]].
    + apply q_cop; apply ieq_refl.
Qed.

Scheme ceq_mut := Minimality for ceq Sort Prop
with beq_mut := Minimality for beq Sort Prop
with ieq_mut := Minimality for ieq Sort Prop
with deq_mut := Minimality for deq Sort Prop.

Lemma ceq_sym c c' : ceq c c' -> ceq c' c.
Proof.
  apply (ceq_mut (fun c c' => ceq c' c) (fun b b' => beq b' b)
           (fun m i i' => ieq m i' i) (fun d d' => deq d' d)); intros; constructor; auto; fail.
Qed.

(** Default rules replaced as well. *)
Definition defs_eq (d1 d2 : cls -> nat -> bool * (args -> comp W)) : Prop :=
  forall c n, fst (d1 c n) = fst (d2 c n) /\ forall a, ceq (snd (d1 c n) a) (snd (d2 c n) a).

Lemma defs_eq_sym d1 d2 : defs_eq d1 d2 -> defs_eq d2 d1.
Proof.
  intros H c n. destruct (H c n) as [H1 H2]. split; [symmetry; exact H1|].
  intros a. apply ceq_sym. apply H2.
Qed.

Lemma defs_eq_refl d : defs_eq d d.
Proof. intros c n. split; [reflexivity|]. intros a. apply ceq_refl. Qed.

Section Sim.
Variables defs defs' : cls -> nat -> bool * (args -> comp W).
Hypothesis Hdefs : defs_eq defs defs'.

Definition eeq (e e' : elem W) : Prop := sv e = sv e' /\ beq (eb e) (eb e').

Lemma beq_nullary b b' : beq b b' -> base_nullary defs b = base_nullary defs' b'.
Proof.
  intros H. destruct H as [nul f f' Hf|o]; [reflexivity|].
  cbn [base_nullary]. destruct o as [[c n|c]| |]; try reflexivity.
  cbn [op_nullary]. apply (Hdefs c n).
Qed.

Lemma eeq_nullary e e' : eeq e e' -> elem_nullary defs e = elem_nullary defs' e'.
Proof. intros [_ H]. apply beq_nullary. exact H. Qed.

Lemma eeq_sav e e' : eeq e e' -> eeq (sav defs e) (sav defs' e').
Proof.
  intros H. pose proof (eeq_nullary H) as Hn. destruct H as [Hs Hb].
  split; cbn [sav sv eb]; [|exact Hb]. rewrite Hs, Hn. reflexivity.
Qed.

Notation leq := (Forall2 eeq).

Lemma leq_savl l l' : leq l l' -> leq (savl defs l) (savl defs' l').
Proof.
  intros H. destruct H as [|e e' l l' He Hl]; cbn [savl]; constructor; [apply eeq_sav; exact He|exact Hl].
Qed.

Lemma leq_app l1 l1' l2 l2' : leq l1 l1' -> leq l2 l2' -> leq (l1 ++ l2) (l1' ++ l2').
Proof. apply Forall2_app. Qed.

End Sim.

Notation leq := (Forall2 eeq).

Lemma sav_sav defs e : sav defs (sav defs e) = sav (W := W) defs e.
Proof.
  unfold sav; cbn [sv eb]. unfold elem_nullary; cbn [eb]. f_equal.
  rewrite <- orb_assoc, orb_diag. reflexivity.
Qed.

Lemma savl_savl defs l : savl defs (savl defs l) = savl (W := W) defs l.
Proof. destruct l as [|e l]; [reflexivity|]. cbn [savl]. rewrite sav_sav. reflexivity. Qed.

Lemma savl_app defs l1 l2 : l1 <> [] -> savl (W := W) defs (l1 ++ l2) = savl defs l1 ++ l2.
Proof. destruct l1; [congruence|reflexivity]. Qed.

Lemma stack_assoc defs x y z :
  stack defs (stack (W := W) defs x y) z = stack defs x (stack defs y z).
Proof.
  destruct z as [|e z]; [reflexivity|]. destruct y as [|e' y]; cbn [stack savl app].
  - rewrite app_nil_r, sav_sav. reflexivity.
  - rewrite !sav_sav, <- app_assoc. reflexivity.
Qed.

Definition norm defs (m : mode) (l : list (elem W)) : list (elem W) :=
  match m with MHandler => savl defs l | MInterp => l end.

Lemma law_provides defs m i j : law m i j -> forall h,
  norm defs m (provides defs i h) = norm defs m (provides defs j h).
Proof.
  intros H h. destruct H as [m i j l|m i|i]; cbn [provides lookup_lit].
  - rewrite stack_assoc. reflexivity.
  - reflexivity.
  - cbn [norm]. destruct (provides defs i h) as [|e l] eqn:E; [reflexivity|].
    cbn [stack savl]. rewrite app_nil_r.
    pose proof (savl_savl defs (e :: l)) as H. exact H.
Qed.

Lemma leq_refl l : leq l l.
Proof. induction l as [|e l IH]; constructor; [split; [reflexivity|apply beq_refl]|exact IH]. Qed.

Section Sim2.
Variables defs defs' : cls -> nat -> bool * (args -> comp W).
Hypothesis Hdefs : defs_eq defs defs'.

Lemma deq_lookup d d' h : deq d d' ->
  match lookup_lit d h, lookup_lit d' h with
  | Some b, Some b' => beq b b'
  | None, None => True
  | _, _ => False
  end.
Proof.
  induction 1 as [|h' b b' d d' Hb Hd IH]; cbn [lookup_lit]; [exact I|].
  destruct (lookup_lit d h), (lookup_lit d' h); try contradiction; [exact IH|].
  destruct (hop_eq_dec h' h); [exact Hb|exact I].
Qed.

Lemma leq_norm_nil (m : mode) l l' : leq (norm defs m l) (norm defs' m l') -> (l = [] <-> l' = []).
Proof.
  destruct m, l, l'; cbn [norm savl]; intros H; inversion H; split; intros; congruence.
Qed.

(** Related default tables give related lists, without any law. *)
Lemma leq_stack l1 l1' l2 l2' m :
  leq (norm defs m l1) (norm defs' m l1') -> leq (savl defs l2) (savl defs' l2') ->
  leq (norm defs m (stack defs l1 l2)) (norm defs' m (stack defs' l1' l2')).
Proof.
  intros H1 H2.
  assert (Hs1 : leq (savl defs l1) (savl defs' l1')).
  { destruct m; cbn [norm] in H1; [exact H1|]. apply leq_savl; assumption. }
  destruct l2 as [|e2 l2], l2' as [|e2' l2']; cbn [savl] in H2; try (inversion H2; fail).
  - exact H1.
  - assert (Hgoal : leq (stack defs l1 (e2 :: l2)) (stack defs' l1' (e2' :: l2'))).
    { cbn [stack savl]. apply Forall2_app; [exact H2|exact Hs1]. }
    destruct m; cbn [norm]; [|exact Hgoal]. apply leq_savl; assumption.
Qed.

Lemma provides_defs (i : iexp W) h : leq (provides defs i h) (provides defs' i h).
Proof.
  induction i as [d|i IHi j IHj]; cbn [provides].
  - destruct (lookup_lit d h); constructor; [|constructor]. split; [reflexivity|apply beq_refl].
  - apply (@leq_stack _ _ _ _ MInterp); [exact IHi|]. apply leq_savl; assumption.
Qed.

Lemma ieq_provides m i i' : ieq m i i' -> forall h,
  leq (norm defs m (provides defs i h)) (norm defs' m (provides defs' i' h)).
Proof.
  induction 1 as [m d d' Hd|m i i' j j' Hi IHi Hj IHj|m i j Hl|m i j Hl]; intros h.
  - cbn [provides]. pose proof (deq_lookup h Hd) as H.
    destruct (lookup_lit d h) as [b|], (lookup_lit d' h) as [b'|]; try contradiction.
    + assert (H1 : leq [mkelem false b] [mkelem false b']).
      { constructor; [split; [reflexivity|exact H]|constructor]. }
      destruct m; cbn [norm]; [apply leq_savl; assumption|exact H1].
    + destruct m; constructor.
  - cbn [provides]. apply leq_stack; [apply IHi|apply IHj].
  - rewrite (law_provides defs Hl h).
    destruct m; cbn [norm]; [apply leq_savl; [assumption|]|]; apply provides_defs.
  - rewrite <- (law_provides defs Hl h).
    destruct m; cbn [norm]; [apply leq_savl; [assumption|]|]; apply provides_defs.
Qed.

Definition fweq (f f' : option (op * list (elem W))) : Prop :=
  match f, f' with
  | None, None => True
  | Some (o, l), Some (o', l') => o = o' /\ leq l l'
  | _, _ => False
  end.

Definition Eeq (E E' : env W) : Prop :=
  (forall h, leq (hs E h) (hs E' h)) /\ fweq (fw E) (fw E') /\ ca E = ca E'.

Lemma Eeq_enter m i i' E E' : ieq m i i' -> Eeq E E' ->
  Eeq (enter defs m i E) (enter defs' m i' E').
Proof.
  intros Hi (Hh & Hf & Ha). pose proof (ieq_provides Hi) as Hp.
  destruct m; cbn [enter norm] in *; split; cbn [hs fw ca].
  - intros h. apply (@leq_stack _ _ _ _ MInterp); [apply Hh|apply Hp].
  - split; assumption.
  - intros h. apply Hp.
  - split; [exact I|reflexivity].
Qed.

Lemma Eeq_set_fw E E' o l l' : Eeq E E' -> leq l l' -> Eeq (set_fw E (o, l)) (set_fw E' (o, l')).
Proof. intros (Hh & Hf & Ha) Hl. repeat split; cbn; auto. Qed.

Lemma Eeq_set_ca E E' a : Eeq E E' -> Eeq (set_ca E a) (set_ca E' a).
Proof. intros (Hh & Hf & Ha). repeat split; cbn; auto. Qed.

(** Entering two nested handlers is entering their coproduct. *)
Lemma Eeq_nest i j E E' : Eeq E E' ->
  Eeq (enter defs MHandler j (enter defs MHandler i E)) (enter defs' MHandler (ICop i j) E').
Proof.
  intros (Hh & Hf & Ha). split; [|split; assumption].
  intros h. cbn [enter hs provides]. rewrite stack_assoc.
  apply (@leq_stack _ _ _ _ MInterp); [apply Hh|].
  apply leq_savl; [assumption|].
  apply (@leq_stack _ _ _ _ MInterp); [apply provides_defs|].
  apply leq_savl; [assumption|]. apply provides_defs.
Qed.

Lemma Eeq_unnest i j E E' : Eeq E E' ->
  Eeq (enter defs MHandler (ICop i j) E) (enter defs' MHandler j (enter defs' MHandler i E')).
Proof.
  intros (Hh & Hf & Ha). split; [|split; assumption].
  intros h. cbn [enter hs provides]. rewrite stack_assoc.
  apply (@leq_stack _ _ _ _ MInterp); [apply Hh|].
  apply leq_savl; [assumption|].
  apply (@leq_stack _ _ _ _ MInterp); [apply provides_defs|].
  apply leq_savl; [assumption|]. apply provides_defs.
Qed.

Inductive teq : rtask W -> rtask W -> Prop :=
| teq_comp c c' : ceq c c' -> teq (RComp c) (RComp c')
| teq_elem e e' a : eeq e e' -> teq (RElem e a) (RElem e' a)
| teq_op o a : teq (ROp W o a) (ROp W o a)
| teq_unh o a : teq (RUnh W o a) (RUnh W o a)
| teq_default o a : teq (RDefault W o a) (RDefault W o a)
| teq_def o a : teq (RDef W o a) (RDef W o a).

Lemma runs_done_comp defs0 E r w : runs defs0 E (RComp (done r)) w r w.
Proof. destruct r; exists 1; reflexivity. Qed.

Lemma ref_done defs0 n E r w r' w' :
  ref defs0 n E (RComp (done r)) w = Some (r', w') -> r' = r /\ w' = w.
Proof. destruct n as [|n]; [discriminate|]. destruct r; cbn; intros H; inversion H; auto. Qed.

Theorem sim n : forall E t w r w', ref defs n E t w = Some (r, w') ->
  forall E' t', Eeq E E' -> teq t t' -> runs defs' E' t' w r w'.
Proof.
  induction n as [n IH] using lt_wf_ind. intros E t w r w' H E' t' HE Ht.
  destruct n as [|n]; [discriminate|].
  assert (IHn : forall E t w r w', ref defs n E t w = Some (r, w') ->
     forall E' t', Eeq E E' -> teq t t' -> runs defs' E' t' w r w') by (intros; eapply IH; eauto).
  destruct Ht as [c c' Hc|e e' a He|o a|o a|o a|o a].
  - destruct Hc as [v|x|f k k' Hk|o a k k' Hk|m i i' b b' k k' Hi Hb Hk|o k k' Hk
                   |i j b b' k k' Hb Hk|i j b b' k k' Hb Hk]; cbn [ref] in H.
    + inversion H; subst. apply runs_Ret.
    + inversion H; subst. apply runs_Raise.
    + apply runs_Act. destruct (f w) as [r1 w1]; cbn [fst snd].
      exact (IHn _ _ _ _ _ H _ _ HE (teq_comp (Hk r1))).
    + destruct (ref defs n E (ROp W o a) w) as [[r1 w1]|] eqn:Eo; [|discriminate].
      apply (@runs_Call W defs' E' o a k' w r1 w1).
      * exact (IHn _ _ _ _ _ Eo _ _ HE (teq_op o a)).
      * exact (IHn _ _ _ _ _ H _ _ HE (teq_comp (Hk r1))).
    + destruct (ref defs n (enter defs m i E) (RComp b) w) as [[r1 w1]|] eqn:Eo; [|discriminate].
      apply (@runs_Scope W defs' E' m i' b' k' w r1 w1).
      * exact (IHn _ _ _ _ _ Eo _ _ (Eeq_enter Hi HE) (teq_comp Hb)).
      * exact (IHn _ _ _ _ _ H _ _ HE (teq_comp (Hk r1))).
    + eapply runs_step; [intros m; cbn [ref]; reflexivity|].
      assert (Hl : forall h,
        match hs E h with [mkelem false (BOp o')] => o' | _ => OH h end =
        match hs E' h with [mkelem false (BOp o')] => o' | _ => OH h end).
      { intros h. destruct (proj1 HE h) as [|e1 e1' l1 l1' He1 Hl1]; [reflexivity|].
        destruct He1 as [Hs1 Hb1]. destruct e1 as [s1 b1], e1' as [s1' b1']. cbn in Hs1, Hb1. subst s1'.
        destruct Hb1 as [nul f f' Hf|o1]; destruct Hl1; reflexivity. }
      destruct o as [h| |];
        [rewrite (Hl h) in H| |]; exact (IHn _ _ _ _ _ H _ _ HE (teq_comp (Hk _))).
    + destruct (ref defs n (enter defs MHandler i E) _ w) as [[r1 w1]|] eqn:Eo; [|discriminate].
      destruct n as [|n]; [discriminate|]. cbn [ref] in Eo.
      destruct (ref defs n (enter defs MHandler j _) (RComp b) w) as [[r2 w2]|] eqn:Ei; [|discriminate].
      apply ref_done in Eo. destruct Eo as [-> ->].
      apply (@runs_Scope W defs' E' MHandler (ICop i j) b' k' w r2 w2).
      * exact (IH n ltac:(lia) _ _ _ _ _ Ei _ _ (Eeq_nest i j HE) (teq_comp Hb)).
      * exact (IHn _ _ _ _ _ H _ _ HE (teq_comp (Hk r2))).
    + destruct (ref defs n (enter defs MHandler (ICop i j) E) _ w) as [[r1 w1]|] eqn:Eo; [|discriminate].
      apply (@runs_Scope W defs' E' MHandler i _ k' w r1 w1).
      * apply (@runs_Scope W defs' _ MHandler j b' done w r1 w1); [|apply runs_done_comp].
        exact (IHn _ _ _ _ _ Eo _ _ (Eeq_unnest i j HE) (teq_comp Hb)).
      * exact (IHn _ _ _ _ _ H _ _ HE (teq_comp (Hk r1))).
  - pose proof (eeq_nullary Hdefs He) as Hn. destruct He as [Hs Hb].
    destruct e as [s b], e' as [s' b']. cbn [sv eb] in *. subst s'.
    cbn [ref sv eb] in H.
    assert (HE' : Eeq (if s then set_ca E a else E) (if s then set_ca E' a else E')).
    { destruct s; [apply Eeq_set_ca; exact HE|exact HE]. }
    destruct Hb as [nul f f' Hf|o].
    + destruct (nul && nonempty a) eqn:Ena.
      * inversion H; subst. apply runs_done. cbn [ref eb]. rewrite Ena. reflexivity.
      * eapply runs_step; [intros m; cbn [ref sv eb]; rewrite Ena; reflexivity|].
        exact (IHn _ _ _ _ _ H _ _ HE' (teq_comp (Hf a))).
    + eapply runs_step; [intros m; cbn [ref sv eb]; reflexivity|].
      exact (IHn _ _ _ _ _ H _ _ HE' (teq_op o a)).
  - destruct o as [h| |]; cbn [ref] in H.
    + pose proof (proj1 HE h) as Hl.
      destruct (hs E h) as [|e l] eqn:E1, (hs E' h) as [|e' l'] eqn:E1'; try (inversion Hl; fail).
      * eapply runs_step; [intros m; cbn [ref]; rewrite E1'; reflexivity|].
        exact (IHn _ _ _ _ _ H _ _ HE (teq_unh _ a)).
      * inversion Hl; subst.
        eapply runs_step; [intros m; cbn [ref]; rewrite E1'; reflexivity|].
        refine (IHn _ _ _ _ _ H _ _ (Eeq_set_fw _ HE _) (teq_elem a _)); assumption.
    + pose proof (proj1 (proj2 HE)) as Hf.
      destruct (fw E) as [[o l]|] eqn:Ef, (fw E') as [[o' l']|] eqn:Ef'; cbn [fweq] in Hf; try contradiction.
      * destruct Hf as [<- Hl]. destruct Hl as [|e e' l l' He Hl].
        -- pose proof (Eeq_set_fw OFwd HE (leq_refl [])) as HE2.
           unfold resolve in H. destruct (nonempty a) eqn:Ea.
           ++ apply (@runs_FwdDef W defs' E' o a w r w' Ef' Ea).
              exact (IHn _ _ _ _ _ H _ _ HE2 (teq_default o a)).
           ++ destruct (ref defs n (set_fw E (OFwd, [])) _ w) as [[r1 w1]|] eqn:Eg; [|discriminate].
              apply (@runs_FwdDef_args W defs' E' o a w r1 w1 r w' Ef' Ea).
              ** exact (IHn _ _ _ _ _ Eg _ _ HE2 (teq_op _ _)).
              ** destruct r1 as [v|x]; cbn [args_outcome].
                 --- destruct (dec_args v) as [a'|].
                     +++ exact (IHn _ _ _ _ _ H _ _ HE2 (teq_default o a')).
                     +++ inversion H; subst. split; reflexivity.
                 --- inversion H; subst. split; reflexivity.
        -- pose proof (Eeq_set_fw o HE Hl) as HE2. pose proof (eeq_nullary Hdefs He) as Hn.
           destruct (elem_nullary defs e) eqn:En.
           ++ apply (@runs_FwdNext W defs' E' o e' l' a w r w' Ef' (or_introl (eq_sym Hn))).
              exact (IHn _ _ _ _ _ H _ _ HE2 (teq_elem a He)).
           ++ unfold resolve in H. destruct (nonempty a) eqn:Ea.
              ** apply (@runs_FwdNext W defs' E' o e' l' a w r w' Ef' (or_intror Ea)).
                 exact (IHn _ _ _ _ _ H _ _ HE2 (teq_elem a He)).
              ** destruct (ref defs n (set_fw E (o, l)) _ w) as [[r1 w1]|] eqn:Eg; [|discriminate].
                 apply (@runs_FwdNext_args W defs' E' o e' l' a w r1 w1 r w' Ef' (eq_sym Hn) Ea).
                 --- exact (IHn _ _ _ _ _ Eg _ _ HE2 (teq_op _ _)).
                 --- destruct r1 as [v|x]; cbn [args_outcome].
                     +++ destruct (dec_args v) as [a'|].
                         *** exact (IHn _ _ _ _ _ H _ _ HE2 (teq_elem a' He)).
                         *** inversion H; subst. split; reflexivity.
                     +++ inversion H; subst. split; reflexivity.
      * eapply runs_step; [intros m; cbn [ref]; rewrite Ef'; reflexivity|].
        exact (IHn _ _ _ _ _ H _ _ HE (teq_unh _ a)).
    + pose proof (proj2 (proj2 HE)) as Ha. rewrite Ha in H.
      destruct (ca E') as [a0|] eqn:Ec.
      * apply runs_done. cbn [ref]. rewrite Ec. exact H.
      * eapply runs_step; [intros m; cbn [ref]; rewrite Ec; reflexivity|].
        exact (IHn _ _ _ _ _ H _ _ HE (teq_unh _ a)).
  - cbn [ref] in H. destruct (pos a) as [|v l] eqn:Ep.
    + eapply runs_step; [intros m; cbn [ref]; rewrite Ep; reflexivity|].
      exact (IHn _ _ _ _ _ H _ _ HE (teq_op _ _)).
    + destruct v as [| | |o1| | |];
        try (eapply runs_step; [intros m; cbn [ref]; rewrite Ep; reflexivity|];
             exact (IHn _ _ _ _ _ H _ _ HE (teq_op _ _))).
      destruct (op_eq_dec o (apply_of o1)) as [Eo|Eo] eqn:Edec;
        (eapply runs_step; [intros m; cbn [ref]; rewrite Ep, Edec; reflexivity|]).
      * exact (IHn _ _ _ _ _ H _ _ HE (teq_def _ _)).
      * exact (IHn _ _ _ _ _ H _ _ HE (teq_op _ _)).
  - cbn [ref] in H.
    destruct (ref defs n E (RDef W o a) w) as [[r1 w1]|] eqn:Eo; [|discriminate].
    pose proof (@runs_Default W defs' E' o a w r1 w1 (IHn _ _ _ _ _ Eo _ _ HE (teq_def _ _))) as Hd.
    destruct r1 as [v|[]]; inversion H; subst; exact Hd.
  - destruct o as [[c i|[|x c]]| |]; cbn [ref] in H.
    + destruct (Hdefs c i) as [H1 H2].
      destruct (defs c i) as [nul f] eqn:Ed. destruct (defs' c i) as [nul' f'] eqn:Ed'.
      cbn [fst snd] in H1, H2. subst nul'.
      destruct (nul && nonempty a) eqn:Ena.
      * inversion H; subst. apply runs_done. cbn [ref]. rewrite Ed', Ena. reflexivity.
      * eapply runs_step; [intros m; cbn [ref]; rewrite Ed', Ena; reflexivity|].
        exact (IHn _ _ _ _ _ H _ _ HE (teq_comp (H2 a))).
    + destruct (pos a) as [|v l] eqn:Ep.
      * inversion H; subst. apply runs_done. cbn [ref]. rewrite Ep. reflexivity.
      * destruct v;
          try (inversion H; subst; apply runs_done; cbn [ref]; rewrite Ep; reflexivity).
        eapply runs_step; [intros m; cbn [ref]; rewrite Ep; reflexivity|].
        exact (IHn _ _ _ _ _ H _ _ HE (teq_default _ _)).
    + destruct (pos a) as [|v l] eqn:Ep.
      * inversion H; subst. apply runs_done. cbn [ref]. rewrite Ep. reflexivity.
      * eapply runs_step; [intros m; cbn [ref]; rewrite Ep; reflexivity|].
        exact (IHn _ _ _ _ _ H _ _ HE (teq_op _ _)).
    + inversion H; subst. apply runs_done. reflexivity.
    + apply runs_done. cbn [ref]. exact H.
Qed.

End Sim2.

(** Contextual equivalence. *)
Definition observably_equal
  (defs defs' : cls -> nat -> bool * (args -> comp W)) (c c' : comp W) : Prop :=
  forall w r w', evals defs (TComp c) (mkst [] w) r w' <-> evals defs' (TComp c') (mkst [] w) r w'.

Theorem ceq_observably_equal defs defs' c c' :
  defs_eq defs defs' -> ceq c c' -> observably_equal defs defs' c c'.
Proof.
  intros Hd Hc w r w'. rewrite !refinement.
  assert (H0 : Eeq (env0 W) (env0 W)) by (repeat split; constructor).
  split; intros (n & H).
  - exact (@sim defs defs' Hd n _ _ _ _ _ H _ _ H0 (teq_comp Hc)).
  - exact (@sim defs' defs (defs_eq_sym Hd) n _ _ _ _ _ H _ _ H0 (teq_comp (ceq_sym Hc))).
Qed.

End Equiv.
