(** Proofs about annotations. *)
From Coq Require Import String List Bool Arith Lia.
From Verif Require Import TermModel AnnModel AnnSpec.
Import ListNotations.
Local Open Scope list_scope.

Section AnnInd.
Variable P : ann -> Prop.
Hypothesis He : P AEmpty.
Hypothesis Hn : P ANone.
Hypothesis Hv : forall a, P (AVar a).
Hypothesis Hc : forall c o, P (ACls c o).
Hypothesis Hg : forall c o l, Forall P l -> P (AGen c o l).
Hypothesis Hu : forall b l, Forall P l -> P (AUnion b l).
Hypothesis Hl : forall l, Forall P l -> P (AList l).
Hypothesis Ha : forall t ms, P t -> P (AAnnot t ms).
Hypothesis Ht : forall x, P (AText x).
Fixpoint ann_ind2 (a : ann) : P a :=
  let go := fix go (l : list ann) : Forall P l := match l with [] => Forall_nil P | t :: l' => Forall_cons t (ann_ind2 t) (go l') end in
  match a with
  | AEmpty => He | ANone => Hn | AVar v => Hv v | ACls c o => Hc c o
  | AGen c o l => Hg c o l (go l) | AUnion b l => Hu b l (go l) | AList l => Hl l (go l)
  | AAnnot t ms => Ha t ms (ann_ind2 t) | AText x => Ht x
  end.
End AnnInd.

(** * Reading *)
Lemma annotated_more ms : forall u us, fold_left annotated ms (AAnnot u us) = AAnnot u (us ++ ms).
Proof. induction ms as [|m ms IH]; intros u us; cbn [fold_left annotated]; [now rewrite app_nil_r|]. rewrite IH, <- app_assoc. reflexivity. Qed.
Lemma annotated_plain m ms u : (forall w us, u <> AAnnot w us) -> fold_left annotated (m :: ms) u = AAnnot u (m :: ms).
Proof. intros H. cbn [fold_left]. destruct u; cbn [annotated]; try (rewrite annotated_more; reflexivity). exfalso. eapply H. reflexivity. Qed.
Lemma annot_dec (u : ann) : (exists w us, u = AAnnot w us) \/ (forall w us, u <> AAnnot w us).
Proof. destruct u; try (right; discriminate). left. eauto. Qed.

Lemma mapo_iff env l : Forall flat l -> Forall (fun a => flat a -> forall u, resolve env a = Some u <-> spells env a u) l ->
  forall r, mapo (resolve env) l = Some r <-> Forall2 (spells env) l r.
Proof.
  induction l as [|a l IH]; intros F H r.
  - cbn. split; [intros E; injection E as <-; constructor|intros E; inversion E; reflexivity].
  - assert (Fa := Forall_inv F). assert (Ha := Forall_inv H Fa). specialize (IH (Forall_inv_tail F) (Forall_inv_tail H)).
    cbn [mapo]. fold (mapo (resolve env)). split.
    + destruct (resolve env a) as [b|] eqn:E; [|discriminate]. destruct (mapo (resolve env) l) as [q|]; [|discriminate].
      intros X. injection X as <-. constructor; [now apply Ha|now apply IH].
    + intros X. inversion X as [|? b ? q Hb Hq]; subst. apply Ha in Hb. apply IH in Hq. now rewrite Hb, Hq.
Qed.
Lemma resolve_iff env : forall a, flat a -> forall u, resolve env a = Some u <-> spells env a u.
Proof.
  induction a as [| |v|c o|c o l IH|b l IH|l IH|t ms IH|x] using ann_ind2; intros F u; cbn [resolve].
  - split; [intros E; injection E as <-; constructor|intros E; inversion E; reflexivity].
  - split; [intros E; injection E as <-; constructor|intros E; inversion E; reflexivity].
  - split; [intros E; injection E as <-; constructor|intros E; inversion E; reflexivity].
  - split; [intros E; injection E as <-; constructor|intros E; inversion E; reflexivity].
  - assert (Fl : Forall flat l) by (inversion F; assumption). assert (M := mapo_iff env l Fl IH). split.
    + destruct (mapo (resolve env) l) as [r|]; [|discriminate]. intros E. injection E as <-. constructor. now apply M.
    + intros E. inversion E as [| | | |? ? ? r Hr| | | | |]; subst. apply M in Hr. now rewrite Hr.
  - assert (Fl : Forall flat l) by (inversion F; assumption). assert (M := mapo_iff env l Fl IH). split.
    + destruct (mapo (resolve env) l) as [r|]; [|discriminate]. intros E. injection E as <-. constructor. now apply M.
    + intros E. inversion E as [| | | | |? ? r Hr| | | |]; subst. apply M in Hr. now rewrite Hr.
  - assert (Fl : Forall flat l) by (inversion F; assumption). assert (M := mapo_iff env l Fl IH). split.
    + destruct (mapo (resolve env) l) as [r|]; [|discriminate]. intros E. injection E as <-. constructor. now apply M.
    + intros E. inversion E as [| | | | | |? r Hr| | |]; subst. apply M in Hr. now rewrite Hr.
  - assert (Q : flat t /\ exists m q, ms = m :: q) by (inversion F; eauto). destruct Q as [Ft (m & q & ->)]. specialize (IH Ft). split.
    + destruct (resolve env t) as [w|]; [|discriminate]. cbn [option_map]. intros E. injection E as <-.
      destruct (annot_dec w) as [(w' & us & ->)|N].
      * change (spells env (AAnnot t (m :: q)) (fold_left annotated (m :: q) (AAnnot w' us))). rewrite annotated_more. constructor. now apply IH.
      * change (spells env (AAnnot t (m :: q)) (fold_left annotated (m :: q) w)). rewrite annotated_plain by exact N. constructor; [now apply IH|exact N].
    + intros E. inversion E as [| | | | | | |? w ? ? Hw N|? w us ? ? Hw|]; subst; apply IH in Hw; rewrite Hw; cbn [option_map]; f_equal.
      * change (fold_left annotated (m :: q) w = AAnnot w (m :: q)). now apply annotated_plain.
      * change (fold_left annotated (m :: q) (AAnnot w us) = AAnnot w (us ++ m :: q)). apply annotated_more.
  - split; [intros E; now constructor|intros E; now inversion E].
Qed.

Lemma flat_parts s : flat_sig s -> Forall (fun p => flat (a_ann p)) (a_posonly s) /\ Forall (fun p => flat (a_ann p)) (a_poskw s) /\
  Forall (fun p => flat (a_ann p)) (opt_list (a_varpos s)) /\ Forall (fun p => flat (a_ann p)) (a_kwonly s) /\
  Forall (fun p => flat (a_ann p)) (opt_list (a_varkw s)) /\ flat (a_ret s).
Proof.
  intros H. unfold flat_sig, annos in H. inversion H as [|? ? H1 H2]; subst.
  assert (A : forall p, In p (a_params s) -> flat (a_ann p)).
  { intros p I. rewrite Forall_forall in H2. apply H2. apply in_map. exact I. }
  unfold a_params in A. repeat split; try assumption; apply Forall_forall; intros p I; apply A; rewrite !in_app_iff; tauto.
Qed.
Lemma resolve_param_iff env p : flat (a_ann p) -> forall q, resolve_param env p = Some q <-> spells_param env p q.
Proof.
  intros F q. unfold resolve_param. destruct p as [n a d]. cbn in *. split.
  - destruct (resolve env a) as [u|] eqn:E; [|discriminate]. cbn. intros X. injection X as <-. constructor. now apply resolve_iff.
  - intros X. inversion X; subst. match goal with H : spells _ _ _ |- _ => apply resolve_iff in H; [now rewrite H|exact F] end.
Qed.
Lemma resolve_params_iff env l : Forall (fun p => flat (a_ann p)) l -> forall r, resolve_params env l = Some r <-> Forall2 (spells_param env) l r.
Proof.
  induction 1 as [|p l Hp _ IH]; intros r; cbn [resolve_params].
  - split; [intros E; injection E as <-; constructor|intros E; inversion E; reflexivity].
  - split.
    + destruct (resolve_param env p) as [q|] eqn:E; [|discriminate]. destruct (resolve_params env l) as [r'|]; [|discriminate].
      intros X. injection X as <-. constructor; [now apply resolve_param_iff|now apply IH].
    + intros X. inversion X as [|? q ? r' Hq Hr]; subst. apply resolve_param_iff in Hq; [|exact Hp]. apply IH in Hr. now rewrite Hq, Hr.
Qed.
Lemma resolve_opt_iff env o : Forall (fun p => flat (a_ann p)) (opt_list o) -> forall r, resolve_opt env o = Some r <-> spells_opt env o r.
Proof.
  intros H r. destruct o as [p|]; cbn in *.
  - apply Forall_inv in H. split.
    + destruct (resolve_param env p) as [q|] eqn:E; [|discriminate]. cbn. intros X. injection X as <-. constructor. now apply resolve_param_iff.
    + intros X. inversion X as [|? q Hq]; subst. apply resolve_param_iff in Hq; [|exact H]. now rewrite Hq.
  - split; [intros E; injection E as <-; constructor|intros E; inversion E; reflexivity].
Qed.
Theorem signature_iff : forall env s s', flat_sig s -> (signature env s = Done s' <-> spells_sig env s s').
Proof.
  intros env s s' F. destruct (flat_parts s F) as (F1 & F2 & F3 & F4 & F5 & F6). unfold signature. split.
  - destruct (resolve_params env (a_posonly s)) as [p|] eqn:E1; [|discriminate]. destruct (resolve_params env (a_poskw s)) as [k|] eqn:E2; [|discriminate].
    destruct (resolve_opt env (a_varpos s)) as [v|] eqn:E3; [|discriminate]. destruct (resolve_params env (a_kwonly s)) as [o|] eqn:E4; [|discriminate].
    destruct (resolve_opt env (a_varkw s)) as [w|] eqn:E5; [|discriminate]. destruct (resolve env (a_ret s)) as [r|] eqn:E6; [|discriminate].
    intros X. injection X as <-. destruct s as [sp sk sv so sw sr]. cbn in *. constructor;
      first [now apply resolve_params_iff|now apply resolve_opt_iff|now apply resolve_iff].
  - intros X. destruct X as [p k v o w r p' k' v' o' w' r' X1 X2 X3 X4 X5 X6]. cbn in *.
    apply resolve_params_iff in X1; [|assumption]. apply resolve_params_iff in X2; [|assumption]. apply resolve_opt_iff in X3; [|assumption].
    apply resolve_params_iff in X4; [|assumption]. apply resolve_opt_iff in X5; [|assumption]. apply resolve_iff in X6; [|assumption].
    now rewrite X1, X2, X3, X4, X5, X6.
Qed.
Theorem signature_quoted : forall env s s' u, flat_sig s -> flat_sig s' -> spells_sig env s u -> spells_sig env s' u -> signature env s = signature env s'.
Proof. intros env s s' u F F' H H'. apply signature_iff in H; [|exact F]. apply signature_iff in H'; [|exact F']. congruence. Qed.

Lemma mapo_none env l : Forall (fun a => resolve env a = None <-> unknown env a) l -> (mapo (resolve env) l = None <-> exists t, In t l /\ unknown env t).
Proof.
  induction 1 as [|a l Ha _ IH].
  - cbn. split; [discriminate|intros (t & [] & _)].
  - cbn [mapo]. fold (mapo (resolve env)). destruct (resolve env a) as [b|].
    + destruct (mapo (resolve env) l) as [r|].
      * split; [discriminate|]. intros (t & [<-|I] & U); [apply Ha in U; discriminate|]. assert (X : Some r = None) by (apply IH; eauto). discriminate.
      * split; [|reflexivity]. intros _. destruct (proj1 IH eq_refl) as (t & I & U). exists t. split; [now right|exact U].
    + split; [|reflexivity]. intros _. exists a. split; [now left|now apply Ha].
Qed.
Lemma resolve_none env : forall a, resolve env a = None <-> unknown env a.
Proof.
  induction a as [| |v|c o|c o l IH|b l IH|l IH|t ms IH|x] using ann_ind2; cbn [resolve];
    try (split; [discriminate|intros U; inversion U]; fail).
  - apply mapo_none in IH. destruct (mapo (resolve env) l); cbn [option_map].
    + split; [discriminate|]. intros U. inversion U; subst. assert (X : Some l0 = None) by (apply IH; eauto). discriminate.
    + split; [|reflexivity]. intros _. destruct (proj1 IH eq_refl) as (t & I & U). econstructor; eauto.
  - apply mapo_none in IH. destruct (mapo (resolve env) l); cbn [option_map].
    + split; [discriminate|]. intros U. inversion U; subst. assert (X : Some l0 = None) by (apply IH; eauto). discriminate.
    + split; [|reflexivity]. intros _. destruct (proj1 IH eq_refl) as (t & I & U). econstructor; eauto.
  - apply mapo_none in IH. destruct (mapo (resolve env) l); cbn [option_map].
    + split; [discriminate|]. intros U. inversion U; subst. assert (X : Some l0 = None) by (apply IH; eauto). discriminate.
    + split; [|reflexivity]. intros _. destruct (proj1 IH eq_refl) as (t & I & U). econstructor; eauto.
  - destruct (resolve env t); cbn [option_map].
    + split; [discriminate|]. intros U. inversion U; subst. assert (X : Some a = None) by (apply IH; assumption). discriminate.
    + split; [|reflexivity]. intros _. constructor. now apply IH.
  - split; [intros E; now constructor|intros U; now inversion U].
Qed.
Lemma resolve_params_none env l : resolve_params env l = None <-> exists p, In p l /\ unknown env (a_ann p).
Proof.
  induction l as [|p l IH]; cbn [resolve_params]; [split; [discriminate|intros (q & [] & _)]|]. unfold resolve_param.
  assert (N := resolve_none env (a_ann p)). destruct (resolve env (a_ann p)) as [b|]; cbn [option_map].
  - destruct (resolve_params env l) as [r|].
    + split; [discriminate|]. intros (q & [<-|I] & U); [apply N in U; discriminate|]. assert (X : Some r = None) by (apply IH; eauto). discriminate.
    + split; [|reflexivity]. intros _. destruct (proj1 IH eq_refl) as (q & I & U). exists q. split; [now right|exact U].
  - split; [|reflexivity]. intros _. exists p. split; [now left|now apply N].
Qed.
Lemma resolve_opt_none env o : resolve_opt env o = None <-> exists p, In p (opt_list o) /\ unknown env (a_ann p).
Proof.
  destruct o as [p|]; cbn; [|split; [discriminate|intros (q & [] & _)]]. unfold resolve_param.
  assert (N := resolve_none env (a_ann p)). destruct (resolve env (a_ann p)) as [b|]; cbn [option_map].
  - split; [discriminate|]. intros (q & [<-|[]] & U). apply N in U. discriminate.
  - split; [|reflexivity]. intros _. exists p. split; [now left|now apply N].
Qed.
Theorem signature_unknown : forall env s, signature env s = NameError <-> exists a, In a (annos s) /\ unknown env a.
Proof.
  intros env s. unfold signature, annos, a_params.
  assert (N1 := resolve_params_none env (a_posonly s)). assert (N2 := resolve_params_none env (a_poskw s)). assert (N3 := resolve_opt_none env (a_varpos s)).
  assert (N4 := resolve_params_none env (a_kwonly s)). assert (N5 := resolve_opt_none env (a_varkw s)). assert (N6 := resolve_none env (a_ret s)).
  assert (G : forall p, In p (a_posonly s ++ a_poskw s ++ opt_list (a_varpos s) ++ a_kwonly s ++ opt_list (a_varkw s)) -> unknown env (a_ann p) ->
     exists a, In a (a_ret s :: map a_ann (a_posonly s ++ a_poskw s ++ opt_list (a_varpos s) ++ a_kwonly s ++ opt_list (a_varkw s))) /\ unknown env a).
  { intros p I U. exists (a_ann p). split; [right; now apply in_map|exact U]. }
  destruct (resolve_params env (a_posonly s)) as [p|] eqn:E1;
    [|split; [|reflexivity]; intros _; destruct (proj1 N1 eq_refl) as (q & I & U); apply (G q); [rewrite !in_app_iff; tauto|exact U]].
  destruct (resolve_params env (a_poskw s)) as [k|] eqn:E2;
    [|split; [|reflexivity]; intros _; destruct (proj1 N2 eq_refl) as (q & I & U); apply (G q); [rewrite !in_app_iff; tauto|exact U]].
  destruct (resolve_opt env (a_varpos s)) as [v|] eqn:E3;
    [|split; [|reflexivity]; intros _; destruct (proj1 N3 eq_refl) as (q & I & U); apply (G q); [rewrite !in_app_iff; tauto|exact U]].
  destruct (resolve_params env (a_kwonly s)) as [o|] eqn:E4;
    [|split; [|reflexivity]; intros _; destruct (proj1 N4 eq_refl) as (q & I & U); apply (G q); [rewrite !in_app_iff; tauto|exact U]].
  destruct (resolve_opt env (a_varkw s)) as [w|] eqn:E5;
    [|split; [|reflexivity]; intros _; destruct (proj1 N5 eq_refl) as (q & I & U); apply (G q); [rewrite !in_app_iff; tauto|exact U]].
  destruct (resolve env (a_ret s)) as [r|] eqn:E6;
    [|split; [|reflexivity]; intros _; exists (a_ret s); split; [now left|now apply N6]].
  split; [discriminate|]. intros (a & [<-|I] & U); [apply N6 in U; discriminate|]. exfalso. apply in_map_iff in I. destruct I as (q & <- & I).
  rewrite !in_app_iff in I. destruct I as [I|[I|[I|[I|I]]]].
  - assert (X : Some p = None) by (apply N1; eauto). discriminate.
  - assert (X : Some k = None) by (apply N2; eauto). discriminate.
  - assert (X : Some v = None) by (apply N3; eauto). discriminate.
  - assert (X : Some o = None) by (apply N4; eauto). discriminate.
  - assert (X : Some w = None) by (apply N5; eauto). discriminate.
Qed.

(** * Scopes written *)
Theorem scoped_variables : forall a l, scoped (One (AVar a)) = Done (MScoped [a]) /\ (l <> [] -> scoped (One (AUnion true (map AVar l))) = Done (MScoped l)).
Proof.
  intros a l. split; [reflexivity|]. intros N. destruct l as [|b l]; [now contradiction N|]. cbn. rewrite map_map. cbn. now rewrite map_id.
Qed.
Theorem scoped_refused : forall x, (forall a, x <> One (AVar a)) -> (forall l, x <> One (AUnion true l)) -> forall m, scoped x <> Done m.
Proof.
  intros x H1 H2 m. destruct x as [t|l]; [|discriminate]. destruct t; try discriminate.
  - exfalso. now apply (H1 a).
  - destruct special; [|discriminate]. exfalso. now apply (H2 l).
Qed.

(** * Scopes inferred *)
Lemma ordinal_declares a : declares a (ordinal a).
Proof.
  unfold ordinal. destruct a; try (apply de_none; discriminate). cbn [metas].
  assert (Q : (exists us l vs, ms = us ++ MScoped l :: vs /\ (forall l', ~ In (MScoped l') us) /\ find is_scoped ms = Some (MScoped l)) \/
              ((forall l, ~ In (MScoped l) ms) /\ find is_scoped ms = None)).
  { induction ms as [|m ms IH]; [right; split; [intros l []|reflexivity]|]. destruct m as [l| |n].
    - left. exists [], l, ms. split; [reflexivity|]. split; [intros l' []|reflexivity].
    - destruct IH as [(us & l & vs & E & N & F)|[N F]].
      + left. exists (MRec :: us), l, vs. split; [cbn; now rewrite E|]. split; [intros l' [H|H]; [discriminate|now apply (N l')]|exact F].
      + right. split; [intros l [H|H]; [discriminate|now apply (N l)]|exact F].
    - destruct IH as [(us & l & vs & E & N & F)|[N F]].
      + left. exists (MOther n :: us), l, vs. split; [cbn; now rewrite E|]. split; [intros l' [H|H]; [discriminate|now apply (N l')]|exact F].
      + right. split; [intros l [H|H]; [discriminate|now apply (N l)]|exact F]. }
  destruct Q as [(us & l & vs & -> & N & F)|[N F]]; rewrite F.
  - apply de_first. exact N.
  - apply de_none. intros t' ms' l E. injection E as <- <-. apply N.
Qed.
Lemma find_first ms l ms' : (forall l', ~ In (MScoped l') ms) -> find is_scoped (ms ++ MScoped l :: ms') = Some (MScoped l).
Proof.
  induction ms as [|m ms IH]; intros N; [reflexivity|]. destruct m as [l'| |n]; cbn.
  - exfalso. apply (N l'). now left.
  - apply IH. intros l' I. apply (N l'). now right.
  - apply IH. intros l' I. apply (N l'). now right.
Qed.
Lemma find_no ms : (forall l, ~ In (MScoped l) ms) -> find is_scoped ms = None.
Proof.
  induction ms as [|m ms IH]; intros N; [reflexivity|]. destruct m as [l'| |n]; cbn.
  - exfalso. apply (N l'). now left.
  - apply IH. intros l' I. apply (N l'). now right.
  - apply IH. intros l' I. apply (N l'). now right.
Qed.
Lemma declares_ordinal a d : declares a d -> d = ordinal a.
Proof.
  intros H. destruct H as [t ms l ms' N|a N]; unfold ordinal.
  - cbn [metas]. now rewrite find_first.
  - destruct a; cbn [metas]; try reflexivity. rewrite find_no; [reflexivity|]. intros l. eapply N. reflexivity.
Qed.

Lemma occurs_tvars x : forall a, In x (tvars a) <-> occurs x a.
Proof.
  induction a as [| |v|c o|c o l IH|b l IH|l IH|t ms IH|y] using ann_ind2; cbn [tvars];
    try (split; [intros []|intros H; inversion H]; fail).
  - split; [intros [->|[]]; constructor|intros H; inversion H; now left].
  - rewrite in_flat_map. rewrite Forall_forall in IH. split.
    + intros (t & I & H). apply oc_gen with t; [exact I|]. now apply IH.
    + intros H. inversion H as [|? ? ? t I Ht| | |]; subst. exists t. split; [exact I|]. now apply IH.
  - rewrite in_flat_map. rewrite Forall_forall in IH. split.
    + intros (t & I & H). apply oc_union with t; [exact I|]. now apply IH.
    + intros H. inversion H as [| |? ? t I Ht| |]; subst. exists t. split; [exact I|]. now apply IH.
  - rewrite in_flat_map. rewrite Forall_forall in IH. split.
    + intros (t & I & H). apply oc_list with t; [exact I|]. now apply IH.
    + intros H. inversion H as [| | |? t I Ht|]; subst. exists t. split; [exact I|]. now apply IH.
  - rewrite IH. split; [now constructor|intros H; now inversion H].
Qed.
Lemma memn_In x l : memn x l = true <-> In x l.
Proof. unfold memn. rewrite existsb_exists. split; [intros (y & I & E); apply Nat.eqb_eq in E; now subst|intros I; exists x; split; [exact I|apply Nat.eqb_refl]]. Qed.
Lemma subset_incl l l' : subset l l' = true <-> incl l l'.
Proof. unfold subset. rewrite forallb_forall. split; intros H x I; [apply memn_In; now apply H|apply memn_In; now apply H]. Qed.
Lemma inter_In x l l' : In x (inter l l') <-> In x l /\ In x l'.
Proof. unfold inter. rewrite filter_In, memn_In. reflexivity. Qed.
Lemma single_iff s : single s = true <-> forall p, In p (a_params s) -> at_most_one (a_ann p).
Proof.
  unfold single. rewrite forallb_forall.
  assert (K : forall a, (length (filter is_scoped (metas a)) <=? 1) = true <-> at_most_one a).
  { intros a. rewrite Nat.leb_le. split.
    - intros L t u l v l' w ->. cbn [metas] in L. rewrite filter_app in L. cbn [filter is_scoped] in L. rewrite filter_app in L. cbn [filter is_scoped] in L.
      rewrite app_length in L. cbn [length] in L. rewrite app_length in L. cbn [length] in L. lia.
    - intros A. destruct a; cbn [metas filter length]; try lia.
      destruct (filter is_scoped ms) as [|m1 [|m2 q]] eqn:E; cbn; try lia. exfalso.
      assert (S : forall ms m q, filter is_scoped ms = m :: q -> exists u l v, ms = u ++ MScoped l :: v /\ filter is_scoped v = q).
      { clear. induction ms as [|m0 ms IH]; intros m q E; [discriminate|]. destruct m0 as [l| |n]; cbn in E.
        - injection E as <- <-. exists [], l, ms. split; reflexivity.
        - destruct (IH m q E) as (u & l & v & -> & F). exists (MRec :: u), l, v. split; [reflexivity|exact F].
        - destruct (IH m q E) as (u & l & v & -> & F). exists (MOther n :: u), l, v. split; [reflexivity|exact F]. }
      destruct (S _ _ _ E) as (u & l & v & -> & F). destruct (S _ _ _ F) as (u' & l' & v' & -> & _). exact (A _ _ _ _ _ _ eq_refl). }
  split; intros H p I; specialize (H p I); now apply K in H || now apply K.
Qed.
Lemma disjoint_iff s : disjoint s = true <-> forall a b d x, In a (annos s) -> In b (annos s) -> declares a d -> In x d -> ~ occurs x b.
Proof.
  unfold disjoint. rewrite forallb_forall. split.
  - intros H a b d x Ia Ib D Ix O. apply declares_ordinal in D. subst d. specialize (H a Ia). rewrite forallb_forall in H. specialize (H x Ix).
    apply negb_true_iff in H. apply not_true_iff_false in H. apply H. apply memn_In. apply in_flat_map. exists b. split; [exact Ib|]. now apply occurs_tvars.
  - intros H a Ia. apply forallb_forall. intros x Ix. apply negb_true_iff. apply not_true_iff_false. intros M. apply memn_In in M.
    apply in_flat_map in M. destruct M as (b & Ib & O). apply occurs_tvars in O. exact (H a b (ordinal a) x Ia Ib (ordinal_declares a) Ix O).
Qed.
Lemma fold_inter_In x ps : forall acc, In x (fold_left (fun acc p => inter acc (ordinal (a_ann p))) ps acc) <-> In x acc /\ forall p, In p ps -> In x (ordinal (a_ann p)).
Proof.
  induction ps as [|p ps IH]; intros acc; cbn [fold_left].
  - split; [intros H; split; [exact H|intros p []]|intros [H _]; exact H].
  - rewrite IH, inter_In. split.
    + intros [[H1 H2] H3]. split; [exact H1|]. intros q [<-|I]; auto.
    + intros [H1 H2]. split; [split; [exact H1|apply H2; now left]|]. intros q I. apply H2. now right.
Qed.
Lemma root_everywhere s x : In x (root s) <-> everywhere s x.
Proof.
  unfold root. rewrite fold_inter_In. unfold everywhere, annos. split.
  - intros [H1 H2] a d [<-|I] D; apply declares_ordinal in D; subst d; [exact H1|]. apply in_map_iff in I. destruct I as (p & <- & I). now apply H2.
  - intros H. split; [apply (H (a_ret s)); [now left|apply ordinal_declares]|]. intros p I. apply (H (a_ann p)); [right; now apply in_map|apply ordinal_declares].
Qed.
Lemma unbound_iff s : unbound s = true <-> forall p, In p (a_params s) -> is_var (a_ann p) = true ->
  ~ (incl (root s) (ordinal (a_ann p)) /\ ~ incl (ordinal (a_ann p)) (root s) /\ incl (ordinal (a_ann p)) (ordinal (a_ret s))).
Proof.
  unfold unbound. rewrite negb_true_iff, <- not_true_iff_false, existsb_exists. split.
  - intros H p I V (A & B & C). apply H. exists p. split; [exact I|]. rewrite V. cbn [andb]. apply subset_incl in A. apply subset_incl in C. rewrite A, C.
    cbn [andb]. rewrite andb_true_r. apply negb_true_iff. apply not_true_iff_false. now rewrite subset_incl.
  - intros H (p & I & E). apply andb_prop in E. destruct E as [E C]. apply andb_prop in E. destruct E as [V E]. apply andb_prop in E. destruct E as [A B].
    apply (H p I V). split; [now apply subset_incl|]. split; [|now apply subset_incl]. apply negb_true_iff in B. apply not_true_iff_false in B. now rewrite subset_incl in B.
Qed.

Lemma others_no_scope a m : In m (filter (fun m => negb (is_scoped m)) (metas a)) -> forall l, m <> MScoped l.
Proof. intros I l ->. apply filter_In in I. destruct I as [_ I]. discriminate. Qed.
Lemma new_ann_is r a : (forall w us, strip a <> AAnnot w us) ->
  new_ann r a = AAnnot (strip a) (MScoped (ordinal a ++ r) :: filter (fun m => negb (is_scoped m)) (metas a)).
Proof.
  intros N. unfold new_ann. assert (E : annotated (strip a) (MScoped (ordinal a ++ r)) = AAnnot (strip a) [MScoped (ordinal a ++ r)]).
  { destruct (strip a); try reflexivity. exfalso. eapply N. reflexivity. }
  rewrite E, annotated_more. reflexivity.
Qed.
Lemma flat_strip a : flat a -> forall w us, strip a <> AAnnot w us.
Proof. intros F. destruct F; cbn [strip]; try discriminate. assumption. Qed.
Lemma filter_marks ms : other_marks ms (filter (fun m => negb (is_scoped m)) ms).
Proof. induction ms as [|m ms IH]; [constructor|]. destruct m; cbn [filter is_scoped negb]; constructor; exact IH. Qed.
Lemma new_ann_joined r a : flat a -> joined r a (new_ann r a).
Proof.
  intros F. rewrite new_ann_is by now apply flat_strip. destruct (annot_dec a) as [(t & ms & ->)|N].
  - cbn [strip metas]. apply jn_annot with (ordinal (AAnnot t ms)); [apply ordinal_declares|intros x; reflexivity|apply filter_marks].
  - assert (E : strip a = a /\ metas a = [] /\ ordinal a = []) by (destruct a; try (repeat split; reflexivity); exfalso; eapply N; reflexivity).
    destruct E as (E1 & E2 & E3). rewrite E1, E2, E3. apply jn_plain; [exact N|intros x; reflexivity].
Qed.
Lemma new_ordinal r a : flat a -> ordinal (new_ann r a) = ordinal a ++ r.
Proof. intros F. rewrite new_ann_is by now apply flat_strip. reflexivity. Qed.
Lemma new_strip r a : flat a -> strip (new_ann r a) = strip a.
Proof. intros F. rewrite new_ann_is by now apply flat_strip. reflexivity. Qed.
Lemma new_tvars r a : flat a -> tvars (new_ann r a) = tvars a.
Proof. intros F. rewrite new_ann_is by now apply flat_strip. destruct a; reflexivity. Qed.
Lemma new_is_var r a : flat a -> is_var (new_ann r a) = is_var a.
Proof. intros F. unfold is_var. now rewrite new_strip. Qed.
Lemma opt_map_list {A B} (f : A -> B) o : opt_list (option_map f o) = map f (opt_list o).
Proof. now destruct o. Qed.
Lemma new_params r s : a_params (new_sig r s) = map (new_param r) (a_params s).
Proof. unfold a_params, new_sig. cbn. rewrite !opt_map_list, !map_app. reflexivity. Qed.
Lemma new_annos r s : annos (new_sig r s) = map (new_ann r) (annos s).
Proof. unfold annos. rewrite new_params. cbn. f_equal. rewrite !map_map. reflexivity. Qed.
Lemma flat_in s a : flat_sig s -> In a (annos s) -> flat a.
Proof. intros F I. unfold flat_sig in F. rewrite Forall_forall in F. now apply F. Qed.
Lemma root_in s a : In a (annos s) -> incl (root s) (ordinal a).
Proof. intros I x R. apply root_everywhere in R. exact (R a (ordinal a) I (ordinal_declares a)). Qed.
Lemma fresh_nowhere s : nowhere s (fresh s).
Proof.
  assert (B : forall x, In x (flat_map (fun a => tvars a ++ ordinal a ++ every a) (annos s)) -> x < fresh s).
  { intros x I. unfold fresh. assert (L := proj1 (list_max_le (flat_map (fun a => tvars a ++ ordinal a ++ every a) (annos s)) _) (le_n _)).
    rewrite Forall_forall in L. specialize (L x I). lia. }
  intros a I. split.
  - intros O. apply occurs_tvars in O. assert (X : fresh s < fresh s); [|lia]. apply B. apply in_flat_map. exists a. split; [exact I|]. apply in_app_iff. now left.
  - intros d D Id. apply declares_ordinal in D. subst d. assert (X : fresh s < fresh s); [|lia]. apply B. apply in_flat_map. exists a. split; [exact I|]. rewrite !in_app_iff. tauto.
Qed.
Definition the_root (s : asig) : list nat := match root s with [] => [fresh s] | r => r end.
Lemma the_root_spec s : the_root s <> [] /\ ((root s <> [] /\ the_root s = root s) \/ (root s = [] /\ the_root s = [fresh s])).
Proof. unfold the_root. destruct (root s); split; try discriminate; [right; split; reflexivity|left; split; [discriminate|reflexivity]]. Qed.
(** the root of the new signature *)
Lemma new_root s : flat_sig s -> same_set (root (new_sig (the_root s) s)) (the_root s).
Proof.
  intros F x. rewrite root_everywhere. unfold everywhere. rewrite new_annos. split.
  - intros H.
    assert (Q : forall a, In a (annos s) -> In x (ordinal a) \/ In x (the_root s)).
    { intros a I. assert (X := H (new_ann (the_root s) a) (ordinal (new_ann (the_root s) a)) (in_map _ _ _ I) (ordinal_declares _)).
      rewrite new_ordinal in X by (now apply (flat_in s)). now apply in_app_iff in X. }
    destruct (in_dec Nat.eq_dec x (the_root s)) as [|N]; [assumption|]. exfalso. apply N.
    assert (R : In x (root s)). { apply root_everywhere. intros a d I D. apply declares_ordinal in D. subst d. destruct (Q a I); [assumption|contradiction]. }
    destruct (the_root_spec s) as [_ [[_ ->]|[E _]]]; [exact R|]. rewrite E in R. destruct R.
  - intros R a d I D. apply declares_ordinal in D. subst d. apply in_map_iff in I. destruct I as (b & <- & I). rewrite new_ordinal by (now apply (flat_in s)).
    apply in_app_iff. now right.
Qed.
Lemma infer_is s : flat_sig s -> infer s = if single s && disjoint s && unbound s then Done (new_sig (the_root s) s) else AssertionError.
Proof.
  intros F. unfold infer. destruct (single s && disjoint s && unbound s); [|reflexivity]. fold (the_root s).
  assert (N := new_root s F). rewrite (proj2 (subset_incl _ _)) by (intros x; apply N). rewrite (proj2 (subset_incl _ _)) by (intros x; apply N). reflexivity.
Qed.

Lemma is_var_iff a : is_var a = true <-> an_operation a.
Proof.
  split; [|intros H; destruct H; reflexivity]. destruct a as [| |v|c [|]|c [|] l|b l|l|t ms|x]; cbn; try discriminate; try (intros _; constructor).
  destruct t as [| |v|c [|]|c [|] l|b l|l|t ms'|x]; cbn; try discriminate; intros _; constructor.
Qed.
Theorem infer_accepts : forall s, flat_sig s -> ((exists s', infer s = Done s') <->
  (forall p, In p (a_params s) -> at_most_one (a_ann p)) /\
  (forall a b d x, In a (annos s) -> In b (annos s) -> declares a d -> In x d -> ~ occurs x b) /\
  (forall p d t, In p (a_params s) -> an_operation (a_ann p) -> declares (a_ann p) d -> declares (a_ret s) t -> incl d t -> forall x, In x d -> everywhere s x)).
Proof.
  intros s F. rewrite infer_is by exact F.
  assert (U : unbound s = true <-> (forall p d t, In p (a_params s) -> an_operation (a_ann p) -> declares (a_ann p) d -> declares (a_ret s) t -> incl d t -> forall x, In x d -> everywhere s x)).
  { rewrite unbound_iff. split.
    - intros H p d t I V D T C x X. apply is_var_iff in V. apply declares_ordinal in D. apply declares_ordinal in T. subst d t. apply root_everywhere.
      destruct (in_dec Nat.eq_dec x (root s)) as [|N]; [assumption|]. exfalso. apply (H p I V). split; [apply root_in; right; now apply in_map|]. split; [intros K; now apply N, K|exact C].
    - intros H p I V (_ & B & C). apply is_var_iff in V. apply B. intros x X. apply root_everywhere. exact (H p _ _ I V (ordinal_declares _) (ordinal_declares _) C x X). }
  split.
  - intros (s' & E). destruct (single s) eqn:E1; [|discriminate]. destruct (disjoint s) eqn:E2; [|discriminate]. destruct (unbound s) eqn:E3; [|discriminate].
    split; [now apply single_iff|]. split; [now apply disjoint_iff|now apply U].
  - intros (H1 & H2 & H3). apply single_iff in H1. apply disjoint_iff in H2. apply U in H3. rewrite H1, H2, H3. eexists. reflexivity.
Qed.
Lemma infer_done s s' : flat_sig s -> infer s = Done s' -> s' = new_sig (the_root s) s /\ single s = true /\ disjoint s = true /\ unbound s = true.
Proof.
  intros F E. rewrite infer_is in E by exact F. destruct (single s) eqn:E1; [|discriminate]. destruct (disjoint s) eqn:E2; [|discriminate]. destruct (unbound s) eqn:E3; [|discriminate].
  cbn in E. injection E as <-. auto.
Qed.
Theorem infer_errors : forall s, flat_sig s -> (exists s', infer s = Done s') \/ infer s = AssertionError.
Proof. intros s F. rewrite infer_is by exact F. destruct (single s && disjoint s && unbound s); [left; eauto|now right]. Qed.
Lemma joined_params r l : Forall (fun p => flat (a_ann p)) l -> Forall2 (joined_param r) l (map (new_param r) l).
Proof. induction 1 as [|p l Hp _ IH]; cbn; constructor; [|exact IH]. destruct p as [n a d]. constructor. now apply new_ann_joined. Qed.
Lemma joined_opts r o : Forall (fun p => flat (a_ann p)) (opt_list o) -> joined_opt r o (option_map (new_param r) o).
Proof. intros H. destruct o as [p|]; cbn; constructor. apply Forall_inv in H. destruct p as [n a d]. constructor. now apply new_ann_joined. Qed.
Theorem infer_joined : forall s s', flat_sig s -> infer s = Done s' ->
  exists r, joined_sig r s s' /\ r <> [] /\ ((forall x, In x r <-> everywhere s x) \/ ((forall x, ~ everywhere s x) /\ exists x, r = [x] /\ nowhere s x)) /\ forall x, In x r <-> everywhere s' x.
Proof.
  intros s s' F E. destruct (infer_done s s' F E) as (-> & _). exists (the_root s). split.
  { destruct (flat_parts s F) as (F1 & F2 & F3 & F4 & F5 & F6). destruct s as [p k v o w t]. cbn in F1, F2, F3, F4, F5, F6. unfold new_sig. cbn [a_posonly a_poskw a_varpos a_kwonly a_varkw a_ret].
    constructor; first [now apply joined_params|now apply joined_opts|now apply new_ann_joined]. }
  destruct (the_root_spec s) as [N S]. split; [exact N|]. split.
  - destruct S as [[_ ->]|[E0 ->]]; [left; intros x; apply root_everywhere|right]. split; [|exists (fresh s); split; [reflexivity|apply fresh_nowhere]].
    intros x X. apply root_everywhere in X. rewrite E0 in X. destruct X.
  - intros x. rewrite <- root_everywhere. symmetry. apply new_root. exact F.
Qed.

(** * Once more *)
Lemma new_flat r s : flat_sig s -> flat_sig (new_sig r s).
Proof.
  intros F. unfold flat_sig. rewrite new_annos. apply Forall_forall. intros a I. apply in_map_iff in I. destruct I as (b & <- & I).
  assert (Fb := flat_in s b F I). rewrite new_ann_is by now apply flat_strip. constructor; [|now apply flat_strip]. destruct Fb; cbn [strip]; try constructor; assumption.
Qed.
Lemma new_single r s : flat_sig s -> single (new_sig r s) = true.
Proof.
  intros F. apply single_iff. rewrite new_params. intros p I. apply in_map_iff in I. destruct I as (q & <- & I). cbn [new_param a_ann].
  assert (Fq : flat (a_ann q)) by (apply (flat_in s); [exact F|right; now apply in_map]).
  rewrite new_ann_is by now apply flat_strip. intros t u l v l' w E. injection E as _ E.
  assert (K : In (MScoped l') (filter (fun m => negb (is_scoped m)) (metas (a_ann q)))).
  { destruct u as [|m u]; cbn in E; injection E as _ E; rewrite E; apply in_app_iff; right; [now left|]. right. apply in_app_iff. right. now left. }
  exact (others_no_scope _ _ K _ eq_refl).
Qed.
Lemma new_disjoint s : flat_sig s -> disjoint s = true -> disjoint (new_sig (the_root s) s) = true.
Proof.
  intros F D. rewrite disjoint_iff in *. rewrite new_annos. intros a b d x Ia Ib Dd X O. apply declares_ordinal in Dd. subst d.
  apply in_map_iff in Ia. destruct Ia as (a0 & <- & Ia). apply in_map_iff in Ib. destruct Ib as (b0 & <- & Ib).
  rewrite new_ordinal in X by (now apply (flat_in s)). apply occurs_tvars in O. rewrite new_tvars in O by (now apply (flat_in s)). apply occurs_tvars in O.
  apply in_app_iff in X. destruct X as [X|X]; [exact (D a0 b0 _ x Ia Ib (ordinal_declares _) X O)|].
  destruct (the_root_spec s) as [_ [[_ E]|[_ E]]]; rewrite E in X.
  - apply (D a0 b0 (ordinal a0) x Ia Ib (ordinal_declares _)); [now apply (root_in s a0 Ia)|exact O].
  - destruct X as [<-|[]]. exact (proj1 (fresh_nowhere s b0 Ib) O).
Qed.
Lemma new_incl s a b : flat_sig s -> In a (annos s) -> In b (annos s) ->
  (incl (ordinal (new_ann (the_root s) a)) (ordinal (new_ann (the_root s) b)) <-> incl (ordinal a) (ordinal b)).
Proof.
  intros F Ia Ib. rewrite !new_ordinal by (now apply (flat_in s)). destruct (the_root_spec s) as [_ [[_ E]|[_ E]]]; rewrite E; split.
  - intros H x X. assert (Y := H x (in_or_app _ _ _ (or_introl X))). apply in_app_iff in Y. destruct Y as [Y|Y]; [exact Y|]. now apply (root_in s b Ib).
  - intros H x X. apply in_app_iff in X. apply in_app_iff. destruct X as [X|X]; [left; now apply H|now right].
  - intros H x X. assert (Y := H x (in_or_app _ _ _ (or_introl X))). apply in_app_iff in Y. destruct Y as [Y|[Y|[]]]; [exact Y|]. subst x.
    exfalso. exact (proj2 (fresh_nowhere s a Ia) _ (ordinal_declares a) X).
  - intros H x X. apply in_app_iff in X. apply in_app_iff. destruct X as [X|X]; [left; now apply H|now right].
Qed.
Lemma new_unbound s : flat_sig s -> unbound s = true -> unbound (new_sig (the_root s) s) = true.
Proof.
  intros F U. rewrite unbound_iff in *. rewrite new_params. intros p I V (A & B & C). apply in_map_iff in I. destruct I as (q & <- & I). cbn [new_param a_ann] in *.
  assert (Iq : In (a_ann q) (annos s)) by (right; now apply in_map). assert (Fq := flat_in s _ F Iq). rewrite new_is_var in V by exact Fq.
  assert (Ir : In (a_ret s) (annos s)) by now left. change (a_ret (new_sig (the_root s) s)) with (new_ann (the_root s) (a_ret s)) in C.
  apply (new_incl s _ _ F Iq Ir) in C. apply (U q I V). split; [now apply root_in|]. split; [|exact C]. intros K. apply B. rewrite new_ordinal by exact Fq.
  intros x X. apply (new_root s F). apply in_app_iff in X. destruct X as [X|X]; [|exact X]. apply K in X.
  destruct (the_root_spec s) as [_ [[_ ->]|[E _]]]; [exact X|]. rewrite E in X. destruct X.
Qed.
Lemma same_ann_new s a r : flat_sig s -> In a (annos s) -> same_set r (the_root s) ->
  same_ann (new_ann (the_root s) a) (new_ann r (new_ann (the_root s) a)).
Proof.
  intros F I R. assert (Fa := flat_in s a F I). assert (Ff := flat_in (new_sig (the_root s) s) (new_ann (the_root s) a) (new_flat _ _ F)).
  rewrite (new_ann_is r) by (apply flat_strip, Ff; rewrite new_annos; now apply in_map). rewrite new_ordinal, new_strip by exact Fa.
  rewrite (new_ann_is (the_root s) a) by now apply flat_strip. cbn [metas same_ann]. split; [reflexivity|]. cbn [filter is_scoped negb]. constructor.
  - cbn. intros x. rewrite !in_app_iff, (R x). tauto.
  - assert (X : filter (fun m => negb (is_scoped m)) (filter (fun m => negb (is_scoped m)) (metas a)) = filter (fun m => negb (is_scoped m)) (metas a)).
    { induction (metas a) as [|m l IH]; [reflexivity|]. cbn [filter]. destruct (negb (is_scoped m)) eqn:E; [|exact IH]. cbn [filter]. rewrite E. now rewrite IH. }
    rewrite X. clear X. induction (filter (fun m => negb (is_scoped m)) (metas a)) as [|m l IH]; constructor; [|exact IH]. destruct m; cbn; try reflexivity. 
    all: intros x; reflexivity.
Qed.
Theorem infer_again : forall s s', flat_sig s -> infer s = Done s' -> exists s'', infer s' = Done s'' /\ same_sig s' s''.
Proof.
  intros s s' F E. destruct (infer_done s s' F E) as (-> & S1 & S2 & S3). assert (F' := new_flat (the_root s) s F).
  rewrite infer_is by exact F'. rewrite new_single, new_disjoint, new_unbound by assumption. cbn [andb]. eexists. split; [reflexivity|].
  assert (R : same_set (the_root (new_sig (the_root s) s)) (the_root s)).
  { destruct (the_root_spec (new_sig (the_root s) s)) as [_ [[_ ->]|[E0 _]]]; [now apply new_root|].
    exfalso. destruct (the_root s) as [|x r] eqn:E1; [now apply (proj1 (the_root_spec s))|]. assert (X := proj2 (new_root s F x)). rewrite E1, E0 in X. apply X. now left. }
  set (r := the_root (new_sig (the_root s) s)) in *.
  assert (P : forall p, In p (a_params s) -> same_param (new_param (the_root s) p) (new_param r (new_param (the_root s) p))).
  { intros p I. split; [reflexivity|]. split; [reflexivity|]. cbn [new_param a_ann]. apply same_ann_new; [exact F|right; now apply in_map|exact R]. }
  assert (L : forall l, (forall p, In p l -> In p (a_params s)) -> Forall2 same_param (map (new_param (the_root s)) l) (map (new_param r) (map (new_param (the_root s)) l))).
  { induction l as [|p l IH]; intros H; cbn; constructor; [apply P, H; now left|]. apply IH. intros q I. apply H. now right. }
  assert (O : forall o, (forall p, In p (opt_list o) -> In p (a_params s)) -> same_opt (option_map (new_param (the_root s)) o) (option_map (new_param r) (option_map (new_param (the_root s)) o))).
  { intros [p|] H; cbn; [|exact Logic.I]. apply P, H. now left. }
  unfold a_params in L, O. unfold same_sig, new_sig. cbn [a_posonly a_poskw a_varpos a_kwonly a_varkw a_ret].
  split; [apply L; intros p I; rewrite !in_app_iff; tauto|]. split; [apply L; intros p I; rewrite !in_app_iff; tauto|]. split; [apply O; intros p I; rewrite !in_app_iff; tauto|].
  split; [apply L; intros p I; rewrite !in_app_iff; tauto|]. split; [apply O; intros p I; rewrite !in_app_iff; tauto|].
  apply same_ann_new; [exact F|now left|exact R].
Qed.

(** * Binding *)
Theorem infer_within : forall s s', flat_sig s -> infer s = Done s' ->
  forall i j a b a' b' d e d' e', nth_error (annos s) i = Some a -> nth_error (annos s) j = Some b -> nth_error (annos s') i = Some a' -> nth_error (annos s') j = Some b' ->
  declares a d -> declares b e -> declares a' d' -> declares b' e' -> (incl d' e' <-> incl d e).
Proof.
  intros s s' F E i j a b a' b' d e d' e' Na Nb Na' Nb' D1 D2 D3 D4. destruct (infer_done s s' F E) as (-> & _). rewrite new_annos in Na', Nb'.
  rewrite nth_error_map, Na in Na'. rewrite nth_error_map, Nb in Nb'. injection Na' as <-. injection Nb' as <-.
  apply declares_ordinal in D1. apply declares_ordinal in D2. apply declares_ordinal in D3. apply declares_ordinal in D4. subst.
  apply new_incl; [exact F|now apply nth_error_In in Na|now apply nth_error_In in Nb].
Qed.
Lemma to_params s : params (to_sig s) = map to_param (a_params s).
Proof. unfold params, a_params, to_sig. cbn. rewrite !opt_map_list, !map_app. reflexivity. Qed.
Lemma to_root s : root_ordinal (to_sig s) = root s.
Proof.
  unfold root_ordinal, root. rewrite to_params. cbn [ret to_sig]. generalize (ordinal (a_ret s)). induction (a_params s) as [|p l IH]; intros acc; cbn; [reflexivity|apply IH].
Qed.
Lemma to_check s : check_result (to_sig s) = unbound s.
Proof.
  unfold check_result, unbound. rewrite to_root, to_params. f_equal. induction (a_params s) as [|p l IH]; [reflexivity|]. cbn [map existsb]. now rewrite IH.
Qed.
(** the scopes of [TermModel]: the fresh variable is its [Root] *)
Definition as_tv (s : asig) (x : nat) : tv := if root s then (if x =? fresh s then Root else TV x) else TV x.
Theorem to_scopes : forall s a t, flat_sig s -> In a (annos s) -> In t (infer_ord (to_sig s) (ordinal a)) <-> exists x, In x (ordinal (new_ann (the_root s) a)) /\ t = as_tv s x.
Proof.
  intros s a t F I. rewrite new_ordinal by (now apply (flat_in s)). unfold infer_ord. rewrite to_root. unfold the_root, as_tv. destruct (root s) as [|y r] eqn:E.
  - rewrite in_app_iff, in_map_iff. split.
    + intros [(x & <- & X)|[<-|[]]].
      * exists x. split; [apply in_app_iff; now left|]. destruct (Nat.eqb_spec x (fresh s)) as [->|N]; [|reflexivity]. exfalso. exact (proj2 (fresh_nowhere s a I) _ (ordinal_declares a) X).
      * exists (fresh s). split; [apply in_app_iff; right; now left|]. now rewrite Nat.eqb_refl.
    + intros (x & X & ->). apply in_app_iff in X. destruct X as [X|[<-|[]]].
      * left. destruct (Nat.eqb_spec x (fresh s)) as [->|N]; [exfalso; exact (proj2 (fresh_nowhere s a I) _ (ordinal_declares a) X)|]. exists x. auto.
      * right. rewrite Nat.eqb_refl. now left.
  - rewrite in_app_iff, in_map_iff. change (map TV (y :: r)) with (map TV (y :: r)). rewrite in_map_iff. split.
    + intros [(x & <- & X)|(x & <- & X)]; exists x; (split; [apply in_app_iff; tauto|reflexivity]).
    + intros (x & X & ->). apply in_app_iff in X. destruct X as [X|X]; [left|right]; exists x; auto.
Qed.
(** * Recursive templates *)
Theorem rec_never : forall s, rec_infer s = Done s.
Proof. intros s. unfold rec_infer. cbn [origin_annotated andb]. assert (E : existsb (fun _ : aparam => false) (a_params s) = false) by (induction (a_params s); auto). now rewrite E. Qed.
Lemma is_recursive_iff s : is_recursive s = true <-> exists t ms, a_ret s = AAnnot t ms /\ In MRec ms.
Proof.
  unfold is_recursive. rewrite existsb_exists. split.
  - intros (m & I & E). destruct m; try discriminate. destruct (a_ret s); try (destruct I; fail). eauto.
  - intros (t & ms & E & I). rewrite E. exists MRec. split; [exact I|reflexivity].
Qed.
Theorem rec_kept : forall s s', flat_sig s -> infer s = Done s' -> (is_recursive s' = true <-> exists t ms, a_ret s = AAnnot t ms /\ In MRec ms).
Proof.
  intros s s' F E. destruct (infer_done s s' F E) as (-> & _). unfold is_recursive. cbn [new_sig a_ret].
  rewrite new_ann_is by (apply flat_strip; apply (flat_in s); [exact F|now left]). rewrite <- is_recursive_iff. unfold is_recursive. cbn [metas existsb is_rec orb].
  rewrite !existsb_exists. split; intros (m & I & M); exists m; (split; [|exact M]).
  - apply filter_In in I. apply I.
  - apply filter_In. split; [exact I|]. destruct m; [discriminate|reflexivity|reflexivity].
Qed.
