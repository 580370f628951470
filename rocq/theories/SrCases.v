(** What evaluates, what the optimisation does, and what goes wrong. *)
From Coq Require Import String List Bool Arith ZArith Lia.
Import ListNotations.
From Verif Require Import SrModel SrSpec SrProofs SrLaws.
Local Open Scope list_scope.

(** More fuel *)
Lemma bindo_mono o o' f f' r : (forall t, o = Ok t -> o' = Ok t) -> (forall t x, f t = Ok x -> f' t = Ok x) -> bindo o f = Ok r -> bindo o' f' = Ok r.
Proof. intros A B H. apply bindo_ok in H. destruct H as [t [E H]]. rewrite (A t E). cbn [bindo]. apply B. exact H. Qed.
Lemma pairs_mono f f' l : (forall t x, f t = Ok x -> f' t = Ok x) -> forall g r, pairs f l g = Ok r -> pairs f' l g = Ok r.
Proof.
  intros M. induction l as [|[a b] l IH]; intros g r H; cbn [pairs] in *; [exact H|].
  revert H. apply bindo_mono; [apply M|]. intros a' x. apply bindo_mono; [apply M|]. intros b' y. apply IH.
Qed.
Lemma named_mono f f' l : (forall t x, f t = Ok x -> f' t = Ok x) -> forall g r, named f l g = Ok r -> named f' l g = Ok r.
Proof.
  intros M. induction l as [|[a b] l IH]; intros g r H; cbn [named] in *; [exact H|].
  revert H. apply bindo_mono; [apply M|]. intros b' y. apply IH.
Qed.
Lemma loop_mono f f' m : (forall k v x, f k v = Ok x -> f' k v = Ok x) -> forall acc r, loop f acc m = Ok r -> loop f' acc m = Ok r.
Proof.
  intros M. induction m as [|[k v] m IH]; intros acc r H; cbn [loop] in *; [exact H|].
  revert H. apply bindo_mono; [apply M|]. intros t x. destruct t; try discriminate. destruct (plus acc v0); [apply IH | discriminate].
Qed.
Lemma make_sum_mono run run' e b r : (forall s t x, run s t = Ok x -> run' s t = Ok x) -> make_sum run e b = Ok r -> make_sum run' e b = Ok r.
Proof.
  intros M H. unfold make_sum in *. destruct e as [[x|[|] m]| | | | | | | |]; try exact H.
  destruct b as [[x|[|] d]| | | | | | | |]; try exact H; revert H; apply loop_mono; intros k v x; apply M.
Qed.
Lemma ev_more opt n : forall m s t x, n <= m -> ev opt n s t = Ok x -> ev opt m s t = Ok x.
Proof.
  induction n as [|n IH]; intros m s t x L H; [discriminate|]. destruct m as [|m]; [lia|]. rewrite ev_S in *. cbv zeta in *.
  assert (M : forall s t x, ev opt n s t = Ok x -> ev opt m s t = Ok x) by (intros; apply IH; [lia | assumption]).
  destruct t as [v|i|l|a b|l|a b|a b|e b|e b]; try exact H.
  - revert H. apply pairs_mono. apply M.
  - revert H. apply bindo_mono; [apply M|]. intros a' y. apply bindo_mono; [apply M|]. auto.
  - revert H. apply named_mono. apply M.
  - revert H. apply bindo_mono; [apply M|]. intros a' y. apply bindo_mono; [apply M|]. auto.
  - revert H. apply bindo_mono; [apply M|]. intros a' y. apply bindo_mono; [apply M|]. auto.
  - revert H. apply bindo_mono; [apply M|]. intros a' y. apply bindo_mono; [apply M|]. intros b' z. apply make_sum_mono. exact M.
  - revert H. apply bindo_mono; [apply M|]. intros a' y. apply bindo_mono; [apply M|]. intros b' z. unfold make_let. destruct (if opt then fuse a' b' else None); apply M.
Qed.

(** Bodies without binders: with values for all or no variables *)
Definition is_val (t : tm) : Prop := exists v, t = Val v.
Definition good (n : nat) (q : Prop) (r : env) (s : nat -> tm) : Prop :=
  forall i, i < n -> (exists v, s i = Val v /\ r i = Some v) \/ (s i = Var i /\ ~ q).
Definition result (n : nat) (q : Prop) (r : env) (v : val) (t : tm) : Prop := simple n t /\ den r t = Some v /\ (q -> is_val t).
Lemma both_some {A B C} (f : A -> B -> option C) x y z : both f x y = Some z -> exists a b, x = Some a /\ y = Some b /\ f a b = Some z.
Proof. destruct x, y; cbn; intros H; try discriminate. eauto. Qed.
Lemma simple_list (n : nat) (q : Prop) (r : env) (s : nat -> tm) l :
  Forall (fun kv => (forall v, den r (fst kv) = Some v -> exists N, forall m, N <= m -> exists t, ev false m s (fst kv) = Ok t /\ result n q r v t) /\
                    (forall v, den r (snd kv) = Some v -> exists N, forall m, N <= m -> exists t, ev false m s (snd kv) = Ok t /\ result n q r v t)) l ->
  forall es, every (map (fun kv => entry (den r (fst kv)) (den r (snd kv))) l) = Some es ->
  exists N, forall m, N <= m -> exists l', (forall g, pairs (ev false m s) l g = g l') /\
     Forall (fun kv => simple n (fst kv) /\ simple n (snd kv)) l' /\ every (map (fun kv => entry (den r (fst kv)) (den r (snd kv))) l') = Some es /\ (q -> has_term l' = false).
Proof.
  intros F. induction F as [|[a b] l [Ha Hb] F IH]; intros es H; cbn [map every fst snd] in *.
  - exists 0. intros m _. exists []. split; [reflexivity|]. split; [constructor|]. split; [exact H | reflexivity].
  - apply both_some in H. destruct H as [e0 [es0 [E0 [E1 H]]]]. injection H as <-.
    pose proof E0 as E0'. unfold entry in E0. apply both_some in E0. destruct E0 as [ka [vb [Ea [Eb E0]]]].
    destruct (Ha ka Ea) as [N1 H1]. destruct (Hb vb Eb) as [N2 H2]. destruct (IH es0 E1) as [N3 H3]. exists (N1 + N2 + N3). intros m L.
    destruct (H1 m) as [a' [A1 [A2 [A3 A4]]]]; [lia|]. destruct (H2 m) as [b' [B1 [B2 [B3 B4]]]]; [lia|]. destruct (H3 m) as [l' [L1 [L2 [L3 L4]]]]; [lia|].
    exists ((a', b') :: l'). split; [|split; [|split]].
    + intros g. cbn [pairs]. rewrite A1. cbn [bindo]. rewrite B1. cbn [bindo]. apply L1.
    + constructor; [split; assumption | exact L2].
    + cbn [map every fst snd]. rewrite L3, A3, B3. unfold entry. cbn [both]. rewrite E0. reflexivity.
    + intros Q. destruct (A4 Q) as [x ->]. destruct (B4 Q) as [y ->]. cbn [has_term]. auto.
Qed.
Lemma simple_named (n : nat) (q : Prop) (r : env) (s : nat -> tm) l :
  Forall (fun kv => forall v, den r (snd kv) = Some v -> exists N, forall m, N <= m -> exists t, ev false m s (snd kv) = Ok t /\ result n q r v t) l ->
  forall es, every (map (fun kv : string * tm => entry (Some (VAtom (AStr (fst kv)))) (den r (snd kv))) l) = Some es ->
  exists N, forall m, N <= m -> exists l', (forall g, named (ev false m s) l g = g l') /\
     Forall (fun kv => simple n (snd kv)) l' /\ every (map (fun kv => entry (Some (VAtom (AStr (fst kv)))) (den r (snd kv))) l') = Some es /\ (q -> fields l' <> None).
Proof.
  intros F. induction F as [|[a b] l Hb F IH]; intros es H; cbn [map every fst snd] in *.
  - exists 0. intros m _. exists []. split; [reflexivity|]. split; [constructor|]. split; [exact H | discriminate].
  - apply both_some in H. destruct H as [e0 [es0 [E0 [E1 H]]]]. injection H as <-.
    unfold entry in E0. apply both_some in E0. destruct E0 as [ka [vb [Ea [Eb E0]]]].
    destruct (Hb vb Eb) as [N2 H2]. destruct (IH es0 E1) as [N3 H3]. exists (N2 + N3). intros m L.
    destruct (H2 m) as [b' [B1 [B2 [B3 B4]]]]; [lia|]. destruct (H3 m) as [l' [L1 [L2 [L3 L4]]]]; [lia|].
    exists ((a, b') :: l'). split; [|split; [|split]].
    + intros g. cbn [named]. rewrite B1. cbn [bindo]. apply L1.
    + constructor; [assumption | exact L2].
    + cbn [map every fst snd]. rewrite L3, B3. unfold entry. injection Ea as <-. cbn in E0. injection E0 as <-. reflexivity.
    + intros Q. destruct (B4 Q) as [y ->]. cbn [fields]. specialize (L4 Q). destruct (fields l'); [discriminate | contradiction].
Qed.
Lemma simple_runs n q r s t : good n q r s -> simple n t -> forall v, den r t = Some v ->
  exists N, forall m, N <= m -> exists t', ev false m s t = Ok t' /\ result n q r v t'.
Proof.
  intros G. induction t as [v|i|l F|a b _ _|l F|a b Ia Ib|a b Ia Ib|a b _ _|a b _ _] using tm_ind'; intros S x D.
  - exists 1. intros [|m] L; [lia|]. exists (Val v). split; [reflexivity|]. split; [constructor|]. split; [exact D | eexists; reflexivity].
  - inversion S as [|? I E| | | |]. subst. exists 1. intros [|m] L; [lia|]. exists (s i). split; [reflexivity|].
    destruct (G i I) as [[v [E R]]|[E NQ]]; rewrite E.
    + split; [constructor|]. cbn [den] in *. split; [congruence | eexists; reflexivity].
    + split; [constructor; exact I|]. split; [exact D | contradiction].
  - inversion S as [| |? FS| | |]. subst. cbn [den] in D.
    destruct (every (map (fun kv => entry (den r (fst kv)) (den r (snd kv))) l)) as [es|] eqn:E; [|discriminate].
    destruct (simple_list n q r s l) with (es := es) as [N H]; [|exact E|].
    { rewrite Forall_forall in *. intros kv I. destruct (F kv I) as [F1 F2]. destruct (FS kv I) as [S1 S2]. split; auto. }
    exists (1 + N). intros [|m] L; [lia|]. destruct (H m) as [l' [P [SL [EL T]]]]; [lia|]. rewrite ev_S. cbv zeta. rewrite P. unfold make_dict.
    destruct (has_term l') eqn:HT.
    + exists (Dict l'). split; [reflexivity|]. split; [constructor; exact SL|]. split; [cbn [den]; rewrite EL; exact D | intros Q; specialize (T Q); discriminate T].
    + rewrite <- (values_den r l' HT), EL. eexists. split; [reflexivity|]. split; [constructor|]. split; [exact D | eexists; reflexivity].
  - inversion S.
  - inversion S as [| | |? FS| |]. subst. cbn [den] in D.
    destruct (every (map (fun kv => entry (Some (VAtom (AStr (fst kv)))) (den r (snd kv))) l)) as [es|] eqn:E; [|discriminate].
    destruct (simple_named n q r s l) with (es := es) as [N H]; [|exact E|].
    { rewrite Forall_forall in *. intros kv I. auto. }
    exists (1 + N). intros [|m] L; [lia|]. destruct (H m) as [l' [P [SL [EL T]]]]; [lia|]. rewrite ev_S. cbv zeta. rewrite P. unfold make_rec.
    destruct (fields l') as [fs|] eqn:HT.
    + rewrite (fields_den r l' fs HT) in EL. injection EL as ->. eexists. split; [reflexivity|]. split; [constructor|]. split; [exact D | eexists; reflexivity].
    + exists (Rec l'). split; [reflexivity|]. split; [constructor; exact SL|]. split; [cbn [den]; rewrite EL; exact D | intros Q; destruct (T Q eq_refl)].
  - inversion S as [| | | |? ? SA SB|]. subst. cbn [den] in D. apply both_some in D. destruct D as [va [vb [Da [Db D]]]].
    destruct (Ia SA va Da) as [N1 H1]. destruct (Ib SB vb Db) as [N2 H2]. exists (1 + N1 + N2). intros [|m] L; [lia|].
    destruct (H1 m) as [a' [A1 [A2 [A3 A4]]]]; [lia|]. destruct (H2 m) as [b' [B1 [B2 [B3 B4]]]]; [lia|].
    rewrite ev_S. cbv zeta. rewrite A1. cbn [bindo]. rewrite B1. cbn [bindo].
    assert (R : make_field a' b' = Ok (Val x) \/ (make_field a' b' = Ok (Field a' b') /\ (q -> False))).
    { unfold make_field. destruct a' as [ua| | | | | | | |]; try (right; split; [reflexivity | intros Q; destruct (A4 Q); discriminate]).
      cbn [den] in A3. injection A3 as ->. destruct va as [?|[|] ma]; cbn [project] in D; try discriminate;
      (destruct b' as [ub| | | | | | | |]; [|right; split; [reflexivity | intros Q; destruct (B4 Q); discriminate]..]);
      cbn [den] in B3; injection B3 as ->; destruct vb as [[?|?]|? ?]; cbn [project] in D; try discriminate; left; rewrite D; reflexivity. }
    destruct R as [-> | [-> NQ]]; eexists; (split; [reflexivity|]).
    + split; [constructor|]. split; [reflexivity | eexists; reflexivity].
    + split; [constructor; assumption|]. split; [cbn [den]; rewrite A3, B3; exact D | contradiction].
  - inversion S as [| | | | |? ? SA SB]. subst. cbn [den] in D. apply both_some in D. destruct D as [va [vb [Da [Db D]]]].
    destruct (Ia SA va Da) as [N1 H1]. destruct (Ib SB vb Db) as [N2 H2]. exists (1 + N1 + N2). intros [|m] L; [lia|].
    destruct (H1 m) as [a' [A1 [A2 [A3 A4]]]]; [lia|]. destruct (H2 m) as [b' [B1 [B2 [B3 B4]]]]; [lia|].
    rewrite ev_S. cbv zeta. rewrite A1. cbn [bindo]. rewrite B1. cbn [bindo].
    assert (R : make_add a' b' = Ok (Val x) \/ (make_add a' b' = Ok (Add a' b') /\ (q -> False))).
    { unfold make_add. destruct a' as [ua| | | | | | | |]; try (right; split; [reflexivity | intros Q; destruct (A4 Q); discriminate]).
      destruct b' as [ub| | | | | | | |]; try (right; split; [reflexivity | intros Q; destruct (B4 Q); discriminate]).
      cbn [den] in A3, B3. injection A3 as ->. injection B3 as ->. left. rewrite D. reflexivity. }
    destruct R as [-> | [-> NQ]]; eexists; (split; [reflexivity|]).
    + split; [constructor|]. split; [reflexivity | eexists; reflexivity].
    + split; [constructor; assumption|]. split; [cbn [den]; rewrite A3, B3; exact D | contradiction].
  - inversion S.
  - inversion S.
Qed.

Lemma handle2_good v k r : good 2 True (with2 (Some v) (Some k) r) (handle [Val v; Val k]).
Proof. intros [|[|i]] L; [left; exists v; split; reflexivity | left; exists k; split; reflexivity | lia]. Qed.
Lemma lift2_good r : good 2 False r (lift 2 Var).
Proof. intros [|[|i]] L; [right; split; [reflexivity | tauto] .. | lia]. Qed.
Lemma fold_both_some {A} (f : A -> option val) l : forall acc x, fold_left (fun acc a => both plus acc (f a)) l acc = Some x ->
  exists y, acc = Some y /\ forall a, In a l -> exists z, f a = Some z.
Proof.
  induction l as [|a l IH]; intros acc x H; cbn [fold_left] in H.
  - exists x. split; [exact H | intros a []].
  - apply IH in H. destruct H as [y [H1 H2]]. apply both_some in H1. destruct H1 as [u [w [-> [E Q]]]]. exists u. split; [reflexivity|].
    intros b [<- | I]; [eauto | auto].
Qed.
(** A loop whose every item evaluates *)
Lemma loop_runs (body : nat -> atom -> val -> out) f l : (forall k v, In (k, v) l -> forall y, f k v = Some y -> exists N, forall m, N <= m -> body m k v = Ok (Val y)) ->
  forall acc x, fold_left (fun acc kv => both plus acc (f (fst kv) (snd kv))) l (Some acc) = Some x -> exists N, forall m, N <= m -> loop (body m) acc l = Ok (Val x).
Proof.
  induction l as [|[k v] l IH]; intros B acc x H; cbn [fold_left fst snd] in H.
  - injection H as <-. exists 0. intros m _. reflexivity.
  - destruct (f k v) as [y|] eqn:E.
    + cbn [both] in H. destruct (plus acc y) as [acc'|] eqn:Q; [|pose proof H as H'; apply (fold_both_some (fun kv => f (fst kv) (snd kv))) in H'; destruct H' as [? [? _]]; discriminate].
      destruct (B k v (or_introl eq_refl) y E) as [N1 H1]. destruct (IH (fun k' v' I => B k' v' (or_intror I)) acc' x H) as [N2 H2].
      exists (N1 + N2). intros m L. cbn [loop]. rewrite (H1 m) by lia. cbn [bindo]. rewrite Q. apply H2. lia.
    + cbn [both] in H. pose proof H as H'. apply (fold_both_some (fun kv => f (fst kv) (snd kv))) in H'. destruct H' as [? [? _]]. discriminate.
Qed.
Theorem sum_evaluates n e b m x : eager n e = Ok (Val (VMap true m)) -> m <> [] -> simple 2 b ->
  (forall k v, In (k, v) m -> forall fs, den (with2 (Some v) (Some (VAtom k)) nowhere) b <> Some (VMap false fs)) ->
  den nowhere (Sum e b) = Some x -> exists n', eager n' (Sum e b) = Ok (Val x).
Proof.
  intros HE NE SB NR D. cbn [den] in D. rewrite <- (eager_sound n e _ HE nowhere) in D. cbn [den] in D.
  unfold sum_of in D. pose proof (fold_both_some (fun kv => den (with2 (Some (snd kv)) (Some (VAtom (fst kv))) nowhere) b) m _ x D) as [_ [_ ALL]].
  destruct m as [|[k0 v0] m0]; [contradiction|]. destruct (ALL (k0, v0) (or_introl eq_refl)) as [y0 Y0]. cbn [fst snd] in Y0.
  destruct (simple_runs 2 False _ _ b (lift2_good (with2 (Some v0) (Some (VAtom k0)) nowhere)) SB y0 Y0) as [N1 H1].
  destruct (H1 N1 (le_n _)) as [b' [B1 [B2 [B3 _]]]].
  assert (DB : forall r, den r b' = den r b).
  { intros r. rewrite (ev_sound _ _ _ _ B1 r). apply den_ext. intros i. unfold under, lift. destruct i as [|[|i]]; cbn; try reflexivity. rewrite Nat.sub_0_r || idtac. reflexivity. }
  set (M := (k0, v0) :: m0) in *.
  assert (L : exists N, forall j, N <= j -> make_sum (ev false j) (Val (VMap true M)) b' = Ok (Val x)).
  { assert (LOOP : exists N, forall j, N <= j -> loop (fun k v => ev false j (handle [Val v; Val (VAtom k)]) b') (VMap true []) M = Ok (Val x)).
    { apply (loop_runs (fun j k v => ev false j (handle [Val v; Val (VAtom k)]) b') (fun k v => den (with2 (Some v) (Some (VAtom k)) nowhere) b) M); [|exact D].
      intros k v I y Y. rewrite <- DB in Y.
      destruct (simple_runs 2 True _ _ b' (handle2_good v (VAtom k) nowhere) B2 y Y) as [N2 H2]. exists N2. intros j J. destruct (H2 j J) as [t [T1 [T2 [T3 T4]]]].
      destruct (T4 Logic.I) as [w ->]. cbn [den] in T3. injection T3 as ->. exact T1. }
    destruct b' as [[c|[|] d]| | | | | | | |] eqn:EB; try exact LOOP.
    - exfalso. cbn [den] in B3. injection B3 as <-. unfold M in D. cbn [fold_left fst snd] in D. rewrite Y0 in D. cbn [both plus] in D.
      apply (fold_both_some (fun kv => den (with2 (Some (snd kv)) (Some (VAtom (fst kv))) nowhere) b)) in D. destruct D as [? [? _]]. discriminate.
    - exists 0. intros j _. cbn [make_sum]. destruct LOOP as [N2 H2]. specialize (H2 (S N2) (le_S _ _ (le_n _))).
      rewrite <- H2. clear. generalize (VMap true []). induction M as [|[k v] M IH]; intros acc; cbn [loop]; [reflexivity|]. rewrite ev_S. cbn [bindo].
      destruct (plus acc (VMap true d)); [apply IH | reflexivity].
    - exfalso. apply (NR k0 v0 (or_introl eq_refl) d). rewrite <- DB. reflexivity. }
  destruct L as [N2 H2]. exists (1 + n + N1 + N2). unfold eager. cbn [plus Nat.add]. rewrite ev_S. cbv zeta.
  rewrite (ev_more false n (n + N1 + N2) Var e _ ltac:(lia) HE). cbn [bindo]. rewrite (ev_more false N1 (n + N1 + N2) _ _ _ ltac:(lia) B1). cbn [bindo]. apply H2. lia.
Qed.
Theorem let_evaluates n e b u x : eager n e = Ok (Val u) -> simple 1 b -> den nowhere (Let e b) = Some x -> exists n', eager n' (Let e b) = Ok (Val x).
Proof.
  intros HE SB D. cbn [den] in D. rewrite <- (eager_sound n e _ HE nowhere) in D. cbn [den] in D.
  assert (G : good 1 False (with1 (Some u) nowhere) (lift 1 Var)) by (intros [|i] L; [right; split; [reflexivity | tauto] | lia]).
  destruct (simple_runs 1 False _ _ b G SB x D) as [N1 H1]. destruct (H1 N1 (le_n _)) as [b' [B1 [B2 [B3 _]]]].
  assert (G2 : good 1 True (with1 (Some u) nowhere) (handle [Val u])) by (intros [|i] L; [left; exists u; split; reflexivity | lia]).
  destruct (simple_runs 1 True _ _ b' G2 B2 x B3) as [N2 H2]. destruct (H2 N2 (le_n _)) as [t [T1 [T2 [T3 T4]]]].
  destruct (T4 Logic.I) as [w ->]. cbn [den] in T3. injection T3 as ->.
  exists (1 + n + N1 + N2). unfold eager. cbn [Nat.add]. rewrite ev_S. cbv zeta.
  rewrite (ev_more false n (n + N1 + N2) Var e _ ltac:(lia) HE). cbn [bindo]. rewrite (ev_more false N1 (n + N1 + N2) _ _ _ ltac:(lia) B1). cbn [bindo].
  unfold make_let. apply (ev_more false N2); [lia | exact T1].
Qed.

(** The optimisation *)
Lemma paired_rename t : forall f, paired t -> paired (rename f t).
Proof.
  induction t as [v|i|l F|a b _ _|l F|a b Ia Ib|a b Ia Ib|a b Ia Ib|a b Ia Ib] using tm_ind'; intros f P; inversion P as [| |? FP|? FP| | | |]; subst; cbn [rename]; constructor; auto.
  - rewrite Forall_forall in *. intros kv I. apply in_map_iff in I. destruct I as [kv' [<- I]]. cbn [fst snd]. destruct (F kv' I). destruct (FP kv' I). auto.
  - rewrite Forall_forall in *. intros kv I. apply in_map_iff in I. destruct I as [kv' [<- I]]. cbn [fst snd]. auto.
Qed.
Lemma paired_lift n s : (forall i, paired (s i)) -> forall i, paired (lift n s i).
Proof. intros P i. unfold lift. destruct (i <? n); [constructor | apply paired_rename; apply P]. Qed.
Lemma paired_handle l : Forall paired l -> forall i, paired (handle l i).
Proof. intros F i. unfold handle. destruct (nth_error l i) eqn:E; [|constructor]. rewrite Forall_forall in F. apply F. apply nth_error_In in E. exact E. Qed.
Lemma fuse_paired e b : paired e -> fuse e b = None.
Proof. intros P. destruct e; try reflexivity. cbn [fuse]. destruct e2; try reflexivity. inversion P as [| | | | | |? ? _ Q|]. inversion Q. Qed.
Lemma make_dict_paired l x : Forall (fun kv => paired (fst kv) /\ paired (snd kv)) l -> make_dict l = Ok x -> paired x.
Proof. intros F. unfold make_dict. destruct (has_term l); [intros E; injection E as <-; constructor; exact F|]. destruct (values l); intros E; [injection E as <-; constructor | discriminate]. Qed.
Lemma make_field_paired a b x : paired a -> paired b -> make_field a b = Ok x -> paired x.
Proof.
  intros A B. unfold make_field.
  destruct a as [[?|[|] m]| | | | | | | |]; try (intros H; injection H as <-; constructor; assumption);
  destruct b as [[[z|s]|sr n]| | | | | | | |]; try (intros H; injection H as <-; constructor; assumption); try discriminate;
  intros H; apply of_option_ok in H; destruct H as [v [_ ->]]; constructor.
Qed.
Lemma make_add_paired a b x : paired a -> paired b -> make_add a b = Ok x -> paired x.
Proof.
  intros A B. unfold make_add. intros H. destruct a; try (injection H as <-; constructor; assumption). destruct b; try (injection H as <-; constructor; assumption).
  apply of_option_ok in H. destruct H as [w [_ ->]]. constructor.
Qed.
Lemma loop_val f m : forall acc x, loop f acc m = Ok x -> paired x.
Proof.
  induction m as [|[k v] m IH]; intros acc x H; cbn [loop] in H; [injection H as <-; constructor|]. apply bindo_ok in H. destruct H as [t [_ H]].
  destruct t; try discriminate. destruct (plus acc v0); [eauto | discriminate].
Qed.
Lemma make_sum_paired run e b x : paired e -> paired b -> make_sum run e b = Ok x -> paired x.
Proof.
  intros A B H. unfold make_sum in H. destruct e as [[y|[|] m]| | | | | | | |]; try (injection H as <-; constructor; assumption).
  destruct b as [[y|[|] d]| | | | | | | |]; try (injection H as <-; constructor; assumption); try (apply loop_val in H; exact H).
Qed.
Lemma loop_ext f g m : (forall k v, f k v = g k v) -> forall acc, loop f acc m = loop g acc m.
Proof. intros E. induction m as [|[k v] m IH]; intros acc; cbn [loop]; [reflexivity|]. rewrite E. destruct (g k v) as [[]| |]; cbn [bindo]; try reflexivity. destruct (plus acc v0); [apply IH | reflexivity]. Qed.
Lemma paired_ev n : forall s t, (forall i, paired (s i)) -> paired t -> ev true n s t = ev false n s t /\ (forall x, ev false n s t = Ok x -> paired x).
Proof.
  induction n as [|n IH]; intros s t S P; [split; [reflexivity | discriminate]|]. rewrite !ev_S. cbv zeta.
  assert (E : forall u, paired u -> ev true n s u = ev false n s u) by (intros u U; apply IH; assumption).
  assert (K : forall u x, paired u -> ev false n s u = Ok x -> paired x) by (intros u x U; apply IH; assumption).
  destruct P as [v|i|l F|l F|a b A B|a b A B|e b A B|e b A B].
  - split; [reflexivity | intros x H; injection H as <-; constructor].
  - split; [reflexivity | intros x H; injection H as <-; apply S].
  - split.
    + generalize make_dict. induction F as [|[a b] l [A B] F IHF]; intros g; cbn [pairs]; [reflexivity|]. cbn [fst snd] in *. rewrite (E a A), (E b B).
      destruct (ev false n s a); cbn [bindo]; try reflexivity. destruct (ev false n s b); cbn [bindo]; try reflexivity. apply IHF.
    + intros x H. apply pairs_ok in H. destruct H as [l' [F2 H]]. apply (make_dict_paired l'); [|exact H]. clear H.
      induction F2 as [|kv kv' l l' [H1 H2] F2 IHF]; constructor; inversion F as [|? ? [A B] F']; subst; [split; eapply K; [|eassumption| |eassumption]; assumption | auto].
  - split.
    + generalize make_rec. induction F as [|[a b] l B F IHF]; intros g; cbn [named]; [reflexivity|]. cbn [fst snd] in *. rewrite (E b B).
      destruct (ev false n s b); cbn [bindo]; try reflexivity. apply IHF.
    + intros x H. apply named_ok in H. destruct H as [l' [F2 H]].
      assert (FP : Forall (fun kv => paired (snd kv)) l').
      { clear H. induction F2 as [|kv kv' l l' [H1 H2] F2 IHF]; constructor; inversion F as [|? ? B F']; subst; [eapply K; [|eassumption]; assumption | auto]. }
      unfold make_rec in H. destruct (fields l'); injection H as <-; constructor; exact FP.
  - split; [rewrite (E a A), (E b B); reflexivity|]. intros x H. apply bindo_ok in H. destruct H as [a' [Ha H]]. apply bindo_ok in H. destruct H as [b' [Hb H]].
    exact (make_field_paired a' b' x (K _ _ A Ha) (K _ _ B Hb) H).
  - split; [rewrite (E a A), (E b B); reflexivity|]. intros x H. apply bindo_ok in H. destruct H as [a' [Ha H]]. apply bindo_ok in H. destruct H as [b' [Hb H]].
    exact (make_add_paired a' b' x (K _ _ A Ha) (K _ _ B Hb) H).
  - destruct (IH (lift 2 s) b (paired_lift 2 s S) B) as [E2 K2]. split.
    + rewrite (E e A), E2. destruct (ev false n s e) as [e'| |]; cbn [bindo]; try reflexivity. destruct (ev false n (lift 2 s) b) as [b'| |] eqn:EB; cbn [bindo]; try reflexivity.
      specialize (K2 b' eq_refl). unfold make_sum. destruct e' as [[y|[|] m]| | | | | | | |]; try reflexivity.
      destruct b' as [[y|[|] d]| | | | | | | |]; try reflexivity; apply loop_ext; intros k v; (apply IH; [apply paired_handle; repeat constructor | exact K2]).
    + intros x H. apply bindo_ok in H. destruct H as [a' [Ha H]]. apply bindo_ok in H. destruct H as [b' [Hb H]].
      exact (make_sum_paired _ a' b' x (K _ _ A Ha) (K2 _ Hb) H).
  - destruct (IH (lift 1 s) b (paired_lift 1 s S) B) as [E2 K2]. split.
    + rewrite (E e A), E2. destruct (ev false n s e) as [e'| |] eqn:EE; cbn [bindo]; try reflexivity. destruct (ev false n (lift 1 s) b) as [b'| |] eqn:EB; cbn [bindo]; try reflexivity.
      unfold make_let. rewrite (fuse_paired e' b' (K e e' A EE)). apply IH; [apply paired_handle; constructor; [exact (K e e' A EE) | constructor] | exact (K2 b' eq_refl)].
    + intros x H. apply bindo_ok in H. destruct H as [a' [Ha H]]. apply bindo_ok in H. destruct H as [b' [Hb H]]. unfold make_let in H.
      refine (proj2 (IH (handle [a']) b' _ (K2 _ Hb)) x H). apply paired_handle. constructor; [exact (K _ _ A Ha) | constructor].
Qed.
Theorem opt_nothing n t : paired t -> eager_opt n t = eager n t.
Proof. intros P. apply paired_ev; [intros i; constructor | exact P]. Qed.
