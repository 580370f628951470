(** Proofs about evaluation: terms keep their meaning. *)
From Coq Require Import String List Bool Arith ZArith Lia.
Import ListNotations.
From Verif Require Import SrModel SrSpec.
Local Open Scope list_scope.

Section TmInd.
Variable P : tm -> Prop.
Hypothesis Hval : forall v, P (Val v).
Hypothesis Hvar : forall i, P (Var i).
Hypothesis Hdict : forall l, Forall (fun kv => P (fst kv) /\ P (snd kv)) l -> P (Dict l).
Hypothesis Hdict2 : forall a b, P a -> P b -> P (Dict2 a b).
Hypothesis Hrec : forall l, Forall (fun kv => P (snd kv)) l -> P (Rec l).
Hypothesis Hfield : forall a b, P a -> P b -> P (Field a b).
Hypothesis Hadd : forall a b, P a -> P b -> P (Add a b).
Hypothesis Hsum : forall a b, P a -> P b -> P (Sum a b).
Hypothesis Hlet : forall a b, P a -> P b -> P (Let a b).
Fixpoint tm_ind' (t : tm) : P t :=
  match t with
  | Val v => Hval v
  | Var i => Hvar i
  | Dict l => Hdict l ((fix go (l : list (tm * tm)) : Forall (fun kv => P (fst kv) /\ P (snd kv)) l :=
                          match l with [] => Forall_nil _ | kv :: l' => Forall_cons kv (conj (tm_ind' (fst kv)) (tm_ind' (snd kv))) (go l') end) l)
  | Dict2 a b => Hdict2 a b (tm_ind' a) (tm_ind' b)
  | Rec l => Hrec l ((fix go (l : list (string * tm)) : Forall (fun kv => P (snd kv)) l :=
                        match l with [] => Forall_nil _ | kv :: l' => Forall_cons kv (tm_ind' (snd kv)) (go l') end) l)
  | Field a b => Hfield a b (tm_ind' a) (tm_ind' b)
  | Add a b => Hadd a b (tm_ind' a) (tm_ind' b)
  | Sum a b => Hsum a b (tm_ind' a) (tm_ind' b)
  | Let a b => Hlet a b (tm_ind' a) (tm_ind' b)
  end.
End TmInd.

Lemma sum_of_ext f g m : (forall k v, f k v = g k v) -> sum_of f m = sum_of g m.
Proof.
  intros E. unfold sum_of. generalize (Some (VMap true [])). induction m as [|[k v] m IH]; intros acc; cbn [fold_left fst snd]; [reflexivity|].
  rewrite E. apply IH.
Qed.
Lemma den_ext t : forall r r', (forall i, r i = r' i) -> den r t = den r' t.
Proof.
  induction t as [v|i|l F|a b _ _|l F|a b Ia Ib|a b Ia Ib|a b Ia Ib|a b Ia Ib] using tm_ind'; intros r r' E; cbn [den].
  - reflexivity.
  - apply E.
  - f_equal. replace (map (fun kv => entry (den r (fst kv)) (den r (snd kv))) l) with (map (fun kv => entry (den r' (fst kv)) (den r' (snd kv))) l); [reflexivity|].
    apply map_ext_in. intros kv I. rewrite Forall_forall in F. destruct (F kv I) as [F1 F2]. rewrite (F1 r r' E), (F2 r r' E). reflexivity.
  - reflexivity.
  - replace (map (fun kv => entry (Some (VAtom (AStr (fst kv)))) (den r (snd kv))) l) with (map (fun kv => entry (Some (VAtom (AStr (fst kv)))) (den r' (snd kv))) l); [reflexivity|].
    apply map_ext_in. intros kv I. rewrite Forall_forall in F. rewrite (F kv I r r' E). reflexivity.
  - rewrite (Ia _ _ E), (Ib _ _ E). reflexivity.
  - rewrite (Ia _ _ E), (Ib _ _ E). reflexivity.
  - rewrite (Ia _ _ E). destruct (den r' a) as [[|[|] m]|]; try reflexivity. apply sum_of_ext. intros k v. apply Ib.
    intros [|[|i]]; cbn; auto.
  - apply Ib. intros [|i]; cbn; auto.
Qed.
Lemma den_rename t : forall f r, den r (rename f t) = den (fun i => r (f i)) t.
Proof.
  induction t as [v|i|l F|a b _ _|l F|a b Ia Ib|a b Ia Ib|a b Ia Ib|a b Ia Ib] using tm_ind'; intros f r; cbn [rename den].
  - reflexivity.
  - reflexivity.
  - rewrite map_map. cbn [fst snd].
    replace (map (fun kv => entry (den r (rename f (fst kv))) (den r (rename f (snd kv)))) l)
      with (map (fun kv => entry (den (fun i => r (f i)) (fst kv)) (den (fun i => r (f i)) (snd kv))) l); [reflexivity|].
    apply map_ext_in. intros kv I. rewrite Forall_forall in F. destruct (F kv I) as [F1 F2]. rewrite F1, F2. reflexivity.
  - reflexivity.
  - rewrite map_map. cbn [fst snd].
    replace (map (fun kv => entry (Some (VAtom (AStr (fst kv)))) (den r (rename f (snd kv)))) l)
      with (map (fun kv => entry (Some (VAtom (AStr (fst kv)))) (den (fun i => r (f i)) (snd kv))) l); [reflexivity|].
    apply map_ext_in. intros kv I. rewrite Forall_forall in F. rewrite (F kv I). reflexivity.
  - rewrite Ia, Ib. reflexivity.
  - rewrite Ia, Ib. reflexivity.
  - rewrite Ia. destruct (den (fun i => r (f i)) a) as [[|[|] m]|]; try reflexivity. apply sum_of_ext. intros k v. rewrite Ib. apply den_ext.
    intros [|[|i]]; cbn; try reflexivity. unfold up. cbn. rewrite Nat.sub_0_r || idtac. reflexivity.
  - rewrite Ib. apply den_ext. intros [|i]; cbn; [rewrite Ia; reflexivity|]. unfold up. cbn. rewrite Nat.sub_0_r. reflexivity.
Qed.

(** The environment that handlers make *)
Definition under (r : env) (s : nat -> tm) : env := fun i => den r (s i).
Lemma under_lift2 r s v k i : under (with2 v k r) (lift 2 s) i = with2 v k (under r s) i.
Proof.
  unfold under, lift. destruct i as [|[|i]]; cbn; try reflexivity. rewrite den_rename, Nat.sub_0_r || rewrite den_rename. apply den_ext. reflexivity.
Qed.
Lemma under_lift1 r s x i : under (with1 x r) (lift 1 s) i = with1 x (under r s) i.
Proof. unfold under, lift. destruct i as [|i]; cbn; try reflexivity. rewrite Nat.sub_0_r, den_rename. apply den_ext. reflexivity. Qed.
Lemma under_var r i : under r Var i = r i.
Proof. reflexivity. Qed.
Lemma under_handle2 r v k i : under r (handle [Val v; Val k]) i = with2 (Some v) (Some k) r i.
Proof. unfold under, handle. destruct i as [|[|i]]; cbn; try reflexivity. destruct i; cbn; rewrite ?Nat.sub_0_r; reflexivity. Qed.
Lemma under_handle1 r e i : under r (handle [e]) i = with1 (den r e) r i.
Proof. unfold under, handle. destruct i as [|i]; cbn; try reflexivity. destruct i; cbn; rewrite ?Nat.sub_0_r; reflexivity. Qed.

Lemma bindo_ok o f r : bindo o f = Ok r -> exists t, o = Ok t /\ f t = Ok r.
Proof. destruct o; cbn; intros H; try discriminate. eauto. Qed.
Lemma of_option_ok o r : of_option o = Ok r -> exists v, o = Some v /\ r = Val v.
Proof. destruct o; cbn; intros H; inversion H; eauto. Qed.

Lemma pairs_ok f l : forall g r, pairs f l g = Ok r -> exists l', Forall2 (fun kv kv' => f (fst kv) = Ok (fst kv') /\ f (snd kv) = Ok (snd kv')) l l' /\ g l' = Ok r.
Proof.
  induction l as [|[a b] l IH]; intros g r H; cbn [pairs] in H.
  - exists []. split; [constructor | exact H].
  - apply bindo_ok in H. destruct H as [a' [Ha H]]. apply bindo_ok in H. destruct H as [b' [Hb H]].
    apply IH in H. destruct H as [l' [F G]]. exists ((a', b') :: l'). split; [constructor; [split; assumption | exact F] | exact G].
Qed.
Lemma named_ok f l : forall g r, named f l g = Ok r -> exists l', Forall2 (fun kv kv' => fst kv = fst kv' /\ f (snd kv) = Ok (snd kv')) l l' /\ g l' = Ok r.
Proof.
  induction l as [|[a b] l IH]; intros g r H; cbn [named] in H.
  - exists []. split; [constructor | exact H].
  - apply bindo_ok in H. destruct H as [b' [Hb H]].
    apply IH in H. destruct H as [l' [F G]]. exists ((a, b') :: l'). split; [constructor; [split; [reflexivity | assumption] | exact F] | exact G].
Qed.

Lemma values_den r l : has_term l = false ->
  every (map (fun kv => entry (den r (fst kv)) (den r (snd kv))) l) = values l.
Proof.
  induction l as [|[[] []] l IH]; cbn [has_term]; intros H; try discriminate; [reflexivity|].
  cbn [map fst snd den every values]. unfold entry at 1. rewrite (IH H). destruct v as [a|sr m]; cbn [both]; [|reflexivity].
  destruct (values l); reflexivity.
Qed.
Lemma make_dict_ok r l t : make_dict l = Ok t -> den r t = den r (Dict l).
Proof.
  unfold make_dict. destruct (has_term l) eqn:H; [intros E; injection E as <-; reflexivity|].
  pose proof (values_den r l H) as V. destruct (values l) as [m|] eqn:E1; [|discriminate]. intros E. injection E as <-. cbn [den]. rewrite V. reflexivity.
Qed.
Lemma fields_den r l m : fields l = Some m -> every (map (fun kv => entry (Some (VAtom (AStr (fst kv)))) (den r (snd kv))) l) = Some m.
Proof.
  revert m. induction l as [|[k []] l IH]; intros m; cbn [fields]; intros H; try discriminate; [injection H as <-; reflexivity|].
  destruct (fields l) as [m'|]; [|discriminate]. injection H as <-. cbn [map fst snd den every]. rewrite (IH m' eq_refl). reflexivity.
Qed.
Lemma make_rec_ok r l t : make_rec l = Ok t -> den r t = den r (Rec l).
Proof.
  unfold make_rec. destruct (fields l) as [m|] eqn:E1; intros E; injection E as <-; [|reflexivity]. cbn [den]. rewrite (fields_den r l m E1). reflexivity.
Qed.
Lemma make_field_ok r a b t : make_field a b = Ok t -> den r t = den r (Field a b).
Proof.
  unfold make_field. intros H.
  destruct a as [[x|[|] m]| | | | | | | |]; try (injection H as <-; reflexivity);
  destruct b as [[[z|s]|sr n]| | | | | | | |]; try (injection H as <-; reflexivity); try discriminate;
  apply of_option_ok in H; destruct H as [v [E ->]]; cbn [den both project]; symmetry; exact E.
Qed.
Lemma make_add_ok r a b t : make_add a b = Ok t -> den r t = den r (Add a b).
Proof.
  unfold make_add. intros H. destruct a; try (injection H as <-; reflexivity). destruct b; try (injection H as <-; reflexivity).
  apply of_option_ok in H. destruct H as [x [E ->]]. cbn [den both]. symmetry. exact E.
Qed.
Lemma loop_ok body f m : (forall k v t, In (k, v) m -> body k v = Ok (Val t) -> f k v = Some t) ->
  forall acc t, loop body acc m = Ok t -> exists v, t = Val v /\ fold_left (fun acc kv => both plus acc (f (fst kv) (snd kv))) m (Some acc) = Some v.
Proof.
  intros B. induction m as [|[k v] m IH]; intros acc t H; cbn [loop] in H.
  - injection H as <-. exists acc. split; reflexivity.
  - apply bindo_ok in H. destruct H as [x [Hb H]]. destruct x as [x| | | | | | | |]; try discriminate. destruct (plus acc x) as [acc'|] eqn:E; [|discriminate].
    cbn [fold_left fst snd]. rewrite (B k v x (or_introl eq_refl) Hb). cbn [both]. rewrite E. apply IH; [|exact H]. intros k' v' t' I. apply B. right. exact I.
Qed.
Lemma make_sum_ok run r e b t :
  (forall s u x, run s u = Ok x -> den r x = den (under r s) u) ->
  make_sum run e b = Ok t -> den r t = den r (Sum e b).
Proof.
  intros R H. unfold make_sum in H.
  destruct e as [[x|[|] m]| | | | | | | |]; try (injection H as <-; reflexivity).
  assert (L : forall u, u = b -> loop (fun k v => run (handle [Val v; Val (VAtom k)]) u) (VMap true []) m = Ok t -> den r t = den r (Sum (Val (VMap true m)) b)).
  { intros u -> L. apply loop_ok with (f := fun k v => den (with2 (Some v) (Some (VAtom k)) r) b) in L.
    - destruct L as [v [-> E]]. cbn [den]. symmetry. exact E.
    - intros k v x _ E. apply R in E. cbn [den] in E. rewrite E. apply den_ext. intros i. symmetry. apply under_handle2. }
  destruct b as [[x|[|] d]| | | | | | | |]; try (injection H as <-; reflexivity); try (apply (L _ eq_refl H)).
  apply loop_ok with (f := fun _ _ => Some (VMap true d)) in H.
  - destruct H as [v [-> E]]. cbn [den]. symmetry. exact E.
  - intros k v x _ E. injection E as <-. reflexivity.
Qed.

Lemma ev_S opt n s t : ev opt (S n) s t =
  let run := ev opt n in
  match t with
  | Val v => Ok (Val v)
  | Var i => Ok (s i)
  | Dict l => pairs (run s) l make_dict
  | Dict2 a b => bindo (run s a) (fun a' => bindo (run s b) (fun b' => make_dict2 a' b'))
  | Rec l => named (run s) l make_rec
  | Field r k => bindo (run s r) (fun r' => bindo (run s k) (fun k' => make_field r' k'))
  | Add a b => bindo (run s a) (fun a' => bindo (run s b) (fun b' => make_add a' b'))
  | Sum e b => bindo (run s e) (fun e' => bindo (run (lift 2 s) b) (fun b' => make_sum run e' b'))
  | Let e b => bindo (run s e) (fun e' => bindo (run (lift 1 s) b) (fun b' => make_let opt run e' b'))
  end.
Proof. reflexivity. Qed.

Theorem ev_sound n : forall s t x, ev false n s t = Ok x -> forall r, den r x = den (under r s) t.
Proof.
  induction n as [|n IH]; intros s t x H r; [discriminate|]. rewrite ev_S in H. cbv zeta in H.
  destruct t as [v|i|l|a b|l|a b|a b|e b|e b].
  - injection H as <-. reflexivity.
  - injection H as <-. reflexivity.
  - apply pairs_ok in H. destruct H as [l' [F H]]. rewrite (make_dict_ok r l' x H). cbn [den].
    assert (E : map (fun kv => entry (den r (fst kv)) (den r (snd kv))) l' = map (fun kv => entry (den (under r s) (fst kv)) (den (under r s) (snd kv))) l).
    { clear H. induction F as [|kv kv' l l' [H1 H2] F IHF]; [reflexivity|]. cbn [map]. rewrite IHF, (IH _ _ _ H1), (IH _ _ _ H2). reflexivity. }
    rewrite E. reflexivity.
  - apply bindo_ok in H. destruct H as [a' [Ha H]]. apply bindo_ok in H. destruct H as [b' [Hb H]]. unfold make_dict2 in H.
    destruct a'; try discriminate; injection H as <-; reflexivity.
  - apply named_ok in H. destruct H as [l' [F H]]. rewrite (make_rec_ok r l' x H). cbn [den].
    assert (E : map (fun kv => entry (Some (VAtom (AStr (fst kv)))) (den r (snd kv))) l' = map (fun kv => entry (Some (VAtom (AStr (fst kv)))) (den (under r s) (snd kv))) l).
    { clear H. induction F as [|kv kv' l l' [H1 H2] F IHF]; [reflexivity|]. cbn [map]. rewrite IHF, (IH _ _ _ H2), H1. reflexivity. }
    rewrite E. reflexivity.
  - apply bindo_ok in H. destruct H as [a' [Ha H]]. apply bindo_ok in H. destruct H as [b' [Hb H]].
    rewrite (make_field_ok r _ _ _ H). cbn [den]. rewrite (IH _ _ _ Ha), (IH _ _ _ Hb). reflexivity.
  - apply bindo_ok in H. destruct H as [a' [Ha H]]. apply bindo_ok in H. destruct H as [b' [Hb H]].
    rewrite (make_add_ok r _ _ _ H). cbn [den]. rewrite (IH _ _ _ Ha), (IH _ _ _ Hb). reflexivity.
  - apply bindo_ok in H. destruct H as [e' [He H]]. apply bindo_ok in H. destruct H as [b' [Hb H]].
    rewrite (make_sum_ok _ r e' b' x (fun s u x E => IH s u x E r) H). cbn [den]. rewrite (IH _ _ _ He).
    destruct (den (under r s) e) as [[|[|] m]|]; try reflexivity. apply sum_of_ext. intros k v. rewrite (IH _ _ _ Hb). apply den_ext. intros i. apply under_lift2.
  - apply bindo_ok in H. destruct H as [e' [He H]]. apply bindo_ok in H. destruct H as [b' [Hb H]]. unfold make_let in H.
    rewrite (IH _ _ _ H). cbn [den]. rewrite <- (IH _ _ _ He).
    transitivity (den (with1 (den r e') r) b'); [apply den_ext; intros i; apply under_handle1|].
    rewrite (IH _ _ _ Hb). apply den_ext. intros i. apply under_lift1.
Qed.
Theorem eager_sound n t x : eager n t = Ok x -> forall r, den r x = den r t.
Proof. intros H r. rewrite (ev_sound n Var t x H r). apply den_ext. intros i. apply under_var. Qed.
