(** Proofs about programs over free iterables. *)
From Coq Require Import List ZArith Arith Bool Lia.
From Verif Require Import ItModel ItSpec.
Import ListNotations.
Local Open Scope list_scope.

Section Env.
Variable env : nat -> val.

Inductive from (s : nat) : tm -> Prop :=
| fr_var : from s (TIter (TVar s))
| fr_iter : forall t, from s t -> from s (TIter t).
Lemma ev_list s l t : env s = VSeq l -> from s t -> forall h, ev env t h = Ok (VIt (length h), h ++ [l]).
Proof. intros E F. induction F as [|t F IH]; intros h; cbn [ev]; [now rewrite E|]. rewrite IH. reflexivity. Qed.
Lemma ev_iterator s i t : env s = VIt i -> from s t -> forall h, ev env t h = Ok (VIt i, h).
Proof. intros E F. induction F as [|t F IH]; intros h; cbn [ev]; [now rewrite E|]. rewrite IH. reflexivity. Qed.
Lemma put_at a x b r : put (a ++ x :: b) (length a) r = a ++ r :: b.
Proof. induction a as [|y a IH]; cbn; [reflexivity|]. now rewrite IH. Qed.
Lemma nth_at {A} (a : list A) x b : nth_error (a ++ x :: b) (length a) = Some x.
Proof. induction a as [|y a IH]; cbn; [reflexivity|exact IH]. Qed.
Lemma next_list s x l t : env s = VSeq (x :: l) -> from s t -> forall h, ev env (TNext t) h = Ok (VNum x, h ++ [l]).
Proof. intros E F h. cbn [ev]. rewrite (ev_list s (x :: l) t E F). cbn [py_next]. rewrite nth_at, put_at. reflexivity. Qed.
Lemma next_list_stop s t : env s = VSeq [] -> from s t -> forall h, ev env (TNext t) h = Stop.
Proof. intros E F h. cbn [ev]. rewrite (ev_list s [] t E F). cbn [py_next]. now rewrite nth_at. Qed.
Lemma ev_tadd a b h : ev env (tadd a b) h = ev env (TAdd a b) h.
Proof. destruct a; try reflexivity. destruct b; reflexivity. Qed.

(** evaluating terms one after the other *)
Fixpoint evs (ts : list tm) (h : heap) : res (list Z * heap) :=
  match ts with
  | [] => Ok ([], h)
  | t :: ts' =>
      match ev env t h with
      | Ok (VNum z, h1) => match evs ts' h1 with Ok (zs, h2) => Ok (z :: zs, h2) | r => r end
      | Ok _ => Bad
      | Stop => Stop | Bad => Bad | Fuel => Fuel
      end
  end.
Lemma evs_app ts us : forall h, evs (ts ++ us) h = match evs ts h with Ok (zs, h1) => match evs us h1 with Ok (ws, h2) => Ok (zs ++ ws, h2) | r => r end | r => r end.
Proof.
  induction ts as [|t ts IH]; intros h; cbn [app evs].
  - destruct (evs us h) as [[ws h2]| | |]; reflexivity.
  - destruct (ev env t h) as [[[z|l|i] h1]| | |]; try reflexivity. rewrite IH. destruct (evs ts h1) as [[zs h2]| | |]; try reflexivity.
    destruct (evs us h2) as [[ws h3]| | |]; reflexivity.
Qed.
Fixpoint lits (e : pexp) : Z := match e with PVal _ => 0 | PLit z => z | PAdd a b => lits a + lits b end.
Fixpoint total (l : list Z) : Z := match l with [] => 0 | z :: l' => z + total l' end.
Lemma total_app l r : total (l ++ r) = (total l + total r)%Z.
Proof. induction l as [|z l IH]; cbn [app total]; [reflexivity|]. rewrite IH. lia. Qed.
Lemma ev_exp vst : forall e t, texp vst e = Ok t -> exists ts, map (nth_error vst) (mentioned e) = map Some ts /\ forall h,
  match evs ts h with Ok (zs, H) => ev env t h = Ok (VNum (lits e + total zs), H) | Stop => ev env t h = Stop | _ => True end.
Proof.
  induction e as [n|z|a IHa b IHb]; intros t E; cbn [texp] in E.
  - destruct (nth_error vst n) as [u|] eqn:N; [|discriminate]. injection E as <-. exists [u]. split; [cbn; now rewrite N|].
    intros h. cbn [evs]. destruct (ev env u h) as [[[z|l|i] h1]| | |]; try exact Logic.I; try reflexivity. cbn [lits total]. now rewrite Z.add_0_r.
  - injection E as <-. exists []. split; [reflexivity|]. intros h. cbn. now rewrite Z.add_0_r.
  - destruct (texp vst a) as [x| | |] eqn:Ea; try discriminate. destruct (texp vst b) as [y| | |] eqn:Eb; try discriminate. injection E as <-.
    destruct (IHa x eq_refl) as (ta & Ma & Ha). destruct (IHb y eq_refl) as (tb & Mb & Hb). exists (ta ++ tb). split; [cbn [mentioned]; now rewrite !map_app, Ma, Mb|].
    intros h. rewrite evs_app, ev_tadd. cbn [ev]. specialize (Ha h). destruct (evs ta h) as [[zs h1]| | |].
    + rewrite Ha. specialize (Hb h1). destruct (evs tb h1) as [[ws h2]| | |]; try exact Logic.I.
      * rewrite Hb. cbn [lits]. rewrite total_app. f_equal. f_equal. f_equal. lia.
      * now rewrite Hb.
    + now rewrite Ha.
    + exact Logic.I.
    + exact Logic.I.
Qed.
Lemma value_total vs e z : value vs e z -> exists zs, map (nth_error vs) (mentioned e) = map Some zs /\ z = (lits e + total zs)%Z.
Proof.
  induction 1 as [n z N|z|a b x y _ (zs & Ma & ->) _ (ws & Mb & ->)].
  - exists [z]. split; [cbn; now rewrite N|]. cbn. lia.
  - exists []. split; [reflexivity|]. cbn. lia.
  - exists (zs ++ ws). split; [cbn [mentioned]; now rewrite !map_app, Ma, Mb|]. cbn [lits]. rewrite total_app. lia.
Qed.
Lemma map_Some {A} (l r : list A) : map Some l = map Some r -> l = r.
Proof. revert r. induction l as [|x l IH]; intros [|y r] E; try discriminate; [reflexivity|]. cbn in E. injection E as -> E. f_equal. now apply IH. Qed.
Lemma nth_seq {A} (l : list A) : map (nth_error l) (seq 0 (length l)) = map Some l.
Proof.
  assert (G : forall m (p : list A), map (nth_error (p ++ m)) (seq (length p) (length m)) = map Some m).
  { induction m as [|x m IH]; intros p; cbn [length seq map]; [reflexivity|]. rewrite nth_at. f_equal.
    specialize (IH (p ++ [x])). rewrite app_length, <- app_assoc in IH. cbn in IH. rewrite Nat.add_1_r in IH. exact IH. }
  exact (G l []).
Qed.
Lemma texp_ok vst e : (forall n, In n (mentioned e) -> n < length vst) -> exists t, texp vst e = Ok t.
Proof.
  induction e as [n|z|a IHa b IHb]; intros H; cbn [texp].
  - destruct (nth_error vst n) eqn:E; [eauto|]. apply nth_error_None in E. specialize (H n (or_introl eq_refl)). lia.
  - eauto.
  - destruct IHa as [x Ex]; [intros n I; apply H; cbn; apply in_app_iff; now left|]. destruct IHb as [y Ey]; [intros n I; apply H; cbn; apply in_app_iff; now right|].
    rewrite Ex, Ey. eauto.
Qed.

(** * In order *)
(** what the iterators of the program are: made from the variable, at the place its number says if from a collection *)
Record inv (n0 : nat) (rs : list (nat * nat)) (used : list nat) (n : nat) (its : list nat) (itst : list tm) (h : heap) (loc : nat -> nat) : Prop := {
  inv_terms : Forall2 (fun q t => from (fst q) t) rs itst;
  inv_ids : Forall2 (fun q i => match env (fst q) with VIt j => i = j | VSeq _ => i = loc (snd q) | VNum _ => False end) rs its;
  inv_loc : forall s r l, In (s, r) rs -> env s = VSeq l -> n0 <= loc r < length h /\ r < n /\ (~ In r used -> nth_error h (loc r) = Some l);
  inv_inj : forall s r l s' r' l', In (s, r) rs -> env s = VSeq l -> In (s', r') rs -> env s' = VSeq l' -> loc r = loc r' -> r = r' }.
Lemma Forall2_nth {A B} (P : A -> B -> Prop) l r n x : Forall2 P l r -> nth_error l n = Some x -> exists y, nth_error r n = Some y /\ P x y.
Proof. intros H. revert n. induction H as [|a b l r Hab _ IH]; intros [|n] E; try discriminate; cbn in *; [injection E as <-; eauto|now apply IH]. Qed.
Lemma Forall2_nth_r {A B} (P : A -> B -> Prop) l r n y : Forall2 P l r -> nth_error r n = Some y -> exists x, nth_error l n = Some x /\ P x y.
Proof. intros H. revert n. induction H as [|a b l r Hab _ IH]; intros [|n] E; try discriminate; cbn in *; [injection E as <-; eauto|now apply IH]. Qed.
Lemma Forall2_len {A B} (P : A -> B -> Prop) l r : Forall2 P l r -> length l = length r.
Proof. induction 1; cbn; congruence. Qed.
Lemma app_len_inj {A} (a' a : list A) x b' b : length a' = length a -> a' ++ x :: b' = a ++ x :: b -> a' = a /\ b' = b.
Proof. revert a. induction a' as [|y a' IH]; intros [|z a] L E; cbn in *; try discriminate; [injection E as E; auto|]. injection E as -> E. injection L as L. destruct (IH a L E) as [-> ->]. auto. Qed.
Ltac nm := try match goal with X : nth_error ?rs _ = Some _ |- _ => match type of rs with list (nat * nat) => rename X into HN end end;
  try match goal with X : ~ In _ _ |- _ => rename X into HU; match goal with Y : env _ = VSeq _ |- _ => rename Y into HE end end;
  try match goal with X : once_each _ _ _ _ _, Y : env _ = VIt _ |- _ => rename Y into HE end;
  try match goal with X : mentioned _ = seq _ _ |- _ => rename X into HM end.
Lemma inv_list n0 rs used n its itst h loc s l : inv n0 rs used n its itst h loc -> env s = VSeq l -> n0 <= length h ->
  inv n0 (rs ++ [(s, n)]) used (S n) (its ++ [length h]) (itst ++ [TIter (TVar s)]) (h ++ [l]) (fun q => if q =? n then length h else loc q).
Proof.
  intros [I1 I2 I3 I4] E L2.
  assert (Q : forall s' r l', In (s', r) rs -> env s' = VSeq l' -> r =? n = false).
  { intros s' r l' Hin E'. destruct (I3 s' r l' Hin E') as (_ & Lt & _). apply Nat.eqb_neq. lia. }
  constructor.
  - apply Forall2_app; [exact I1|repeat constructor].
  - apply Forall2_app; [|repeat constructor; cbn; rewrite E, Nat.eqb_refl; reflexivity].
    assert (G : forall q i, In q rs -> (match env (fst q) with VIt j => i = j | VSeq _ => i = loc (snd q) | VNum _ => False end) ->
       match env (fst q) with VIt j => i = j | VSeq _ => i = (if snd q =? n then length h else loc (snd q)) | VNum _ => False end).
    { intros [s' r] i Hin Hq. cbn in *. destruct (env s') eqn:E'; try exact Hq. now rewrite (Q s' r _ Hin E'). }
    clear - I2 G. induction I2 as [|q i rs its Hq _ IH]; constructor; [apply G; [now left|exact Hq]|]. apply IH. intros q' i' Hin. apply G. now right.
  - intros s' r l' Hin E'. apply in_app_iff in Hin. rewrite app_length. cbn [length]. destruct Hin as [Hin|[X|[]]].
    + rewrite (Q s' r l' Hin E'). destruct (I3 s' r l' Hin E') as (B1 & B2 & B3). split; [lia|]. split; [lia|]. intros U. rewrite nth_error_app1 by lia. now apply B3.
    + injection X as <- <-. rewrite Nat.eqb_refl. split; [lia|]. split; [lia|]. intros _. rewrite nth_at. congruence.
  - intros s1 r1 l1 s2 r2 l2 H1 E1 H2' E2 X. apply in_app_iff in H1. apply in_app_iff in H2'. destruct H1 as [H1|[Y|[]]]; destruct H2' as [H2'|[Z|[]]].
    + rewrite (Q _ _ _ H1 E1), (Q _ _ _ H2' E2) in X. eapply I4; eauto.
    + injection Z as <- <-. rewrite (Q _ _ _ H1 E1), Nat.eqb_refl in X. destruct (I3 _ _ _ H1 E1) as (B1 & _). lia.
    + injection Y as <- <-. rewrite (Q _ _ _ H2' E2), Nat.eqb_refl in X. destruct (I3 _ _ _ H2' E2) as (B1 & _). lia.
    + injection Y as _ <-. injection Z as _ <-. reflexivity.
Qed.
Lemma inv_again n0 rs used n its itst h loc m q j t : inv n0 rs used n its itst h loc -> nth_error rs m = Some q -> nth_error its m = Some j -> nth_error itst m = Some t ->
  inv n0 (rs ++ [q]) used n (its ++ [j]) (itst ++ [TIter t]) h loc.
Proof.
  intros [I1 I2 I3 I4] HN N Nt. destruct (Forall2_nth _ _ _ _ _ I1 HN) as (t' & Nt' & Ft). assert (t' = t) by congruence. subst t'.
  destruct (Forall2_nth _ _ _ _ _ I2 HN) as (j' & Nj & Fj). assert (J : j' = j) by congruence. rewrite J in Fj. clear J Nj. constructor.
  - apply Forall2_app; [exact I1|repeat constructor; exact Ft].
  - apply Forall2_app; [exact I2|repeat constructor; exact Fj].
  - intros s' r l' Hin E'. apply I3 with s'; [|exact E']. apply in_app_iff in Hin. destruct Hin as [Hin|[X|[]]]; [exact Hin|]. rewrite X in HN. now apply nth_error_In in HN.
  - intros s1 r1 l1 s2 r2 l2 H1 E1 H2' E2 X. apply in_app_iff in H1. apply in_app_iff in H2'.
    assert (G1 : In (s1, r1) rs) by (destruct H1 as [H1|[Y|[]]]; [exact H1|rewrite Y in HN; now apply nth_error_In in HN]).
    assert (G2 : In (s2, r2) rs) by (destruct H2' as [H2'|[Y|[]]]; [exact H2'|rewrite Y in HN; now apply nth_error_In in HN]). eapply I4; eauto.
Qed.
Lemma inv_next n0 rs used n its itst a x r b loc m s r0 l : inv n0 rs used n its itst (a ++ (x :: r) :: b) loc -> nth_error rs m = Some (s, r0) -> env s = VSeq l ->
  nth_error its m = Some (length a) -> inv n0 rs (r0 :: used) n its itst (a ++ r :: b) loc.
Proof.
  intros [I1 I2 I3 I4] HN HE N. destruct (Forall2_nth _ _ _ _ _ I2 HN) as (j' & Nj & Fj). cbn in Fj. rewrite HE in Fj. assert (J : j' = length a) by congruence. rewrite J in Fj. clear J Nj.
  assert (Hin := nth_error_In _ _ HN). constructor; [exact I1|exact I2| |exact I4]. intros s' r' l' Hin' E'. destruct (I3 s' r' l' Hin' E') as (C1 & C2 & C3). rewrite app_length in *. cbn [length] in *.
  split; [lia|]. split; [lia|]. intros U. assert (U1 : ~ In r' used) by (intros X; apply U; now right). assert (U2 : r' <> r0) by (intros ->; apply U; now left). specialize (C3 U1).
  assert (D : loc r' <> length a) by (intros X; apply U2; rewrite Fj in X; exact (I4 _ _ _ _ _ _ Hin' E' Hin HE X)).
  destruct (Nat.lt_ge_cases (loc r') (length a)) as [Lt|Ge]; [rewrite nth_error_app1 in * by lia; exact C3|]. rewrite nth_error_app2 in * by lia.
  destruct (loc r' - length a) as [|q] eqn:D'; [lia|exact C3].
Qed.

Lemma stops fuel : forall p rs used n itst vst h0, once_each env rs used n p -> in_order (length vst) p -> Forall2 (fun q t => from (fst q) t) rs itst ->
  evs vst h0 = Stop -> exists t, trace fuel p itst vst = Ok t /\ ev env t h0 = Stop.
Proof.
  induction p as [s k IH|i k IH|i k IH|i k IH|e]; intros rs used n itst vst h0 O I F E; inversion O; subst; inversion I; subst; cbn [trace]; nm.
  - eapply IH; eauto. apply Forall2_app; [exact F|repeat constructor].
  - destruct (Forall2_nth _ _ _ _ _ F HN) as (t & Nt & Ft). rewrite Nt. eapply IH; eauto. apply Forall2_app; [exact F|repeat constructor; exact Ft].
  - destruct (Forall2_nth _ _ _ _ _ F HN) as (t & Nt & Ft). rewrite Nt. eapply IH; eauto; [rewrite app_length, Nat.add_1_r; assumption|]. rewrite evs_app, E. reflexivity.
  - destruct (Forall2_nth _ _ _ _ _ F HN) as (t & Nt & Ft). rewrite Nt. eapply IH; eauto; [rewrite app_length, Nat.add_1_r; assumption|]. rewrite evs_app, E. reflexivity.
  - destruct (texp_ok vst e) as [t T]; [intros m Im; rewrite HM in Im; apply in_seq in Im; lia|]. exists t. split; [exact T|].
    destruct (ev_exp vst e t T) as (ts & M & X). rewrite HM, nth_seq in M. apply map_Some in M. subst ts. specialize (X h0). now rewrite E in X.
Qed.

Theorem ordered : forall fuel h0, (forall s i, env s = VIt i -> i < length h0) -> forall h its vs p o, runs env h its vs p o ->
  forall rs used n itst vst H loc, once_each env rs used n p -> in_order (length vst) p -> inv (length h0) rs used n its itst h loc ->
  evs vst h0 = Ok (vs, H) -> firstn (length h0) H = firstn (length h0) h -> length h0 <= length H -> length h0 <= length h ->
  exists t, trace fuel p itst vst = Ok t /\
  match o with ODone z h' => exists H', ev env t h0 = Ok (VNum z, H') /\ firstn (length h0) H' = firstn (length h0) h' | OStop => ev env t h0 = Stop end.
Proof.
  intros fuel h0 Bnd h its vs p o R.
  induction R as [h its vs s l k o E R IH|h its vs s j k o E R IH|h its vs m j k o N R IH|a x r b its vs m k o N R IH|a b its vs m k N|a l b its vs m k o N R IH|h its vs e z V];
    intros rs used n itst vst H loc O I INV EV FN L1 L2; inversion O; subst; inversion I; subst; cbn [trace]; nm.
  - (* iter of a collection *)
    eapply IH with (loc := fun q => if q =? n then length h else loc q); eauto.
    + now apply inv_list.
    + rewrite firstn_app. replace (length h0 - length h) with 0 by lia. cbn [firstn]. now rewrite app_nil_r.
    + rewrite app_length. lia.
  - (* iter of an iterator *)
    eapply IH with (loc := loc); eauto. destruct INV as [I1 I2 I3 I4]. constructor.
    + apply Forall2_app; [exact I1|repeat constructor].
    + apply Forall2_app; [exact I2|]. constructor; [|constructor]. cbn. now rewrite HE.
    + intros s' r l' Hin E'. apply in_app_iff in Hin. destruct Hin as [Hin|[X|[]]]; [|injection X as <- <-; congruence].
      destruct (I3 s' r l' Hin E') as (B1 & B2 & B3). repeat split; try lia. exact B3.
    + intros s1 r1 l1 s2 r2 l2 H1 E1 H2' E2 X. apply in_app_iff in H1. apply in_app_iff in H2'.
      destruct H1 as [H1|[Y|[]]]; [|injection Y as <- <-; congruence]. destruct H2' as [H2'|[Y|[]]]; [|injection Y as <- <-; congruence]. eapply I4; eauto.
  - (* iter of an iterator of the program *)
    destruct (Forall2_nth _ _ _ _ _ (inv_terms _ _ _ _ _ _ _ _ INV) HN) as (t & Nt & Ft). rewrite Nt.
    eapply IH with (loc := loc); eauto. eapply inv_again; eauto.
  - (* next of an iterator *)
    destruct INV as [I1 I2 I3 I4]. destruct (Forall2_nth _ _ _ _ _ I1 HN) as (t & Nt & Ft). rewrite Nt.
    destruct (Forall2_nth _ _ _ _ _ I2 HN) as (j' & Nj & Fj). cbn in Fj, Ft. rewrite HE in Fj. subst j'. assert (j = length a) by congruence. subst j.
    assert (La : length a < length h0) by (eapply Bnd; eauto).
    assert (NH : nth_error H (length a) = Some (x :: r)).
    { rewrite <- (firstn_skipn (length h0) H), nth_error_app1 by (rewrite firstn_length; lia). rewrite FN.
      rewrite <- (nth_error_app1 _ (skipn (length h0) (a ++ (x :: r) :: b))) by (rewrite firstn_length; lia). rewrite firstn_skipn. apply nth_at. }
    destruct (nth_error_split _ _ NH) as (a' & b' & EH & La'). subst H.
    eapply IH with (loc := loc) (H := a' ++ r :: b').
    + eassumption.
    + rewrite app_length, Nat.add_1_r. assumption.
    + constructor; [exact I1|exact I2| |exact I4]. intros s' r' l' Hin E'. destruct (I3 s' r' l' Hin E') as (B1 & B2 & B3). rewrite app_length in *. cbn [length] in *.
      split; [lia|]. split; [lia|]. intros U. specialize (B3 U). rewrite nth_error_app2 in * by lia. destruct (loc r' - length a) as [|q] eqn:D; [lia|exact B3].
    + rewrite evs_app, EV. cbn [evs]. cbn [ev]. rewrite (ev_iterator _ _ _ HE Ft). cbn [py_next]. rewrite <- La', nth_at, put_at. reflexivity.
    + rewrite !firstn_app in FN |- *. rewrite La' in FN |- *. replace (length h0 - length a) with (S (length h0 - S (length a))) in * by lia. cbn [firstn] in *.
      assert (firstn (length h0) a' = a' /\ firstn (length h0) a = a) as [X1 X2] by (split; apply firstn_all2; lia). rewrite X1, X2 in *.
      assert (Y := app_len_inj _ _ _ _ _ La' FN).
      destruct Y as [-> ->]. reflexivity.
    + rewrite app_length in *. cbn [length] in *. lia.
    + rewrite app_length in *. cbn [length] in *. lia.
  - (* next of a collection's iterator *)
    assert (INV' := INV). destruct INV as [I1 I2 I3 I4]. destruct (Forall2_nth _ _ _ _ _ I1 HN) as (t & Nt & Ft). rewrite Nt.
    destruct (Forall2_nth _ _ _ _ _ I2 HN) as (j' & Nj & Fj). cbn in Fj, Ft. rewrite HE in Fj. assert (J : j' = length a) by congruence. rewrite J in Fj. clear J Nj.
    assert (Hin := nth_error_In _ _ HN). destruct (I3 _ _ _ Hin HE) as (B1 & B2 & B3). specialize (B3 HU). rewrite <- Fj, nth_at in B3. injection B3 as <-.
    eapply IH with (loc := loc) (H := H ++ [r]).
    + eassumption.
    + rewrite app_length, Nat.add_1_r. assumption.
    + eapply inv_next; eauto.
    + rewrite evs_app, EV. cbn [evs]. rewrite (next_list _ _ _ _ HE Ft). reflexivity.
    + rewrite firstn_app. replace (length h0 - length H) with 0 by lia. cbn [firstn]. rewrite app_nil_r, FN. rewrite !firstn_app.
      replace (length h0 - length a) with 0 by lia. reflexivity.
    + rewrite app_length. lia.
    + rewrite app_length in *. cbn [length] in *. lia.
  - (* an iterator has nothing left *)
    destruct INV as [I1 I2 I3 I4]. destruct (Forall2_nth _ _ _ _ _ I1 HN) as (t & Nt & Ft). rewrite Nt.
    destruct (Forall2_nth _ _ _ _ _ I2 HN) as (j' & Nj & Fj). cbn in Fj, Ft. rewrite HE in Fj. subst j'. assert (j = length a) by congruence. subst j.
    assert (La : length a < length h0) by (eapply Bnd; eauto).
    assert (NH : nth_error H (length a) = Some []).
    { rewrite <- (firstn_skipn (length h0) H), nth_error_app1 by (rewrite firstn_length; lia). rewrite FN.
      rewrite <- (nth_error_app1 _ (skipn (length h0) (a ++ [] :: b))) by (rewrite firstn_length; lia). rewrite firstn_skipn. apply nth_at. }
    eapply stops; eauto; [rewrite app_length, Nat.add_1_r; assumption|].
    rewrite evs_app, EV. cbn [evs ev]. rewrite (ev_iterator _ _ _ HE Ft). cbn [py_next]. now rewrite NH.
  - destruct INV as [I1 I2 I3 I4]. destruct (Forall2_nth _ _ _ _ _ I1 HN) as (t & Nt & Ft). rewrite Nt.
    destruct (Forall2_nth _ _ _ _ _ I2 HN) as (j' & Nj & Fj). cbn in Fj, Ft. rewrite HE in Fj. assert (J : j' = length a) by congruence. rewrite J in Fj. clear J Nj.
    assert (Hin := nth_error_In _ _ HN). destruct (I3 _ _ _ Hin HE) as (B1 & B2 & B3). specialize (B3 HU). rewrite <- Fj, nth_at in B3. injection B3 as <-.
    eapply stops; eauto; [rewrite app_length, Nat.add_1_r; assumption|]. rewrite evs_app, EV. cbn [evs]. now rewrite (next_list_stop _ _ HE Ft).
  - (* return *)
    destruct (texp_ok vst e) as [t T]; [intros q Iq; rewrite HM in Iq; apply in_seq in Iq; lia|]. exists t. split; [exact T|].
    destruct (ev_exp vst e t T) as (ts & M & X). rewrite HM, nth_seq in M. apply map_Some in M. subst ts. specialize (X h0). rewrite EV in X.
    destruct (value_total vs e z V) as (zs & Mz & ->). rewrite HM in Mz.
    assert (LV : length vst = length vs).
    { clear - EV. revert h0 vs EV. induction vst as [|t vst IH]; intros h0 vs EV; cbn [evs] in EV; [injection EV as <- _; reflexivity|].
      destruct (ev env t h0) as [[[w|l|i] h1]| | |]; try discriminate. destruct (evs vst h1) as [[ws h2]| | |] eqn:E2; try discriminate. injection EV as <- <-. cbn. f_equal. eapply IH. exact E2. }
    rewrite LV, nth_seq in Mz. apply map_Some in Mz. subst zs. exists H. split; [exact X|exact FN].
Qed.

(** * Collections *)
Lemma values_first vs vst ms : Forall2 (fun v t => forall h, exists h', ev env t h = Ok (VNum v, h')) vs vst -> forall ts zs,
  map (nth_error vst) ms = map Some ts -> map (nth_error vs) ms = map Some zs -> forall h, exists H, evs ts h = Ok (zs, H).
Proof.
  intros F. induction ms as [|m ms IH]; intros [|t ts] [|z zs] E1 E2 h; try discriminate; [exists h; reflexivity|]. cbn in E1, E2. injection E1 as N1 E1. injection E2 as N2 E2.
  destruct (Forall2_nth _ _ _ _ _ F N2) as (t' & N1' & X). assert (t' = t) by congruence. subst t'. destruct (X h) as [h1 Y]. destruct (IH ts zs E1 E2 h1) as [H W].
  exists H. cbn [evs]. rewrite Y, W. reflexivity.
Qed.
Theorem firsts_evaluated : forall fuel its vs p z, firsts env its vs p z -> forall itst vst, Forall2 (fun s t => from s t) its itst ->
  Forall2 (fun v t => forall h, exists h', ev env t h = Ok (VNum v, h')) vs vst ->
  exists t, trace fuel p itst vst = Ok t /\ forall h, exists h', ev env t h = Ok (VNum z, h').
Proof.
  intros fuel its vs p z R. induction R as [its vs s k z R IH|its vs i s k z N R IH|its vs i s x l k z N E R IH|its vs e z V]; intros itst vst F G; cbn [trace].
  - apply IH; [|exact G]. apply Forall2_app; [exact F|repeat constructor].
  - destruct (Forall2_nth _ _ _ _ _ F N) as (t & Nt & Ft). rewrite Nt. apply IH; [|exact G]. apply Forall2_app; [exact F|]. constructor; [constructor; exact Ft|constructor].
  - destruct (Forall2_nth _ _ _ _ _ F N) as (t & Nt & Ft). rewrite Nt. apply IH; [exact F|]. apply Forall2_app; [exact G|]. constructor; [|constructor].
    intros h. exists (h ++ [l]). now apply (next_list s).
  - destruct (value_total vs e z V) as (zs & Mz & ->). destruct (texp_ok vst e) as [t T].
    { intros n I. rewrite <- (Forall2_len _ _ _ G). apply nth_error_Some. intros X. assert (Y : In None (map Some zs)) by (rewrite <- Mz, <- X; now apply in_map). apply in_map_iff in Y. destruct Y as (? & ? & _). discriminate. }
    exists t. split; [exact T|]. intros h. destruct (ev_exp vst e t T) as (ts & M & X). destruct (values_first vs vst _ G ts zs M Mz h) as [H W]. specialize (X h). rewrite W in X. eauto.
Qed.
Lemma once_firsts : (forall s, exists l, env s = VSeq l) -> forall h its vs p o, runs env h its vs p o -> forall z h', o = ODone z h' ->
  forall rs used n itst loc, once_each env rs used n p -> inv 0 rs used n its itst h loc -> firsts env (map fst rs) vs p z.
Proof.
  intros All h its vs p o R. induction R as [h its vs s l k o E R IH|h its vs s j k o E R IH|h its vs m j k o N R IH|a x r b its vs m k o N R IH|a b its vs m k N|a l b its vs m k o N R IH|h its vs e z0 V];
    intros z h' EO rs used n itst loc O INV; inversion O; subst; nm.
  - constructor. assert (INV' := inv_list _ _ _ _ _ _ _ _ _ _ INV E (Nat.le_0_l _)). specialize (IH z h' eq_refl _ _ _ _ _ H3 INV'). now rewrite map_app in IH.
  - destruct (All s) as [l X]. congruence.
  - destruct (Forall2_nth _ _ _ _ _ (inv_terms _ _ _ _ _ _ _ _ INV) HN) as (t & Nt & Ft). apply fi_again with (fst q); [rewrite nth_error_map, HN; reflexivity|].
    assert (INV' := inv_again _ _ _ _ _ _ _ _ _ _ _ _ INV HN N Nt). match goal with X : once_each _ _ _ _ k |- _ => specialize (IH z h' eq_refl _ _ _ _ _ X INV') end. now rewrite map_app in IH.
  - destruct (All s) as [l X]. congruence.
  - assert (INV' := inv_next _ _ _ _ _ _ _ _ _ _ _ _ _ _ _ INV HN HE N). match goal with X : once_each _ _ (_ :: _) _ k |- _ => specialize (IH z h' eq_refl _ _ _ _ _ X INV') end.
    destruct (Forall2_nth _ _ _ _ _ (inv_ids _ _ _ _ _ _ _ _ INV) HN) as (j' & Nj & Fj). cbn in Fj. rewrite HE in Fj. assert (J : j' = length a) by congruence. rewrite J in Fj. clear J Nj.
    destruct (inv_loc _ _ _ _ _ _ _ _ INV _ _ _ (nth_error_In _ _ HN) HE) as (_ & _ & B3). specialize (B3 HU). rewrite <- Fj, nth_at in B3. injection B3 as <-.
    apply fi_next with s x r; [rewrite nth_error_map, HN; reflexivity|exact HE|exact IH].
  - discriminate.
  - discriminate.
  - injection EO as <- <-. now constructor.
Qed.
Theorem collections : forall fuel, (forall s, exists l, env s = VSeq l) -> forall p z h', runs env [] [] [] p (ODone z h') -> once_each env [] [] 0 p ->
  exists t, trace fuel p [] [] = Ok t /\ forall h, exists H, ev env t h = Ok (VNum z, H).
Proof.
  intros fuel All p z h' R O. apply (firsts_evaluated fuel [] [] p z); try constructor. apply (once_firsts All _ _ _ _ _ R z h' eq_refl [] [] 0 [] (fun x => x) O).
  constructor; try constructor; intros; match goal with X : In _ [] |- _ => destruct X end.
Qed.
Theorem iterators : forall fuel h0 p o, (forall s i, env s = VIt i -> i < length h0) -> runs env h0 [] [] p o -> once_each env [] [] 0 p -> in_order 0 p ->
  exists t, trace fuel p [] [] = Ok t /\
  match o with ODone z h' => exists H', ev env t h0 = Ok (VNum z, H') /\ firstn (length h0) H' = firstn (length h0) h' | OStop => ev env t h0 = Stop end.
Proof.
  intros fuel h0 p o Bnd R O I. apply (ordered fuel h0 Bnd h0 [] [] p o R [] [] 0 [] [] h0 (fun x => x)); try assumption; try reflexivity; try apply le_n.
  constructor; try constructor; intros; match goal with X : In _ [] |- _ => destruct X end.
Qed.
End Env.

(** * Loops *)
Lemma drain_fuel fuel : forall t acc, drain fuel t acc = Fuel.
Proof. induction fuel as [|f IH]; intros t acc; cbn; [reflexivity|apply IH]. Qed.
Theorem loops_forever : forall fuel p, loops p -> forall its vs t, trace fuel p its vs <> Ok t.
Proof.
  intros fuel p L. induction L as [i k|s k L IH|i k L IH|i k L IH]; intros its vs t; cbn [trace].
  - destruct (nth_error its i); [|discriminate]. rewrite drain_fuel. discriminate.
  - apply IH.
  - destruct (nth_error its i); [apply IH|discriminate].
  - destruct (nth_error its i); [apply IH|discriminate].
Qed.
Theorem loop_runs_on : forall fuel s k, trace fuel (PIter s (PSum 0 k)) [] [] = Fuel.
Proof. intros. cbn. now rewrite drain_fuel. Qed.
