From Coq Require Import List Arith Bool Lia.
From Verif Require Import SdModel SdSpec SdProofs SdLaws.
Import ListNotations.

(** * Without virtual superclasses *)
Lemma not_virtual : forall w c ks, sound w -> no_virtual w ks c -> virtual w c ks = [].
Proof.
  intros w c ks So N. destruct (virtual w c ks) as [|t l] eqn:E; [reflexivity|].
  assert (T : In t (virtual w c ks)) by (rewrite E; now left).
  apply virtual_in in T. destruct T as [T1 [T2 T3]]. exfalso. apply T3.
  apply (listed w So). now apply N.
Qed.

Lemma scan_first : forall w c ks l, (forall x, In x l -> In x (mro w c)) ->
  scan w c ks l = Ok (first_in ks l).
Proof.
  intros w c ks l; induction l as [|x l IH]; intros H; cbn [scan first_in]; [reflexivity|].
  destruct (in_dec Nat.eq_dec x ks) as [Hx|Hx].
  - rewrite (proj2 (mem_In x ks) Hx). destruct l as [|t l]; [reflexivity|].
    assert (T : mem t (mro w c) = true) by (apply mem_In; apply H; right; now left).
    rewrite T. cbn [negb]. rewrite andb_false_r. reflexivity.
  - rewrite (proj2 (mem_out x ks) Hx). apply IH. intros y Hy. apply H. now right.
Qed.

Lemma find_plain : forall w c ks, sound w -> no_virtual w ks c ->
  find_class w c ks = bind (c3_mro w (S c) c []) (fun r => Ok (first_in ks r)).
Proof.
  intros w c ks So N. unfold find_class, compose_mro. rewrite (not_virtual w c ks So N).
  assert (E : enough c (arrange w c []) = S c) by (unfold enough; cbn; lia).
  rewrite E. change (arrange w c []) with (@nil cls).
  destruct (c3_mro w (S c) c []) as [r|e] eqn:R; [|reflexivity].
  apply scan_first. intros x Hx.
  destruct (c3_source _ _ _ _ _ R x Hx) as [K|[a [[] _]]]. now apply (listed w So).
Qed.

(** ** C3 and the merge *)
Lemma behead_drop : forall x s, behead x s = drop x s.
Proof.
  intros x [|y s]; cbn; [reflexivity|].
  destruct (Nat.eq_dec y x) as [->|N]; [now rewrite Nat.eqb_refl|].
  apply Nat.eqb_neq in N. now rewrite N.
Qed.

Lemma merge_same : forall n a b, filter nonempty a = filter nonempty b -> merge n a = merge n b.
Proof. intros [|n] a b H; [reflexivity|]. now rewrite !merge_unfold, H. Qed.

Lemma filter_drop : forall x seqs,
  filter nonempty (map (drop x) (filter nonempty seqs)) = filter nonempty (map (drop x) seqs).
Proof.
  intros x seqs; induction seqs as [|[|y s] seqs IH]; [reflexivity | exact IH |].
  cbn [filter nonempty map]. cbn [filter]. now rewrite IH.
Qed.

Lemma pick_first : forall all l x s more,
  (forall y s', In (y :: s') l -> exists q, In q all /\ In y (tl q)) ->
  (forall q, In q all -> ~ In x (tl q)) -> pick all (l ++ (x :: s) :: more) = Some x.
Proof.
  intros all l x s more; induction l as [|[|y q] l IH]; intros B N; cbn [app pick].
  - destruct (existsb (fun s => mem x (tl s)) all) eqn:E; [|reflexivity].
    apply existsb_exists in E. destruct E as [q [Hq E]]. apply mem_In in E. now elim (N q Hq).
  - apply IH; [|exact N]. intros y s' H. apply (B y s'). now right.
  - assert (E : existsb (fun s => mem y (tl s)) all = true).
    { destruct (B y q (or_introl eq_refl)) as [p [Hp Hy]]. apply existsb_exists. exists p.
      split; [exact Hp | now apply mem_In]. }
    rewrite E. apply IH; [|exact N]. intros z s' H. apply (B z s'). now right.
Qed.

Lemma c3_merges : forall seqs r, c3 seqs r -> forall n, total seqs < n -> merge n seqs = Ok r.
Proof.
  intros seqs r H; induction H as [seqs E|seqs l x s r more E B N _ IH]; intros n L;
    (destruct n as [|n]; [lia|]); rewrite merge_unfold.
  - assert (F : filter nonempty seqs = []).
    { clear -E. induction seqs as [|s seqs IH]; [reflexivity|]. cbn.
      rewrite (E s (or_introl eq_refl)). cbn. apply IH. intros q Hq. apply E. now right. }
    now rewrite F.
  - assert (F : filter nonempty seqs = filter nonempty l ++ (x :: s) :: filter nonempty more).
    { rewrite E, filter_app. reflexivity. }
    assert (P : pick (filter nonempty seqs) (filter nonempty seqs) = Some x).
    { rewrite F at 2. apply pick_first.
      - intros y s' H. apply filter_nonempty in H. destruct H as [H _].
        destruct (B y s' H) as [q [Hq Hy]]. exists q. split; [|exact Hy].
        apply filter_nonempty. split; [exact Hq|]. intros ->. destruct Hy.
      - intros q Hq. apply filter_nonempty in Hq. apply N. apply Hq. }
    destruct (filter nonempty seqs) as [|q0 qs0] eqn:G; [destruct (filter nonempty l); discriminate F|].
    rewrite P. rewrite <- G.
    rewrite (merge_same n _ (map (drop x) seqs) (filter_drop x seqs)).
    rewrite <- (map_ext _ _ (behead_drop x) seqs). rewrite IH; [reflexivity|].
    rewrite (map_ext _ _ (behead_drop x) seqs).
    assert (T : In (x :: s) seqs) by (rewrite E; apply in_or_app; right; now left).
    pose proof (total_less x s seqs T). lia.
Qed.

Lemma mapM_map : forall A B (f : A -> res B) g l, (forall a, In a l -> f a = Ok (g a)) ->
  mapM f l = Ok (map g l).
Proof.
  intros A B f g l; induction l as [|a l IH]; intros H; [reflexivity|].
  assert (U : mapM f (a :: l) = bind (f a) (fun b => bind (mapM f l) (fun bs => Ok (b :: bs)))) by reflexivity.
  rewrite U, (H a (or_introl eq_refl)), IH; [reflexivity|]. intros x Hx. apply H. now right.
Qed.

Lemma boundary_none : forall f l, (forall b, In b l -> f b = false) -> boundary f l = 0.
Proof.
  intros f l; induction l as [|b l IH]; intros H; cbn; [reflexivity|].
  rewrite IH; [|intros x Hx; apply H; now right]. now rewrite (H b (or_introl eq_refl)).
Qed.

Lemma boundary_last : forall f l b, f b = true -> boundary f (l ++ [b]) = length (l ++ [b]).
Proof.
  intros f l b H; induction l as [|a l IH]; cbn; [now rewrite H|].
  rewrite IH, app_length. cbn. rewrite Nat.add_1_r. reflexivity.
Qed.

Lemma c3_python : forall w, sound w -> ordered w -> forall n (c : cls), c < n -> unmixed w c ->
  c3_mro w n c [] = Ok (mro w c).
Proof.
  intros w So Or n; induction n as [|n IH]; intros c L U; [lia|].
  rewrite c3_unfold. change (introduced w c []) with (@nil cls).
  change (rest_of w c []) with (@nil cls).
  assert (G : forall b, In b (bases w c) -> c3_mro w n b [] = Ok (mro w b)).
  { intros b Hb. apply IH; [pose proof (older w So _ _ Hb); lia|].
    intros d Hd. apply U. now apply nominal_base with b. }
  rewrite (mapM_map _ _ _ (mro w) (explicit_of w c)).
  2: { intros a Ha. apply G. rewrite <- split_bases. apply in_or_app. now left. }
  rewrite (mapM_map _ _ _ (mro w) (other_of w c)).
  2: { intros a Ha. apply G. rewrite <- split_bases. apply in_or_app. now right. }
  cbn [mapM bind app].
  destruct (Or c) as [r [Em C]]. rewrite Em.
  set (seqs := map (mro w) (explicit_of w c) ++ map (mro w) (other_of w c) ++ [explicit_of w c; []; other_of w c]).
  assert (F : filter nonempty seqs = filter nonempty (map (mro w) (bases w c) ++ [bases w c])).
  { unfold seqs. rewrite app_assoc, <- map_app, split_bases, !filter_app. f_equal.
    unfold explicit_of, other_of. destruct (U c (nominal_refl w c)) as [V|[l [b [El V]]]].
    - rewrite (boundary_none _ _ V). reflexivity.
    - rewrite El, (boundary_last _ _ _ V), firstn_all, skipn_all. cbn.
      destruct (l ++ [b]); reflexivity. }
  assert (T : total seqs = total (map (mro w) (bases w c) ++ [bases w c])).
  { rewrite <- (total_filter seqs), F. apply total_filter. }
  assert (Out : forall s, In s seqs -> ~ In c s).
  { assert (O1 : forall b, In b (bases w c) -> b < c) by (intros b Hb; now apply (older w So)).
    assert (O2 : forall b, In b (bases w c) -> ~ In c (mro w b)).
    { intros b Hb K. apply (listed w So) in K. apply (nominal_old w So) in K.
      specialize (O1 b Hb). lia. }
    intros s Hs. unfold seqs in Hs. rewrite app_assoc, <- map_app, split_bases in Hs.
    apply in_app_or in Hs. destruct Hs as [Hs|Hs].
    - apply in_map_iff in Hs. destruct Hs as [b [<- Hb]]. now apply O2.
    - intros K. assert (X : In c (bases w c)).
      { rewrite <- split_bases. destruct Hs as [<-|[<-|[<-|[]]]];
        [apply in_or_app; now left | destruct K | apply in_or_app; now right]. }
      specialize (O1 c X). lia. }
  unfold c3_merge. rewrite merge_unfold.
  cbn [filter nonempty].
  assert (P : pick ([c] :: filter nonempty seqs) ([c] :: filter nonempty seqs) = Some c).
  { apply (pick_first ([c] :: filter nonempty seqs) [] c [] (filter nonempty seqs)).
    - intros y s' [].
    - intros q [<-|Hq]; [auto|]. apply filter_nonempty in Hq. destruct Hq as [Hq _].
      intros K. apply (Out q Hq). destruct q as [|a q]; [destruct K | now right]. }
  match goal with |- match ?p with _ => _ end = _ => replace p with (Some c) by (symmetry; exact P) end.
  cbn [map drop]. rewrite Nat.eqb_refl.
  assert (D : map (drop c) (filter nonempty seqs) = filter nonempty seqs).
  { rewrite <- (map_id (filter nonempty seqs)) at 2. apply map_ext_in. intros q Hq.
    apply filter_nonempty in Hq. destruct Hq as [Hq _]. destruct q as [|a q]; [reflexivity|]. cbn.
    destruct (Nat.eqb_spec a c) as [->|_]; [|reflexivity]. exfalso. apply (Out _ Hq). now left. }
  rewrite D. rewrite (merge_same _ ([] :: filter nonempty seqs) (map (mro w) (bases w c) ++ [bases w c])).
  - rewrite (c3_merges _ _ C); [reflexivity|]. rewrite total_cons. cbn [length]. lia.
  - cbn [filter nonempty]. rewrite <- F. clear. induction seqs as [|[|a s] seqs IH]; cbn; [reflexivity|exact IH|].
    now rewrite IH.
Qed.

Lemma find_inherited : forall w c ks, sound w -> ordered w -> unmixed w c -> no_virtual w ks c ->
  find_class w c ks = Ok (first_in ks (mro w c)).
Proof.
  intros w c ks So Or U N. rewrite (find_plain w c ks So N).
  rewrite (c3_python w So Or (S c) c (Nat.lt_succ_diag_r c) U). reflexivity.
Qed.

(** * The cache *)
Lemma c3_same : forall w w', (forall c, bases w c = bases w' c) -> (forall c, abstr w c = abstr w' c) ->
  forall n c, c3_mro w n c [] = c3_mro w' n c [].
Proof.
  intros w w' Hb Ha n; induction n as [|n IH]; intros c; [reflexivity|].
  rewrite !c3_unfold. change (introduced w c []) with (@nil cls). change (introduced w' c []) with (@nil cls).
  change (rest_of w c []) with (@nil cls). change (rest_of w' c []) with (@nil cls).
  assert (B : forall l, boundary (abstr w) l = boundary (abstr w') l).
  { induction l as [|b l IHl]; cbn; [reflexivity|]. now rewrite IHl, Ha. }
  assert (E1 : explicit_of w c = explicit_of w' c) by (unfold explicit_of; now rewrite Hb, B).
  assert (E2 : other_of w c = other_of w' c) by (unfold other_of; now rewrite Hb, B).
  rewrite E1, E2.
  assert (M : forall l, mapM (fun b => c3_mro w n b []) l = mapM (fun b => c3_mro w' n b []) l).
  { induction l as [|b l IHl]; [reflexivity|].
    change (bind (c3_mro w n b []) (fun x => bind (mapM (fun b => c3_mro w n b []) l) (fun bs => Ok (x :: bs))) =
            bind (c3_mro w' n b []) (fun x => bind (mapM (fun b => c3_mro w' n b []) l) (fun bs => Ok (x :: bs)))).
    now rewrite IH, IHl. }
  now rewrite !M.
Qed.

Section Cache.
Context {F : Type}.
Variable w : nat -> world.
Hypothesis St : steady w.

Definition tame (reg : list (cls * F)) : Prop := forall t, In t (keys reg) -> abstr (w 0) t = false.

Lemma fresh_steady : forall reg c n m, tame reg -> fresh (w n) c reg = fresh (w m) c reg.
Proof.
  destruct St as [S1 [S2 S3]]. intros reg c n m T.
  assert (V : forall k, no_virtual (w k) (map fst reg) c).
  { intros k t Ht Hs. destruct (S1 k) as [_ Pl]. apply Pl; [|exact Hs]. rewrite S3. now apply T. }
  unfold fresh. destruct (lookup c reg); [reflexivity|]. unfold find_impl.
  rewrite (find_plain (w n) c _ (proj1 (S1 n)) (V n)), (find_plain (w m) c _ (proj1 (S1 m)) (V m)).
  rewrite (c3_same (w n) (w m)); [reflexivity| |].
  - intros d. now rewrite (S2 n), (S2 m).
  - intros d. now rewrite (S3 n), (S3 m).
Qed.

Definition good (now : nat) (s : @state F) : Prop :=
  (token s = None -> tame (registry s)) /\
  forall c r, lookup c (cache s) = Some r ->
    fresh (w (match token s with Some k => k | None => now end)) c (registry s) = Ok r.

Lemma lookup_assign : forall V (d : list (cls * V)) x y v,
  lookup y (assign x v d) = if Nat.eqb x y then Some v else lookup y d.
Proof.
  intros V d x y v; induction d as [|[z u] d IH]; cbn; [reflexivity|].
  destruct (Nat.eqb_spec z x) as [->|N]; cbn.
  - destruct (Nat.eqb x y); reflexivity.
  - rewrite IH. destruct (Nat.eqb_spec z y) as [->|N']; [|reflexivity].
    destruct (Nat.eqb_spec x y) as [->|_]; [now elim N | reflexivity].
Qed.

Lemma keys_assign : forall V (d : list (cls * V)) x v t, In t (keys (assign x v d)) -> t = x \/ In t (keys d).
Proof.
  intros V d x v t; induction d as [|[z u] d IH]; cbn; [intuition|].
  destruct (Nat.eqb_spec z x) as [->|N]; cbn; [intuition|]. intuition.
Qed.

Lemma keys_assign_all : forall V (f : V) cs (d : list (cls * V)) t,
  In t (keys (fold_left (fun r c => assign c f r) cs d)) -> In t cs \/ In t (keys d).
Proof.
  intros V f cs; induction cs as [|c cs IH]; intros d t H; cbn in *; [now right|].
  apply IH in H. destruct H as [H|H]; [auto|]. apply keys_assign in H. intuition.
Qed.

Lemma dispatch_good : forall now s c, good now s ->
  snd (dispatch w now s c) = fresh (w now) c (registry s) /\
  registry (fst (dispatch w now s c)) = registry s /\
  good now (fst (dispatch w now s c)).
Proof.
  intros now s c [G1 G2]. unfold dispatch.
  set (s' := match token s with
             | Some k => if Nat.eqb k now then s else State (registry s) [] (Some now)
             | None => s end).
  assert (E : registry s' = registry s /\
              (token s' = None -> tame (registry s')) /\
              (forall c r, lookup c (cache s') = Some r -> fresh (w now) c (registry s) = Ok r) /\
              (token s' = None \/ token s' = Some now)).
  { unfold s'. destruct (token s) as [k|] eqn:T.
    - destruct (Nat.eqb_spec k now) as [->|N].
      + split; [reflexivity|]. split; [intros X; rewrite T in X; discriminate|].
        split; [exact G2 | now right].
      + cbn. split; [reflexivity|]. split; [discriminate|]. split; [discriminate | now right].
    - split; [reflexivity|]. split; [intros _; now apply G1|]. split; [exact G2 | now left]. }
  destruct E as [E1 [E2 [E3 E4]]].
  assert (Gs : forall c0 r, lookup c0 (cache s') = Some r ->
     fresh (w (match token s' with Some k => k | None => now end)) c0 (registry s') = Ok r).
  { intros c0 r H. rewrite E1. destruct E4 as [->| ->]; now apply E3. }
  destruct (lookup c (cache s')) as [r|] eqn:L.
  - cbn. split; [symmetry; now apply E3|]. split; [exact E1|]. split; [exact E2 | exact Gs].
  - rewrite E1. destruct (fresh (w now) c (registry s)) as [r|e] eqn:R; cbn.
    + split; [reflexivity|]. split; [reflexivity|]. split; cbn; [rewrite <- E1; exact E2|].
      intros d q. rewrite lookup_assign. destruct (Nat.eqb_spec c d) as [<-|N].
      * intros K. injection K as <-. destruct E4 as [->| ->]; exact R.
      * rewrite <- E1. apply Gs.
    + split; [reflexivity|]. split; [exact E1|]. split; [exact E2 | exact Gs].
Qed.

Lemma step_good : forall now s e, direct w e -> good now s ->
  good (fst (step w (now, s) e)) (snd (step w (now, s) e)) /\
  registry (snd (step w (now, s) e)) = given_step e (registry s) /\
  fst (step w (now, s) e) = now + bumps [e].
Proof.
  intros now s e D G. destruct e as [c f|cs f|c|]; cbn [step fst snd given_step].
  - split; [|split; [reflexivity | cbn; lia]]. destruct G as [G1 _]. split; cbn; [|discriminate].
    intros T t Ht. destruct (token s) as [k|]; [discriminate|].
    destruct (abstr (w now) c) eqn:A; [discriminate|].
    apply keys_assign in Ht. destruct Ht as [->|Ht]; [|now apply G1].
    destruct St as [_ [_ S3]]. now rewrite <- (S3 now).
  - split; [|split; [reflexivity | cbn; lia]]. destruct G as [G1 _]. split; cbn; [|discriminate].
    intros T t Ht. apply keys_assign_all in Ht. destruct Ht as [Ht|Ht]; [now apply (D 0) | now apply G1].
  - destruct (dispatch_good now s c G) as [_ [R K]]. split; [exact K|]. split; [exact R | cbn; lia].
  - split; [|split; [reflexivity | cbn; lia]]. destruct G as [G1 G2]. split; [exact G1|].
    intros c r H. specialize (G2 c r H). destruct (token s) as [k|]; [exact G2|].
    rewrite <- G2. apply fresh_steady. now apply G1.
Qed.

Lemma run_good : forall (f : F) (l : list event), abstr (w 0) 0 = false -> Forall (direct w) l ->
  fst (run w f l) = bumps l /\ registry (snd (run w f l)) = given f l /\
  good (fst (run w f l)) (snd (run w f l)).
Proof.
  intros f l A0 D. unfold run, given.
  assert (K : forall l x r, Forall (direct w) l -> registry (snd x) = r -> good (fst x) (snd x) ->
     fst (fold_left (step w) l x) = fst x + bumps l /\
     registry (snd (fold_left (step w) l x)) = fold_left (fun r e => given_step e r) l r /\
     good (fst (fold_left (step w) l x)) (snd (fold_left (step w) l x))).
  { clear -St. induction l as [|e l IH]; intros [now s] r D E G; cbn [fold_left].
    - cbn. rewrite Nat.add_0_r. auto.
    - inversion D as [|? ? De Dl]; subst.
      destruct (step_good now s e De G) as [G' [R' N']].
      destruct (IH (step w (now, s) e) (given_step e (registry s)) Dl R' G') as [A [B C]].
      split; [|split; [exact B | exact C]]. rewrite A, N'. cbn [fst]. unfold bumps. cbn [filter].
      destruct e; cbn; lia. }
  destruct (K l (0, start f) [(0, f)] D eq_refl) as [A [B C]].
  { split; cbn; [|discriminate]. intros _ t [<-|[]]. exact A0. }
  split; [exact A|]. split; [exact B | exact C].
Qed.

Lemma dispatch_fresh : forall (f : F) (l : list event) c, abstr (w 0) 0 = false -> Forall (direct w) l ->
  snd (dispatch w (fst (run w f l)) (snd (run w f l)) c) = fresh (w (bumps l)) c (given f l).
Proof.
  intros f l c A0 D. destruct (run_good f l A0 D) as [A [B G]].
  destruct (dispatch_good _ _ c G) as [R _]. now rewrite R, A, B.
Qed.
End Cache.

(** * Rules *)
Lemma lookup_some : forall V (d : list (cls * V)) t, In t (keys d) -> exists v, lookup t d = Some v.
Proof.
  intros V d t; induction d as [|[y u] d IH]; cbn; intros H; [destruct H|].
  destruct (Nat.eqb_spec y t) as [E|N]; [now exists u|].
  destruct H as [H|H]; [now elim N | now apply IH].
Qed.

Lemma lookup_none : forall V (d : list (cls * V)) t, ~ In t (keys d) -> lookup t d = None.
Proof.
  intros V d t; induction d as [|[y u] d IH]; cbn; intros H; [reflexivity|].
  destruct (Nat.eqb_spec y t) as [E|N]; [exfalso; apply H; now left|].
  apply IH. intros K. apply H. now right.
Qed.

Lemma fresh_best : forall V w c (reg : list (cls * V)) r, sound w -> In 0 (keys reg) ->
  ~ In c (keys reg) -> fresh w c reg = Ok r ->
  exists t f, r = Some f /\ lookup t reg = Some f /\ best w (keys reg) c t.
Proof.
  intros V w c reg r So H0 Hc H. unfold fresh in H. rewrite (lookup_none _ _ _ Hc) in H.
  unfold find_impl in H. fold (keys reg) in H.
  destruct (find_class w c (keys reg)) as [m|e] eqn:E; [|discriminate]. cbn in H. injection H as <-.
  destruct (find_best w c (keys reg) So H0 m E) as [t [-> B]].
  destruct (lookup_some _ reg t (proj1 B)) as [f Hf]. exists t, f. auto.
Qed.

Lemma fresh_errors : forall V w c (reg : list (cls * V)) e, sound w -> fresh w c reg = Err e ->
  ~ In c (keys reg) /\
  (e = Inconsistent \/
   exists m t, e = Ambiguous m t /\ best w (keys reg) c m /\ m <> t /\ In t (keys reg) /\
     issub w c t = true /\ ~ nominal w c m /\ ~ nominal w c t /\ issub w m t = false /\ ~ nominal w t m).
Proof.
  intros V w c reg e So H. unfold fresh in H.
  destruct (lookup c reg) as [f|] eqn:L; [discriminate|]. split.
  - intros K. destruct (lookup_some _ _ _ K) as [v Hv]. rewrite Hv in L. discriminate.
  - unfold find_impl in H. fold (keys reg) in H.
    destruct (find_class w c (keys reg)) as [m|e'] eqn:E; [discriminate|]. cbn in H. injection H as ->.
    now apply find_errors.
Qed.

Lemma fresh_least : forall V w c (reg : list (cls * V)) t f, sound w -> In 0 (keys reg) ->
  lookup t reg = Some f -> issub w c t = true -> ~ In c (keys reg) ->
  (forall u, In u (keys reg) -> issub w c u = true -> nominal w t u) ->
  fresh w c reg = Ok (Some f) \/ fresh w c reg = Err Inconsistent.
Proof.
  intros V w c reg t f So H0 Hf Hs Hc L.
  assert (Ht : In t (keys reg)).
  { destruct (in_dec Nat.eq_dec t (keys reg)) as [K|K]; [exact K|].
    rewrite (lookup_none _ _ _ K) in Hf. discriminate. }
  unfold fresh. rewrite (lookup_none _ _ _ Hc). unfold find_impl. fold (keys reg).
  destruct (find_least w c (keys reg) t So H0 Ht Hs L) as [->| ->]; cbn; [left | right]; [|reflexivity].
  now rewrite Hf.
Qed.

Lemma first_in_some : forall ks l, (exists x, In x l /\ In x ks) -> exists t, first_in ks l = Some t.
Proof.
  intros ks l; induction l as [|a l IH]; intros [x [H1 H2]]; [destruct H1|]. cbn.
  destruct (in_dec Nat.eq_dec a ks) as [K|K]; [now exists a|]. apply IH.
  destruct H1 as [->|H1]; [contradiction | now exists x].
Qed.

Lemma first_in_in : forall ks l t, first_in ks l = Some t -> In t ks.
Proof.
  intros ks l t; induction l as [|a l IH]; cbn; intros H; [discriminate|].
  destruct (in_dec Nat.eq_dec a ks) as [K|K]; [now injection H as <- | now apply IH].
Qed.

Lemma fresh_inherited : forall V w c (reg : list (cls * V)), sound w -> ordered w -> unmixed w c ->
  In 0 (keys reg) -> no_virtual w (keys reg) c ->
  exists t f, first_in (keys reg) (mro w c) = Some t /\ lookup t reg = Some f /\
    fresh w c reg = Ok (Some f).
Proof.
  intros V w c reg So Or U H0 N.
  destruct (first_in_some (keys reg) (mro w c)) as [t Ht].
  { exists 0. split; [apply (listed w So); apply (rooted w So) | exact H0]. }
  destruct (lookup_some _ reg t (first_in_in _ _ _ Ht)) as [f Hf].
  exists t, f. split; [exact Ht|]. split; [exact Hf|]. unfold fresh.
  destruct (lookup c reg) as [g|] eqn:L.
  - assert (Kc : In c (keys reg)).
    { destruct (in_dec Nat.eq_dec c (keys reg)) as [K|K]; [exact K|].
      rewrite (lookup_none _ _ _ K) in L. discriminate. }
    destruct (Or c) as [r [Em _]]. rewrite Em in Ht. cbn in Ht.
    destruct (in_dec Nat.eq_dec c (keys reg)) as [K|K]; [|contradiction].
    injection Ht as <-. rewrite L in Hf. injection Hf as ->. reflexivity.
  - unfold find_impl. fold (keys reg). rewrite (find_inherited w c (keys reg) So Or U N), Ht. cbn.
    now rewrite Hf.
Qed.

Lemma first_in_same : forall a b l, (forall x, In x a <-> In x b) -> first_in a l = first_in b l.
Proof.
  intros a b l H; induction l as [|x l IH]; cbn; [reflexivity|].
  destruct (in_dec Nat.eq_dec x a) as [K|K]; destruct (in_dec Nat.eq_dec x b) as [K'|K'];
    [reflexivity | elim K'; now apply H | elim K; now apply H | exact IH].
Qed.

Lemma keys_lookup : forall V (a b : list (cls * V)), (forall t, lookup t a = lookup t b) ->
  forall t, In t (keys a) -> In t (keys b).
Proof.
  intros V a b H t K. destruct (lookup_some _ _ _ K) as [v Hv]. rewrite H in Hv.
  destruct (in_dec Nat.eq_dec t (keys b)) as [K'|K']; [exact K'|].
  rewrite (lookup_none _ _ _ K') in Hv. discriminate.
Qed.

Lemma fresh_order : forall V w c (a b : list (cls * V)), sound w ->
  (forall t, lookup t a = lookup t b) -> no_virtual w (keys a) c -> fresh w c a = fresh w c b.
Proof.
  intros V w c a b So H N.
  assert (K : forall x, In x (keys a) <-> In x (keys b)).
  { intros x. split; apply keys_lookup; [exact H | intros t; symmetry; apply H]. }
  assert (N' : no_virtual w (keys b) c).
  { intros t Ht Hs. apply N; [now apply K | exact Hs]. }
  unfold fresh. rewrite H. destruct (lookup c b); [reflexivity|]. unfold find_impl.
  fold (keys a). fold (keys b).
  rewrite (find_plain w c _ So N), (find_plain w c _ So N').
  destruct (c3_mro w (S c) c []) as [r|e]; [|reflexivity]. cbn.
  rewrite (first_in_same _ _ r K). destruct (first_in (keys b) r); [now rewrite H | reflexivity].
Qed.

Lemma fresh_exact : forall V w c (reg : list (cls * V)) f,
  lookup c reg = Some f -> fresh w c reg = Ok (Some f).
Proof. intros V w c reg f H. unfold fresh. now rewrite H. Qed.

(** * The first base *)
Lemma parts_source : forall w n c abcs m b x,
  c3_mro w n b (rest_of w c abcs) = Ok m -> In x m ->
  nominal w b x \/ exists a, In a abcs /\ nominal w a x.
Proof.
  intros w n c abcs m b x E Hx. destruct (c3_source _ _ _ _ _ E x Hx) as [K|[a [Ha [_ K]]]]; [now left|].
  right. exists a. split; [now apply removed_in in Ha | exact K].
Qed.

Lemma c3_head : forall w, sound w -> forall n c abcs r, c3_mro w n c abcs = Ok r ->
  (forall a, In a abcs -> ~ nominal w a c) -> exists r', r = c :: r'.
Proof.
  intros w So n c abcs r H N. destruct n as [|n]; [discriminate|].
  destruct (c3_parts _ _ _ _ _ H) as [ms [M [Hto Hof]]].
  apply (merge_single _ _ _ _ M). intros s Hs Hc.
  destruct (in_parts _ _ _ _ _ _ _ Hto Hs Hc) as [m [Hm Hcm]].
  destruct (Hof _ Hm) as [b [Hb Eb]].
  destruct (parts_source _ _ _ _ _ _ _ Eb Hcm) as [K|[a [Ha K]]]; [|now apply (N a)].
  destruct Hb as [Hb|Hb].
  - apply (nominal_old w So) in K. pose proof (older w So _ _ Hb). lia.
  - apply (N b); [now apply introduced_in in Hb | exact K].
Qed.

Lemma boundary_first : forall f b l, f b = true -> exists k, boundary f (b :: l) = S k.
Proof.
  intros f b l H. cbn. destruct (boundary f l) as [|k]; [rewrite H; now exists 0 | now exists (S k)].
Qed.

Lemma c3_second : forall w, sound w -> forall n c b bs abcs r, c3_mro w n c abcs = Ok r ->
  bases w c = b :: bs -> abstr w b = true ->
  (forall d, In d bs -> ~ nominal w d b) -> (forall a, In a abcs -> ~ nominal w a b) ->
  exists r', r = c :: b :: r'.
Proof.
  intros w So n c b bs abcs r H Eb Ab Nb Na.
  assert (Nc : forall a, In a abcs -> ~ nominal w a c).
  { intros a Ha K. apply (Na a Ha). apply (nominal_trans w a c b K).
    apply nominal_base with b; [rewrite Eb; now left | constructor]. }
  destruct (c3_head w So n c abcs r H Nc) as [r1 ->].
  destruct n as [|n]; [discriminate|]. rewrite c3_unfold in H.
  destruct (boundary_first (abstr w) b bs Ab) as [k Ek]. rewrite <- Eb in Ek.
  assert (Ee : explicit_of w c = b :: firstn k bs) by (unfold explicit_of; rewrite Ek, Eb; reflexivity).
  assert (Eo : other_of w c = skipn k bs) by (unfold other_of; rewrite Ek, Eb; reflexivity).
  rewrite Ee, Eo in H.
  assert (U : forall f : cls -> res (list cls), mapM f (b :: firstn k bs) =
     bind (f b) (fun m => bind (mapM f (firstn k bs)) (fun ms => Ok (m :: ms)))) by reflexivity.
  rewrite U in H.
  destruct (c3_mro w n b (rest_of w c abcs)) as [mb|e] eqn:E0; [|discriminate]. cbn [bind] in H.
  destruct (mapM _ (firstn k bs)) as [es|e] eqn:E1 in H; [|discriminate]. cbn [bind] in H.
  destruct (mapM _ (introduced w c abcs)) as [xs|e] eqn:E2 in H; [|discriminate]. cbn [bind] in H.
  destruct (mapM _ (skipn k bs)) as [os|e] eqn:E3 in H; [|discriminate]. cbn [bind app] in H.
  apply mapM_in in E1, E2, E3. destruct E1 as [_ B1]. destruct E2 as [_ B2]. destruct E3 as [_ B3].
  assert (Hmb : exists mb', mb = b :: mb').
  { apply (c3_head w So n b _ _ E0). intros a Ha. apply Na. now apply removed_in in Ha. }
  destruct Hmb as [mb' ->].
  assert (Db : ~ In b mb') by (pose proof (c3_nodup _ _ _ _ _ E0) as D; now inversion D).
  set (more := es ++ xs ++ os ++ [b :: firstn k bs; introduced w c abcs; skipn k bs]) in *.
  assert (Far : forall d m, (In d bs \/ In d (introduced w c abcs)) ->
            c3_mro w n d (rest_of w c abcs) = Ok m -> ~ In b m).
  { intros d m Hd Ed K. destruct (parts_source _ _ _ _ _ _ _ Ed K) as [J|[a [Ha J]]]; [|now apply (Na a)].
    destruct Hd as [Hd|Hd]; [now apply (Nb d)|]. apply (Na d); [now apply introduced_in in Hd | exact J]. }
  assert (Nbs : forall d, In d bs -> d <> b) by (intros d Hd ->; apply (Nb b Hd); constructor).
  assert (Free : forall q, In q more -> ~ In b (tl q)).
  { intros q Hq. assert (T : ~ In b q -> ~ In b (tl q)).
    { intros T K. apply T. destruct q as [|y q]; [exact K | now right]. }
    unfold more in Hq. apply in_app_or in Hq. destruct Hq as [Hq|Hq].
    { apply T. destruct (B1 _ Hq) as [d [Hd Ed]]. apply (Far d); [|exact Ed]. left.
      rewrite <- (firstn_skipn k bs). apply in_or_app. now left. }
    apply in_app_or in Hq. destruct Hq as [Hq|Hq].
    { apply T. destruct (B2 _ Hq) as [d [Hd Ed]]. apply (Far d); [now right | exact Ed]. }
    apply in_app_or in Hq. destruct Hq as [Hq|Hq].
    { apply T. destruct (B3 _ Hq) as [d [Hd Ed]]. apply (Far d); [|exact Ed]. left.
      rewrite <- (firstn_skipn k bs). apply in_or_app. now right. }
    destruct Hq as [<-|[<-|[<-|[]]]]; cbn [tl].
    - intros K. apply (Nbs b); [|reflexivity]. rewrite <- (firstn_skipn k bs). apply in_or_app. now left.
    - apply T. intros K. apply introduced_in in K. destruct K as [K _]. apply (Na b K). constructor.
    - apply T. intros K. apply (Nbs b); [|reflexivity]. rewrite <- (firstn_skipn k bs). apply in_or_app. now right. }
  unfold c3_merge in H.
  destruct (merge_cases _ _ _ H) as [[K _]|[x [r2 [K [P M]]]]]; [discriminate|].
  injection K as <- <-.
  assert (Hcb : c <> b).
  { intros ->. pose proof (older w So b b) as O. rewrite Eb in O. specialize (O (or_introl eq_refl)). lia. }
  change (filter nonempty ([c] :: (b :: mb') :: more)) with ([c] :: (b :: mb') :: filter nonempty more) in M.
  change (map (drop c) ([c] :: (b :: mb') :: filter nonempty more)) with
    (drop c [c] :: drop c (b :: mb') :: map (drop c) (filter nonempty more)) in M.
  assert (X1 : drop c [c] = []) by (cbn; now rewrite Nat.eqb_refl).
  assert (X2 : drop c (b :: mb') = b :: mb').
  { cbn. destruct (Nat.eqb_spec b c) as [->|_]; [now elim Hcb | reflexivity]. }
  rewrite X1, X2 in M.
  remember (total ([c] :: (b :: mb') :: more)) as T eqn:ET. destruct T as [|T]; [discriminate|].
  destruct (merge_cases _ _ _ M) as [[_ K]|[x [r3 [-> [P' M']]]]].
  - specialize (K (b :: mb') (or_intror (or_introl eq_refl))). discriminate.
  - exists r3. repeat f_equal.
    rewrite pick_first with (l := []) (x := b) (s := mb')
      (more := filter nonempty (map (drop c) (filter nonempty more))) in P'.
    + now injection P' as <-.
    + intros y s' [].
    + intros q Hq. apply filter_nonempty in Hq. destruct Hq as [Hq _].
      destruct Hq as [<-|[<-|Hq]]; [auto | exact Db|].
      apply in_map_iff in Hq. destruct Hq as [p [<- Hp]]. apply filter_nonempty in Hp. destruct Hp as [Hp _].
      pose proof (Free p Hp) as Fp. destruct p as [|y p]; [exact Fp|]. cbn in *.
      destruct (Nat.eqb y c); [|exact Fp]. intros J. apply Fp. destruct p as [|z p]; [exact J | now right].
Qed.

Lemma fresh_first : forall V w c b bs (reg : list (cls * V)) f, sound w ->
  bases w c = b :: bs -> abstr w b = true -> (forall d, In d bs -> ~ nominal w d b) ->
  (forall a, In a (keys reg) -> issub w c a = true -> nominal w a b -> nominal w c a) ->
  lookup b reg = Some f -> ~ In c (keys reg) ->
  fresh w c reg = Ok (Some f) \/ fresh w c reg = Err Inconsistent.
Proof.
  intros V w c b bs reg f So Eb Ab Nb Na Hf Hc. unfold fresh. rewrite (lookup_none _ _ _ Hc).
  unfold find_impl. fold (keys reg). unfold find_class.
  destruct (compose_mro w c (keys reg)) as [r|e] eqn:E.
  2: { right. now rewrite (compose_errors _ _ _ _ So E). }
  left. destruct (c3_second w So _ c b bs _ r E Eb Ab Nb) as [r' ->].
  { intros a Ha K. apply (arrange_in w So) in Ha. apply virtual_in in Ha. destruct Ha as [H1 [H2 H3]].
    apply H3. apply (listed w So). now apply Na. }
  assert (Kb : In b (keys reg)).
  { destruct (in_dec Nat.eq_dec b (keys reg)) as [K|K]; [exact K|].
    rewrite (lookup_none _ _ _ K) in Hf. discriminate. }
  cbn [bind scan]. rewrite (proj2 (mem_out c (keys reg)) Hc), (proj2 (mem_In b (keys reg)) Kb).
  assert (Mb : mem b (mro w c) = true).
  { apply mem_In. apply (listed w So). apply nominal_base with b; [rewrite Eb; now left | constructor]. }
  rewrite Mb. cbn [negb]. destruct r' as [|t r']; [cbn; now rewrite Hf|].
  rewrite andb_false_r. cbn. now rewrite Hf.
Qed.

(** * Classes that are not superclasses do not matter *)
Lemma filter_filter_ext : forall (f g : cls -> bool) a b, filter g a = filter g b ->
  filter (fun x => f x && g x) a = filter (fun x => f x && g x) b.
Proof.
  intros f g a b H.
  assert (K : forall l, filter (fun x => f x && g x) l = filter f (filter g l)).
  { induction l as [|x l IH]; cbn [filter]; [reflexivity|]. destruct (g x); cbn [filter].
    - rewrite andb_true_r. now rewrite IH.
    - rewrite andb_false_r. exact IH. }
  now rewrite !K, H.
Qed.

Lemma fresh_unrelated : forall V w w' c (reg : list (cls * V)),
  (forall d, bases w d = bases w' d) -> (forall d, mro w d = mro w' d) ->
  (forall d t, issub w d t = issub w' d t) -> (forall d, abstr w d = abstr w' d) ->
  (forall t, filter (issub w c) (subclasses w t) = filter (issub w c) (subclasses w' t)) ->
  fresh w c reg = fresh w' c reg.
Proof.
  intros V w w' c reg Hb Hm Hi Ha Hs. unfold fresh. destruct (lookup c reg); [reflexivity|].
  unfold find_impl, find_class. set (ks := map fst reg).
  assert (Ev : virtual w c ks = virtual w' c ks).
  { unfold virtual. assert (E1 : filter (related w c) ks = filter (related w' c) ks).
    { apply filter_ext. intros t. unfold related. now rewrite Hm, Hi. }
    rewrite E1. clear E1. apply filter_ext. intros t. f_equal. unfold strict_base.
    induction (filter (related w' c) ks) as [|o l IH]; [reflexivity|]. cbn [existsb]. now rewrite IH, Hm. }
  assert (Ea : forall types, arrange w c types = arrange w' c types).
  { intros types.
    assert (Ef : forall t, found w c types t = found w' c types t).
    { intros t. unfold found.
      assert (E2 : filter (fun sub => negb (mem sub (mro w c)) && issub w c sub) (subclasses w t) =
                   filter (fun sub => negb (mem sub (mro w' c)) && issub w' c sub) (subclasses w' t)).
      { rewrite (filter_filter_ext (fun sub => negb (mem sub (mro w c))) (issub w c) _ _ (Hs t)).
        apply filter_ext. intros s. now rewrite Hm, Hi. }
      rewrite E2. apply map_ext. intros s. now rewrite Hm. }
    change (fold_left (arrange_step w c types) types [] = fold_left (arrange_step w' c types) types []).
    assert (G : forall l acc, fold_left (arrange_step w c types) l acc = fold_left (arrange_step w' c types) l acc).
    { induction l as [|t l IH]; intros acc; cbn; [reflexivity|].
      assert (X : arrange_step w c types acc t = arrange_step w' c types acc t)
        by (unfold arrange_step; now rewrite Ef).
      now rewrite X, IH. }
    apply G. }
  assert (Ec : forall n d abcs, c3_mro w n d abcs = c3_mro w' n d abcs).
  { induction n as [|n IH]; intros d abcs; [reflexivity|]. rewrite !c3_unfold.
    assert (Bd : forall l, boundary (abstr w) l = boundary (abstr w') l).
    { induction l as [|b l IHl]; cbn; [reflexivity|]. now rewrite IHl, Ha. }
    assert (E1 : explicit_of w d = explicit_of w' d) by (unfold explicit_of; now rewrite Hb, Bd).
    assert (E2 : other_of w d = other_of w' d) by (unfold other_of; now rewrite Hb, Bd).
    assert (E3 : introduced w d abcs = introduced w' d abcs).
    { unfold introduced. apply filter_ext. intros a. rewrite Hi, Hb. f_equal. f_equal.
      induction (bases w' d) as [|b l IHl]; [reflexivity|]. cbn [existsb]. now rewrite Hi, IHl. }
    assert (E4 : rest_of w d abcs = rest_of w' d abcs) by (unfold rest_of; now rewrite E3).
    rewrite E1, E2, E3, E4.
    assert (M : forall l, mapM (fun b => c3_mro w n b (rest_of w' d abcs)) l =
                          mapM (fun b => c3_mro w' n b (rest_of w' d abcs)) l).
    { induction l as [|b l IHl]; [reflexivity|].
      change (bind (c3_mro w n b (rest_of w' d abcs)) (fun x => bind (mapM (fun b => c3_mro w n b (rest_of w' d abcs)) l) (fun bs => Ok (x :: bs))) =
              bind (c3_mro w' n b (rest_of w' d abcs)) (fun x => bind (mapM (fun b => c3_mro w' n b (rest_of w' d abcs)) l) (fun bs => Ok (x :: bs)))).
      now rewrite IH, IHl. }
    now rewrite !M. }
  unfold compose_mro. rewrite Ev, Ea, Ec.
  destruct (c3_mro w' _ c _) as [r|e]; [|reflexivity]. cbn [bind].
  assert (Es : scan w c ks r = scan w' c ks r).
  { induction r as [|m r IH]; cbn; [reflexivity|]. rewrite IH. destruct r as [|t r]; [reflexivity|].
    now rewrite !Hm, Hi. }
  now rewrite Es.
Qed.
