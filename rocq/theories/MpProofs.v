(** Proofs: plates, sites, traces. *)
From Coq Require Import List Bool Arith Lia.
Import ListNotations.
From Verif Require Import MpModel MpSpec.

(** Shapes *)
Lemma nth_set i x s j : nth j (set_nth i x s) 1 = if (j =? i) && (j <? length s) then x else nth j s 1.
Proof.
  revert i j. induction s as [|y s IH]; intros i j; cbn [set_nth length]; [replace (j <? 0) with false by (destruct j; reflexivity); rewrite andb_false_r; destruct i; reflexivity|].
  destruct i, j; cbn [nth]; try reflexivity. cbn [set_nth nth]; rewrite IH. reflexivity.
Qed.
Lemma length_set i x s : length (set_nth i x s) = length s.
Proof. revert i. induction s as [|y s IH]; intros i; destruct i; cbn; auto. Qed.
Lemma length_padded j s : length (padded j s) = Nat.max (length s) j.
Proof. unfold padded. rewrite app_length, repeat_length. lia. Qed.
Lemma nth_padded j s i : nth i (padded j s) 1 = nth i s 1.
Proof.
  unfold padded. destruct (Nat.lt_ge_cases i (length s)) as [L|L]; [apply app_nth1; exact L|].
  rewrite app_nth2 by exact L. rewrite (nth_overflow s) by exact L. generalize (i - length s). generalize (j - length s). intros n. induction n as [|n IH]; intros m; destruct m; cbn; auto.
Qed.
Definition grown (sz j : nat) (s : list nat) : list nat := set_nth (j - 1) sz (padded j s).
Lemma nth_grown sz j s i : 1 <= j -> nth i (grown sz j s) 1 = if i =? j - 1 then sz else nth i s 1.
Proof.
  intros J. unfold grown. rewrite nth_set, nth_padded, length_padded. destruct (Nat.eqb_spec i (j - 1)) as [->|N]; cbn [andb]; [|reflexivity].
  replace (j - 1 <? Nat.max (length s) j) with true by (symmetry; apply Nat.ltb_lt; lia). reflexivity.
Qed.
Lemma length_grown sz j s : length (grown sz j s) = Nat.max (length s) j.
Proof. unfold grown. rewrite length_set. apply length_padded. Qed.
Lemma broad_grows s : forall s', grows s s' -> broad s s' = true.
Proof.
  induction s as [|x s IH]; intros s' [L H]; cbn [broad]; [reflexivity|]. destruct s' as [|y s']; cbn [length] in L; [lia|].
  apply andb_true_intro. split.
  - specialize (H 0 ltac:(cbn; lia)). cbn [nth] in H. destruct H as [-> | ->]; [rewrite Nat.eqb_refl; reflexivity | apply orb_true_r].
  - apply IH. split; [lia|]. intros i I. apply (H (S i)). cbn. lia.
Qed.

Lemma find_plate ps p : apart ps -> In p ps -> List.find (fun q => snd q =? snd p) ps = Some p.
Proof.
  intros [D _]. induction ps as [|q ps IH]; [contradiction|]. intros [-> | I]; cbn [List.find]; [rewrite Nat.eqb_refl; reflexivity|].
  inversion D as [|? ? NI D' E]. subst. destruct (Nat.eqb_spec (snd q) (snd p)) as [E|N]; [|apply IH; assumption].
  destruct NI. rewrite E. apply in_map. exact I.
Qed.
Lemma depth_in ps p : In p ps -> snd p <= depth ps.
Proof. induction ps as [|q ps IH]; [contradiction|]. intros [-> | I]; cbn; [|specialize (IH I); unfold depth in IH]; lia. Qed.
Lemma size_at_plate ps s sz j : apart ps -> In (sz, j) ps -> size_at ps s (j - 1) = sz.
Proof.
  intros A I. assert (J : 1 <= j) by (destruct A as [_ F]; rewrite Forall_forall in F; exact (F _ I)).
  unfold size_at. replace (S (j - 1)) with j by lia. pose proof (find_plate ps (sz, j) A I) as E. cbn [snd] in E. rewrite E. reflexivity.
Qed.
Lemma length_inside ps s : length (inside ps s) = Nat.max (length s) (depth ps).
Proof. unfold inside. rewrite map_length, seq_length. reflexivity. Qed.
Lemma size_at_out ps s i : Nat.max (length s) (depth ps) <= i -> size_at ps s i = 1.
Proof.
  intros L. unfold size_at. destruct (List.find (fun p => snd p =? S i) ps) as [p|] eqn:F; [|apply nth_overflow; lia].
  apply find_some in F. destruct F as [I E]. apply Nat.eqb_eq in E. pose proof (depth_in ps p I). lia.
Qed.
Lemma nth_inside ps s i : nth i (inside ps s) 1 = size_at ps s i.
Proof.
  unfold inside. destruct (Nat.lt_ge_cases i (Nat.max (length s) (depth ps))) as [L|L].
  - rewrite (nth_indep _ 1 (size_at ps s 0)) by (rewrite map_length, seq_length; exact L). rewrite map_nth. rewrite seq_nth by exact L. reflexivity.
  - rewrite nth_overflow by (rewrite map_length, seq_length; exact L). symmetry. apply size_at_out. exact L.
Qed.
Lemma nth_ext1 (s s' : list nat) : length s = length s' -> (forall i, nth i s 1 = nth i s' 1) -> s = s'.
Proof. intros L H. apply (nth_ext s s' 1 1 L). intros i _. apply H. Qed.

(** Plates whose size a shape has already *)
Definition fits (p : nat * nat) (s : list nat) : bool := negb (unfit (fst p) (snd p) s).
Lemma fits_iff sz j s : fits (sz, j) s = true <-> j <= length s /\ nth (j - 1) s 1 = sz.
Proof.
  unfold fits, unfit. cbn [fst snd]. rewrite negb_orb, negb_involutive, andb_true_iff, negb_true_iff, Nat.ltb_ge, Nat.eqb_eq. reflexivity.
Qed.
Lemma all_fit_inside ps s : apart ps -> (inside ps s = s <-> forall p, In p ps -> fits p s = true).
Proof.
  intros A. split.
  - intros E [sz j] I. apply fits_iff. pose proof (f_equal (@length nat) E) as L. rewrite length_inside in L. pose proof (depth_in ps _ I) as DI. cbn [snd] in DI. split; [lia|].
    rewrite <- E, nth_inside. apply size_at_plate; assumption.
  - intros H. apply nth_ext1.
    + rewrite length_inside. enough (depth ps <= length s) by lia. clear A. induction ps as [|[sz j] ps IH]; cbn; [lia|].
      assert (F : fits (sz, j) s = true) by (apply H; left; reflexivity). apply fits_iff in F. unfold depth in IH.
      assert (L : fold_right (fun (p : nat * nat) m => Nat.max (snd p) m) 0 ps <= length s) by (apply IH; intros p I; apply H; right; exact I). lia.
    + intros i. rewrite nth_inside. unfold size_at. destruct (List.find (fun p => snd p =? S i) ps) as [[sz j]|] eqn:F; [|reflexivity].
      apply find_some in F. destruct F as [I E]. apply Nat.eqb_eq in E. cbn [snd] in E. subst j. cbn [fst]. specialize (H _ I). apply fits_iff in H.
      destruct H as [_ H]. rewrite Nat.sub_succ, Nat.sub_0_r in H. congruence.
Qed.

Section Grow.
Variables (ps : plates) (s : list nat) (sz j : nat).
Hypothesis A : apart ps.
Hypothesis I : In (sz, j) ps.
Lemma plate_pos : 1 <= j.
Proof. destruct A as [_ F]. rewrite Forall_forall in F. exact (F _ I). Qed.
Lemma inside_grown : inside ps (grown sz j s) = inside ps s.
Proof.
  pose proof plate_pos as J. pose proof (depth_in ps _ I) as DI. cbn [snd] in DI. apply nth_ext1.
  - rewrite !length_inside, length_grown. lia.
  - intros i. rewrite !nth_inside. destruct (Nat.eq_dec i (j - 1)) as [->|N]; [rewrite !(size_at_plate ps _ sz j A I); reflexivity|].
    unfold size_at. rewrite nth_grown by exact J. destruct (Nat.eqb_spec i (j - 1)); [contradiction | reflexivity].
Qed.
Lemma grows_grown : grows s (inside ps s) -> grows s (grown sz j s) /\ grows (grown sz j s) (inside ps (grown sz j s)).
Proof.
  intros [L H]. pose proof plate_pos as J. pose proof (depth_in ps _ I) as DI. cbn [snd] in DI. rewrite inside_grown. split; split.
  - rewrite length_grown. lia.
  - intros i Li. rewrite nth_grown by exact J. destruct (Nat.eqb_spec i (j - 1)) as [->|N]; [|left; reflexivity].
    specialize (H _ Li). rewrite nth_inside, (size_at_plate ps s sz j A I) in H. exact H.
  - rewrite length_grown, length_inside. lia.
  - intros i Li. rewrite nth_grown by exact J. rewrite nth_inside. destruct (Nat.eqb_spec i (j - 1)) as [->|N]; [left; symmetry; apply size_at_plate; assumption|].
    destruct (Nat.lt_ge_cases i (length s)) as [L1|L1]; [rewrite <- nth_inside; exact (H i L1)|]. right. apply nth_overflow. exact L1.
Qed.
Lemma fits_grown p : In p ps -> fits p s = true -> fits p (grown sz j s) = true.
Proof.
  intros Ip F. destruct p as [sz' j']. apply fits_iff in F. destruct F as [F1 F2]. apply fits_iff. rewrite length_grown. split; [lia|].
  rewrite nth_grown by exact plate_pos. destruct (Nat.eqb_spec (j' - 1) (j - 1)) as [E|N]; [|exact F2].
  assert (J : 1 <= j') by (destruct A as [_ F]; rewrite Forall_forall in F; exact (F _ Ip)). pose proof plate_pos as J0. assert (j' = j) by lia. subst j'.
  pose proof (size_at_plate ps s _ _ A Ip) as E1. rewrite (size_at_plate ps s _ _ A I) in E1. exact E1.
Qed.
Lemma fits_now : fits (sz, j) (grown sz j s) = true.
Proof. apply fits_iff. rewrite length_grown. split; [lia|]. rewrite nth_grown by exact plate_pos. rewrite Nat.eqb_refl. reflexivity. Qed.
End Grow.

Definition unfits (ps : plates) (s : list nat) : nat := length (filter (fun p => negb (fits p s)) ps).
Lemma filter_fewer {A} (f g : A -> bool) l x : (forall y, In y l -> g y = true -> f y = true) -> In x l -> f x = true -> g x = false -> length (filter g l) < length (filter f l).
Proof.
  intros H. induction l as [|y l IH]; [contradiction|]. intros [-> | I] F G; cbn [filter].
  - rewrite F, G. cbn [length]. clear IH. enough (length (filter g l) <= length (filter f l)) by lia.
    assert (H' : forall y, In y l -> g y = true -> f y = true) by (intros y Iy; apply H; right; exact Iy). clear H F G. induction l as [|y l IH]; [cbn; lia|]. cbn [filter].
    assert (L : length (filter g l) <= length (filter f l)) by (apply IH; intros z Iz; apply H'; right; exact Iz).
    destruct (g y) eqn:Gy; [rewrite (H' y (or_introl eq_refl) Gy); cbn [length]; lia | destruct (f y); cbn [length]; lia].
  - assert (L : length (filter g l) < length (filter f l)) by (apply IH; auto; intros z Iz; apply H; right; exact Iz).
    destruct (g y) eqn:Gy; [rewrite (H y (or_introl eq_refl) Gy); cbn [length]; lia | destruct (f y); cbn [length]; lia].
Qed.
Lemma unfits_grown ps s sz j : apart ps -> In (sz, j) ps -> fits (sz, j) s = false -> unfits ps (grown sz j s) < unfits ps s.
Proof.
  intros A I F. apply (filter_fewer _ _ ps (sz, j)); [| exact I | rewrite F; reflexivity | rewrite (fits_now ps s sz j A I); reflexivity].
  intros p Ip H. apply negb_true_iff in H. apply negb_true_iff. destruct (fits p s) eqn:E; [|reflexivity]. rewrite (fits_grown ps s sz j A I p Ip E) in H. discriminate.
Qed.

Section Run.
Variables V B G U C : Type.
Variable draw : B -> list nat -> G -> V * G.
Variable to_c : C -> U -> V.
Variable from_c : C -> V -> U.
Notation state := (state V B G U C).
Notation hd := (hd V B).
Definition walls (ps : plates) : list hd := map (fun p => HPlate (fst p) (snd p)) ps.

Definition not_positional (g : given V) : Prop := forall o, g <> Positional o.
Lemma walls_fit again ps tail n d g (st : state) : not_positional g -> (forall p, In p ps -> fits p (shape d) = true) ->
  down draw again (walls ps ++ tail) n d g st = down draw again tail n d g st.
Proof.
  intros NP H. induction ps as [|[sz j] ps IH]; [reflexivity|]. cbn [walls map app down fst snd].
  assert (F : fits (sz, j) (shape d) = true) by (apply H; left; reflexivity). unfold fits in F. cbn [fst snd] in F. apply negb_true_iff in F. rewrite F.
  destruct g; try (apply IH; intros p Ip; apply H; right; exact Ip). destruct (NP o eq_refl).
Qed.
Lemma walls_unfit again ps tail n d g (st : state) : not_positional g -> apart ps -> grows (shape d) (inside ps (shape d)) -> (exists p, In p ps /\ fits p (shape d) = false) ->
  exists sz j, In (sz, j) ps /\ fits (sz, j) (shape d) = false /\ down draw again (walls ps ++ tail) n d g st = again (mkd (fam d) (grown sz j (shape d))) st.
Proof.
  intros NP A GR E.
  assert (X : forall qs, (forall p, In p qs -> In p ps) -> (exists p, In p qs /\ fits p (shape d) = false) ->
              exists sz j, In (sz, j) qs /\ fits (sz, j) (shape d) = false /\ down draw again (walls qs ++ tail) n d g st = again (mkd (fam d) (grown sz j (shape d))) st).
  { induction qs as [|[sz j] qs IH]; intros SUB [p [Ip F]]; [contradiction|]. cbn [walls map app down fst snd]. destruct (fits (sz, j) (shape d)) eqn:FE.
    - destruct Ip as [<- | Ip]; [rewrite FE in F; discriminate|]. destruct IH as [sz1 [j1 [I1 [F1 D1]]]]; [intros q Iq; apply SUB; right; exact Iq | eauto|].
      exists sz1, j1. split; [right; exact I1|]. split; [exact F1|]. unfold fits in FE. cbn [fst snd] in FE. apply negb_true_iff in FE. rewrite FE.
      destruct g; try exact D1. destruct (NP o eq_refl).
    - exists sz, j. split; [left; reflexivity|]. split; [exact FE|]. unfold fits in FE. cbn [fst snd] in FE. apply negb_false_iff in FE. rewrite FE.
      unfold expand. fold (grown sz j (shape d)).
      rewrite (broad_grows _ _ (proj1 (grows_grown ps (shape d) sz j A (SUB _ (or_introl eq_refl)) GR))). destruct g; try reflexivity. destruct (NP o eq_refl). }
  apply X; auto.
Qed.
(** A call inside plates arrives below them expanded; if anything was expanded, [obs] is lost *)
Lemma sample_plates ps tail n : apart ps -> forall fuel d g (st : state), unfits ps (shape d) < fuel -> not_positional g -> grows (shape d) (inside ps (shape d)) ->
  (forall again again' d' g' (st' : state), down draw again tail n d' g' st' = down draw again' tail n d' g' st') ->
  do_sample draw fuel (walls ps ++ tail) n d g st =
  down draw (fun _ _ => Raise RuntimeErr) tail n (mkd (fam d) (inside ps (shape d))) (if unfits ps (shape d) =? 0 then g else Omitted) st.
Proof.
  intros A. induction fuel as [|fuel IH]; intros d g st F NP GR NA; [lia|]. cbn [do_sample].
  destruct (unfits ps (shape d)) as [|c] eqn:U0; cbn [Nat.eqb].
  - assert (ALL : forall p, In p ps -> fits p (shape d) = true).
    { intros p Ip. destruct (fits p (shape d)) eqn:E; [reflexivity|]. unfold unfits in U0.
      assert (In p (filter (fun p => negb (fits p (shape d))) ps)) by (apply filter_In; split; [exact Ip | rewrite E; reflexivity]).
      destruct (filter (fun p => negb (fits p (shape d))) ps); [contradiction | discriminate]. }
    rewrite (walls_fit _ ps tail n d g st NP ALL). rewrite (proj2 (all_fit_inside ps (shape d) A) ALL). destruct d. apply NA.
  - assert (E : exists p, In p ps /\ fits p (shape d) = false).
    { unfold unfits in U0. destruct (filter (fun p => negb (fits p (shape d))) ps) as [|p l] eqn:E; [discriminate|].
      exists p. assert (IF : In p (filter (fun p => negb (fits p (shape d))) ps)) by (rewrite E; left; reflexivity). apply filter_In in IF. destruct IF as [Ip N]. apply negb_true_iff in N. auto. }
    destruct (walls_unfit (fun d' st' => do_sample draw fuel (walls ps ++ tail) n d' Omitted st') ps tail n d g st NP A GR E) as [sz [j [I [FF D]]]]. rewrite D.
    pose proof (unfits_grown ps (shape d) sz j A I FF) as L.
    rewrite (IH (mkd (fam d) (grown sz j (shape d))) Omitted st); cbn [shape fam]; [|lia | discriminate | exact (proj2 (grows_grown ps (shape d) sz j A I GR)) | exact NA].
    rewrite (inside_grown ps (shape d) sz j A I). destruct (unfits ps (grown sz j (shape d)) =? 0); reflexivity.
Qed.
Lemma param_plates ps tail n init c (st : state) : do_param to_c from_c (walls ps ++ tail) n init c st = do_param to_c from_c tail n init c st.
Proof. induction ps as [|p ps IH]; [reflexivity | exact IH]. Qed.

(** Below the plates: an optional [Replay], a [Tracer], and what runs *)
Definition known_of (rep : option (list (nat * msg V B))) (n : nat) : option V :=
  match rep with None => None | Some t => match find t n with Some m => Some (val_of m) | None => None end end.
Definition replay (rep : option (list (nat * msg V B))) : list hd := match rep with None => [] | Some t => [HReplay t] end.
Definition upd (tr : nat -> list (nat * msg V B)) (i n : nat) (m : msg V B) : nat -> list (nat * msg V B) := fun k => if k =? i then put (tr i) n m else tr k.
Definition capture (cap : option nat) (n : nat) (v : V) (tr : nat -> list (nat * msg V B)) := match cap with None => tr | Some c => upd tr c n (MParam v) end.
Definition runs_below (base : list hd) (cap : option nat) : Prop :=
  (forall again n d g (st : state), down draw again base n d g st = native_sample draw d g st) /\
  (forall n init c (st : state), do_param to_c from_c base n init c st =
     bindo (native_param to_c from_c n init c st) (fun v st1 => Ok v (mks (rng st1) (store st1) (capture cap n v (traces st1))))).
Lemma native_base rest : runs_below (HNative :: rest) None.
Proof. split; [reflexivity|]. intros n init c st. cbn [do_param]. destruct (native_param to_c from_c n init c st) as [v [r s t]| |]; reflexivity. Qed.
Lemma step_base rest : runs_below (HBlock (fun is_sample _ => is_sample) :: HTracer 2 :: HNative :: rest) (Some 2).
Proof. split; [reflexivity|]. intros n init c st. cbn [do_param]. destruct (native_param to_c from_c n init c st) as [v [r s t]| |]; reflexivity. Qed.

Section Site.
Variables (rep : option (list (nat * msg V B))) (i : nat) (base : list hd) (cap : option nat).
Hypothesis BASE : runs_below base cap.
Let tail := replay rep ++ HTracer i :: base.
Definition log (known : nat -> option V) (tr : nat -> list (nat * msg V B)) (e : event V B) : nat -> list (nat * msg V B) :=
  match e with
  | ESample n _ _ _ _ _ => upd tr i n (message known e)
  | EParam n v _ => upd (capture cap n v tr) i n (message known e)
  end.
Lemma tail_again again again' n d g (st : state) : down draw again tail n d g st = down draw again' tail n d g st.
Proof.
  unfold tail. destruct BASE as [BS _]. destruct rep as [t|]; cbn [replay app down].
  - destruct (find t n); destruct g; rewrite ?(BS again), ?(BS again'); reflexivity.
  - destruct g; rewrite ?(BS again), ?(BS again'); reflexivity.
Qed.
Lemma tail_sample again n d g r (s : store_t U C) tr x r1 : not_positional g ->
  (match known_of rep n, data g with
   | Some y, _ => x = y /\ r1 = r
   | None, Some y => x = y /\ r1 = r
   | None, None => draw (fam d) (shape d) r = (x, r1)
   end) ->
  down draw again tail n d g (mks r s tr) = Ok x (mks r1 s (upd tr i n (MSample d x (match known_of rep n with Some y => Some y | None => data g end)))).
Proof.
  intros NP H. destruct BASE as [BS _]. unfold tail.
  assert (X : forall g', not_positional g' -> match data g' with Some y => x = y /\ r1 = r | None => draw (fam d) (shape d) r = (x, r1) end ->
              down draw again (HTracer i :: base) n d g' (mks r s tr) = Ok x (mks r1 s (upd tr i n (MSample d x (data g'))))).
  { intros g' NP' H'. cbn [down]. rewrite BS. unfold native_sample. destruct g' as [|[y|]|o]; cbn [data] in H' |- *; [| | | destruct (NP' _ eq_refl)].
    - cbn [rng]. rewrite H'. reflexivity.
    - destruct H' as [-> ->]. reflexivity.
    - cbn [rng]. rewrite H'. reflexivity. }
  destruct rep as [t|]; cbn [replay app known_of] in *; [|apply X; [exact NP | destruct (data g); exact H]].
  change (down draw again (HReplay t :: HTracer i :: base) n d g (mks r s tr)) with
    (match find t n with
     | Some m => match g with Positional _ => Raise TypeErr | _ => down draw again (HTracer i :: base) n d (Keyword (Some (val_of m))) (mks r s tr) end
     | None => down draw again (HTracer i :: base) n d g (mks r s tr)
     end).
  destruct (find t n) as [m|]; [|apply X; [exact NP | destruct (data g); exact H]].
  destruct g; [| | destruct (NP _ eq_refl)]; apply (X (Keyword (Some (val_of m)))); try discriminate; exact H.
Qed.
Lemma tail_param n init c (r : G) (s : store_t U C) tr :
  do_param to_c from_c tail n init c (mks r s tr) =
  bindo (native_param to_c from_c n init c (mks r s tr)) (fun v st1 => Ok v (mks (rng st1) (store st1) (upd (capture cap n v (traces st1)) i n (MParam v)))).
Proof.
  destruct BASE as [_ BP]. unfold tail. destruct rep as [t|]; cbn [replay app do_param]; rewrite BP; destruct (native_param to_c from_c n init c (mks r s tr)) as [v [r1 s1 t1]| |]; reflexivity.
Qed.
Lemma put_absent {A} (s : list (nat * A)) n a : find s n = None -> put s n a = s ++ [(n, a)].
Proof. induction s as [|[m b] s IH]; cbn [find put app]; [reflexivity|]. destruct (m =? n); [discriminate|]. intros H. rewrite (IH H). reflexivity. Qed.

Lemma unfits_length ps s : unfits ps s <= length ps.
Proof. unfold unfits. induction ps as [|p ps IH]; cbn [filter length]; [lia|]. destruct (negb (fits p s)); cbn [length]; lia. Qed.
Lemma unfits_same ps s : apart ps -> s = inside ps s -> unfits ps s = 0.
Proof.
  intros A E. pose proof (proj1 (all_fit_inside ps s A) (eq_sym E)) as H. clear A E. unfold unfits. induction ps as [|p ps IH]; [reflexivity|]. cbn [filter].
  rewrite (H p (or_introl eq_refl)). apply IH. intros q Iq. apply H. right. exact Iq.
Qed.
Lemma run_goes known ps p r s v es r' s' : goes draw to_c from_c known ps p r s v es r' s' ->
  Forall (handled known) es -> (forall n, In n (sample_names es) -> known_of rep n = known n) ->
  exists F, forall fuel tr, F <= fuel -> run draw to_c from_c fuel (walls ps ++ tail) p (mks r s tr) = Ok v (mks r' s' (fold_left (log known) es tr)).
Proof.
  induction 1 as [ps v r s | ps n d g k r s v es r' s' x r1 GR A HX HG IH | ps n init c k r s v es r' s' u c' HF HG IH | ps n y fn c k r s v es r' s' HF HG IH
                 | ps sz j body k r s x es1 r1 s1 v es2 r' s' HG1 IH1 HG2 IH2]; intros HA KN.
  - exists 0. reflexivity.
  - inversion HA as [|? ? H12 HA']. subst. cbn [handled] in H12. destruct H12 as [H1 H2]. destruct IH as [F IH]; [exact HA' | intros m I; apply KN; right; exact I|].
    exists (Nat.max F (S (length ps))). intros fuel tr L. cbn [run]. pose proof (unfits_length ps (shape d)) as UL.
    rewrite (sample_plates ps tail n A fuel d g (mks r s tr)); [|lia | exact H1 | exact GR | intros; apply tail_again].
    pose proof (KN n (or_introl eq_refl)) as KE. cbn [fold_left log message].
    rewrite (tail_sample _ n _ _ r s tr x r1).
    + cbn [bindo]. rewrite KE. rewrite IH by lia. do 2 f_equal. do 2 f_equal. do 2 f_equal. destruct (known n) eqn:K; [reflexivity|].
      destruct (unfits ps (shape d) =? 0) eqn:UE; [reflexivity|]. cbn [data]. destruct (data g) as [y|] eqn:DG; [|reflexivity].
      rewrite (unfits_same ps (shape d) A) in UE; [discriminate|]. apply H2; [discriminate | reflexivity].
    + destruct (unfits ps (shape d) =? 0); [exact H1 | discriminate].
    + cbn [fam shape]. rewrite KE. destruct (known n) eqn:K; [exact HX|]. destruct (unfits ps (shape d) =? 0) eqn:UE; [exact HX|]. cbn [data]. destruct (data g) as [y|] eqn:DG; [|exact HX].
      rewrite (unfits_same ps (shape d) A) in UE; [discriminate|]. apply H2; [discriminate | reflexivity].
  - inversion HA as [|? ? H1 HA']. subst. clear H1. destruct IH as [F IH]; [exact HA' | exact KN|]. exists F. intros fuel tr L. cbn [run]. rewrite param_plates, tail_param.
    unfold native_param. cbn [store]. rewrite HF. cbn [bindo rng store traces]. rewrite IH by exact L. reflexivity.
  - inversion HA as [|? ? H1 HA']. cbn [handled] in H1. subst. destruct IH as [F IH]; [exact HA' | exact KN|]. exists F. intros fuel tr L. cbn [run]. rewrite param_plates, tail_param.
    unfold native_param. cbn [store]. rewrite HF. cbn [bindo rng store traces]. rewrite put_absent by exact HF. rewrite IH by exact L. reflexivity.
  - apply Forall_app in HA. destruct HA as [HA1 HA2]. destruct IH1 as [F1 IH1]; [exact HA1 | intros n I; apply KN; unfold sample_names; rewrite flat_map_app; apply in_or_app; left; exact I|].
    destruct IH2 as [F2 IH2]; [exact HA2 | intros n I; apply KN; unfold sample_names; rewrite flat_map_app; apply in_or_app; right; exact I|].
    exists (Nat.max F1 F2). intros fuel tr L. cbn [run]. change (HPlate sz j :: walls ps ++ tail) with (walls ((sz, j) :: ps) ++ tail). rewrite IH1 by lia. cbn [bindo]. rewrite IH2 by lia. rewrite fold_left_app. reflexivity.
Qed.
End Site.
End Run.
