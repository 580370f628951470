(** Proofs: expansions are prefixes, the beam keeps the best, and when the search ends. *)
From Coq Require Import List Bool Arith ZArith Lia Permutation.
Import ListNotations.
From Verif Require Import BeamModel BeamSpec.

Section Expand.
Variables T A G : Type.
Variable pick : list T -> G -> T * G.
Hypothesis PICK : picks pick.
Notation prog := (prog T A).
Notation cand := (cand T A).

(** After its one choice the program runs to the next *)
Lemma model_rest script (p : prog) : forall h, nth_error script (step h) = None -> first h = false ->
  match model pick script p h with
  | Returns a h' => exists z, prefix p [] z (Done a) /\ tr h' = tr h /\ sc h' = (sc h + z)%Z
  | Suspends h' => exists z, prefix p [] z Waiting /\ tr h' = tr h /\ sc h' = (sc h + z)%Z
  | Fails => False
  end.
Proof.
  induction p as [a | cs k IH | y k IH]; intros h N F; cbn [model].
  - exists 0%Z. split; [constructor|]. split; [reflexivity | lia].
  - unfold trace_choose, replay_choose. rewrite N. unfold once_choose. rewrite F. cbn [negb]. exists 0%Z. split; [constructor|]. split; [reflexivity | lia].
  - specialize (IH (mkh (step h) (first h) (tr h) (sc h + y)%Z (rng h)) N F). cbn [tr sc] in IH.
    destruct (model pick script k _) as [a h'|h'|]; [| |exact IH]; destruct IH as [z [P [E1 E2]]]; exists (y + z)%Z; (split; [constructor; exact P|]; split; [exact E1 | lia]).
Qed.
Lemma nth_skipn {X} (l : list X) : forall i x t, skipn i l = x :: t -> nth_error l i = Some x /\ skipn (i + 1) l = t.
Proof. induction l as [|y l IH]; intros [|i] x t; cbn; intros E; try discriminate; [injection E as -> ->; auto | apply IH; exact E]. Qed.
Lemma nth_skipn_nil {X} (l : list X) : forall i, skipn i l = [] -> nth_error l i = None.
Proof. induction l as [|y l IH]; intros [|i]; cbn; intros E; try discriminate; auto. Qed.
(** The choices of a prefix are made again, then one more (if the prefix waits) *)
Lemma model_prefix script (p : prog) t z st : prefix p t z st -> forall h, skipn (step h) script = t -> first h = true ->
  match model pick script p h with
  | Returns a h' => exists t' z', prefix p t' z' (Done a) /\ tr h' = tr h ++ t' /\ sc h' = (sc h + z')%Z /\ match st with Waiting => exists x, t' = t ++ [x] | Done _ => t' = t end
  | Suspends h' => exists t' z', prefix p t' z' Waiting /\ tr h' = tr h ++ t' /\ sc h' = (sc h + z')%Z /\ match st with Waiting => exists x, t' = t ++ [x] | Done _ => False end
  | Fails => ~ offers p
  end.
Proof.
  induction 1 as [a | cs k | cs k x t z st I P IH | y k t z st P IH]; intros h S F; cbn [model].
  - exists [], 0%Z. split; [constructor|]. rewrite app_nil_r. split; [reflexivity|]. split; [lia | reflexivity].
  - unfold trace_choose, replay_choose. rewrite (nth_skipn_nil _ _ S). unfold once_choose. rewrite F. cbn [negb]. unfold default_choose.
    destruct cs as [|c cs]; [intros O; inversion O; congruence|]. cbn [rng step tr first sc].
    pose proof (PICK (c :: cs) (rng h) ltac:(discriminate)) as IN. destruct (pick (c :: cs) (rng h)) as [x g]. cbn [fst] in IN. cbn [step first tr sc rng].
    pose proof (model_rest script (k x) (mkh (step h) false (tr h ++ [(c :: cs, x)]) (sc h) g) (nth_skipn_nil _ _ S) eq_refl) as M. cbn [tr sc] in M.
    destruct (model pick script (k x) _) as [a h'|h'|]; [| |contradiction]; destruct M as [z [P [E1 E2]]]; exists [(c :: cs, x)], z; (split; [constructor; assumption|]; split; [exact E1|]; split; [exact E2 | exists (c :: cs, x); reflexivity]).
  - destruct (nth_skipn _ _ _ _ S) as [N S']. unfold trace_choose, replay_choose. rewrite N. cbn [snd step first tr sc rng].
    specialize (IH (mkh (step h + 1) (first h) (tr h ++ [(cs, x)]) (sc h) (rng h)) S' F). cbn [tr sc] in IH.
    destruct (model pick script (k x) _) as [a h'|h'|].
    + destruct IH as [t' [z' [P' [E1 [E2 E3]]]]]. exists ((cs, x) :: t'), z'. split; [constructor; assumption|]. split; [rewrite E1, <- app_assoc; reflexivity|]. split; [exact E2|].
      destruct st; [destruct E3 as [w ->]; exists w; reflexivity | rewrite E3; reflexivity].
    + destruct IH as [t' [z' [P' [E1 [E2 E3]]]]]. exists ((cs, x) :: t'), z'. split; [constructor; assumption|]. split; [rewrite E1, <- app_assoc; reflexivity|]. split; [exact E2|].
      destruct st; [destruct E3 as [w ->]; exists w; reflexivity | exact E3].
    + intros O. apply IH. inversion O; subst; auto.
  - specialize (IH (mkh (step h) (first h) (tr h) (sc h + y)%Z (rng h)) S F). cbn [tr sc] in IH.
    destruct (model pick script k _) as [a h'|h'|].
    + destruct IH as [t' [z' [P' [E1 [E2 E3]]]]]. exists t', (y + z')%Z. split; [constructor; exact P'|]. split; [exact E1|]. split; [lia | exact E3].
    + destruct IH as [t' [z' [P' [E1 [E2 E3]]]]]. exists t', (y + z')%Z. split; [constructor; exact P'|]. split; [exact E1|]. split; [lia | exact E3].
    + intros O. apply IH. inversion O; subst; assumption.
Qed.
Lemma prefix_start (p : prog) : exists z st, prefix p [] z st.
Proof. induction p as [a | cs k IH | y k [z [st P]]]; [exists 0%Z, (Done a); constructor | exists 0%Z, Waiting; constructor | exists (y + z)%Z, st; constructor; exact P]. Qed.

(** What expanding makes *)
Definition grew (p : prog) (c n : cand) : Prop := real p n /\
  ((exists x, trace n = trace c ++ [x]) \/ (trace n = [] /\ trace c = [] /\ in_progress n = false)).
Definition parent (p : prog) (c : cand) : Prop := in_progress c = true /\ (c = root \/ real p c).
Lemma expand_grew p c g : parent p c -> match expand pick p c g with Some (n, _) => grew p c n | None => ~ offers p end.
Proof.
  intros [IP HC]. assert (X : exists z st, prefix p (trace c) z st /\ (st = Waiting \/ trace c = [])).
  { destruct HC as [-> | [st [P S]]]; [destruct (prefix_start p) as [z [st P]]; exists z, st; auto|]. exists (score c), st. split; [exact P|]. left. destruct st; [reflexivity|]. destruct S; congruence. }
  destruct X as [z [st [P D]]]. unfold expand.
  pose proof (model_prefix (trace c) p (trace c) z st P (mkh 0 true [] 0%Z g) eq_refl eq_refl) as M. cbn [tr sc] in M.
  destruct (model pick (trace c) p (mkh 0 true [] 0%Z g)) as [a h|h|]; [| |exact M]; destruct M as [t' [z' [P' [E1 [E2 E3]]]]]; cbn [app] in E1; rewrite Z.add_0_l in E2; subst t' z'.
  - split; [exists (Done a); split; [exact P' | split; reflexivity]|]. cbn [trace in_progress]. destruct st as [|b]; [left; exact E3|]. right. destruct D as [D|D]; [discriminate|]. split; [rewrite E3; exact D|]. auto.
  - split; [exists Waiting; split; [exact P' | split; reflexivity]|]. cbn [trace in_progress]. destruct st as [|b]; [left; exact E3 | contradiction].
Qed.
Lemma expand_all_grew p cs : forall g, Forall (parent p) cs -> match expand_all pick p cs g with Some (ns, _) => Forall2 (grew p) cs ns | None => ~ offers p end.
Proof.
  induction cs as [|c cs IH]; intros g H; cbn [expand_all]; [constructor|]. inversion H as [|? ? H1 H2]. subst. pose proof (expand_grew p c g H1) as E.
  destruct (expand pick p c g) as [[n g1]|]; [|exact E]. specialize (IH g1 H2). destruct (expand_all pick p cs g1) as [[ns g2]|]; [constructor; assumption | exact IH].
Qed.
End Expand.

Section Search.
Variables T A G : Type.
Variable pick : list T -> G -> T * G.
Hypothesis PICK : picks pick.
Notation prog := (prog T A).
Notation cand := (cand T A).
Variable ok : list cand -> Prop.
Variables push pushpop : list cand -> cand -> list cand.
Hypothesis HEAP : heaps ok push pushpop.

(** The beam holds the best of what was seen *)
Definition best (w : nat) (beam seen : list cand) : Prop :=
  ok beam /\ beam <> [] /\ length beam <= w /\ exists dropped, Permutation seen (beam ++ dropped) /\ (forall d b, In d dropped -> In b beam -> (score d <= score b)%Z) /\ (dropped <> [] -> length beam = w).
Lemma perm_in {X} (l l' : list X) x : Permutation l l' -> In x l -> In x l'.
Proof. intros P. apply Permutation_in. exact P. Qed.
Lemma insert_best w beam seen c : 1 <= w -> best w beam seen -> best w (insert push pushpop w beam c) (seen ++ [c]).
Proof.
  intros W [OK [NE [L [D [P [LE F]]]]]]. unfold insert. destruct (Nat.leb_spec w (length beam)) as [LW|LW].
  - destruct beam as [|m h]; [congruence|]. destruct (heap_pushpop _ _ _ _ _ HEAP m h c OK) as [OK' R]. pose proof (heap_least _ _ _ _ _ HEAP m h) as LM. unfold less in R. cbn [length] in *.
    destruct (Z.ltb_spec (score m) (score c)) as [Lmc|Lmc].
    + pose proof (Permutation_length R) as RL. cbn [length] in RL. split; [exact OK'|]. split; [intros E; rewrite E in RL; discriminate|]. split; [lia|].
      exists (m :: D). split; [|split].
      * rewrite R. rewrite P. cbn [app]. rewrite <- Permutation_cons_append. rewrite <- Permutation_middle. apply perm_swap.
      * intros d b [<- | Id] Ib; apply (perm_in _ _ _ R) in Ib; destruct Ib as [<- | Ib].
        -- lia.
        -- apply LM; assumption.
        -- specialize (LE d m Id (or_introl eq_refl)). lia.
        -- apply LE; [exact Id | right; exact Ib].
      * intros _. lia.
    + pose proof (Permutation_length R) as RL. cbn [length] in RL. split; [exact OK'|]. split; [intros E; rewrite E in RL; discriminate|]. split; [lia|].
      exists (c :: D). split; [|split].
      * rewrite R. rewrite P. rewrite <- Permutation_cons_append. apply Permutation_middle.
      * intros d b [<- | Id] Ib; apply (perm_in _ _ _ R) in Ib; [|apply LE; assumption]. destruct Ib as [<- | Ib]; [lia|]. specialize (LM b OK Ib). lia.
      * intros _. lia.
  - destruct (heap_push _ _ _ _ _ HEAP beam c OK) as [OK' R]. pose proof (Permutation_length R) as RL. cbn [length] in RL. split; [exact OK'|]. split; [intros E; rewrite E in RL; discriminate|]. split; [lia|].
    assert (D = []) by (destruct D as [|d D]; [reflexivity | specialize (F ltac:(discriminate)); lia]). subst D. exists []. split; [|split; [intros d b []|congruence]].
    rewrite app_nil_r in P |- *. rewrite R, P. rewrite <- Permutation_cons_append. reflexivity.
Qed.
Lemma inserts_best w new : 1 <= w -> forall beam seen, best w beam seen -> best w (fold_left (insert push pushpop w) new beam) (seen ++ new).
Proof.
  intros W. induction new as [|c new IH]; intros beam seen B; [rewrite app_nil_r; exact B|]. cbn [fold_left]. replace (seen ++ c :: new) with ((seen ++ [c]) ++ new) by (rewrite <- app_assoc; reflexivity).
  apply IH. apply insert_best; assumption.
Qed.
Lemma best_in w beam seen c : best w beam seen -> In c beam -> In c seen.
Proof. intros [_ [_ [_ [D [P _]]]]] I. apply (Permutation_in _ (Permutation_sym P)). apply in_or_app. left. exact I. Qed.
Lemma best_root w : 1 <= w -> best w [root] [root].
Proof. intros W. split; [apply (heap_one _ _ _ _ _ HEAP)|]. split; [discriminate|]. split; [exact W|]. exists []. split; [reflexivity|]. split; [intros d b [] | congruence]. Qed.

Lemma in_expandable w beam (c : cand) : In c (concat (repeat (filter in_progress beam) w)) -> In c beam /\ in_progress c = true.
Proof.
  intros I. apply in_concat in I. destruct I as [l [Il Ic]]. apply repeat_spec in Il. subst l. apply filter_In in Ic. exact Ic.
Qed.
Lemma expandable_nil w (beam : list cand) : 1 <= w -> concat (repeat (filter in_progress beam) w) = [] -> Forall (fun c => in_progress c = false) beam.
Proof.
  intros W E. destruct w; [lia|]. cbn [repeat concat] in E. apply app_eq_nil in E. destruct E as [E _]. apply Forall_forall. intros c I.
  destruct (in_progress c) eqn:IP; [|reflexivity]. assert (In c (filter in_progress beam)) by (apply filter_In; auto). rewrite E in H. contradiction.
Qed.
Definition genuine (p : prog) (seen : list cand) : Prop := Forall (fun c => c = root \/ real p c) seen.
Lemma expandable_parents p w beam seen : 1 <= w -> best w beam seen -> genuine p seen -> Forall (parent T A p) (concat (repeat (filter in_progress beam) w)).
Proof.
  intros W B GE. apply Forall_forall. intros c I. apply in_expandable in I. destruct I as [I IP]. split; [exact IP|]. unfold genuine in GE. rewrite Forall_forall in GE. apply GE. exact (best_in w beam seen c B I).
Qed.
Lemma new_genuine p cs ns : Forall2 (grew T A p) cs ns -> genuine p ns.
Proof. induction 1 as [|c n cs ns [R _] _ IH]; constructor; auto. Qed.

(** One round: either nothing is left to expand, or everything is expanded and inserted *)
Lemma loop_found p w : 1 <= w -> forall fuel beam g seen beam' seen', best w beam seen -> genuine p seen -> loop pick push pushpop fuel w p beam g seen = Found beam' seen' ->
  best w beam' seen' /\ genuine p seen' /\ Forall (fun c => in_progress c = false) beam'.
Proof.
  intros W. induction fuel as [|fuel IH]; intros beam g seen beam' seen' B GE E; cbn [loop] in E; [discriminate|].
  pose proof (expandable_parents p w beam seen W B GE) as PA. destruct (concat (repeat (filter in_progress beam) w)) as [|c cs] eqn:EX.
  - injection E as <- <-. split; [exact B|]. split; [exact GE|]. exact (expandable_nil w beam W EX).
  - pose proof (expand_all_grew T A G pick PICK p (c :: cs) g PA) as X. destruct (expand_all pick p (c :: cs) g) as [[new g']|]; [|discriminate].
    apply (IH _ _ _ _ _ (inserts_best w new W beam seen B)) in E; [exact E|]. apply Forall_app. split; [exact GE|]. exact (new_genuine p _ _ X).
Qed.
Theorem search_found p fuel w g beam seen : 1 <= w -> search pick push pushpop fuel w p g = Found beam seen ->
  (Forall (fun c => c = root \/ real p c) seen) /\
  length beam <= w /\ Forall (fun c => in_progress c = false /\ real p c) beam /\
  exists dropped, Permutation seen (beam ++ dropped) /\ (forall d b, In d dropped -> In b beam -> (score d <= score b)%Z) /\ (dropped <> [] -> length beam = w).
Proof.
  intros W E. apply loop_found in E; [|exact W | apply best_root; exact W | constructor; [left; reflexivity | constructor]]. destruct E as [B [GE F]].
  split; [exact GE|]. pose proof B as [_ [_ [L D]]]. split; [exact L|]. split; [|exact D]. rewrite Forall_forall in F |- *. intros c I. specialize (F c I). split; [exact F|].
  pose proof (best_in w beam seen c B I) as IS. unfold genuine in GE. rewrite Forall_forall in GE. destruct (GE c IS) as [-> | R]; [discriminate F | exact R].
Qed.

(** A search whose scores never rise above 0 does not end: the root is never displaced *)
Lemma insert_root w beam c : 1 <= w -> ok beam -> In root beam -> (score c <= 0)%Z -> ok (insert push pushpop w beam c) /\ In root (insert push pushpop w beam c).
Proof.
  intros W OK I L. unfold insert. destruct (w <=? length beam).
  - destruct beam as [|m h]; [contradiction|]. destruct (heap_pushpop _ _ _ _ _ HEAP m h c OK) as [OK' R]. split; [exact OK'|]. unfold less in R.
    destruct (Z.ltb_spec (score m) (score c)); apply (Permutation_in _ (Permutation_sym R)); [|exact I]. destruct I as [-> | I]; [cbn [score root] in *; lia | right; exact I].
  - destruct (heap_push _ _ _ _ _ HEAP beam c OK) as [OK' R]. split; [exact OK'|]. apply (Permutation_in _ (Permutation_sym R)). right. exact I.
Qed.
Lemma inserts_root w new : 1 <= w -> Forall (fun c => (score c <= 0)%Z) new -> forall beam, ok beam -> In root beam -> ok (fold_left (insert push pushpop w) new beam) /\ In root (fold_left (insert push pushpop w) new beam).
Proof.
  intros W. induction 1 as [|c new L _ IH]; intros beam OK I; [auto|]. cbn [fold_left]. destruct (insert_root w beam c W OK I L) as [OK' I']. apply IH; assumption.
Qed.
Lemma loop_never p w : 1 <= w -> never_positive p -> forall fuel beam g seen beam' seen', best w beam seen -> genuine p seen -> In root beam -> loop pick push pushpop fuel w p beam g seen <> Found beam' seen'.
Proof.
  intros W N. induction fuel as [|fuel IH]; intros beam g seen beam' seen' B GE I; cbn [loop]; [discriminate|].
  pose proof (expandable_parents p w beam seen W B GE) as PA. destruct (concat (repeat (filter in_progress beam) w)) as [|c cs] eqn:EX.
  - pose proof (expandable_nil w beam W EX) as F. rewrite Forall_forall in F. specialize (F _ I). discriminate F.
  - pose proof (expand_all_grew T A G pick PICK p (c :: cs) g PA) as X. destruct (expand_all pick p (c :: cs) g) as [[new g']|]; [|discriminate].
    apply IH; [exact (inserts_best w new W beam seen B) | apply Forall_app; split; [exact GE | exact (new_genuine p _ _ X)]|].
    apply inserts_root; [exact W | | exact (proj1 B) | exact I]. clear - X N. induction X as [|c0 n cs0 ns [[st [P _]] _] _ IH]; constructor; [exact (N _ _ _ P) | exact IH].
Qed.
Theorem search_never p fuel w g beam seen : 1 <= w -> never_positive p -> search pick push pushpop fuel w p g <> Found beam seen.
Proof. intros W N. apply loop_never; [exact W | exact N | apply best_root; exact W | constructor; [left; reflexivity | constructor] | left; reflexivity]. Qed.

Lemma loop_running p w : 1 <= w -> never_positive p -> offers p -> forall fuel beam g seen, best w beam seen -> genuine p seen -> In root beam -> loop pick push pushpop fuel w p beam g seen = OutOfFuel.
Proof.
  intros W N O. induction fuel as [|fuel IH]; intros beam g seen B GE I; cbn [loop]; [reflexivity|].
  pose proof (expandable_parents p w beam seen W B GE) as PA. destruct (concat (repeat (filter in_progress beam) w)) as [|c cs] eqn:EX.
  - pose proof (expandable_nil w beam W EX) as F. rewrite Forall_forall in F. specialize (F _ I). discriminate F.
  - pose proof (expand_all_grew T A G pick PICK p (c :: cs) g PA) as X. destruct (expand_all pick p (c :: cs) g) as [[new g']|]; [|contradiction].
    apply IH; [exact (inserts_best w new W beam seen B) | apply Forall_app; split; [exact GE | exact (new_genuine p _ _ X)]|].
    apply inserts_root; [exact W | | exact (proj1 B) | exact I]. clear - X N. induction X as [|c0 n cs0 ns [[st [P _]] _] _ IH]; constructor; [exact (N _ _ _ P) | exact IH].
Qed.
Theorem search_running p w : 1 <= w -> never_positive p -> offers p -> forall fuel g, search pick push pushpop fuel w p g = OutOfFuel.
Proof. intros W N O fuel g. apply loop_running; [exact W | exact N | exact O | apply best_root; exact W | constructor; [left; reflexivity | constructor] | left; reflexivity]. Qed.

(** If every choice raises the score, each round displaces everything it expanded *)
Definition above (z : Z) (l : list cand) : nat := length (filter (fun c => Z.ltb z (score c)) l).
Lemma filter_perm {X} (f : X -> bool) l l' : Permutation l l' -> length (filter f l) = length (filter f l').
Proof. induction 1 as [|x l l' P IH|x y l|l l' l'' P1 IH1 P2 IH2]; cbn [filter]; [reflexivity | destruct (f x); cbn [length]; lia | destruct (f x), (f y); cbn [length]; lia | lia]. Qed.
Lemma above_perm z l l' : Permutation l l' -> above z l = above z l'.
Proof. apply filter_perm. Qed.
Lemma above_app z l l' : above z (l ++ l') = above z l + above z l'.
Proof. unfold above. rewrite filter_app, app_length. reflexivity. Qed.
Lemma above_none z l : (forall c, In c l -> (score c <= z)%Z) -> above z l = 0.
Proof.
  intros H. unfold above. induction l as [|c l IH]; [reflexivity|]. cbn [filter]. destruct (Z.ltb_spec z (score c)) as [L|L]; [specialize (H c (or_introl eq_refl)); lia|].
  apply IH. intros d I. apply H. right. exact I.
Qed.
Lemma above_less (b : cand) l : In b l -> S (above (score b) l) <= length l.
Proof.
  unfold above. induction l as [|c l IH]; [contradiction|]. intros [-> | I]; cbn [filter length].
  - rewrite Z.ltb_irrefl. clear IH. induction l as [|c l IH]; cbn [filter length]; [lia|]. destruct (Z.ltb (score b) (score c)); cbn [length]; lia.
  - specialize (IH I). destruct (Z.ltb (score b) (score c)); cbn [length]; lia.
Qed.
(** If at least [w] new candidates beat [b], it is not in the beam any more *)
Lemma displaced w beam0 new beam b : best w beam (beam0 ++ new) -> w <= above (score b) new -> ~ In b beam.
Proof.
  intros [_ [_ [L [D [P [LE _]]]]]] AB I. pose proof (above_perm (score b) _ _ P) as E. rewrite !above_app in E. rewrite (above_none (score b) D) in E by (intros d Id; apply LE; assumption).
  pose proof (above_less b beam I). lia.
Qed.

Lemma prefix_det (p : prog) t z st : prefix p t z st -> forall z' st', prefix p t z' st' -> z = z' /\ st = st'.
Proof.
  induction 1 as [a | cs k | cs k x t z st I P IH | y k t z st P IH]; intros z' st' Q; inversion Q; subst; auto.
  match goal with H : prefix k _ _ _ |- _ => destruct (IH _ _ H) as [-> ->] end. auto.
Qed.
Lemma child_above p b n : rises p -> parent T A p b -> grew T A p b n -> (score b < score n)%Z.
Proof.
  intros [R1 [R2 R3]] [IP HB] [[st [P S]] TR]. destruct HB as [-> | [stb [Pb Sb]]].
  - cbn [trace score root] in *. destruct TR as [[x E] | [E [_ NP]]].
    + cbn [app] in E. rewrite E in P. exact (R2 _ _ _ P).
    + rewrite E in P. destruct st as [|a]; [destruct S; congruence|]. exact (R1 _ _ P).
  - destruct stb as [|a]; [|destruct Sb; congruence]. destruct TR as [[x E] | [E [Eb NP]]].
    + rewrite E in P. exact (R3 _ _ _ _ _ Pb P).
    + rewrite E in P. rewrite Eb in Pb. destruct (prefix_det _ _ _ _ P _ _ Pb) as [_ ->]. destruct S; congruence.
Qed.
Lemma children_above (Q : cand -> cand -> Prop) F b : In b F -> (forall n, Q b n -> (score b < score n)%Z) -> forall w new, Forall2 Q (concat (repeat F w)) new -> w <= above (score b) new.
Proof.
  intros I H. induction w as [|w IH]; intros new X; [lia|]. cbn [repeat concat] in X. apply Forall2_app_inv_l in X. destruct X as [n1 [n2 [X1 [X2 ->]]]]. rewrite above_app.
  specialize (IH n2 X2). enough (1 <= above (score b) n1) by lia. clear - X1 I H. induction X1 as [|c n F ns XQ X1 IH]; [contradiction|]. unfold above in *. cbn [filter]. destruct I as [-> | I].
  - apply H in XQ. apply Z.ltb_lt in XQ. rewrite XQ. cbn [length]. lia.
  - specialize (IH I). destruct (Z.ltb (score b) (score n)); cbn [length]; lia.
Qed.
Fixpoint height (p : prog) : nat :=
  match p with Ret _ => 0 | Score _ k => height k | Choose cs k => S (list_max (map (fun x => height (k x)) cs)) end.
Lemma waiting_height p t z : prefix p t z Waiting -> length t < height p.
Proof.
  intros P. remember Waiting as st eqn:E. revert E. induction P as [a | cs k | cs k x t z st I P IH | y k t z st P IH]; intros E; cbn [height length]; [discriminate | lia | | auto].
  specialize (IH E). assert (height (k x) <= list_max (map (fun x => height (k x)) cs)); [|lia].
  pose proof (proj1 (list_max_le (map (fun x => height (k x)) cs) _) (le_n _)) as F. rewrite Forall_forall in F. apply F. apply (in_map (fun x => height (k x))). exact I.
Qed.
(** After [i] rounds everything unfinished has made [i] choices *)
Definition level (p : prog) (i : nat) (beam : list cand) : Prop :=
  forall c, In c beam -> in_progress c = true -> length (trace c) = i /\ (c = root /\ i = 0 \/ real p c).
Lemma best_self w beam seen : best w beam seen -> best w beam beam.
Proof. intros [OK [NE [L _]]]. split; [exact OK|]. split; [exact NE|]. split; [exact L|]. exists []. rewrite app_nil_r. split; [reflexivity|]. split; [intros d b [] | congruence]. Qed.
Lemma Forall2_in_r {X Y} (Q : X -> Y -> Prop) l l' y : Forall2 Q l l' -> In y l' -> exists x, In x l /\ Q x y.
Proof. induction 1 as [|x y' l l' H _ IH]; [contradiction|]. intros [-> | I]; [exists x; split; [left; reflexivity | exact H]|]. destruct (IH I) as [x' [I' H']]. exists x'. split; [right; exact I' | exact H']. Qed.
Lemma level_next p w i beam seen new : 1 <= w -> rises p -> best w beam seen -> genuine p seen -> level p i beam -> Forall2 (grew T A p) (concat (repeat (filter in_progress beam) w)) new ->
  level p (S i) (fold_left (insert push pushpop w) new beam).
Proof.
  intros W R B GE LV X b I IP. pose proof (inserts_best w new W beam beam (best_self w beam seen B)) as B'. pose proof (best_in _ _ _ b B' I) as IS. apply in_app_or in IS. destruct IS as [Ib | In'].
  - exfalso. assert (IF : In b (filter in_progress beam)) by (apply filter_In; auto). apply (displaced w beam new _ b B'); [|exact I].
    apply (children_above (grew T A p) (filter in_progress beam) b IF); [|exact X]. intros n. apply child_above; [exact R|]. split; [exact IP|].
    unfold genuine in GE. rewrite Forall_forall in GE. apply GE. exact (best_in w beam seen b B Ib).
  - destruct (Forall2_in_r _ _ _ b X In') as [c [Ic [Rb TR]]]. apply in_expandable in Ic. destruct Ic as [Ic IPc]. destruct (LV c Ic IPc) as [Lc _].
    destruct TR as [[x E] | [_ [_ NP]]]; [|congruence]. split; [rewrite E, app_length, Lc; cbn [length]; lia|]. right. exact Rb.
Qed.
Lemma loop_ends p w : 1 <= w -> rises p -> offers p -> forall fuel i beam g seen, best w beam seen -> genuine p seen -> level p i beam -> 1 <= fuel -> Nat.max 1 (height p) < fuel + i ->
  exists beam' seen', loop pick push pushpop fuel w p beam g seen = Found beam' seen'.
Proof.
  intros W R O. induction fuel as [|fuel IH]; intros i beam g seen B GE LV L1 L; [lia|]. cbn [loop].
  pose proof (expandable_parents p w beam seen W B GE) as PA. pose proof (fun new => level_next p w i beam seen new W R B GE LV) as LN. destruct (concat (repeat (filter in_progress beam) w)) as [|c cs] eqn:EX; [eauto|].
  assert (IC : In c beam /\ in_progress c = true) by (apply (in_expandable w); rewrite EX; left; reflexivity). destruct IC as [IC IPc]. destruct (LV c IC IPc) as [LC HC].
  assert (IH' : i < Nat.max 1 (height p)).
  { destruct HC as [[_ ->] | [st [P S]]]; [lia|]. destruct st as [|a]; [|destruct S; congruence]. apply waiting_height in P. lia. }
  pose proof (expand_all_grew T A G pick PICK p (c :: cs) g PA) as X. destruct (expand_all pick p (c :: cs) g) as [[new g']|]; [|contradiction].
  apply (IH (S i)); [exact (inserts_best w new W beam seen B) | apply Forall_app; split; [exact GE | exact (new_genuine p _ _ X)] | exact (LN new X) | lia | lia].
Qed.
Theorem search_ends p w : 1 <= w -> rises p -> offers p -> exists F, forall fuel g, F <= fuel -> exists beam seen, search pick push pushpop fuel w p g = Found beam seen.
Proof.
  intros W R O. exists (S (Nat.max 1 (height p))). intros fuel g L. apply (loop_ends p w W R O fuel 0); [apply best_root; exact W | constructor; [left; reflexivity | constructor] | | lia | lia].
  intros c [<- | []] _. split; [reflexivity | left; auto].
Qed.
(** A width of 0 *)
Lemma concat_nil n : concat (repeat (@nil cand) n) = [].
Proof. induction n; [reflexivity | exact IHn]. Qed.
Theorem search_zero p fuel g : 1 <= fuel -> search pick push pushpop fuel 0 p g = Found [root] [root].
Proof. intros L. destruct fuel; [lia | reflexivity]. Qed.
End Search.

(** A heap as [heapq]'s documentation has it: here a sorted list *)
Section Sorted.
Variables T A : Type.
Notation cand := (cand T A).
Fixpoint place (c : cand) (h : list cand) : list cand := match h with [] => [c] | d :: h' => if less c d then c :: d :: h' else d :: place c h' end.
Definition spush (h : list cand) (c : cand) : list cand := place c h.
Definition spushpop (h : list cand) (c : cand) : list cand := match h with [] => [] | m :: h' => if less m c then place c h' else h end.
Fixpoint sorted (h : list cand) : Prop := match h with [] => True | c :: h' => Forall (fun d => (score c <= score d)%Z) h' /\ sorted h' end.
Lemma place_perm c h : Permutation (place c h) (c :: h).
Proof. induction h as [|d h IH]; cbn [place]; [reflexivity|]. destruct (less c d); [reflexivity|]. rewrite IH. apply perm_swap. Qed.
Lemma place_sorted c h : sorted h -> sorted (place c h).
Proof.
  induction h as [|d h IH]; cbn [place sorted]; [auto|]. intros [F S]. unfold less. destruct (Z.ltb_spec (score c) (score d)) as [L|L]; cbn [sorted].
  - split; [constructor; [lia|]; eapply Forall_impl; [|exact F]; cbn; intros; lia | auto].
  - split; [|apply IH; exact S]. apply Forall_forall. intros x I. apply (Permutation_in _ (place_perm c h)) in I. rewrite Forall_forall in F. destruct I as [<- | I]; [lia | apply F; exact I].
Qed.
Lemma sorted_heaps : heaps sorted spush spushpop.
Proof.
  split.
  - intros c. split; [constructor | exact Logic.I].
  - intros c h d [F _] I. rewrite Forall_forall in F. apply F. exact I.
  - intros h c S. split; [apply place_sorted; exact S | apply place_perm].
  - intros m h c [F S]. unfold spushpop. destruct (less m c); [split; [apply place_sorted; exact S | apply place_perm] | split; [split; assumption | reflexivity]].
Qed.
End Sorted.
