(** Proofs about the example of the README. *)
From Coq Require Import List Bool ZArith Lia Permutation.
Import ListNotations.
From Verif Require Import RdModel RdSpec.

Section Induction.
Variable P : expr -> Prop.
Hypothesis HN : forall c, P (Num c).
Hypothesis HO : forall f l, Forall P l -> P (Op f l).
Hypothesis HA : forall a b, P a -> P b -> P (Add a b).
Fixpoint expr_all (e : expr) : P e :=
  match e with
  | Num c => HN c
  | Op f l => HO f l ((fix go (l : list expr) : Forall P l := match l with [] => Forall_nil _ | e :: r => Forall_cons e (expr_all e) (go r) end) l)
  | Add a b => HA a b (expr_all a) (expr_all b)
  end.
End Induction.
Lemma alle_in P l : alle P l <-> Forall P l.
Proof.
  induction l as [|e l IH]; cbn [alle]; [split; [constructor|trivial]|]. rewrite IH. split.
  - intros [H1 H2]. constructor; assumption.
  - intros H. inversion H; subst. split; assumption.
Qed.

(** 1. The order of the rules does not matter. *)
Lemma fire_one py r r' x y q q' : fire py r x y = Some q -> fire py r' x y = Some q' -> r = r'.
Proof. destruct r, r', x as [[u|u]|f l|a b], y as [[v|v]|g k|c d]; cbn [fire]; intros H H'; try discriminate H; try discriminate H'; reflexivity. Qed.
Lemma call_found py rules x y r q : In r rules -> fire py r x y = Some q -> call py rules x y = q.
Proof.
  induction rules as [|r1 rest IH]; intros I F; [destruct I|]. cbn [call]. destruct (fire py r1 x y) as [q1|] eqn:F1.
  - pose proof (fire_one py _ _ x y _ _ F1 F) as ->. rewrite F in F1. injection F1 as <-. reflexivity.
  - destruct I as [-> | I]; [rewrite F in F1; discriminate F1|exact (IH I F)].
Qed.
Lemma call_none py rules x y : (forall r, In r rules -> fire py r x y = None) -> call py rules x y = Ok (default x y).
Proof. induction rules as [|r rest IH]; intros H; [reflexivity|]. cbn [call]. rewrite (H r (or_introl eq_refl)). apply IH. intros r' I. apply H. right; exact I. Qed.
Lemma call_same py rules rules' x y : (forall r, In r rules <-> In r rules') -> call py rules x y = call py rules' x y.
Proof.
  intros E.
  assert (D : (exists r q, In r rules /\ fire py r x y = Some q) \/ (forall r, In r rules -> fire py r x y = None)).
  { clear E. induction rules as [|r rest IH]; [right; intros r []|]. destruct (fire py r x y) as [q|] eqn:F; [left; exists r, q; split; [now left|exact F]|].
    destruct IH as [(r1 & q & I & F1) | N]; [left; exists r1, q; split; [now right|exact F1]|right; intros r1 [<- | I]; [exact F|exact (N r1 I)]]. }
  destruct D as [(r & q & I & F) | N].
  - rewrite (call_found py rules x y r q I F). symmetry. exact (call_found py rules' x y r q (proj1 (E r) I) F).
  - rewrite (call_none py rules x y N). symmetry. apply call_none. intros r I. apply N, E, I.
Qed.
Lemma call_ext py py' rules : (forall a b, py a b = py' a b) -> forall x y, call py rules x y = call py' rules x y.
Proof.
  intros E x y. induction rules as [|r rest IH]; [reflexivity|]. cbn [call].
  assert (F : fire py r x y = fire py' r x y).
  { destruct r, x as [[u|u]|f l|a b], y as [[v|v]|g k|c d]; cbn [fire]; rewrite ?E; try reflexivity; match goal with |- Some (bind ?q _) = _ => destruct q; cbn [bind]; rewrite ?E; reflexivity end. }
  rewrite F, IH. reflexivity.
Qed.
Lemma py_same rules rules' : (forall r, In r rules <-> In r rules') -> forall n x y, py n rules x y = py n rules' x y.
Proof.
  intros E. induction n as [|n IH]; intros x y; [reflexivity|]. cbn [py]. destruct x as [u|f l|a b], y as [v|g k|c d]; try reflexivity;
  rewrite (call_ext (py n rules) (py n rules') rules IH); apply call_same; exact E.
Qed.
Lemma eval_same run rules rules' : (forall r, In r rules <-> In r rules') -> forall n e, eval run n rules e = eval run n rules' e.
Proof.
  intros E n. apply expr_all.
  - reflexivity.
  - intros f l F. cbn [eval]. assert (Q : each (eval run n rules) l = each (eval run n rules') l); [|rewrite Q; reflexivity].
    induction F as [|e l He F IH]; [reflexivity|]. cbn [each]. rewrite He, IH. reflexivity.
  - intros a b Ha Hb. cbn [eval]. rewrite Ha, Hb. destruct (eval run n rules' a) as [u|]; [|reflexivity]. cbn [bind]. destruct (eval run n rules' b) as [v|]; [|reflexivity]. cbn [bind].
    rewrite (call_ext (py n rules) (py n rules') rules (py_same rules rules' E n)). apply call_same. exact E.
Qed.

(** 2. Values and summands are kept. *)
Lemma bind_ok {A B} (r : res A) (f : A -> res B) b : bind r f = Ok b -> exists a, r = Ok a /\ f a = Ok b.
Proof. destruct r as [a|]; [|discriminate]. intros H. exists a. split; [reflexivity|exact H]. Qed.
Section Kept.
Variable I : nat -> list const -> const.
Hypothesis INT : integral I.
Definition whole (c : const) : Prop := exists z, c = CInt z.
Lemma value_whole e : ints e -> whole (value I e).
Proof.
  induction e as [c|f l _|a b IHa IHb] using expr_all; cbn [ints value].
  - destruct c as [z|z]; [intros _; exists z; reflexivity|intros []].
  - intros _. apply INT.
  - intros [Ha Hb]. destruct (IHa Ha) as [x ->], (IHb Hb) as [y ->]. exists (x + y)%Z. reflexivity.
Qed.
Lemma plus_assoc a b c : whole a -> whole b -> whole c -> plus a (plus b c) = plus (plus a b) c.
Proof. intros [x ->] [y ->] [z ->]. cbn [plus]. rewrite Z.add_assoc. reflexivity. Qed.
Lemma plus_comm a b : whole a -> whole b -> plus a b = plus b a.
Proof. intros [x ->] [y ->]. cbn [plus]. rewrite Z.add_comm. reflexivity. Qed.
Definition keeps (p : expr -> expr -> res expr) : Prop :=
  forall x y r, ints x -> ints y -> p x y = Ok r -> ints r /\ value I r = plus (value I x) (value I y) /\ summands r = summands x ++ summands y.
Lemma call_keeps p rules : keeps p -> keeps (call p rules).
Proof.
  intros K. induction rules as [|r rest IH]; intros x y q Hx Hy H.
  - cbn [call] in H. injection H as <-. unfold default. destruct x as [u|f l|a b], y as [v|g k|c d]; cbn [ints value summands app] in *; try (split; [split; assumption|split; reflexivity]).
    destruct u, v; try contradiction. cbn [plus ints]. auto.
  - cbn [call] in H. destruct (fire p r x y) as [q1|] eqn:F; [|exact (IH x y q Hx Hy H)]. subst q1. destruct r; cbn [fire] in F.
    + destruct x as [[u|u]|f l|a b]; try discriminate F. destruct y as [[v|v]|g k|c d]; try discriminate F. injection F as <-. cbn [ints value plus summands app]. auto.
    + assert (C : exists v, y = Num (CInt v) /\ p y x = Ok q) by (destruct x as [[u|u]|f l|a b]; try discriminate F; destruct y as [[v|v]|g k|c d]; try discriminate F; injection F as F; exists v; split; [reflexivity|exact F|reflexivity|exact F]).
      destruct C as [v [-> C]]. destruct (K _ _ _ Hy Hx C) as (K1 & K2 & K3). split; [exact K1|]. rewrite K2, K3. cbn [summands]. rewrite app_nil_r. split; [|reflexivity].
      apply plus_comm; apply value_whole; assumption.
    + destruct y as [v|g k|a b]; try (destruct x as [[u|u]|f l|c d]; discriminate F). assert (F' : bind (p x a) (fun u => p u b) = Ok q) by (destruct x as [[u|u]|f l|c d]; injection F as F; exact F).
      clear F. apply bind_ok in F'. destruct F' as [u [F1 F2]]. destruct Hy as [Ha Hb]. destruct (K _ _ _ Hx Ha F1) as (K1 & K2 & K3), (K _ _ _ (proj1 (K _ _ _ Hx Ha F1)) Hb F2) as (L1 & L2 & L3).
      split; [exact L1|]. rewrite L2, L3, K2, K3. cbn [value summands]. rewrite app_assoc. split; [|reflexivity]. symmetry. apply plus_assoc; apply value_whole; assumption.
Qed.
Lemma py_keeps rules n : keeps (py n rules).
Proof.
  induction n as [|n IH]; intros x y r Hx Hy H; cbn [py] in H; [discriminate H|]. destruct x as [u|f l|a b]; [destruct y as [v|g k|c d]|..].
  - injection H as <-. cbn [ints value summands app] in *. destruct u, v; try contradiction. cbn [plus]. auto.
  - exact (call_keeps _ rules IH _ _ _ Hx Hy H).
  - exact (call_keeps _ rules IH _ _ _ Hx Hy H).
  - exact (call_keeps _ rules IH _ _ _ Hx Hy H).
  - exact (call_keeps _ rules IH _ _ _ Hx Hy H).
Qed.
Variable run : nat -> list const -> option const.
Hypothesis AG : agrees run I.
Lemma each_ok f l : forall l', each f l = Ok l' -> Forall2 (fun e v => f e = Ok v) l l'.
Proof.
  induction l as [|e l IH]; intros l' H; cbn [each] in H; [injection H as <-; constructor|]. apply bind_ok in H. destruct H as [v [H1 H]]. apply bind_ok in H. destruct H as [q [H2 H]].
  injection H as <-. constructor; [exact H1|apply IH; exact H2].
Qed.
Lemma nums_value l : forall cs, nums l = Some cs -> map (value I) l = cs.
Proof.
  unfold nums. induction l as [|e l IH]; intros cs H; cbn [fold_right] in H; [injection H as <-; reflexivity|]. destruct e as [c|f k|a b]; try discriminate H.
  destruct (fold_right _ _ l) as [q|]; [|discriminate H]. injection H as <-. cbn [map value]. rewrite (IH q eq_refl). reflexivity.
Qed.
Lemma other_value f l : value I (other run f l) = I f (map (value I) l).
Proof.
  unfold other. destruct (nums l) as [cs|] eqn:N; [|reflexivity]. destruct (run f cs) as [c|] eqn:R; [|reflexivity]. cbn [value]. rewrite (nums_value l cs N). symmetry. exact (AG f cs c R).
Qed.
Lemma other_ints f l : Forall ints l -> ints (other run f l).
Proof.
  intros H. unfold other. destruct (nums l) as [cs|] eqn:N; [|apply alle_in; exact H]. destruct (run f cs) as [c|] eqn:R; [|apply alle_in; exact H].
  destruct (INT f cs) as [z E]. rewrite (AG f cs c R) in E. subst c. exact Logic.I.
Qed.
Lemma eval_keeps n rules : forall e r, ints e -> eval run n rules e = Ok r -> ints r /\ value I r = value I e.
Proof.
  intros e. induction e as [c|f l F|a b IHa IHb] using expr_all; intros r Hi H; cbn [eval] in H.
  - injection H as <-. split; [exact Hi|reflexivity].
  - apply bind_ok in H. destruct H as [l' [H1 H2]]. injection H2 as <-. apply each_ok in H1. cbn [ints] in Hi. apply alle_in in Hi.
    assert (Q : Forall ints l' /\ map (value I) l' = map (value I) l).
    { induction H1 as [|e v l l' E H1 IH]; [split; [constructor|reflexivity]|]. inversion F as [|? ? Fe Fl]; subst. inversion Hi as [|? ? He Hl]; subst.
      destruct (IH Fl Hl) as [Q1 Q2], (Fe v He E) as [Q3 Q4]. split; [constructor; assumption|]. cbn [map]. rewrite Q2, Q4. reflexivity. }
    destruct Q as [Q1 Q2]. split; [apply other_ints; exact Q1|]. rewrite other_value, Q2. reflexivity.
  - apply bind_ok in H. destruct H as [u [H1 H]]. apply bind_ok in H. destruct H as [v [H2 H]]. destruct Hi as [Ha Hb]. destruct (IHa u Ha H1) as [U1 U2], (IHb v Hb H2) as [V1 V2].
    destruct (call_keeps _ rules (py_keeps rules n) u v r U1 V1 H) as (R1 & R2 & _). split; [exact R1|]. rewrite R2, U2, V2. reflexivity.
Qed.
End Kept.

(** 3. Summing up ends. *)
Definition ends (p : nat -> res expr) (Q : expr -> Prop) : Prop := exists n r, (forall m, n <= m -> p m = Ok r) /\ Q r.
Notation em := eager_mixed.
Definition nf (r : expr) : Prop := summed r /\ ints r.
Lemma py_op x f l n : py (S n) em x (Op f l) = Ok (Add x (Op f l)).
Proof. destruct x as [[u|u]|g k|a b]; reflexivity. Qed.
Lemma py_assoc n x a b : py (S n) em x (Add a b) = bind (py n em x a) (fun u => py n em u b).
Proof. destruct x as [[u|u]|g k|c d]; reflexivity. Qed.
Lemma ends_assoc x a f l : ends (fun n => py n em x a) nf -> nf (Op f l) -> ends (fun n => py n em x (Add a (Op f l))) nf.
Proof.
  intros (n & r & H & Q1 & Q2) [L1 L2]. exists (S (S n)), (Add r (Op f l)). split.
  - intros m G. destruct m as [|m]; [lia|]. rewrite py_assoc, (H m ltac:(lia)). cbn [bind]. destruct m as [|m]; [lia|]. apply py_op.
  - split; [split; assumption|split; assumption].
Qed.
Lemma ends_front c : forall x, nf x -> ends (fun n => py n em (Num (CInt c)) x) nf.
Proof.
  induction x as [d|f l _|a b IHa _] using expr_all; intros [S1 S2].
  - destruct d as [d|d]; [|destruct S2]. exists 1, (Num (CInt (c + d))). split; [|split; exact Logic.I]. intros m G. destruct m as [|m]; [lia|]. reflexivity.
  - exists 1, (Add (Num (CInt c)) (Op f l)). split; [|split; split; try exact Logic.I; assumption]. intros m G. destruct m as [|m]; [lia|]. apply py_op.
  - destruct b as [v|g k|b1 b2]; try destruct S1. destruct S2 as [I1 I2]. apply ends_assoc; [apply IHa; split; assumption|split; assumption].
Qed.
Lemma ends_py : forall y x, nf x -> nf y -> ends (fun n => py n em x y) nf.
Proof.
  induction y as [d|f l _|a b IHa _] using expr_all; intros x X [S1 S2].
  - destruct d as [d|d]; [|destruct S2]. destruct x as [u|g k|x1 x2]; [|..].
    + destruct u as [u|u]; [|destruct X as [_ []]]. exists 1, (Num (CInt (u + d))). split; [|split; exact Logic.I]. intros m G. destruct m as [|m]; [lia|]. reflexivity.
    + destruct (ends_front d _ X) as (n & r & H & Q). exists (S n), r. split; [|exact Q]. intros m G. destruct m as [|m]; [lia|]. cbn [py call fire em]. apply H. lia.
    + destruct (ends_front d _ X) as (n & r & H & Q). exists (S n), r. split; [|exact Q]. intros m G. destruct m as [|m]; [lia|]. cbn [py call fire em]. apply H. lia.
  - exists 1, (Add x (Op f l)). split; [|destruct X; split; split; assumption]. intros m G. destruct m as [|m]; [lia|]. apply py_op.
  - destruct b as [v|g k|b1 b2]; try destruct S1. destruct S2 as [I1 I2]. apply ends_assoc; [apply IHa; [exact X|split; assumption]|split; assumption].
Qed.
Lemma ends_call x y : nf x -> nf y -> ends (fun n => call (py n em) em x y) nf.
Proof.
  intros X Y. destruct (ends_py y x X Y) as (n & r & H & Q). destruct x as [u|g k|x1 x2]; [destruct y as [v|h j|y1 y2]|..].
  - destruct X as [_ X], Y as [_ Y]. destruct u as [u|u]; [|destruct X]. destruct v as [v|v]; [|destruct Y]. exists 0, (Num (CInt (u + v))). split; [reflexivity|split; exact Logic.I].
  - exists n, r. split; [|exact Q]. intros m G. exact (H (S m) ltac:(lia)).
  - exists n, r. split; [|exact Q]. intros m G. exact (H (S m) ltac:(lia)).
  - exists n, r. split; [|exact Q]. intros m G. exact (H (S m) ltac:(lia)).
  - exists n, r. split; [|exact Q]. intros m G. exact (H (S m) ltac:(lia)).
Qed.
Section Run.
Variable run : nat -> list const -> option const.
Variable I : nat -> list const -> const.
Hypothesis INT : integral I.
Hypothesis AG : agrees run I.
Lemma other_nf f l : Forall nf l -> nf (other run f l).
Proof.
  intros F. split; [|apply (other_ints I INT run AG); apply Forall_forall; intros e J; rewrite Forall_forall in F; apply F; exact J].
  assert (S : alle summed l) by (apply alle_in; apply Forall_forall; intros e J; rewrite Forall_forall in F; apply F; exact J).
  unfold other. destruct (nums l) as [cs|]; [|exact S]. destruct (run f cs); [exact Logic.I|exact S].
Qed.
Lemma ends_eval : forall e, ints e -> ends (fun n => eval run n em e) nf.
Proof.
  intros e. induction e as [c|f l F|a b IHa IHb] using expr_all; intros Hi.
  - exists 0, (Num c). split; [reflexivity|]. split; [exact Logic.I|exact Hi].
  - cbn [ints] in Hi. apply alle_in in Hi.
    assert (Q : exists n l', (forall m, n <= m -> each (eval run m em) l = Ok l') /\ Forall nf l').
    { induction F as [|e l Fe F IH]; [exists 0, []; split; [reflexivity|constructor]|]. inversion Hi as [|? ? He Hl]; subst. destruct (Fe He) as (n1 & r & H1 & Q1), (IH Hl) as (n2 & l' & H2 & Q2).
      exists (n1 + n2), (r :: l'). split; [|constructor; assumption]. intros m G. cbn [each]. rewrite (H1 m ltac:(lia)), (H2 m ltac:(lia)). reflexivity. }
    destruct Q as (n & l' & H & Q). exists n, (other run f l'). split; [|apply other_nf; exact Q]. intros m G. cbn [eval]. rewrite (H m G). reflexivity.
  - destruct Hi as [Ha Hb]. destruct (IHa Ha) as (n1 & u & H1 & Q1), (IHb Hb) as (n2 & v & H2 & Q2), (ends_call u v Q1 Q2) as (n3 & r & H3 & Q3).
    exists (n1 + n2 + n3), r. split; [|exact Q3]. intros m G. cbn [eval]. rewrite (H1 m ltac:(lia)), (H2 m ltac:(lia)). cbn [bind]. apply H3. lia.
Qed.
Lemma sums_up e : ints e -> exists n r, (forall m, n <= m -> eval run m em e = Ok r) /\ summed r /\ value I r = value I e.
Proof.
  intros Hi. destruct (ends_eval e Hi) as (n & r & H & Q & _). exists n, r. split; [exact H|]. split; [exact Q|]. exact (proj2 (eval_keeps I INT run AG n em e r Hi (H n (le_n n)))).
Qed.
End Run.

(** 4. What is summed up stays, and summands are kept in order. *)
Lemma nums_map l : forall cs, nums l = Some cs -> l = map Num cs.
Proof.
  unfold nums. induction l as [|e l IH]; intros cs H; cbn [fold_right] in H; [injection H as <-; reflexivity|]. destruct e as [c|f k|a b]; try discriminate H.
  destruct (fold_right _ _ l) as [q|]; [|discriminate H]. injection H as <-. cbn [map]. rewrite (IH q eq_refl) at 1. reflexivity.
Qed.
Lemma stays run e : summed e -> ints e -> idle run e -> forall n, eval run (S n) em e = Ok e.
Proof.
  induction e as [c|f l F|a b IHa IHb] using expr_all; intros S1 S2 C n.
  - reflexivity.
  - cbn [summed ints idle] in *. destruct C as [C1 C2]. cbn [eval]. apply alle_in in S1, S2, C1.
    assert (Q : each (eval run (S n) em) l = Ok l).
    { clear C2. induction F as [|e l Fe F IH]; [reflexivity|]. inversion S1; inversion S2; inversion C1; subst. cbn [each]. rewrite Fe by assumption. cbn [bind]. rewrite IH by assumption. reflexivity. }
    rewrite Q. cbn [bind]. unfold other. destruct (nums l) as [cs|] eqn:N; [rewrite (C2 cs (nums_map l cs N))|]; reflexivity.
  - destruct S2 as [I1 I2], C as [C1 C2]. destruct b as [v|g k|b1 b2]; try destruct S1. cbn [eval]. rewrite (IHa H I1 C1). cbn [bind].
    change (bind (eval run (S n) em (Op g k)) (fun v => call (py (S n) em) em a v) = Ok (Add a (Op g k))). rewrite (IHb H0 I2 C2). cbn [bind]. destruct a as [[u|u]|h j|a1 a2]; reflexivity.
Qed.
Lemma eval_summands run n rules I : integral I -> agrees run I -> forall e r, ints e -> eval run n rules e = Ok r ->
  exists rs, Forall2 (fun a q => eval run n rules a = Ok q) (summands e) rs /\ summands r = flat_map summands rs.
Proof.
  intros INT AG. induction e as [c|f l|a IHa b IHb]; intros r Hi H.
  - cbn [eval] in H. injection H as <-. exists []. split; [constructor|reflexivity].
  - exists [r]. split; [constructor; [exact H|constructor]|]. cbn [flat_map]. rewrite app_nil_r. reflexivity.
  - cbn [eval] in H. apply bind_ok in H. destruct H as [u [H1 H]]. apply bind_ok in H. destruct H as [v [H2 H]]. destruct Hi as [Ha Hb].
    destruct (IHa u Ha H1) as (rs & F1 & E1), (IHb v Hb H2) as (rs' & F2 & E2).
    destruct (call_keeps I INT _ rules (py_keeps I INT rules n) u v r (proj1 (eval_keeps I INT run AG n rules a u Ha H1)) (proj1 (eval_keeps I INT run AG n rules b v Hb H2)) H) as (_ & _ & K).
    exists (rs ++ rs'). split; [apply Forall2_app; assumption|]. rewrite K, E1, E2, flat_map_app. reflexivity.
Qed.

(** 5. The result is determined by the summands and the sum of the constants. *)
Lemma oplus_assoc a b c : oplus a (oplus b c) = oplus (oplus a b) c.
Proof. destruct a, b, c; cbn [oplus]; try reflexivity. rewrite Z.add_assoc. reflexivity. Qed.
Lemma oplus_comm a b : oplus a b = oplus b a.
Proof. destruct a, b; cbn [oplus]; try reflexivity. rewrite Z.add_comm. reflexivity. Qed.
Definition totals (p : expr -> expr -> res expr) : Prop := forall x y r, ints x -> ints y -> p x y = Ok r -> ints r /\ total r = oplus (total x) (total y).
Lemma call_totals p rules : totals p -> totals (call p rules).
Proof.
  intros K. induction rules as [|r rest IH]; intros x y q Hx Hy H.
  - cbn [call] in H. injection H as <-. unfold default. destruct x as [u|f l|a b], y as [v|g k|c d]; cbn [ints total] in *; try (split; [split; assumption|reflexivity]).
    destruct u, v; try contradiction. cbn [plus ints total oplus]. auto.
  - cbn [call] in H. destruct (fire p r x y) as [q1|] eqn:F; [|exact (IH x y q Hx Hy H)]. subst q1. destruct r; cbn [fire] in F.
    + destruct x as [[u|u]|f l|a b]; try discriminate F. destruct y as [[v|v]|g k|c d]; try discriminate F. injection F as <-. cbn [ints total oplus]. auto.
    + assert (C : exists v, y = Num (CInt v) /\ p y x = Ok q) by (destruct x as [[u|u]|f l|a b]; try discriminate F; destruct y as [[v|v]|g k|c d]; try discriminate F; injection F as F; exists v; split; [reflexivity|exact F|reflexivity|exact F]).
      destruct C as [v [-> C]]. destruct (K _ _ _ Hy Hx C) as (K1 & K2). split; [exact K1|]. rewrite K2. apply oplus_comm.
    + destruct y as [v|g k|a b]; try (destruct x as [[u|u]|f l|c d]; discriminate F). assert (F' : bind (p x a) (fun u => p u b) = Ok q) by (destruct x as [[u|u]|f l|c d]; injection F as F; exact F).
      clear F. apply bind_ok in F'. destruct F' as [u [F1 F2]]. destruct Hy as [Ha Hb]. destruct (K _ _ _ Hx Ha F1) as (K1 & K2). destruct (K _ _ _ K1 Hb F2) as (L1 & L2).
      split; [exact L1|]. rewrite L2, K2. cbn [total]. symmetry. apply oplus_assoc.
Qed.
Lemma py_totals rules n : totals (py n rules).
Proof.
  induction n as [|n IH]; intros x y r Hx Hy H; cbn [py] in H; [discriminate H|]. destruct x as [u|f l|a b]; [destruct y as [v|g k|c d]|..].
  - injection H as <-. cbn [ints total] in *. destruct u, v; try contradiction. cbn [plus oplus total]. auto.
  - exact (call_totals _ rules IH _ _ _ Hx Hy H).
  - exact (call_totals _ rules IH _ _ _ Hx Hy H).
  - exact (call_totals _ rules IH _ _ _ Hx Hy H).
  - exact (call_totals _ rules IH _ _ _ Hx Hy H).
Qed.
Definition sum_totals (l : list expr) : option Z := fold_right (fun e => oplus (total e)) None l.
Lemma sum_totals_app l l' : sum_totals (l ++ l') = oplus (sum_totals l) (sum_totals l').
Proof. induction l as [|e l IH]; cbn [app sum_totals fold_right]; [reflexivity|]. fold (sum_totals (l ++ l')) (sum_totals l). rewrite IH. apply oplus_assoc. Qed.
Lemma eval_total run n rules I : integral I -> agrees run I -> forall e r rs, ints e -> eval run n rules e = Ok r -> Forall2 (fun a q => eval run n rules a = Ok q) (summands e) rs ->
  total r = oplus (total e) (sum_totals rs).
Proof.
  intros INT AG. induction e as [c|f l|a IHa b IHb]; intros r rs Hi H F.
  - cbn [eval] in H. injection H as <-. cbn [summands] in F. inversion F; subst. cbn [sum_totals fold_right]. rewrite oplus_comm. reflexivity.
  - cbn [summands] in F. inversion F as [|? q ? rest E F']; subst. inversion F'; subst. rewrite H in E. injection E as <-. cbn [total oplus sum_totals fold_right]. rewrite oplus_comm. reflexivity.
  - cbn [eval] in H. apply bind_ok in H. destruct H as [u [H1 H]]. apply bind_ok in H. destruct H as [v [H2 H]]. destruct Hi as [Ha Hb]. cbn [summands] in F.
    apply Forall2_app_inv_l in F. destruct F as (r1 & r2 & F1 & F2 & ->).
    destruct (call_totals _ rules (py_totals rules n) u v r (proj1 (eval_keeps I INT run AG n rules a u Ha H1)) (proj1 (eval_keeps I INT run AG n rules b v Hb H2)) H) as (_ & K).
    rewrite K, (IHa u r1 Ha H1 F1), (IHb v r2 Hb H2 F2), sum_totals_app. cbn [total].
    rewrite <- !oplus_assoc. f_equal. rewrite !oplus_assoc. f_equal. apply oplus_comm.
Qed.
Fixpoint front (t : option Z) (l : list expr) : option expr :=
  match l with [] => match t with Some z => Some (Num (CInt z)) | None => None end | q :: rest => Some (match front t rest with Some a => Add a q | None => q end) end.
Lemma summed_front e : summed e -> ints e -> front (total e) (rev (summands e)) = Some e.
Proof.
  induction e as [c|f l|a IHa b _]; intros S1 S2.
  - destruct c; [reflexivity|destruct S2].
  - reflexivity.
  - destruct b as [v|g k|b1 b2]; try destruct S1. destruct S2 as [I1 I2]. cbn [total summands]. rewrite rev_app_distr. cbn [rev app front]. rewrite (oplus_comm (total a)). cbn [oplus]. rewrite (IHa H I1). reflexivity.
Qed.
Lemma same_sum run I : integral I -> agrees run I -> forall e e', ints e -> ints e' -> summands e = summands e' -> total e = total e' ->
  exists n r, forall m, n <= m -> eval run m em e = Ok r /\ eval run m em e' = Ok r.
Proof.
  intros INT AG e e' Hi Hi' ES ET. destruct (ends_eval run I INT AG e Hi) as (n1 & r & H1 & Q1 & J1), (ends_eval run I INT AG e' Hi') as (n2 & r' & H2 & Q2 & J2).
  assert (E : r = r').
  { pose proof (H1 (n1 + n2) ltac:(lia)) as A. pose proof (H2 (n1 + n2) ltac:(lia)) as B.
    destruct (eval_summands run _ em I INT AG e r Hi A) as (rs & F1 & E1), (eval_summands run _ em I INT AG e' r' Hi' B) as (rs' & F2 & E2).
    pose proof (eval_total run _ em I INT AG e r rs Hi A F1) as T1. pose proof (eval_total run _ em I INT AG e' r' rs' Hi' B F2) as T2.
    assert (R : rs = rs').
    { rewrite <- ES in F2. clear - F1 F2. revert rs' F2. induction F1 as [|a q l rs G F1 IH]; intros rs' F2; inversion F2 as [|? q' ? rest G' F2']; subst; [reflexivity|].
      rewrite G in G'. injection G' as <-. f_equal. apply IH. exact F2'. }
    subst rs'. pose proof (summed_front r Q1 J1) as X. pose proof (summed_front r' Q2 J2) as Y. rewrite T1, E1, ET in X. rewrite T2, E2 in Y. rewrite X in Y. injection Y as ->. reflexivity. }
  subst r'. exists (n1 + n2), r. intros m G. split; [apply H1|apply H2]; lia.
Qed.
