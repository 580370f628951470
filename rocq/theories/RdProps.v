(** C81: the example of the README. *)
From Coq Require Import List Bool ZArith Lia Permutation Floats.SpecFloat.
Import ListNotations.
From Verif Require Import RdModel RdSpec RdProofs.

(** Evaluating an expression of integers under the three rules ends; the result has at most one constant, in front, then the
    other summands, and the value it had. *)
Theorem C81_sums_partial : forall run I, integral I -> agrees run I -> forall e, ints e ->
  exists n r, (forall m, n <= m -> eval run m eager_mixed e = Ok r) /\ summed r /\ value I r = value I e.
Proof. exact sums_up. Qed.
Print Assumptions C81_sums_partial.

(** The summands are those of the expression, evaluated, in their order. *)
Theorem C81_summands_partial : forall run n rules I, integral I -> agrees run I -> forall e r, ints e -> eval run n rules e = Ok r ->
  exists rs, Forall2 (fun a q => eval run n rules a = Ok q) (summands e) rs /\ summands r = flat_map summands rs.
Proof. exact eval_summands. Qed.
Print Assumptions C81_summands_partial.

(** Expressions with the same summands and the same sum of constants have the same result, however they are bracketed. *)
Theorem C81_brackets_partial : forall run I, integral I -> agrees run I -> forall e e', ints e -> ints e' -> summands e = summands e' -> total e = total e' ->
  exists n r, forall m, n <= m -> eval run m eager_mixed e = Ok r /\ eval run m eager_mixed e' = Ok r.
Proof. exact same_sum. Qed.
Print Assumptions C81_brackets_partial.

(** Evaluating a result again changes nothing. *)
Theorem C81_again : forall run e, summed e -> ints e -> idle run e -> forall n, eval run (S n) eager_mixed e = Ok e.
Proof. exact stays. Qed.
Print Assumptions C81_again.

(** The order in which the rules are combined does not matter. *)
Theorem C81_order_of_rules : forall run rules rules', (forall r, In r rules <-> In r rules') -> forall n e, eval run n rules e = eval run n rules' e.
Proof. exact eval_same. Qed.
Print Assumptions C81_order_of_rules.

Definition x : expr := Op 0 [].
Definition y : expr := Op 1 [].
Definition int (z : Z) : expr := Num (CInt z).
Definition free (_ : nat) (_ : list const) : option const := None.
(** [1 + 1 + (x() + 1) + (5 + y())], in which Python adds 1 and 1 *)
Definition readme : expr := Add (Add (int 2) (Add x (int 1))) (Add (int 5) y).
Definition ten (_ : nat) (_ : list const) : const := CInt 10.
(** an operation 2 that adds up its arguments *)
Definition adds (f : nat) (l : list const) : option const := match f with 2 => Some (fold_right (fun a b => match a, b with CInt u, CInt v => CInt (u + v) | _, _ => CInt 0 end) (CInt 0) l) | _ => None end.
Definition adds_value (f : nat) (l : list const) : const := match adds f l with Some c => c | None => CInt 10 end.
Lemma adds_integral : integral adds_value.
Proof.
  intros f l. unfold adds_value, adds. destruct f as [|[|[|f]]]; [exists 10%Z; reflexivity..| |exists 10%Z; reflexivity].
  induction l as [|c l [z IH]]; [exists 0%Z; reflexivity|]. cbn [fold_right]. rewrite IH. destruct c as [u|u]; [exists (u + z)%Z|exists 0%Z]; reflexivity.
Qed.
Lemma adds_agrees : agrees adds adds_value.
Proof. intros f l c H. unfold adds_value. rewrite H. reflexivity. Qed.
Definition nested : expr := Add readme (Op 2 [Add (int 1) (int 2); Op 2 [Add (int 4) (int 5)]]).
Example C81_sums_example : integral adds_value /\ agrees adds adds_value /\ ints nested /\ eval adds 9 eager_mixed nested = Ok (Add (Add (int 20) x) y) /\ value adds_value nested = CInt 40.
Proof. split; [exact adds_integral|]. split; [exact adds_agrees|]. split; [cbn; tauto|]. split; vm_compute; reflexivity. Qed.
Example C81_brackets_example : let e := Add (int 3) (Add (Add x (int 5)) y) in ints e /\ summands readme = summands e /\ total readme = total e /\ eval free 9 eager_mixed e = Ok (Add (Add (int 8) x) y).
Proof. cbn [ints total summands]. split; [cbn; tauto|]. split; [reflexivity|]. split; reflexivity. Qed.
Example C81_again_example : let e := Add (Add (int 8) (Op 3 [Add (int 1) x])) y in summed e /\ ints e /\ idle free e.
Proof. cbn. unfold free. tauto. Qed.
Example C81_order_example : (forall r, In r eager_mixed <-> In r [Beta; Commute; Assoc]) /\ eval free 9 [Beta; Commute; Assoc] readme = Ok (Add (Add (int 8) x) y).
Proof. split; [|vm_compute; reflexivity]. intros r. cbn. tauto. Qed.

(** What the README prints for [e] and for its result is not what these are. *)
Theorem C81_printed_refuted : exists e r, e = readme /\ (forall n, 9 <= n -> eval free n eager_mixed e = Ok r) /\
  e <> Add (int 2) (Add (Add x (int 1)) (Add (int 5) y)) /\ r <> Add (int 8) (Add x y).
Proof.
  exists readme, (Add (Add (int 8) x) y). split; [reflexivity|]. split; [|split; discriminate].
  intros n G. do 9 (destruct n as [|n]; [lia|]). reflexivity.
Qed.
Print Assumptions C81_printed_refuted.

(** The sum of all constants may be 0 and stays: expressions of the same value and summands have different results. *)
Theorem C81_zero_refuted : exists e e', ints e /\ ints e' /\ summands e = summands e' /\ (forall I, integral I -> value I e = value I e') /\
  forall n, 9 <= n -> exists r r', eval free n eager_mixed e = Ok r /\ eval free n eager_mixed e' = Ok r' /\ r <> r'.
Proof.
  exists x, (Add (Add x (int 1)) (int (-1))). split; [exact Logic.I|]. split; [cbn; tauto|]. split; [reflexivity|]. split.
  - intros I INT. cbn [value x int map]. destruct (INT 0 []) as [z E]. cbn [map] in *. rewrite E. cbn [plus]. f_equal. lia.
  - intros n G. do 9 (destruct n as [|n]; [lia|]). exists x, (Add (int 0) x). split; [reflexivity|]. split; [reflexivity|discriminate].
Qed.
Print Assumptions C81_zero_refuted.

(** Only constants are commuted: [x() + y()] and [y() + x()] have different results. *)
Theorem C81_commuted_refuted : exists e e', ints e /\ ints e' /\ (forall I, integral I -> value I e = value I e') /\
  forall n, exists r r', eval free n eager_mixed e = Ok r /\ eval free n eager_mixed e' = Ok r' /\ r <> r'.
Proof.
  exists (Add x y), (Add y x). split; [cbn; tauto|]. split; [cbn; tauto|]. split.
  - intros I INT. cbn [value x y map]. destruct (INT 0 []) as [z E], (INT 1 []) as [w F]. rewrite E, F. cbn [plus]. f_equal. lia.
  - intros n. exists (Add x y), (Add y x). split; [reflexivity|]. split; [reflexivity|discriminate].
Qed.
Print Assumptions C81_commuted_refuted.

(** Floats are reassociated too, which changes the value: [1e16 + (1.0 + x())] at [x() = 1.0]. *)
Definition big : const := CFlt (binary_normalize 53 1024 10000000000000000 0 false).
Definition one : const := CFlt (binary_normalize 53 1024 1 0 false).
Theorem C81_floats_refuted : exists e r I, (forall n, 9 <= n -> eval free n eager_mixed e = Ok r) /\ value I r <> value I e.
Proof.
  exists (Add (Num big) (Add (Num one) x)), (Add (Num (plus big one)) x), (fun _ _ => one). split.
  - intros n G. do 9 (destruct n as [|n]; [lia|]). reflexivity.
  - vm_compute. discriminate.
Qed.
Print Assumptions C81_floats_refuted.

(** Floats are not gathered: [x() + 0.5 + 0.5] stays as it is. *)
Theorem C81_floats_left_refuted : exists e, forall n, eval free n eager_mixed e = Ok e /\ ~ summed e /\ exists a b c, e = Add (Add a (Num b)) (Num c).
Proof.
  exists (Add (Add x (Num one)) (Num one)). intros n. split; [reflexivity|]. split; [intros []|]. exists x, one, one. reflexivity.
Qed.
Print Assumptions C81_floats_left_refuted.
