(** C73: the example normaliser of docs/source/lambda_.py. *)
From Coq Require Import List Arith ZArith.
From Verif Require LcProofs.
From Verif Require Import LcModel LcSpec LcLaws LcCases.
Import ListNotations.
Open Scope Z_scope.

(** Every program of integers, variables, additions, lets and applications of
    functions of integers runs to an end, and the result means what the program
    means and mentions no new variable.  Wherever Python puts the operations in
    memory.  Missing from the full claim: functions that ignore a parameter,
    lets whose value mentions the variable, functions as arguments; see below. *)
Theorem C73_sound_partial : forall key n t k,
  prog n t -> live t -> below k t ->
  exists r, evaluates key k t r /\ (forall p, same (den p r) (den p t)) /\
    (forall x, free x r -> free x t).
Proof. exact sound. Qed.
Print Assumptions C73_sound_partial.

Example C73_sound_example :
  prog 0 sample /\ live sample /\ below 3 sample /\ evaluates by_id 3 sample
    (TAdd (TAdd (TAdd (TInt 7) (TVar 0)) (TVar 2)) (TVar 2)).
Proof.
  split; [exact sample_prog|]. split; [exact sample_live|]. split; [exact sample_below|].
  apply (evaluates_at by_id 30 3 _ _ 6). vm_compute. reflexivity.
Qed.

(** The normal form decides equality: two such programs that are integers give
    the same term exactly when they have the same value for all values of
    their variables. *)
Theorem C73_decides_partial : forall key, distinct key ->
  forall t1 t2 k1 k2 r1 r2,
  prog 0 t1 -> live t1 -> below k1 t1 -> evaluates key k1 t1 r1 ->
  prog 0 t2 -> live t2 -> below k2 t2 -> evaluates key k2 t2 r2 ->
  (r1 = r2 <-> forall p, den p t1 = den p t2).
Proof. exact decides. Qed.
Print Assumptions C73_decides_partial.

Example C73_decides_example :
  prog 0 sample /\ live sample /\ below 3 sample /\ distinct by_id /\
  let other := TAdd (TAdd (TVar 2) (TInt 6)) (TAdd (TVar 0) (TAdd (TVar 2) (TInt 1))) in
  prog 0 other /\ live other /\
  evaluates by_id 3 sample (TAdd (TAdd (TAdd (TInt 7) (TVar 0)) (TVar 2)) (TVar 2)) /\
  evaluates by_id 3 other (TAdd (TAdd (TAdd (TInt 7) (TVar 0)) (TVar 2)) (TVar 2)).
Proof.
  split; [exact sample_prog|]. split; [exact sample_live|]. split; [exact sample_below|].
  split; [exact by_id_distinct|].
  split; [repeat constructor|]. split; [cbn; tauto|]. split.
  - apply (evaluates_at by_id 30 3 _ _ 6). vm_compute. reflexivity.
  - apply (evaluates_at by_id 30 3 _ _ 3). vm_compute. reflexivity.
Qed.

(** A program without free variables gives its value. *)
Theorem C73_closed_partial : forall key t k,
  prog 0 t -> live t -> below k t -> (forall x, ~ free x t) ->
  exists z, evaluates key k t (TInt z) /\ forall p, den p t = VInt z.
Proof. exact closed. Qed.
Print Assumptions C73_closed_partial.

Example C73_closed_example :
  let t := TApp (TLam 0 (TAdd (TVar 0) (TVar 0))) (TAdd (TInt 1) (TInt 2)) in
  prog 0 t /\ live t /\ below 1 t /\ evaluates by_id 1 t (TInt 6).
Proof.
  split; [repeat constructor|]. split; [|split].
  - cbn. intuition. exists (fun _ => 0), 0, 1. cbn. intros S. inversion S.
  - cbn. auto.
  - apply (evaluates_at by_id 30 1 _ _ 2). vm_compute. reflexivity.
Qed.

(** A normal form is left alone. *)
Theorem C73_again_partial : forall key t k r k',
  prog 0 t -> live t -> below k t -> evaluates key k t r ->
  distinct key -> below k' r -> evaluates key k' r r.
Proof. exact again. Qed.
Print Assumptions C73_again_partial.

Example C73_again_example :
  evaluates by_id 3 (TAdd (TAdd (TAdd (TInt 7) (TVar 0)) (TVar 2)) (TVar 2))
    (TAdd (TAdd (TAdd (TInt 7) (TVar 0)) (TVar 2)) (TVar 2)).
Proof. apply (evaluates_at by_id 30 3 _ _ 3). vm_compute. reflexivity. Qed.

(** For every program, a result does not depend on how long one waits. *)
Theorem C73_one_result : forall key k t n m r s,
  run key n k t = Ok r -> run key m k t = Ok s -> r = s.
Proof. exact one_result. Qed.
Print Assumptions C73_one_result.

Example C73_one_result_example : exists r,
  run by_id 30 3 sample = Ok r /\ run by_id 40 3 sample = Ok r.
Proof. eexists. split; vm_compute; reflexivity. Qed.

(** A run that has ended, with a result or stuck, ends so with any more fuel: what the model says about a program does not depend on how long it watches. *)
Theorem C73_fuel : forall key n m k t, (n <= m)%nat -> run key n k t <> NoFuel -> run key m k t = run key n k t.
Proof. exact LcProofs.run_more. Qed.
Print Assumptions C73_fuel.
Example C73_fuel_example :
  run (fun v => Z.of_nat v) 3 2 (TAdd (TLam 0 (TVar 0)) (TInt 1)) = Stuck /\
  run (fun v => Z.of_nat v) 2 2 (TAdd (TVar 0) (TInt 1)) = NoFuel /\
  run (fun v => Z.of_nat v) 9 2 (TAdd (TVar 0) (TInt 1)) = Ok (TAdd (TInt 1) (TVar 0), 2%nat).
Proof. repeat split. Qed.
(** [Let(x, x() + z(), x() + x())] is [2x + 3z], wherever the operations are:
    the handler of [x] is still installed when sort_add calls [x()] again. *)
Theorem C73_own_variable_refuted : forall key, distinct key ->
  exists r, evaluates key 2 (TLet 0 (TAdd (TVar 0) (TVar 1)) (TAdd (TVar 0) (TVar 0))) r /\
    forall p, p 1%nat <> 0 -> ~ same (den p r)
      (den p (TLet 0 (TAdd (TVar 0) (TVar 1)) (TAdd (TVar 0) (TVar 0)))).
Proof. exact own_let_wrong. Qed.
Print Assumptions C73_own_variable_refuted.

(** [Lam(y, 5)] is [5], and applying it gives no integer. *)
Theorem C73_constant_function_refuted : forall key,
  evaluates key 1 (TLam 0 (TInt 5)) (TInt 5) /\
  (forall p, ~ same (den p (TInt 5)) (den p (TLam 0 (TInt 5)))) /\
  evaluates key 1 (TApp (TLam 0 (TInt 5)) (TInt 1)) (TApp (TInt 5) (TInt 1)) /\
  (forall p, den p (TApp (TLam 0 (TInt 5)) (TInt 1)) = VInt 5).
Proof. exact constant_wrong. Qed.
Print Assumptions C73_constant_function_refuted.

(** With functions as arguments: [twice(twice)(f)(x)] is [f(f(f(f(x))))] when
    [twice] is written out each time, and something else when it is bound once
    by a let: its variables are captured. *)
Theorem C73_sharing_refuted : exists out_ let_ r s,
  out_ = TApp (TApp (TApp twice twice) (TVar 3)) (TVar 4) /\
  let_ = TLet 0 twice (TApp (TApp (TApp (TVar 0) (TVar 0)) (TVar 3)) (TVar 4)) /\
  evaluates by_id 5 out_ r /\ evaluates by_id 5 let_ s /\ r <> s.
Proof.
  destruct shared_wrong as (H1 & s & H2 & H3).
  eexists written_out, shared, _, s. split; [reflexivity|]. split; [reflexivity|].
  split; [exact H1|]. split; [exact H2|]. intros E. apply H3. symmetry. exact E.
Qed.
Print Assumptions C73_sharing_refuted.

(** [e(Lam q. F(e) + q)] with [e = Lam y. y(1)]: it has simple types, it ends
    when [e] is written out, and never ends when [e] is shared. *)
Theorem C73_ends_refuted :
  (forall key, runs_forever key 4
    (TLet 0 (TLam 1 (TApp (TVar 1) (TInt 1)))
      (TApp (TVar 0) (TLam 2 (TAdd (TApp (TVar 3) (TVar 0)) (TVar 2)))))) /\
  exists r, evaluates by_id 4
    (TApp (TLam 1 (TApp (TVar 1) (TInt 1)))
      (TLam 2 (TAdd (TApp (TVar 3) (TLam 1 (TApp (TVar 1) (TInt 1)))) (TVar 2)))) r.
Proof. split; [exact loops_forever|exact ends_ends]. Qed.
Print Assumptions C73_ends_refuted.

(** Functions have no normal form: the same one built twice is two terms. *)
Theorem C73_functions_refuted : exists t r1 r2, prog 1 t /\
  (forall key, evaluates key 1 t r1 /\ evaluates key 2 t r2) /\ r1 <> r2.
Proof.
  exists (TLam 0 (TAdd (TVar 0) (TInt 1))), (TLam 1 (TAdd (TInt 1) (TVar 1))),
    (TLam 2 (TAdd (TInt 1) (TVar 2))).
  split; [repeat constructor|]. split; [exact functions_differ|discriminate].
Qed.
Print Assumptions C73_functions_refuted.

(** Nor do sums with calls of unknown functions: [x + f(1)] and [f(1) + x]. *)
Theorem C73_calls_refuted : exists a b r1 r2,
  (forall key, evaluates key 2 (TAdd a b) r1 /\ evaluates key 2 (TAdd b a) r2) /\ r1 <> r2.
Proof.
  eexists (TVar 0), (TApp (TVar 1) (TInt 1)), _, _. split; [exact atoms_differ|discriminate].
Qed.
Print Assumptions C73_calls_refuted.
