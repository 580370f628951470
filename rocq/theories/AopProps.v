(** C74: array expressions written with Python's operators on free arrays mean what they mean on arrays. *)
From Coq Require Import List Bool ZArith.
Import ListNotations.
From Verif Require Import AopModel AopSpec AopProofs.

(** Any expression of operators on free arrays, arrays and numbers, built as a term and then evaluated with
    arrays for its variables, gives what Python gives on those arrays, or both fail: for JAX and PyTorch,
    whatever the libraries' functions compute. Missing: [if] on results, PyTorch's [%], NumPy operands. *)
Theorem C74_operators_partial : forall (V : Type) (is_num : V -> bool) prim primc primu sem2 sem1 truth,
  gives_arrays V is_num sem2 sem1 -> mirrors V sem2 ->
  forall env, (forall x, is_num (env x) = false) ->
  forall l e, supported V l e ->
    same V (direct V is_num prim primc primu sem2 sem1 truth env e)
           (bind (build V is_num prim primc primu sem2 sem1 truth l e)
                 (eval V sem2 sem1 (with_arrays V env))).
Proof. exact run_same. Qed.
Print Assumptions C74_operators_partial.
Example C74_operators_example :
  gives_arrays value num_v toy_fn2 toy_fn1 /\ mirrors value toy_fn2 /\
  let e := Bin value Sub (Lit value (VNum 7))
             (Bin value FloorDiv (Var value 0) (Cmp value Lt (Lit value (VNum 1)) (Var value 1))) in
  supported value Torch e /\
  toy_direct (fun x => VArr (Z.of_nat x + 3)) e = Ok (VArr 4) /\
  toy_run Torch (fun x => VArr (Z.of_nat x + 3)) e = Ok (Val value (VArr 4)) /\
  toy_run Jax (fun x => VArr (Z.of_nat x + 3)) e = Ok (Val value (VArr 4)).
Proof. split; [exact toy_arrays|]. split; [exact toy_mirrors|]. repeat split. Qed.

(** JAX, with [if]: whenever the expression builds, it means what it means on arrays. *)
Theorem C74_jax_branches_partial : forall (V : Type) (is_num : V -> bool) prim primc primu sem2 sem1 truth,
  gives_arrays V is_num sem2 sem1 -> mirrors V sem2 ->
  forall env, (forall x, is_num (env x) = false) ->
  forall e a, build V is_num prim primc primu sem2 sem1 truth Jax e = Ok a ->
    same V (direct V is_num prim primc primu sem2 sem1 truth env e) (eval V sem2 sem1 (with_arrays V env) a).
Proof. exact jax_if. Qed.
Print Assumptions C74_jax_branches_partial.
Example C74_jax_branches_example :
  let e := If value (Cmp value Lt (Lit value (VArr 1)) (Lit value (VNum 2)))
             (Bin value Mod (Var value 0) (Lit value (VNum 3))) (Var value 1) in
  toy_build Jax e = Ok (Term value (TFn2 value Fremainder (Term value (TVar value 0)) (Val value (VNum 3)))) /\
  toy_direct (fun _ => VArr (-1)) e = Ok (VArr 2).
Proof. split; reflexivity. Qed.

(** JAX: an [if] on a free array raises rather than choosing. *)
Theorem C74_jax_if_raises : forall (V : Type) is_num prim primc primu sem2 sem1 truth c a b t,
  build V is_num prim primc primu sem2 sem1 truth Jax c = Ok (Term V t) ->
  build V is_num prim primc primu sem2 sem1 truth Jax (If V c a b) = Exc TypeError.
Proof. exact jax_if_raises. Qed.
Print Assumptions C74_jax_if_raises.
Example C74_jax_if_raises_example :
  toy_build Jax (Cmp value Lt (Var value 0) (Lit value (VNum 0))) =
    Ok (Term value (TFn2 value Fless (Term value (TVar value 0)) (Val value (VNum 0)))).
Proof. reflexivity. Qed.

(** Arrays for some variables now and for the others later is arrays for all at once. *)
Theorem C74_stages : forall (V : Type) sem2 sem1 E1 E2, values V E1 -> forall a,
  both V (bind (eval V sem2 sem1 E1 a) (eval V sem2 sem1 E2)) (eval V sem2 sem1 (later V E1 E2) a).
Proof. exact two_steps_all. Qed.
Print Assumptions C74_stages.
Example C74_stages_example :
  let E1 := fun x => match x with O => Some (Val value (VArr 4)) | _ => None end in
  let E2 := fun x => Some (Val value (VArr 2)) in
  let t := Term value (TFn2 value Fsubtract (Term value (TVar value 0)) (Term value (TVar value 1))) in
  values value E1 /\ bind (toy_eval E1 t) (toy_eval E2) = Ok (Val value (VArr 2)).
Proof.
  split; [|reflexivity]. intros [|x] r H; [injection H as <-; eexists; reflexivity | discriminate H].
Qed.

(** Refuted: PyTorch's [%] on a free tensor has the sign of the dividend: [x % 3] at [-1] is 2 on tensors and
    on JAX terms, -1 on tensor terms. *)
Theorem C74_torch_mod_refuted : exists (env : nat -> value) (e : expr value),
  toy_direct env e = Ok (VArr 2) /\ toy_run Torch env e = Ok (Val value (VArr (-1))) /\
  toy_run Jax env e = Ok (Val value (VArr 2)).
Proof. exact torch_mod. Qed.
Print Assumptions C74_torch_mod_refuted.
(** For all tensors: PyTorch's [%] on free tensors is [fmod], on integers the truncated remainder, where tensors give the floored one. *)
Theorem C74_torch_mod : forall (V : Type) (is_num : V -> bool) prim primc primu sem2 sem1 truth env x y,
  bind (build V is_num prim primc primu sem2 sem1 truth Torch (Bin V Mod (Var V x) (Var V y))) (eval V sem2 sem1 (with_arrays V env)) =
  bind (sem2 Ffmod (env x) (env y)) (fun v => Ok (Val V v)).
Proof. exact torch_mod_always. Qed.
Print Assumptions C74_torch_mod.
Theorem C74_torch_mod_integers : forall a b, b <> 0%Z ->
  toy_run Torch (fun x => match x with O => VArr a | _ => VArr b end) (Bin value Mod (Var value 0) (Var value 1)) = Ok (Val value (VArr (Z.rem a b))) /\
  toy_direct (fun x => match x with O => VArr a | _ => VArr b end) (Bin value Mod (Var value 0) (Var value 1)) = Ok (VArr (Z.modulo a b)).
Proof. exact torch_mod_integers. Qed.
Print Assumptions C74_torch_mod_integers.
Example C74_torch_mod_integers_example : (-7 <> 0 /\ Z.rem 5 (-7) = 5 /\ Z.modulo 5 (-7) = -2)%Z.
Proof. repeat split; discriminate. Qed.
(** Refuted: it gives another answer when its left operand is the tensor than when it is a variable for it. *)
Theorem C74_torch_mod_sides_refuted : exists (env : nat -> value) v,
  toy_run Torch env (Bin value Mod (Var value 0) (Var value 1)) <>
  toy_run Torch env (Bin value Mod (Lit value v) (Var value 1)) /\
  env 0 = v.
Proof. exact torch_mod_sides. Qed.
Print Assumptions C74_torch_mod_sides_refuted.
(** Refuted: PyTorch's [if] on a free tensor silently takes the first branch. *)
Theorem C74_torch_if_refuted : exists (env : nat -> value) (e : expr value),
  takes_mod value e = false /\ toy_direct env e = Ok (VArr 5) /\ toy_run Torch env e = Ok (Val value (VArr (-5))).
Proof. exact torch_if. Qed.
Print Assumptions C74_torch_if_refuted.
