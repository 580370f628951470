(** Property C58: Python's operators on number terms. *)
From Coq Require Import List Bool Arith ZArith.
From Verif Require Import NumModel NumSpec NumProofs NumMore NumExamples.
Import ListNotations.

(** Partial. An expression over number variables and numbers, run with the variables unhandled and evaluated later
    with a number for each, gives what plain Python gives with these numbers, or raises when it raises. Missing:
    [==], [operator.index], untyped variables, and comparisons unless the numbers answer each other's (refuted below). *)
Theorem C58_operators_partial : forall V vkind prim unary meth below truth same of_bool env e r,
  (forall v, number (vkind v) = true) ->
  arith V e -> comparable V meth \/ compares V e = false ->
  build V vkind prim unary meth below truth same of_bool e = Ok r ->
  agree V (direct V prim unary meth below truth same of_bool env e) (eval V prim unary meth (handled V env) r).
Proof. exact build_agree. Qed.
Print Assumptions C58_operators_partial.
(** [-x() * 2 + (5 if 1 else y())] is a term, and [-1] at [x = 3]. *)
Definition sample : expr num :=
  Bin num Add (Bin num Mul (Un num Neg (Var num 0 KIntegral)) (Lit num (NI 2))) (If num (Lit num (NI 1)) (Lit num (NI 5)) (Var num 1 KReal)).
Example C58_operators_example :
  arith num sample /\ compares num sample = false /\
  exists r, nbuild sample = Ok r /\ ndirect env sample = Ok (NI (-1)) /\ neval (handled num env) r = Ok (Plain num (NI (-1))).
Proof.
  split; [cbn; repeat split; discriminate|]. split; [reflexivity|].
  eexists. split; [reflexivity|]. split; vm_compute; reflexivity.
Qed.
(** With comparisons: [2 < x()] over whole numbers; the reflected method of the term runs. *)
Example C58_comparison_example :
  let e := Cmp num Lt (Lit num (NI 2)) (Var num 0 KIntegral) in
  comparable num whole /\
  build num nkind nprim nunary whole nbelow ntruth nsame NB e = Ok (Term num (NCmp num Gt (Term num (NVar num 0 KIntegral)) (Plain num (NI 2)))) /\
  direct num nprim nunary whole nbelow ntruth nsame NB env e = Ok (NB true) /\
  eval num nprim nunary whole (handled num env) (Term num (NCmp num Gt (Term num (NVar num 0 KIntegral)) (Plain num (NI 2)))) = Ok (Plain num (NB true)).
Proof. split; [exact whole_comparable|]. repeat split; reflexivity. Qed.

(** The very same outcome, the exception included, if there is only binary arithmetic and [if]. *)
Theorem C58_binary_exact : forall V vkind prim unary meth below truth same of_bool env e r,
  (forall v, number (vkind v) = true) ->
  binary_only V e ->
  build V vkind prim unary meth below truth same of_bool e = Ok r ->
  eval V prim unary meth (handled V env) r =
  bind (direct V prim unary meth below truth same of_bool env e) (fun v => Ok (Plain V v)).
Proof. exact build_exact. Qed.
Print Assumptions C58_binary_exact.
(** [x() / (y() - 1.5)] divides by zero at [y = 1.5], when evaluated. *)
Example C58_binary_example :
  let e := Bin num TrueDiv (Var num 0 KIntegral) (Bin num Sub (Var num 1 KReal) (Lit num (NF 3))) in
  binary_only num e /\ exists r, nbuild e = Ok r /\ neval (handled num env) r = Exc (Raised 0).
Proof. split; [cbn; auto|]. eexists. split; [reflexivity|]. vm_compute. reflexivity. Qed.

(** What raises while the term is built raises in plain Python too, whatever the variables are. *)
Theorem C58_raises : forall V vkind prim unary meth below truth same of_bool env e x,
  (forall v, number (vkind v) = true) ->
  arith V e -> comparable V meth \/ compares V e = false -> straight V e ->
  build V vkind prim unary meth below truth same of_bool e = Exc x ->
  fails (direct V prim unary meth below truth same of_bool env e).
Proof. exact build_fails. Qed.
Print Assumptions C58_raises.
(** [x() + 1 / 0] *)
Example C58_raises_example :
  let e := Bin num Add (Var num 0 KIntegral) (Bin num TrueDiv (Lit num (NI 1)) (Lit num (NI 0))) in
  arith num e /\ compares num e = false /\ straight num e /\ nbuild e = Exc (Raised 0).
Proof. cbn. auto 10. Qed.

(** Variables may be given in stages, by numbers or by terms: evaluating what the first stage leaves is evaluating
    with both at once. *)
Theorem C58_stages : forall V prim unary meth env1 env2 env3,
  (forall x a, env1 x = Some a -> exists a', eval V prim unary meth env2 a = Ok a' /\ env3 x = Some a') ->
  (forall x, env1 x = None -> env3 x = env2 x) ->
  (forall a r, eval V prim unary meth env1 a = Ok r -> eval V prim unary meth env2 r = eval V prim unary meth env3 a) /\
  (forall a x, eval V prim unary meth env1 a = Exc x -> fails (eval V prim unary meth env3 a)).
Proof.
  exact (fun V prim unary meth env1 env2 env3 s n =>
    conj (stages V prim unary meth env1 env2 env3 s n) (stages_fail V prim unary meth env1 env2 env3 s n)).
Qed.
Print Assumptions C58_stages.
(** [x() + y()] with [x] given as [y() + 1] first and [y] as [1.5] then *)
Example C58_stages_example :
  let x := Term num (NVar num 0 KIntegral) in let y := Term num (NVar num 1 KReal) in
  let plus a b := Term num (NBin num Add a b) in
  let env1 := fun v : nat => if Nat.eqb v 0 then Some (plus y (Plain num (NI 1))) else None in
  let env2 := fun v : nat => if Nat.eqb v 1 then Some (Plain num (NF 3)) else None in
  let env3 := fun v : nat => if Nat.eqb v 0 then Some (Plain num (NF 5)) else if Nat.eqb v 1 then Some (Plain num (NF 3)) else None in
  (forall v a, env1 v = Some a -> exists a', neval env2 a = Ok a' /\ env3 v = Some a') /\
  (forall v, env1 v = None -> env3 v = env2 v) /\
  neval env1 (plus x y) = Ok (plus (plus y (Plain num (NI 1))) y) /\
  neval env3 (plus x y) = Ok (Plain num (NF 8)).
Proof.
  cbv zeta. repeat split.
  - intros [|v] a H; [|discriminate]. injection H as <-. eexists. split; reflexivity.
  - now intros [|v].
Qed.

(** Refuted: a comparison of an integer with a float, evaluated, is Python's [NotImplemented] (a true value). *)
Theorem C58_compare_refuted : exists e t,
  arith num e /\ straight num e /\
  nbuild e = Ok t /\
  ndirect env e = Ok (NB false) /\
  neval (handled num env) t = Ok (NotImpl num).
Proof.
  exists (Cmp num Lt (Var num 0 KIntegral) (Var num 1 KReal)). eexists.
  split; [cbn; auto|]. split; [cbn; auto|]. split; [reflexivity|]. split; vm_compute; reflexivity.
Qed.
Print Assumptions C58_compare_refuted.

(** Refuted: [==] is settled while the term is built, by its shape; [x() == y()] is [False] at once. *)
Theorem C58_equal_refuted : exists e r,
  nbuild e = Ok (Plain num (NB false)) /\
  ndirect r e = Ok (NB true).
Proof. exists (Eq num (Var num 0 KIntegral) (Var num 1 KIntegral)), (fun _ => NI 3). split; vm_compute; reflexivity. Qed.
Print Assumptions C58_equal_refuted.

(** Refuted: [operator.index(x())] raises, though [__index__] is an operation. *)
Theorem C58_index_refuted : exists e,
  straight num e /\ compares num e = false /\
  nbuild e = Exc TypeError /\
  ndirect env e = Ok (NI 3).
Proof. exists (Un num Index (Var num 0 KIntegral)). repeat split; reflexivity. Qed.
Print Assumptions C58_index_refuted.

(** Refuted: [x() + y()] with [y] of no number type is a term, [x() + y() + 1] raises. *)
Theorem C58_untyped_refuted : exists a b t,
  nbuild a = Ok t /\
  nbuild (Bin num Add a b) = Exc TypeError /\
  ndirect (fun _ => NI 3) (Bin num Add a b) = Ok (NI 7).
Proof.
  exists (Bin num Add (Var num 0 KIntegral) (Var num 1 KObject)), (Lit num (NI 1)). eexists.
  split; [reflexivity|]. split; reflexivity.
Qed.
Print Assumptions C58_untyped_refuted.

(** [a == b] is whether both are the same text, numbers being compared by [==]. *)
Theorem C58_equal : forall V vkind prim unary meth below truth same of_bool a b r,
  build V vkind prim unary meth below truth same of_bool (Eq V a b) = Ok r ->
  exists a' b', build V vkind prim unary meth below truth same of_bool a = Ok a' /\
  build V vkind prim unary meth below truth same of_bool b = Ok b' /\
  (r = Plain V (of_bool true) /\ alike V same a' b' \/ r = Plain V (of_bool false) /\ ~ alike V same a' b').
Proof. exact equal_alike. Qed.
Print Assumptions C58_equal.
(** Where it is true, both have the same value, or raise the same, whatever the variables are, if equal numbers are the same. *)
Theorem C58_equal_values : forall V prim unary meth same, (forall v w, same v w = true -> v = w) ->
  forall env a b, alike V same a b -> eval V prim unary meth (handled V env) a = eval V prim unary meth (handled V env) b.
Proof. exact alike_eval. Qed.
Print Assumptions C58_equal_values.
(** [x() + 1 == x() + 1] is true, [x() + 1 == 1 + x()] is false. *)
Example C58_equal_example :
  let x := Var num 0 KIntegral in let one := Lit num (NI 1) in
  nbuild (Eq num (Bin num Add x one) (Bin num Add x one)) = Ok (Plain num (NB true)) /\
  nbuild (Eq num (Bin num Add x one) (Bin num Add one x)) = Ok (Plain num (NB false)).
Proof. split; reflexivity. Qed.

(** Which comparison is built: mirrored if the class of the right one is a proper subclass of that of the left one; a
    comparison is a bool; with a term of no number type the method of the other is called, if it has one. *)
Theorem C58_compared : forall V vkind prim unary meth below truth same of_bool c,
  let build := build V vkind prim unary meth below truth same of_bool in
  let var x k := Term V (NVar V x k) in
  (forall x k y l, number k = true -> number l = true ->
     build (Cmp V c (Var V x k) (Var V y l)) =
     Ok (Term V (if Nat.ltb (rank l) (rank k) then NCmp V (swap c) (var y l) (var x k) else NCmp V c (var x k) (var y l)))) /\
  (forall d z l x y, number l = true -> l <> KBool ->
     build (Cmp V c (Var V z l) (Cmp V d (Var V x KReal) (Var V y KReal))) =
     Ok (Term V (NCmp V (swap c) (Term V (NCmp V d (var x KReal) (var y KReal))) (var z l)))) /\
  (forall x y l, build (Cmp V c (Var V x KObject) (Var V y l)) =
     if number l then Ok (Term V (NCmp V (swap c) (var y l) (var x KObject))) else Exc TypeError).
Proof.
  exact (fun V vkind prim unary meth below truth same of_bool c =>
    conj (compare_vars V vkind prim unary meth below truth same of_bool c)
      (conj (compare_bool V vkind prim unary meth below truth same of_bool c) (compare_untyped V vkind prim unary meth below truth same of_bool c))).
Qed.
Print Assumptions C58_compared.
Example C58_compared_example :
  nbuild (Cmp num Lt (Var num 0 KReal) (Var num 1 KIntegral)) =
  Ok (Term num (NCmp num Gt (Term num (NVar num 1 KIntegral)) (Term num (NVar num 0 KReal)))).
Proof. reflexivity. Qed.
