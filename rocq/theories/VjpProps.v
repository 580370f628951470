(** C91: the gradients that [vjp] pulls back through functions of arrays with named dimensions. *)
From Coq Require Import List Bool Arith ZArith.
From Verif Require Import ArrModel ArrSpec NopModel NopSpec FunModel FunSpec VjpModel VjpSpec VjpProofs VjpLaws VjpExpr VjpCases.
Import ListNotations.

(** Sums over [indices] are over all indices, each once. *)
Theorem C91_sums : forall sh, NoDup (indices sh) /\ forall idx, In idx (indices sh) <-> within sh idx.
Proof. exact (fun sh => conj (nodup_indices sh) (in_indices sh)). Qed.
Print Assumptions C91_sums.
Example C91_sums_example : indices [2; 2] = [[0; 0]; [0; 1]; [1; 0]; [1; 1]] /\ indices [2; 0] = [] /\ indices [] = [[]].
Proof. repeat split. Qed.

(** The result that [vjp] returns is the function's, at every position of the names. *)
Theorem C91_result : forall V zero add mul D (func : nfun V) primals r bk r0, nice V func -> Forall (good V) primals -> Forall (inhabited V) primals ->
  vjp V zero add mul D func primals = Ok (r, bk) -> func primals = Ok r0 ->
  is_node r = is_node r0 /\ Forall2 (fun v w => forall rho, same (leaf_at V rho v) (leaf_at V rho w)) (leaves r) (leaves r0).
Proof. exact vjp_result. Qed.
Print Assumptions C91_result.

Lemma good_xa : Forall (good Z) [xa; ya].
Proof. unfold xa, ya. goods. Qed.
Lemma inhabited_xa : Forall (inhabited Z) [xa; ya].
Proof. repeat constructor; exists (fun _ => 0); discriminate. Qed.
(** [dot] of two arrays with the name [a] in other places: products and their sums at each [a] *)
Example C91_result_example : nice Z dot /\ Forall (good Z) [xa; ya] /\ Forall (inhabited Z) [xa; ya] /\
  exists r bk r0, Zvjp dot [xa; ya] = Ok (r, bk) /\ dot [xa; ya] = Ok r0 /\ map elements (leaves r) = [[5; 14; 18; 32]; [19; 50]]%Z.
Proof.
  split; [apply program_nice|]. split; [exact good_xa|]. split; [exact inhabited_xa|].
  destruct (ran dot [xa; ya] cts ltac:(vm_compute; reflexivity)) as (bk & E1 & _). destruct (okay (dot [xa; ya]) ltac:(vm_compute; reflexivity)) as [r0 E0].
  exists (result_of dot [xa; ya]), bk, r0. split; [exact E1|]. split; [exact E0|]. vm_compute. reflexivity.
Qed.

(** The gradients: one for each argument, with its names and shape. Each element at each position of the names is the sum,
    over all results, all positions of their names and all their elements, of the derivative times the cotangent there.
    The cotangents must have the names of the results in the same order. Not proved, being false: cotangents with the names in
    another order ([C91_order_refuted]) or without some of them ([C91_missing_refuted]), auxiliary results
    ([C91_aux_refuted]), arguments with a name used twice ([C91_twice_refuted]). *)
Theorem C91_gradient_partial : forall V zero add mul D (func : nfun V) primals r r0 cts bk ms gs,
  nice V func -> Forall (good V) primals -> Forall (inhabited V) primals -> vjp V zero add mul D func primals = Ok (r, bk) -> func primals = Ok r0 ->
  Forall (inhabited V) (leaves r) -> Forall (good V) (leaves cts) -> Forall (inhabited V) (leaves cts) ->
  Forall2 (fun v m => sizes_val V v [] = Ok m) (leaves r) ms -> Forall2 (fun v m => sizes_val V v [] = Ok m) (leaves cts) ms ->
  bk cts = Ok gs -> (forall x f g, (forall t, f t = g t) -> D x f = D x g) ->
  length gs = length primals /\ is_node cts = is_node r /\ forall k v env x, nth_error primals k = Some v -> leaf_at V env v = Some x ->
  exists g ga, nth_error gs k = Some g /\ leaf_at V env g = Some ga /\ shape ga = shape x /\
  forall i, within (shape x) i -> at_ ga i = gradient V zero add mul D func primals k env everywhere i (at_ x i) ms (leaves cts).
Proof. exact vjp_gradient. Qed.
Print Assumptions C91_gradient_partial.

Example C91_gradient_example : exists r r0 bk gs, Zvjp dot [xa; ya] = Ok (r, bk) /\ dot [xa; ya] = Ok r0 /\
  Forall (inhabited Z) (leaves r) /\ Forall (good Z) (leaves cts) /\ Forall (inhabited Z) (leaves cts) /\
  Forall2 (fun v m => sizes_val Z v [] = Ok m) (leaves r) [[(0, 2)]; [(0, 2)]] /\ Forall2 (fun v m => sizes_val Z v [] = Ok m) (leaves cts) [[(0, 2)]; [(0, 2)]] /\
  bk cts = Ok gs /\ (forall x f g, (forall t, f t = g t) -> diff x f = diff x g) /\
  map elements gs = [[50; 140; 780; 1120]; [10; 40; 390; 560]]%Z /\
  gradient Z 0%Z Z.add Z.mul diff dot [xa; ya] 0 (fun _ => 1) everywhere [0] 3%Z [[(0, 2)]; [(0, 2)]] (leaves cts) = 780%Z.
Proof.
  destruct (ran dot [xa; ya] cts ltac:(vm_compute; reflexivity)) as (bk & E1 & E2).
  destruct (okay (dot [xa; ya]) ltac:(vm_compute; reflexivity)) as [r0 E0].
  exists (result_of dot [xa; ya]), r0, bk, (grads_of dot [xa; ya] cts). split; [exact E1|]. split; [exact E0|].
  split.
  { assert (X : forallb (fun v => match leaf_at Z (fun _ => 0) v with Some _ => true | None => false end) (leaves (result_of dot [xa; ya])) = true) by (vm_compute; reflexivity).
    apply Forall_forall. intros v Hv. rewrite forallb_forall in X. specialize (X v Hv). exists (fun _ => 0). intros Y. rewrite Y in X. discriminate X. }
  split; [unfold cts; cbn [leaves]; goods|].
  split; [repeat constructor; exists (fun _ => 0); discriminate|].
  split.
  { assert (X : rmap (fun v => sizes_val Z v []) (leaves (result_of dot [xa; ya])) = Ok [[(0, 2)]; [(0, 2)]]) by (vm_compute; reflexivity). apply FunProofs.rmap_spec. exact X. }
  split; [repeat constructor|]. split; [exact E2|].
  split; [intros x f g E; unfold diff; rewrite !E; reflexivity|]. split; vm_compute; reflexivity.
Qed.

(** If derivatives of constants are zero, only the positions where the names of the argument are the same count: the gradient
    at a position is the gradient of the function at this position, and sums over the names that the argument lacks. *)
Theorem C91_pointwise : forall V zero add mul D (func : nfun V) primals r r0 cts bk ms gs,
  nice V func -> Forall (good V) primals -> Forall (inhabited V) primals -> vjp V zero add mul D func primals = Ok (r, bk) -> func primals = Ok r0 ->
  Forall (inhabited V) (leaves r) -> Forall (good V) (leaves cts) -> Forall (inhabited V) (leaves cts) ->
  Forall2 (fun v m => sizes_val V v [] = Ok m) (leaves r) ms -> Forall2 (fun v m => sizes_val V v [] = Ok m) (leaves cts) ms ->
  bk cts = Ok gs -> (forall x f g, (forall t, f t = g t) -> D x f = D x g) ->
  (forall x c, D x (fun _ => c) = zero) -> (forall a, mul a zero = zero) -> (forall a, add zero a = a) ->
  forall k v env x, nth_error primals k = Some v -> leaf_at V env v = Some x ->
  exists g ga, nth_error gs k = Some g /\ leaf_at V env g = Some ga /\ shape ga = shape x /\
  forall i, within (shape x) i -> at_ ga i = gradient V zero add mul D func primals k env (where_ V env v) i (at_ x i) ms (leaves cts).
Proof. exact vjp_pointwise. Qed.
Print Assumptions C91_pointwise.
(** At [a = 1] only the position [a = 1] counts: 30 * 6 + 6 * 100. *)
Example C91_pointwise_example : (forall x c, diff x (fun _ => c) = 0%Z) /\ (forall a, Z.mul a 0 = 0%Z) /\ (forall a, Z.add 0 a = a) /\
  length (positions (fun _ => 1) (where_ Z (fun _ => 1) xa) [(0, 2)]) = 1 /\
  gradient Z 0%Z Z.add Z.mul diff dot [xa; ya] 0 (fun _ => 1) (where_ Z (fun _ => 1) xa) [0] 3%Z [[(0, 2)]; [(0, 2)]] (leaves cts) = 780%Z.
Proof.
  split; [intros x c; unfold diff; apply Z.sub_diag|]. split; [exact Z.mul_0_r|]. split; [exact Z.add_0_l|]. split; vm_compute; reflexivity.
Qed.

(** Cotangents with the structure, names and shapes of the results are accepted. *)
Theorem C91_accepts : forall V zero add mul D (func : nfun V) primals r bk cts, nice V func -> Forall (good V) primals -> Forall (inhabited V) primals ->
  vjp V zero add mul D func primals = Ok (r, bk) -> Forall (inhabited V) (leaves r) -> is_node cts = is_node r -> Forall2 (alike V) (leaves r) (leaves cts) ->
  exists gs, bk cts = Ok gs.
Proof. exact vjp_accepts. Qed.
Print Assumptions C91_accepts.
Example C91_accepts_example : exists r bk, Zvjp dot [xa; ya] = Ok (r, bk) /\ is_node cts = is_node r /\ Forall2 (alike Z) (leaves r) (leaves cts).
Proof.
  destruct (ran dot [xa; ya] cts ltac:(vm_compute; reflexivity)) as (bk & E & _). exists (result_of dot [xa; ya]), bk. split; [exact E|]. split; [vm_compute; reflexivity|].
  assert (X : exists a b, leaves (result_of dot [xa; ya]) = [VGet Z a [KName 0; KAll]; VGet Z b [KName 0]] /\ shape a = [2; 2] /\ shape b = [2]) by (do 2 eexists; split; [reflexivity|]; split; vm_compute; reflexivity).
  destruct X as (a & b & -> & Ea & Eb). repeat constructor; assumption.
Qed.

(** Programs of indexing and of the library's functions are such functions. *)
Theorem C91_programs : forall V (num : nat -> V) lib, lawful lib -> forall node ps, nice V (nprogram V num lib node ps).
Proof. exact nprogram_nice. Qed.
Print Assumptions C91_programs.
Example C91_programs_example : lawful lib /\ exists t, nprogram Z zn lib true [NGet Z (NArg Z 0) [KInt 1%Z]; NOp Z 0 0 [NArg Z 0; NArg Z 1]] [xa; ya] = Ok t /\ map elements (leaves t) = [[2; 4]; [5; 14; 18; 32]]%Z.
Proof. split; [exact lib_lawful|]. eexists. split; [vm_compute; reflexivity|]. vm_compute. reflexivity. Qed.

(** A cotangent with the names of the result in another order, of the same sizes, is taken for its transpose: the gradient of
    the identity function at [a = 0], [b = 1] is 20, not the cotangent there, 30. *)
Theorem C91_order_refuted : exists func primals r bk ct gs g env,
  nice Z func /\ Forall (good Z) primals /\ Zvjp func primals = Ok (r, bk) /\ rmap (fun v => sizes_val Z v []) (leaves r) = Ok [[(0, 2); (1, 2)]] /\
  good Z ct /\ sizes_val Z ct [] = Ok [(1, 2); (0, 2)] /\
  bk (Tree false [ct]) = Ok gs /\ nth_error gs 0 = Some g /\ option_map (fun a => at_ a []) (leaf_at Z env g) = Some 20%Z /\
  option_map (fun a => at_ a []) (leaf_at Z env ct) = Some 30%Z /\ gradient Z 0%Z Z.add Z.mul diff func primals 0 env everywhere [] 2%Z [[(0, 2); (1, 2)]] [ct] = 30%Z.
Proof.
  destruct (ran same_fun [mab] (Tree false [cba]) ltac:(vm_compute; reflexivity)) as (bk & E1 & E2).
  exists same_fun, [mab], (result_of same_fun [mab]), bk, cba, (grads_of same_fun [mab] (Tree false [cba])), (nth 0 (grads_of same_fun [mab] (Tree false [cba])) mab), (fun n => n).
  split; [apply program_nice|]. split; [unfold mab; goods|]. split; [exact E1|]. split; [vm_compute; reflexivity|]. split; [unfold cba; goods|]. split; [vm_compute; reflexivity|].
  split; [exact E2|]. split; [reflexivity|]. repeat split; vm_compute; reflexivity.
Qed.
Print Assumptions C91_order_refuted.

(** A cotangent that is the same at all positions of the names, given without them, is refused. *)
Theorem C91_missing_refuted : exists func primals r bk c, nice Z func /\ Forall (good Z) primals /\ Zvjp func primals = Ok (r, bk) /\
  (exists v, func primals = Ok (Tree false [v]) /\ forall env a, leaf_at Z env v = Some a -> shape a = shape c) /\ bk (Tree false [VArr Z c]) = RuntimeError.
Proof.
  destruct (ran_any same_fun [mab] ltac:(vm_compute; reflexivity)) as (bk & E1 & E2).
  exists same_fun, [mab], (result_of same_fun [mab]), bk, (Arr [] (fun _ => 1%Z)). split; [apply program_nice|]. split; [unfold mab; goods|]. split; [exact E1|].
  split; [|rewrite E2; vm_compute; reflexivity]. exists mab. split; [reflexivity|]. intros env a H. unfold mab, leaf_at, index_arr in H. cbn [shape matrix index_axes pick] in H.
  destruct (env 0 <? 2); [|discriminate H]. destruct (env 1 <? 2); [|discriminate H]. injection H as <-. reflexivity.
Qed.
Print Assumptions C91_missing_refuted.

(** [has_aux=True] never works. *)
Theorem C91_aux : forall V (func : nfun V) primals x, vjp_aux V func primals <> Ok x.
Proof. exact aux_never. Qed.
Print Assumptions C91_aux.
Theorem C91_aux_refuted : exists func primals r bk, nice Z func /\ Zvjp func primals = Ok (r, bk) /\ vjp_aux Z func primals = ValueError.
Proof.
  destruct (ran_any same_fun [mab] ltac:(vm_compute; reflexivity)) as (bk & E & _). exists same_fun, [mab], (result_of same_fun [mab]), bk. split; [apply program_nice|]. split; [exact E|]. vm_compute. reflexivity.
Qed.
Print Assumptions C91_aux_refuted.

(** An argument in which a name is used twice, the diagonal of a matrix, is refused; the function accepts it. *)
Theorem C91_twice_refuted : exists func primals r0, nice Z func /\ Forall (good Z) primals /\ Forall (inhabited Z) primals /\ func primals = Ok r0 /\ Zvjp func primals = RuntimeError.
Proof.
  exists same_fun, [maa], (Tree false [maa]). split; [apply program_nice|]. split; [unfold mab, maa, cba; goods|].
  split; [repeat constructor; exists (fun _ => 0); discriminate|]. split; vm_compute; reflexivity.
Qed.
Print Assumptions C91_twice_refuted.

(** Arguments that are not yet arrays, such as terms with free variables, are refused. *)
Theorem C91_terms : forall V zero add mul D (func : nfun V) v m rest, match v with VArr _ _ | VGet _ _ _ => False | _ => True end -> sizes_val V v [] = Ok m ->
  vjp V zero add mul D func (v :: rest) = RuntimeError.
Proof. exact terms_refused. Qed.
Print Assumptions C91_terms.
Example C91_terms_example : sizes_val Z (VOp Z 0 0 [xa; VName Z 5]) [] = Ok [(0, 2)].
Proof. vm_compute. reflexivity. Qed.
