(** C67: functions with named results under [jit], [vmap], [jacfwd], [grad], [hessian] and [jvp]. *)
From Coq Require Import List Bool Arith ZArith Lia.
From Verif Require Import ArrModel ArrSpec ArrProofs ArrNames NopModel NopSpec NopProofs NopLaws FunModel FunSpec FunProofs FunLaws FunTrans FunInst FunExpr FunJit.
Import ListNotations.

(** A library: sums and products of arrays of one shape, and the sum of a vector. Derivatives are differences. *)
Definition arith (f : nat) (ps : list (arr nat)) : option (list (arr nat)) :=
  match f, ps with
  | 0, [a; b] => if same_list (shape a) (shape b) then Some [Arr (shape a) (fun idx => at_ a idx + at_ b idx)] else None
  | 1, [a; b] => if same_list (shape a) (shape b) then Some [Arr (shape a) (fun idx => at_ a idx * at_ b idx)] else None
  | 2, [a] => match shape a with [n] => Some [Arr [] (fun _ => fold_right Nat.add 0 (map (fun i => at_ a [i]) (seq 0 n)))] | _ => None end
  | _, _ => None
  end.
Definition diff (x : nat) (f : nat -> nat) : nat := f (S x) - f x.
Lemma diff_ext : forall x f g, (forall t, f t = g t) -> diff x f = diff x g.
Proof. intros x f g H. unfold diff. rewrite !H. reflexivity. Qed.
Lemma arith_lawful : lawful arith.
Proof.
  assert (One : forall (a b : arr nat) n, same_arr a b -> shape a = [n] -> map (fun i => at_ a [i]) (seq 0 n) = map (fun i => at_ b [i]) (seq 0 n)).
  { intros a b n [_ S] E. apply map_ext_in. intros i Hi. apply in_seq in Hi. apply S. rewrite E. constructor; [lia|constructor]. }
  split.
  - intros f ps qs H. destruct H as [|a b ps qs [Sa Ea] H]; [destruct f as [|[|[|f]]]; exact I|]. destruct H as [|c d ps qs [Sc Ec] H].
    + destruct f as [|[|[|f]]]; try exact I. cbn [arith]. rewrite <- Sa. destruct (shape a) as [|n [|? ?]] eqn:E; try exact I. constructor; [|constructor]. split; [reflexivity|]. intros idx _. cbn [at_]. f_equal. apply One; [split; rewrite E; [exact Sa|exact Ea]|exact E].
    + destruct H; [|destruct f as [|[|[|f]]]; exact I]. destruct f as [|[|[|f]]]; cbn [arith]; try exact I; rewrite <- Sa, <- Sc; unfold same_list; destruct (list_eq_dec Nat.eq_dec (shape a) (shape c)) as [E|E]; try exact I;
        (constructor; [|constructor]; split; [reflexivity|]; cbn [shape at_]; intros idx W; rewrite Ea by exact W; rewrite Ec by (rewrite <- E; exact W); reflexivity).
  - intros f ps qs H. unfold same_shape in H. destruct H as [|a b ps qs Sa H]; [destruct f as [|[|[|f]]]; exact I|]. destruct H as [|c d ps qs Sc H].
    + destruct f as [|[|[|f]]]; try exact I. cbn [arith]. rewrite <- Sa. destruct (shape a) as [|n [|? ?]]; try exact I. constructor; [reflexivity|constructor].
    + destruct H; [|destruct f as [|[|[|f]]]; exact I]. destruct f as [|[|[|f]]]; cbn [arith]; try exact I; rewrite <- Sa, <- Sc; destruct (same_list (shape a) (shape c)); try exact I; (constructor; [reflexivity|constructor]).
Qed.

(** The array [c] of three by two; [lambda x: x * x + c[k()]], [lambda x: sum(x * x)], [lambda x: sum(x * c[k()])] for name 5 as [k] *)
Definition c32 : arr nat := Arr [3; 2] (fun idx => 10 * nth 0 idx 0 + nth 1 idx 0).
Definition square_plus : pyfun nat := program nat id arith false [POp nat 0 0 [POp nat 1 0 [PArg nat 0; PArg nat 0]; PGet nat (PArr nat c32) [KName 5]]].
Definition norm : pyfun nat := program nat id arith false [POp nat 2 0 [POp nat 1 0 [PArg nat 0; PArg nat 0]]].
Definition weighted : pyfun nat := program nat id arith false [POp nat 2 0 [POp nat 1 0 [PArg nat 0; PGet nat (PArr nat c32) [KName 5]]]].
(** Two vectors, named 6; two batches of four vectors *)
Definition xs2 : val nat := VGet nat (Arr [2; 2] (fun idx => 3 * nth 0 idx 0 + nth 1 idx 0)) [KName 6; KAll].
Definition xs24 : val nat := VGet nat (Arr [2; 4; 2] (fun idx => 9 * nth 0 idx 0 + 2 * nth 1 idx 0 + nth 2 idx 0)) [KName 6; KAll; KAll].
(** A leaf, as its shape and elements at positions of the names *)
Definition leaf_is (t : tree (val nat)) (env : nat -> nat) (sh : list nat) (els : list (list nat * nat)) : bool :=
  match leaves_at nat env (leaves t) with Some [a] => same_list (shape a) sh && forallb (fun p => Nat.eqb (at_ a (fst p)) (snd p)) els | _ => false end.
Definition at56 (i j n : nat) : nat := if Nat.eqb n 5 then i else if Nat.eqb n 6 then j else 0.
Lemma is_value_error {A} (x : res A) : match x with ValueError => true | _ => false end = true -> x = ValueError.
Proof. destruct x; try discriminate. reflexivity. Qed.
Ltac leaf_tac := apply ok_some; vm_compute; reflexivity.
Lemma xs2_good : Forall (concrete nat) [xs2] /\ Forall (regular nat) [xs2].
Proof. split; constructor; try constructor; [exists 6; left; reflexivity|reflexivity|]. constructor; [right; exists 6; reflexivity|]. constructor; [left; reflexivity|constructor]. Qed.
Lemma xs24_good : Forall (concrete nat) [xs24] /\ Forall (regular nat) [xs24].
Proof. split; constructor; try constructor; [exists 6; left; reflexivity|reflexivity|]. constructor; [right; exists 6; reflexivity|]. constructor; [left; reflexivity|]. constructor; [left; reflexivity|constructor]. Qed.

(** Any transformation of the library with the laws of [lawful_transform]: at each position of the names, the result is the
    transformation of the function at that position, on the arguments there. *)
Theorem C67_transformed : forall V num (T : transform V) start func ix args t, lawful_transform V T start -> traceable V func ->
  Forall (concrete V) args -> Forall (regular V) args -> fst (transformed V num (@bind_dims_torch V) T start func ix args) = Ok t ->
  forall env xs, leaves_at V env args = Some xs -> related same_arr (leaves_at V env (leaves t)) (trans V T (func_at V env func) xs).
Proof. exact transformed_sound. Qed.
Print Assumptions C67_transformed.

(** [vmap]: the function, at that position of the names, on the slices. *)
Theorem C67_vmap : forall V num func (args : list (val V)) t, traceable V func -> Forall (concrete V) args -> Forall (regular V) args ->
  vmap V num (@bind_dims_torch V) 0 func args = Ok t ->
  forall env xs, leaves_at V env args = Some xs -> related same_arr (leaves_at V env (leaves t)) (trans V (torch_vmap V 0) (func_at V env func) xs).
Proof. intros V num func args t Tr C R H. exact (transformed_sound V num _ 1 func None args t (vmap_lawful V) Tr C R H). Qed.
Print Assumptions C67_vmap.

(** What [vmap] means: result [i] along axis [d] is the function on slices [i]. *)
Theorem C67_vmap_meaning : forall V d F (xs : list (arr V)) outs, shapely V F -> trans V (torch_vmap V d) F xs = Some outs ->
  exists n, Forall (fun x => exists s, shape x = n :: s) xs /\ forall i, i < n -> exists os, F (map (slice_at V 0 [i]) xs) = Some os /\
  Forall2 (fun o r => shape o = insert_at d n (shape r) /\ forall idx, within (shape r) idx -> at_ o (insert_at d i idx) = at_ r idx) outs os.
Proof. exact vmap_means. Qed.
Print Assumptions C67_vmap_meaning.

Example C67_vmap_example : traceable nat square_plus /\ exists t, vmap nat id (@bind_dims_torch nat) 0 square_plus [xs24] = Ok t /\
  leaf_is t (at56 2 1) [4; 2] [([3; 1], 16 * 16 + 21); ([0; 0], 9 * 9 + 20)] = true.
Proof. split; [apply program_traceable, arith_lawful|]. leaf_tac. Qed.

(** [jacfwd] and [jacrev], for any derivative: the Jacobian of the function at that position. *)
Theorem C67_jacobian : forall V num (D : V -> (V -> V) -> V), (forall x f g, (forall t, f t = g t) -> D x f = D x g) ->
  forall k func (args : list (val V)) t, traceable V func -> Forall (concrete V) args -> Forall (regular V) args ->
  jac V num (@bind_dims_torch V) D k func args = Ok t ->
  forall env xs, leaves_at V env args = Some xs -> related same_arr (leaves_at V env (leaves t)) (trans V (torch_jac V D k) (func_at V env func) xs).
Proof. intros V num D HD k func args t Tr C R H. exact (transformed_sound V num _ 0 func None args t (jac_lawful V D HD k) Tr C R H). Qed.
Print Assumptions C67_jacobian.

Example C67_jacobian_example : exists t, jac nat id (@bind_dims_torch nat) diff 0 square_plus [xs2] = Ok t /\
  leaf_is t (at56 2 1) [2; 2] [([0; 0], 7); ([0; 1], 0); ([1; 0], 0); ([1; 1], 9)] = true.
Proof. leaf_tac. Qed.

(** [grad] and [hessian] likewise *)
Theorem C67_grad : forall V num (D : V -> (V -> V) -> V), (forall x f g, (forall t, f t = g t) -> D x f = D x g) ->
  forall k func (args : list (val V)) t, traceable V func -> Forall (concrete V) args -> Forall (regular V) args ->
  grad V num (@bind_dims_torch V) D k func args = Ok t ->
  forall env xs, leaves_at V env args = Some xs -> related same_arr (leaves_at V env (leaves t)) (trans V (torch_grad V D k) (func_at V env func) xs).
Proof. intros V num D HD k func args t Tr C R H. exact (transformed_sound V num _ 0 func None args t (grad_lawful V D HD k) Tr C R H). Qed.
Print Assumptions C67_grad.

Example C67_grad_example : exists t, grad nat id (@bind_dims_torch nat) diff 0 norm [xs2] = Ok t /\ leaf_is t (at56 0 1) [2] [([0], 7); ([1], 9)] = true /\ leaf_is t (at56 0 0) [2] [([0], 1); ([1], 3)] = true.
Proof. apply ok_some. vm_compute. split; reflexivity. Qed.

Theorem C67_hessian : forall V num (D : V -> (V -> V) -> V), (forall x f g, (forall t, f t = g t) -> D x f = D x g) ->
  forall k func (args : list (val V)) t, traceable V func -> Forall (concrete V) args -> Forall (regular V) args ->
  hessian V num (@bind_dims_torch V) D k func args = Ok t ->
  forall env xs, leaves_at V env args = Some xs -> related same_arr (leaves_at V env (leaves t)) (trans V (torch_hessian V D k) (func_at V env func) xs).
Proof.
  intros V num D HD k func args t Tr C R H. exact (transformed_sound V num _ 0 func None args t (after_lawful V _ _ 0 (jac_lawful V D HD k) (jac_lawful V D HD k)) Tr C R H).
Qed.
Print Assumptions C67_hessian.

Example C67_hessian_example : exists t, hessian nat id (@bind_dims_torch nat) diff 0 square_plus [xs2] = Ok t /\
  leaf_is t (at56 1 1) [2; 2; 2] [([0; 0; 0], 2); ([0; 0; 1], 0); ([1; 1; 1], 2); ([1; 0; 1], 0)] = true.
Proof. leaf_tac. Qed.

(** Programs of array operations, with named arrays among them, are such functions. *)
Theorem C67_programs : forall V num lib, lawful lib -> forall node ps, traceable V (program V num lib node ps).
Proof. exact program_traceable. Qed.
Print Assumptions C67_programs.

Example C67_programs_example : lawful arith /\ exists a, square_plus [Arr [2] (fun idx => 4)] = Ok (Tree false [VGet nat a [KName 5; KAll]]) /\ shape a = [3; 2] /\ at_ a [2; 1] = 16 + 21.
Proof. split; [apply arith_lawful|]. eexists. split; [vm_compute; reflexivity|]. split; reflexivity. Qed.

(** [jit], after any earlier calls: if the shapes are new or the function always returns the same names, the result is the
    function's. *)
Theorem C67_jit_partial : forall V (num : nat -> V) func history args ret env, (forall xs r, func xs = Ok r -> Forall (regular V) (leaves r)) -> settled V func history args ->
  func args = Ok ret -> Forall (sound_leaf V) (leaves ret) -> leaves_at V env (leaves ret) <> None ->
  exists t, fst (jit_arrays V (@bind_dims_jax V) func (jit_calls V (@bind_dims_jax V) func history) args) = Ok t /\ agree V t ret.
Proof. exact jit_total. Qed.
Print Assumptions C67_jit_partial.

(** It returns nothing else, names used twice, empty dimensions and terms included. *)
Theorem C67_jit_sound_partial : forall V (num : nat -> V) func history args t, (forall xs r, func xs = Ok r -> Forall (regular V) (leaves r)) -> settled V func history args ->
  fst (jit_arrays V (@bind_dims_jax V) func (jit_calls V (@bind_dims_jax V) func history) args) = Ok t -> exists ret, func args = Ok ret /\ agree V t ret.
Proof. intros V num func history args t. exact (jit_sound V num (@bind_dims_jax V) (jax_binds V) func history args t). Qed.
Print Assumptions C67_jit_sound_partial.

(** The names are those of all earlier calls *)
Example C67_jit_example : let x := Arr [2] (fun idx => 4 + hd 0 idx) in
  settled nat square_plus [[x]; [x]] [x] /\ exists t, fst (jit_arrays nat (@bind_dims_jax nat) square_plus (jit_calls nat (@bind_dims_jax nat) square_plus [[x]; [x]]) [x]) = Ok t /\
  leaf_is t (at56 2 0) [2] [([0], 16 + 20); ([1], 25 + 21)] = true.
Proof. cbv zeta. split; [right; intros xs [<-|[<-|[]]] _; reflexivity|]. leaf_tac. Qed.

(** ** What is false *)

(** [lambda x: d[i(), j()] if x.shape == (2,) else d[j(), i()]] *)
Definition flips : pyfun nat := fun xs =>
  match xs with
  | [x] => if same_list (shape x) [2] then Ok (Tree false [VGet nat (Arr [2; 2] (fun idx => 7 + nth 0 idx 0)) [KName 1; KName 2]]) else Ok (Tree false [VGet nat (Arr [2; 2] (fun idx => 7 + nth 0 idx 0)) [KName 2; KName 1]])
  | _ => ValueError
  end.
Lemma flips_traceable : traceable nat flips.
Proof.
  split; [|split].
  - intros xs ys H. unfold flips. destruct H as [|x y xs ys E H]; [exact I|]. destruct H; [|exact I]. unfold same_shape in E. rewrite <- E. destruct (same_list (shape x) [2]); (split; [reflexivity|]; constructor; [split; reflexivity|constructor]).
  - intros xs ys H. unfold flips. destruct H as [|x y xs ys E H]; [exact I|]. destruct H; [|exact I]. rewrite <- (proj1 E). destruct (same_list (shape x) [2]); constructor; try constructor; intros env; apply same_refl.
  - intros xs t H. unfold flips in H. destruct xs as [|x [|? ?]]; try discriminate H. destruct (same_list (shape x) [2]); injection H as <-; constructor; try constructor; try reflexivity; (constructor; [right; eexists; reflexivity|constructor; [right; eexists; reflexivity|constructor]]).
Qed.
Lemma agree_env (t u : tree (val nat)) env i idx : agree nat t u -> match leaves_at nat env (leaves t), leaves_at nat env (leaves u) with Some l, Some r => match nth_error l i, nth_error r i with Some a, Some b => ArrSpec.within (shape a) idx -> at_ a idx = at_ b idx | _, _ => True end | _, _ => True end.
Proof.
  intros [_ F]. unfold leaves_at. revert i. induction F as [|v w vs ws H F IH]; intros i; cbn [traverse]; [destruct i; exact I|]. specialize (H env). destruct (leaf_at nat env v) as [a|], (leaf_at nat env w) as [b|]; try exact I; cbn [same] in H.
  - destruct (traverse (leaf_at nat env) vs) as [l|], (traverse (leaf_at nat env) ws) as [r|]; try exact I. destruct i as [|i]; cbn [nth_error]; [exact (proj2 H idx)|]. exact (IH i).
  - destruct (traverse (leaf_at nat env) vs); exact I.
Qed.

(** [jit] keeps one record of names for all compiled versions: arguments of shape [2], [3] and [2] again. *)
Theorem C67_jit_refuted : exists func history args ret t, traceable nat func /\ func args = Ok ret /\
  fst (jit_arrays nat (@bind_dims_jax nat) func (jit_calls nat (@bind_dims_jax nat) func history) args) = Ok t /\ ~ agree nat t ret.
Proof.
  exists flips, [[Arr [2] (fun _ => 0)]; [Arr [3] (fun _ => 0)]], [Arr [2] (fun _ => 0)]. eexists. eexists. split; [exact flips_traceable|]. split; [reflexivity|]. split; [reflexivity|].
  intros A. apply (agree_env _ _ (fun n => if Nat.eqb n 1 then 1 else 0) 0 []) in A. vm_compute in A. specialize (A (within_nil)). discriminate A.
Qed.
Print Assumptions C67_jit_refuted.

(** [jit] has no named arguments, which the function takes. *)
Theorem C67_jit_arguments_refuted : exists func args xs ret env, traceable nat func /\ leaves_at nat env args = Some xs /\ func xs = Ok ret /\
  fst (jit_call nat (@bind_dims_jax nat) func fresh_jit args) = RuntimeError.
Proof.
  exists square_plus, [xs2]. eexists. eexists. exists (fun _ => 0). split; [apply program_traceable, arith_lawful|]. split; [reflexivity|]. split; [vm_compute; reflexivity|reflexivity].
Qed.
Print Assumptions C67_jit_arguments_refuted.

(** Keyword arguments are lost. *)
Theorem C67_keywords_refuted : exists func args kwargs t, traceable nat func /\ vmap nat id (@bind_dims_torch nat) 0 func (args ++ map snd kwargs) = Ok t /\
  vmap_kw nat id (@bind_dims_torch nat) func args kwargs = ValueError.
Proof.
  exists square_plus, [], [(0, xs24)]. destruct C67_vmap_example as [Tr (t & Ht & _)]. exists t. split; [exact Tr|]. split; [exact Ht|reflexivity].
Qed.
Print Assumptions C67_keywords_refuted.

(** [out_dims=1]: the names are put on the wrong axes. *)
Theorem C67_out_dims_refuted : exists func args t env xs, traceable nat func /\ Forall (concrete nat) args /\ Forall (regular nat) args /\
  vmap nat id (@bind_dims_torch nat) 1 func args = Ok t /\ leaves_at nat env args = Some xs /\
  ~ related same_arr (leaves_at nat env (leaves t)) (trans nat (torch_vmap nat 1) (func_at nat env func) xs).
Proof.
  exists square_plus, [xs24]. destruct (vmap nat id (@bind_dims_torch nat) 1 square_plus [xs24]) as [t| | | | |] eqn:E; [|exfalso; assert (X : match vmap nat id (@bind_dims_torch nat) 1 square_plus [xs24] with Ok _ => True | _ => False end) by (vm_compute; exact I); rewrite E in X; exact X..].
  exists t, (fun _ => 0). eexists. split; [apply program_traceable, arith_lawful|]. split; [apply xs24_good|]. split; [apply xs24_good|]. split; [reflexivity|]. split; [reflexivity|].
  intros R. match type of R with related _ _ ?x =>
    assert (P : match x with Some [b] => same_list (shape b) [2; 4] = true | _ => False end) by (vm_compute; reflexivity); destruct x as [[|b [|? ?]]|]; try contradiction end.
  assert (Q : match vmap nat id (@bind_dims_torch nat) 1 square_plus [xs24] with Ok t => match leaves_at nat (fun _ => 0) (leaves t) with Some [a] => same_list (shape a) [3; 2] = true | _ => False end | _ => False end) by (vm_compute; reflexivity).
  rewrite E in Q. destruct (leaves_at nat (fun _ => 0) (leaves t)) as [[|a [|? ?]]|]; try contradiction. inversion R as [|? ? ? ? [Sh _] _]; subst. rewrite Sh in Q. revert P Q. unfold same_list.
  destruct (list_eq_dec Nat.eq_dec (shape b) [2; 4]) as [->|]; discriminate.
Qed.
Print Assumptions C67_out_dims_refuted.

(** [argnums] a tuple: no result, though the Jacobian exists. *)
Theorem C67_argnums_refuted : exists func args t, traceable nat func /\ jac nat id (@bind_dims_torch nat) diff 0 func args = Ok t /\ jac_tuple nat id (@bind_dims_torch nat) diff 0 func args = ValueError.
Proof. exists square_plus, [xs2]. destruct C67_jacobian_example as (t & Ht & _). exists t. split; [apply program_traceable, arith_lawful|]. split; [exact Ht|apply is_value_error; vm_compute; reflexivity]. Qed.
Print Assumptions C67_argnums_refuted.

(** [grad] of a function that is a number at each position of the names *)
Theorem C67_grad_refuted : exists func x, traceable nat func /\ (forall env, env 5 < 3 -> exists g, trans nat (torch_grad nat diff 0) (func_at nat env func) [x] = Some [g]) /\
  grad nat id (@bind_dims_torch nat) diff 0 func [VArr nat x] = RuntimeError.
Proof.
  exists weighted, (Arr [2] (hd 0)). split; [apply program_traceable, arith_lawful|]. split; [|vm_compute; reflexivity].
  intros env He. destruct (env 5) as [|[|[|m]]] eqn:E5; [..|lia]; (eexists; unfold torch_grad; cbn [trans]; unfold func_at, weighted; vm_compute; rewrite E5; reflexivity).
Qed.
Print Assumptions C67_grad_refuted.

(** A term as argument: no term is left, as operations leave one. *)
Theorem C67_terms_refuted : exists func args, traceable nat func /\ run_op nat id (fun _ => trans nat (torch_vmap nat 0) (arrays_of nat (@bind_dims_torch nat) func)) 0 args = Ok None /\
  vmap nat id (@bind_dims_torch nat) 0 func args = RuntimeError.
Proof. exists square_plus, [VName nat 3]. split; [apply program_traceable, arith_lawful|]. split; reflexivity. Qed.
Print Assumptions C67_terms_refuted.

(** [jvp] of a function with several results, though each of them alone has one *)
Definition first_two : list (prog nat) := [PArg nat 0; POp nat 0 0 [POp nat 1 0 [PArg nat 0; PArg nat 0]; PGet nat (PArr nat c32) [KName 5]]].
Definition just_run : transform nat := Trans nat (fun F xs => F xs) (fun xs => xs) (fun b => b).
Theorem C67_jvp_refuted : exists ps args, traceable nat (program nat id arith true ps) /\
  (forall p, In p ps -> exists t, jvp nat id (@bind_dims_torch nat) just_run (program nat id arith false [p]) args = Ok [t]) /\
  jvp nat id (@bind_dims_torch nat) just_run (program nat id arith true ps) args = ValueError.
Proof.
  exists first_two, [xs2]. split; [apply program_traceable, arith_lawful|]. split; [|apply is_value_error; vm_compute; reflexivity].
  assert (One : forall x : res (list (tree (val nat))), match x with Ok [t] => true | _ => false end = true -> exists t, x = Ok [t]) by (intros [[|t [|? ?]]| | | | |] H; try discriminate H; eauto).
  intros p [<-|[<-|[]]]; apply One; vm_compute; reflexivity.
Qed.
Print Assumptions C67_jvp_refuted.

(** Without keywords, what [vmap(func)] returns is called as in [C67_vmap]. *)
Theorem C67_keywords_none : forall V num func (args : list (val V)) t, traceable V func -> Forall (concrete V) args -> Forall (regular V) args ->
  vmap_kw V num (@bind_dims_torch V) func args [] = Ok t ->
  forall env xs, leaves_at V env args = Some xs -> related same_arr (leaves_at V env (leaves t)) (trans V (torch_vmap V 0) (func_at V env func) xs).
Proof. exact C67_vmap. Qed.
Print Assumptions C67_keywords_none.
Example C67_keywords_none_example : exists t, vmap_kw nat id (@bind_dims_torch nat) square_plus [xs24] [] = Ok t.
Proof. destruct C67_vmap_example as [_ (t & Ht & _)]. exists t. exact Ht. Qed.
