(** C65: operations on arrays with named dimensions act at each position of the names. *)
From Coq Require Import List Bool Arith ZArith.
From Verif Require Import ArrModel ArrSpec NopModel NopSpec NopProofs NopLaws.
Import ListNotations.

Definition no_arrays {V} (n : nat) : option (arr V) := None.
Definition vec : arr nat := Arr [3] (fun idx => 10 * hd 0 idx).
Definition mat : arr nat := Arr [3; 2] (fun idx => 100 * nth 0 idx 0 + nth 1 idx 0).
Definition one : arr nat := Arr [] (fun _ => 1).

(** A program of library functions and indexing, run on arrays with and without names, has at all positions of the names the
    value of the program run on the arrays at these positions (a result that is still a term included). *)
Theorem C65_pointwise : forall V num lib, lawful lib -> forall (e : expr V) v, build V num lib e = Ok v ->
  forall env, same (value_at V num lib no_arrays env v) (sem V num lib no_arrays env e).
Proof. exact pointwise. Qed.
Print Assumptions C65_pointwise.

(** [add(mat[a()], mat[b()])[1]] with two names; the second result of a function with two *)
Example C65_example : let e := EOp nat 0 0 [EGet nat (EOp nat 0 0 [EGet nat (EArr nat mat) [KName 1]; EGet nat (EArr nat mat) [KName 2]]) [KInt 1]; EName nat 2] in
  lawful toy /\ exists a, build nat id toy e = Ok (VGet nat a [KName 1; KName 2]) /\
  same (sem nat id toy no_arrays (fun n => n) e) (Some (Arr [] (fun _ => 304))) /\ ~ same (index_arr (fun n => n) a [KName 1; KName 2]) None.
Proof.
  cbn zeta. split; [exact toy_lawful|]. eexists. split; [vm_compute; reflexivity|]. split; [vm_compute; split; [reflexivity|intros idx W; inversion W; reflexivity]|vm_compute; auto].
Qed.
Example C65_tuple_example : exists a, build nat id toy (EOp nat 1 1 [EGet nat (EArr nat mat) [KName 1]; EArr nat one]) = Ok (VGet nat a [KName 1; KAll]) /\ at_ a [2; 1] = 402.
Proof. eexists. split; vm_compute; reflexivity. Qed.

(** A program with free variables, run and then evaluated with arrays for the variables, has the value of the program
    for these arrays. *)
Theorem C65_evaluate : forall V num lib, lawful lib -> forall rho (e : expr V) v w, apart V rho e ->
  build V num lib e = Ok v -> evaluate V num lib rho v = Ok w ->
  forall env, same (value_at V num lib no_arrays env w) (sem V num lib rho env e).
Proof. exact later. Qed.
Print Assumptions C65_evaluate.

(** [add(y(), mat[a()])] is a term until [y] is a row *)
Example C65_evaluate_example : let e := EOp nat 0 0 [EName nat 9; EGet nat (EArr nat mat) [KName 1]] in
  let rho n := if Nat.eqb n 9 then Some (Arr [2] (fun idx => 7 + hd 0 idx)) else None in
  apart nat rho e /\ exists v a, build nat id toy e = Ok v /\ ~ evaluated v /\ evaluate nat id toy rho v = Ok (VGet nat a [KName 1; KAll]) /\ at_ a [2; 1] = 209.
Proof.
  cbn zeta. split; [|do 2 eexists; split; [vm_compute; reflexivity|]; split; [cbn; auto|split; vm_compute; reflexivity]].
  cbn. split; [exact Logic.I|]. split; [|exact Logic.I]. split; [exact Logic.I|]. intros n [E|[]]. injection E as <-. reflexivity.
Qed.

(** An operation on arrays with names (or names among these) is evaluated if it has a value somewhere, and has all their names. *)
Theorem C65_named : forall V num lib, lawful lib -> forall f i (args : list (val V)) env, named_args V args ->
  call V lib f i (values V num lib no_arrays env args) <> None ->
  exists a dims, apply_op V num lib f i args = Ok (VGet V a dims) /\ forall n d, indexes (shape a) dims n d <-> exists v, In v args /\ has_dim v n d.
Proof. exact stays. Qed.
Print Assumptions C65_named.

Example C65_named_example : named_args nat [VGet nat vec [KName 1]; VName nat 1] /\
  call nat toy 0 0 (values nat id toy no_arrays (fun _ => 2) [VGet nat vec [KName 1]; VName nat 1]) <> None.
Proof.
  split; [|vm_compute; discriminate]. assert (D : indexes [3] [KName 1] 1 3) by (exists 0; auto).
  assert (U : forall n d, indexes [3] [KName 1] n d -> n = 1 /\ d = 3) by (intros n d ([|[|i]] & A & B); inversion A; inversion B; auto).
  split; [exists (VGet nat vec [KName 1]), 1, 3; cbn; auto|]. split.
  - intros v n d w d' [<-|[<-|[]]] A [<-|[<-|[]]] B; cbn in A, B; try contradiction. apply U in A, B. destruct A, B. congruence.
  - intros v [<-|[<-|[]]]; [|exists (VGet nat vec [KName 1]), 3; cbn; auto]. split; [split; [reflexivity|intros k [<-|[]]; reflexivity]|]. constructor; [right; exists 1; reflexivity|constructor].
Qed.

(** A name with two sizes among the arguments is an error. *)
Theorem C65_conflict : forall V num lib f i (args : list (val V)) v w n d d', forallb (simple V) args = true ->
  In v args -> has_dim v n d -> In w args -> has_dim w n d' -> d <> d' -> apply_op V num lib f i args = ValueError.
Proof. exact conflict. Qed.
Print Assumptions C65_conflict.

Example C65_conflict_example : apply_op nat id toy 0 0 [VGet nat vec [KName 1]; VGet nat (Arr [2] (fun _ => 0)) [KName 1]] = ValueError.
Proof. reflexivity. Qed.

(** Evaluation needs more than sizes for all names: [vec[a()] + (a() + 1)] stays a term, whatever is done to it, although [a] has size 3.
    [(vec[a()] + a()) + 1] is an array. *)
Theorem C65_sized_term_refuted : lawful toy /\ exists (e e' : expr nat) v,
  build nat id toy e = Ok v /\ ~ evaluated v /\ (exists w, evaluate nat id toy no_arrays v = Ok w /\ ~ evaluated w) /\
  (exists m, sizes_val nat v [] = Ok m /\ forall n, In (Dim n) (fvs nat v) -> exists d, lookup m n = Some d) /\
  (exists v', build nat id toy e' = Ok v' /\ evaluated v') /\ forall env, same (sem nat id toy no_arrays env e') (sem nat id toy no_arrays env e).
Proof.
  split; [exact toy_lawful|]. exists (EOp nat 0 0 [EGet nat (EArr nat vec) [KName 1]; EOp nat 0 0 [EName nat 1; EArr nat one]]),
    (EOp nat 0 0 [EOp nat 0 0 [EGet nat (EArr nat vec) [KName 1]; EName nat 1]; EArr nat one]).
  exists (VOp nat 0 0 [VGet nat (reshape vec [3]) [KName 1]; VOp nat 0 0 [VName nat 1; VArr nat one]]). split; [reflexivity|]. split; [cbn; auto|].
  split; [exists (VOp nat 0 0 [VGet nat (reshape (reshape vec [3]) [3]) [KName 1]; VOp nat 0 0 [VName nat 1; VArr nat one]]); split; [reflexivity|cbn; auto]|].
  split; [exists [(1, 3)]; split; [reflexivity|]|split; [apply ok_some; vm_compute; exact Logic.I|]].
  - cbn. intros n [H|[H|[H|[H|[]]]]]; try discriminate H; injection H as <-; exists 3; reflexivity.
  - intros env. cbn. unfold index_full_arr, index_full. cbn. destruct (env 1 <=? 2); cbn; [|exact Logic.I]. split; [reflexivity|]. cbn. intros idx _. unfold id. now rewrite !Nat.add_assoc.
Qed.
Print Assumptions C65_sized_term_refuted.
