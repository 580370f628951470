(** Property C64, and C46 for PyTorch: [torch_getitem] indexes as PyTorch does. *)
From Coq Require Import List Bool Arith ZArith Lia.
From Verif Require Import ArrModel ArrSpec TgetModel TgetSpec TgetProofs.
Import ListNotations.

(** ** C64 *)

(** The result is [x[key]], for all shapes of [x] and of the index tensors and all keys with an index tensor.
    Missing: slices of parts of axes, lists, and integers apart from tensors that have axes. *)
Theorem C64_indexed_partial : forall tens V (lib : arr V -> list kelem -> res (arr V)) (x r : arr V) key,
  existsb (is_tensor tens) key = true -> simple tens key -> settled tens x key ->
  torch_getitem tens lib x key = Ok r -> indexed tens x key r.
Proof. exact @getitem_indexed. Qed.
Print Assumptions C64_indexed_partial.

(** There is a result whenever indexing has one. *)
Theorem C64_fits_partial : forall tens V (lib : arr V -> list kelem -> res (arr V)) (x : arr V) key,
  existsb (is_tensor tens) key = true -> simple tens key -> fits tens x key ->
  exists r, torch_getitem tens lib x key = Ok r.
Proof. exact @getitem_fits. Qed.
Print Assumptions C64_fits_partial.

Lemma ex_conj {A} (P : Prop) (Q : A -> Prop) : P /\ (exists a, Q a) -> exists a, P /\ Q a.
Proof. intros [p [a q]]. now exists a. Qed.
Lemma some_conj {A} (o : option A) (P : A -> Prop) : match o with Some y => P y | None => False end -> exists y, o = Some y /\ P y.
Proof. destruct o as [y|]; [|contradiction]. now exists y. Qed.
Definition cube : arr nat := Arr [2; 3; 4] (fun idx => match idx with [i; j; k] => 100 * i + 10 * j + k | _ => 0 end).
Definition vec (l : list Z) : arr Z := Arr [length l] (fun idx => nth (hd 0 idx) l 0%Z).
Definition num (z : Z) : arr Z := Arr [] (fun _ => z).
Definition none {V} (x : arr V) (key : list kelem) : res (arr V) := RuntimeError.
(** [cube[None, :, tensor([2, -1]), 1]] *)
Definition some_tens (n : nat) : index := match n with 0 => Tensor (vec [2; -1]%Z) | 1 => Tensor (num 1) | _ => Listed (vec [0; 1]%Z) end.
Example C64_example : let key := [KNone; KAll; KName 0; KInt 1] in
  existsb (is_tensor some_tens) key = true /\ simple some_tens key /\ settled some_tens cube key /\ fits some_tens cube key /\
  exists r, torch_getitem some_tens none cube key = Ok r /\ shape r = [1; 2; 2] /\ at_ r [0; 1; 0] = 121.
Proof.
  cbn zeta. split; [reflexivity|]. split; [|split; [|split]].
  - intros k [<-|[<-|[<-|[<-|[]]]]]; try exact Logic.I; [reflexivity|eexists; reflexivity].
  - right. right. reflexivity.
  - split; [cbn; lia|]. split; [cbn; lia|]. exists [2]. split; [reflexivity|]. intros b W. inversion W as [|d s i b' I W']. subst. inversion W'. subst. destruct i as [|[|i]]; [discriminate|discriminate|lia].
  - apply ok_some. vm_compute. split; reflexivity.
Qed.

(** A slice of a part of an axis after an index tensor leaves an axis of size one behind: [cube[tensor(1), tensor(1), 1:3]]
    has shape [[2, 1, 1]]. *)
Theorem C64_slice_refuted : exists tens key (x r : arr nat), (forall n, rank tens n = 0) /\ fits tens x key /\
  torch_getitem tens none x key = Ok r /\ shape r = [2; 1; 1] /\ ~ indexed tens x key r.
Proof.
  exists (fun _ => Tensor (num 1)), [KName 1; KName 1; KSlice (Some 1%Z) (Some 3%Z) None], cube.
  destruct (wrong_shape (fun _ => Tensor (num 1)) none cube [KName 1; KName 1; KSlice (Some 1%Z) (Some 3%Z) None] [] [] [2; 1; 1]) as [r H]; [reflexivity|constructor|vm_compute; reflexivity|vm_compute; discriminate|].
  exists r. split; [reflexivity|]. split; [|exact H].
  split; [cbn; lia|]. split; [cbn; lia|]. exists []. split; [reflexivity|]. intros b W. inversion W. discriminate.
Qed.
Print Assumptions C64_slice_refuted.

(** Two slices of parts of axes come back transposed: [cube[0:2, 1:3, tensor(1)]]. *)
Theorem C64_transposed_refuted : exists tens key (x r : arr nat), (forall n, rank tens n = 0) /\ torch_getitem tens none x key = Ok r /\
  exists y, index_full_arr (fun _ => 0) x (at_position tens [] key) = Some y /\ shape r = shape y /\ at_ r [0; 1] = at_ y [1; 0] /\ at_ r [0; 1] <> at_ y [0; 1].
Proof.
  exists (fun _ => Tensor (num 1)), [KSlice (Some 0%Z) (Some 2%Z) None; KSlice (Some 1%Z) (Some 3%Z) None; KName 1], cube. apply ex_conj. split; [reflexivity|]. apply ok_some.
  apply some_conj. vm_compute. split; [reflexivity|]. split; [reflexivity|]. discriminate.
Qed.
Print Assumptions C64_transposed_refuted.

(** A bound counted from the end is taken as a number: [cube[-1:, :, tensor(1)]] has three rows. *)
Theorem C64_negative_refuted : exists tens key (x r : arr nat), (forall n, rank tens n = 0) /\ torch_getitem tens none x key = Ok r /\
  shape r = [3; 3] /\ ~ indexed tens x key r.
Proof.
  exists (fun _ => Tensor (num 1)), [KSlice (Some (-1)%Z) None None; KAll; KName 1], cube. apply ex_conj. split; [reflexivity|].
  apply (wrong_shape (fun _ => Tensor (num 1)) none cube [KSlice (Some (-1)%Z) None None; KAll; KName 1] [] []); [reflexivity|constructor|vm_compute; reflexivity|vm_compute; discriminate].
Qed.
Print Assumptions C64_negative_refuted.

(** A bound past the end is an error: [cube[0:9, :, tensor(1)]]. *)
Theorem C64_past_end_refuted : exists tens key (x : arr nat), (forall n, rank tens n = 0) /\ fits tens x key /\ torch_getitem tens none x key = IndexError.
Proof.
  exists (fun _ => Tensor (num 1)), [KSlice (Some 0%Z) (Some 9%Z) None; KAll; KName 1], cube. split; [reflexivity|]. split.
  - split; [cbn; lia|]. split; [cbn; lia|]. exists []. split; [reflexivity|]. intros b W. inversion W. discriminate.
  - vm_compute. reflexivity.
Qed.
Print Assumptions C64_past_end_refuted.

(** An integer apart from a tensor moves the tensor's axes to the front: [cube[0, :, tensor([2, -1])]]. *)
Theorem C64_integer_refuted : exists tens key (x r : arr nat), simple tens key /\ torch_getitem tens none x key = Ok r /\ shape r = [2; 3] /\ ~ indexed tens x key r.
Proof.
  exists some_tens, [KInt 0; KAll; KName 0], cube. apply ex_conj. split; [intros k [<-|[<-|[<-|[]]]]; try exact Logic.I; [reflexivity|eexists; reflexivity]|].
  apply (wrong_shape some_tens none cube [KInt 0; KAll; KName 0] [2] [0]); [reflexivity|exact (within_cons 2 [] 0 [] (Nat.lt_0_succ 1) within_nil)|vm_compute; reflexivity|vm_compute; discriminate].
Qed.
Print Assumptions C64_integer_refuted.

(** A list beside a tensor is not paired with it: [cube[:, tensor([2, -1]), [0, 1]]] has shape [[2, 2, 1, 2]]. *)
Theorem C64_list_refuted : exists tens key (x r : arr nat), torch_getitem tens none x key = Ok r /\ shape r = [2; 2; 1; 2] /\ ~ indexed tens x key r.
Proof.
  exists some_tens, [KAll; KName 0; KName 2], cube.
  apply (wrong_shape some_tens none cube [KAll; KName 0; KName 2] [2] [0]); [reflexivity|exact (within_cons 2 [] 0 [] (Nat.lt_0_succ 1) within_nil)|vm_compute; reflexivity|vm_compute; discriminate].
Qed.
Print Assumptions C64_list_refuted.

(** ** C46 for PyTorch *)

(** Once the names have values, [torch_getitem] gives the value of NumPy's rules. Missing: slices of parts of axes. *)
Theorem C46_torch_partial : forall V (lib : arr V -> list kelem -> res (arr V)) env (x : arr V) key,
  existsb is_name key = true -> (forall a b c, In (KSlice a b c) key -> KSlice a b c = KAll) ->
  match torch_getitem (scalar env) lib x key with
  | Ok r => same (Some r) (index_full_arr env x key)
  | _ => index_full_arr env x key = None
  end.
Proof. exact @getitem_named. Qed.
Print Assumptions C46_torch_partial.

Example C46_torch_example : exists r, torch_getitem (scalar (fun _ => 1)) none cube [KName 0; KNone; KInt (-1); KEll] = Ok r /\ shape r = [1; 4] /\ at_ r [0; 3] = 123.
Proof. apply ok_some. vm_compute. split; reflexivity. Qed.

(** [cube[a(), b(), 1:3]] has an axis too many. *)
Theorem C46_torch_slice_refuted : forall lib, exists env key (x r : arr nat),
  torch_getitem (scalar env) lib x key = Ok r /\ ~ same (Some r) (index_full_arr env x key).
Proof.
  intros lib. exists (fun _ => 1), [KName 0; KName 1; KSlice (Some 1%Z) (Some 3%Z) None], cube. apply ok_some. vm_compute. intros [H _]. discriminate.
Qed.
Print Assumptions C46_torch_slice_refuted.
