(** C94: an array with named dimensions describes itself as the array it is at each position of its names. [build e = Ok v] is the
    value a program of array operations gets, [sem env e] what the program means at the position [env] of the names. *)
From Coq Require Import List Bool Arith ZArith Lia.
From Verif Require Import ArrModel ArrSpec ArrProofs ArrNames NopModel NopSpec NopProofs NopLaws AttModel AttSpec AttProofs.
Import ListNotations.

(** No name stands for an array. *)
Definition none_given {V} : nat -> option (arr V) := fun _ => None.

Theorem C94_shape :
  forall V num lib, lawful lib -> forall (e : expr V) v env b,
  build V num lib e = Ok v -> evaluated v -> sem V num lib none_given env e = Some b -> shape_of V v = Got (shape b).
Proof. exact shape_ok. Qed.
Print Assumptions C94_shape.

(** [size], [numel]: the number of positions *)
Theorem C94_size :
  forall V num lib, lawful lib -> forall (e : expr V) v env b,
  build V num lib e = Ok v -> evaluated v -> sem V num lib none_given env e = Some b ->
  exists n, size_of V v = Got n /\ has_elements b n.
Proof. exact size_ok. Qed.
Print Assumptions C94_size.

(** [ndim], [dim()] *)
Theorem C94_ndim :
  forall V num lib, lawful lib -> forall (e : expr V) v env b,
  build V num lib e = Ok v -> evaluated v -> sem V num lib none_given env e = Some b ->
  exists n, ndim_of V v = Got n /\ forall idx, within (shape b) idx -> length idx = n.
Proof. exact ndim_ok. Qed.
Print Assumptions C94_ndim.

(** [size(d)], counted from the end if negative; IndexError just for no such axis *)
Theorem C94_size_at :
  forall V num lib, lawful lib -> forall (e : expr V) v env b d x,
  build V num lib e = Ok v -> evaluated v -> sem V num lib none_given env e = Some b ->
  (size_at V v d = Got x <-> at_position (shape b) d x) /\ (size_at V v d = IndexErr <-> ~ exists y, at_position (shape b) d y).
Proof. exact size_at_ok. Qed.
Print Assumptions C94_size_at.

(** [len] is the size of the first axis; iteration gives as many values, the [i]-th of which is the [i]-th row at every position. *)
Theorem C94_rows :
  forall V num lib, lawful lib -> forall (e : expr V) v env b d rest,
  build V num lib e = Ok v -> evaluated v -> sem V num lib none_given env e = Some b -> shape b = d :: rest ->
  len_of V v = Got d /\ exists ws, iter_of V v = Got ws /\ length ws = d /\
  forall i w, nth_error ws i = Some w -> forall env' b', sem V num lib none_given env' e = Some b' ->
    same (value_at V num lib none_given env' w) (Some (row i b')).
Proof. exact rows_ok. Qed.
Print Assumptions C94_rows.

(** A 2x3 array, [mat23[a()]], one name left with rows of 3 *)
Definition mat23 : arr nat := Arr [2; 3] (fun idx => 10 * hd 0 idx + hd 0 (tl idx)).
Definition rows_e : expr nat := EGet nat (EArr nat mat23) [KName 1].
Example C94_example :
  lawful toy /\ exists v b, build nat id toy rows_e = Ok v /\ evaluated v /\ sem nat id toy none_given (fun _ => 1) rows_e = Some b /\ shape b = [3] /\
  shape_of nat v = Got [3] /\ size_of nat v = Got 3 /\ size_at nat v (-1) = Got 3 /\ size_at nat v 1 = IndexErr /\ len_of nat v = Got 3.
Proof.
  split; [exact toy_lawful|]. do 2 eexists. split; [reflexivity|]. split; [exact Logic.I|]. split; [reflexivity|]. repeat split; vm_compute; reflexivity.
Qed.
Example C94_rows_example : match build nat id toy rows_e with
  | Ok v => match iter_of nat v with Got [r0; r1; r2] => option_map (fun a => at_ a []) (value_at nat id toy none_given (fun _ => 1) r2) = Some 12 | _ => False end
  | _ => False end.
Proof. vm_compute. reflexivity. Qed.

(** *** What differs *)
(** Without axes [len] and iteration fail, but with an IndexError where arrays raise TypeError. *)
Theorem C94_scalars :
  forall V num lib, lawful lib -> forall (e : expr V) v env b,
  build V num lib e = Ok v -> evaluated v -> sem V num lib none_given env e = Some b -> shape b = [] ->
  match v with VArr _ _ => len_of V v = TypeErr /\ iter_of V v = TypeErr | _ => len_of V v = IndexErr /\ iter_of V v = IndexErr end.
Proof. exact scalar_ok. Qed.
Print Assumptions C94_scalars.
Definition one_e : expr nat := EGet nat (EArr nat mat23) [KName 1; KName 2].
Theorem C94_scalar_refuted :
  exists (e : expr nat) v env b, build nat id toy e = Ok v /\ evaluated v /\ sem nat id toy none_given env e = Some b /\
    len_of nat v <> len_of nat (VArr nat b) /\ iter_of nat v <> iter_of nat (VArr nat b).
Proof.
  exists one_e. do 1 eexists. exists (fun _ => 1). eexists. split; [reflexivity|]. split; [exact Logic.I|]. split; [reflexivity|]. split; vm_compute; discriminate.
Qed.
Print Assumptions C94_scalar_refuted.

(** [item] fails, with a ValueError, although there is just one element at each position. *)
Theorem C94_item_refuted :
  exists (e : expr nat) v env b, build nat id toy e = Ok v /\ evaluated v /\ sem nat id toy none_given env e = Some b /\
    item_of nat (VArr nat b) = Got 11 /\ item_of nat v = ValueErr.
Proof. exists one_e. eexists. exists (fun _ => 1). eexists. split; [reflexivity|]. split; [exact Logic.I|]. split; [reflexivity|]. split; vm_compute; reflexivity. Qed.
Print Assumptions C94_item_refuted.

(** [requires_grad_] returns the array under the names: the names are positional axes in what it returns. *)
Theorem C94_requires_grad_refuted :
  exists (e : expr nat) v, build nat id toy e = Ok v /\ evaluated v /\ shape_of nat v = Got [3] /\ shape_of nat (requires_grad_ nat v) = Got [2; 3].
Proof. exists rows_e. eexists. split; [reflexivity|]. split; [exact Logic.I|]. split; reflexivity. Qed.
Print Assumptions C94_requires_grad_refuted.

(** While a function is traced, indexing makes a term without running: every integer in its index is counted as an axis. *)
Theorem C94_traced_differs :
  forall V num lib (a : arr V) key v env b, embedded V a key = Ok v -> value_at V num lib none_given env v = Some b ->
  exists s, shape_of V v = Got s /\ length s = length (shape b) + ints (match v with VGet _ _ dims => dims | _ => [] end).
Proof. exact embedded_rank. Qed.
Print Assumptions C94_traced_differs.
Theorem C94_traced_refuted :
  exists (a : arr nat) key v env b, embedded nat a key = Ok v /\ value_at nat id toy none_given env v = Some b /\ shape_of nat v <> Got (shape b).
Proof. exists mat23, [KName 1; KInt 0]. eexists. exists (fun _ => 1). eexists. split; [reflexivity|]. split; [reflexivity|]. vm_compute. discriminate. Qed.
Print Assumptions C94_traced_refuted.
(** So is a slice, by its full length. *)
Theorem C94_traced_slice_refuted :
  exists (a : arr nat) key v env b, embedded nat a key = Ok v /\ value_at nat id toy none_given env v = Some b /\
    shape_of nat v = Got [3] /\ shape b = [2].
Proof. exists mat23, [KName 1; KSlice (Some 1%Z) None None]. eexists. exists (fun _ => 1). eexists. split; [reflexivity|]. split; [reflexivity|]. split; vm_compute; reflexivity. Qed.
Print Assumptions C94_traced_slice_refuted.
