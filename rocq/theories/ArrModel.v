(** Model of named and positional indexing: [_desugar_tensor_index]
    (effectful/internals/tensor_utils.py), [sizesof], [_partial_eval], [bind_dims],
    [unbind_dims] and indexing (effectful/handlers/torch.py,
    effectful/handlers/jax/_handlers.py, effectful/handlers/jax/_terms.py). *)
From Coq Require Import List Bool Arith ZArith.
Import ListNotations.

(** Elements of an index expression. [KName n] is the term [n()] of a named dimension.
    Lists and tensors as index elements are not modelled. *)
Inductive kelem :=
| KNone | KEll
| KInt (z : Z)
| KSlice (start stop step : option Z)
| KName (n : nat).

Definition KAll : kelem := KSlice None None None.

Definition is_none (k : kelem) : bool := match k with KNone => true | _ => false end.
Definition is_ell (k : kelem) : bool := match k with KEll => true | _ => false end.

(** Python list subscripts and slices, with negative positions counted from the end. *)
Definition py_get {A} (l : list A) (i : Z) : option A :=
  if (i <? 0)%Z then (if (i + Z.of_nat (length l) <? 0)%Z then None else nth_error l (Z.to_nat (i + Z.of_nat (length l))))
  else nth_error l (Z.to_nat i).
Definition py_bound {A} (l : list A) (i : Z) : nat :=
  if (i <? 0)%Z then Z.to_nat (i + Z.of_nat (length l)) else Nat.min (Z.to_nat i) (length l).
Definition py_slice {A} (l : list A) (i j : Z) : list A :=
  let a := py_bound l i in let b := py_bound l j in firstn (b - a) (skipn a l).

Inductive res (A : Type) := Ok (a : A) | IndexError | AssertionError | ValueError | RuntimeError | NotHandled.
Arguments Ok {A} a. Arguments IndexError {A}. Arguments AssertionError {A}.
Arguments ValueError {A}. Arguments RuntimeError {A}. Arguments NotHandled {A}.

(** [extra_dims] (tensor_utils.py:5-6) *)
Definition extra_dims (key : list kelem) : Z := Z.of_nat (length (filter is_none key)).

(** The loop over [enumerate(key)] (tensor_utils.py:12-30); [pre] is [key[:i]], [post]
    is [key[i:]]. *)
Fixpoint desugar_loop (shape : list nat) (pre post : list kelem) (nsh : list nat) (nkey : list kelem)
  : res (list nat * list kelem) :=
  match post with
  | [] => Ok (nsh, nkey)
  | k :: rest =>
      match k with
      | KNone => desugar_loop shape (pre ++ [k]) rest (nsh ++ [1]) (nkey ++ [KAll])
      | KEll =>
          if existsb is_ell rest then AssertionError
          else
            let pre_dims := (Z.of_nat (length pre) - extra_dims pre)%Z in
            let elided := (Z.of_nat (length shape) - pre_dims - (Z.of_nat (length rest) - extra_dims rest))%Z in
            desugar_loop shape (pre ++ [k]) rest
              (nsh ++ py_slice shape pre_dims (pre_dims + elided)) (nkey ++ repeat KAll (Z.to_nat elided))
      | _ =>
          match py_get shape (Z.of_nat (length nsh) - extra_dims pre) with
          | Some d => desugar_loop shape (pre ++ [k]) rest (nsh ++ [d]) (nkey ++ [k])
          | None => IndexError
          end
      end
  end.

(** [_desugar_tensor_index] (tensor_utils.py:1-32) *)
Definition desugar (shape : list nat) (key : list kelem) : res (list nat * list kelem) :=
  let key := if existsb is_ell key then key else key ++ [KEll] in
  desugar_loop shape [] key [] [].

(** ** The array library *)

(** A row-major array: its shape and its elements. *)
Record arr (V : Type) := Arr { shape : list nat; at_ : list nat -> V }.
Arguments Arr {V}. Arguments shape {V}. Arguments at_ {V}.

Definition prod (sh : list nat) : nat := fold_right Nat.mul 1 sh.
Fixpoint ravel (sh idx : list nat) : nat :=
  match sh, idx with _ :: sh', i :: idx' => i * prod sh' + ravel sh' idx' | _, _ => 0 end.
Fixpoint unravel (sh : list nat) (n : nat) : list nat :=
  match sh with [] => [] | _ :: sh' => n / prod sh' :: unravel sh' (n mod prod sh') end.

(** [torch.reshape], [jnp.reshape] to a shape of as many elements. *)
Definition reshape {V} (a : arr V) (sh : list nat) : arr V :=
  Arr sh (fun idx => at_ a (unravel (shape a) (ravel sh idx))).

(** [Tensor.permute], [jnp.transpose]: axis [i] of the result is axis [perm[i]]. An error
    unless [perm] lists each axis once. *)
Fixpoint position (x : nat) (l : list nat) : nat :=
  match l with [] => 0 | y :: l' => if Nat.eqb x y then 0 else S (position x l') end.
Definition is_perm (n : nat) (p : list nat) : bool :=
  Nat.eqb (length p) n && forallb (fun i => existsb (Nat.eqb i) p) (seq 0 n).
Definition permute {V} (a : arr V) (p : list nat) : res (arr V) :=
  if is_perm (length (shape a)) p
  then Ok (Arr (map (fun i => nth i (shape a) 0) p)
               (fun idx => at_ a (map (fun j => nth (position j p) idx 0) (seq 0 (length p)))))
  else RuntimeError.

(** One axis: an integer drops it, a slice (with positive step) keeps part of it. *)
Inductive sel := Drop (i : nat) | Keep (d : nat) (f : nat -> nat).
Definition clamp (d : nat) (z : Z) : nat :=
  if (z <? 0)%Z then Z.to_nat (z + Z.of_nat d) else Nat.min (Z.to_nat z) d.
Definition pick (env : nat -> nat) (k : kelem) (d : nat) : option sel :=
  match k with
  | KInt z =>
      if ((- Z.of_nat d <=? z) && (z <? Z.of_nat d))%Z
      then Some (Drop (Z.to_nat (if (z <? 0)%Z then z + Z.of_nat d else z))) else None
  | KName n => if env n <? d then Some (Drop (env n)) else None
  | KSlice start stop step =>
      let s := match step with Some s => s | None => 1%Z end in
      if (s <=? 0)%Z then None
      else
        let a := match start with Some z => clamp d z | None => 0 end in
        let b := match stop with Some z => clamp d z | None => d end in
        Some (Keep ((b - a + (Z.to_nat s - 1)) / Z.to_nat s) (fun i => a + i * Z.to_nat s))
  | _ => None
  end.

(** Indexing with one element per axis, names standing for the numbers in [env]. *)
Fixpoint index_axes (env : nat -> nat) (sh : list nat) (key : list kelem) : option (list nat * (list nat -> list nat)) :=
  match sh, key with
  | [], [] => Some ([], fun _ => [])
  | d :: sh', k :: key' =>
      match pick env k d, index_axes env sh' key' with
      | Some (Drop i), Some (s, g) => Some (s, fun idx => i :: g idx)
      | Some (Keep d' f), Some (s, g) => Some (d' :: s, fun idx => f (hd 0 idx) :: g (tl idx))
      | _, _ => None
      end
  | _, _ => None
  end.

Definition index_arr {V} (env : nat -> nat) (a : arr V) (key : list kelem) : option (arr V) :=
  match index_axes env (shape a) key with
  | Some (s, g) => Some (Arr s (fun idx => at_ a (g idx)))
  | None => None
  end.

(** ** Named dimensions *)

(** An array, an array indexed with names ([_EagerTensorTerm], [_EagerArrayTerm]), or some
    other term. *)
Inductive tval (V : Type) := TArr (a : arr V) | TGet (a : arr V) (dims : list kelem) | TLazy.
Arguments TArr {V}. Arguments TGet {V}. Arguments TLazy {V}.

Fixpoint lookup (m : list (nat * nat)) (n : nat) : option nat :=
  match m with [] => None | (x, d) :: m' => if Nat.eqb x n then Some d else lookup m' n end.

(** [sizes[op] = size] after the check (torch.py:66-70; update_sizes, _handlers.py:58-64).
    A Python dictionary keeps the place of the first assignment. *)
Definition add_size (m : list (nat * nat)) (n d : nat) : res (list (nat * nat)) :=
  match lookup m n with
  | Some d' => if Nat.eqb d' d then Ok m else ValueError
  | None => Ok (m ++ [(n, d)])
  end.

(** The loop over the desugared key (torch.py:59-70) *)
Fixpoint add_names (sh : list nat) (key : list kelem) (m : list (nat * nat)) : res (list (nat * nat)) :=
  match sh, key with
  | d :: sh', KName n :: key' => match add_size m n d with Ok m' => add_names sh' key' m' | e => e end
  | _ :: sh', _ :: key' => add_names sh' key' m
  | _, _ => Ok m
  end.

(** [sizesof] of an array or an array indexed with names. *)
Definition sizes1 {V} (v : tval V) : res (list (nat * nat)) :=
  match v with TGet a dims => add_names (shape a) dims [] | _ => Ok [] end.

Fixpoint index_of (x : nat) (l : list nat) : option nat :=
  match l with [] => None | y :: l' => if Nat.eqb x y then Some 0 else option_map S (index_of x l') end.

(** Values of names taken from a list of positions. *)
Definition assign (env : nat -> nat) (names is : list nat) (n : nat) : nat :=
  match index_of n names with Some i => nth i is (env n) | None => env n end.

(** [_partial_eval] of an indexed array (torch.py:83-130, _handlers.py:82-120): the
    values for all positions of the sized names, in row-major order, put together by
    [vmap] along a new first axis, reshaped to one axis per name and indexed by the names.
    An index error inside is an error. Random operations are not modelled. Inside, arrays are indexed by the rules of
    NumPy ([jax_getitem], _handlers.py:178-184); what [torch_getitem] does instead is in TgetModel. *)
Definition partial_eval {V} (a : arr V) (dims : list kelem) : res (tval V) :=
  match add_names (shape a) dims [] with
  | Ok [] => Ok (TGet a dims)
  | Ok sized =>
      let names := map fst sized in
      let sizes := map snd sized in
      let run j := index_axes (assign (fun _ => 0) names (unravel sizes j)) (shape a) dims in
      match run 0 with
      | Some (rest, _) =>
          let flat := Arr (prod sizes :: rest)
            (fun idx => match run (hd 0 idx) with Some (_, g) => at_ a (g (tl idx)) | None => at_ a [] end) in
          Ok (TGet (reshape flat (sizes ++ rest)) (map KName names ++ repeat KAll (length rest)))
      | None => IndexError
      end
  | ValueError => ValueError
  | _ => RuntimeError
  end.

Definition is_name (k : kelem) : bool := match k with KName _ => true | _ => false end.

(** Indexing an array (torch_getitem and its wrapper, torch.py:228-318; jax_getitem and
    its wrapper, _handlers.py:123-157, 178-184): without names the array is
    indexed; with names only, the term is kept; otherwise it is partially evaluated. The
    term's array is reshaped (torch.py:496-511, _terms.py:408-411). *)
Definition getitem {V} (a : arr V) (key : list kelem) : res (tval V) :=
  match key with
  | [] => Ok (TArr a)
  | _ =>
  match desugar (shape a) key with
  | Ok (nsh, nkey) =>
      if existsb is_name key then
        if forallb is_name key then match add_names nsh nkey [] with Ok _ => Ok (TGet (reshape a nsh) nkey) | ValueError => ValueError | _ => RuntimeError end
        else partial_eval (reshape a nsh) nkey
      else match index_arr (fun _ => 0) (reshape a nsh) nkey with Some r => Ok (TArr r) | None => IndexError end
  | IndexError => IndexError
  | AssertionError => AssertionError
  | _ => RuntimeError
  end
  end.

Definition names_of (dims : list kelem) : list (option nat) :=
  map (fun k => match k with KName n => Some n | _ => None end) dims.
Definition mem (n : nat) (l : list nat) : bool := existsb (Nat.eqb n) l.
Fixpoint nodupb (l : list nat) : bool := match l with [] => true | x :: l' => negb (mem x l') && nodupb l' end.

(** [dim_ops.index(o)] *)
Fixpoint oindex (n : nat) (l : list (option nat)) : option nat :=
  match l with
  | [] => None
  | Some m :: l' => if Nat.eqb n m then Some 0 else option_map S (oindex n l')
  | None :: l' => option_map S (oindex n l')
  end.

(** Positions of the dimensions not bound. *)
Fixpoint reindex (i : nat) (names : list nat) (dims : list kelem) : list nat :=
  match dims with
  | [] => []
  | KName n :: dims' => if mem n names then reindex (S i) names dims' else i :: reindex (S i) names dims'
  | _ :: dims' => i :: reindex (S i) names dims'
  end.

(** The common end of both versions (torch.py:182-202, _terms.py:474-501) *)
Definition bind_core {V} (a : arr V) (dims : list kelem) (names : list nat) : res (tval V) :=
  if forallb (fun n => match oindex n (names_of dims) with Some _ => true | None => false end) names then
    let re := reindex 0 names dims in
    let perm := map (fun n => match oindex n (names_of dims) with Some i => i | None => 0 end) names
                ++ re ++ seq (length dims) (length (shape a) - length dims) in
    match permute a perm with
    | Ok t => getitem t (repeat KAll (length names) ++ map (fun i => nth i dims KAll) re)
    | _ => RuntimeError
    end
  else NotHandled.

(** [_bind_dims_tensor] (torch.py:164-202) *)
Definition bind_dims_torch {V} (v : tval V) (names : list nat) : res (tval V) :=
  if negb (nodupb names) then ValueError
  else
    match sizes1 v with
    | Ok sizes =>
        if negb (existsb (fun n => mem n (map fst sizes)) names) then Ok v
        else match v with TGet a dims => bind_core a dims names | _ => NotHandled end
    | ValueError => ValueError
    | _ => RuntimeError
    end.

(** [_bind_dims_array] (_terms.py:434-501). [NotHandled] leaves a term. *)
Definition bind_dims_jax {V} (v : tval V) (names : list nat) : res (tval V) :=
  match v with
  | TArr a => Ok (TArr a)
  | TLazy => match names with [] => Ok TLazy | _ => NotHandled end
  | TGet a dims =>
      match partial_eval a dims with
      | Ok (TGet a' dims') => match names with [] => Ok (TGet a' dims') | _ => bind_core a' dims' names end
      | r => r
      end
  end.

(** [_unbind_dims_tensor] (torch.py:220-225), [_unbind_dims_array] (_terms.py:504-507) *)
Definition unbind_dims {V} (a : arr V) (names : list nat) : res (tval V) := getitem a (map KName names).

(** ** Sizes of the named dimensions of an expression *)

(** Array expressions: an array, an array with an index element per axis (as
    [_EagerTensorTerm] and [_EagerArrayTerm] hold it), indexing, any other operation. *)
Inductive texpr :=
| XArr (sh : list nat)
| XEager (sh : list nat) (dims : list kelem)
| XGet (x : texpr) (key : list kelem)
| XOp (args : list texpr).

(** What the rebuilt expression is (_embed_tensor, torch.py:321-335; _embed_array,
    _terms.py:59-68): an array, an indexed array, some other term. *)
Inductive tshape := SArr (sh : list nat) | SEager (sh : list nat) (dims : list kelem) | SOther.

(** The [shape] of an indexed array (torch.py:544-547, _terms.py:417-423) *)
Fixpoint eager_shape (sh : list nat) (dims : list kelem) : list nat :=
  match sh, dims with
  | _ :: sh', KName _ :: dims' => eager_shape sh' dims'
  | d :: sh', _ :: dims' => d :: eager_shape sh' dims'
  | _, _ => []
  end.

Definition bindr {A B} (x : res A) (f : A -> res B) : res B :=
  match x with
  | Ok a => f a | IndexError => IndexError | AssertionError => AssertionError
  | ValueError => ValueError | RuntimeError => RuntimeError | NotHandled => NotHandled
  end.

(** [_torch_getitem_sizeof] and [defdata] (torch.py:54-74, 321-335, 496-511) *)
Definition get_torch (v : tshape) (key : list kelem) (m : list (nat * nat)) : res (tshape * list (nat * nat)) :=
  match v with
  | SArr sh =>
      bindr (desugar sh key) (fun '(nsh, nkey) =>
      bindr (add_names nsh nkey m) (fun m' => Ok (match key with [] => SOther | _ => SEager nsh nkey end, m')))
  | SEager sh dims =>
      bindr (desugar (eager_shape sh dims) key) (fun '(nsh, nkey) =>
      bindr (add_names nsh nkey m) (fun m' => Ok (SOther, m')))
  | SOther => Ok (SOther, m)
  end.

(** The loop over the key as it stands (_handlers.py:66-71). *)
Fixpoint add_raw (i : nat) (sh : list nat) (key : list kelem) (m : list (nat * nat)) : res (list (nat * nat)) :=
  match key with
  | [] => Ok m
  | KName n :: key' =>
      match nth_error sh i with
      | Some d => bindr (add_size m n d) (add_raw (S i) sh key')
      | None => IndexError
      end
  | _ :: key' => add_raw (S i) sh key' m
  end.

(** [_getitem_sizeof] and [defdata] (_handlers.py:66-71, _terms.py:59-68, 408-411) *)
Definition get_jax (v : tshape) (key : list kelem) (m : list (nat * nat)) : res (tshape * list (nat * nat)) :=
  match v with
  | SArr sh => bindr (add_raw 0 sh key m) (fun m' => bindr (desugar sh key) (fun '(nsh, nkey) => Ok (SEager nsh nkey, m')))
  | SEager sh dims => bindr (add_raw 0 (eager_shape sh dims) key m) (fun m' => Ok (SOther, m'))
  | SOther => Ok (SOther, m)
  end.

(** [sizesof] (torch.py:37-80, _handlers.py:42-79): evaluation from the inside out, each
    indexing adding to the sizes. *)
Fixpoint sizes_expr (get : tshape -> list kelem -> list (nat * nat) -> res (tshape * list (nat * nat)))
    (e : texpr) (m : list (nat * nat)) : res (tshape * list (nat * nat)) :=
  match e with
  | XArr sh => Ok (SArr sh, m)
  | XEager sh dims => bindr (get (SArr sh) dims m) (fun '(_, m') => Ok (SEager sh dims, m'))
  | XGet x key => bindr (sizes_expr get x m) (fun '(v, m') => get v key m')
  | XOp args =>
      bindr ((fix all es m := match es with [] => Ok m | e :: es' => bindr (sizes_expr get e m) (fun '(_, m') => all es' m') end) args m)
        (fun m' => Ok (SOther, m'))
  end.

Definition sizesof_torch (e : texpr) : res (list (nat * nat)) := bindr (sizes_expr get_torch e []) (fun '(_, m) => Ok m).
Definition sizesof_jax (e : texpr) : res (list (nat * nat)) := bindr (sizes_expr get_jax e []) (fun '(_, m) => Ok m).
