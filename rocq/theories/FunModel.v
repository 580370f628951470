(** Model of functions of arrays whose results have named dimensions, passed to the library's function transformations:
    [_indexed_func_wrapper], [jit] (effectful/handlers/jax/_handlers.py 229-270), [_indexed_func_wrapper], [vmap],
    [jacfwd], [jacrev], [grad], [hessian], [jvp] (effectful/handlers/torch.py 593-676, 715-722).
    Not modelled: dtypes, trees of results deeper than one level, results that are not arrays. *)
From Coq Require Import List Bool Arith ZArith.
From Verif Require Import ArrModel NopModel.
Import ListNotations.

(** A pytree: a leaf, or a list (tuple) of leaves *)
Record tree (A : Type) := Tree { is_node : bool; leaves : list A }.
Arguments Tree {A}. Arguments is_node {A}. Arguments leaves {A}.
Fixpoint rmap {A B} (f : A -> res B) (l : list A) : res (list B) :=
  match l with [] => Ok [] | x :: l' => bindr (f x) (fun y => bindr (rmap f l') (fun ys => Ok (y :: ys))) end.
Definition tmap {A B} (f : A -> res B) (t : tree A) : res (tree B) := bindr (rmap f (leaves t)) (fun l => Ok (Tree (is_node t) l)).
(** [tree_map] over two trees: an error unless they have the same structure *)
Definition tmap2 {A B C} (f : A -> B -> res C) (t : tree A) (u : tree B) : res (tree C) :=
  if Bool.eqb (is_node t) (is_node u) && Nat.eqb (length (leaves t)) (length (leaves u))
  then bindr (rmap (fun p => f (fst p) (snd p)) (combine (leaves t) (leaves u))) (fun l => Ok (Tree (is_node t) l))
  else ValueError.
Definition eq_list (a b : list nat) : bool := if list_eq_dec Nat.eq_dec a b then true else false.

Section Fun.
Variable V : Type.
Variable num : nat -> V.
(** A Python function of arrays. What Python decides in it (branches, errors, names of the results) depends on the shapes
    of the arrays only: under [jit] and [vmap] it is run on tracers, which have no elements. *)
Definition pyfun := list (arr V) -> res (tree (val V)).
(** [bind_dims] of torch or of jax *)
Variable bind : tval V -> list nat -> res (tval V).

Definition to_tval (v : val V) : tval V := match v with VArr _ a => TArr a | VGet _ a dims => TGet a dims | _ => TLazy end.

(** [deindex_tensor] (torch.py:609-612, _handlers.py:251-254). A term is no result for the library ([RuntimeError]). *)
Definition deindex (v : val V) (sizes : list (nat * nat)) : res (arr V) :=
  match bind (to_tval v) (map fst sizes) with
  | Ok (TArr a) => if eq_list (firstn (length sizes) (shape a)) (map snd sizes) then Ok a else AssertionError
  | Ok _ | NotHandled => RuntimeError
  | IndexError => IndexError | AssertionError => AssertionError | ValueError => ValueError | RuntimeError => RuntimeError
  end.

(** The variable [indexes] of the wrapper: the names of each result, as [func] last returned them *)
Definition indexes_var := option (tree (list nat)).

(** [deindexed] (torch.py:605-617, _handlers.py:247-259): the arrays, and what [indexes] is afterwards *)
Definition deindexed (func : pyfun) (args : list (arr V)) (ix : indexes_var) : res (tree (arr V)) * indexes_var :=
  match func args with
  | Ok ret =>
      match tmap (fun v => sizes_val V v []) ret with
      | Ok sizes => (tmap2 deindex ret sizes, Some (Tree (is_node sizes) (map (map fst) (leaves sizes))))
      | IndexError => (IndexError, ix) | AssertionError => (AssertionError, ix) | ValueError => (ValueError, ix)
      | RuntimeError => (RuntimeError, ix) | NotHandled => (NotHandled, ix)
      end
  | IndexError => (IndexError, ix) | AssertionError => (AssertionError, ix) | ValueError => (ValueError, ix)
  | RuntimeError => (RuntimeError, ix) | NotHandled => (NotHandled, ix)
  end.

(** [index_expr] (torch.py:621-622, _handlers.py:263-264) *)
Definition index_expr (start : nat) (names : list nat) : list kelem := repeat KAll start ++ map KName names.
(** [reindex] (torch.py:620-631, _handlers.py:262-268). [None.indexes] and [list.indexes] are [RuntimeError]s. *)
Definition reindex_tree (ix : indexes_var) (start : nat) (ret : tree (val V)) : res (tree (val V)) :=
  match ix with
  | None => RuntimeError
  | Some names => tmap2 (fun t ns => index_val V t (index_expr start ns)) ret names
  end.

(** ** [jit] (_handlers.py:229-232) *)

(** [jax.jit] keeps the compiled code for each signature, here the shapes of the arguments; the Python function is run only
    to compile. Compiled code computes the arrays the function would. Arguments that are terms are refused. *)
Record jit_state := Jit { ix_of : indexes_var; cache : list (list (list nat)) }.
Definition fresh_jit : jit_state := Jit None [].
Definition eq_sig (a b : list (list nat)) : bool := if list_eq_dec (list_eq_dec Nat.eq_dec) a b then true else false.
Definition jit_arrays (func : pyfun) (st : jit_state) (args : list (arr V)) : res (tree (val V)) * jit_state :=
  let sig := map shape args in
  if existsb (eq_sig sig) (cache st)
  then (bindr (fst (deindexed func args None)) (fun ret => reindex_tree (ix_of st) 0 (Tree (is_node ret) (map (VArr V) (leaves ret)))), st)
  else
    let (r, ix) := deindexed func args (ix_of st) in
    match r with
    | Ok ret => (reindex_tree ix 0 (Tree (is_node ret) (map (VArr V) (leaves ret))), Jit ix (sig :: cache st))
    | _ => (bindr r (fun _ => RuntimeError), Jit ix (cache st))
    end.
Definition jit_call (func : pyfun) (st : jit_state) (args : list (val V)) : res (tree (val V)) * jit_state :=
  match traverse (plain_array V) args with Some l => jit_arrays func st l | None => (RuntimeError, st) end.
Definition jit_calls (func : pyfun) (history : list (list (arr V))) : jit_state :=
  fold_left (fun st args => snd (jit_arrays func st args)) history fresh_jit.

(** ** Transformations of the library: [torch.func.vmap], [torch.func.jacfwd], ... with their options *)

(** [trans F] is the transformed function; [probe xs] are arguments of the shapes [F] is called with; [wraps] tells the
    structure of the result from that of [F]. *)
Record transform := Trans {
  trans : (list (arr V) -> option (list (arr V))) -> list (arr V) -> option (list (arr V));
  probe : list (arr V) -> list (arr V);
  wraps : bool -> bool }.

Definition arrays_of (func : pyfun) (args : list (arr V)) : option (list (arr V)) :=
  match fst (deindexed func args None) with Ok t => Some (leaves t) | _ => None end.

(** [_register_torch_op(T(deindexed_func))] applied, and [reindex] (torch.py:643-645, 650-652, 657-659, 664-666, 717-722).
    Operation 0 is the new one. The function is run at position 0 of the names of the arguments, as [vmapped] is; it is not
    run if the operation stays a term. *)
Definition transformed (T : transform) (start : nat) (func : pyfun) (ix : indexes_var) (args : list (val V)) : res (tree (val V)) * indexes_var :=
  match run_op V num (fun _ => trans T (arrays_of func)) 0 args with
  | Ok (Some outs) =>
      match traverse (fun v => single V num v (fun _ => 0)) args with
      | Some l =>
          let ix' := snd (deindexed func (probe T l) ix) in
          let node := match ix' with Some names => wraps T (is_node names) | None => false end in
          (reindex_tree ix' start (Tree node outs), ix')
      | None => (RuntimeError, ix)
      end
  | Ok None => (reindex_tree ix start (Tree false [VOp V 0 0 args]), ix)
  | r => (bindr r (fun _ => RuntimeError), ix)
  end.

(** [torch.func.vmap] with [in_dims=0] and [out_dims=d]: the function on the slices along the first axis, results put
    together along axis [d]. *)
Definition slice_at (start : nat) (is : list nat) (a : arr V) : arr V :=
  Arr (firstn start (shape a) ++ skipn (start + length is) (shape a)) (fun idx => at_ a (firstn start idx ++ is ++ skipn start idx)).
Definition batch (xs : list (arr V)) : option nat :=
  match xs with
  | x :: _ => match shape x with
              | d :: _ => if forallb (fun y => match shape y with e :: _ => Nat.eqb e d | [] => false end) xs then Some d else None
              | [] => None
              end
  | [] => None
  end.
Definition insert_at (d x : nat) (l : list nat) : list nat := firstn d l ++ x :: skipn d l.
Definition remove_at (d : nat) (l : list nat) : list nat := firstn d l ++ skipn (S d) l.
Definition torch_vmap (d : nat) : transform :=
  Trans (fun F xs =>
    match batch xs with
    | Some n =>
        let at_pos i := F (map (slice_at 0 [i]) xs) in
        match at_pos 0 with
        | Some outs =>
            if forallb (fun o => Nat.leb d (length (shape o))) outs then
            Some (map (fun io : nat * arr V =>
              Arr (insert_at d n (shape (snd io)))
                (fun idx => match at_pos (nth d idx 0) with Some os => at_ (nth (fst io) os (snd io)) (remove_at d idx) | None => at_ (snd io) (remove_at d idx) end))
              (combine (seq 0 (length outs)) outs))
            else None
        | None => None
        end
    | None => None
    end) (map (slice_at 0 [0])) (fun b => b).

(** [vmap] (torch.py:715-722), the options [out_dims] passed on *)
Definition vmap (out_dims : nat) (func : pyfun) (args : list (val V)) : res (tree (val V)) :=
  fst (transformed (torch_vmap out_dims) 1 func None args).
(** What [vmap(func)] returns takes keyword arguments too, [lambda *a, **k: reindex(vmap_func( *a, *k), starting_dim=1)]
    (torch.py:722): [*k] passes on the keywords as further arguments, as strings, which [torch.func.vmap] refuses.
    [grad], [jacfwd], [jacrev] and [hessian] do the same (torch.py:645, 652, 659, 666). *)
Definition vmap_kw (func : pyfun) (args : list (val V)) (kwargs : list (nat * val V)) : res (tree (val V)) :=
  match map fst kwargs with [] => vmap 0 func args | _ => ValueError end.

(** [torch.func.jacfwd] and [torch.func.jacrev] for argument [k]: the derivative [D x f] at [x] of each element of the results
    as a function of each element of the argument. [torch.func.grad] is the same for one scalar result; [torch.func.hessian]
    is the one after the other. [D] is not modelled. *)
Definition set_elem (x : arr V) (xi : list nat) (t : V) : arr V := Arr (shape x) (fun idx => if list_eq_dec Nat.eq_dec idx xi then t else at_ x idx).
Fixpoint set_nth (k : nat) (y : arr V) (xs : list (arr V)) : list (arr V) :=
  match k, xs with _, [] => [] | 0, _ :: xs' => y :: xs' | S k', x :: xs' => x :: set_nth k' y xs' end.
Definition torch_jac (D : V -> (V -> V) -> V) (k : nat) : transform :=
  Trans (fun F xs =>
    match nth_error xs k, F xs with
    | Some x, Some outs =>
        Some (map (fun io : nat * arr V =>
          Arr (shape (snd io) ++ shape x)
            (fun idx =>
              let oi := firstn (length (shape (snd io))) idx in
              let xi := skipn (length (shape (snd io))) idx in
              D (at_ x xi) (fun t => match F (set_nth k (set_elem x xi t) xs) with Some os => at_ (nth (fst io) os (snd io)) oi | None => at_ (snd io) oi end)))
          (combine (seq 0 (length outs)) outs))
    | _, _ => None
    end) (fun xs => xs) (fun b => b).
Definition torch_grad (D : V -> (V -> V) -> V) (k : nat) : transform :=
  Trans (fun F xs => match F xs with Some [o] => match shape o with [] => trans (torch_jac D k) F xs | _ => None end | _ => None end) (fun xs => xs) (fun b => b).
Definition after (T U : transform) : transform := Trans (fun F => trans T (trans U F)) (fun xs => probe U (probe T xs)) (fun b => wraps T (wraps U b)).
Definition torch_hessian (D : V -> (V -> V) -> V) (k : nat) : transform := after (torch_jac D k) (torch_jac D k).
(** [jacfwd], [jacrev], [grad], [hessian] (torch.py:637-666); with [argnums] a tuple, of one argument here, results are tuples. *)
Definition jac D k (func : pyfun) (args : list (val V)) : res (tree (val V)) := fst (transformed (torch_jac D k) 0 func None args).
Definition grad D k (func : pyfun) (args : list (val V)) : res (tree (val V)) := fst (transformed (torch_grad D k) 0 func None args).
Definition hessian D k (func : pyfun) (args : list (val V)) : res (tree (val V)) := fst (transformed (torch_hessian D k) 0 func None args).
Definition jac_tuple D k (func : pyfun) (args : list (val V)) : res (tree (val V)) :=
  fst (transformed (Trans (trans (torch_jac D k)) (probe (torch_jac D k)) (fun _ => true)) 0 func None args).

(** [jvp] (torch.py:670-676): [reindex] is applied to each leaf of the results and of their tangents. *)
Definition jvp (T : transform) (func : pyfun) (args : list (val V)) : res (list (tree (val V))) :=
  match run_op V num (fun _ => trans T (arrays_of func)) 0 args with
  | Ok (Some outs) =>
      match traverse (fun v => single V num v (fun _ => 0)) args with
      | Some l => rmap (fun v => reindex_tree (snd (deindexed func (probe T l) None)) 0 (Tree false [v])) outs
      | None => RuntimeError
      end
  | r => bindr r (fun _ => RuntimeError)
  end.
End Fun.
