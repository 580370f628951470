(** Model of [vjp] (effectful/handlers/torch.py 679-712): pulling cotangents back through a function of arrays with named
    dimensions. Not modelled: dtypes, trees of results deeper than one level, and that the result [vjp] hands out was made
    while [torch.func.vjp] was tracing (torch.py:698, 704). *)
From Coq Require Import List Bool Arith ZArith.
From Verif Require Import ArrModel NopModel FunModel.
Import ListNotations.

Section Vjp.
Variable V : Type.
Variables (zero : V) (add mul : V -> V -> V).
(** The derivative of a function of one number at a point. It is not modelled. *)
Variable D : V -> (V -> V) -> V.
(** A Python function of arrays with or without names *)
Definition nfun := list (val V) -> res (tree (val V)).

(** ** [torch.func.vjp] *)

(** All indices of an array, in row-major order *)
Fixpoint indices (sh : list nat) : list (list nat) :=
  match sh with [] => [[]] | d :: sh' => flat_map (fun i => map (cons i) (indices sh')) (seq 0 d) end.
Definition total (l : list V) : V := fold_right add zero l.
Definition elem_of (r : option (list (arr V))) (j : nat) (idx : list nat) : V :=
  match r with Some os => match nth_error os j with Some o => at_ o idx | None => zero end | None => zero end.
(** The gradient for argument [k], [x]: for each of its elements, the derivatives of all elements of all results in it,
    each times the cotangent. Cotangents must have the shapes of the results. *)
Definition pullback (F : list (arr V) -> option (list (arr V))) (xs cts : list (arr V)) (k : nat) (x : arr V) : arr V :=
  Arr (shape x) (fun xi => total (flat_map (fun jc : nat * arr V =>
    map (fun oi => mul (at_ (snd jc) oi) (D (at_ x xi) (fun t => elem_of (F (set_nth V k (set_elem V x xi t) xs)) (fst jc) oi))) (indices (shape (snd jc))))
    (combine (seq 0 (length cts)) cts))).
Definition same_shapes (xs ys : list (arr V)) : bool := if list_eq_dec (list_eq_dec Nat.eq_dec) (map shape xs) (map shape ys) then true else false.
Definition torch_vjp (F : list (arr V) -> option (list (arr V))) (xs cts : list (arr V)) : option (list (arr V)) :=
  match F xs with
  | Some outs => if same_shapes outs cts then Some (map (fun kx => pullback F xs cts (fst kx) (snd kx)) (combine (seq 0 (length xs)) xs)) else None
  | None => None
  end.

(** ** [vjp] *)

(** The names of a value and the array of all its positions: torch.py:682-684, 699-701, 707-709. A term is no tensor for
    the library ([RuntimeError]). *)
Definition unpack (v : val V) : res (arr V * list nat) :=
  bindr (sizes_val V v []) (fun m =>
  match bind_dims_torch (to_tval V v) (map fst m) with
  | Ok (TArr a) => Ok (a, map fst m)
  | Ok _ | NotHandled => RuntimeError
  | IndexError => IndexError | AssertionError => AssertionError | ValueError => ValueError | RuntimeError => RuntimeError
  end).
Definition unpacked (v : val V) : res (arr V) := bindr (unpack v) (fun p => Ok (fst p)).
(** [repack_primals] (torch.py:689-693) *)
Definition repack (names : list (list nat)) (ps : list (arr V)) : res (list (val V)) :=
  rmap (fun p : arr V * list nat => index_val V (VArr V (fst p)) (map KName (snd p))) (combine ps names).
(** [wrapper] (torch.py:695-701): what [indexed_result] becomes, and what it returns *)
Definition wrapper (func : nfun) (names : list (list nat)) (ps : list (arr V)) : res (tree (val V) * tree (arr V)) :=
  bindr (repack names ps) (fun ws => bindr (func ws) (fun r => bindr (tmap unpacked r) (fun outs => Ok (r, outs)))).
Definition wrapped (func : nfun) (names : list (list nat)) (ps : list (arr V)) : option (list (arr V)) :=
  match wrapper func names ps with Ok (_, outs) => Some (leaves outs) | _ => None end.
(** [vjpfunc_wrapper] (torch.py:706-711). Cotangents of another structure or shape are [RuntimeError]s of the library. *)
Definition vjpfunc (func : nfun) (names : list (list nat)) (ys : list (arr V)) (node : bool) (cts : tree (val V)) : res (list (val V)) :=
  bindr (tmap unpacked cts) (fun cs =>
  if Bool.eqb (is_node cs) node then
    match torch_vjp (wrapped func names) ys (leaves cs) with Some gs => repack names gs | None => RuntimeError end
  else RuntimeError).
(** [vjp] (torch.py:679-712) *)
Definition vjp (func : nfun) (primals : list (val V)) : res (tree (val V) * (tree (val V) -> res (list (val V)))) :=
  bindr (rmap unpack primals) (fun ups =>
  let ys := map fst ups in let names := map snd ups in
  bindr (wrapper func names ys) (fun r => Ok (fst r, vjpfunc func names ys (is_node (snd r))))).
(** [vjp(func, *primals, has_aux=True)]: [torch.func.vjp] then returns three things, which are unpacked as two (torch.py:704). *)
Definition vjp_aux (func : nfun) (primals : list (val V)) : res (tree (val V) * (tree (val V) -> res (list (val V)))) :=
  bindr (rmap unpack primals) (fun ups => bindr (wrapper func (map snd ups) (map fst ups)) (fun _ => ValueError)).
End Vjp.
