(** Model of array operations on arrays with named dimensions: the operations registered by [_register_torch_op] and
    [_register_jax_op], [_partial_eval] and evaluation of the terms they leave (effectful/handlers/torch.py 83-130,
    228-335; effectful/handlers/jax/_handlers.py 82-157, _terms.py 59-68).
    Not modelled: random operations, operations in place, keyword arguments (as positional ones), handlers of the operations. *)
From Coq Require Import List Bool Arith ZArith.
From Verif Require Import ArrModel.
Import ListNotations.

Section Ops.
Variable V : Type.
(** The position of a named dimension as an element of an array *)
Variable num : nat -> V.
(** The library: function [f] on arrays, with a tree of results ([None]: an error) *)
Variable lib : nat -> list (arr V) -> option (list (arr V)).

(** Values: arrays; arrays indexed with names ([_EagerTensorTerm], [_EagerArrayTerm]); the term [n()];
    other terms: result [i] of function [f], and indexing. *)
Inductive val :=
| VArr (a : arr V) | VGet (a : arr V) (dims : list kelem) | VName (n : nat)
| VOp (f i : nat) (args : list val) | VIdx (v : val) (key : list kelem).

Fixpoint traverse {A B} (f : A -> option B) (l : list A) : option (list B) :=
  match l with [] => Some [] | x :: l' => match f x, traverse f l' with Some y, Some ys => Some (y :: ys) | _, _ => None end end.

(** ** Sizes and free variables of a term *)

(** [sizesof] (torch.py:37-80): terms are rebuilt, not run, and only indexed arrays tell sizes. *)
Fixpoint sizes_val (v : val) (m : list (nat * nat)) : res (list (nat * nat)) :=
  match v with
  | VArr _ | VName _ => Ok m
  | VGet a dims => add_names (shape a) dims m
  | VOp _ _ args => (fix all vs m := match vs with [] => Ok m | v :: vs' => bindr (sizes_val v m) (all vs') end) args m
  | VIdx v _ => sizes_val v m
  end.
Fixpoint sizes_all (vs : list val) (m : list (nat * nat)) : res (list (nat * nat)) :=
  match vs with [] => Ok m | v :: vs' => bindr (sizes_val v m) (sizes_all vs') end.
(** [fvsof] without [torch_getitem] *)
Inductive fv := Dim (n : nat) | Fn (f : nat).
Definition key_names (key : list kelem) : list nat := flat_map (fun k => match k with KName n => [n] | _ => [] end) key.
Fixpoint fvs (v : val) : list fv :=
  match v with
  | VArr _ => []
  | VGet _ dims => map Dim (key_names dims)
  | VName n => [Dim n]
  | VOp f _ args => Fn f :: flat_map fvs args
  | VIdx v key => fvs v ++ map Dim (key_names key)
  end.
Definition fv_eqb (x y : fv) : bool :=
  match x, y with Dim a, Dim b => Nat.eqb a b | Fn a, Fn b => Nat.eqb a b | _, _ => false end.
Definition subset (l r : list fv) : bool := forallb (fun x => existsb (fv_eqb x) r) l.

(** ** [_partial_eval] (torch.py:83-130, _handlers.py:82-120) *)

(** The results for all positions of the names, put together by [vmap] along a new first axis, reshaped to an axis per
    name and indexed by the names (torch.py:102-130). [vmap] traces the function once: shapes are those at position 0. *)
Definition vmapped (sized : list (nat * nat)) (run : (nat -> nat) -> option (list (arr V))) : res (list val) :=
  let names := map fst sized in
  let sizes := map snd sized in
  let at_pos j := run (assign (fun _ => 0) names (unravel sizes j)) in
  match at_pos 0 with
  | None => RuntimeError
  | Some outs =>
      Ok (map (fun io : nat * arr V =>
        let flat := Arr (prod sizes :: shape (snd io))
          (fun idx => match at_pos (hd 0 idx) with Some os => at_ (nth (fst io) os (snd io)) (tl idx) | None => at_ (snd io) (tl idx) end) in
        VGet (reshape flat (sizes ++ shape (snd io))) (map KName names ++ repeat KAll (length (shape (snd io)))))
        (combine (seq 0 (length outs)) outs))
  end.
Definition single (v : val) (env : nat -> nat) : option (arr V) :=
  match v with
  | VArr a => Some a
  | VGet a dims => index_arr env a dims
  | VName n => Some (Arr [] (fun _ => num (env n)))
  | _ => None
  end.
(** An argument that partial evaluation accepts (torch.py:90-95, _handlers.py:89-96) *)
Definition eager (sized : list (nat * nat)) (v : val) : bool :=
  match v with VArr _ | VGet _ _ => true | VName n => mem n (map fst sized) | _ => false end.
Definition partial_op (sized : list (nat * nat)) (f : nat) (args : list val) : res (option (list val)) :=
  if forallb (eager sized) args
  then bindr (vmapped sized (fun env => match traverse (fun v => single v env) args with Some l => lib f l | None => None end))
         (fun l => Ok (Some l))
  else Ok None.

(** ** Operations *)

(** [_torch_op] (torch.py:232-262), [_jax_op] (_handlers.py:128-152). [None]: the term is kept ([NotHandled], or as
    partial evaluation returns it). *)
Definition plain_array (v : val) : option (arr V) := match v with VArr a => Some a | _ => None end.
Definition run_op (f : nat) (args : list val) : res (option (list val)) :=
  bindr (sizes_all args []) (fun sized =>
  let names := map (fun p : nat * nat => Dim (fst p)) sized in
  let free := filter (fun x => negb (fv_eqb x (Fn f))) (flat_map fvs args) in
  if negb (match sized with [] => true | _ => false end) && (subset names free && subset free names) then partial_op sized f args
  else match traverse plain_array args with
       | Some l => match lib f l with Some outs => Ok (Some (map VArr outs)) | None => RuntimeError end
       | None => Ok None
       end).
(** Result [i]. Functions with one result have [i = 0]; the term of a function with several cannot be taken apart
    (torch.py:493-494), which is not modelled. *)
Definition apply_op (f i : nat) (args : list val) : res val :=
  bindr (run_op f args) (fun r =>
  match r with
  | Some outs => match nth_error outs i with Some v => Ok v | None => IndexError end
  | None => Ok (VOp f i args)
  end).

(** Indexing a value: [torch_getitem] with its wrapper. Arrays are as in ArrModel (by NumPy's rules, see TgetModel). *)
Definition get_one (key : list kelem) (a : arr V) (env : nat -> nat) : option (arr V) :=
  match desugar (shape a) key with Ok (nsh, nkey) => index_arr env (reshape a nsh) nkey | _ => None end.
Definition index_val (v : val) (key : list kelem) : res val :=
  match v with
  | VArr a => match getitem a key with
              | Ok (TArr b) => Ok (VArr b) | Ok (TGet b dims) => Ok (VGet b dims) | Ok TLazy => RuntimeError
              | IndexError => IndexError | AssertionError => AssertionError | ValueError => ValueError
              | RuntimeError => RuntimeError | NotHandled => NotHandled
              end
  | VGet a dims =>
      bindr (add_names (shape a) dims []) (fun m =>
      bindr (desugar (eager_shape (shape a) dims) key) (fun r =>
      bindr (add_names (fst r) (snd r) m) (fun sized =>
      match sized with
      | [] => Ok (VIdx v key)
      | _ => bindr (vmapped sized (fun env =>
               match index_arr env a dims with Some b => option_map (fun c => [c]) (get_one key b env) | None => None end))
             (fun l => match l with [w] => Ok w | _ => RuntimeError end)
      end)))
  | _ => Ok (VIdx v key)
  end.

(** ** Expressions of a program, as they are run *)
Inductive expr := EArr (a : arr V) | EName (n : nat) | EGet (e : expr) (key : list kelem) | EOp (f i : nat) (es : list expr).
Fixpoint build (e : expr) : res val :=
  match e with
  | EArr a => Ok (VArr a)
  | EName n => Ok (VName n)
  | EGet e key => bindr (build e) (fun v => index_val v key)
  | EOp f i es =>
      bindr ((fix all es := match es with [] => Ok [] | e :: es' => bindr (build e) (fun v => bindr (all es') (fun vs => Ok (v :: vs))) end) es)
        (apply_op f i)
  end.

(** ** [evaluate] under [handler({n: lambda: a})] for the names [n] that [rho] gives arrays [a] *)
(** (effectful/ops/semantics.py 170-229): the operations of a term are called again, inside out. A name in an index
    replaced by an array is not modelled ([NotHandled]). *)
Fixpoint evaluate (rho : nat -> option (arr V)) (v : val) : res val :=
  match v with
  | VArr a => Ok (VArr a)
  | VGet a dims => if existsb (fun n => match rho n with Some _ => true | None => false end) (key_names dims) then NotHandled else index_val (VArr a) dims
  | VName n => match rho n with Some a => Ok (VArr a) | None => Ok (VName n) end
  | VOp f i args =>
      bindr ((fix all vs := match vs with [] => Ok [] | v :: vs' => bindr (evaluate rho v) (fun w => bindr (all vs') (fun ws => Ok (w :: ws))) end) args)
        (apply_op f i)
  | VIdx v key =>
      if existsb (fun n => match rho n with Some _ => true | None => false end) (key_names key) then NotHandled
      else bindr (evaluate rho v) (fun w => index_val w key)
  end.
End Ops.
