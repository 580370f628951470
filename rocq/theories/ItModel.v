(** Model of terms of iterables: [iter] and [next] on terms (effectful/ops/syntax.py 753-777), what programs over a free iterable
    build, and their evaluation once the iterable is given by a handler (effectful/ops/semantics.py 118-181; the default rules of
    [iter_] and [next_], syntax.py 759-773). Free iterables are variables [xs_s() : Iterable[int]]; elements are integers.
    Simplified: programs are straight lines, the only loop is [for x in it: acc += x]; of the operators there is only [+] (C58). *)
From Coq Require Import List ZArith Arith Bool.
Import ListNotations.
Local Open Scope list_scope.

(** What a program computes in the end: of its values and integers *)
Inductive pexp := PVal (n : nat) | PLit (z : Z) | PAdd (a b : pexp).
(** Programs: [it = iter(xs_s())], [it2 = iter(it)], [x = next(it)], [acc = 0; for x in it: acc += x], [return e]. Iterators and
    values are numbered in the order they are made. *)
Inductive prog :=
| PIter (s : nat) (k : prog)
| PAgain (i : nat) (k : prog)
| PNext (i : nat) (k : prog)
| PSum (i : nat) (k : prog)
| PRet (e : pexp).

(** [Stop] is StopIteration, [Bad] a NameError or TypeError, [Fuel]: still running *)
Inductive res (A : Type) := Ok (a : A) | Stop | Bad | Fuel.
Arguments Ok {A}. Arguments Stop {A}. Arguments Bad {A}. Arguments Fuel {A}.

(** Terms: [xs_s()], [iter_(t)], [next_(t)], integers, [t + u] *)
Inductive tm := TVar (s : nat) | TIter (t : tm) | TNext (t : tm) | TLit (z : Z) | TAdd (a b : tm).

(** * Building *)
(** [a + b]: of two integers Python's, otherwise a term (syntax.py 1006-1030) *)
Definition tadd (a b : tm) : tm := match a, b with TLit x, TLit y => TLit (x + y) | _, _ => TAdd a b end.
Fixpoint texp (vs : list tm) (e : pexp) : res tm :=
  match e with
  | PVal n => match nth_error vs n with Some t => Ok t | None => Bad end
  | PLit z => Ok (TLit z)
  | PAdd a b => match texp vs a with Ok x => match texp vs b with Ok y => Ok (tadd x y) | r => r end | r => r end
  end.
(** The loop on a term: [next_] of a term is [NotHandled], hence a term again (syntax.py 768-773), never StopIteration. *)
Fixpoint drain (fuel : nat) (t acc : tm) : res tm :=
  match fuel with 0 => Fuel | S f => drain f t (tadd acc (TNext t)) end.
(** Running the program while the iterables are free: [iter] of a term is a term (syntax.py 758-763). *)
Fixpoint trace (fuel : nat) (p : prog) (its vs : list tm) : res tm :=
  match p with
  | PIter s k => trace fuel k (its ++ [TIter (TVar s)]) vs
  | PAgain i k => match nth_error its i with Some t => trace fuel k (its ++ [TIter t]) vs | None => Bad end
  | PNext i k => match nth_error its i with Some t => trace fuel k its (vs ++ [TNext t]) | None => Bad end
  | PSum i k =>
      match nth_error its i with
      | Some t => match drain fuel (TIter t) (TLit 0) with Ok a => trace fuel k its (vs ++ [a]) | r => r end
      | None => Bad
      end
  | PRet e => texp vs e
  end.

(** * Evaluating *)
(** Values: numbers, collections that can be iterated again and again, iterators by identity; the heap has what each iterator
    has left *)
Inductive val := VNum (z : Z) | VSeq (l : list Z) | VIt (i : nat).
Definition heap := list (list Z).
Definition py_iter (v : val) (h : heap) : res (val * heap) :=
  match v with VSeq l => Ok (VIt (length h), h ++ [l]) | VIt i => Ok (VIt i, h) | VNum _ => Bad end.
Fixpoint put (h : heap) (i : nat) (l : list Z) : heap :=
  match h, i with [], _ => [] | _ :: h', 0 => l :: h' | x :: h', S j => x :: put h' j l end.
Definition py_next (v : val) (h : heap) : res (val * heap) :=
  match v with
  | VIt i => match nth_error h i with Some (x :: r) => Ok (VNum x, put h i r) | Some [] => Stop | None => Bad end
  | _ => Bad
  end.
(** [evaluate] under [handler({xs_s: lambda: env s})]: arguments from the left, then the operation, whose default rule is Python's *)
Fixpoint ev (env : nat -> val) (t : tm) (h : heap) : res (val * heap) :=
  match t with
  | TVar s => Ok (env s, h)
  | TIter u => match ev env u h with Ok (v, h') => py_iter v h' | r => r end
  | TNext u => match ev env u h with Ok (v, h') => py_next v h' | r => r end
  | TLit z => Ok (VNum z, h)
  | TAdd a b =>
      match ev env a h with
      | Ok (x, h1) =>
          match ev env b h1 with
          | Ok (y, h2) => match x, y with VNum m, VNum n => Ok (VNum (m + n), h2) | _, _ => Bad end
          | r => r
          end
      | r => r
      end
  end.
