(** Cached calls: [functools.cache] as used on templates (docs/source/llm.ipynb 125-190)
    and inside the library (effectful/handlers/indexed.py 162-164 [name_to_sym],
    torch.py 228-269, jax/_handlers.py 123-175, pyro.py 423-431).

    [functools.cache] is the unbounded [lru_cache] of Python's library (functools.py:
    [_make_key] and the wrapper for [maxsize=None]).

    Simplified: values are numbers, strings, None, tuples, lists and objects compared by
    identity; floats are whole or half numbers, without NaN; equal values have equal
    hashes, so that a dictionary finds a key by [==].  One thread.  What the cached
    function does is given as a tree: the calls of the cached function made while it
    runs, in order, and how it ends. *)
From Coq Require Import ZArith String List Bool.
Import ListNotations.

Inductive value :=
| VInt (z : Z) | VBool (b : bool) | VFloat (halves : Z)
| VStr (s : string) | VNone | VTuple (l : list value) | VList (l : list value) | VObj (id : nat).

(** [==]: numbers of all kinds by value *)
Definition halves_of (v : value) : option Z :=
  match v with
  | VInt z => Some (2 * z)%Z
  | VBool b => Some (if b then 2 else 0)%Z
  | VFloat h => Some h
  | _ => None
  end.

Fixpoint py_eq (a b : value) : bool :=
  let eqs := fix eqs (l m : list value) : bool :=
    match l, m with
    | [], [] => true
    | x :: l, y :: m => py_eq x y && eqs l m
    | _, _ => false
    end in
  match a, b with
  | VStr s, VStr t => String.eqb s t
  | VNone, VNone => true
  | VTuple l, VTuple m => eqs l m
  | VList l, VList m => eqs l m
  | VObj i, VObj j => Nat.eqb i j
  | _, _ => match halves_of a, halves_of b with Some x, Some y => Z.eqb x y | _, _ => false end
  end.

Fixpoint hashable (v : value) : bool :=
  match v with
  | VList _ => false
  | VTuple l => forallb hashable l
  | _ => true
  end.

(** [_make_key] with [typed=False]; [type(v) in {int, str}] *)
Inductive item := Mark | Item (v : value).
Inductive key := Raw (v : value) | Seq (l : list item).

Definition fast (v : value) : bool := match v with VInt _ | VStr _ => true | _ => false end.

Definition make_key (args : list value) (kwds : list (string * value)) : key :=
  match kwds with
  | [] =>
      match args with
      | [v] => if fast v then Raw v else Seq [Item v]
      | _ => Seq (map Item args)
      end
  | _ => Seq (map Item args ++ Mark :: flat_map (fun kv => [Item (VStr (fst kv)); Item (snd kv)]) kwds)
  end.

(** equality of keys in the dictionary *)
Definition item_eq (a b : item) : bool :=
  match a, b with
  | Mark, Mark => true
  | Item v, Item w => py_eq v w
  | _, _ => false
  end.
Fixpoint items_eq (l m : list item) : bool :=
  match l, m with
  | [], [] => true
  | x :: l, y :: m => item_eq x y && items_eq l m
  | _, _ => false
  end.
Definition key_eq (a b : key) : bool :=
  match a, b with
  | Raw v, Raw w => py_eq v w
  | Seq l, Seq m => items_eq l m
  | _, _ => false
  end.

(** hashing a key hashes its members *)
Definition hashes (args : list value) (kwds : list (string * value)) : bool :=
  forallb hashable args && forallb (fun kv => hashable (snd kv)) kwds.

(** ** The dictionary *)
Definition cache := list (key * value).
Definition empty : cache := [].

Fixpoint lookup (k : key) (c : cache) : option value :=
  match c with
  | [] => None
  | (k', v) :: c => if key_eq k' k then Some v else lookup k c
  end.

(** [cache[key] = result], in place if the key is there *)
Fixpoint store (k : key) (v : value) (c : cache) : cache :=
  match c with
  | [] => [(k, v)]
  | (k', w) :: c => if key_eq k' k then (k', v) :: c else (k', w) :: store k v c
  end.

(** ** Calls *)
Inductive answer := Returned (v : value) | Raised (e : string).

Inductive call := Call (args : list value) (kwds : list (string * value)) (inner : list call) (ending : answer).

(** a call that has ended: its arguments, whether the function ran, and the answer *)
Record event := Event {
  eargs : list value; ekwds : list (string * value); ran : bool; gave : answer }.

(** the wrapper of [lru_cache] with [maxsize=None]: the cache and the calls ended, in the
    order in which they end *)
Fixpoint exec (t : call) (c : cache) : cache * list event :=
  match t with
  | Call args kwds inner ending =>
      if hashes args kwds then
        let k := make_key args kwds in
        match lookup k c with
        | Some v => (c, [Event args kwds false (Returned v)])
        | None =>
            let (c1, log) :=
              (fix go (l : list call) (c : cache) : cache * list event :=
                 match l with
                 | [] => (c, [])
                 | t :: l =>
                     let (c1, e1) := exec t c in
                     let (c2, e2) := go l c1 in
                     (c2, e1 ++ e2)
                 end) inner c in
            match ending with
            | Returned v => (store k v c1, log ++ [Event args kwds true (Returned v)])
            | Raised e => (c1, log ++ [Event args kwds true (Raised e)])
            end
        end
      else (c, [Event args kwds false (Raised "TypeError: unhashable type")])
  end.

Fixpoint session (l : list call) (c : cache) : cache * list event :=
  match l with
  | [] => (c, [])
  | t :: l =>
      let (c1, e1) := exec t c in
      let (c2, e2) := session l c1 in
      (c2, e1 ++ e2)
  end.

(** [name_to_sym] (indexed.py 162-164): [defop] makes a new operation each time it runs;
    the operation made by the n-th call, if it runs, is object n *)
Fixpoint name_calls (n : nat) (names : list string) : list call :=
  match names with
  | [] => []
  | s :: names => Call [VStr s] [] [] (Returned (VObj n)) :: name_calls (S n) names
  end.

(** a call of a cached template of one parameter (llm.ipynb 182-187) under a provider, or
    without one, when the default rule makes a term (ops/types.py 361-374) *)
Definition template_call (provider : option (value -> value)) (term : nat) (arg : value) : call :=
  Call [arg] [] [] (Returned (match provider with Some complete => complete arg | None => VObj term end)).
