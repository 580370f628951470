(** Model of [IndexSet], [union], [cond] and [cond_n] (effectful/handlers/indexed.py). *)
From Coq Require Import String List Bool Arith ZArith.
Import ListNotations.
Open Scope list_scope.

(** A Python [set] of integers: its elements in some order, without repetition. A [dict]
    from names to such sets: its entries in insertion order. *)
Definition iset := list Z.
Definition indexset := list (string * iset).

Definition mem (i : Z) (s : iset) : bool := existsb (Z.eqb i) s.

(** [set(vs)] of an iterable. *)
Fixpoint set_of (vs : list Z) : iset :=
  match vs with [] => [] | v :: r => if mem v r then set_of r else v :: set_of r end.

Fixpoint get {A} (d : list (string * A)) (k : string) : option A :=
  match d with [] => None | (x, v) :: d' => if String.eqb x k then Some v else get d' k end.

Definition keys {A} (d : list (string * A)) : list string := map fst d.

(** Values accepted by the constructor: an [int] or an iterable of them. *)
Inductive arg := AInt (i : Z) | AIter (l : list Z).

Inductive res (A : Type) := Ok (a : A) | TypeError | StopIteration.
Arguments Ok {A} a. Arguments TypeError {A}. Arguments StopIteration {A}.

Definition indexes (v : arg) : iset := match v with AInt i => [i] | AIter l => set_of l end.

(** The constructor [IndexSet( **mapping)] (indexed.py:47-53). Python gives keyword arguments with distinct
    names, in order; one called [self] clashes with the method's first parameter. *)
Definition make (mapping : list (string * arg)) : res indexset :=
  if existsb (String.eqb "self") (keys mapping) then TypeError
  else Ok (flat_map (fun kv => match indexes (snd kv) with [] => [] | s => [(fst kv, s)] end) mapping).

(** [set.union] of sets of keys or of integers (an error without arguments). *)
Definition zunion (ss : list iset) : iset := set_of (concat ss).

Definition selected (l : list indexset) (k : string) : list iset :=
  flat_map (fun vs => match get vs k with Some s => [s] | None => [] end) l.

Section Union.
(** The order in which a set of names is iterated, which Python leaves open. *)
Variable order : list string -> list string.

(** [union] (indexed.py:63-95) *)
Definition union (l : list indexset) : res indexset :=
  match l with
  | [] => TypeError
  | _ => make (map (fun k => (k, AIter (zunion (selected l k)))) (order (concat (map keys l))))
  end.
End Union.

(** ** [cond] and [cond_n] *)

(** An array: a shape and the elements at the index tuples within it. *)
Record arr (V : Type) := Arr { shape : list nat; at_ : list nat -> V }.
Arguments Arr {V}. Arguments shape {V}. Arguments at_ {V}.

(** Broadcasting: the element of [a] used for position [idx] of a larger array. Trailing
    axes are aligned, an axis of size one is repeated. *)
Fixpoint squash (sh idx : list nat) : list nat :=
  match sh, idx with d :: sh', i :: idx' => (if Nat.eqb d 1 then 0 else i) :: squash sh' idx' | _, _ => [] end.
Definition bget {V} (a : arr V) (idx : list nat) : V :=
  at_ a (squash (shape a) (skipn (length idx - length (shape a)) idx)).

(** [torch.broadcast_shapes] of two shapes; [None] when they do not fit. *)
Definition dim2 (a b : nat) : option nat :=
  if Nat.eqb a b then Some a else if Nat.eqb a 1 then Some b else if Nat.eqb b 1 then Some a else None.
Fixpoint bshape_rev (a b : list nat) : option (list nat) :=
  match a, b with
  | [], b => Some b
  | a, [] => Some a
  | x :: a', y :: b' => match dim2 x y, bshape_rev a' b' with Some d, Some r => Some (d :: r) | _, _ => None end
  end.
Definition bshape (a b : list nat) : option (list nat) := option_map (@rev nat) (bshape_rev (rev a) (rev b)).

(** [torch.where] *)
Definition where_ {V} (c : arr bool) (a b : arr V) : option (arr V) :=
  match bshape (shape a) (shape b) with
  | Some ab => match bshape (shape c) ab with
               | Some sh => Some (Arr sh (fun idx => if bget c idx then bget a idx else bget b idx))
               | None => None
               end
  | None => None
  end.

(** [reshape] to the same shape followed by [n] axes of size one. *)
Definition unsqueeze {V} (n : nat) (a : arr V) : arr V :=
  Arr (shape a ++ repeat 1 n) (fun idx => at_ a (firstn (length (shape a)) idx)).

(** [cond] (indexed.py:252-286) *)
Definition cond {V} (fst_ snd_ : arr V) (case_ : arr bool) : option (arr V) :=
  where_ (unsqueeze (Nat.min (length (shape snd_)) (length (shape fst_))) case_) snd_ fst_.

(** Results of [cond_n]: a value, shapes that do not broadcast, a failed [assert], an index set
    without names, a name without indices. *)
Inductive out (A : Type) := Value (a : A) | Mismatch | Assertion | Empty | NoIndex.
Arguments Value {A} a. Arguments Mismatch {A}. Arguments Assertion {A}. Arguments Empty {A}. Arguments NoIndex {A}.

(** [functools.reduce(operator.or_, [case == index for index in s])]: an error on no index. *)
Definition test (s : iset) (case : arr Z) : arr bool := Arr (shape case) (fun idx => existsb (fun i => Z.eqb (at_ case idx) i) s).

(** The loop of [cond_n] (indexed.py:292-300) *)
Fixpoint cond_loop {V} (values : list (indexset * arr V)) (case : arr Z) (result : option (arr V)) : out (arr V) :=
  match values with
  | [] => match result with Some r => Value r | None => Assertion end
  | (ix, value) :: rest =>
      match ix with
      | [] => Empty                             (* next(iter(...)): StopIteration *)
      | (_, []) :: _ => NoIndex                 (* reduce() of empty iterable: TypeError *)
      | (_, s) :: _ =>
          match cond (match result with Some r => r | None => value end) value (test s case) with
          | Some r => cond_loop rest case (Some r)
          | None => Mismatch
          end
      end
  end.

(** [cond_n] (indexed.py:289-302) *)
Definition cond_n {V} (values : list (indexset * arr V)) (case : arr Z) : out (arr V) :=
  match values with [] => Assertion | _ => cond_loop values case None end.
