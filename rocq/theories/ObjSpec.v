(** What method resolution would choose. *)
From Coq Require Import List Arith Bool.
From Verif Require Import ObjModel.
Import ListNotations.

(** Last mark in a class body wins. *)
Fixpoint last_mark (d : dict) (o : nat) : option nat :=
  match d with
  | [] => None
  | (x, i) :: d' =>
      match last_mark d' o with
      | Some j => Some j
      | None => if x =? o then Some i else None
      end
  end.

(** Marks of class [c] in a program. *)
Fixpoint marks (l : list stmt) (c o : nat) : option nat :=
  match l with
  | [] => None
  | s :: l' => if cls s =? c then last_mark (own s) o else marks l' c o
  end.

(** First class in a list that implements [o]. *)
Fixpoint resolve (l : list stmt) (m : list nat) (o : nat) : option nat :=
  match m with
  | [] => None
  | c :: m' => match marks l c o with Some i => Some i | None => resolve l m' o end
  end.

(** A program whose class statements all succeed and are in a possible order: each
    class is new, comes first in its own resolution order, once, and the rest was
    made before. *)
Inductive well_ordered (mro : nat -> list nat) : list stmt -> list nat -> Prop :=
| WNil seen : well_ordered mro [] seen
| WCons s l seen m : ok s = true -> ~ In (cls s) seen -> mro (cls s) = cls s :: m -> NoDup (mro (cls s)) ->
    (forall c, In c m -> In c seen) -> well_ordered mro l (cls s :: seen) -> well_ordered mro (s :: l) seen.

Inductive subseq : list nat -> list nat -> Prop :=
| SubNil l : subseq [] l
| SubTake x l l' : subseq l l' -> subseq (x :: l) (x :: l')
| SubSkip x l l' : subseq l l' -> subseq l (x :: l').

(** Python's resolution orders respect those of the ancestors. *)
Definition monotone (mro : nat -> list nat) : Prop := forall c s, In s (mro c) -> subseq (mro s) (mro c).

(** Only one parent, all the way up. *)
Definition single (mro : nat -> list nat) (c : nat) : Prop :=
  forall s, In s (mro c) -> exists m, mro s = s :: m /\ match m with [] => True | p :: _ => mro p = m end.

(** First class of a list with an implementation of [o]. *)
Fixpoint first_known (w : world) (m : list nat) (o : nat) : option nat :=
  match m with [] => None | c :: m' => match getitem w c o with Some i => Some i | None => first_known w m' o end end.

(** For class [c] and its ancestors: an ancestor that comes before the first
    implementer [d] and has some implementing ancestor also derives from [d]. *)
Definition no_diamond (mro : nat -> list nat) (l : list stmt) (c o : nat) : Prop :=
  forall s l1 d l2, In s (mro c) -> mro s = l1 ++ d :: l2 ->
  (forall x, In x l1 -> marks l x o = None) -> marks l d o <> None ->
  forall t e, In t l1 -> In e (mro t) -> marks l e o <> None -> In d (mro t).
