(** Which calls of a method are told apart by position. *)
From Coq Require Import String List Bool Arith ZArith.
From Verif Require Import JmModel.
Import ListNotations.
Local Open Scope list_scope.

(** The first [n] parameters of both signatures can be given by position and have the same names *)
Definition same_start (n : nat) (s t : list param) : Prop :=
  n <= length s /\ n <= length t /\ names (firstn n s) = names (firstn n t) /\
  Forall (fun p => pkw p = false) (firstn n s) /\ Forall (fun p => pkw p = false) (firstn n t).
(** A call that both read alike: no more positional arguments than that, and no keyword that the term's method does not have *)
Definition common (m : method) (pos : list value) (kw : kwargs) : Prop :=
  same_start (length pos) (mterm m) (marray m) /\ forall x v, In (x, v) kw -> In x (names (mterm m)).
(** How many arguments each method takes by position as arrays do *)
Definition by_position : list (string * nat) :=
  [("all", 1); ("any", 1); ("argmax", 1); ("argmin", 1); ("argpartition", 2); ("argsort", 1); ("astype", 1); ("choose", 1); ("clip", 2);
   ("compress", 2); ("conj", 0); ("conjugate", 0); ("copy", 0); ("cumprod", 2); ("cumsum", 2); ("diagonal", 3); ("dot", 1); ("max", 1); ("mean", 1);
   ("min", 1); ("nonzero", 0); ("prod", 1); ("ptp", 1); ("ravel", 1); ("repeat", 2); ("round", 1); ("searchsorted", 3); ("sort", 1); ("squeeze", 1);
   ("std", 1); ("sum", 1); ("swapaxes", 2); ("take", 2); ("trace", 4); ("var", 1)]%string.
