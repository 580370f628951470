(** What sums mean and when they are in normal form. *)
From Coq Require Import List Bool ZArith Permutation.
Import ListNotations.
From Verif Require Import IntroModel.

(** The value of an expression when the other operations mean [I] *)
Fixpoint value (I : nat -> list Z -> Z) (e : expr) : Z :=
  match e with Num z => z | Op f l => I f (map (value I) l) | Add a b => (value I a + value I b)%Z end.
(** No other operation has two arguments *)
Section AllE.
Variable P : expr -> Prop.
Fixpoint alle (l : list expr) : Prop := match l with [] => True | e :: r => P e /\ alle r end.
End AllE.
Fixpoint no_pairs (e : expr) : Prop := match e with Num _ => True | Op _ l => length l <> 2 /\ alle no_pairs l | Add a b => no_pairs a /\ no_pairs b end.
(** A sum of integers and variables *)
Fixpoint plain (e : expr) : Prop := match e with Num _ => True | Op _ l => l = [] | Add a b => plain a /\ plain b end.
(** Grouped to the left, at most one integer, which is leftmost *)
Fixpoint grouped (e : expr) : Prop := match e with Add a (Op _ _) => grouped a | Add _ _ => False | _ => True end.
(** The summands that are not integers; the sum of the integers, if there is one *)
Fixpoint summands (e : expr) : list expr := match e with Num _ => [] | Op _ _ => [e] | Add a b => summands a ++ summands b end.
Definition oplus (a b : option Z) : option Z := match a, b with Some x, Some y => Some (x + y)%Z | None, _ => b | _, None => a end.
Fixpoint total (e : expr) : option Z := match e with Num z => Some z | Op _ _ => None | Add a b => oplus (total a) (total b) end.
(** The same by commutativity, associativity and addition of integers *)
Definition same_sum (e e' : expr) : Prop := total e = total e' /\ Permutation (summands e) (summands e').
(** [r] is what [e] evaluates to *)
Definition becomes (addr : nat -> nat) (rules : list rule) (e r : expr) : Prop := exists n, forall m, n <= m -> eval addr m rules e = Ok r.
