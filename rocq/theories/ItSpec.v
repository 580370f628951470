(** What programs over iterables mean in Python: iterators are consumed step by step. *)
From Coq Require Import List ZArith Arith.
From Verif Require Import ItModel.
Import ListNotations.
Local Open Scope list_scope.

(** The value of what is returned *)
Inductive value (vs : list Z) : pexp -> Z -> Prop :=
| va_val : forall n z, nth_error vs n = Some z -> value vs (PVal n) z
| va_lit : forall z, value vs (PLit z) z
| va_add : forall a b x y, value vs a x -> value vs b y -> value vs (PAdd a b) (x + y).
(** Outcomes: a number with what the iterators have left, or StopIteration *)
Inductive out := ODone (z : Z) (h : list (list Z)) | OStop.
(** Runs: [h] what the iterators have left, [its] the iterators of the program, [vs] its values *)
Inductive runs (env : nat -> val) : list (list Z) -> list nat -> list Z -> prog -> out -> Prop :=
| ru_list : forall h its vs s l k o, env s = VSeq l -> runs env (h ++ [l]) (its ++ [length h]) vs k o -> runs env h its vs (PIter s k) o
| ru_iterator : forall h its vs s i k o, env s = VIt i -> runs env h (its ++ [i]) vs k o -> runs env h its vs (PIter s k) o
| ru_again : forall h its vs n i k o, nth_error its n = Some i -> runs env h (its ++ [i]) vs k o -> runs env h its vs (PAgain n k) o
| ru_next : forall a x r b its vs n k o, nth_error its n = Some (length a) -> runs env (a ++ r :: b) its (vs ++ [x]) k o ->
    runs env (a ++ (x :: r) :: b) its vs (PNext n k) o
| ru_stop : forall a b its vs n k, nth_error its n = Some (length a) -> runs env (a ++ [] :: b) its vs (PNext n k) OStop
| ru_sum : forall a l b its vs n k o, nth_error its n = Some (length a) -> runs env (a ++ [] :: b) its (vs ++ [fold_right Z.add 0%Z l]) k o ->
    runs env (a ++ l :: b) its vs (PSum n k) o
| ru_ret : forall h its vs e z, value vs e z -> runs env h its vs (PRet e) (ODone z h).

(** No loops, and every iterator made from a collection is advanced at most once. Each iterator is given with the variable it
    comes from and the number of the [iter] that made it; [used]: those already advanced. *)
Inductive once_each (env : nat -> val) : list (nat * nat) -> list nat -> nat -> prog -> Prop :=
| oe_iter : forall its used n s k, once_each env (its ++ [(s, n)]) used (S n) k -> once_each env its used n (PIter s k)
| oe_again : forall its used n i q k, nth_error its i = Some q -> once_each env (its ++ [q]) used n k -> once_each env its used n (PAgain i k)
| oe_iterator : forall its used n i s r j k, nth_error its i = Some (s, r) -> env s = VIt j -> once_each env its used n k -> once_each env its used n (PNext i k)
| oe_list : forall its used n i s r l k, nth_error its i = Some (s, r) -> env s = VSeq l -> ~ In r used -> once_each env its (r :: used) n k ->
    once_each env its used n (PNext i k)
| oe_ret : forall its used n e, once_each env its used n (PRet e).

(** The values mentioned, from the left *)
Fixpoint mentioned (e : pexp) : list nat := match e with PVal n => [n] | PLit _ => [] | PAdd a b => mentioned a ++ mentioned b end.
(** What is returned mentions every value once, in the order in which they were taken. *)
Inductive in_order : nat -> prog -> Prop :=
| io_iter : forall n s k, in_order n k -> in_order n (PIter s k)
| io_again : forall n i k, in_order n k -> in_order n (PAgain i k)
| io_next : forall n i k, in_order (S n) k -> in_order n (PNext i k)
| io_sum : forall n i k, in_order (S n) k -> in_order n (PSum i k)
| io_ret : forall n e, mentioned e = seq 0 n -> in_order n (PRet e).
(** A loop somewhere *)
Inductive loops : prog -> Prop :=
| lo_here : forall i k, loops (PSum i k)
| lo_iter : forall s k, loops k -> loops (PIter s k)
| lo_again : forall i k, loops k -> loops (PAgain i k)
| lo_next : forall i k, loops k -> loops (PNext i k).
(** What evaluation computes instead: every [next] on a collection gives its first element. [its]: the variables the iterators
    come from. *)
Inductive firsts (env : nat -> val) : list nat -> list Z -> prog -> Z -> Prop :=
| fi_iter : forall its vs s k z, firsts env (its ++ [s]) vs k z -> firsts env its vs (PIter s k) z
| fi_again : forall its vs i s k z, nth_error its i = Some s -> firsts env (its ++ [s]) vs k z -> firsts env its vs (PAgain i k) z
| fi_next : forall its vs i s x l k z, nth_error its i = Some s -> env s = VSeq (x :: l) -> firsts env its (vs ++ [x]) k z -> firsts env its vs (PNext i k) z
| fi_ret : forall its vs e z, value vs e z -> firsts env its vs (PRet e) z.
