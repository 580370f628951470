(** What sums mean, and what it is to be summed up. *)
From Coq Require Import List Bool ZArith.
Import ListNotations.
From Verif Require Import RdModel.

(** The value of an expression when the other operations mean [I] *)
Fixpoint value (I : nat -> list const -> const) (e : expr) : const :=
  match e with Num c => c | Op f l => I f (map (value I) l) | Add a b => plus (value I a) (value I b) end.
Section AllE.
Variable P : expr -> Prop.
Fixpoint alle (l : list expr) : Prop := match l with [] => True | e :: r => P e /\ alle r end.
End AllE.
(** Only integers *)
Fixpoint ints (e : expr) : Prop := match e with Num (CInt _) => True | Num (CFlt _) => False | Op _ l => alle ints l | Add a b => ints a /\ ints b end.
Definition integral (I : nat -> list const -> const) : Prop := forall f l, exists z, I f l = CInt z.
(** [run] computes what [I] means *)
Definition agrees (run : nat -> list const -> option const) (I : nat -> list const -> const) : Prop := forall f l c, run f l = Some c -> I f l = c.
(** Summed up: at most one constant, leftmost, then the other summands, summed from the left *)
Fixpoint summed (e : expr) : Prop :=
  match e with
  | Num _ => True
  | Op _ l => alle summed l
  | Add a (Op f l) => summed a /\ alle summed l
  | Add _ _ => False
  end.
(** The summands that are not constants, from left to right *)
Fixpoint summands (e : expr) : list expr := match e with Num _ => [] | Op _ _ => [e] | Add a b => summands a ++ summands b end.
(** The sum of the constants that are summands; [None] if there are none *)
Definition oplus (a b : option Z) : option Z := match a, b with Some x, Some y => Some (x + y)%Z | Some x, None => Some x | None, _ => b end.
Fixpoint total (e : expr) : option Z := match e with Num (CInt z) => Some z | Num (CFlt _) => None | Op _ _ => None | Add a b => oplus (total a) (total b) end.
(** No operation in [e] computes *)
Fixpoint idle (run : nat -> list const -> option const) (e : expr) : Prop :=
  match e with
  | Num _ => True
  | Op f l => alle (idle run) l /\ forall cs, l = map Num cs -> run f cs = None
  | Add a b => idle run a /\ idle run b
  end.
