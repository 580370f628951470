(** What terms built by Python's operators should mean. *)
From Coq Require Import List Bool Arith.
From Verif Require Import NumModel.
Import ListNotations.

Section Spec.
Variable V : Type.
Variable meth : cop -> V -> V -> option V.
(** Every comparison of numbers is answered by the method of either, in the same way. *)
Definition comparable : Prop := forall c v w, meth c v w <> None /\ meth (swap c) w v = meth c v w.
(** Expressions without [==] and [operator.index], with variables of number types. *)
Fixpoint arith (e : expr V) : Prop :=
  match e with
  | Var _ _ k => number k = true
  | Lit _ _ => True
  | Bin _ _ a b | Cmp _ _ a b => arith a /\ arith b
  | Un _ u a => u <> Index /\ arith a
  | Eq _ _ _ => False
  | If _ c a b => arith c /\ arith a /\ arith b
  end.
Fixpoint compares (e : expr V) : bool :=
  match e with
  | Var _ _ _ | Lit _ _ => false
  | Cmp _ _ _ _ | Eq _ _ _ => true
  | Bin _ _ a b => compares a || compares b
  | Un _ _ a => compares a
  | If _ c a b => compares c || compares a || compares b
  end.
(** Without [if]. *)
Fixpoint straight (e : expr V) : Prop :=
  match e with
  | Var _ _ _ | Lit _ _ => True
  | Bin _ _ a b | Cmp _ _ a b | Eq _ a b => straight a /\ straight b
  | Un _ _ a => straight a
  | If _ _ _ _ => False
  end.
(** Only binary arithmetic and [if]. *)
Fixpoint binary_only (e : expr V) : Prop :=
  match e with
  | Var _ _ k => number k = true
  | Lit _ _ => True
  | Bin _ _ a b => binary_only a /\ binary_only b
  | If _ c a b => binary_only c /\ binary_only a /\ binary_only b
  | _ => False
  end.
(** The same number, or an exception in both. *)
Definition agree (r : out V) (s : out (operand V)) : Prop :=
  match r, s with
  | Ok v, Ok (Plain _ w) => v = w
  | Exc _, Exc _ => True
  | _, _ => False
  end.
(** The same text, numbers compared by [==] and variables by name. *)
Inductive alike (same : V -> V -> bool) : operand V -> operand V -> Prop :=
| alike_plain : forall v w, same v w = true -> alike same (Plain V v) (Plain V w)
| alike_not : alike same (NotImpl V) (NotImpl V)
| alike_var : forall x k l, alike same (Term V (NVar V x k)) (Term V (NVar V x l))
| alike_bin : forall o a b a' b', alike same a a' -> alike same b b' -> alike same (Term V (NBin V o a b)) (Term V (NBin V o a' b'))
| alike_cmp : forall c a b a' b', alike same a a' -> alike same b b' -> alike same (Term V (NCmp V c a b)) (Term V (NCmp V c a' b'))
| alike_un : forall u a a', alike same a a' -> alike same (Term V (NUn V u a)) (Term V (NUn V u a')).
Definition fails {A} (r : out A) : Prop := exists x, r = Exc x.
(** Every variable handled by a number. *)
Definition handled (env : nat -> V) : nat -> option (operand V) := fun x => Some (Plain V (env x)).
End Spec.
