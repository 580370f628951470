(** Model of the example of the README (docs/source/readme_example.py): the three rules for addition (11-32), their
    coproduct (39) and evaluation under it (47), with the default rule of addition (effectful/ops/syntax.py 1161-1165), the
    reflected addition (1167-1173) and [evaluate] (effectful/ops/semantics.py 251-314). Simplified: constants are integers and
    floats; the other operations are numbers without handler, whose default rule either computes from constants or leaves the
    term. *)
From Coq Require Import List Bool ZArith Floats.SpecFloat.
Import ListNotations.

Inductive const := CInt (z : Z) | CFlt (f : spec_float).
Definition to_float (c : const) : spec_float := match c with CInt z => binary_normalize 53 1024 z 0 false | CFlt f => f end.
(** Python's [+] on constants *)
Definition plus (a b : const) : const :=
  match a, b with CInt x, CInt y => CInt (x + y) | _, _ => CFlt (SFadd 53 1024 (to_float a) (to_float b)) end.
Inductive expr := Num (c : const) | Op (f : nat) (l : list expr) | Add (a b : expr).

Inductive res (A : Type) := Ok (a : A) | Out.
Arguments Ok {A}. Arguments Out {A}.
Definition bind {A B} (r : res A) (f : A -> res B) : res B := match r with Ok a => f a | Out => Out end.

Inductive rule := Beta | Commute | Assoc.
Section Rec.
(** Python's [+] under the handlers *)
Variable py : expr -> expr -> res expr.
(** [beta_add] (11-16), [commute_add] (19-24), [assoc_add] (27-32); [None] is [fwd()] *)
Definition fire (r : rule) (x y : expr) : option (res expr) :=
  match r, x, y with
  | Beta, Num (CInt u), Num (CInt v) => Some (Ok (Num (CInt (u + v))))
  | Commute, (Op _ _ | Add _ _), Num (CInt _) => Some (py y x)
  | Assoc, _, Add a b => Some (bind (py x a) (fun u => py u b))
  | _, _, _ => None
  end.
(** the default rule (syntax.py 1161-1165) *)
Definition default (x y : expr) : expr := match x, y with Num u, Num v => Num (plus u v) | _, _ => Add x y end.
(** a call of the operation: the rules from the outermost, then the default (C05, C06) *)
Fixpoint call (rules : list rule) (x y : expr) : res expr :=
  match rules with
  | [] => Ok (default x y)
  | r :: rest => match fire r x y with Some q => q | None => call rest x y end
  end.
End Rec.
(** [x + y]: constants are added by Python, otherwise [__add__] or [__radd__] calls the operation *)
Fixpoint py (fuel : nat) (rules : list rule) (x y : expr) : res expr :=
  match fuel with
  | 0 => Out
  | S n => match x, y with Num u, Num v => Ok (Num (plus u v)) | _, _ => call (py n rules) rules x y end
  end.
(** [functools.reduce(coproduct, (beta_rules, commute_rules, assoc_rules))] (39): the last is outermost *)
Definition eager_mixed : list rule := [Assoc; Commute; Beta].

(** [evaluate] (47) *)
Section Each.
Variable f : expr -> res expr.
Fixpoint each (l : list expr) : res (list expr) := match l with [] => Ok [] | e :: r => bind (f e) (fun v => bind (each r) (fun q => Ok (v :: q))) end.
End Each.
Definition nums (l : list expr) : option (list const) :=
  fold_right (fun e q => match e, q with Num c, Some q => Some (c :: q) | _, _ => None end) (Some []) l.
Section Eval.
(** the default rules of the other operations on constants *)
Variable run : nat -> list const -> option const.
Definition other (f : nat) (l : list expr) : expr :=
  match nums l with Some cs => match run f cs with Some c => Num c | None => Op f l end | None => Op f l end.
Fixpoint eval (fuel : nat) (rules : list rule) (e : expr) : res expr :=
  match e with
  | Num c => Ok (Num c)
  | Op f l => bind (each (eval fuel rules) l) (fun l' => Ok (other f l'))
  | Add a b => bind (eval fuel rules a) (fun u => bind (eval fuel rules b) (fun v => call (py fuel rules) rules u v))
  end.
End Eval.
