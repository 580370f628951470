(** Model of the introduction (docs/source/introduction.ipynb, lines of the file): the rules for addition of part 3
    (112-117, 217-221, 299-305, 423-449), their coproduct (482-491) and sums written under it, and the helper [fails] (36-48).
    Simplified: constants are integers; the other operations have no handler and leave a term; a term of another operation has
    positional arguments only; terms of [add] have two arguments, as the rules make them. *)
From Coq Require Import List Bool Arith ZArith.
Import ListNotations.

(** [Op f []] is the variable [f()], [Add] a term of the operation [add] *)
Inductive expr := Num (z : Z) | Op (f : nat) (l : list expr) | Add (a b : expr).
Inductive res (A : Type) := Ok (a : A) | Out.
Arguments Ok {A}. Arguments Out {A}.
Definition bind {A B} (r : res A) (f : A -> res B) : res B := match r with Ok a => f a | Out => Out end.

(** The pattern for the keyword arguments of a term: [{}] is a mapping pattern and matches every mapping, [()] is a sequence
    pattern; the keyword arguments of a term are a mapping (effectful/ops/syntax.py 584, 592-594). *)
Inductive pattern := PMapping | PSequence.
Definition matches_kwargs (p : pattern) : bool := match p with PMapping => true | PSequence => false end.
Inductive rule := Eager | AssocCommute (p : pattern) | Commute | Assoc.

Section Rules.
(** [id] of an operation *)
Variable addr : nat -> nat.
Section Rec.
(** [add] under the handlers *)
Variable add : expr -> expr -> res expr.
(** [eager_add] (299-305), [associative_commutative_add] (443-448), [commutative_add] (423-430), [associative_add] (433-438);
    [None] is [fwd()]. The patterns ask for a number of arguments, not for an operation. *)
Definition fire (r : rule) (x y : expr) : option (res expr) :=
  match r, x, y with
  | Eager, Num u, Num v => Some (Ok (Num (u + v)))
  | AssocCommute p, (Add l (Op m []) | Op _ [l; Op m []]), Op v [] =>
      if matches_kwargs p && (addr m <? addr v) then Some (bind (add l y) (fun u => add u (Op m []))) else None
  | Commute, (Op _ _ | Add _ _), Num _ => Some (add y x)
  | Commute, Op u [], Op v [] => if addr u <? addr v then Some (add y x) else None
  | Assoc, _, (Add a b | Op _ [a; b]) => Some (bind (add x a) (fun u => add u b))
  | _, _, _ => None
  end.
(** the rules from the outermost, at last [free_add] (217-221) (C05, C06) *)
Fixpoint try (rules : list rule) (x y : expr) : res expr :=
  match rules with
  | [] => Ok (Add x y)
  | r :: rest => match fire r x y with Some q => q | None => try rest x y end
  end.
End Rec.
Fixpoint call (fuel : nat) (rules : list rule) (x y : expr) : res expr :=
  match fuel with 0 => Out | S n => try (call n rules) rules x y end.
(** [add_stack] (482-491): the last is outermost; the pattern in [associative_commutative_add] (445) is [Term(mv, (), ())] *)
Definition stack (p : pattern) : list rule := [Assoc; Commute; AssocCommute p; Eager].
Definition add_stack : list rule := stack PSequence.

(** a sum as it is written, under the handlers *)
Section Each.
Variable f : expr -> res expr.
Fixpoint each (l : list expr) : res (list expr) := match l with [] => Ok [] | e :: r => bind (f e) (fun v => bind (each r) (fun q => Ok (v :: q))) end.
End Each.
Fixpoint eval (fuel : nat) (rules : list rule) (e : expr) : res expr :=
  match e with
  | Num z => Ok (Num z)
  | Op f l => bind (each (eval fuel rules) l) (fun l' => Ok (Op f l'))
  | Add a b => bind (eval fuel rules a) (fun u => bind (eval fuel rules b) (fun v => call fuel rules u v))
  end.
End Rules.

(** [fails(fn, raising)] (36-48): [r] is what [fn] raises, classes of exceptions are sets; the value is what [fails] raises *)
Section Fails.
Variable exn : Type.
Variable runtime_error : exn.
Definition fails (raising : exn -> bool) (r : option exn) : option exn :=
  let e := match r with Some e => e | None => runtime_error end in
  if negb (raising e) then Some runtime_error else None.
End Fails.
