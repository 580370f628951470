(** Model of number terms (effectful/ops/syntax.py 1006-1369): Python's operators on terms and numbers,
    the operations behind them, and [evaluate] of the terms they build. The numbers themselves are
    parameters. Not modelled: handlers of the arithmetic operations themselves, [divmod], [@], three-argument
    [pow], [bool()] on objects that are not numbers. *)
From Coq Require Import List Bool Arith.
Import ListNotations.

(** Term classes: [_NumberTerm] (1007) and its subclasses (1341-1369), [_BaseTerm] for any other type. *)
Inductive kind := KBool | KIntegral | KRational | KReal | KComplex | KNumber | KObject.
Definition rank (k : kind) : nat :=
  match k with KBool => 0 | KIntegral => 1 | KRational => 2 | KReal => 3 | KComplex => 4 | KNumber => 5 | KObject => 6 end.
(** [issubclass] among the classes of number terms *)
Definition number (k : kind) : bool := match k with KObject => false | _ => true end.
Definition subkind (k l : kind) : bool := number k && number l && Nat.leb (rank k) (rank l).

Inductive bop := Add | Sub | Mul | TrueDiv | FloorDiv | Mod | Pow | LShift | RShift | And | Xor | Or.
Inductive cop := Lt | Gt | Le | Ge.
Inductive uop := Conjugate | Abs | Neg | Pos | Trunc | Floor | Ceil | Round | Invert | Index.
Definition swap (c : cop) : cop := match c with Lt => Gt | Gt => Lt | Le => Ge | Ge => Le end.

Inductive exn := TypeError | AttributeError | ValueError | NotHandled | Raised (n : nat).
Inductive out (A : Type) := Ok (a : A) | Exc (e : exn).
Arguments Ok {A}. Arguments Exc {A}.
Definition bind {A B} (r : out A) (f : A -> out B) : out B := match r with Ok a => f a | Exc e => Exc e end.

Section Numbers.
Variable V : Type.
Variable vkind : V -> kind.                       (* the term class for the type of a number *)
Variable prim : bop -> V -> V -> out V.           (* [operator.__add__] etc. on numbers *)
Variable unary : uop -> V -> option (out V).      (* [v.__neg__()] etc.; [None]: no such method *)
Variable meth : cop -> V -> V -> option V.        (* [v.__lt__(w)] etc.; [None]: [NotImplemented] *)
Variable below : V -> V -> bool.                  (* [type(w)] is a proper subclass of [type(v)] *)
Variable truth : V -> bool.
Variable same : V -> V -> bool.                   (* [v == w] *)
Variable of_bool : bool -> V.

(** Terms and what may stand beside them: a number, [NotImplemented], a term. *)
Inductive operand := Plain (v : V) | NotImpl | Term (t : term)
with term :=
| NVar (x : nat) (k : kind)                       (* [defop(T)()], by the term class for [T] *)
| NBin (o : bop) (a b : operand)
| NCmp (c : cop) (a b : operand)
| NUn (u : uop) (a : operand).
(** The class of a term, by the return annotation of its operation: [-> T] for [other: T] (1129-1338),
    for [self: T] (1060-1072), [-> bool] (1115-1155), [-> float], [-> int], [-> Real], [-> complex] *)
Fixpoint kind_of (a : operand) : kind :=
  match a with
  | Plain v => vkind v
  | NotImpl => KObject
  | Term t => tkind t
  end
with tkind (t : term) : kind :=
  match t with
  | NVar _ k => k
  | NBin _ _ b => kind_of b
  | NCmp _ _ _ => KBool
  | NUn u a => match u with Neg | Pos => kind_of a | Abs | Round => KReal | Conjugate => KComplex | _ => KIntegral end
  end.

(** Calling an operation: its default rule, [defdata] if it raises [NotHandled]. *)
(** [__add__] etc. (1129-1338) *)
Definition call_bin (o : bop) (a b : operand) : out operand :=
  match a, b with
  | Plain v, Plain w => bind (prim o v w) (fun r => Ok (Plain r))
  | Term _, _ | _, Term _ => Ok (Term (NBin o a b))
  | _, _ => Exc TypeError
  end.
(** [__lt__] etc. (1122-1155) *)
Definition call_cmp (c : cop) (a b : operand) : out operand :=
  match a, b with
  | Plain v, Plain w => Ok (match meth c v w with Some r => Plain r | None => NotImpl end)
  | Term _, _ | _, Term _ => Ok (Term (NCmp c a b))
  | _, _ => Ok NotImpl
  end.
(** [__neg__] etc. (1033-1112) *)
Definition call_un (u : uop) (a : operand) : out operand :=
  match a with
  | Plain v => match unary u v with Some r => bind r (fun r => Ok (Plain r)) | None => Exc AttributeError end
  | Term _ => Ok (Term (NUn u a))
  | NotImpl => Exc AttributeError
  end.

(** [__radd__] etc. (1136-1338): [b] is the term, [a] the other; [None]: [NotImplemented] *)
Definition reflected (o : bop) (a : operand) (b : term) : option (out operand) :=
  match a with
  | Term t => if subkind (tkind t) (tkind b) then Some (call_bin o a (Term b)) else None
  | _ => Some (call_bin o a (Term b))
  end.
(** Python's [a + b] etc.: the method of the left, which a number has only for numbers and a term only
    if it is a number term, then the reflected one of the right. No term class overrides a reflected
    method, so the right one never goes first. *)
Definition binary (o : bop) (a b : operand) : out operand :=
  match a, b with
  | Plain v, Plain w => bind (prim o v w) (fun r => Ok (Plain r))
  | Term t, _ =>
      if number (tkind t) then call_bin o a b else
      match b with
      | Term u => if number (tkind u) then match reflected o a u with Some r => r | None => Exc TypeError end else Exc TypeError
      | _ => Exc TypeError
      end
  | _, Term u => if number (tkind u) then match reflected o a u with Some r => r | None => Exc TypeError end else Exc TypeError
  | _, _ => Exc TypeError
  end.
(** Python's [v < w] on numbers: the right one goes first if its class is a proper subclass *)
Definition py_cmp (c : cop) (v w : V) : out V :=
  match (if below v w then meth (swap c) w v else None) with
  | Some r => Ok r
  | None =>
      match meth c v w with
      | Some r => Ok r
      | None => match meth (swap c) w v with Some r => Ok r | None => Exc TypeError end
      end
  end.
(** Python's [a < b], here the right one goes first whether it overrides the method or not *)
Definition compare (c : cop) (a b : operand) : out operand :=
  match a, b with
  | Plain v, Plain w => bind (py_cmp c v w) (fun r => Ok (Plain r))
  | Term t, Term u =>
      if number (tkind t) then
        if subkind (tkind u) (tkind t) && negb (subkind (tkind t) (tkind u)) then call_cmp (swap c) b a else call_cmp c a b
      else if number (tkind u) then call_cmp (swap c) b a else Exc TypeError
  | Term t, _ => if number (tkind t) then call_cmp c a b else Exc TypeError
  | _, Term u => if number (tkind u) then call_cmp (swap c) b a else Exc TypeError
  | _, _ => Exc TypeError
  end.
(** [-a], [abs(a)], [math.floor(a)] etc.; [operator.index] insists on an integer. *)
Definition prefix (u : uop) (a : operand) : out operand :=
  match a with
  | Plain v => match unary u v with Some r => bind r (fun r => Ok (Plain r)) | None => Exc TypeError end
  | NotImpl => Exc TypeError
  | Term t => if number (tkind t) then match u with Index => Exc TypeError | _ => call_un u a end else Exc TypeError
  end.
(** [syntactic_eq] (775-886) *)
Definition bop_eqb (a b : bop) : bool :=
  match a, b with
  | Add, Add | Sub, Sub | Mul, Mul | TrueDiv, TrueDiv | FloorDiv, FloorDiv | Mod, Mod | Pow, Pow | LShift, LShift | RShift, RShift
  | And, And | Xor, Xor | Or, Or => true
  | _, _ => false
  end.
Definition cop_eqb (a b : cop) : bool := match a, b with Lt, Lt | Gt, Gt | Le, Le | Ge, Ge => true | _, _ => false end.
Definition uop_eqb (a b : uop) : bool :=
  match a, b with
  | Conjugate, Conjugate | Abs, Abs | Neg, Neg | Pos, Pos | Trunc, Trunc | Floor, Floor | Ceil, Ceil | Round, Round | Invert, Invert | Index, Index => true
  | _, _ => false
  end.
Fixpoint syn_eq (a b : operand) : bool :=
  match a, b with
  | Plain v, Plain w => same v w
  | NotImpl, NotImpl => true
  | Term t, Term u => syn_teq t u
  | _, _ => false
  end
with syn_teq (t u : term) : bool :=
  match t, u with
  | NVar x _, NVar y _ => Nat.eqb x y
  | NBin o a b, NBin o' a' b' => bop_eqb o o' && syn_eq a a' && syn_eq b b'
  | NCmp c a b, NCmp c' a' b' => cop_eqb c c' && syn_eq a a' && syn_eq b b'
  | NUn u a, NUn u' a' => uop_eqb u u' && syn_eq a a'
  | _, _ => false
  end.

(** Python source: variables (calls of nullary operations), literals, operators, [x == y], [a if c else b] *)
Inductive expr :=
| Var (x : nat) (k : kind)
| Lit (v : V)
| Bin (o : bop) (a b : expr)
| Cmp (c : cop) (a b : expr)
| Un (u : uop) (a : expr)
| Eq (a b : expr)
| If (c a b : expr).
(** Running it with the variables unhandled: it builds a term, or computes a number. *)
Fixpoint build (e : expr) : out operand :=
  match e with
  | Var x k => Ok (Term (NVar x k))
  | Lit v => Ok (Plain v)
  | Bin o a b => bind (build a) (fun a' => bind (build b) (fun b' => binary o a' b'))
  | Cmp c a b => bind (build a) (fun a' => bind (build b) (fun b' => compare c a' b'))
  | Un u a => bind (build a) (prefix u)
  | Eq a b => bind (build a) (fun a' => bind (build b) (fun b' => Ok (Plain (of_bool (syn_eq a' b')))))
  | If c a b =>
      bind (build c) (fun c' =>
      match c' with
      | Plain v => if truth v then build a else build b
      | NotImpl => Exc TypeError
      | Term t => if number (tkind t) then Exc ValueError else build a       (* [__bool__] (1022-1023) *)
      end)
  end.
(** Running it with the variables standing for numbers: plain Python. *)
Fixpoint direct (env : nat -> V) (e : expr) : out V :=
  match e with
  | Var x _ => Ok (env x)
  | Lit v => Ok v
  | Bin o a b => bind (direct env a) (fun v => bind (direct env b) (fun w => prim o v w))
  | Cmp c a b => bind (direct env a) (fun v => bind (direct env b) (fun w => py_cmp c v w))
  | Un u a => bind (direct env a) (fun v => match unary u v with Some r => r | None => Exc TypeError end)
  | Eq a b => bind (direct env a) (fun v => bind (direct env b) (fun w => Ok (of_bool (same v w))))
  | If c a b => bind (direct env c) (fun v => if truth v then direct env a else direct env b)
  end.
(** [evaluate] (effectful/ops/semantics.py 118-226) under handlers of the variables: the arguments first,
    left to right, then the operation; a variable without a handler stays. *)
Fixpoint eval (env : nat -> option operand) (a : operand) : out operand :=
  match a with
  | Plain _ | NotImpl => Ok a
  | Term t => eval_term env t
  end
with eval_term (env : nat -> option operand) (t : term) : out operand :=
  match t with
  | NVar x _ => Ok (match env x with Some r => r | None => Term t end)
  | NBin o a b => bind (eval env a) (fun a' => bind (eval env b) (fun b' => call_bin o a' b'))
  | NCmp c a b => bind (eval env a) (fun a' => bind (eval env b) (fun b' => call_cmp c a' b'))
  | NUn u a => bind (eval env a) (call_un u)
  end.
End Numbers.
