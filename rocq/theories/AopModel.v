(** Model of the operators of array terms: [_ArrayTerm] (effectful/handlers/jax/_terms.py 71-227) and
    [_TensorTerm] (effectful/handlers/torch.py 353-493), Python's dispatch of operators between numbers,
    arrays and terms, and [evaluate] of the terms they build. What the libraries' functions compute is a
    parameter. Not modelled: NumPy arrays as operands, [divmod] and [round], which terms do not have. *)
From Coq Require Import List Bool Arith.
Import ListNotations.

Inductive lib := Jax | Torch.
Inductive bop := Add | Sub | Mul | TrueDiv | Pow | FloorDiv | Mod | LShift | RShift | And | Xor | Or | MatMul.
Inductive cop := Lt | Le | Gt | Ge | Eq | Ne.
Inductive uop := Neg | Pos | Abs | Invert.
(** The operator the right operand is asked for *)
Definition swap (c : cop) : cop :=
  match c with Lt => Gt | Le => Ge | Gt => Lt | Ge => Le | Eq => Eq | Ne => Ne end.

(** Functions of the libraries, by what they do: [jnp.mod] and [torch.remainder] are one, [torch.fmod] another. *)
Inductive fn2 :=
| Fadd | Fsubtract | Fmultiply | Fdivide | Fpower | Ffloor_divide | Fremainder | Ffmod
| Fleft_shift | Fright_shift | Fbitwise_and | Fbitwise_xor | Fbitwise_or | Fmatmul
| Fless | Fless_equal | Fgreater | Fgreater_equal | Fequal | Fnot_equal.
Inductive fn1 := Fnegative | Fpositive | Fabs | Fbitwise_not.

(** [_ArrayTerm.__add__] etc. (jax/_terms.py 113-219), [_TensorTerm.__add__] etc. (torch.py 384-490); the
    reflected methods use the same functions with the other operand first. *)
Definition term_bin (l : lib) (o : bop) : fn2 :=
  match l, o with
  | _, Add => Fadd | _, Sub => Fsubtract | _, Mul => Fmultiply | _, TrueDiv => Fdivide | _, Pow => Fpower
  | _, FloorDiv => Ffloor_divide
  | Jax, Mod => Fremainder
  | Torch, Mod => Ffmod                            (* torch.py 435-439 *)
  | _, LShift => Fleft_shift | _, RShift => Fright_shift
  | _, And => Fbitwise_and | _, Xor => Fbitwise_xor | _, Or => Fbitwise_or
  | _, MatMul => Fmatmul
  end.
(** [__eq__], [__lt__] etc. (jax/_terms.py 152-180, torch.py 423-451) *)
Definition term_cmp (l : lib) (c : cop) : fn2 :=
  match c with
  | Lt => Fless | Le => Fless_equal | Gt => Fgreater | Ge => Fgreater_equal | Eq => Fequal | Ne => Fnot_equal
  end.
(** [__neg__] etc. (jax/_terms.py 119-123, 149-150, 212-213; torch.py 390-394, 420-421, 483-484) *)
Definition term_un (l : lib) (u : uop) : fn1 :=
  match u with Neg => Fnegative | Pos => Fpositive | Abs => Fabs | Invert => Fbitwise_not end.

(** The operators of the libraries' own arrays (their documentation): [%] is the remainder with the sign of
    the divisor in both. *)
Definition array_bin (o : bop) : fn2 :=
  match o with
  | Add => Fadd | Sub => Fsubtract | Mul => Fmultiply | TrueDiv => Fdivide | Pow => Fpower
  | FloorDiv => Ffloor_divide | Mod => Fremainder | LShift => Fleft_shift | RShift => Fright_shift
  | And => Fbitwise_and | Xor => Fbitwise_xor | Or => Fbitwise_or | MatMul => Fmatmul
  end.
Definition array_cmp (c : cop) : fn2 :=
  match c with
  | Lt => Fless | Le => Fless_equal | Gt => Fgreater | Ge => Fgreater_equal | Eq => Fequal | Ne => Fnot_equal
  end.
Definition array_un (u : uop) : fn1 :=
  match u with Neg => Fnegative | Pos => Fpositive | Abs => Fabs | Invert => Fbitwise_not end.

Inductive exn := TypeError | Raised (n : nat).
Inductive out (A : Type) := Ok (a : A) | Exc (e : exn).
Arguments Ok {A}. Arguments Exc {A}.
Definition bind {A B} (r : out A) (f : A -> out B) : out B := match r with Ok a => f a | Exc e => Exc e end.

Section Arrays.
Variable V : Type.                                 (* numbers and arrays *)
Variable is_num : V -> bool.
Variable prim : bop -> V -> V -> out V.            (* Python's operators on two numbers *)
Variable primc : cop -> V -> V -> out V.
Variable primu : uop -> V -> out V.
Variable sem2 : fn2 -> V -> V -> out V.            (* the libraries' functions *)
Variable sem1 : fn1 -> V -> out V.
Variable truth : V -> out bool.                    (* [bool()]: an array of several elements raises *)

Inductive operand := Val (v : V) | Term (t : term)
with term :=
| TVar (x : nat)                                   (* [defop(jax.Array)()] *)
| TFn2 (f : fn2) (a b : operand)
| TFn1 (f : fn1) (a : operand).

(** Calling a registered function (jax/_handlers.py 124-157, torch.py 229-264): on arrays it computes, a free
    term among the arguments gives a term. *)
Definition call2 (f : fn2) (a b : operand) : out operand :=
  match a, b with
  | Val v, Val w => bind (sem2 f v w) (fun r => Ok (Val r))
  | _, _ => Ok (Term (TFn2 f a b))
  end.
Definition call1 (f : fn1) (a : operand) : out operand :=
  match a with
  | Val v => bind (sem1 f v) (fun r => Ok (Val r))
  | Term _ => Ok (Term (TFn1 f a))
  end.

(** Python on values alone: arrays answer for numbers on either side, comparisons with the operator swapped. *)
Definition plain_bin (o : bop) (v w : V) : out V :=
  if is_num v && is_num w then prim o v w else sem2 (array_bin o) v w.
Definition plain_cmp (c : cop) (v w : V) : out V :=
  if is_num v then if is_num w then primc c v w else sem2 (array_cmp (swap c)) w v
  else sem2 (array_cmp c) v w.
Definition plain_un (u : uop) (v : V) : out V :=
  if is_num v then primu u v else sem1 (array_un u) v.

(** Python's [a + b]. A number defers to the reflected method of the term, and so does a JAX array; a tensor
    hands its own method to [__torch_function__] (torch.py 378-382, 338-350), which registers and calls it. *)
Definition binary (l : lib) (o : bop) (a b : operand) : out operand :=
  match a, b with
  | Val v, Val w => bind (plain_bin o v w) (fun r => Ok (Val r))
  | Term _, _ => call2 (term_bin l o) a b
  | Val v, Term _ =>
      match l with
      | Jax => call2 (term_bin l o) a b
      | Torch => if is_num v then call2 (term_bin l o) a b else call2 (array_bin o) a b
      end
  end.
Definition compare (l : lib) (c : cop) (a b : operand) : out operand :=
  match a, b with
  | Val v, Val w => bind (plain_cmp c v w) (fun r => Ok (Val r))
  | Term _, _ => call2 (term_cmp l c) a b
  | Val v, Term _ =>
      match l with
      | Jax => call2 (term_cmp l (swap c)) b a
      | Torch => if is_num v then call2 (term_cmp l (swap c)) b a else call2 (array_cmp c) a b
      end
  end.
Definition prefix (l : lib) (u : uop) (a : operand) : out operand :=
  match a with
  | Val v => bind (plain_un u v) (fun r => Ok (Val r))
  | Term _ => call1 (term_un l u) a
  end.
(** [bool(a)]: [_ArrayTerm] has [__len__] (jax/_terms.py 102-103), which returns a term: [TypeError].
    [_TensorTerm] has neither [__len__] nor [__bool__]: true. *)
Definition test (l : lib) (a : operand) : out bool :=
  match a with
  | Val v => truth v
  | Term _ => match l with Jax => Exc TypeError | Torch => Ok true end
  end.

Inductive expr :=
| Var (x : nat)
| Lit (v : V)
| Bin (o : bop) (a b : expr)
| Cmp (c : cop) (a b : expr)
| Un (u : uop) (a : expr)
| If (c a b : expr).

(** Running the source with its variables unhandled *)
Fixpoint build (l : lib) (e : expr) : out operand :=
  match e with
  | Var x => Ok (Term (TVar x))
  | Lit v => Ok (Val v)
  | Bin o a b => bind (build l a) (fun a' => bind (build l b) (fun b' => binary l o a' b'))
  | Cmp c a b => bind (build l a) (fun a' => bind (build l b) (fun b' => compare l c a' b'))
  | Un u a => bind (build l a) (prefix l u)
  | If c a b => bind (build l c) (fun c' => bind (test l c') (fun t => if t then build l a else build l b))
  end.
(** Running it on arrays *)
Fixpoint direct (env : nat -> V) (e : expr) : out V :=
  match e with
  | Var x => Ok (env x)
  | Lit v => Ok v
  | Bin o a b => bind (direct env a) (fun v => bind (direct env b) (fun w => plain_bin o v w))
  | Cmp c a b => bind (direct env a) (fun v => bind (direct env b) (fun w => plain_cmp c v w))
  | Un u a => bind (direct env a) (plain_un u)
  | If c a b => bind (direct env c) (fun v => bind (truth v) (fun t => if t then direct env a else direct env b))
  end.

(** [evaluate] (effectful/ops/semantics.py 118-226) under handlers of the variables; a variable without a
    handler stays. *)
Fixpoint eval (env : nat -> option operand) (a : operand) : out operand :=
  match a with
  | Val _ => Ok a
  | Term t => eval_term env t
  end
with eval_term (env : nat -> option operand) (t : term) : out operand :=
  match t with
  | TVar x => Ok (match env x with Some r => r | None => Term t end)
  | TFn2 f a b => bind (eval env a) (fun a' => bind (eval env b) (fun b' => call2 f a' b'))
  | TFn1 f a => bind (eval env a) (call1 f)
  end.
End Arrays.
