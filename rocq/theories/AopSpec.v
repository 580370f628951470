(** What it means that array terms behave like arrays. *)
From Coq Require Import List Bool ZArith.
Import ListNotations.
From Verif Require Import AopModel.

Section Spec.
Variable V : Type.

(** The same value, or both fail. *)
Definition same (a : out V) (b : out (operand V)) : Prop :=
  match a, b with
  | Ok v, Ok (Val _ w) => v = w
  | Exc _, Exc _ => True
  | _, _ => False
  end.
Definition both (a b : out (operand V)) : Prop :=
  match a, b with
  | Ok v, Ok w => v = w
  | Exc _, Exc _ => True
  | _, _ => False
  end.
Definition with_arrays (env : nat -> V) : nat -> option (operand V) := fun x => Some (Val V (env x)).

(** No [if] on a result, no [%] (for PyTorch). *)
Fixpoint branches (e : expr V) : bool :=
  match e with
  | Var _ _ | Lit _ _ => false
  | Bin _ _ a b | Cmp _ _ a b => branches a || branches b
  | Un _ _ a => branches a
  | If _ _ _ _ => true
  end.
Fixpoint takes_mod (e : expr V) : bool :=
  match e with
  | Var _ _ | Lit _ _ => false
  | Bin _ o a b => match o with Mod => true | _ => takes_mod a || takes_mod b end
  | Cmp _ _ a b => takes_mod a || takes_mod b
  | Un _ _ a => takes_mod a
  | If _ c a b => takes_mod c || takes_mod a || takes_mod b
  end.
Definition supported (l : lib) (e : expr V) : Prop :=
  branches e = false /\ (l = Torch -> takes_mod e = false).

(** Results of the libraries' functions are arrays, never Python numbers. *)
Definition gives_arrays (is_num : V -> bool) (sem2 : fn2 -> V -> V -> out V) (sem1 : fn1 -> V -> out V) : Prop :=
  (forall f v w r, sem2 f v w = Ok r -> is_num r = false) /\
  (forall f v r, sem1 f v = Ok r -> is_num r = false).
(** [a < b] is [b > a] and so on. *)
Definition mirrors (sem2 : fn2 -> V -> V -> out V) : Prop :=
  forall v w,
    sem2 Fless v w = sem2 Fgreater w v /\ sem2 Fless_equal v w = sem2 Fgreater_equal w v /\
    sem2 Fequal v w = sem2 Fequal w v /\ sem2 Fnot_equal v w = sem2 Fnot_equal w v.
(** Handlers of some variables, then of others; handlers that give values *)
Definition later (E1 E2 : nat -> option (operand V)) : nat -> option (operand V) :=
  fun x => match E1 x with Some r => Some r | None => E2 x end.
Definition values (E : nat -> option (operand V)) : Prop := forall x r, E x = Some r -> exists v, r = Val V v.
End Spec.

(** A library of integers: arrays of one element. Division and remainder raise on zero. *)
Inductive value := VNum (n : Z) | VArr (n : Z).
Definition int_of (v : value) : Z := match v with VNum n | VArr n => n end.
Definition num_v (v : value) : bool := match v with VNum _ => true | VArr _ => false end.
Definition b2z (b : bool) : Z := if b then 1%Z else 0%Z.
Definition nonzero (b : Z) (r : Z) : out Z := if Z.eqb b 0 then Exc (Raised 0) else Ok r.
Definition int_bin (o : bop) (a b : Z) : out Z :=
  match o with
  | Add => Ok (a + b)%Z | Sub => Ok (a - b)%Z | Mul => Ok (a * b)%Z
  | TrueDiv => nonzero b (Z.div a b)
  | Pow => Ok (Z.pow a b)
  | FloorDiv => nonzero b (Z.div a b) | Mod => nonzero b (Z.modulo a b)
  | LShift => Ok (Z.shiftl a b) | RShift => Ok (Z.shiftr a b)
  | And => Ok (Z.land a b) | Xor => Ok (Z.lxor a b) | Or => Ok (Z.lor a b)
  | MatMul => Exc TypeError
  end.
Definition int_cmp (c : cop) (a b : Z) : Z :=
  b2z match c with
      | Lt => Z.ltb a b | Le => Z.leb a b | Gt => Z.ltb b a | Ge => Z.leb b a
      | Eq => Z.eqb a b | Ne => negb (Z.eqb a b)
      end.
Definition int_un (u : uop) (a : Z) : Z :=
  match u with Neg => (- a)%Z | Pos => a | Abs => Z.abs a | Invert => Z.lnot a end.
Definition int_fn2 (f : fn2) (a b : Z) : out Z :=
  match f with
  | Fadd => Ok (a + b)%Z | Fsubtract => Ok (a - b)%Z | Fmultiply => Ok (a * b)%Z
  | Fdivide | Ffloor_divide => nonzero b (Z.div a b)
  | Fpower => Ok (Z.pow a b)
  | Fremainder => nonzero b (Z.modulo a b)          (* sign of the divisor *)
  | Ffmod => nonzero b (Z.rem a b)                  (* sign of the dividend *)
  | Fleft_shift => Ok (Z.shiftl a b) | Fright_shift => Ok (Z.shiftr a b)
  | Fbitwise_and => Ok (Z.land a b) | Fbitwise_xor => Ok (Z.lxor a b) | Fbitwise_or => Ok (Z.lor a b)
  | Fmatmul => Exc TypeError
  | Fless => Ok (b2z (Z.ltb a b)) | Fless_equal => Ok (b2z (Z.leb a b))
  | Fgreater => Ok (b2z (Z.ltb b a)) | Fgreater_equal => Ok (b2z (Z.leb b a))
  | Fequal => Ok (b2z (Z.eqb a b)) | Fnot_equal => Ok (b2z (negb (Z.eqb a b)))
  end.
Definition int_fn1 (f : fn1) (a : Z) : Z :=
  match f with Fnegative => (- a)%Z | Fpositive => a | Fabs => Z.abs a | Fbitwise_not => Z.lnot a end.
Definition num_of (r : out Z) : out value := bind r (fun n => Ok (VNum n)).
Definition arr_of (r : out Z) : out value := bind r (fun n => Ok (VArr n)).
Definition toy_prim (o : bop) (a b : value) : out value := num_of (int_bin o (int_of a) (int_of b)).
Definition toy_primc (c : cop) (a b : value) : out value := Ok (VNum (int_cmp c (int_of a) (int_of b))).
Definition toy_primu (u : uop) (a : value) : out value := Ok (VNum (int_un u (int_of a))).
Definition toy_fn2 (f : fn2) (a b : value) : out value := arr_of (int_fn2 f (int_of a) (int_of b)).
Definition toy_fn1 (f : fn1) (a : value) : out value := Ok (VArr (int_fn1 f (int_of a))).
Definition toy_truth (v : value) : out bool := Ok (negb (Z.eqb (int_of v) 0)).

Definition toy_direct := direct value num_v toy_prim toy_primc toy_primu toy_fn2 toy_fn1 toy_truth.
Definition toy_build := build value num_v toy_prim toy_primc toy_primu toy_fn2 toy_fn1 toy_truth.
Definition toy_eval := eval value toy_fn2 toy_fn1.
(** Build, then evaluate with arrays for the variables. *)
Definition toy_run (l : lib) (env : nat -> value) (e : expr value) : out (operand value) :=
  bind (toy_build l e) (toy_eval (with_arrays value env)).
