(** What a type of callables promises, the variables a function uses, and functions that do the same. *)
From Coq Require Import String List Bool Arith ZArith.
Import ListNotations.
From Verif Require Import SynModel.

Definition plain (p : param) : Prop := p_kind p = PosOnly \/ p_kind p = PosKw.
(** [n] positional arguments satisfy the parameters: all have somewhere to go, and what is left has defaults. *)
Definition takes (ps : list param) (n : nat) : Prop :=
  let pos := filter (fun p => match p_kind p with PosOnly | PosKw => true | _ => false end) ps in
  (n <= length pos \/ exists p, In p ps /\ p_kind p = VarPos) /\
  (forall p, In p (skipn n pos) -> p_default p <> None) /\
  (forall p, In p ps -> p_kind p = KwOnly -> p_default p <> None).

(** No parameter to be given by position comes after [*args] (as Python has it). *)
Fixpoint ordered (ps : list param) : Prop :=
  match ps with [] => True | p :: ps' => (p_kind p = VarPos -> forall q, In q ps' -> ~ plain q) /\ ordered ps' end.

(** Values have the globals of existing modules only. *)
Inductive closed (n : nat) : val -> Prop :=
| L_int : forall z, closed n (VInt z)
| L_none : closed n VNone
| L_tuple : forall l, Forall (closed n) l -> closed n (VTuple l)
| L_dict : closed n VDict
| L_fun : forall m cl d, m < n -> Forall (fun p => closed n (snd p)) cl -> closed n (VFun m cl d)
| L_method : forall self m cl d, closed n self -> m < n -> Forall (fun p => closed n (snd p)) cl -> closed n (VMethod self m cl d)
| L_prim : forall a b c k, closed n (VPrim a b c k)
| L_class : forall x ps, closed n (VClass x ps)
| L_object : forall k, closed n (VObject k)
| L_coroutine : closed n VCoroutine.
Definition closed_store (st : store) : Prop := forall g x v, In g st -> get g x = Some v -> closed (length st) v.

(** The global variables an expression may use. *)
Fixpoint free (e : expr) (x : string) : Prop :=
  match e with
  | EInt _ | ENone => False
  | EVar y => x = y
  | EIf c a b => free c x \/ free a x \/ free b x
  | ECall f args => free f x \/ (fix go (l : list expr) : Prop := match l with [] => False | a :: l' => free a x \/ go l' end) args
  end.
(** The value of a variable inside a function, beyond its parameters. *)
Definition sees (st : store) (m : nat) (cl : env) (x : string) : option val :=
  match get cl x with Some v => Some v | None => get (globals st m) x end.

Section Same.
(** The function and its copy, which may stand for it in values. *)
Variables original copy : val.
Inductive same : val -> val -> Prop :=
| S_eq : forall v, same v v
| S_copy : same original copy
| S_tuple : forall l l', Forall2 same l l' -> same (VTuple l) (VTuple l').
Definition same_result (r r' : res val) : Prop :=
  match r, r' with Ok v, Ok v' => same v v' | Err e, Err e' => e = e' | _, _ => False end.
End Same.
