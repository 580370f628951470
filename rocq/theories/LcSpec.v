(** What programs of docs/source/lambda_.py mean, said without the rules. *)
From Coq Require Import List Arith ZArith Bool.
From Verif Require Import LcModel.
Import ListNotations.
Open Scope Z_scope.

(** Values: integers, functions of integers, and nonsense. *)
Inductive value := VInt (z : Z) | VFun (f : Z -> value) | VErr.

(** The usual meaning of an expression, where variables are integers. *)
Definition upd (r : nat -> Z) (x : nat) (z : Z) : nat -> Z :=
  fun v => if Nat.eqb v x then z else r v.

Fixpoint den (r : nat -> Z) (t : tm) : value :=
  match t with
  | TInt z => VInt z
  | TVar v => VInt (r v)
  | TAdd a b =>
      match den r a, den r b with VInt i, VInt j => VInt (i + j) | _, _ => VErr end
  | TApp f a =>
      match den r f, den r a with VFun g, VInt i => g i | _, _ => VErr end
  | TLam x b => VFun (fun z => den (upd r x z) b)
  | TLet x v b =>
      match den r v with VInt i => den (upd r x i) b | _ => VErr end
  end.

(** Values that cannot be told apart. *)
Inductive same : value -> value -> Prop :=
| same_int : forall z, same (VInt z) (VInt z)
| same_fun : forall f g, (forall z, same (f z) (g z)) -> same (VFun f) (VFun g)
| same_err : same VErr VErr.

(** Free variables. *)
Inductive free (x : nat) : tm -> Prop :=
| free_var : free x (TVar x)
| free_add1 : forall a b, free x a -> free x (TAdd a b)
| free_add2 : forall a b, free x b -> free x (TAdd a b)
| free_app1 : forall f a, free x f -> free x (TApp f a)
| free_app2 : forall f a, free x a -> free x (TApp f a)
| free_lam : forall y b, free x b -> x <> y -> free x (TLam y b)
| free_let1 : forall y v b, free x v -> free x (TLet y v b)
| free_let2 : forall y v b, free x b -> x <> y -> free x (TLet y v b).

(** Every operation of the program was created before [k]. *)
Fixpoint below (k : nat) (t : tm) : Prop :=
  match t with
  | TInt _ => True
  | TVar v => (v < k)%nat
  | TAdd a b | TApp a b => below k a /\ below k b
  | TLam x b => (x < k)%nat /\ below k b
  | TLet x v b => (x < k)%nat /\ below k v /\ below k b
  end.

(** [prog n t]: a program that is a function of [n] integers, one after the
    other ([n = 0]: an integer).  The value of a let does not mention the
    variable being bound. *)
Inductive prog : nat -> tm -> Prop :=
| prog_int : forall z, prog 0 (TInt z)
| prog_var : forall v, prog 0 (TVar v)
| prog_add : forall a b, prog 0 a -> prog 0 b -> prog 0 (TAdd a b)
| prog_app : forall n f a, prog (S n) f -> prog 0 a -> prog n (TApp f a)
| prog_lam : forall n x b, prog n b -> prog (S n) (TLam x b)
| prog_let : forall n x v b, prog 0 v -> prog n b -> ~ free x v ->
    prog n (TLet x v b).

(** Every function of the program depends on its parameter. *)
Fixpoint live (t : tm) : Prop :=
  match t with
  | TInt _ | TVar _ => True
  | TAdd a b | TApp a b => live a /\ live b
  | TLam x b =>
      live b /\ exists r z1 z2, ~ same (den (upd r x z1) b) (den (upd r x z2) b)
  | TLet x v b => live v /\ live b
  end.

(** [evaluates key k t r]: the run of [t] ends, with [r]. *)
Definition evaluates (key : nat -> Z) (k : nat) (t r : tm) : Prop :=
  exists k' N, forall n, (N <= n)%nat -> run key n k t = Ok (r, k').

(** It never ends. *)
Definition runs_forever (key : nat -> Z) (k : nat) (t : tm) : Prop :=
  forall n, run key n k t = NoFuel.

(** Distinct operations are at distinct addresses. *)
Definition distinct (key : nat -> Z) : Prop := forall v w, key v = key w -> v = w.
