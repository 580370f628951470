(** The example normaliser of docs/source/lambda_.py: a lambda calculus with
    integers, additions and lets, whose rewrite rules are handlers that are
    installed together ([eager_mixed], lines 133-143) and run while terms are
    built or evaluated. *)
From Coq Require Import List Arith ZArith Bool.
Import ListNotations.
Open Scope Z_scope.

(** Expressions.  [TVar v] is the call [v()] of a nullary operation.
    lambda_.py:9-30 (add, App, Lam, Let).  Operations are numbered in the order
    in which they are created. *)
Inductive tm :=
| TInt (z : Z)
| TVar (v : nat)
| TAdd (a b : tm)
| TApp (f a : tm)
| TLam (x : nat) (b : tm)
| TLet (x : nat) (v b : tm).

(** Outcomes: a result; an operand Python cannot add (a function), where the
    model stops; or not enough fuel, where Python is still running (or has
    raised RecursionError). *)
Inductive out (A : Type) := Ok (a : A) | Stuck | NoFuel.
Arguments Ok {A}. Arguments Stuck {A}. Arguments NoFuel {A}.

Definition bind {A B} (o : out A) (f : A -> out B) : out B :=
  match o with Ok a => f a | Stuck => Stuck | NoFuel => NoFuel end.

(** The handlers of variables that are installed, the innermost first: each is
    [{var: lambda: value}] of lambda_.py:46 and 53, composed with what is
    installed already by [handler] (semantics.py:106-115). *)
Definition env := list (nat * tm).

Fixpoint find (e : env) (v : nat) : option tm :=
  match e with
  | [] => None
  | (w, t) :: r => if Nat.eqb v w then Some t else find r v
  end.

(** Calling a variable [v()]: its handler if there is one, else the term
    (types.py, Operation.__call__; runtime.py). *)
Definition call (e : env) (v : nat) : tm :=
  match find e v with Some t => t | None => TVar v end.

Definition is_lam (t : tm) : bool := match t with TLam _ _ => true | _ => false end.
Definition is_zero (t : tm) : bool := match t with TInt 0 => true | _ => false end.

Section WithKey.
(** [id] of an operation (lambda_.py:101-105): CPython's address, which has
    nothing to do with the order of creation. *)
Variable key : nat -> Z.

(** Python's [a + b] (syntax.py:1160-1174): two ints are added at once, anything
    else calls the operation [add] through [__add__] or [__radd__].  A function
    has no addition: [Stuck]. *)
Definition plus (add : tm -> tm -> out tm) (a b : tm) : out tm :=
  match a, b with
  | TInt i, TInt j => Ok (TInt (i + j))
  | _, _ => if is_lam a || is_lam b then Stuck else add a b
  end.

(** The rules for [add], each forwarding to the one before it in
    [eager_mixed]; [p] is [+].  beta_add: lambda_.py:33-39, then the term. *)
Definition beta_add (x y : tm) : out tm :=
  match x, y with
  | TInt i, TInt j => Ok (TInt (i + j))
  | _, _ => Ok (TAdd x y)
  end.

Definition is_int (t : tm) : bool := match t with TInt _ => true | _ => false end.

(** commute_add: lambda_.py:74-79. *)
Definition commute_add (p : tm -> tm -> out tm) (x y : tm) : out tm :=
  if negb (is_int x) && is_int y then p y x else beta_add x y.

(** assoc_add: lambda_.py:82-87. *)
Definition assoc_add (p : tm -> tm -> out tm) (x y : tm) : out tm :=
  match y with
  | TAdd a b => bind (p x a) (fun s => p s b)
  | _ => commute_add p x y
  end.

(** unit_add: lambda_.py:90-96. *)
Definition unit_add (p : tm -> tm -> out tm) (x y : tm) : out tm :=
  if is_zero y then Ok x else if is_zero x then Ok y else assoc_add p x y.

(** sort_add: lambda_.py:99-108.  It calls [vy()] and [vx()] again (line 106),
    so handlers of variables act on them. *)
Definition sort_add (p : tm -> tm -> out tm) (e : env) (x y : tm) : out tm :=
  match x, y with
  | TVar vx, TVar vy => if key vy <? key vx then p y x else unit_add p x y
  | TAdd a (TVar vx), TVar vy =>
      if key vy <? key vx
      then bind (p a (call e vy)) (fun s => p s (call e vx))
      else unit_add p x y
  | _, _ => unit_add p x y
  end.

(** A call [add(x, y)] under [eager_mixed] and the variables' handlers [e].
    [functools.reduce(coproduct, ...)] puts the last rules first
    (lambda_.py:133-143). *)
Fixpoint addF (n : nat) (e : env) (x y : tm) : out tm :=
  match n with
  | O => NoFuel
  | S n' =>
      if is_lam x || is_lam y then Stuck else sort_add (plus (addF n' e)) e x y
  end.

(** [fvsof] (semantics.py:286-314), on the variables: one set, to which calls
    are added and from which binders are removed in the order of evaluation. *)
Fixpoint fvs (t : tm) (acc : list nat) : list nat :=
  match t with
  | TInt _ => acc
  | TVar v => v :: acc
  | TAdd a b => fvs b (fvs a acc)
  | TApp f a => fvs a (fvs f acc)
  | TLam x b => remove Nat.eq_dec x (fvs b acc)
  | TLet x v b => remove Nat.eq_dec x (fvs b (fvs v acc))
  end.

Definition occurs (x : nat) (t : tm) : bool :=
  if in_dec Nat.eq_dec x (fvs t []) then true else false.

(** Renaming of a bound variable when [defdata] builds the binder
    (syntax.py:493-497, 518-530): evaluation under [{x: x'}] alone, which also
    replaces [x] where it stands for itself as an argument
    (semantics.py:176-181). *)
Fixpoint rename (x x' : nat) (t : tm) : tm :=
  let r v := if Nat.eqb v x then x' else v in
  match t with
  | TInt z => TInt z
  | TVar v => TVar (r v)
  | TAdd a b => TAdd (rename x x' a) (rename x x' b)
  | TApp f a => TApp (rename x x' f) (rename x x' a)
  | TLam y b => TLam (r y) (rename x x' b)
  | TLet y v b => TLet (r y) (rename x x' v) (rename x x' b)
  end.

(** [evaluate] (semantics.py:118-181) under [eager_mixed] and the handlers [e].
    Arguments first, then the operation.  Building a program by calls under
    [handler(eager_mixed)] runs the same steps, from the inside out, with no
    variable handled.  [k] is the next operation to be created.
    App: beta_app (lambda_.py:42-48); Lam: eta_lam (56-63), then the default,
    which renames; Let: beta_let (51-53), which never forwards, so that eta_let
    (66-71) is never reached. *)
Fixpoint eval (n : nat) (e : env) (k : nat) (t : tm) : out (tm * nat) :=
  match n with
  | O => NoFuel
  | S n' =>
    match t with
    | TInt z => Ok (TInt z, k)
    | TVar v => Ok (call e v, k)
    | TAdd a b =>
        bind (eval n' e k a) (fun '(a', k1) =>
        bind (eval n' e k1 b) (fun '(b', k2) =>
        bind (addF n' e a' b') (fun s => Ok (s, k2))))
    | TApp f a =>
        bind (eval n' e k f) (fun '(f', k1) =>
        bind (eval n' e k1 a) (fun '(a', k2) =>
        match f' with
        | TLam x b => eval n' ((x, a') :: e) k2 b
        | _ => Ok (TApp f' a', k2)
        end))
    | TLam x b =>
        bind (eval n' e k b) (fun '(b', k1) =>
        if occurs x b'
        then Ok (TLam k1 (rename x k1 b'), S k1)
        else Ok (b', k1))
    | TLet x v b =>
        bind (eval n' e k v) (fun '(v', k1) =>
        bind (eval n' e k1 b) (fun '(b', k2) =>
        eval n' ((x, v') :: e) k2 b'))
    end
  end.

(** A program, built or evaluated under [handler(eager_mixed)] with no variable
    handled. *)
Definition run (n : nat) (k : nat) (t : tm) : out (tm * nat) := eval n [] k t.

End WithKey.
