(** What an expression over arrays with named dimensions means: at each position of the names, the library's functions
    on the arrays at that position. *)
From Coq Require Import List Bool Arith.
From Verif Require Import ArrModel ArrSpec NopModel.
Import ListNotations.

Section Spec.
Variable V : Type.
Variable num : nat -> V.
Variable lib : nat -> list (arr V) -> option (list (arr V)).
(** Arrays for names used as arrays ([None]: a named dimension, which is its position), and positions *)
Variable rho : nat -> option (arr V).
Variable env : nat -> nat.
Definition name_at (n : nat) : arr V := match rho n with Some a => a | None => Arr [] (fun _ => num (env n)) end.
Definition result (i : nat) (r : option (list (arr V))) : option (arr V) := match r with Some l => nth_error l i | None => None end.
Definition call (f i : nat) (args : option (list (arr V))) : option (arr V) := match args with Some l => result i (lib f l) | None => None end.
Fixpoint sem (e : expr V) : option (arr V) :=
  match e with
  | EArr _ a => Some a
  | EName _ n => Some (name_at n)
  | EGet _ e key => match sem e with Some a => index_full_arr env a key | None => None end
  | EOp _ f i es => call f i ((fix all es := match es with [] => Some [] | e :: es' => match sem e, all es' with Some a, Some l => Some (a :: l) | _, _ => None end end) es)
  end.
(** The same for values *)
Fixpoint value_at (v : val V) : option (arr V) :=
  match v with
  | VArr _ a => Some a
  | VGet _ a dims => index_arr env a dims
  | VName _ n => Some (name_at n)
  | VIdx _ v key => match value_at v with Some a => index_full_arr env a key | None => None end
  | VOp _ f i vs => call f i ((fix all vs := match vs with [] => Some [] | v :: vs' => match value_at v, all vs' with Some a, Some l => Some (a :: l) | _, _ => None end end) vs)
  end.
End Spec.

(** The library's functions depend on the elements of the arrays, and the shapes of their results on the shapes. *)
Definition same_shape {V} (a b : arr V) : Prop := shape a = shape b.
Definition related {V} (R : arr V -> arr V -> Prop) (x y : option (list (arr V))) : Prop :=
  match x, y with Some us, Some vs => Forall2 R us vs | None, None => True | _, _ => False end.
Definition lawful {V} (lib : nat -> list (arr V) -> option (list (arr V))) : Prop :=
  (forall f ps qs, Forall2 same_arr ps qs -> related same_arr (lib f ps) (lib f qs)) /\
  (forall f ps qs, Forall2 same_shape ps qs -> related same_shape (lib f ps) (lib f qs)).
(** The named dimensions of a value that is no longer a term to evaluate *)
Definition has_dim {V} (v : val V) (n d : nat) : Prop := match v with VGet _ a dims => indexes (shape a) dims n d | _ => False end.
Definition evaluated {V} (v : val V) : Prop := match v with VArr _ _ | VGet _ _ _ => True | _ => False end.
