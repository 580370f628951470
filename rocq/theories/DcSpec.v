(** What is expected of terms whose type is a dataclass. *)
From Coq Require Import List Bool Arith.
From Verif Require Import DcModel.
Import ListNotations.

Section DcSpec.
Variable T : table.
Variable declared : nat -> fty.
Variable globals : nat -> option fty.
(** The classes of operations and of their fields, and the fields of those, ... *)
Variable used : nat -> Prop.

(** A number or a class, by itself or as a name known in effectful/ops/syntax.py *)
Definition plain (ty : fty) : Prop := resolve globals ty = Some FNum \/ exists c, resolve globals ty = Some (FCls c) /\ used c.
(** An ordinary dataclass *)
Record ordinary (c : nat) : Prop := {
  ord_mro : exists l, mro (T c) = c :: l;
  ord_data : dataclass (T c) = true;
  ord_names : forall f ty, In (f, ty) (fields (T c)) -> reserved f = false /\ private f = false;
  ord_concrete : abstract (T c) = false;
  ord_dict : slots (T c) = false;
  ord_fields : forall f ty, In (f, ty) (fields (T c)) -> plain ty }.
Record fits : Prop := {
  fit_ops : forall o, plain (declared o);
  fit_used : forall c, used c -> ordinary c;
  fit_init : forall c, noinit (T c) = false }.
(** Each class in use has been registered, or it has no base class that is registered or in use and is no [Callable],
    [Iterable], ... *)
Definition safe (S : state) : Prop := forall c, used c -> In c S \/ forall k, In k (tl (dispatch_order T c)) -> exists d, k = KeyCls d /\ ~ In d S /\ ~ used d.

(** An object of exactly this type, so its fields *)
Inductive conforms : val -> fty -> Prop :=
| conf_num n ty : resolve globals ty = Some FNum -> conforms (VNum n) ty
| conf_obj c fs ty : resolve globals ty = Some (FCls c) -> conform_all fs (fields (T c)) -> conforms (VObj c fs) ty
with conform_all : list (nat * val) -> list (nat * fty) -> Prop :=
| conf_nil : conform_all [] []
| conf_cons f v fs ty tys : conforms v ty -> conform_all fs tys -> conform_all ((f, v) :: fs) ((f, ty) :: tys).
End DcSpec.

(** No operation handled, each operation with a value *)
Definition nothing (o : nat) : option val := None.
Definition everything (env : nat -> val) (o : nat) : option val := Some (env o).
