(** Model of terms whose type is a dataclass: [_construct_dataclass_term], [_DataclassTermMeta], the dispatch of [defdata] on
    types and the part of [evaluate] on dataclasses (effectful/ops/syntax.py 481-578, 614-659;
    effectful/ops/semantics.py 151-174). Programs use fields and methods of such terms as of objects.
    Not modelled: operations with arguments, multiple inheritance in [dispatch_order] beyond the given method resolution
    order, default values of fields, arithmetic other than addition. *)
From Coq Require Import List Bool Arith.
Import ListNotations.

Inductive err := TypeError | AttributeError | KeyError | NameError | AssertionError | ValueError | OutOfFuel.
Inductive res (A : Type) := Ok (x : A) | Err (e : err).
Arguments Ok {A}. Arguments Err {A}.

(** The annotation of a field or of a result: a number, a class, a type without attributes such as [object] or an unbound
    type variable, or a forward reference (a string) *)
Inductive fty := FNum | FCls (c : nat) | FObj | FStr (s : nat).

(** Programs: [EOp o] calls operation [o]; [EField e f] is [e.f], [EMeth e m] is [e.m()], [EIs e c a b] is
    [a if isinstance(e, c) else b], [EMake c fs] is [c(f=..., ...)]. *)
Inductive expr :=
| ELit (n : nat) | EOp (o : nat) | ESelf | EField (e : expr) (f : nat) | EMeth (e : expr) (m : nat) | EAdd (a b : expr)
| EIs (e : expr) (c : nat) (a b : expr) | EMake (c : nat) (fs : list (nat * expr)).

(** A class: its method resolution order (itself first, [object] left out); whether [is_dataclass]; the fields as
    [dataclasses.fields] gives them, inherited ones included; its own methods; the abstract base classes known to [defdata]
    ([Callable], [Iterable], ...) it is the first of its order to implement; whether it has [slots=True], abstract methods,
    fields with [init=False]. *)
Record cls := Cls {
  mro : list nat; dataclass : bool; fields : list (nat * fty); methods : list (nat * expr); abcs : list nat;
  slots : bool; abstract : bool; noinit : bool }.
Definition table := nat -> cls.

(** The Python class of a term: a number's, [_CTerm] for dataclass [c], that of an abstract base class, [_BaseTerm] *)
Inductive kind := KNum | KData (c : nat) | KAbc (a : nat) | KBase.
(** Values. [VGet k c f v] is the term of the operation [_cTerm.f] on [v], of class [k]. *)
Inductive val :=
| VNum (n : nat) | VObj (c : nat) (fs : list (nat * val)) | VOp (k : kind) (o : nat) | VGet (k : kind) (c f : nat) (v : val) | VAdd (a b : val).
Definition is_term (v : val) : option kind :=
  match v with VNum _ | VObj _ _ => None | VOp k _ => Some k | VGet k _ _ _ => Some k | VAdd _ _ => Some KNum end.

Fixpoint lookup {A} (k : nat) (l : list (nat * A)) : option A := match l with [] => None | (k', x) :: l' => if Nat.eqb k k' then Some x else lookup k l' end.
Definition mem (x : nat) (l : list nat) : bool := existsb (Nat.eqb x) l.

(** The names [op], [args], [kwargs] and [_op], [_args], [_kwargs] are the fields 0, 1, 2 and 3, 4, 5. *)
Definition reserved (f : nat) : bool := f <? 3.
Definition private (f : nat) : bool := (3 <=? f) && (f <? 6).

Section Dc.
Variable T : table.
(** The annotated result of each operation *)
Variable declared : nat -> fty.
(** What names mean in effectful/ops/syntax.py, where [getter] is defined (syntax.py:632-636, types.py:94-101) *)
Variable globals : nat -> option fty.

(** The registry of [defdata]: the dataclasses registered so far *)
Definition state := list nat.

(** The order in which [functools.singledispatch] looks for an implementation for class [c] *)
Inductive key := KeyCls (c : nat) | KeyAbc (a : nat).
Definition dispatch_order (c : nat) : list key := flat_map (fun d => KeyCls d :: map KeyAbc (abcs (T d))) (mro (T c)).
Definition registered (S : state) (k : key) : bool := match k with KeyCls c => mem c S | KeyAbc _ => true end.
Definition dispatch (S : state) (c : nat) : option key := find (registered S) (dispatch_order c).

(** [_DataclassTermMeta.__init__] (syntax.py:641-644), after [object.__new__], for term class [_cTerm]: the field getters are properties
    without setters. *)
Definition instantiate (c : nat) : res kind :=
  if abstract (T c) then Err TypeError else if existsb private (map fst (fields (T c))) then Err AttributeError else Ok (KData c).
(** [__dispatch_defdata_object] and [_construct_dataclass_term] (syntax.py:552-578), [_DataclassTermMeta.__new__] (syntax.py:615-659) *)
Definition make_class (S : state) (c : nat) : res kind * state :=
  match dispatch S c with
  | Some (KeyCls d) => (instantiate d, S)
  | Some (KeyAbc a) => (Ok (KAbc a), S)
  | None =>
      if dataclass (T c)
      then if existsb reserved (map fst (fields (T c))) then (Err AssertionError, S) else (instantiate c, c :: S)
      else (Ok KBase, S)
  end.
(** [apply_cast] (syntax.py:508-512) for an operation with this annotation *)
Definition resolve (ty : fty) : option fty := match ty with FStr s => globals s | _ => Some ty end.
Definition make_kind (S : state) (ty : fty) : res kind * state :=
  match resolve ty with
  | None => (Err NameError, S)
  | Some FNum => (Ok KNum, S)
  | Some (FCls c) => make_class S c
  | Some _ => (Ok KBase, S)
  end.
Definition field_type (c f : nat) : fty := match lookup f (fields (T c)) with Some ty => ty | None => FObj end.

Definition M (A : Type) := state -> res A * state.
Definition ret {A} (x : A) : M A := fun S => (Ok x, S).
Definition fail {A} (e : err) : M A := fun S => (Err e, S).
Definition bind {A B} (m : M A) (f : A -> M B) : M B := fun S => match m S with (Ok x, S') => f x S' | (Err e, S') => (Err e, S') end.
Definition kind_for (ty : fty) : M kind := fun S => make_kind S ty.
Section Each.
Variable f : val -> M val.
Fixpoint each (l : list (nat * val)) : M (list (nat * val)) :=
  match l with [] => ret [] | (n, v) :: l' => bind (f v) (fun w => bind (each l') (fun ws => ret ((n, w) :: ws))) end.
End Each.
(** [dataclasses.replace] with all fields (semantics.py:155-164) *)
Definition replaced (c : nat) (fs : list (nat * val)) : M val := if noinit (T c) then fail ValueError else ret (VObj c fs).

(** [defdata] (syntax.py:516-546) evaluates the arguments of a new term, with every operation made a term again *)
Fixpoint rebuild (v : val) : M val :=
  match v with
  | VNum n => ret (VNum n)
  | VObj c fs => bind (each rebuild fs) (replaced c)
  | VOp _ o => bind (kind_for (declared o)) (fun k => ret (VOp k o))
  | VGet _ c f w => bind (rebuild w) (fun w' => bind (kind_for (field_type c f)) (fun k => ret (VGet k c f w')))
  | VAdd a b => bind (rebuild a) (fun a' => bind (rebuild b) (fun b' => ret (VAdd a' b')))
  end.

(** The operations: unhandled ones have no value in [env]. *)
Variable env : nat -> option val.
Definition call_op (o : nat) : M val := match env o with Some v => ret v | None => bind (kind_for (declared o)) (fun k => ret (VOp k o)) end.
(** [getter] (syntax.py:632-636) of [_cTerm.f] *)
Definition call_get (c f : nat) (v : val) : M val :=
  match is_term v with
  | Some _ => bind (rebuild v) (fun w => bind (kind_for (field_type c f)) (fun k => ret (VGet k c f w)))
  | None =>
      match v with
      | VObj d fs => if slots (T d) then fail AttributeError else match lookup f fs with Some w => ret w | None => fail KeyError end
      | _ => fail AttributeError
      end
  end.
(** [_NumberTerm.__add__] (syntax.py:1160-1165) *)
Definition call_add (a b : val) : M val :=
  match is_term a, is_term b with
  | None, None => match a, b with VNum m, VNum n => ret (VNum (m + n)) | _, _ => fail TypeError end
  | _, _ => bind (rebuild a) (fun a' => bind (rebuild b) (fun b' => ret (VAdd a' b')))
  end.

(** [evaluate] with [env] handling the operations (semantics.py:151-174) *)
Fixpoint evaluate (v : val) : M val :=
  match v with
  | VNum n => ret (VNum n)
  | VObj c fs => bind (each evaluate fs) (replaced c)
  | VOp _ o => call_op o
  | VGet _ c f w => bind (evaluate w) (call_get c f)
  | VAdd a b => bind (evaluate a) (fun a' => bind (evaluate b) (call_add a'))
  end.

(** Python: [e.f]. On a term of a dataclass it is the property of the term class (syntax.py:640), on an object the attribute. *)
Definition get_attr (v : val) (f : nat) : M val :=
  match v, is_term v with
  | _, Some (KData c) => match lookup f (fields (T c)) with Some _ => call_get c f v | None => fail AttributeError end
  | VObj _ fs, _ => match lookup f fs with Some w => ret w | None => fail AttributeError end
  | _, _ => fail AttributeError
  end.
(** The class whose attributes [v] has *)
Definition class_of (v : val) : option nat := match v, is_term v with _, Some (KData c) => Some c | VObj c _, _ => Some c | _, _ => None end.
Fixpoint find_method (m : nat) (classes : list nat) : option expr :=
  match classes with [] => None | c :: l => match lookup m (methods (T c)) with Some b => Some b | None => find_method m l end end.
Definition isinstance (v : val) (c : nat) : bool := match class_of v with Some d => mem c (mro (T d)) | None => false end.
(** Python: [a + b] *)
Definition add (a b : val) : M val :=
  match is_term a, is_term b with
  | Some KNum, _ | None, Some KNum => call_add a b
  | None, None => call_add a b
  | _, _ => fail TypeError
  end.
Section EachE.
Variable f : expr -> M val.
Fixpoint eache (l : list (nat * expr)) : M (list (nat * val)) :=
  match l with [] => ret [] | (n, e) :: l' => bind (f e) (fun w => bind (eache l') (fun ws => ret ((n, w) :: ws))) end.
End EachE.
Definition same_names (a b : list nat) : bool := if list_eq_dec Nat.eq_dec a b then true else false.

Fixpoint run (fuel : nat) (self : option val) (e : expr) : M val :=
  match fuel with
  | 0 => fail OutOfFuel
  | S fuel' =>
      match e with
      | ELit n => ret (VNum n)
      | EOp o => call_op o
      | ESelf => match self with Some v => ret v | None => fail NameError end
      | EField e' f => bind (run fuel' self e') (fun v => get_attr v f)
      | EMeth e' m =>
          bind (run fuel' self e') (fun v =>
            match class_of v with
            | Some c => match find_method m (mro (T c)) with Some body => run fuel' (Some v) body | None => fail AttributeError end
            | None => fail AttributeError
            end)
      | EAdd a b => bind (run fuel' self a) (fun v => bind (run fuel' self b) (fun w => add v w))
      | EIs e' c a b => bind (run fuel' self e') (fun v => if isinstance v c then run fuel' self a else run fuel' self b)
      | EMake c fs =>
          bind (eache (run fuel' self) fs) (fun vs =>
            if abstract (T c) then fail TypeError
            else if same_names (map fst vs) (map fst (fields (T c))) then ret (VObj c vs) else fail TypeError)
      end
  end.
End Dc.

(** A history: the operations called so far *)
Definition after_calls (T : table) (declared : nat -> fty) (globals : nat -> option fty) (history : list nat) (start : state) : state :=
  fold_left (fun S o => snd (call_op T declared globals (fun _ => None) o S)) history start.
