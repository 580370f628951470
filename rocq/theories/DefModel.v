(** Model of [Operation.define] (effectful/ops/types.py 140-320): what is made of a function, a built-in function, a type and
    an operation, and what the operation made does when no handler is installed (C08). Values and their evaluation are
    those of ColModel. *)
From Coq Require Import String List Bool Arith.
From Verif Require Import ColModel.
Import ListNotations.
Local Open Scope list_scope.

Definition kwargs := list (string * val).
Definition rule := list val -> kwargs -> outcome val.
(** Further exceptions *)
Definition NotHandled {A} : outcome A := Other 0.
Definition AttributeError {A} : outcome A := Other 1.
Definition NotImplementedError {A} : outcome A := Other 2.

(** A signature: that of a function (a code), or that of a variable, which has no parameters and returns a type *)
Inductive sig := Code (c : nat) | Nullary (t : nat).
(** An operation: its identity (operations are compared by identity, 103-106), its name, what [inspect.signature] finds of
    its default ([None]: [ValueError]), and its default rule *)
Record op := Op { oid : nat; oname : string; osig : option sig; orule : rule }.
(** What can be given to [define]: a function or another callable (which may have no [__name__]), a built-in function, a type (a class, a generic alias; a union [int | str] has no [__name__]), an operation, and
    what is not callable (a type variable, an alias made by [type]) *)
Inductive definee :=
  | Function (n : option string) (s : option sig) (f : rule)
  | Builtin (n : string) (s : option sig) (f : rule)
  | Typ (n : option string) (t : nat)
  | Copy (o : op)
  | Unknown.

Section Def.
Variable keyeq : val -> val -> bool.
Variable hash_term : nat -> bool.
(** The variables that an operation binds in its arguments ([__fvs_rule__]) *)
Variable binds : nat -> list val -> kwargs -> list nat.
(** Whether arguments fit a signature *)
Variable fits : nat -> list val -> kwargs -> bool.

(** [fvsof] (effectful/ops/semantics.py 286-314): the operations of the terms that [evaluate] meets are collected, what they
    bind is taken out of all that were collected so far. The terms are made again unchanged meanwhile. Sets are not entered. *)
Section Fold.
Variable g : val -> list nat -> list nat.
Fixpoint through (l : list val) (s : list nat) : list nat := match l with [] => s | v :: l' => through l' (g v s) end.
Fixpoint throughS {K} (l : list (K * val)) (s : list nat) : list nat := match l with [] => s | (_, v) :: l' => throughS l' (g v s) end.
Fixpoint throughP (l : list (val * val)) (s : list nat) : list nat := match l with [] => s | (a, b) :: l' => throughP l' (g b (g a s)) end.
End Fold.
Fixpoint collect (v : val) (s : list nat) : list nat :=
  match v with
  | Num _ | Str _ | Oper _ | Over _ | Sets _ _ => s
  | Trm o args kw => filter (fun x => negb (existsb (Nat.eqb x) (binds o args kw))) (o :: throughS collect kw (through collect args s))
  | Seq _ l | Keys l | Vals l => through collect l s
  | Mapp _ l | Items l => throughP collect l s
  | Data _ fs => throughS collect fs s
  end.
Definition same (o : nat) (args : list val) (kw : kwargs) : outcome val := Ok (Trm o args kw).
Definition fvsof (args : list val) (kw : kwargs) : outcome (list nat) :=
  andthen (mapO (evaluate keyeq hash_term same (fun x => x)) args) (fun _ =>
  andthen (mapS (evaluate keyeq hash_term same (fun x => x)) kw) (fun _ =>
  Ok (throughS collect kw (through collect args [])))).

(** [_define_builtinfunctiontype] (306-320): the function is called when there are no free variables. *)
Definition guarded (f : rule) : rule := fun args kw =>
  andthen (fvsof args kw) (fun fv => match fv with [] => f args kw | _ => NotHandled end).
Definition no_rule : rule := fun _ _ => NotHandled.
(** [name or default.__name__] (82): an empty name is none. *)
Definition named (name n : option string) : option string :=
  match name with Some EmptyString => n | Some x => Some x | None => n end.
(** [Operation(default, name)] (73-82): the next identity *)
Definition make (next : nat) (n : option string) (s : option sig) (f : rule) : outcome (op * nat) :=
  match n with Some x => Ok (Op next x s f, S next) | None => AttributeError end.
(** [define] (140-320); for a type the function made for it is given the type's [__name__] before [name] is looked at
    (302). *)
Definition define (next : nat) (d : definee) (name : option string) : outcome (op * nat) :=
  match d with
  | Function n s f => make next (named name n) s f
  | Builtin n s f => make next (named name (Some n)) s (guarded f)
  | Typ (Some n) t => make next (named name (Some n)) (Some (Nullary t)) no_rule
  | Typ None t => AttributeError
  | Copy o => make next (named name (Some (oname o))) (osig o) no_rule
  | Unknown => NotImplementedError
  end.
(** A program of definitions; those that fail give nothing. *)
Fixpoint defines (next : nat) (l : list (definee * option string)) : list op :=
  match l with
  | [] => []
  | (d, n) :: l' => match define next d n with Ok (o, next') => o :: defines next' l' | _ => defines next l' end
  end.

(** [define] of an operation, then of the result, and so on *)
Fixpoint copies (next : nat) (o : op) (names : list (option string)) : outcome op :=
  match names with
  | [] => Ok o
  | n :: l => match define next (Copy o) n with Ok (o', next') => copies next' o' l | _ => TypeError end
  end.

(** A call without handlers: the default rule; if it is not handled, the term (effectful/ops/types.py 366-420,
    effectful/ops/syntax.py 505-550), whose arguments are bound to the signature and evaluated. *)
Definition fitting (s : sig) (args : list val) (kw : kwargs) : bool :=
  match s with Nullary _ => match args, kw with [], [] => true | _, _ => false end | Code c => fits c args kw end.
Definition term (o : op) (args : list val) (kw : kwargs) : outcome val :=
  match osig o with
  | None => ValueError
  | Some s => if fitting s args kw then free keyeq hash_term same (fun x => x) (oid o) args kw else TypeError
  end.
Definition invoke (o : op) (args : list val) (kw : kwargs) : outcome val :=
  match orule o args kw with Other 0 => term o args kw | r => r end.
End Def.
