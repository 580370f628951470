(** Model of [Encodable[T]]: [TypeToPydanticType] (effectful/handlers/llm/encoding.py 126-182, 297-394) over [TypeEvaluator]
    (effectful/internals/unification.py 107-185), and of what Pydantic then reads (trusted). *)
From Coq Require Import String List Bool Arith ZArith.
Import ListNotations.
Local Open Scope list_scope.

Inductive json := JNum (z : Z) | JStr (s : string) | JList (l : list json) | JObj (l : list (string * json)).
(** Values: numbers, text, lists and other containers, tuples, objects of classes with fields, named tuples, and objects of the types with
    an encoding of their own *)
Inductive value :=
  | VNum (z : Z) | VStr (s : string) | VList (k : nat) (l : list value) | VTup (l : list value)
  | VObj (c : nat) (l : list (string * value)) | VNt (c : nat) (l : list (string * value)) | VSpecial (c : nat) (j : json).
(** Metadata of [Annotated]: a constraint, a remark, or a tuple of metadata *)
Inductive meta := Check (p : nat) | Note (s : string) | Nested (l : list meta).
(** Types: [int], [str]; types with a registered encoding (images, code, complex numbers); [Term] and [Operation]; containers [list[T]]; [tuple[A, B]]; [tuple[A, ...]]; unions;
    [Annotated]; literals; [NewType]; an alias made by [type]; a generic alias [Pair[int]], with the type it stands for; dataclasses,
    typed dictionaries and models with their fields; named tuples. [Adapted], [ATup] and [ANt] are the annotated types that the
    rules for registered types, tuples and named tuples return. Left out: callables (C71), tools (C69), type variables, recursive aliases (below). *)
Inductive ty :=
  | TInt | TStr
  | Special (c : nat)
  | Forbidden (c : nat)
  | Listy (k : nat) (t : ty)
  | Tup (l : list ty)
  | TupVar (t : ty)
  | Union (l : list ty)
  | Annot (t : ty) (m : list meta)
  | Lit (s : string)
  | NewT (n : string) (t : ty)
  | Alias (t : ty)
  | GAlias (t : ty)
  | Rec (c : nat) (fs : list (string * ty))
  | Nt (c : nat) (fs : list (string * ty))
  | Adapted (c : nat)
  | ATup (l : list ty)
  | ANt (c : nat) (fs : list (string * ty)).

Section Map.
Variable f : ty -> option ty.
Fixpoint mapM (l : list ty) : option (list ty) :=
  match l with [] => Some [] | t :: l' => match f t with Some u => option_map (cons u) (mapM l') | None => None end end.
End Map.
(** [TypeToPydanticType().evaluate] (155-166); [None] is [TypeError]. Classes are constants: their fields are not looked at
    (unification.py 127-129). The metadata of [Annotated] is put as one tuple (143-148). A named tuple's fields are taken
    as they are (310-314). For a generic alias the arguments are evaluated, but what it stands for is not looked at; here these arguments are of no interest. *)
Fixpoint adapt (t : ty) : option ty :=
  match t with
  | TInt | TStr | Lit _ | Rec _ _ | GAlias _ | Adapted _ | ATup _ | ANt _ _ => Some t
  | Special c => Some (Adapted c)
  | Forbidden _ => None
  | Listy k u => option_map (Listy k) (adapt u)
  | Tup l => option_map ATup (mapM adapt l)
  | TupVar u => option_map TupVar (adapt u)
  | Union l => option_map Union (mapM adapt l)
  | Annot u m => option_map (fun u' => Annot u' [Nested m]) (adapt u)
  | NewT n u => option_map (NewT n) (adapt u)
  | Alias u => adapt u
  | Nt c fs => Some (ANt c fs)
  end.

Section Read.
(** The encodings of registered types, and what constraints mean *)
Variable codec : nat -> json -> option value.
Variable holds : nat -> value -> bool.
Fixpoint find (x : string) (l : list (string * json)) : option json :=
  match l with [] => None | (y, j) :: l' => if String.eqb x y then Some j else find x l' end.
(** The name [item_i] of a tuple's member *)
Variable item : nat -> string.
(** What is at the place [i] of a tuple (350-356): by name in an object, by position in an array *)
Definition place (i : nat) (j : json) : option json :=
  match j with JObj l => find (item i) l | JList l => nth_error l i | _ => None end.
(** What is in the field [x], the [i]-th, of a named tuple (322-330) *)
Definition field (x : string) (i : nat) (j : json) : option json :=
  match j with JObj l => find x l | JList l => nth_error l i | _ => None end.
Definition ok_meta (v : value) (m : meta) : bool := match m with Check p => holds p v | _ => true end.
Fixpoint each (h : json -> option value) (l : list json) : option (list value) :=
  match l with [] => Some [] | j :: l' => match h j with Some v => option_map (cons v) (each h l') | None => None end end.
Section Reads.
Variable g : ty -> json -> option value.
Fixpoint places (i : nat) (l : list ty) (j : json) : option (list value) :=
  match l with
  | [] => Some []
  | t :: l' => match place i j with Some x => match g t x with Some v => option_map (cons v) (places (S i) l' j) | None => None end | None => None end
  end.
Fixpoint array (l : list ty) (js : list json) : option (list value) :=
  match l, js with
  | [], [] => Some []
  | t :: l', j :: js' => match g t j with Some v => option_map (cons v) (array l' js') | None => None end
  | _, _ => None
  end.
Fixpoint first (l : list ty) (j : json) : option value :=
  match l with [] => None | t :: l' => match g t j with Some v => Some v | None => first l' j end end.
Fixpoint fields (fs : list (string * ty)) (o : list (string * json)) : option (list (string * value)) :=
  match fs with
  | [] => Some []
  | (x, t) :: fs' => match find x o with Some j => match g t j with Some v => option_map (cons (x, v)) (fields fs' o) | None => None end | None => None end
  end.
Fixpoint nt_fields (i : nat) (fs : list (string * ty)) (j : json) : option (list (string * value)) :=
  match fs with
  | [] => Some []
  | (x, t) :: fs' => match field x i j with Some y => match g t y with Some v => option_map (cons (x, v)) (nt_fields (S i) fs' j) | None => None end | None => None end
  end.
End Reads.
(** What Pydantic reads for a type. A type without an encoding of its own that Pydantic does not know cannot be read (building the adapter raises);
    a tuple is an array of the right length, unless it is adapted; unions are tried from the left; a constraint is checked
    if it stands in the metadata itself. *)
Fixpoint pydantic (t : ty) (j : json) : option value :=
  match t with
  | TInt => match j with JNum z => Some (VNum z) | _ => None end
  | TStr => match j with JStr s => Some (VStr s) | _ => None end
  | Lit s => match j with JStr x => if String.eqb s x then Some (VStr x) else None | _ => None end
  | Special _ | Forbidden _ => None
  | Adapted c => codec c j
  | Listy k u => match j with JList l => option_map (VList k) (each (pydantic u) l) | _ => None end
  | TupVar u => match j with JList l => option_map VTup (each (pydantic u) l) | _ => None end
  | Tup l => match j with JList js => option_map VTup (array pydantic l js) | _ => None end
  | ATup l => option_map VTup (places pydantic 0 l j)
  | Union l => first pydantic l j
  | Annot u m => match pydantic u j with Some v => if forallb (ok_meta v) m then Some v else None | None => None end
  | NewT _ u | Alias u | GAlias u => pydantic u j
  | Rec c fs => match j with JObj o => option_map (VObj c) (fields pydantic fs o) | _ => None end
  | Nt c fs | ANt c fs => option_map (VNt c) (nt_fields pydantic 0 fs j)
  end.
Definition encodable (t : ty) (j : json) : option value := match adapt t with Some u => pydantic u j | None => None end.
End Read.

(** Aliases made by [type] may mention themselves: a list of types by number, with fuel (unification.py 175-177). [None] is out of fuel (RecursionError). *)
Inductive nty := NInt | NList (t : nty) | NAlias (n : nat).
Fixpoint adapt_alias (fuel : nat) (env : nat -> nty) (t : nty) : option nty :=
  match fuel with
  | 0 => None
  | S fuel' =>
    match t with
    | NInt => Some NInt
    | NList u => option_map NList (adapt_alias fuel' env u)
    | NAlias n => adapt_alias fuel' env (env n)
    end
  end.
