(** Model of the encodings of complex numbers, tuples and named tuples
    (effectful/handlers/llm/encoding.py:174-200, 297-384), of nested types by
    [TypeToPydanticType] (142-160). Lists, variadic tuples and scalars are left to pydantic:
    lists and variadic tuples item by item, scalars by a given codec. Keyword [context] not modelled. *)
From Coq Require Import String List Bool Arith.
Import ListNotations.
From Verif Require Import StrModel.

(** Python values. [PAtom]: a scalar; [PNamed]: a named tuple with its class. *)
Inductive pyv :=
| PAtom (n : nat)
| PComplex (re im : nat)
| PTuple (l : list pyv)
| PNamed (c : nat) (l : list pyv)
| PList (l : list pyv)
| PDict (l : list (string * pyv)).

(** Types. [TNamed c fs]: a NamedTuple class with its fields. *)
Inductive ty :=
| TAtom (k : nat)
| TComplex
| TTuple (l : list ty)
| TVariadic (t : ty)
| TList (t : ty)
| TNamed (c : nat) (fs : list (string * ty)).

Inductive err := EValidation | EKey | EType | EIndex | EAttr.
Inductive res (A : Type) := Ok (a : A) | Err (e : err).
Arguments Ok {A}. Arguments Err {A}.

Fixpoint pget (l : list (string * pyv)) (k : string) : option pyv :=
  match l with [] => None | (x, v) :: l' => if String.eqb x k then Some v else pget l' k end.

(** f"item_{i}" *)
Definition item (i : nat) : string := ("item_" ++ show i)%string.

(** [value[k]] *)
Definition subscript (v : pyv) (k : string) : res pyv :=
  match v with
  | PDict d => match pget d k with Some x => Ok x | None => Err EKey end
  | _ => Err EType
  end.

(** [{f"item_{i}": v for i, v in enumerate(value)}] (363) *)
Definition enumerated (l : list pyv) : pyv := PDict (combine (map item (seq 0 (length l))) l).

Section Codec.
(** pydantic's validation and serialisation of the scalar type [k]; [float]. *)
Variable atom_dec : nat -> pyv -> res pyv.
Variable atom_enc : nat -> pyv -> res pyv.
Variable float : nat.

Definition mapM {A B} (f : A -> res B) : list A -> res (list B) :=
  fix go (l : list A) : res (list B) := match l with
  | [] => Ok []
  | x :: l' => match f x with
               | Ok y => match go l' with Ok ys => Ok (y :: ys) | Err e => Err e end
               | Err e => Err e
               end
  end.

Definition as_list (v : pyv) : res (list pyv) :=
  match v with PList l | PTuple l => Ok l | _ => Err EValidation end.

(** [_validate_complex] (179-181) *)
Definition dec_complex (v : pyv) : res pyv :=
  match v with
  | PDict d =>
      match pget d "real", pget d "imag" with
      | Some r, Some i =>
          match atom_dec float r with
          | Ok (PAtom a) => match atom_dec float i with Ok (PAtom b) => Ok (PComplex a b) | Ok _ => Err EValidation | Err e => Err e end
          | Ok _ => Err EValidation
          | Err e => Err e
          end
      | _, _ => Err EValidation
      end
  | _ => Err EValidation
  end.

(** [_validate] (361-367) and [_nt_validate] (320-328) *)
Fixpoint dec (t : ty) (v : pyv) : res pyv :=
  match t with
  | TAtom k => atom_dec k v
  | TComplex => dec_complex v
  | TTuple ts =>
      let v := match v with PTuple l | PList l => enumerated l | PNamed _ l => enumerated l | _ => v end in
      match (fix go (i : nat) (ts : list ty) : res (list pyv) :=
               match ts with
               | [] => Ok []
               | t :: ts' =>
                   match subscript v (item i) with
                   | Ok x => match dec t x with
                             | Ok y => match go (S i) ts' with Ok ys => Ok (y :: ys) | Err e => Err e end
                             | Err e => Err e
                             end
                   | Err e => Err e
                   end
               end) 0 ts with
      | Ok l => Ok (PTuple l)
      | Err e => Err e
      end
  | TNamed c fs =>
      let v := match v with PTuple l | PList l | PNamed _ l => PDict (combine (map fst fs) l) | _ => v end in
      match (fix go (fs : list (string * ty)) : res (list pyv) :=
               match fs with
               | [] => Ok []
               | (f, t) :: fs' =>
                   match subscript v f with
                   | Ok x => match dec t x with
                             | Ok y => match go fs' with Ok ys => Ok (y :: ys) | Err e => Err e end
                             | Err e => Err e
                             end
                   | Err e => Err e
                   end
               end) fs with
      | Ok l => Ok (PNamed c l)
      | Err e => Err e
      end
  | TVariadic t => match as_list v with Ok l => match mapM (dec t) l with Ok l => Ok (PTuple l) | Err e => Err e end | Err e => Err e end
  | TList t => match as_list v with Ok l => match mapM (dec t) l with Ok l => Ok (PList l) | Err e => Err e end | Err e => Err e end
  end.

(** [_serialize] (369-373), [_nt_serialize] (330-336), [_serialize_complex] (184-186) *)
Fixpoint enc (t : ty) (v : pyv) : res pyv :=
  match t with
  | TAtom k => atom_enc k v
  | TComplex => match v with
                | PComplex a b => Ok (PDict [("real"%string, PAtom a); ("imag"%string, PAtom b)])
                | _ => Err EValidation
                end
  | TTuple ts =>
      match v with
      | PTuple l | PList l | PNamed _ l =>
          match (fix go (i : nat) (ts : list ty) (l : list pyv) : res (list (string * pyv)) :=
                   match l, ts with
                   | [], _ => Ok []
                   | _ :: _, [] => Err EIndex
                   | x :: l', t :: ts' =>
                       match enc t x with
                       | Ok y => match go (S i) ts' l' with Ok d => Ok ((item i, y) :: d) | Err e => Err e end
                       | Err e => Err e
                       end
                   end) 0 ts l with
          | Ok d => Ok (PDict d)
          | Err e => Err e
          end
      | _ => Err EType
      end
  | TNamed c fs =>
      match v with
      | PNamed c' l =>
          if Nat.eqb c c' then
            match (fix go (fs : list (string * ty)) (l : list pyv) : res (list (string * pyv)) :=
                     match fs, l with
                     | [], _ => Ok []
                     | _ :: _, [] => Err EAttr
                     | (f, t) :: fs', x :: l' =>
                         match enc t x with
                         | Ok y => match go fs' l' with Ok d => Ok ((f, y) :: d) | Err e => Err e end
                         | Err e => Err e
                         end
                     end) fs l with
            | Ok d => Ok (PDict d)
            | Err e => Err e
            end
          else Err EAttr
      | _ => Err EAttr
      end
  | TVariadic t => match v with PTuple l => match mapM (enc t) l with Ok l => Ok (PList l) | Err e => Err e end | _ => Err EValidation end
  | TList t => match v with PList l => match mapM (enc t) l with Ok l => Ok (PList l) | Err e => Err e end | _ => Err EValidation end
  end.
End Codec.
