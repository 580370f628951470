(** Python's calling convention, the schema of a tool, and the types whose values come back. *)
From Coq Require Import String List Bool Arith.
Import ListNotations.
From Verif Require Import StrModel TupModel TupSpec CallModel.

(** ** What the parameters of a function receive (the Python language reference, "Calls") *)
Inductive received := RVal (v : pyv) | RDefault | RStar (l : list pyv) | RKw (d : list (string * pyv)).
Definition keyword_or_default (p : param) (kw : list (string * pyv)) : option (received * list (string * pyv)) :=
  match pget kw (p_name p) with
  | Some v => Some (RVal v, premove kw (p_name p))
  | None => if p_default p then Some (RDefault, kw) else None
  end.
(** [None]: TypeError *)
Fixpoint receive (ps : list param) (pos : list pyv) (kw : list (string * pyv)) : option (list received) :=
  match ps with
  | [] => match pos, kw with [], [] => Some [] | _, _ => None end
  | p :: ps' =>
      match p_kind p, pos with
      | PosOnly, v :: pos' => option_map (cons (RVal v)) (receive ps' pos' kw)
      | PosOnly, [] => if p_default p then option_map (cons RDefault) (receive ps' [] kw) else None
      | PosKw, v :: pos' =>
          match pget kw (p_name p) with Some _ => None | None => option_map (cons (RVal v)) (receive ps' pos' kw) end
      | PosKw, [] =>
          match keyword_or_default p kw with Some (r, kw') => option_map (cons r) (receive ps' [] kw') | None => None end
      | VarPos, pos => option_map (cons (RStar pos)) (receive ps' [] kw)
      | KwOnly, [] =>
          match keyword_or_default p kw with Some (r, kw') => option_map (cons r) (receive ps' [] kw') | None => None end
      | VarKw, [] => option_map (cons (RKw kw)) (receive ps' [] [])
      | _, _ :: _ => None
      end
  end.

Definition is_star (p : param) : bool := match p_kind p with VarPos | VarKw => true | _ => false end.
(** A parameter that can be given by name. *)
Definition by_name (p : param) : bool := match p_kind p with PosKw | KwOnly => true | _ => false end.
Definition names (ps : list param) : list string := map p_name ps.
Definition distinct_names (ps : list param) : Prop := NoDup (names ps).
(** A parameter for further keywords comes last (as [inspect.Signature] enforces). *)
Definition keywords_last (ps : list param) : Prop := forall l p r, ps = l ++ p :: r -> p_kind p = VarKw -> r = [].

Section Spec.
Variable atom_has : nat -> pyv -> Prop.
Variable atom_dec : nat -> pyv -> res pyv.
Variable atom_enc : nat -> pyv -> res pyv.
Variable float : nat.
Variable class : nat -> nat.
Variable any_atom : nat -> res pyv.

(** What a parameter should receive if the model sent the object [d]. *)
Definition should_receive (d : list (string * pyv)) (p : param) (r : received) : Prop :=
  match r with
  | RVal v => exists j, pget d (p_name p) = Some j /\ dec atom_dec float (p_ann p) j = Ok v
  | RDefault => pget d (p_name p) = None /\ p_default p = true
  | RStar l => l = []
  | RKw k => k = []
  end.

(** The published schema of a tool: every parameter required, nothing else allowed. *)
Definition admits (a : advert) (d : list (string * pyv)) : Prop :=
  NoDup (map fst d) /\ object (map fst (a_params a)) d /\
  forall n t, In (n, t) (a_params a) -> exists j, pget d n = Some j /\ valid atom_dec float t j.

(** What is assumed of scalars: encoded by their class, or as [Any], and decoded by their
    annotation they come back. *)
Definition scalars_round_trip : Prop :=
  (forall k v, atom_has k v -> exists n, v = PAtom n /\
     (exists j, atom_enc (class n) v = Ok j /\ atom_dec k j = Ok v) /\
     (exists j, any_atom n = Ok j /\ atom_dec k j = Ok v)) /\
  (forall a, atom_has float (PAtom a) -> atom_dec float (PAtom a) = Ok (PAtom a)).

(** Types all of whose values have one runtime type. *)
Inductive uniform : ty -> Prop :=
| U_atom : forall k, (forall n m, atom_has k (PAtom n) -> atom_has k (PAtom m) -> class n = class m) -> uniform (TAtom k)
| U_complex : uniform TComplex
| U_tuple : forall ts, Forall uniform ts -> uniform (TTuple ts).
(** Types without complex numbers. *)
Inductive plain : ty -> Prop :=
| P_atom : forall k, plain (TAtom k)
| P_tuple : forall ts, Forall plain ts -> plain (TTuple ts)
| P_variadic : forall t, plain t -> plain (TVariadic t)
| P_list : forall t, plain t -> plain (TList t)
| P_named : forall c fs, Forall (fun ft => plain (snd ft)) fs -> plain (TNamed c fs).
(** Types whose values come back: no variadic or named tuples; complex numbers in a list only if
    its items have one runtime type. *)
Inductive steady : ty -> Prop :=
| S_atom : forall k, steady (TAtom k)
| S_complex : steady TComplex
| S_tuple : forall ts, Forall steady ts -> steady (TTuple ts)
| S_list : forall t, steady t -> plain t \/ uniform t -> steady (TList t).
End Spec.
