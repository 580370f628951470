(** Values of a type, JSON values, and what the published schema of a type admits. *)
From Coq Require Import String List Bool Arith.
Import ListNotations.
From Verif Require Import StrModel TupModel.

Section Spec.
Variable atom_has : nat -> pyv -> Prop.
Variable atom_dec : nat -> pyv -> res pyv.
Variable atom_enc : nat -> pyv -> res pyv.
Variable float : nat.

Inductive has : pyv -> ty -> Prop :=
| H_atom : forall k v, atom_has k v -> has v (TAtom k)
| H_complex : forall a b, atom_has float (PAtom a) -> atom_has float (PAtom b) -> has (PComplex a b) TComplex
| H_tuple : forall l ts, Forall2 has l ts -> has (PTuple l) (TTuple ts)
| H_variadic : forall l t, Forall (fun v => has v t) l -> has (PTuple l) (TVariadic t)
| H_list : forall l t, Forall (fun v => has v t) l -> has (PList l) (TList t)
| H_named : forall c l fs, Forall2 (fun v ft => has v (snd ft)) l fs -> has (PNamed c l) (TNamed c fs).

(** Field names of a class are distinct. *)
Inductive wf : ty -> Prop :=
| W_atom : forall k, wf (TAtom k)
| W_complex : wf TComplex
| W_tuple : forall ts, Forall wf ts -> wf (TTuple ts)
| W_variadic : forall t, wf t -> wf (TVariadic t)
| W_list : forall t, wf t -> wf (TList t)
| W_named : forall c fs, NoDup (map fst fs) -> Forall (fun ft => wf (snd ft)) fs -> wf (TNamed c fs).

Inductive is_json : pyv -> Prop :=
| J_atom : forall n, is_json (PAtom n)
| J_list : forall l, Forall is_json l -> is_json (PList l)
| J_dict : forall d, Forall (fun kv => is_json (snd kv)) d -> is_json (PDict d).

(** An object with exactly the given fields. *)
Definition object (names : list string) (d : list (string * pyv)) : Prop := forall k, In k names <-> In k (map fst d).

(** [properties], [required] and [additionalProperties: false]; scalars: what pydantic accepts. *)
Inductive valid : ty -> pyv -> Prop :=
| V_atom : forall k v x, atom_dec k v = Ok x -> valid (TAtom k) v
| V_complex : forall d r i a b, object ["real"; "imag"]%string d ->
    pget d "real" = Some r -> pget d "imag" = Some i ->
    atom_dec float r = Ok (PAtom a) -> atom_dec float i = Ok (PAtom b) -> valid TComplex (PDict d)
| V_tuple : forall ts d, object (map item (seq 0 (length ts))) d ->
    (forall i t, nth_error ts i = Some t -> exists v, pget d (item i) = Some v /\ valid t v) -> valid (TTuple ts) (PDict d)
| V_variadic : forall t l, Forall (valid t) l -> valid (TVariadic t) (PList l)
| V_list : forall t l, Forall (valid t) l -> valid (TList t) (PList l)
| V_named : forall c fs d, object (map fst fs) d ->
    (forall f t, In (f, t) fs -> exists v, pget d f = Some v /\ valid t v) -> valid (TNamed c fs) (PDict d).

(** What is assumed of the codec of scalars. *)
Definition atoms_round_trip : Prop :=
  (forall k v, atom_has k v -> exists j, atom_enc k v = Ok j /\ is_json j /\ atom_dec k j = Ok v) /\
  (forall a, atom_has float (PAtom a) -> atom_dec float (PAtom a) = Ok (PAtom a)).
Definition atoms_sound : Prop := forall k j v, atom_dec k j = Ok v -> atom_has k v.
End Spec.
