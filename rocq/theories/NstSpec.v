(** What it is for a value to have a type *)
From Coq Require Import List Bool Arith.
From Verif Require Import NstModel.
Import ListNotations.

Definition class_of (v : value) : cls :=
  match v with
  | VAtom c | VNamed c _ | VColl c _ | VCall c _ => CUser c
  | VStr _ => CStr
  | VTuple _ => CTuple
  | VMap c _ => match c with None => CDict | Some n => CUser n end
  | VOp _ => COp
  | VTerm _ => CUser 0
  end.

(** A call with one argument of each type of [ts] meets parameters of those types, and no other parameter needs an argument. *)
Inductive takes : list param -> list ty -> Prop :=
| takes_none : forall ps, (forall p, In p ps -> dflt p = true \/ kind p = VarPositional \/ kind p = VarKeyword) -> takes ps []
| takes_one : forall p ps t ts, kind p = Positional -> ann p = Some t -> takes ps ts -> takes (p :: ps) (t :: ts).

Definition signature (v : value) : option fsig := match v with VCall _ g | VOp g => g | _ => None end.

(** Operations with what is called for them *)
Definition interpretation (l : list (value * value)) : Prop :=
  forall k x, In (k, x) l -> class_of k = COp /\ match x with VCall _ _ | VOp _ | VTerm true => True | _ => False end.

Section Has.
Variable sub : cls -> cls -> Prop.         (* subclasses *)

Fixpoint has (t : ty) (v : value) : Prop :=
  let returns r := exists g, signature v = Some g /\ ret g = Some r in
  let accepts ts := exists g, signature v = Some g /\ takes (params g) ts in
  match t with
  | TCls c => sub (class_of v) c
  | TTuple ts =>
      match v with
      | VTuple l | VNamed _ l =>
          (fix all ts l := match ts, l with [], [] => True | t :: ts', x :: l' => has t x /\ all ts' l' | _, _ => False end) ts l
      | _ => False
      end
  | TColl d u => sub (class_of v) d /\ match v with VColl _ l => forall x, In x l -> has u x | _ => False end
  | TMap d kt vt => sub (class_of v) d /\ match v with VMap _ l => forall kx, In kx l -> has kt (fst kx) /\ has vt (snd kx) | _ => False end
  | TTyped fields =>
      (** a dictionary with these keys *)
      sub (class_of v) CDict /\
      match v with
      | VMap _ l =>
          (fix all fields l := match fields, l with
           | [], [] => True
           | (s, u) :: fs', (k, x) :: l' => (k = VStr s /\ has u x) /\ all fs' l'
           | _, _ => False
           end) fields l
      | _ => False
      end
  | TCall ps r => returns r /\ match ps with Some ts => accepts ts | None => True end
  | TOp ps r => class_of v = COp /\ returns r /\ match ps with Some ts => accepts ts | None => True end
  | TInterp => match v with VMap _ l => interpretation l | _ => False end
  end.
End Has.

(** All values inside a value *)
Inductive inside : value -> value -> Prop :=
| in_self : forall v, inside v v
| in_tuple : forall l x w, In x l -> inside w x -> inside w (VTuple l)
| in_named : forall c l x w, In x l -> inside w x -> inside w (VNamed c l)
| in_coll : forall c l x w, In x l -> inside w x -> inside w (VColl c l)
| in_key : forall c l k x w, In (k, x) l -> inside w k -> inside w (VMap c l)
| in_value : forall c l k x w, In (k, x) l -> inside w x -> inside w (VMap c l).

(** No typed dictionary in a type *)
Fixpoint settled (t : ty) : Prop :=
  let all := fix all l := match l with [] => True | t :: l' => settled t /\ all l' end in
  match t with
  | TCls _ | TInterp => True
  | TTuple l => all l
  | TColl _ t => settled t
  | TMap _ k v => settled k /\ settled v
  | TTyped _ => False
  | TCall ps r | TOp ps r => match ps with Some l => all l | None => True end /\ settled r
  end.

(** The library: a class is a subclass of itself and of what [canonicalize] gives for it, which for a collection is not [str]
    (subclasses of [str] are [VAtom]s). *)
Record library (coll : nat -> collk) (mapping : option nat -> mapk) (sub : cls -> cls -> Prop) : Prop := {
  lib_refl : forall c, sub c c;
  lib_coll : forall c, match coll c with CollGen d | CollBare d => sub (CUser c) d end;
  lib_str : forall c, match coll c with CollGen d | CollBare d => d <> CStr end;
  lib_map : forall c d, mapping c = MapGen d -> sub (match c with None => CDict | Some n => CUser n end) d
}.
(** Left out of soundness: named tuples of two or more items, mappings that are no dictionaries with one item *)
Definition plain (sub : cls -> cls -> Prop) (w : value) : Prop :=
  match w with
  | VNamed c l => sub (CUser c) CTuple /\ length l <= 1
  | VMap (Some c) [_] => sub (CUser c) CDict
  | _ => True
  end.
(** What is refused: a term, or a [typing.NamedTuple], where items are looked at *)
Inductive refused (coll : nat -> collk) (typed : nat -> bool) : value -> Prop :=
| ref_term : forall b, refused coll typed (VTerm b)
| ref_named : forall c l, typed c = true -> refused coll typed (VNamed c l)
| ref_tuple : forall l x, In x l -> refused coll typed x -> refused coll typed (VTuple l)
| ref_item : forall c l x, In x l -> refused coll typed x -> refused coll typed (VNamed c l)
| ref_coll : forall c d l x, coll c = CollGen d -> In x l -> refused coll typed x -> refused coll typed (VColl c l)
| ref_map : forall c l k x w, In (k, x) l -> ~ interpretation l -> (w = k \/ w = x) -> refused coll typed w -> refused coll typed (VMap c l).
