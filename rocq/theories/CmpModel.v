(** Model of [syntactic_eq] (effectful/ops/syntax.py:780-890). *)
From Coq Require Import List ZArith String Ascii Bool Arith.
Import ListNotations.

(** Hashable values without parts. Numbers with [==] an equivalence: NaN is left out,
    booleans and integral floats are the integers they equal. *)
Inductive atom := AInt (z : Z) | AStr (s : string) | ABytes (l : list Z) | AOp (n : nat).

Definition atom_dec (a b : atom) : {a = b} + {a <> b}.
Proof. decide equality; [apply Z.eq_dec|apply string_dec|apply (list_eq_dec Z.eq_dec)|apply Nat.eq_dec]. Defined.
Definition atom_eqb (a b : atom) : bool := if atom_dec a b then true else false.

Inductive seqkind := SList | STuple.

(** Python values compared. Dictionary keys and set elements are atoms. [VNT] and
    [VData] are instances of the named tuple or dataclass number [c]. The flag of
    [VTerm] says whether the term is a number term ([_NumberTerm], syntax.py:1007), whose
    [==] calls an operation. Values registered by backends are left out. *)
Inductive value :=
| VAtom (a : atom)
| VSet (s : list atom)
| VSeq (c : seqkind) (l : list value)
| VNT (c : nat) (l : list value)
| VMap (m : list (atom * value))
| VData (c : nat) (m : list (string * value))
| VTerm (num : bool) (o : nat) (a : list value) (k : list (string * value)).

(** What a call returns: a bool, a term, or an exception. *)
Inductive out := OBool (b : bool) | OTerm | OErr.

(** Calls of the operation [_NumberTerm.__eq__] made on the way. *)
Definition calls := list (value * value).

Definition get {K V} (eqb : K -> K -> bool) (k : K) (m : list (K * V)) : option V :=
  match find (fun x => eqb (fst x) k) m with Some x => Some (snd x) | None => None end.

Definition has {K V} (eqb : K -> K -> bool) (m : list (K * V)) (k : K) : bool :=
  existsb (fun x => eqb (fst x) k) m.

(** [set(a) == set(b)] on keys *)
Definition same_keys {K V W} (eqb : K -> K -> bool) (m : list (K * V)) (m' : list (K * W)) : bool :=
  forallb (fun x => has eqb m' (fst x)) m && forallb (fun x => has eqb m (fst x)) m'.

Fixpoint chars (s : string) : list value :=
  match s with
  | EmptyString => []
  | String a s' => VAtom (AStr (String a EmptyString)) :: chars s'
  end.

(** What iterating a [collections.abc.Sequence] gives; [None]: not a Sequence. *)
Definition elements (v : value) : option (list value) :=
  match v with
  | VSeq _ l | VNT _ l => Some l
  | VAtom (AStr s) => Some (chars s)
  | VAtom (ABytes l) => Some (map (fun z => VAtom (AInt z)) l)
  | _ => None
  end.

Definition subset_atoms (s s' : list atom) : bool := forallb (fun a => existsb (atom_eqb a) s') s.

Section Compare.
(** What calling [_NumberTerm.__eq__] on a number term and another value gives in the
    current interpretation. *)
Variable eq_op : value -> value -> out.

(** Python's [x == y] for [x] neither a term, mapping nor list-like sequence. Atoms,
    sets and dataclass instances do not know how to compare with a term, so Python
    asks the term ([_BaseTerm.__eq__], syntax.py:596-599, is False then;
    [_NumberTerm.__eq__], 1126, is an operation). Dataclass instances only get here
    when [y] is not a dataclass instance. *)
Definition py_eq (x y : value) : out * calls :=
  match y with
  | VTerm true _ _ _ => (eq_op y x, [(y, x)])
  | _ =>
      match x, y with
      | VAtom a, VAtom b => (OBool (atom_eqb a b), [])
      | VSet s, VSet s' => (OBool (subset_atoms s s' && subset_atoms s' s), [])
      | _, _ => (OBool false, [])
      end
  end.

(** One step of [all(...)] or of [and]: [bool(term)] raises (syntax.py:1023). *)
Definition andthen (r : out * calls) (k : unit -> out * calls) : out * calls :=
  match fst r with
  | OBool true => let r2 := k tt in (fst r2, snd r ++ snd r2)
  | OBool false => (OBool false, snd r)
  | OTerm | OErr => (OErr, snd r)
  end.

(** [all(syntactic_eq(a, b) for a, b in zip(xs, ys))] *)
Definition all_zip (f : value -> value -> out * calls) :=
  fix go (xs ys : list value) : out * calls :=
    match xs, ys with
    | x :: xs', y :: ys' => andthen (f x y) (fun _ => go xs' ys')
    | _, _ => (OBool true, [])
    end.

(** [all(k in other and syntactic_eq(v, other[k]) for k, v in m)] *)
Definition all_get {K} (eqb : K -> K -> bool) (f : value -> value -> out * calls) (other : list (K * value)) :=
  fix go (m : list (K * value)) : out * calls :=
    match m with
    | [] => (OBool true, [])
    | x :: m' =>
        match get eqb (fst x) other with
        | None => (OBool false, [])
        | Some y => andthen (f (snd x) y) (fun _ => go m')
        end
    end.

(** syntax.py:853-858. The keys are visited in the order of a set there, here those of
    [x] first. *)
Definition eq_map {K} (eqb : K -> K -> bool) (f : value -> value -> out * calls) (m m' : list (K * value)) : out * calls :=
  andthen (all_get eqb f m' m) (fun _ => (OBool (forallb (fun x => has eqb m (fst x)) m'), [])).

Fixpoint syntactic_eq (x y : value) {struct x} : out * calls :=
  match x with
  | VTerm _ o a k =>                                            (* syntax.py:837-850 *)
      match y with
      | VTerm _ o' a' k' =>
          if Nat.eqb o o' then
            if Nat.eqb (List.length a) (List.length a') then
              if same_keys String.eqb k k' then
                andthen (all_zip syntactic_eq a a') (fun _ => all_get String.eqb syntactic_eq k' k)
              else (OBool false, [])
            else (OBool false, [])
          else (OBool false, [])
      | _ => (OBool false, [])
      end
  | VMap m =>                                                   (* 853-858 *)
      match y with
      | VMap m' => eq_map atom_eqb syntactic_eq m m'
      | _ => (OBool false, [])
      end
  | VSeq _ l =>                                                 (* 861-884 *)
      match y with
      | VNT _ _ => (OBool false, [])
      | _ =>
          match elements y with
          | Some l' =>
              if Nat.eqb (List.length l) (List.length l') then all_zip syntactic_eq l l' else (OBool false, [])
          | None => (OBool false, [])
          end
      end
  | VNT c l =>                                                  (* 875-878 *)
      match y with
      | VNT c' l' => if Nat.eqb c c' then all_zip syntactic_eq l l' else (OBool false, [])
      | _ => (OBool false, [])
      end
  | VData c m =>                                                (* 816-832 *)
      match y with
      | VData c' m' => if Nat.eqb c c' then eq_map String.eqb syntactic_eq m m' else (OBool false, [])
      | _ => py_eq x y
      end
  | VAtom _ | VSet _ => py_eq x y                               (* 887-890 *)
  end.
End Compare.

(** No handlers installed: the default of [_NumberTerm.__eq__] (syntax.py:1126-1130)
    compares syntactically, which is False for a term and something else. *)
Definition no_handlers : value -> value -> out := fun _ _ => OBool false.
