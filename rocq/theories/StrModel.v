(** Model of [Term.__str__] (effectful/ops/types.py:622-673). *)
From Coq Require Import List String Ascii Bool Arith DecimalString Decimal DecimalNat.
Import ListNotations.
Open Scope string_scope.
Open Scope list_scope.

(** Values being printed. [PText s] is anything printed as [s] by [str], and an
    evaluated term. [POther pre l] is a container printed by its own [repr] (set, dataclass):
    operations inside are printed by [Operation.__repr__], given by [repr]. Dictionary
    keys that are terms are left out: equal strings would collapse. Quotes that [repr] puts
    around the strings of evaluated terms inside [POther] are left out. *)
Inductive pexpr :=
| PText (s : string)
| POp (o : nat)
| PTerm (o : nat) (a : list pexpr) (k : list (string * pexpr))
| PList (l : list pexpr)
| PTuple (l : list pexpr)
| PDict (l : list (pexpr * pexpr))
| POther (pre : string) (l : list pexpr).

(** Decimal notation of a number, as in an f-string. *)
Definition show (n : nat) : string := NilZero.string_of_uint (Nat.to_uint n).

(** [fresh]: for each name, the operations with that name in the order numbered. *)
Definition fresh := list (string * list nat).

Fixpoint ops_of (f : fresh) (name : string) : list nat :=
  match f with [] => [] | (n, l) :: f' => if String.eqb n name then l else ops_of f' name end.

Fixpoint add_op (f : fresh) (name : string) (o : nat) : fresh :=
  match f with
  | [] => [(name, [o])]
  | (n, l) :: f' => if String.eqb n name then (n, l ++ [o]) :: f' else (n, l) :: add_op f' name o
  end.

Fixpoint position (o : nat) (l : list nat) : option nat :=
  match l with
  | [] => None
  | x :: l' => if Nat.eqb x o then Some 0 else match position o l' with Some i => Some (S i) | None => None end
  end.

Section Str.
Variable name : nat -> string.         (* [op.__name__] *)
Variable repr : nat -> string.         (* [repr(op)] *)

Definition numbered (s : string) (n : nat) : string :=
  match n with 0 => s | _ => (s ++ "!" ++ show n)%string end.

(** [op_str] (types.py:628-639) *)
Definition op_str (o : nat) (f : fresh) : string * fresh :=
  match position o (ops_of f (name o)) with
  | Some n => (numbered (name o) n, f)
  | None => (numbered (name o) (List.length (ops_of f (name o))), add_op f (name o) o)
  end.

Definition maps (g : pexpr -> fresh -> string * fresh) :=
  fix go (l : list pexpr) (f : fresh) : list string * fresh :=
    match l with
    | [] => ([], f)
    | e :: l' => let (s, f1) := g e f in let (r, f2) := go l' f1 in (s :: r, f2)
    end.

Definition mapsk (g : pexpr -> fresh -> string * fresh) :=
  fix go (l : list (string * pexpr)) (f : fresh) : list string * fresh :=
    match l with
    | [] => ([], f)
    | x :: l' => let (s, f1) := g (snd x) f in let (r, f2) := go l' f1 in ((fst x ++ "=" ++ s)%string :: r, f2)
    end.

Definition mapsd (g : pexpr -> fresh -> string * fresh) :=
  fix go (l : list (pexpr * pexpr)) (f : fresh) : list string * fresh :=
    match l with
    | [] => ([], f)
    | x :: l' =>
        let (s, f1) := g (fst x) f in let (s', f2) := g (snd x) f1 in
        let (r, f3) := go l' f2 in ((s ++ ":" ++ s')%string :: r, f3)
    end.

Definition join := String.concat ", ".

(** [repr] of the content of other containers *)
Fixpoint repr_str (e : pexpr) : string :=
  match e with
  | PText s => s
  | POp o => repr o
  | PTerm o _ _ => repr o                       (* not reached: terms are evaluated first *)
  | PList l => "[" ++ join (map repr_str l) ++ "]"
  | PTuple l => "(" ++ join (map repr_str l) ++ ")"
  | PDict l => "{" ++ join (map (fun x => repr_str (fst x) ++ ":" ++ repr_str (snd x))%string l) ++ "}"
  | POther pre l => pre ++ "(" ++ join (map repr_str l) ++ ")"
  end%string.

(** [term_str] (types.py:641-657) *)
Fixpoint term_str (e : pexpr) (f : fresh) {struct e} : string * fresh :=
  match e with
  | PText s => (s, f)
  | POp o => op_str o f
  | PTerm o _ _ => (repr o, f)                  (* not reached: terms are evaluated first *)
  | PList l => let (r, f') := maps term_str l f in (("[" ++ join r ++ "]")%string, f')
  | PTuple l => let (r, f') := maps term_str l f in (("(" ++ join r ++ ")")%string, f')
  | PDict l => let (r, f') := mapsd term_str l f in (("{" ++ join r ++ "}")%string, f')
  | POther pre l => (repr_str (POther pre l), f)
  end.

Definition nonempty {A} (l : list A) : bool := match l with [] => false | _ => true end.

(** [_apply] (types.py:658-670) *)
Definition apply_str (o : nat) (a : list pexpr) (k : list (string * pexpr)) (f : fresh) : string * fresh :=
  let (ra, f1) := maps term_str a f in
  let (rk, f2) := mapsk term_str k f1 in
  let (s, f3) := op_str o f2 in
  ((s ++ "(" ++ join ra ++ (if nonempty k then (if nonempty a then ", " else "") else "") ++ join rk ++ ")")%string, f3).

Definition mape (g : pexpr -> fresh -> pexpr * fresh) :=
  fix go (l : list pexpr) (f : fresh) : list pexpr * fresh :=
    match l with
    | [] => ([], f)
    | e :: l' => let (s, f1) := g e f in let (r, f2) := go l' f1 in (s :: r, f2)
    end.

Definition mapek (g : pexpr -> fresh -> pexpr * fresh) :=
  fix go (l : list (string * pexpr)) (f : fresh) : list (string * pexpr) * fresh :=
    match l with
    | [] => ([], f)
    | x :: l' => let (s, f1) := g (snd x) f in let (r, f2) := go l' f1 in ((fst x, s) :: r, f2)
    end.

Definition maped (g : pexpr -> fresh -> pexpr * fresh) :=
  fix go (l : list (pexpr * pexpr)) (f : fresh) : list (pexpr * pexpr) * fresh :=
    match l with
    | [] => ([], f)
    | x :: l' => let (s, f1) := g (fst x) f in let (s', f2) := g (snd x) f1 in let (r, f3) := go l' f2 in ((s, s') :: r, f3)
    end.

(** [evaluate] under [{apply: _apply}] (types.py:672-673, semantics.py:151-226) *)
Fixpoint eval_str (e : pexpr) (f : fresh) {struct e} : pexpr * fresh :=
  match e with
  | PText s => (PText s, f)
  | POp o => (POp o, f)
  | PTerm o a k =>
      let (a', f1) := mape eval_str a f in
      let (k', f2) := mapek eval_str k f1 in
      let (s, f3) := apply_str o a' k' f2 in (PText s, f3)
  | PList l => let (l', f') := mape eval_str l f in (PList l', f')
  | PTuple l => let (l', f') := mape eval_str l f in (PTuple l', f')
  | PDict l => let (l', f') := maped eval_str l f in (PDict l', f')
  | POther pre l => let (l', f') := mape eval_str l f in (POther pre l', f')
  end.

(** [str(t)] *)
Definition str (t : pexpr) : string := match eval_str t [] with (PText s, _) => s | _ => "" end.
End Str.
