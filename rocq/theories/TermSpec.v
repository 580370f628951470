(** Specification of binding: which arguments of a call are in the scope of which
    variables, terms up to renaming of bound variables, free variables,
    substitution. Independent of [fvs_rule], [defdata] and [evaluate]. *)
From Coq Require Import List ZArith String Bool Arith.
From Verif Require Import TermModel.
Import ListNotations.
Set Implicit Arguments.

(** ** Which parameter an argument of a term belongs to *)

Fixpoint slots_pos (ps : list param) (vp : option param) (a : args) : list (option param * expr) :=
  match a with
  | [] => []
  | e :: a' =>
      match ps with
      | p :: ps' => (Some p, e) :: slots_pos ps' vp a'
      | [] => (vp, e) :: slots_pos [] vp a'
      end
  end.

Definition kw_param (s : sig) (name : string) : option param :=
  match find (fun p => String.eqb (pname p) name) (kwonly s) with
  | Some p => Some p
  | None => varkw s
  end.

Definition slots_kw (s : sig) (k : kwargs) : list (option param * expr) :=
  map (fun x => (kw_param s (fst x), snd x)) k.

Definition slots (s : sig) (a : args) (k : kwargs) : list (option param * expr) :=
  slots_pos (posonly s ++ poskw s) (varpos s) a ++ slots_kw s k.

(** ** Scoping *)

(** The operations an argument brings: the argument itself for an Operation
    parameter, otherwise all operations inside lists, tuples, dicts and sets. *)
Definition ops_of (p : param) (e : expr) : list op :=
  if isvar p then match e with EOp o => [o] | _ => [] end else extract e.

(** Parameter [q] binds its variables in the argument for parameter [p]: its scope
    is included in [p]'s and is not visible in the result. *)
Definition binds_in (s : sig) (q p : param) : bool :=
  subset (ord q) (ord p) && negb (subset (ord q) (ret s)).

(** Variables bound in an argument belonging to parameter [p]. *)
Definition scope (s : sig) (sl : list (option param * expr)) (p : option param) : list op :=
  match p with
  | None => []
  | Some p =>
      flat_map (fun x => match fst x with
                         | Some q => if binds_in s q p then ops_of q (snd x) else []
                         | None => [] end) sl
  end.

(** All variables bound by the call, in order of the arguments. *)
Definition binders (s : sig) (sl : list (option param * expr)) : list op :=
  nodup op_eq_dec
    (flat_map (fun x => match fst x with
                        | Some q => if subset (ord q) (ret s) then [] else ops_of q (snd x)
                        | None => [] end) sl).

(** [f x e] for each argument with its parameter. *)
Definition zipp {B : Type} (f : option param -> expr -> B) (vp : option param) :=
  fix go (ps : list param) (a : list expr) : list B :=
    match a with
    | [] => []
    | e :: a' =>
        match ps with
        | p :: ps' => f (Some p) e :: go ps' a'
        | [] => f vp e :: go [] a'
        end
    end.

(** ** Terms up to bound names *)

(** A bound variable is represented by how many calls up its binder is, which of
    the binders of that call it is, and its signature. *)
Inductive lab := LFree (o : op) | LBound (up idx : nat) (b : nat).

Inductive cexpr :=
| CConst (z : Z)
| COp (l : lab)
| CTerm (l : lab) (a : list cexpr) (k : list (string * cexpr))
| CColl (c : ckind) (l : list cexpr).

(** Names in scope. *)
Definition names := op -> option (nat * nat).
Definition no_names : names := fun _ => None.

Definition label (m : names) (o : op) : lab :=
  match m o with Some (u, i) => LBound u i (base o) | None => LFree o end.

Definition enter (m : names) (U B : list op) : names :=
  fun o => if memo o B then Some (0, index o U)
           else match m o with Some (u, i) => Some (S u, i) | None => None end.

Section Spec.
Variable sigs : nat -> sig.

Fixpoint canon (m : names) (t : expr) {struct t} : cexpr :=
  match t with
  | EConst z => CConst z
  | EOp o => COp (label m o)
  | ETerm o a k =>
      let s := sigs (base o) in
      let sl := slots s a k in
      let U := binders s sl in
      CTerm (label m o)
        (zipp (fun p e => canon (enter m U (scope s sl p)) e) (varpos s) (posonly s ++ poskw s) a)
        (map (fun x => (fst x, canon (enter m U (scope s sl (kw_param s (fst x)))) (snd x))) k)
  | EColl c l => CColl c (map (canon m) l)
  end.

(** Equal up to renaming of bound variables. *)
Definition alpha (t u : expr) : Prop := canon no_names t = canon no_names u.

(** ** Free and bound variables *)

Definition minus (l B : list op) : list op := filter (fun v => negb (memo v B)) l.

(** Free variables: operations that are called, outside of the scopes binding them. *)
Fixpoint fv (t : expr) {struct t} : list op :=
  match t with
  | EConst _ => []
  | EOp _ => []
  | ETerm o a k =>
      let s := sigs (base o) in
      let sl := slots s a k in
      o :: List.concat (zipp (fun p e => minus (fv e) (scope s sl p)) (varpos s) (posonly s ++ poskw s) a)
        ++ List.concat (map (fun x => minus (fv (snd x)) (scope s sl (kw_param s (fst x)))) k)
  | EColl _ l => flat_map fv l
  end.

(** The same, also counting operations used as values. *)
Fixpoint fvo (t : expr) {struct t} : list op :=
  match t with
  | EConst _ => []
  | EOp o => [o]
  | ETerm o a k =>
      let s := sigs (base o) in
      let sl := slots s a k in
      o :: List.concat (zipp (fun p e => minus (fvo e) (scope s sl p)) (varpos s) (posonly s ++ poskw s) a)
        ++ List.concat (map (fun x => minus (fvo (snd x)) (scope s sl (kw_param s (fst x)))) k)
  | EColl _ l => flat_map fvo l
  end.

(** Operations used as values, outside of the scopes binding them. *)
Fixpoint fval (t : expr) {struct t} : list op :=
  match t with
  | EConst _ => []
  | EOp o => [o]
  | ETerm o a k =>
      let s := sigs (base o) in
      let sl := slots s a k in
      List.concat (zipp (fun p e => minus (fval e) (scope s sl p)) (varpos s) (posonly s ++ poskw s) a)
        ++ List.concat (map (fun x => minus (fval (snd x)) (scope s sl (kw_param s (fst x)))) k)
  | EColl _ l => flat_map fval l
  end.

(** All variables bound somewhere in a term. *)
Fixpoint bv (t : expr) {struct t} : list op :=
  match t with
  | EConst _ => []
  | EOp _ => []
  | ETerm o a k =>
      binders (sigs (base o)) (slots (sigs (base o)) a k)
      ++ flat_map bv a ++ flat_map (fun x => bv (snd x)) k
  | EColl _ l => flat_map bv l
  end.

End Spec.

(** All operations occurring in an expression. *)
Fixpoint ops (t : expr) : list op :=
  match t with
  | EConst _ => []
  | EOp o => [o]
  | ETerm o a k => o :: flat_map ops a ++ flat_map (fun x => ops (snd x)) k
  | EColl _ l => flat_map ops l
  end.

(** ** Capture-avoiding substitution of [v] for the calls [x()] *)
Fixpoint csubst (h : op -> option cexpr) (c : cexpr) : cexpr :=
  match c with
  | CConst z => CConst z
  | COp l => COp l
  | CTerm l a k =>
      let other := CTerm l (map (csubst h) a) (map (fun x => (fst x, csubst h (snd x))) k) in
      match l, a, k with
      | LFree o, [], [] => match h o with Some v => v | None => other end
      | _, _, _ => other
      end
  | CColl c l => CColl c (map (csubst h) l)
  end.

(** ** What the variables of a function stand for in a call [f( *vs, **kws)]:
    positional ones by position, keyword ones by name. *)
Definition applied (xs : list op) (kn : list string) (ys : list op) (vs : list expr)
    (kws : list (string * expr)) : list (op * expr) :=
  combine xs vs ++
  flat_map (fun p => match find (fun x => String.eqb (fst x) (fst p)) kws with
                     | Some x => [(snd p, snd x)]
                     | None => [] end) (combine kn ys).

(** ** Evaluation as a fold (C20) *)

(** What evaluation runs: arguments from left to right, then keyword arguments, then
    the operation itself; the first exception stops everything. *)
Section Runs.
Variable St : Type.
Variable look : op -> op.
Variable app : op -> args -> kwargs -> St -> res (expr * St).

Inductive runs : expr -> St -> res (expr * St) -> Prop :=
| RunConst z s : runs (EConst z) s (Ok (EConst z, s))
| RunOp o s : runs (EOp o) s (Ok (EOp (look o), s))
| RunTerm o a k s a' s1 k' s2 :
    runs_seq a s (Ok (a', s1)) -> runs_seq (map snd k) s1 (Ok (k', s2)) ->
    runs (ETerm o a k) s (app o a' (combine (map fst k) k') s2)
| RunTermA o a k s x : runs_seq a s (Err x) -> runs (ETerm o a k) s (Err x)
| RunTermK o a k s a' s1 x : runs_seq a s (Ok (a', s1)) -> runs_seq (map snd k) s1 (Err x) ->
    runs (ETerm o a k) s (Err x)
| RunColl c l s l' s' : walks c = true -> runs_seq l s (Ok (l', s')) -> runs (EColl c l) s (Ok (EColl c l', s'))
| RunCollE c l s x : walks c = true -> runs_seq l s (Err x) -> runs (EColl c l) s (Err x)
| RunOpaque c l s : walks c = false -> runs (EColl c l) s (Ok (EColl c l, s))
with runs_seq : list expr -> St -> res (list expr * St) -> Prop :=
| SeqNil s : runs_seq [] s (Ok ([], s))
| SeqCons e l s e' s1 l' s2 : runs e s (Ok (e', s1)) -> runs_seq l s1 (Ok (l', s2)) ->
    runs_seq (e :: l) s (Ok (e' :: l', s2))
| SeqErr1 e l s x : runs e s (Err x) -> runs_seq (e :: l) s (Err x)
| SeqErr2 e l s e' s1 x : runs e s (Ok (e', s1)) -> runs_seq l s1 (Err x) -> runs_seq (e :: l) s (Err x).
End Runs.

(** With operations interpreted by a function [F], evaluation is the homomorphism
    determined by [F]... *)
Section Hom.
Variable look : op -> op.
Variable F : op -> args -> kwargs -> expr.
Fixpoint hom (t : expr) : expr :=
  match t with
  | EConst z => EConst z
  | EOp o => EOp (look o)
  | ETerm o a k => F o (map hom a) (map (fun x => (fst x, hom (snd x))) k)
  | EColl c l => if walks c then EColl c (map hom l) else EColl c l
  end.
(** ... and operations are called in this order, on these arguments. *)
Fixpoint calls (t : expr) : list (op * args * kwargs) :=
  match t with
  | EConst _ | EOp _ => []
  | ETerm o a k =>
      flat_map calls a ++ flat_map (fun x => calls (snd x)) k
      ++ [(o, map hom a, map (fun x => (fst x, hom (snd x))) k)]
  | EColl c l => if walks c then flat_map calls l else []
  end.
End Hom.
