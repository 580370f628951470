(** Model of [nested_type], the type found for a value (effectful/internals/unification.py 857-1112), with the cases of [canonicalize]
    it uses (656-722) and the test for interpretations (effectful/ops/types.py 705-709). Boxed types are left out (they stand for
    themselves; see TypModel). [None] is a TypeError, the only error raised. *)
From Coq Require Import List Bool Arith.
Import ListNotations.

(** Classes: [str], [dict], [tuple], [Operation] and others *)
Inductive cls := CStr | CDict | CTuple | COp | CUser (n : nat).
Definition cls_eqb (a b : cls) : bool :=
  match a, b with CStr, CStr | CDict, CDict | CTuple, CTuple | COp, COp => true | CUser n, CUser m => n =? m | _, _ => false end.

(** Types: a class; [tuple[...]]; a collection class with the type of its items; a mapping class with those of keys and values;
    a typed dictionary; [Callable] and [Operation], whose parameters are listed or [...]; [Interpretation]. *)
Inductive ty :=
| TCls (c : cls)
| TTuple (l : list ty)
| TColl (c : cls) (t : ty)
| TMap (c : cls) (k v : ty)
| TTyped (fields : list (nat * ty))
| TCall (ps : option (list ty)) (r : ty)
| TOp (ps : option (list ty)) (r : ty)
| TInterp.

(** Parameters of functions: kind, annotation, whether there is a default *)
Inductive pkind := Positional | VarPositional | KeywordOnly | VarKeyword.
Record param := mkparam { kind : pkind; ann : option ty; dflt : bool }.
Record fsig := mkfsig { params : list param; ret : option ty }.

(** Values. [VAtom c]: an object that is none of the others, of class [c]. [VColl], [VMap]: collections and mappings of a class,
    [None] standing for [dict]. [VNamed]: of a subclass of [tuple]. [VCall c g]: callables, with the signature found by [inspect],
    if one is found and there are no overloads. [VTerm b]: a term, callable or not. *)
Inductive value :=
| VAtom (c : nat)
| VStr (s : nat)
| VTuple (l : list value)
| VNamed (c : nat) (l : list value)
| VColl (c : nat) (l : list value)
| VMap (c : option nat) (l : list (value * value))
| VCall (c : nat) (g : option fsig)
| VOp (g : option fsig)
| VTerm (callable : bool).

(** What [canonicalize] gives for the class of a collection (1081-1085): one that takes parameters or one that does not *)
Inductive collk := CollGen (d : cls) | CollBare (d : cls).
(** ... for that of a mapping: one that takes parameters, or a type which has its parameters (a class defined with the base
    [Mapping[str, int]]), to which none can be given (707-715) *)
Inductive mapk := MapGen (d : cls) | MapFixed.

Section Nested.
Variable coll : nat -> collk.
Variable mapping : option nat -> mapk.
Variable typed : nat -> bool.              (* named tuples made by [typing.NamedTuple], whose base is a function *)

(** Equality of types. Every call of [typing.TypedDict] makes a class equal to no other. *)
Fixpoint ty_eqb (a b : ty) : bool :=
  let all := fix all (l m : list ty) : bool := match l, m with [], [] => true | x :: l', y :: m' => ty_eqb x y && all l' m' | _, _ => false end in
  match a, b with
  | TCls c, TCls d => cls_eqb c d
  | TTuple l, TTuple m => all l m
  | TColl c t, TColl d u => cls_eqb c d && ty_eqb t u
  | TMap c k v, TMap d k' v' => cls_eqb c d && ty_eqb k k' && ty_eqb v v'
  | TCall ps r, TCall ps' r' | TOp ps r, TOp ps' r' =>
      match ps, ps' with Some l, Some m => all l m | None, None => true | _, _ => false end && ty_eqb r r'
  | TInterp, TInterp => true
  | _, _ => false
  end.
(** [functools.reduce(operator.or_, ...)]: [None] for a union of several types (1060-1065, 1094-1096) *)
Definition joined (ts : list ty) : option ty :=
  match ts with [] => None | t :: ts' => if forallb (ty_eqb t) ts' then Some t else None end.

(** Functions (949-998) *)
Definition listed (p : param) : bool := match kind p, ann p with Positional, Some _ => true | _, _ => false end.
Definition call_type (c : cls) (g : option fsig) : ty :=
  match g with
  | Some g =>
      match ret g with
      | None => TCls c
      | Some r => if forallb listed (params g) then TCall (Some (flat_map (fun p => match ann p with Some t => [t] | None => [] end) (params g))) r
                  else TCall None r
      end
  | None => TCls c
  end.
(** Operations (936-946) *)
Definition op_type (g : option fsig) : ty := match call_type COp g with TCall ps r => TOp ps r | t => t end.

(** [isinstance(value, Interpretation)] (types.py:706-709) *)
Definition callable (v : value) : bool := match v with VCall _ _ | VOp _ => true | VTerm b => b | _ => false end.
Definition is_op (v : value) : bool := match v with VOp _ => true | _ => false end.
Definition is_interp (l : list (value * value)) : bool := forallb (fun kv => is_op (fst kv) && callable (snd kv)) l.

Definition mapM {A B} (f : A -> option B) : list A -> option (list B) :=
  fix go l := match l with [] => Some [] | x :: l' => match f x with Some y => option_map (cons y) (go l') | None => None end end.

Definition map_cls (c : option nat) : cls := match c with None => CDict | Some n => CUser n end.
Definition given (c : option nat) (k v : ty) : option ty := match mapping c with MapGen d => Some (TMap d k v) | MapFixed => None end.
Definition is_str (t : ty) : bool := match t with TCls CStr => true | _ => false end.
Definition is_typed (t : ty) : bool := match t with TTyped _ => true | _ => false end.
Definition key_of (v : value) : nat := match v with VStr s => s | _ => 0 end.
(** Mappings (1044-1077), of the types of keys and values *)
Definition map_type (c : option nat) (l : list (value * value)) (ks vs : list ty) : option ty :=
  let fields := combine (map (fun kv => key_of (fst kv)) l) vs in
  match ks, vs with
  | [], _ | _, [] => Some (TCls (map_cls c))
  | [k], [v] => if is_str k && is_typed v then Some (TTyped fields) else given c k v
  | _, _ =>
      match joined ks, joined vs, c with
      | Some k, None, None => if is_str k then Some (TTyped fields) else Some (TCls CDict)
      | Some k, Some v, _ => given c k v
      | _, _, _ => Some (TCls (map_cls c))
      end
  end.
(** Collections (1080-1097), of the types of the items; [f]: the class with its parameter *)
Definition items_type (bare : cls) (f : ty -> ty) (ts : list ty) : ty := match joined ts with Some t => f t | None => TCls bare end.

Fixpoint nested (v : value) : option ty :=
  match v with
  | VAtom c => Some (TCls (CUser c))
  | VStr _ => Some (TCls CStr)
  | VTuple [] => Some (TCls CTuple)
  | VTuple l => option_map TTuple (mapM nested l)
  | VNamed c l => if typed c then None else option_map (items_type CTuple (fun t => TTuple [t])) (mapM nested l)
  | VColl c l =>
      match coll c with
      | CollBare d => Some (TCls d)
      | CollGen d => option_map (items_type d (TColl d)) (mapM nested l)
      end
  | VMap c l =>
      match l with
      | [] => Some (TCls (map_cls c))
      | _ =>
        if is_interp l then Some TInterp else
        match mapM (fun kv => nested (fst kv)) l, mapM (fun kv => nested (snd kv)) l with
        | Some ks, Some vs => map_type c l ks vs
        | _, _ => None
        end
      end
  | VCall c g => Some (call_type (CUser c) g)
  | VOp g => Some (op_type g)
  | VTerm _ => None
  end.
End Nested.
