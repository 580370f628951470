(** Model of the unification of typed dictionaries (effectful/internals/unification.py): [unify] (262-299) with
    [_unify_typevar] (314-326), [_unify_sequence] (341-348), [_is_typeddict_type] (383-390), [_get_typeddict_hints] (393-418),
    [_unify_typeddict] (421-479), [_unify_mapping_typeddict] (482-503), [_unify_generic] (524-561); [canonicalize] of typed
    dictionaries (678-693), lists and dictionaries (670-673, 763-773); [substitute] (1168-1221). Simplified: the types are
    variables, classes that are not generic, lists, sequences, dictionaries, mappings and typed dictionaries, the latter with
    at most one base, no recursion and no field twice; a class that is not generic is never a sequence or mapping; two typed
    dictionaries are not compared by [==] but by their fields (the same result). Unions, [Any], tuples and user generics are
    in UnifModel. *)
From Coq Require Import List Bool Arith.
Import ListNotations.

Inductive gen := GList | GMutableSequence | GSequence | GDict | GMutableMapping | GMapping.
(** A typed dictionary class: whether its parameters are declared by the class statement ([class D[T](TypedDict)]) rather than
    by [Generic[T]], the parameters, the base with its arguments, and the fields it adds: name, type, [NotRequired],
    [ReadOnly]. [TDict c None] is the class, [TDict c (Some args)] is [c[args]]. *)
Inductive ty :=
| TVar (x : nat)
| TCon (c : nat)
| TGen (g : gen) (l : list ty)
| TDict (c : tdc) (a : option (list ty))
with tdc :=
| Root
| Cls (declared : bool) (ps : list nat) (b : tdc) (ba : option (list ty)) (fs : list fld)
with fld := Fld (n : nat) (t : ty) (optional readonly : bool).
Definition fname (f : fld) : nat := match f with Fld n _ _ _ => n end.
Definition ftype (f : fld) : ty := match f with Fld _ t _ _ => t end.
Definition fopt (f : fld) : bool := match f with Fld _ _ o _ => o end.
Definition fread (f : fld) : bool := match f with Fld _ _ _ r => r end.
(** [object] and [str] *)
Definition object : nat := 0.
Definition text : nat := 1.

(** [typing.get_type_hints], [__optional_keys__] and [__readonly_keys__]: the fields with those of the bases, as written *)
Fixpoint raw (c : tdc) : list fld := match c with Root => [] | Cls _ _ b _ fs => raw b ++ fs end.
(** [__type_params__]: those declared by the class statement *)
Definition type_params (c : tdc) : list nat := match c with Root => [] | Cls d ps _ _ _ => if d then ps else [] end.

Definition is_map (g : gen) : bool := match g with GDict | GMutableMapping | GMapping => true | _ => false end.
Definition mutable_map (g : gen) : bool := match g with GDict | GMutableMapping => true | _ => false end.
Definition canon_gen (g : gen) : gen := match g with GList => GMutableSequence | GDict => GMutableMapping | _ => g end.
Definition gen_settled (g : gen) : bool := match g with GList | GDict => false | _ => true end.
Definition gen_sub (g' g : gen) : bool :=
  match g', g with
  | GMutableSequence, GMutableSequence | GMutableSequence, GSequence | GSequence, GSequence
  | GMutableMapping, GMutableMapping | GMutableMapping, GMapping | GMapping, GMapping => true
  | _, _ => false
  end.
(** [typ == canonicalize(typ)] *)
Fixpoint settled (t : ty) : bool :=
  match t with
  | TVar _ | TCon _ => true
  | TGen g l => gen_settled g && forallb settled l
  | TDict c a => settled_c c && match a with Some l => forallb settled l | None => true end
  end
with settled_c (c : tdc) : bool :=
  match c with Root => true | Cls _ _ b _ fs => settled_c b && forallb settled_f fs end
with settled_f (f : fld) : bool := match f with Fld _ t _ _ => settled t end.
(** [canonicalize] (678-693): a class with a field that is not canonical is replaced by a new one, with the fields as written,
    [NotRequired] kept, and nothing else *)
Fixpoint canon (t : ty) : ty :=
  match t with
  | TVar _ | TCon _ => t
  | TGen g l => TGen (canon_gen g) (map canon l)
  | TDict c a => TDict (if settled_c c then c else Cls false [] Root None (canon_fields c)) (match a with Some l => Some (map canon l) | None => None end)
  end
with canon_fields (c : tdc) : list fld := match c with Root => [] | Cls _ _ b _ fs => canon_fields b ++ map canon_f fs end
with canon_f (f : fld) : fld := match f with Fld n t o _ => Fld n (canon t) o false end.

Definition subst := list (nat * ty).
Fixpoint get {A} (s : list (nat * A)) (x : nat) : option A := match s with [] => None | (y, t) :: s' => if y =? x then Some t else get s' x end.
(** [{x: t, **s}] *)
Definition put (x : nat) (t : ty) (s : subst) : subst := match get s x with Some _ => s | None => (x, t) :: s end.
(** [freetypevars] sees the arguments of typed dictionaries, not their fields *)
Fixpoint fvs (t : ty) : list nat :=
  match t with
  | TVar x => [x]
  | TCon _ => []
  | TGen _ l => flat_map fvs l
  | TDict _ a => match a with Some l => flat_map fvs l | None => [] end
  end.
Fixpoint replace (s : subst) (t : ty) : ty :=
  match t with
  | TVar x => match get s x with Some u => u | None => t end
  | TCon _ => t
  | TGen g l => TGen g (map (replace s) l)
  | TDict c a => TDict c (match a with Some l => Some (map (replace s) l) | None => None end)
  end.
Inductive res (A : Type) := Ok (a : A) | Err | Out.
Arguments Ok {A}. Arguments Err {A}. Arguments Out {A}.
Definition bind {A B} (r : res A) (f : A -> res B) : res B := match r with Ok a => f a | Err => Err | Out => Out end.
Definition bound (s : subst) (x : nat) : bool := match get s x with Some _ => true | None => false end.
(** [substitute]: replace until nothing is left to replace *)
Fixpoint substitute (fuel : nat) (t : ty) (s : subst) : res ty :=
  match fuel with
  | 0 => Out
  | S n => if existsb (bound s) (fvs t) then substitute n (replace s t) s else Ok t
  end.
Fixpoint each_field (f : ty -> res ty) (l : list fld) : res (list fld) :=
  match l with
  | [] => Ok []
  | Fld n t o r :: l' => bind (f t) (fun t' => bind (each_field f l') (fun q => Ok (Fld n t' o r :: q)))
  end.
(** [_get_typeddict_hints] (393-418); the base's parameters are resolved for a class without arguments only *)
Definition zip (ps : list nat) (l : list ty) : subst := combine ps l.
Definition base_subs (c : tdc) : subst := match c with Cls _ _ b (Some l) _ => zip (type_params b) l | _ => [] end.
Definition hints (fuel : nat) (c : tdc) (a : option (list ty)) : res (list fld) :=
  match a with
  | Some l => each_field (fun t => substitute fuel t (zip (type_params c) l)) (raw c)
  | None => match base_subs c with [] => Ok (raw c) | s => each_field (fun t => substitute fuel t s) (raw c) end
  end.
Fixpoint field (l : list fld) (n : nat) : option fld := match l with [] => None | f :: l' => if fname f =? n then Some f else field l' n end.

Section Rec.
(** [issubclass] of classes that are not generic; type variables with a bound *)
Variable below : nat -> nat -> bool.
Variable bounded : nat -> bool.
Variable rec : ty -> ty -> subst -> res subst.
(** [_unify_sequence] on the arguments *)
Fixpoint unify_list (l l' : list ty) (s : subst) : res subst :=
  match l, l' with
  | [], [] => Ok s
  | t :: r, t' :: r' => bind (rec t t' s) (fun s1 => unify_list r r' s1)
  | _, _ => Err
  end.
(** [_unify_typeddict] (443-479) *)
Fixpoint unify_fields (l : list fld) (l' : list fld) (s : subst) : res subst :=
  match l with
  | [] => Ok s
  | Fld n t o r :: rest =>
      match field l' n with
      | None => if o then unify_fields rest l' s else Err
      | Some (Fld _ t' o' _) =>
          if negb o && o' then Err
          else if o && negb o' && negb r then Err
          else bind (rec t t' s) (fun s1 => bind (if r then Ok s1 else rec t' t s1) (fun s2 => unify_fields rest l' s2))
      end
  end.
(** [_unify_mapping_typeddict] (496-503) *)
Fixpoint unify_values (m : bool) (v : ty) (l' : list fld) (s : subst) : res subst :=
  match l' with
  | [] => Ok s
  | Fld _ t' _ _ :: rest => bind (rec v t' s) (fun s1 => bind (if m then rec t' v s1 else Ok s1) (fun s2 => unify_values m v rest s2))
  end.
(** [==] on types other than typed dictionaries *)
Fixpoint same (t t' : ty) : bool :=
  match t, t' with
  | TVar x, TVar y => x =? y
  | TCon c, TCon d => c =? d
  | TGen g l, TGen g' l' => gen_sub g g' && gen_sub g' g && (fix go (l l' : list ty) := match l, l' with [], [] => true | a :: r, b :: r' => same a b && go r r' | _, _ => false end) l l'
  | _, _ => false
  end.
(** The branches of [unify] after canonicalization (265-299) *)
Definition unify_step (fuel : nat) (t t' : ty) (s : subst) : res subst :=
  match t, t' with
  | TDict c a, TDict c' a' => bind (hints fuel c a) (fun h => bind (hints fuel c' a') (fun h' => unify_fields h h' s))
  | TGen g [k; v], TDict c' a' =>
      if is_map g then bind (hints fuel c' a') (fun h' => bind (rec k (TCon text) s) (fun s1 => unify_values (mutable_map g) v h' s1)) else Err
  | TVar x, TVar y => if x =? y then Ok s else Ok (put x t' s)
  | TVar x, _ => rec (match get s x with Some u => u | None => t' end) t' (put x t' s)
  | _, TVar y => if bounded y then Err else rec t (match get s y with Some u => u | None => t end) (put y t s)
  | TGen g l, TGen g' l' => if same t t' then Ok s else if gen_sub g' g then unify_list l l' s else Err
  | TCon c, TCon d => if (c =? d) || below d c then Ok s else Err
  | TCon c, _ => if c =? object then Ok s else Err
  | _, _ => Err
  end.
End Rec.
Fixpoint unify (below : nat -> nat -> bool) (bounded : nat -> bool) (fuel : nat) (t t' : ty) (s : subst) : res subst :=
  match fuel with
  | 0 => Out
  | S n =>
      if settled t && settled t' then unify_step below bounded (unify below bounded n) n t t' s
      else unify below bounded n (canon t) (canon t') s
  end.
