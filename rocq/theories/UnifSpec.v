(** What unification and substitution should do. *)
From Coq Require Import List Bool Arith.
From Verif Require Import UnifModel.
Import ListNotations.

(** A variable reached from a type through the bindings of a substitution. *)
Inductive reaches (s : subst) : ty -> nat -> Prop :=
| rc_here : forall t v, In v (fvs t) -> reaches s t v
| rc_step : forall t w t' v, In w (fvs t) -> get s w = Some t' -> reaches s t' v -> reaches s t v.

(** The variables of a binding that are bound themselves come later in some order. *)
Definition acyclic (s : subst) : Prop :=
  exists rank : nat -> nat, forall v t w, get s v = Some t -> In w (fvs t) -> get s w <> None -> rank w < rank v.

(** Types without unions; on these a substitution is resolved part by part. *)
Inductive plain : ty -> Prop :=
| pl_var : forall v, plain (TVar v)
| pl_any : plain TAny
| pl_ell : plain TEll
| pl_con : forall c, plain (TCon c)
| pl_app : forall c l, Forall plain l -> plain (TApp c l)
| pl_list : forall l, Forall plain l -> plain (TList l).
Inductive resolves (s : subst) : ty -> ty -> Prop :=
| rs_free : forall v, get s v = None -> resolves s (TVar v) (TVar v)
| rs_bound : forall v t r, get s v = Some t -> resolves s t r -> resolves s (TVar v) r
| rs_any : resolves s TAny TAny
| rs_ell : resolves s TEll TEll
| rs_con : forall c, resolves s (TCon c) (TCon c)
| rs_app : forall c l l', Forall2 (resolves s) l l' -> resolves s (TApp c l) (TApp c l')
| rs_list : forall l l', Forall2 (resolves s) l l' -> resolves s (TList l) (TList l').

Definition ground (t : ty) : Prop := fvs t = [].
Definition grounded (s : subst) : Prop := forall v t, get s v = Some t -> ground t.

(** [accepts T t x]: the type [x] may be used where [t] is wanted. [Any] goes with everything, [...]
    with every sequence of parameters, generics take their arguments covariantly. *)
Inductive accepts (T : table) : ty -> ty -> Prop :=
| ac_var : forall v, accepts T (TVar v) (TVar v)
| ac_any_l : forall x, accepts T TAny x
| ac_any_r : forall t, accepts T t TAny
| ac_ell_l : forall x, accepts T TEll x
| ac_ell_r : forall t, accepts T t TEll
| ac_same : forall c, accepts T (TCon c) (TCon c)
| ac_class : forall c d, issub T d c = true -> accepts T (TCon c) (TCon d)
| ac_class_app : forall c d ys, accepts T (TCon c) (TCon d) -> accepts T (TCon c) (TApp d ys)
| ac_app_class : forall c d xs, issub T d c = true -> accepts T (TApp c xs) (TCon d)
| ac_app : forall c xs ys, Forall2 (accepts T) xs ys -> accepts T (TApp c xs) (TApp c ys)
| ac_list : forall xs ys, Forall2 (accepts T) xs ys -> accepts T (TList xs) (TList ys)
| ac_union_r : forall t l, Forall (accepts T t) l -> accepts T t (TUnion l)
| ac_union_l : forall l a x, In a l -> accepts T a x -> accepts T (TUnion l) x
(* a tuple as a sequence of each of its parts *)
| ac_tuple : forall c xs ys, c <> CTuple /\ issub T CTuple c = true ->
    Forall (fun y => accepts T (TApp c xs) (TApp CSequence [y])) ys -> accepts T (TApp c xs) (TApp CTuple ys)
(* a mapping or a generator as an iterable of its keys or items *)
| ac_first : forall c d a xs b ys, (d = CMapping \/ d = CGenerator) -> issub T d c = true /\ issub T c d = false ->
    accepts T a b -> accepts T (TApp c (a :: xs)) (TApp d (b :: ys))
(* an operation as a function *)
| ac_operation : forall c xs ys, issub T COperation c = true /\ issub T c COperation = false ->
    accepts T (TApp c xs) (TApp CCallable ys) -> accepts T (TApp c xs) (TApp COperation ys)
(* a generic class as one of its bases *)
| ac_base : forall c xs d ys b y n y', In b (bases T d) -> subscript T b ys = Ok y -> canon T n y = Ok y' ->
    accepts T (TApp c xs) y' -> accepts T (TApp c xs) (TApp d ys)
(* an array as an iterable of arrays *)
| ac_jax : forall d j a xs, jax_array T = Some j -> issub T d j = true -> accepts T a (TCon j) ->
    accepts T (TApp CIterable (a :: xs)) (TCon d).

(** [below T x t]: every value of [x] is one of [t]. Functions take their parameters contravariantly. *)
Inductive below (T : table) : ty -> ty -> Prop :=
| bl_refl : forall t, below T t t
| bl_trans : forall t u w, below T t u -> below T u w -> below T t w
| bl_class : forall c d, issub T d c = true -> below T (TCon d) (TCon c)
| bl_function : forall ps qs r r', Forall2 (below T) qs ps -> below T r r' -> below T (TApp CCallable [TList ps; r]) (TApp CCallable [TList qs; r'])
| bl_union_l : forall l t, Forall (fun a => below T a t) l -> below T (TUnion l) t
| bl_union_r : forall l t a, In a l -> below T t a -> below T t (TUnion l).

(** Unions in the type have no variables. *)
Inductive closed_unions : ty -> Prop :=
| cu_ground : forall t, ground t -> closed_unions t
| cu_var : forall v, closed_unions (TVar v)
| cu_app : forall c l, Forall closed_unions l -> closed_unions (TApp c l)
| cu_list : forall l, Forall closed_unions l -> closed_unions (TList l).
(** Replacing variables, part by part. *)
Fixpoint apply (f : nat -> ty) (t : ty) : ty :=
  match t with
  | TVar v => f v
  | TApp c l => TApp c (map (apply f) l)
  | TUnion l => TUnion (map (apply f) l)
  | TList l => TList (map (apply f) l)
  | _ => t
  end.

(** Bindings of [s] are kept in [s']. *)
Definition extends (s s' : subst) : Prop := forall v b, get s v = Some b -> get s' v = Some b.
(** A set of variables each bound to a type that mentions one of the set: a cycle of bindings. *)
Definition cyclic_at (s : subst) (D : nat -> Prop) : Prop :=
  forall v, D v -> exists b w, get s v = Some b /\ In w (fvs b) /\ D w.

(** Canonical types: every class is its own canonical form, tuples have a fixed length, unions are flat
    and without repetitions. *)
Definition fixed (T : table) (c : cls) : Prop :=
  special T c = Some (TCon c) \/
  special T c = None /\ Forall (fun b => (exists l, b = TApp CGeneric l) \/ exists n, canon T n b = Ok (TCon CObject)) (bases T c).
Definition is_union (t : ty) : bool := match t with TUnion _ => true | _ => false end.
Inductive nf (T : table) : ty -> Prop :=
| nf_var : forall v, nf T (TVar v)
| nf_any : nf T TAny
| nf_ell : nf T TEll
| nf_con : forall c, fixed T c -> nf T (TCon c)
| nf_app : forall c l, fixed T c -> generic T c = true -> Forall (nf T) l -> (forall a, c = CTuple -> l <> [a; TEll]) -> nf T (TApp c l)
| nf_union : forall l, Forall (nf T) l -> Forall (fun a => is_union a = false) l -> dedupe [] l = l -> length l <> 1 -> nf T (TUnion l)
| nf_list : forall l, Forall (nf T) l -> nf T (TList l).
(** [...] stands only for the parameters of a function, the length of a tuple, an argument of [Generic] or in a list of types. *)
Inductive ell_ok : ty -> Prop :=
| eo_var : forall v, ell_ok (TVar v)
| eo_any : ell_ok TAny
| eo_ell : ell_ok TEll
| eo_con : forall c, ell_ok (TCon c)
| eo_app : forall c l, Forall ell_ok l ->
    c = CCallable \/ c = COperation \/ c = CGeneric \/ Forall (fun a => a <> TEll) l \/ c = CTuple /\ (exists a, l = [a; TEll] /\ a <> TEll) -> ell_ok (TApp c l)
| eo_union : forall l, Forall ell_ok l -> Forall (fun a => a <> TEll) l -> ell_ok (TUnion l)
| eo_list : forall l, Forall ell_ok l -> ell_ok (TList l).
(** The classes with a canonical form of their own have a canonical one; the bases use [...] as above. *)
Record regular (T : table) : Prop := Regular {
  rg_special : forall c t, special T c = Some t -> nf T t /\ ell_ok t /\ t <> TEll;
  rg_bases : forall c, Forall (fun b => ell_ok b /\ b <> TEll) (bases T c);
  rg_callable : special T CCallable = Some (TCon CCallable) /\ generic T CCallable = true;
  rg_operation : special T COperation = Some (TCon COperation) /\ generic T COperation = true;
  rg_generic : special T CGeneric = Some (TCon CGeneric) /\ generic T CGeneric = true;
  rg_sequence : special T CSequence = Some (TCon CSequence) /\ generic T CSequence = true;
  rg_tuple : special T CTuple = Some (TCon CTuple);
  rg_jax : forall j, jax_array T = Some j -> fixed T j
}.
(** A canonical type without variables. *)
Definition tidy (T : table) (t : ty) : Prop := ground t /\ nf T t /\ ell_ok t.
(** A generic class with such arguments is, as one of its bases, such a type again. *)
Definition tidy_bases (T : table) : Prop := forall d b ys n y y', In b (bases T d) -> tidy T (TApp d ys) ->
  subscript T b ys = Ok y -> canon T n y = Ok y' -> tidy T y'.
(** Classes occurring in a type *)
Fixpoint classes (t : ty) : list cls :=
  match t with
  | TCon c => [c]
  | TApp c l => c :: flat_map classes l
  | TUnion l | TList l => flat_map classes l
  | _ => []
  end.
(** A class comes after the classes its bases mention. *)
Definition founded (T : table) : Prop :=
  exists rank : cls -> nat, forall c b d, In b (bases T c) -> In d (classes b) -> special T c = None -> (forall l, b <> TApp CGeneric l) -> rank d < rank c.

(** Types as python builds them: unions flat, without repetitions, of two or more. *)
Inductive neat : ty -> Prop :=
| ne_var : forall v, neat (TVar v)
| ne_any : neat TAny
| ne_ell : neat TEll
| ne_con : forall c, neat (TCon c)
| ne_app : forall c l, Forall neat l -> neat (TApp c l)
| ne_list : forall l, Forall neat l -> neat (TList l)
| ne_union : forall l, Forall neat l -> Forall (fun a => is_union a = false) l -> dedupe [] l = l -> length l <> 1 -> neat (TUnion l).
