(** What the type of an expression should say about its value. *)
From Coq Require Import List Bool Arith.
From Verif Require Import UnifModel UnifSpec TypModel.
Import ListNotations.

(** Types that say all about their values: no [Any], no [...], no function types (whose parameters
    unification takes covariantly), no generic class without its arguments. *)
Fixpoint strict (T : table) (t : ty) : bool :=
  match t with
  | TVar _ => true
  | TAny | TEll | TList _ => false
  | TCon c => negb (generic T c)
  | TApp c l => match c with CCallable | COperation => false | _ => forallb (strict T) l end
  | TUnion l => forallb (strict T) l
  end.

(** Values: [inhabits v t] says that [v] is of type [t]. *)
Record universe (T : table) {V : Type} (inhabits : V -> ty -> Prop) (tuple : list V -> V) (coll : cls -> list V -> V) : Prop := Universe {
  (* subtypes *)
  un_accepts : forall v t x, accepts T t x -> ground t -> tidy T x -> strict T t = true -> strict T x = true -> inhabits v x -> inhabits v t;
  (* the canonical form of a type has at least its values *)
  un_canon : forall v n t t', canon T n t = Ok t' -> ground t -> ground t' -> inhabits v t -> inhabits v t';
  un_equal : forall v t x, ty_eqb t x = true -> inhabits v x -> inhabits v t;
  un_class : forall v c l, inhabits v (TApp c l) -> inhabits v (TCon c);
  un_object : forall v, inhabits v (TCon CObject);
  un_list : forall v l, ~ inhabits v (TList l);       (* a list of parameters is no type *)
  un_union : forall v l, inhabits v (TUnion l) <-> exists t, In t l /\ inhabits v t;
  un_tuple : forall vs ts, Forall2 inhabits vs ts -> inhabits (tuple vs) (TApp CTuple ts);
  un_tuple_class : forall vs, inhabits (tuple vs) (TCon CTuple);
  un_coll : forall c d n vs t, canon T n (TCon c) = Ok (TCon d) -> generic T d = true -> d <> CTuple -> Forall (fun v => inhabits v t) vs -> inhabits (coll c vs) (TApp d [t]);
  un_coll_class : forall c vs, inhabits (coll c vs) (TCon c)
}.

Section Values.
Variable T : table.
Variable V : Type.
Variable inhabits : V -> ty -> Prop.
Variable tuple : list V -> V.
Variable coll : cls -> list V -> V.
Variable sigs : nat -> tsig.
Variable impl : nat -> list V -> V -> Prop.       (* what handlers of an operation may return *)

(** Evaluating an expression: the values it can have. *)
Inductive evals : expr -> V -> Prop :=
| ev_val : forall c v, inhabits v (TCon c) -> evals (EVal c) v
| ev_tuple : forall l vs, Forall2 evals l vs -> evals (ETuple l) (tuple vs)
| ev_coll : forall c l vs, Forall2 evals l vs -> evals (EColl c l) (coll c vs)
| ev_call : forall o l vs v, Forall2 evals l vs -> impl o vs v -> evals (ECall o l) v.

(** The arguments are of the types of the parameters, with the type variables standing for [f]. The
    canonical form of an annotation is what counts: a class stands for the topmost of its ancestors. *)
Definition fits (f : nat -> ty) (v : V) (p : option ty) : Prop :=
  match p with None => True | Some p => exists n p', canon T n p = Ok p' /\ inhabits v (apply f p') end.
Inductive arguments (f : nat -> ty) (rest : option (option ty)) : list (option ty) -> list V -> Prop :=
| ar_param : forall p ps v vs, fits f v p -> arguments f rest ps vs -> arguments f rest (p :: ps) (v :: vs)
| ar_done : arguments f rest [] []
| ar_rest : forall p vs, rest = Some p -> Forall (fun v => fits f v p) vs -> arguments f rest [] vs.

(** The handlers return what the signatures say: a result type without type variables whatever the
    arguments, one with type variables for all types these may stand for. *)
Definition respects : Prop := forall o vs v, impl o vs v ->
  match ret (sigs o) with
  | None => True
  | Some r =>
      (ground r -> inhabits v r) /\
      forall f, (forall w, ground (f w) /\ strict T (f w) = true) -> arguments f (varpos (sigs o)) (params (sigs o)) vs -> inhabits v (apply f r)
  end.
End Values.

(** Where a result type has type variables it has no unions, the parameters have canonical forms that
    say all about their values, and so have the inferred types of the arguments. The classes of
    collections have canonical forms without type variables, and are not tuples. *)
Definition annotations (g : tsig) : list ty :=
  flat_map (fun p => match p with Some t => [t] | None => [] end) (params g) ++ match varpos g with Some (Some t) => [t] | _ => [] end.
Definition settled (T : table) (t : ty) : Prop := ground t /\ ell_ok t /\ forall n t', canon T n t = Ok t' -> ground t' /\ strict T t' = true.
Inductive tame (T : table) (sigs : nat -> tsig) (fuel : nat) : expr -> Prop :=
| tm_val : forall c, tame T sigs fuel (EVal c)
| tm_tuple : forall l, Forall (tame T sigs fuel) l -> tame T sigs fuel (ETuple l)
| tm_coll : forall c l, Forall (tame T sigs fuel) l -> (forall n t, canon T n (TCon c) = Ok t -> ground t /\ t <> TCon CTuple) -> tame T sigs fuel (EColl c l)
| tm_call : forall o l, Forall (tame T sigs fuel) l ->
    (forall r, ret (sigs o) = Some r -> ~ ground r ->
       plain r /\ (forall p n p', In p (annotations (sigs o)) -> canon T n p = Ok p' -> strict T p' = true) /\
       forall e n t n', In e l -> infer T sigs fuel e n = Ok (t, n') -> settled T t) ->
    tame T sigs fuel (ECall o l).

(** As an instance of one of its bases such a type is such a type again. *)
Definition strict_bases (T : table) : Prop := forall d b ys n y y', In b (bases T d) -> tidy T (TApp d ys) -> strict T (TApp d ys) = true ->
  subscript T b ys = Ok y -> canon T n y = Ok y' -> strict T y' = true.
Record plain_table (T : table) (vbound : nat -> cls) : Prop := Plain {
  pt_regular : regular T;
  pt_tidy : tidy_bases T;
  pt_strict : strict_bases T;
  pt_object : generic T CObject = false;
  pt_bound : forall v, generic T (vbound v) = false;
  pt_sequence : generic T CSequence = true;
  pt_jax : forall j, jax_array T = Some j -> generic T j = false
}.
