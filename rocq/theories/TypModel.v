(** Model of type inference for expressions: [typeof] and [_simple_type] (effectful/ops/semantics.py
    229-283), [Operation.__type_rule__] (effectful/ops/types.py 376-412), [nested_type]
    (effectful/internals/unification.py 858-1112) on plain values, tuples and other collections, and
    [_unify_signature] (584-619). Not modelled: functions, mappings and operations as arguments,
    keyword arguments (a term has its defaults filled in, effectful/ops/syntax.py:534), literals,
    constrained type variables. *)
From Coq Require Import List Bool Arith.
From Verif Require Import UnifModel.
Import ListNotations.

(** A signature: the annotations of the positional parameters and of [*args], if there is one, and of
    the result; [None]: no annotation. *)
Record tsig := TSig { params : list (option ty); varpos : option (option ty); ret : option ty }.

(** An expression: a value by its class, a tuple, another collection of a class, an operation applied. *)
Inductive expr :=
| EVal (c : cls)
| ETuple (l : list expr)
| EColl (c : cls) (l : list expr)
| ECall (o : nat) (l : list expr).

Section Infer.
Variable T : table.
Variable vbound : nat -> cls.              (* the bound of a type variable, [object] if none *)
Variable sigs : nat -> tsig.
Variable fuel : nat.

(** [nested_type] of a collection (1074-1097): [l] are the types of its items *)
Definition coll_type (c : cls) (l : list ty) : res ty :=
  bind (canon T fuel (TCon c)) (fun t =>
  match t, l with
  | TCon d, [] => Ok t
  | TCon d, [a] => if generic T d then Ok (TApp d [a]) else Ok t
  | TCon d, _ => if generic T d then let u := mk_union l in Ok (match u with TUnion _ => t | _ => TApp d [u] end) else Ok t
  | _, _ => Ok t
  end).
(** [nested_type] of a tuple (1100-1106) *)
Definition tuple_type (l : list ty) : res ty :=
  match l with [] => coll_type CTuple [] | _ => Ok (TApp CTuple l) end.

(** [signature.bind]: each parameter with its argument, and the rest for [*args] *)
Fixpoint bind_args (ps : list (option ty)) (l : list ty) : option (list (option ty * ty) * list ty) :=
  match ps, l with
  | [], _ => Some ([], l)
  | p :: ps', a :: l' => option_map (fun r => ((p, a) :: fst r, snd r)) (bind_args ps' l')
  | _ :: _, [] => None
  end.
(** The loop of [_unify_signature] (590-619). Every type variable in use is below [n]; the fresh ones
    of [_freshen] start there. *)
Fixpoint unify_params (l : list (option ty * ty)) (s : subst) (n : nat) : res (subst * nat) :=
  match l with
  | [] => Ok (s, n)
  | (None, _) :: l' => unify_params l' s n
  | (Some p, a) :: l' =>
      bind (freshen (fun v => n + v) fuel a) (fun a' =>
      bind (unify_types T fuel p a' s) (fun s' => unify_params l' s' (n + n)))
  end.
Definition unify_rest (p : ty) (l : list ty) (s : subst) (n : nat) : res (subst * nat) :=
  bind (freshen (fun v => n + v) fuel (TList l)) (fun t =>
  match t with
  | TList l' => bind (each (unify_types T fuel) p l' s) (fun s' => Ok (s', n + n))
  | _ => Err
  end).
Definition unify_signature (g : tsig) (l : list ty) (n : nat) : res (subst * nat) :=
  match bind_args (params g) l with
  | None => Err
  | Some (fixed, rest) =>
      match varpos g, rest with
      | None, _ :: _ => Err
      | None, [] | Some None, _ => unify_params fixed [] n
      | Some (Some p), _ => bind (unify_params fixed [] n) (fun r => unify_rest p rest (fst r) (snd r))
      end
  end.
(** [__type_rule__] (376-412) *)
Definition type_rule (g : tsig) (l : list ty) (n : nat) : res (ty * nat) :=
  match ret g with
  | None => Ok (TCon CObject, n)
  | Some r =>
      match fvs r with
      | [] => Ok (r, n)
      | _ => bind (unify_signature g l n) (fun x => bind (substitute fuel r (fst x)) (fun t => Ok (t, snd x)))
      end
  end.
(** [evaluate] of an expression with every operation standing for its type (276-279), then
    [nested_type] *)
Fixpoint infer (e : expr) (n : nat) : res (ty * nat) :=
  let go := fix go (l : list expr) (n : nat) : res (list ty * nat) :=
    match l with
    | [] => Ok ([], n)
    | a :: l' => bind (infer a n) (fun x => bind (go l' (snd x)) (fun y => Ok (fst x :: fst y, snd y)))
    end in
  match e with
  | EVal c => Ok (TCon c, n)
  | ETuple l => bind (go l n) (fun x => bind (tuple_type (fst x)) (fun t => Ok (t, snd x)))
  | EColl c l => bind (go l n) (fun x => bind (coll_type c (fst x)) (fun t => Ok (t, snd x)))
  | ECall o l => bind (go l n) (fun x => type_rule (sigs o) (fst x) (snd x))
  end.
(** [_simple_type] (229-249) *)
Definition simple (t : ty) : res ty :=
  match t with
  | TVar v => Ok (TCon (vbound v))
  | TUnion _ => Err
  | TApp c _ => Ok (TCon c)
  | _ => Ok t
  end.
(** [typeof] (251-283) *)
Definition typeof (e : expr) (n : nat) : res ty :=
  bind (infer e n) (fun x =>
  match e with
  | EVal c => Ok (TCon c)
  | ETuple _ => Ok (TCon CTuple)
  | EColl c _ => Ok (TCon c)
  | ECall _ _ => simple (fst x)
  end).
End Infer.
