(** Model of type unification (effectful/internals/unification.py): [unify] (204-299) with
    [_unify_typevar] (314-326), [_unify_sequence] (341-348), [_unify_union] (363-380),
    [_unify_generic] (524-581); [canonicalize] (656-855); [substitute] (1168-1221); [freetypevars]
    (1115-1165); [_freshen] (622-653). Not modelled: typed dictionaries, [inspect.Signature],
    constrained type variables, literals, annotations, aliases, forward references. *)
From Coq Require Import List Bool Arith.
Import ListNotations.

(** Classes: those the code names, and all others. *)
Inductive cls := CObject | CTuple | CSequence | CMapping | CGenerator | CIterable | CCallable | COperation | CGeneric | CUser (n : nat).
Definition cls_eqb (c d : cls) : bool :=
  match c, d with
  | CObject, CObject | CTuple, CTuple | CSequence, CSequence | CMapping, CMapping | CGenerator, CGenerator
  | CIterable, CIterable | CCallable, CCallable | COperation, COperation | CGeneric, CGeneric => true
  | CUser n, CUser m => Nat.eqb n m
  | _, _ => false
  end.

(** Type expressions: a variable, [Any], [...], a class, [c[args]], a union, a sequence of types. *)
Inductive ty :=
| TVar (v : nat)
| TAny
| TEll
| TCon (c : cls)
| TApp (c : cls) (l : list ty)
| TUnion (l : list ty)
| TList (l : list ty).

(** Python's [==] on them: unions compare as sets. *)
Fixpoint ty_eqb (t s : ty) {struct t} : bool :=
  match t, s with
  | TVar v, TVar w => Nat.eqb v w
  | TAny, TAny => true
  | TEll, TEll => true
  | TCon c, TCon d => cls_eqb c d
  | TApp c l, TApp d l' =>
      cls_eqb c d &&
      (fix go (l l' : list ty) : bool :=
         match l, l' with [], [] => true | a :: r, b :: r' => ty_eqb a b && go r r' | _, _ => false end) l l'
  | TList l, TList l' =>
      (fix go (l l' : list ty) : bool :=
         match l, l' with [], [] => true | a :: r, b :: r' => ty_eqb a b && go r r' | _, _ => false end) l l'
  | TUnion l, TUnion l' =>
      (fix each (l : list ty) : bool := match l with [] => true | a :: r => existsb (ty_eqb a) l' && each r end) l &&
      forallb (fun b => (fix some (l : list ty) : bool := match l with [] => false | a :: r => ty_eqb a b || some r end) l) l'
  | _, _ => false
  end.

(** [a | b]: members of unions are flattened, repeated ones dropped, one member is that member. *)
Definition members (t : ty) : list ty := match t with TUnion l => l | _ => [t] end.
Fixpoint dedupe (seen l : list ty) : list ty :=
  match l with
  | [] => []
  | t :: l' => if existsb (fun u => ty_eqb u t) seen then dedupe seen l' else t :: dedupe (seen ++ [t]) l'
  end.
Definition mk_union (l : list ty) : ty :=
  match dedupe [] (flat_map members l) with [t] => t | l' => TUnion l' end.

(** Free variables: [freetypevars] (1115-1165) *)
Fixpoint fvs (t : ty) : list nat :=
  match t with
  | TVar v => [v]
  | TApp _ l | TUnion l | TList l => flat_map fvs l
  | _ => []
  end.
(** [typ[args]]: the variables replaced all at once *)
Fixpoint replace (f : nat -> ty) (t : ty) : ty :=
  match t with
  | TVar v => f v
  | TApp c l => TApp c (map (replace f) l)
  | TUnion l => mk_union (map (replace f) l)
  | TList l => TList (map (replace f) l)
  | _ => t
  end.

(** Substitutions: mappings from variables to types. *)
Definition subst := list (nat * ty).
Fixpoint get (s : subst) (v : nat) : option ty :=
  match s with [] => None | (w, t) :: s' => if Nat.eqb w v then Some t else get s' v end.
(** [{v: t, **s}] *)
Definition put (v : nat) (t : ty) (s : subst) : subst := match get s v with Some _ => s | None => (v, t) :: s end.
(** [s == s'] *)
Definition covers (s s' : subst) : bool :=
  forallb (fun x => match get s (fst x), get s' (fst x) with Some a, Some b => ty_eqb a b | _, _ => false end) s.
Definition subst_eqb (s s' : subst) : bool := covers s s' && covers s' s.

Inductive res (A : Type) := Ok (a : A) | Err | Out.       (* a result, [TypeError], no fuel left *)
Arguments Ok {A}. Arguments Err {A}. Arguments Out {A}.
Definition bind {A B} (r : res A) (f : A -> res B) : res B := match r with Ok a => f a | Err => Err | Out => Out end.
Fixpoint map_res {A B} (f : A -> res B) (l : list A) : res (list B) :=
  match l with [] => Ok [] | a :: l' => bind (f a) (fun b => bind (map_res f l') (fun r => Ok (b :: r))) end.

(** [substitute] (1168-1221) *)
Definition bound (s : subst) (v : nat) : bool := match get s v with Some _ => true | None => false end.
Fixpoint substitute (fuel : nat) (t : ty) (s : subst) : res ty :=
  match fuel with
  | O => Out
  | S n =>
      match t with
      | TVar v => match get s v with Some t' => substitute n t' s | None => Ok t end
      | TList l => bind (map_res (fun x => substitute n x s) l) (fun l' => Ok (TList l'))
      | _ =>
          if existsb (bound s) (fvs t)
          then substitute n (replace (fun v => match get s v with Some t' => t' | None => TVar v end) t) s
          else Ok t
      end
  end.

(** The classes of a program. *)
Record table := Table {
  issub : cls -> cls -> bool;              (* [issubclass] *)
  bases : cls -> list ty;                  (* [types.get_original_bases] *)
  special : cls -> option ty;              (* classes with a canonical form of their own (664-703) *)
  generic : cls -> bool;                   (* accepts type arguments *)
  bounded : nat -> bool;                   (* type variables with a bound *)
  jax_array : option cls                   (* [jax.Array], if installed *)
}.

Section Classes.
Variable T : table.

(** [typ[args]] for a class or an alias; [None]: TypeError *)
Fixpoint index_of (v : nat) (l : list nat) : option nat :=
  match l with [] => None | w :: l' => if Nat.eqb w v then Some 0 else option_map S (index_of v l') end.
Fixpoint nodup_vars (seen l : list nat) : list nat :=
  match l with
  | [] => []
  | v :: l' => if existsb (Nat.eqb v) seen then nodup_vars seen l' else v :: nodup_vars (seen ++ [v]) l'
  end.
Definition subscript (t : ty) (args : list ty) : res ty :=
  match t with
  | TCon c => if generic T c then Ok (TApp c args) else Err
  | TApp _ _ | TUnion _ =>
      let vs := nodup_vars [] (fvs t) in
      match vs with
      | [] => Err
      | _ =>
          if Nat.eqb (length vs) (length args)
          then Ok (replace (fun v => match index_of v vs with Some i => nth i args (TVar v) | None => TVar v end) t)
          else Err
      end
  | _ => Err
  end.

(** [canonicalize] (656-855) *)
Fixpoint canon (fuel : nat) (t : ty) : res ty :=
  match fuel with
  | O => Out
  | S n =>
      match t with
      | TCon c =>
          match special T c with
          | Some t' => Ok t'
          | None =>
              (fix go (bs : list ty) : res ty :=
                 match bs with
                 | [] => Ok t
                 | b :: bs' =>
                     if (match b with TApp CGeneric _ => true | _ => false end) then go bs'
                     else bind (canon n b) (fun cb => if ty_eqb cb (TCon CObject) then go bs' else Ok cb)
                 end) (bases T c)
          end
      | TApp CTuple [a; TEll] => bind (canon n a) (fun a' => Ok (TApp CSequence [a']))
      | TApp c l => bind (canon n (TCon c)) (fun o => bind (map_res (canon n) l) (fun l' => subscript o l'))
      | TUnion l => bind (map_res (canon n) l) (fun l' => Ok (mk_union l'))
      | TList l => bind (map_res (canon n) l) (fun l' => Ok (TList l'))
      | _ => Ok t
      end
  end.

Definition origin (b : ty) : option cls := match b with TCon c | TApp c _ => Some c | _ => None end.

Section Fold.
Variable f : ty -> ty -> subst -> res subst.
(** The loop of [_unify_sequence] (346-348) *)
Fixpoint seq (l l' : list ty) (s : subst) : res subst :=
  match l, l' with a :: r, b :: r' => bind (f a b s) (seq r r') | _, _ => Ok s end.
(** A pattern against each of several types (369-371, 532-534) *)
Fixpoint each (t : ty) (l : list ty) (s : subst) : res subst :=
  match l with [] => Ok s | a :: r => bind (f t a s) (each t r) end.
(** The attempts of [_unify_union] (373-378) *)
Fixpoint attempts (l : list ty) (x : ty) (s : subst) : res (list subst) :=
  match l with
  | [] => Ok []
  | a :: r =>
      match f a x s with
      | Ok u => bind (attempts r x s) (fun us => Ok (u :: us))
      | Err => attempts r x s
      | Out => Out
      end
  end.
End Fold.

(** [unify] (204-299) on canonical types; what the code makes canonical again on the way (a
    subscripted base) is made canonical here, the rest already is. *)
Fixpoint unify (fuel : nat) (t x : ty) (s : subst) : res subst :=
  match fuel with
  | O => Out
  | S n =>
      if ty_eqb t x then Ok s else
      match t, x with
      (* _unify_typevar (314-326) *)
      | TVar v, TVar w => Ok (put v x s)
      | TVar v, _ => unify n (match get s v with Some b => b | None => x end) x (put v x s)
      | _, TVar w => if bounded T w then Err else unify n t (match get s w with Some b => b | None => t end) (put w t s)
      (* _unify_sequence (341-348) *)
      | TList _, TEll | TEll, TList _ => Ok s
      | TList l, TList l' => if Nat.eqb (length l) (length l') then seq (unify n) l l' s else Err
      | TList _, _ | _, TList _ => Err
      (* _unify_union (363-380) *)
      | _, TUnion l' => each (unify n) t l' s
      | TUnion l, _ =>
          bind (attempts (unify n) l x s)
            (fun us => match us with [] => Err | u :: _ => if forallb (fun u' => subst_eqb u' u) us then Ok u else Err end)
      (* _unify_generic (524-581) *)
      | TApp c xs, TApp d ys =>
          if issub T d c then
            if cls_eqb d CTuple && negb (cls_eqb c CTuple) then each (unify n) t (map (fun y => TApp CSequence [y]) ys) s
            else if cls_eqb d CMapping && negb (issub T c CMapping) || cls_eqb d CGenerator && negb (issub T c CGenerator) then
              match xs, ys with a :: _, b :: _ => unify n a b s | _, _ => Err end
            else if cls_eqb d COperation && negb (issub T c COperation) then unify n t (TApp CCallable ys) s
            else if cls_eqb c d then unify n (TList xs) (TList ys) s
            else
              match find (fun b => match origin b with Some o => issub T o c | None => false end) (bases T d) with
              | Some b => bind (subscript b ys) (fun y => bind (canon n y) (fun y' => unify n t y' s))
              | None => Err
              end
          else Err
      | TCon _, TApp d _ | TAny, TApp d _ => unify n t (TCon d) s
      | TApp c xs, TCon d =>
          if issub T d c then Ok s else
          match jax_array T, xs with
          | Some j, a :: _ => if cls_eqb c CIterable && issub T d j then unify n a (TCon j) s else Err
          | _, _ => Err
          end
      | TApp _ _, _ | _, TApp _ _ => Err
      (* 293-299 *)
      | TCon c, TCon d => if issub T d c then Ok s else Err
      | _, _ => Ok s
      end
  end.
(** [unify] of any types (267-268): both are made canonical first *)
Definition unify_types (fuel : nat) (t x : ty) (s : subst) : res subst :=
  bind (canon fuel t) (fun t' => bind (canon fuel x) (fun x' => unify fuel t' x' s)).
End Classes.

(** [_freshen] (622-653): [fresh] gives the new variables *)
Definition freshen (fresh : nat -> nat) (fuel : nat) (t : ty) : res ty :=
  substitute fuel t (map (fun v => (v, TVar (fresh v))) (nodup_vars [] (fvs t))).
