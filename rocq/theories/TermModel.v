(** Model of terms with binders: scope annotations, argument binding, bound
    variables of a call, term construction with renaming, evaluation, free
    variables and application of [deffn] terms. *)
From Coq Require Import List ZArith String Bool Arith.
Import ListNotations.
Set Implicit Arguments.

(** ** Operations and expressions *)

(** An operation. [defop(var)] on an operation makes a new operation with the same
    name and signature that has no default behaviour (effectful/ops/types.py:281-287):
    same [base], new [copy]. [copy] 0 is an operation written by the user.
    Equality is identity (types.py:110-113). *)
Record op := mkop { base : nat; copy : nat }.

Definition op_eqb (x y : op) : bool := (base x =? base y) && (copy x =? copy y).

(** Collections, by what the two traversals do with them:
    [evaluate] (effectful/ops/semantics.py:184-226) enters tuples, lists, mappings
    and dataclasses but not sets; [extract_operations]
    (effectful/ops/syntax.py:360-371) enters dicts, lists, sets and tuples. *)
Inductive ckind :=
| KTuple | KList
| KDict       (* items are KTuple [key; value] *)
| KSet        (* set *)
| KData       (* dataclasses, non-dict mappings, other sequences *)
| KOpaque.    (* anything else with contents, e.g. frozenset *)

Definition walks (k : ckind) : bool := match k with KSet | KOpaque => false | _ => true end.
Definition extracts (k : ckind) : bool :=
  match k with KTuple | KList | KDict | KSet => true | _ => false end.

(** Expressions: constants, operations used as values, terms
    (effectful/ops/types.py:593-621), collections. Simplifications: the Python class
    of a term (chosen from its type) is not represented; dict items are a list, so
    a dict whose keys become equal is not merged. *)
Inductive expr :=
| EConst (z : Z)
| EOp (o : op)
| ETerm (o : op) (a : list expr) (k : list (string * expr))
| EColl (c : ckind) (l : list expr).

(** Exceptions: TypeError from [Signature.bind] or from calling a value handler with
    arguments, AssertionError, and a bound-variable parameter given something that
    is not an operation (Python fails later, in [defop]; simplified); ValueError. *)
Inductive err := EBind | ECall | EAssert | EBinder | EValue.
Inductive res (A : Type) := Ok (x : A) | Err (e : err).
Arguments Ok {A} x.
Arguments Err {A} e.

(** ** Signatures *)

(** A parameter: name, whether it is annotated as an Operation
    (syntax.py:138-152, [_param_is_var]), the type variables of its [Scoped]
    annotation (syntax.py:154-169; none gives the empty set), its default. *)
Record param := mkparam {
  pname : string; isvar : bool; ord : list nat; dflt : option expr
}.

(** A Python signature, by parameter kind in the order Python requires.
    [ret] is the ordinal of the return annotation. *)
Record sig := mksig {
  posonly : list param; poskw : list param; varpos : option param;
  kwonly : list param; varkw : option param; ret : list nat
}.

Definition opt_list {A} (o : option A) : list A := match o with Some x => [x] | None => [] end.

Definition params (s : sig) : list param :=
  posonly s ++ poskw s ++ opt_list (varpos s) ++ kwonly s ++ opt_list (varkw s).

Definition memn (x : nat) (l : list nat) : bool := existsb (Nat.eqb x) l.
Definition subset (l1 l2 : list nat) : bool := forallb (fun x => memn x l2) l1.
Definition inter (l1 l2 : list nat) : list nat := filter (fun x => memn x l2) l1.

(** ** infer_annotations (syntax.py:172-181, 240-318) *)

(** syntax.py:172-181: intersection of the return's and all parameters' ordinals. *)
Definition root_ordinal (s : sig) : list nat :=
  fold_left (fun acc p => inter acc (ord p)) (params s) (ret s).

(** Type variables after inference: the fresh root scope (syntax.py:184-186) is
    different from every other. *)
Inductive tv := Root | TV (n : nat).
Definition tv_eqb (x y : tv) : bool :=
  match x, y with Root, Root => true | TV n, TV m => n =? m | _, _ => false end.
Definition memt (x : tv) (l : list tv) : bool := existsb (tv_eqb x) l.
Definition subt (l1 l2 : list tv) : bool := forallb (fun x => memt x l2) l1.

(** syntax.py:288-297: the annotation of one parameter (or the return) joined with
    the root scope. *)
Definition infer_ord (s : sig) (o : list nat) : list tv :=
  map TV o ++ match root_ordinal s with [] => [Root] | r => map TV r end.

(** syntax.py:240-260: no variable parameter whose ordinal is strictly above the
    root and below the return's. Strictness of [<] on sets. The checks on repeated
    [Scoped] annotations and on overlap with generic type variables (188-238) are
    about annotations the model cannot represent. *)
Definition check_result (s : sig) : bool :=
  let root := root_ordinal s in
  negb (existsb (fun p => isvar p && (subset root (ord p) && negb (subset (ord p) root))
                          && subset (ord p) (ret s)) (params s)).

(** ** Signature.bind, apply_defaults, .args and .kwargs (Python's inspect) *)

(** Value of one parameter in [BoundArguments.arguments]. *)
Inductive aval := A1 (e : expr) | APos (l : list expr) | AKw (l : list (string * expr)).

Fixpoint take (name : string) (k : list (string * expr)) : option (expr * list (string * expr)) :=
  match k with
  | [] => None
  | (n, e) :: k' =>
      if String.eqb n name then Some (e, k')
      else match take name k' with Some (x, r) => Some (x, (n, e) :: r) | None => None end
  end.

Definition args := list expr.
Definition kwargs := list (string * expr).

Fixpoint bind_posonly (ps : list param) (a : args) : res (list (param * aval) * args) :=
  match ps with
  | [] => Ok ([], a)
  | p :: ps' =>
      match a, dflt p with
      | e :: a', _ =>
          match bind_posonly ps' a' with Ok (b, r) => Ok ((p, A1 e) :: b, r) | Err x => Err x end
      | [], Some e =>
          match bind_posonly ps' [] with Ok (b, r) => Ok ((p, A1 e) :: b, r) | Err x => Err x end
      | [], None => Err EBind
      end
  end.

Fixpoint bind_poskw (ps : list param) (a : args) (k : kwargs)
  : res (list (param * aval) * args * kwargs) :=
  match ps with
  | [] => Ok ([], a, k)
  | p :: ps' =>
      match a with
      | e :: a' =>
          match take (pname p) k with
          | Some _ => Err EBind                       (* multiple values *)
          | None =>
              match bind_poskw ps' a' k with
              | Ok (b, r, k') => Ok ((p, A1 e) :: b, r, k') | Err x => Err x end
          end
      | [] =>
          match take (pname p) k, dflt p with
          | Some (e, k1), _ =>
              match bind_poskw ps' [] k1 with
              | Ok (b, r, k') => Ok ((p, A1 e) :: b, r, k') | Err x => Err x end
          | None, Some e =>
              match bind_poskw ps' [] k with
              | Ok (b, r, k') => Ok ((p, A1 e) :: b, r, k') | Err x => Err x end
          | None, None => Err EBind
          end
      end
  end.

Fixpoint bind_kwonly (ps : list param) (k : kwargs) : res (list (param * aval) * kwargs) :=
  match ps with
  | [] => Ok ([], k)
  | p :: ps' =>
      match take (pname p) k, dflt p with
      | Some (e, k1), _ =>
          match bind_kwonly ps' k1 with Ok (b, k') => Ok ((p, A1 e) :: b, k') | Err x => Err x end
      | None, Some e =>
          match bind_kwonly ps' k with Ok (b, k') => Ok ((p, A1 e) :: b, k') | Err x => Err x end
      | None, None => Err EBind
      end
  end.

(** [sig.bind] followed by [apply_defaults] *)
Definition bind (s : sig) (a : args) (k : kwargs) : res (list (param * aval)) :=
  match bind_posonly (posonly s) a with
  | Err x => Err x
  | Ok (b1, a1) =>
    match bind_poskw (poskw s) a1 k with
    | Err x => Err x
    | Ok (b2, a2, k2) =>
      match varpos s, a2 with
      | None, _ :: _ => Err EBind                     (* too many positional arguments *)
      | vp, _ =>
        match bind_kwonly (kwonly s) k2 with
        | Err x => Err x
        | Ok (b3, k3) =>
          match varkw s, k3 with
          | None, _ :: _ => Err EBind                 (* unexpected keyword argument *)
          | vk, _ =>
              Ok (b1 ++ b2 ++ map (fun p => (p, APos a2)) (opt_list vp)
                  ++ b3 ++ map (fun p => (p, AKw k3)) (opt_list vk))
          end
        end
      end
    end
  end.

(** Which values end up in [.args] and which in [.kwargs]: keyword-only and
    [**kwargs] parameters go to [.kwargs]. The flag says whether the parameter is
    keyword-only. *)
Definition is_kwonly (s : sig) (p : param) : bool :=
  existsb (fun q => String.eqb (pname q) (pname p)) (kwonly s).

Definition args_of (s : sig) (b : list (param * aval)) : args :=
  flat_map (fun pv => match snd pv with
                      | A1 e => if is_kwonly s (fst pv) then [] else [e]
                      | APos l => l
                      | AKw _ => [] end) b.
Definition kwargs_of (s : sig) (b : list (param * aval)) : kwargs :=
  flat_map (fun pv => match snd pv with
                      | A1 e => if is_kwonly s (fst pv) then [(pname (fst pv), e)] else []
                      | APos _ => []
                      | AKw l => l end) b.

(** ** Scoped.analyze (syntax.py:320-382) *)

Definition op_eq_dec (x y : op) : {x = y} + {x <> y}.
Proof. decide equality; apply Nat.eq_dec. Defined.

Definition memo (x : op) (l : list op) : bool := existsb (op_eqb x) l.

(** [extract_operations] (syntax.py:360-371); it does not look inside terms. *)
Fixpoint extract (e : expr) : list op :=
  match e with
  | EOp o => [o]
  | EColl c l => if extracts c then flat_map extract l else []
  | _ => []
  end.

Fixpoint all_ops (l : list expr) : res (list op) :=
  match l with
  | [] => Ok []
  | EOp o :: l' => match all_ops l' with Ok r => Ok (o :: r) | Err x => Err x end
  | _ :: _ => Err EBinder
  end.

Fixpoint nodupb (l : list op) : bool :=
  match l with [] => true | x :: l' => negb (memo x l') && nodupb l' end.

Definition distinct (r : res (list op)) : res (list op) :=
  match r with
  | Ok l => if nodupb l then Ok l else Err EAssert     (* syntax.py:344, 348-350 *)
  | Err x => Err x
  end.

(** The variables a parameter contributes (syntax.py:341-371). *)
Definition param_vars (p : param) (v : aval) : res (list op) :=
  if isvar p then
    match v with
    | APos l => distinct (all_ops l)
    | AKw l => distinct (all_ops (map snd l))
    | A1 e => all_ops [e]
    end
  else
    Ok (nodup op_eq_dec
          match v with
          | APos l => flat_map extract l                    (* a tuple *)
          | AKw l => flat_map extract (map snd l)           (* a dict with str keys *)
          | A1 e => extract e
          end).

(** The loop of [analyze]; [so] is [self.ordinal], [ro] the return's ordinal. *)
Fixpoint analyze (s : sig) (so : list tv) (b : list (param * aval)) (bv : list op) : res (list op) :=
  match b with
  | [] => Ok bv
  | (p, v) :: b' =>
      let po := infer_ord s (ord p) in
      if subt po so && negb (subt po (infer_ord s (ret s))) then
        match param_vars p v with
        | Err x => Err x
        | Ok vs =>
            if existsb (fun x => memo x bv) vs then Err EAssert      (* syntax.py:375 *)
            else analyze s so b' (bv ++ vs)
        end
      else analyze s so b' bv
  end.

(** ** Operation.__fvs_rule__ (types.py:414-451) *)

(** For each argument, the variables bound in it: one set per element of [.args]
    and of [.kwargs]. The starred parameters repeat the set of the parameter. *)
Fixpoint fvs_go (s : sig) (all b : list (param * aval)) : res (list (list op) * list (string * list op)) :=
  match b with
  | [] => Ok ([], [])
  | (p, v) :: b' =>
      match analyze s (infer_ord s (ord p)) all [] with
      | Err x => Err x
      | Ok B =>
          match fvs_go s all b' with
          | Err x => Err x
          | Ok (ra, rk) =>
              match v with
              | A1 _ => if is_kwonly s p then Ok (ra, (pname p, B) :: rk) else Ok (B :: ra, rk)
              | APos l => Ok (map (fun _ => B) l ++ ra, rk)
              | AKw l => Ok (ra, map (fun x => (fst x, B)) l ++ rk)
              end
          end
      end
  end.

Definition fvs_rule (s : sig) (a : args) (k : kwargs) : res (list (list op) * list (string * list op)) :=
  if check_result s then
    match bind s a k with
    | Err x => Err x
    | Ok b => fvs_go s b b
    end
  else Err EAssert.

(** ** evaluate (semantics.py:118-226) *)

Section Evaluate.
Variable St : Type.
(** [look]: what an operation used as a value is replaced by (semantics.py:176-181).
    [app]: what calling an operation does in the current interpretation. *)
Variable look : op -> op.
Variable app : op -> args -> kwargs -> St -> res (expr * St).

Definition mapm (f : expr -> St -> res (expr * St)) :=
  fix go (l : list expr) (s : St) : res (list expr * St) :=
    match l with
    | [] => Ok ([], s)
    | e :: l' =>
        match f e s with
        | Err x => Err x
        | Ok (e', s1) =>
            match go l' s1 with Err x => Err x | Ok (r, s2) => Ok (e' :: r, s2) end
        end
    end.

Definition mapk (f : expr -> St -> res (expr * St)) :=
  fix go (l : list (string * expr)) (s : St) : res (list (string * expr) * St) :=
    match l with
    | [] => Ok ([], s)
    | p :: l' =>
        match f (snd p) s with
        | Err x => Err x
        | Ok (e', s1) =>
            match go l' s1 with Err x => Err x | Ok (r, s2) => Ok ((fst p, e') :: r, s2) end
        end
    end.

Fixpoint evaluate (t : expr) (s : St) {struct t} : res (expr * St) :=
  match t with
  | EConst z => Ok (EConst z, s)
  | EOp o => Ok (EOp (look o), s)
  | ETerm o a k =>                                  (* semantics.py:169-173 *)
      match mapm evaluate a s with
      | Err x => Err x
      | Ok (a', s1) =>
          match mapk evaluate k s1 with
          | Err x => Err x
          | Ok (k', s2) => app o a' k' s2
          end
      end
  | EColl c l =>
      if walks c then
        match mapm evaluate l s with Err x => Err x | Ok (l', s') => Ok (EColl c l', s') end
      else Ok (EColl c l, s)
  end.
End Evaluate.

(** ** defdata (syntax.py:429-549) *)

Section Terms.
(** Signature of each operation; copies share it. *)
Variable sigs : nat -> sig.

Definition sig_of (o : op) : sig := sigs (base o).

(** Index of a variable among the bound ones; used to pick its fresh copy. *)
Fixpoint index (x : op) (l : list op) : nat :=
  match l with [] => 0 | y :: l' => if op_eqb x y then 0 else S (index x l') end.

(** [evaluate_with_renaming] (syntax.py:516-530): under the interpretation
    [analysis | renaming_ctx] an operation in [renaming_ctx] is replaced by its new
    operation, as a value and as the head of a term; every term is rebuilt as is by
    [apply_cast]. The type computation of [apply_type] is not modelled. *)
Definition evaluate_with_renaming (rn : op -> op) (e : expr) : res (expr * unit) :=
  evaluate rn (fun o a k (u : unit) => Ok (ETerm (rn o) a k, u)) e tt.

Definition restrict (rn : op -> op) (ctx : list op) (o : op) : op :=
  if memo o ctx then rn o else o.

Fixpoint ren_args (rn : op -> op) (a : args) (B : list (list op)) : res args :=
  match a, B with
  | [], _ => Ok []
  | e :: a', ctx :: B' =>
      match evaluate_with_renaming (restrict rn ctx) e with
      | Err x => Err x
      | Ok (e', _) => match ren_args rn a' B' with Err x => Err x | Ok r => Ok (e' :: r) end
      end
  | _ :: _, [] => Err EBind          (* [bindings.args[i]] out of range *)
  end.

Fixpoint ren_kwargs (rn : op -> op) (k : kwargs) (B : list (string * list op)) : res kwargs :=
  match k, B with
  | [], _ => Ok []
  | (n, e) :: k', (_, ctx) :: B' =>
      match evaluate_with_renaming (restrict rn ctx) e with
      | Err x => Err x
      | Ok (e', _) => match ren_kwargs rn k' B' with Err x => Err x | Ok r => Ok ((n, e') :: r) end
      end
  | _ :: _, [] => Err EBind
  end.

(** [defdata(op, *args, **kwargs)]. [n] is the next unused copy number. All
    variables bound anywhere get distinct fresh copies (syntax.py:492-497). *)
Definition defdata (o : op) (a : args) (k : kwargs) (n : nat) : res (expr * nat) :=
  match fvs_rule (sig_of o) a k with
  | Err x => Err x
  | Ok (Ba, Bk) =>
      let U := nodup op_eq_dec (List.concat Ba ++ List.concat (map snd Bk)) in
      let rn v := if memo v U then mkop (base v) (n + index v U) else v in
      match bind (sig_of o) a k with
      | Err x => Err x
      | Ok b =>
          match ren_args rn (args_of (sig_of o) b) Ba, ren_kwargs rn (kwargs_of (sig_of o) b) Bk with
          | Ok a', Ok k' => Ok (ETerm o a' k', n + List.length U)
          | Err x, _ => Err x
          | _, Err x => Err x
          end
      end
  end.

(** ** Evaluation under handlers for variables *)

(** Handlers [{x: lambda: v}] for some operations; all others take the free rule
    (types.py:361-374, 507-526). A handler that takes no parameters fails when given
    arguments. Such a handler is not an Operation, so operations used as values
    stay (semantics.py:176-181). *)
Definition env := op -> option expr.

Definition call_op (h : env) (o : op) (a : args) (k : kwargs) (n : nat) : res (expr * nat) :=
  match h o with
  | Some v => match a, k with [], [] => Ok (v, n) | _, _ => Err ECall end
  | None => defdata o a k n
  end.

Definition eval_under (h : env) : expr -> nat -> res (expr * nat) :=
  evaluate (fun o => o) (call_op h).

(** ** fvsof (semantics.py:286-314) *)

(** State: the set [_fvs] and the copy counter. *)
Definition update_fvs (o : op) (a : args) (k : kwargs) (st : list op * nat) : res (expr * (list op * nat)) :=
  let '(fvs, n) := st in
  match fvs_rule (sig_of o) a k with
  | Err x => Err x
  | Ok (Ba, Bk) =>
      let bound := List.concat Ba ++ List.concat (map snd Bk) in
      let fvs1 := filter (fun v => negb (memo v bound)) (o :: fvs) in
      match defdata o a k n with
      | Err x => Err x
      | Ok (e, n') => Ok (e, (fvs1, n'))
      end
  end.

Definition fvsof (t : expr) (n : nat) : res (list op) :=
  match evaluate (fun o => o) update_fvs t ([], n) with
  | Err x => Err x
  | Ok (_, (fvs, _)) => Ok fvs
  end.

(** ** deffn and its application (syntax.py:388-426, 662-688) *)

(** [deffn(body: Scoped[A | B], *args: Operation Scoped[A], **kwargs: Operation
    Scoped[A]) -> Scoped[B]], with A = 0 and B = 1. *)
Definition deffn_sig : sig :=
  mksig [] [mkparam "body" false [0; 1] None] (Some (mkparam "args" true [0] None))
        [] (Some (mkparam "kwargs" true [0] None)) [1].

Fixpoint lookup_sub (subs : list (op * expr)) (o : op) : option expr :=
  match subs with
  | [] => None
  | (v, e) :: subs' => if op_eqb v o then Some e else lookup_sub subs' o
  end.

Fixpoint vars_only (l : list expr) : list op :=
  match l with [] => [] | EOp o :: l' => o :: vars_only l' | _ :: l' => vars_only l' end.

Fixpoint kw_subs (kwvars : kwargs) (k : kwargs) : option (list (op * expr)) :=
  match k with
  | [] => Some []
  | (n, e) :: k' =>
      match take n kwvars, kw_subs kwvars k' with
      | Some (EOp v, _), Some r => Some ((v, e) :: r)
      | _, _ => None                                  (* KeyError *)
      end
  end.

(** [_CallableTerm.__call__] on a [deffn] term (syntax.py:673-684): variables are
    paired with arguments by [zip], and the body is evaluated under the
    substitution. [None]: not a deffn term. The other branches of the method are not
    modelled. A later keyword overrides an earlier positional with the same
    variable; variables of one deffn are distinct, so order does not matter. *)
Definition call_deffn (deffn : op) (f : expr) (a : args) (k : kwargs) (n : nat) : option (res (expr * nat)) :=
  match f with
  | ETerm o (body :: argvars) kwvars =>
      if op_eqb o deffn then
        match kw_subs kwvars k with
        | None => Some (Err EBind)
        | Some ks => Some (eval_under (lookup_sub (combine (vars_only argvars) a ++ ks)) body n)
        end
      else None
  | _ => None
  end.

(** ** trace (syntax.py:691-741) *)

(** A Python function that builds a term from its parameters: its signature, the
    variable standing for each parameter in its body, and its body. Functions that
    inspect their arguments are not represented. *)
Record func := mkfunc { fsig : sig; fvar : string -> op; fbody : expr }.

Definition arg_value (v : aval) : expr :=
  match v with
  | A1 e => e
  | APos l => EColl KTuple l
  | AKw l => EColl KDict (map snd l)       (* the keys are strings *)
  end.

(** Calling the function. Operations called in the body take the free rule, both
    for an ordinary call and under [{apply: defdata}] (syntax.py:735). *)
Definition call_func (f : func) (a : args) (k : kwargs) (n : nat) : res (expr * nat) :=
  match bind (fsig f) a k with
  | Err x => Err x
  | Ok b => eval_under (lookup_sub (map (fun pv => (fvar f (pname (fst pv)), arg_value (snd pv))) b)) (fbody f) n
  end.

(** [a()] for a new variable [a] *)
Definition call_var (e : expr) : expr := match e with EOp x => ETerm x [] [] | _ => e end.

(** [new] gives the variable made for each parameter (syntax.py:730-732). *)
Definition trace (deffn : op) (f : func) (new : string -> op) (n : nat) : res (expr * nat) :=
  match varpos (fsig f), varkw (fsig f) with
  | None, None =>
      match bind (fsig f) [] (map (fun p => (pname p, EOp (new (pname p)))) (params (fsig f))) with
      | Err x => Err x
      | Ok b =>
          let av := args_of (fsig f) b in
          let kv := kwargs_of (fsig f) b in
          match call_func f (map call_var av) (map (fun x => (fst x, call_var (snd x))) kv) n with
          | Err x => Err x
          | Ok (body, n1) => defdata deffn (body :: av) kv n1          (* syntax.py:741 *)
          end
      end
  | _, _ => Err EValue
  end.

End Terms.
