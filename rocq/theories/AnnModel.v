(** Model of the annotations in the signature of an operation: reading them ([Operation._signature], effectful/ops/types.py
    94-108), [Scoped[...]] (effectful/ops/syntax.py 126-135), the checks and the inference of scopes (138-318), and the mark
    [IsRecursive] on tools (effectful/handlers/llm/template.py 43-62, 98-100). Scopes are lists taken as sets; a type variable
    or class is a number. Not modelled: [ParamSpec]s, literals, aliases, unions of anything but variables and classes in a
    scope. *)
From Coq Require Import String List Bool Arith.
From Verif Require Import TermModel.
Import ListNotations.
Local Open Scope list_scope.

(** What stands beside the type in [Annotated[...]] *)
Inductive meta := MScoped (l : list nat) | MRec | MOther (n : nat).
(** Annotations: none, [None], a type variable, a class ([isop]: a subclass of [Operation]), a class with arguments, a union
    ([typing.Union], or [types.UnionType] for [int | str]), a list of parameters as in [Callable[[A], B]], [Annotated[...]],
    text *)
Inductive ann :=
| AEmpty
| ANone
| AVar (a : nat)
| ACls (c : nat) (isop : bool)
| AGen (c : nat) (isop : bool) (l : list ann)
| AUnion (special : bool) (l : list ann)
| AList (l : list ann)
| AAnnot (t : ann) (ms : list meta)
| AText (x : nat).
Inductive out (A : Type) := Done (a : A) | TypeError | AssertionError | NameError.
Arguments Done {A}. Arguments TypeError {A}. Arguments AssertionError {A}. Arguments NameError {A}.

(** [Annotated[t, m]]; of an [Annotated] it has the marks of both *)
Definition annotated (t : ann) (m : meta) : ann := match t with AAnnot u ms => AAnnot u (ms ++ [m]) | _ => AAnnot t [m] end.
(** [typing.get_args(a)[0]] of an [Annotated], any other annotation itself; [typing.get_args(a)[1:]] *)
Definition strip (a : ann) : ann := match a with AAnnot t _ => t | _ => a end.
Definition metas (a : ann) : list meta := match a with AAnnot _ ms => ms | _ => [] end.

(** A parameter and a signature, as in [TermModel] but annotated *)
Record aparam := AParam { a_name : string; a_ann : ann; a_dflt : option expr }.
Record asig := ASig { a_posonly : list aparam; a_poskw : list aparam; a_varpos : option aparam; a_kwonly : list aparam; a_varkw : option aparam; a_ret : ann }.
Definition a_params (s : asig) : list aparam := a_posonly s ++ a_poskw s ++ opt_list (a_varpos s) ++ a_kwonly s ++ opt_list (a_varkw s).
Definition annos (s : asig) : list ann := a_ret s :: map a_ann (a_params s).

(** [typing.get_type_hints(f, include_extras=True)] of one annotation: text is evaluated where the function is defined, [None]
    is its class, here number 0. [env]: what a text means there. *)
Section Hints.
Variable env : nat -> option ann.
Definition mapo (f : ann -> option ann) : list ann -> option (list ann) :=
  fix go (l : list ann) : option (list ann) :=
    match l with [] => Some [] | a :: l' => match f a, go l' with Some b, Some r => Some (b :: r) | _, _ => None end end.
Fixpoint resolve (a : ann) : option ann :=
  match a with
  | AEmpty | AVar _ | ACls _ _ => Some a
  | ANone => Some (ACls 0 false)
  | AGen c o l => option_map (AGen c o) (mapo resolve l)
  | AUnion b l => option_map (AUnion b) (mapo resolve l)
  | AList l => option_map AList (mapo resolve l)
  | AAnnot t ms => option_map (fun u => fold_left annotated ms u) (resolve t)
  | AText x => env x
  end.
Definition resolve_param (p : aparam) : option aparam := option_map (fun a => AParam (a_name p) a (a_dflt p)) (resolve (a_ann p)).
Fixpoint resolve_params (l : list aparam) : option (list aparam) :=
  match l with [] => Some [] | p :: l' => match resolve_param p, resolve_params l' with Some q, Some r => Some (q :: r) | _, _ => None end end.
Definition resolve_opt (o : option aparam) : option (option aparam) :=
  match o with None => Some None | Some p => option_map Some (resolve_param p) end.
(** [Operation._signature] (types.py 94-108) *)
Definition signature (s : asig) : out asig :=
  match resolve_params (a_posonly s), resolve_params (a_poskw s), resolve_opt (a_varpos s), resolve_params (a_kwonly s), resolve_opt (a_varkw s), resolve (a_ret s) with
  | Some p, Some k, Some v, Some o, Some w, Some r => Done (ASig p k v o w r)
  | _, _, _, _, _, _ => NameError
  end.
End Hints.

(** [Scoped[item]] (syntax.py 126-135) *)
Inductive item := One (t : ann) | Several (l : list ann).
Definition ident (t : ann) : nat := match t with AVar a => a | ACls c _ => c | _ => 0 end.
Definition scoped (x : item) : out meta :=
  match x with
  | Several _ => AssertionError
  | One (AVar a) => Done (MScoped [a])
  | One (AUnion true (t :: l)) => Done (MScoped (map ident (t :: l)))
  | One _ => TypeError
  end.

(** [_param_is_var] (138-152) *)
Definition is_var (a : ann) : bool := match strip a with ACls _ o | AGen _ o _ => o | _ => false end.
Definition is_scoped (m : meta) : bool := match m with MScoped _ => true | _ => false end.
(** [_get_param_ordinal] (154-169) *)
Definition ordinal (a : ann) : list nat := match find is_scoped (metas a) with Some (MScoped l) => l | _ => [] end.
(** [_get_root_ordinal] (172-181) *)
Definition root (s : asig) : list nat := fold_left (fun acc p => inter acc (ordinal (a_ann p))) (a_params s) (ordinal (a_ret s)).

(** [_check_has_single_scope] (188-200): parameters only *)
Definition single (s : asig) : bool := forallb (fun p => length (filter is_scoped (metas (a_ann p))) <=? 1) (a_params s).
(** [_get_free_type_vars] (212-226) *)
Fixpoint tvars (a : ann) : list nat :=
  match a with
  | AVar v => [v]
  | AGen _ _ l | AUnion _ l | AList l => flat_map tvars l
  | AAnnot t _ => tvars t
  | _ => []
  end.
(** [_check_no_typevar_overlap] (203-237) *)
Definition disjoint (s : asig) : bool :=
  let free := flat_map tvars (annos s) in forallb (fun a => forallb (fun x => negb (memn x free)) (ordinal a)) (annos s).
(** [_check_no_boundvars_in_result] (240-260) *)
Definition unbound (s : asig) : bool :=
  let r := root s in
  negb (existsb (fun p => is_var (a_ann p) && (subset r (ordinal (a_ann p)) && negb (subset (ordinal (a_ann p)) r)) && subset (ordinal (a_ann p)) (ordinal (a_ret s))) (a_params s)).
(** [_get_fresh_ordinal] (184-186): a type variable that is nowhere else, neither in types nor in any scope *)
Fixpoint every (a : ann) : list nat :=
  match a with
  | AGen _ _ l | AUnion _ l | AList l => flat_map every l
  | AAnnot t ms => every t ++ flat_map (fun m => match m with MScoped l => l | _ => [] end) ms
  | _ => []
  end.
Definition fresh (s : asig) : nat := S (list_max (flat_map (fun a => tvars a ++ ordinal a ++ every a) (annos s))).
(** the loop of [infer_annotations] (287-303), of one annotation *)
Definition new_ann (r : list nat) (a : ann) : ann :=
  fold_left annotated (filter (fun m => negb (is_scoped m)) (metas a)) (annotated (strip a) (MScoped (ordinal a ++ r))).
Definition new_param (r : list nat) (p : aparam) : aparam := AParam (a_name p) (new_ann r (a_ann p)) (a_dflt p).
Definition new_sig (r : list nat) (s : asig) : asig :=
  ASig (map (new_param r) (a_posonly s)) (map (new_param r) (a_poskw s)) (option_map (new_param r) (a_varpos s)) (map (new_param r) (a_kwonly s)) (option_map (new_param r) (a_varkw s)) (new_ann r (a_ret s)).
(** [infer_annotations] (263-318) *)
Definition infer (s : asig) : out asig :=
  if single s && disjoint s && unbound s then
    let r := match root s with [] => [fresh s] | r => r end in
    let s' := new_sig r s in
    if subset (root s') r && subset r (root s') then Done s' else AssertionError
  else AssertionError.

(** [_IsRecursiveAnnotation.infer_annotations] (template.py 43-52): the loop is over the items of [sig.parameters], whose values
    are parameters, not annotations; [typing.get_origin] of a parameter is [None]. *)
Inductive pyobj := PParam (p : aparam) | PAnn (a : ann).
Definition origin_annotated (x : pyobj) : bool := match x with PAnn (AAnnot _ _) => true | _ => false end.
Definition is_rec (m : meta) : bool := match m with MRec => true | _ => false end.
Definition rec_infer (s : asig) : out asig :=
  if existsb (fun p => origin_annotated (PParam p) && existsb is_rec (metas (a_ann p))) (a_params s) then TypeError else Done s.
(** [Tool.__signature__] (template.py 98-100) *)
Definition tool_signature (env : nat -> option ann) (s : asig) : out asig :=
  match signature env s with Done s' => rec_infer s' | e => e end.
(** [_is_recursive_signature] (58-62) *)
Definition is_recursive (s : asig) : bool := existsb is_rec (metas (a_ret s)).

(** The signature as [TermModel] has it *)
Definition to_param (p : aparam) : param := mkparam (a_name p) (is_var (a_ann p)) (ordinal (a_ann p)) (a_dflt p).
Definition to_sig (s : asig) : sig :=
  mksig (map to_param (a_posonly s)) (map to_param (a_poskw s)) (option_map to_param (a_varpos s)) (map to_param (a_kwonly s)) (option_map to_param (a_varkw s)) (ordinal (a_ret s)).
