(** Model of tools and tool calls as the language model sees them: the encoding of tools and of tool
    calls (effectful/handlers/llm/encoding.py:682-803), [nested_type] by which arguments and
    results are encoded (effectful/internals/unification.py:862-1112, [canonicalize] 664-717) and
    [call_tool] (effectful/handlers/llm/completions.py:463-488). Values and types as in TupModel.v; JSON text is
    taken as the value it parses to. Docstrings, schemas as JSON and images are not modelled. *)
From Coq Require Import String List Bool Arith.
Import ListNotations.
From Verif Require Import StrModel TupModel.

(** [inspect.Parameter] *)
Inductive kind := PosOnly | PosKw | VarPos | KwOnly | VarKw.
Record param := { p_name : string; p_kind : kind; p_ann : ty; p_default : bool }.
(** A tool: its identity, [__name__] and [inspect.signature] *)
Record tool := { t_id : nat; t_name : string; t_params : list param }.
(** What a context holds *)
Inductive cval := CTool (t : tool) | COther (n : nat).
Definition context : Type := list (string * cval).

Fixpoint cget (c : context) (k : string) : option cval :=
  match c with [] => None | (x, v) :: c' => if String.eqb x k then Some v else cget c' k end.

(** [DecodedToolCall] (113-123); [c_args]: [bound_args.arguments] *)
Record call := { c_tool : tool; c_args : list (string * pyv); c_id : nat; c_name : string }.
(** [ChatCompletionMessageToolCall]; [m_args]: [json.loads(function.arguments)] *)
Record message := { m_id : nat; m_name : string; m_args : pyv }.

(** ** Tools *)
(** What is published of a tool: its name and parameters, all of them required (687-697). *)
Record advert := { a_name : string; a_params : list (string * ty) }.

(** [for key, tool in context.items(): if tool is value] (701-707) *)
Fixpoint key_of (c : context) (t : tool) : string :=
  match c with
  | [] => t_name t
  | (k, CTool u) :: c' => if Nat.eqb (t_id u) (t_id t) then k else key_of c' t
  | (k, COther _) :: c' => key_of c' t
  end.

(** [_serialize_tool] (694-719) *)
Definition serialize_tool (c : context) (t : tool) : advert :=
  {| a_name := key_of c t; a_params := map (fun p => (p_name p, p_ann p)) (t_params t) |}.

(** [_validate_tool] (682-691); [None]: NotImplementedError *)
Definition validate_tool (c : context) (a : advert) : option cval := cget c (a_name a).

(** ** Binding *)
Fixpoint premove (l : list (string * pyv)) (k : string) : list (string * pyv) :=
  match l with [] => [] | (x, v) :: l' => if String.eqb x k then l' else (x, v) :: premove l' k end.

(** The second loop of [inspect.Signature._bind] (Python 3.12) *)
Fixpoint bind_keywords (ps : list param) (kw : list (string * pyv)) (arguments : list (string * pyv)) (kwargs_param : option string)
  : res (list (string * pyv)) :=
  match ps with
  | [] =>
      match kw, kwargs_param with
      | [], _ => Ok arguments
      | _, Some n => Ok (arguments ++ [(n, PDict kw)])
      | _, None => Err EType
      end
  | p :: ps' =>
      match p_kind p with
      | VarKw => bind_keywords ps' kw arguments (Some (p_name p))
      | VarPos => bind_keywords ps' kw arguments kwargs_param
      | k =>
          match pget kw (p_name p) with
          | None => if p_default p then bind_keywords ps' kw arguments kwargs_param else Err EType
          | Some v =>
              match k with
              | PosOnly => Err EType
              | _ => bind_keywords ps' (premove kw (p_name p)) (arguments ++ [(p_name p, v)]) kwargs_param
              end
          end
      end
  end.

(** [Signature.bind] of keywords only: the first loop looks at the first parameter only. *)
Definition bind (ps : list param) (kw : list (string * pyv)) : res (list (string * pyv)) :=
  match ps with
  | [] => bind_keywords [] kw [] None
  | p :: ps' =>
      match p_kind p with
      | VarPos => bind_keywords ps' kw [] None
      | k =>
          match pget kw (p_name p) with
          | Some _ => match k with PosOnly => Err EType | _ => bind_keywords ps kw [] None end
          | None => match k, p_default p with
                    | VarKw, _ | _, true => bind_keywords ps kw [] None
                    | _, false => Err EType
                    end
          end
      end
  end.

(** [BoundArguments.args] *)
Fixpoint args_of (ps : list param) (a : list (string * pyv)) : list pyv :=
  match ps with
  | [] => []
  | p :: ps' =>
      match p_kind p, pget a (p_name p) with
      | (VarKw | KwOnly), _ => []
      | _, None => []
      | VarPos, Some (PTuple l) => l ++ args_of ps' a
      | _, Some v => v :: args_of ps' a
      end
  end.

Fixpoint pput (l : list (string * pyv)) (k : string) (v : pyv) : list (string * pyv) :=
  match l with [] => [(k, v)] | (x, y) :: l' => if String.eqb x k then (k, v) :: l' else (x, y) :: pput l' k v end.
Definition pupdate (l d : list (string * pyv)) : list (string * pyv) := fold_left (fun l kv => pput l (fst kv) (snd kv)) d l.

(** [BoundArguments.kwargs] *)
Fixpoint kwargs_of (ps : list param) (a : list (string * pyv)) (started : bool) (acc : list (string * pyv)) : list (string * pyv) :=
  match ps with
  | [] => acc
  | p :: ps' =>
      let keyword := match p_kind p with VarKw | KwOnly => true | _ => false end in
      match pget a (p_name p) with
      | None => kwargs_of ps' a true acc
      | Some v =>
          if started || keyword then
            kwargs_of ps' a true (match p_kind p, v with VarKw, PDict d => pupdate acc d | _, _ => pput acc (p_name p) v end)
          else kwargs_of ps' a false acc
      end
  end.

Section Calls.
Variable atom_dec : nat -> pyv -> res pyv.
Variable atom_enc : nat -> pyv -> res pyv.
Variable float : nat.
(** The class of a scalar; whether a named tuple class was made by [typing.NamedTuple];
    pydantic's serialisation of scalars and complex numbers where the type is [Any]. *)
Variable class : nat -> nat.
Variable typed : nat -> bool.
Variable any_atom : nat -> res pyv.
Variable any_complex : nat -> nat -> res pyv.

(** ** [nested_type] *)
(** The types it gives; [NSeq]: [MutableSequence[t]]; [NBareSeq], [NBareTuple]: without
    parameter; [NMap]: those of mappings, whose items are not looked at here. *)
Inductive nty :=
| NAtom (k : nat)
| NComplex
| NTuple (l : list nty)
| NBareTuple
| NSeq (t : nty)
| NBareSeq
| NMap.

Fixpoint nty_eqb (a b : nty) : bool :=
  match a, b with
  | NAtom i, NAtom j => Nat.eqb i j
  | NComplex, NComplex | NBareTuple, NBareTuple | NBareSeq, NBareSeq | NMap, NMap => true
  | NSeq a, NSeq b => nty_eqb a b
  | NTuple l, NTuple l' =>
      (fix go (l l' : list nty) : bool :=
         match l, l' with
         | [], [] => true
         | x :: l, y :: l' => nty_eqb x y && go l l'
         | _, _ => false
         end) l l'
  | _, _ => false
  end.

(** [functools.reduce(operator.or_, ...)] is no union (1094-1098); [None]: it is, or there is none *)
Definition joined (ts : list nty) : option nty :=
  match ts with
  | [] => None
  | t :: ts' => if forallb (nty_eqb t) ts' then Some t else None
  end.

(** 899-1112. [canonicalize] refuses the base [typing.NamedTuple], a function (708-715, 661); of
    other named tuples it gives [tuple]. *)
Fixpoint nested (v : pyv) : res nty :=
  match v with
  | PAtom n => Ok (NAtom (class n))
  | PComplex _ _ => Ok NComplex
  | PTuple [] => Ok NBareTuple
  | PTuple l => match mapM nested l with Ok ts => Ok (NTuple ts) | Err e => Err e end
  | PList l =>
      match mapM nested l with
      | Ok ts => Ok (match joined ts with Some t => NSeq t | None => NBareSeq end)
      | Err e => Err e
      end
  | PNamed c l =>
      if typed c then Err EType
      else match mapM nested l with
           | Ok ts => Ok (match joined ts with Some t => NTuple [t] | None => NBareTuple end)
           | Err e => Err e
           end
  | PDict _ => Ok NMap
  end.

(** Serialisation by pydantic where the type is [Any] *)
Fixpoint any_enc (v : pyv) : res pyv :=
  match v with
  | PAtom n => any_atom n
  | PComplex a b => any_complex a b
  | PTuple l | PList l | PNamed _ l => match mapM any_enc l with Ok l => Ok (PList l) | Err e => Err e end
  | PDict d =>
      match mapM (fun kv : string * pyv => match any_enc (snd kv) with Ok y => Ok (fst kv, y) | Err e => Err e end) d with
      | Ok d => Ok (PDict d)
      | Err e => Err e
      end
  end.

(** [Encodable[t]] serialising: as in TupModel.v *)
Fixpoint nenc (t : nty) (v : pyv) : res pyv :=
  match t with
  | NAtom k => atom_enc k v
  | NComplex => enc atom_enc TComplex v
  | NTuple ts =>
      match v with
      | PTuple l | PList l | PNamed _ l =>
          match (fix go (i : nat) (ts : list nty) (l : list pyv) : res (list (string * pyv)) :=
                   match l, ts with
                   | [], _ => Ok []
                   | _ :: _, [] => Err EIndex
                   | x :: l', t :: ts' =>
                       match nenc t x with
                       | Ok y => match go (S i) ts' l' with Ok d => Ok ((item i, y) :: d) | Err e => Err e end
                       | Err e => Err e
                       end
                   end) 0 ts l with
          | Ok d => Ok (PDict d)
          | Err e => Err e
          end
      | _ => Err EType
      end
  | NBareTuple => match v with PTuple l | PNamed _ l => match mapM any_enc l with Ok l => Ok (PList l) | Err e => Err e end | _ => Err EValidation end
  | NSeq t => match v with PList l => match mapM (nenc t) l with Ok l => Ok (PList l) | Err e => Err e end | _ => Err EValidation end
  | NBareSeq => match v with PList l => match mapM any_enc l with Ok l => Ok (PList l) | Err e => Err e end | _ => Err EValidation end
  | NMap => any_enc v
  end.

(** [TypeAdapter(Encodable[nested_type(v).value]).dump_python(v)] (encoding.py:776-779) *)
Definition dump (v : pyv) : res pyv := match nested v with Ok t => nenc t v | Err e => Err e end.

(** ** Tool calls *)
Fixpoint find_param (ps : list param) (n : string) : option param :=
  match ps with [] => None | p :: ps' => if String.eqb (p_name p) n then Some p else find_param ps' n end.

(** 752-761; an assertion that fails is a validation error to pydantic *)
Fixpoint decode_args (ps : list param) (d : list (string * pyv)) : res (list (string * pyv)) :=
  match d with
  | [] => Ok []
  | (n, raw) :: d' =>
      match find_param ps n with
      | None => Err EValidation
      | Some p =>
          match dec atom_dec float (p_ann p) raw with
          | Ok v => match decode_args ps d' with Ok a => Ok ((n, v) :: a) | Err e => Err e end
          | Err e => Err e
          end
      end
  end.

(** [_validate_tool_call] (741-767) *)
Definition decode_call (c : context) (m : message) : res call :=
  match cget c (m_name m) with
  | None => Err EKey
  | Some (COther _) => Err EValidation
  | Some (CTool t) =>
      match m_args m with
      | PDict d =>
          match decode_args (t_params t) d with
          | Ok a =>
              match bind (t_params t) a with
              | Ok b => Ok {| c_tool := t; c_args := b; c_id := m_id m; c_name := m_name m |}
              | Err e => Err e
              end
          | Err e => Err e
          end
      | _ => Err EAttr
      end
  end.

(** [_serialize_tool_call] (770-789) *)
Definition encode_call (k : call) : res message :=
  match mapM (fun kv : string * pyv => match dump (snd kv) with Ok y => Ok (fst kv, y) | Err e => Err e end) (c_args k) with
  | Ok d => Ok {| m_id := c_id k; m_name := t_name (c_tool k); m_args := PDict d |}
  | Err e => Err e
  end.

(** [call_tool] (completions.py:463-488): the arguments the tool is called with, and what becomes
    of its result [r]. *)
Definition called_with (k : call) : list pyv * list (string * pyv) :=
  (args_of (t_params (c_tool k)) (c_args k), kwargs_of (t_params (c_tool k)) (c_args k) false []).
Inductive outcome := Answered (tool_call_id : nat) (content : pyv) | ExecutionError (e : err) | Raised (e : err).
Definition call_tool (k : call) (r : res pyv) : outcome :=
  match r with
  | Err e => ExecutionError e
  | Ok v => match dump v with Ok j => Answered (c_id k) j | Err e => Raised e end
  end.
(** [RetryLLMHandler._call_tool] (completions.py:627-646): execution errors among
    [catch_tool_errors] are answered; [feedback]: the text *)
Definition retry_call_tool (caught : err -> bool) (feedback : err -> pyv) (k : call) (r : res pyv) : outcome :=
  match call_tool k r with
  | ExecutionError e => if caught e then Answered (c_id k) (feedback e) else ExecutionError e
  | o => o
  end.
End Calls.
