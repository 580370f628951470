(** Model of the effect runtime of effectful: operations, interpretations,
    [handler], [interpreter], [coproduct], [fwd] and operation calls.
    Definitions only; every definition cites the lines of /repo it follows. *)
From Coq Require Import List ZArith String Bool.
Import ListNotations.
Set Implicit Arguments.

(** ** Operations and values *)

(** A subclass of [Operation] is identified by its path from [Operation]:
    [[]] is [Operation] itself, [x :: c] is the direct subclass number [x] of [c].
    effectful/ops/types.py:67 (class Operation), 528-543 (__init_subclass__). *)
Definition cls := list nat.

(** Operations that user code may put in an interpretation: ordinary
    operations (with their class) and the [__apply__] operation of each class.
    effectful/ops/types.py:67-135; equality is identity, 110-113. *)
Inductive hop :=
| HUser (c : cls) (id : nat)
| HApply (c : cls).

(** All operations: the above, [fwd] (effectful/ops/semantics.py:23-36) and
    [_get_args] (effectful/internals/runtime.py:36-38). Simplification: user
    interpretations do not have [fwd] or [_get_args] as keys. *)
Inductive op :=
| OH (h : hop)
| OFwd
| OGetArgs.

Definition hop_eq_dec (x y : hop) : {x = y} + {x <> y}.
Proof. decide equality; try apply Nat.eq_dec; try (apply list_eq_dec; apply Nat.eq_dec). Defined.

Definition op_eq_dec (x y : op) : {x = y} + {x <> y}.
Proof. decide equality; apply hop_eq_dec. Defined.

(** Values passed to and returned from operations. [VTerm] is a term
    (effectful/ops/types.py:593-673), [VOp] an operation used as a value,
    [VKw] a keyword dictionary. *)
Inductive value :=
| VNone
| VInt (z : Z)
| VStr (s : string)
| VOp (o : op)
| VTup (l : list value)
| VKw (l : list (string * value))
| VTerm (o : op) (a : list value) (k : list (string * value)).

(** The [*args, **kwargs] of a call. *)
Record args := mkargs { pos : list value; kws : list (string * value) }.

Definition noargs : args := mkargs [] [].

(** Python truth of [a or k] (effectful/internals/runtime.py:48). *)
Definition nonempty (a : args) : bool :=
  match pos a, kws a with [], [] => false | _, _ => true end.

(** The pair [(a, k)] as a value, and unpacking it
    (effectful/internals/runtime.py:48, 63). *)
Definition enc_args (a : args) : value := VTup [VTup (pos a); VKw (kws a)].
Definition dec_args (v : value) : option args :=
  match v with
  | VTup [VTup l; VKw k] => Some (mkargs l k)
  | _ => None
  end.

(** Exceptions. [ENotHandled] is effectful/ops/types.py:18; [EUser] stands for
    any other exception raised by user code. *)
Inductive exn := ENotHandled | ERuntime | EType | EAttr | EUser (n : nat).

Inductive outcome := Ok (v : value) | Exn (e : exn).

(** Class of an operation: [fwd], [_get_args] and every [__apply__] are plain
    [Operation]s (types.py:534: [cls.__apply__.define] is the [define] of the
    class of an [__apply__] operation, i.e. of [Operation]). *)
Definition cls_of (o : op) : cls :=
  match o with OH (HUser c _) => c | _ => [] end.

(** [op.__apply__] (types.py:528-543, 578). *)
Definition apply_of (o : op) : op := OH (HApply (cls_of o)).

Section Eff.

(** Everything outside the library that user code can read and write. *)
Variable W : Type.

(** ** User programs *)

Inductive mode := MHandler | MInterp.

(** A user computation. A continuation receives the outcome, value or
    exception, of the sub-computation, so that propagation
    ([fun r => match r with Exn e => Raise e | ... end]), [try/except] and
    [try/finally] are all expressible.
    - [Act]: arbitrary Python code that does not use the library;
    - [Call o a k]: [o( *a )];
    - [Scope MHandler i b k]: [with handler(i): b] (semantics.py:106-115);
    - [Scope MInterp i b k]: [with interpreter(i): b] (runtime.py:25-33);
    - [LookOp o k]: [evaluate(o)] on an operation value (semantics.py:176-181).
    A [base] is a callable used as a handler: a Python function, flagged if its
    signature has no parameters, or an operation.
    An [iexp] is an interpretation built by the user: a dictionary literal or a
    call to [coproduct]. *)
Inductive comp :=
| Ret (v : value)
| Raise (e : exn)
| Act (f : W -> outcome * W) (k : outcome -> comp)
| Call (o : op) (a : args) (k : outcome -> comp)
| Scope (m : mode) (i : iexp) (body : comp) (k : outcome -> comp)
| LookOp (o : op) (k : op -> comp)
with base :=
| BFn (nul : bool) (f : args -> comp)
| BOp (o : op)
with iexp :=
| IDict (d : list (hop * base))
| ICop (i j : iexp).

(** Default implementations of user operations: whether the signature has no
    parameters, and the function (types.py:67-108, [__default__]). *)
Variable defs : cls -> nat -> bool * (args -> comp).

(** ** Runtime closures and interpretations *)

(** Callables found in interpretations at run time.
    - [CSave c] is the wrapper built by [_save_args(c)] (runtime.py:61-66);
    - [CRestore c] the one built by [_restore_args(c)] (runtime.py:46-51);
    - [CPrompt p cont body] the one built by [_set_prompt] (runtime.py:74-80);
    - [CWith i c] is [handler(i)(c)], a context manager used as a decorator
      (runtime.py:77);
    - [CDefault o] the bound method [o.__default_rule__] (types.py:361-374);
    - [CConst v] is [lambda: v] (runtime.py:63). *)
Inductive closure :=
| CBase (b : base)
| CSave (c : closure)
| CRestore (c : closure)
| CPrompt (p : op) (cont body : closure)
| CWith (i : list (op * closure)) (c : closure)
| CDefault (o : op)
| CConst (v : value).

Definition dict := list (op * closure).

(** [d.get(o)] and [d[o] = c] of a Python dict. *)
Fixpoint dget (d : dict) (o : op) : option closure :=
  match d with
  | [] => None
  | (o', c) :: d' => if op_eq_dec o' o then Some c else dget d' o
  end.

Fixpoint dset (d : dict) (o : op) (c : closure) : dict :=
  match d with
  | [] => [(o, c)]
  | (o', c') :: d' => if op_eq_dec o' o then (o', c) :: d' else (o', c') :: dset d' o c
  end.

(** [not inspect.signature(x).parameters] (runtime.py:42-44, 57-59). The
    wrappers use [functools.wraps], so their signature is the wrapped one's;
    [__default_rule__] takes [*args, **kwargs] (types.py:362). *)
Definition op_nullary (o : op) : bool :=
  match o with
  | OH (HUser c n) => fst (defs c n)
  | OH (HApply _) => false
  | OFwd => false
  | OGetArgs => true
  end.

Definition base_nullary (b : base) : bool :=
  match b with BFn nul _ => nul | BOp o => op_nullary o end.

Fixpoint nullary (c : closure) : bool :=
  match c with
  | CBase b => base_nullary b
  | CSave c => nullary c
  | CRestore c => nullary c
  | CPrompt _ _ body => nullary body
  | CWith _ c => nullary c
  | CDefault _ => false
  | CConst _ => true
  end.

(** runtime.py:54-66 and 41-51: no parameters means no wrapper. *)
Definition save_args (c : closure) : closure := if nullary c then c else CSave c.
Definition restore_args (c : closure) : closure := if nullary c then c else CRestore c.

(** [op in {fwd, _get_args}] (semantics.py:92). *)
Definition special (o : op) : bool :=
  match o with OFwd | OGetArgs => true | _ => false end.

(** semantics.py:39-103. [res] starts as a copy of [intp]; [intp.get] looks in
    the original [intp]. *)
Fixpoint coproduct_loop (intp : dict) (items : dict) (res : dict) : dict :=
  match items with
  | [] => res
  | (o, i2) :: items' =>
      let v :=
        if special o then i2
        else match dget intp o with
             | Some i1 => CPrompt OFwd (restore_args (save_args i1)) (save_args i2)
             | None => save_args i2
             end in
      coproduct_loop intp items' (dset res o v)
  end.

Definition coproduct (intp intp2 : dict) : dict := coproduct_loop intp intp2 intp.

(** Evaluating an interpretation expression: a Python dict display inserts its
    items in order; [coproduct] is the function above. *)
Fixpoint idict (i : iexp) : dict :=
  match i with
  | IDict d => fold_left (fun acc p => dset acc (OH (fst p)) (CBase (snd p))) d []
  | ICop i j => coproduct (idict i) (idict j)
  end.

(** ** Execution *)

(** [get_runtime().interpretation] of the current thread (runtime.py:11-22) and
    the outside world. *)
Record state := mkst { intp : dict; world : W }.

(** What can be executed: a user computation, a call to a closure, a call to an
    operation ([Operation.__call__]), a call to [op.__default__]. *)
Inductive task :=
| TComp (c : comp)
| TClo (c : closure) (a : args)
| TOp (o : op) (a : args)
| TDef (o : op) (a : args).

(** runtime.py:25-33: save, replace, run, restore in [finally]. *)
Definition with_interpreter (run : state -> option (outcome * state)) (d : dict) (s : state)
  : option (outcome * state) :=
  let old_intp := intp s in
  match run (mkst d (world s)) with
  | Some (r, s') => Some (r, mkst old_intp (world s'))
  | None => None
  end.

(** semantics.py:106-115. *)
Definition with_handler (run : state -> option (outcome * state)) (d : dict) (s : state)
  : option (outcome * state) :=
  with_interpreter run (coproduct (intp s) d) s.

(** [exec n t s]: [None] means out of fuel, and nothing else. *)
Fixpoint exec (n : nat) (t : task) (s : state) {struct n} : option (outcome * state) :=
  match n with
  | O => None
  | S n =>
    match t with
    | TComp (Ret v) => Some (Ok v, s)
    | TComp (Raise e) => Some (Exn e, s)
    | TComp (Act f k) =>
        let '(r, w') := f (world s) in exec n (TComp (k r)) (mkst (intp s) w')
    | TComp (Call o a k) =>
        match exec n (TOp o a) s with
        | Some (r, s') => exec n (TComp (k r)) s'
        | None => None
        end
    | TComp (Scope m i body k) =>
        match
          match m with
          | MHandler => with_handler (exec n (TComp body)) (idict i) s
          | MInterp => with_interpreter (exec n (TComp body)) (idict i) s
          end
        with
        | Some (r, s') => exec n (TComp (k r)) s'
        | None => None
        end
    | TComp (LookOp o k) =>
        (* semantics.py:176-181: replaced iff the current handler is an Operation *)
        let o' := match dget (intp s) o with Some (CBase (BOp o')) => o' | _ => o end in
        exec n (TComp (k o')) s

    | TClo (CBase (BFn nul f)) a =>
        if nul && nonempty a then Some (Exn EType, s) else exec n (TComp (f a)) s
    | TClo (CBase (BOp o)) a => exec n (TOp o a) s
    | TClo (CSave c) a =>
        (* runtime.py:61-64 *)
        with_handler (exec n (TClo c a)) [(OGetArgs, CConst (enc_args a))] s
    | TClo (CRestore c) a =>
        (* runtime.py:46-49; a result of [_get_args] that is not a pair of a tuple
           and a mapping fails to unpack (simplified to TypeError) *)
        if nonempty a then exec n (TClo c a) s
        else match exec n (TOp OGetArgs noargs) s with
             | Some (Ok v, s') =>
                 match dec_args v with
                 | Some a' => exec n (TClo c a') s'
                 | None => Some (Exn EType, s')
                 end
             | Some (Exn e, s') => Some (Exn e, s')
             | None => None
             end
    | TClo (CPrompt p cont body) a =>
        (* runtime.py:74-78 *)
        let next_cont := match dget (intp s) p with Some c => c | None => CDefault p end in
        with_handler (exec n (TClo body a)) [(p, CWith [(p, next_cont)] cont)] s
    | TClo (CWith i c) a => with_handler (exec n (TClo c a)) i s
    | TClo (CDefault o) a =>
        (* types.py:361-374: NotHandled anywhere below selects the free rule *)
        match exec n (TDef o a) s with
        | Some (Exn ENotHandled, s') => Some (Ok (VTerm o (pos a) (kws a)), s')
        | r => r
        end
    | TClo (CConst v) a => if nonempty a then Some (Exn EType, s) else Some (Ok v, s)

    | TOp o a =>
        (* types.py:507-526 *)
        match dget (intp s) o with
        | Some h =>
            with_handler (exec n (TClo h a)) [(OFwd, restore_args (CDefault o))] s
        | None =>
            match pos a with
            | VOp o1 :: _ =>
                if op_eq_dec o (apply_of o1) then exec n (TDef o a) s
                else exec n (TOp (apply_of o) (mkargs (VOp o :: pos a) (kws a))) s
            | _ => exec n (TOp (apply_of o) (mkargs (VOp o :: pos a) (kws a))) s
            end
        end

    | TDef (OH (HUser c i)) a =>
        let '(nul, f) := defs c i in
        if nul && nonempty a then Some (Exn EType, s) else exec n (TComp (f a)) s
    | TDef (OH (HApply [])) a =>
        (* types.py:546-575: op.__default_rule__( *args ) *)
        match pos a with
        | VOp o1 :: rest => exec n (TClo (CDefault o1) (mkargs rest (kws a))) s
        | _ :: _ => Some (Exn EAttr, s)
        | [] => Some (Exn EType, s)
        end
    | TDef (OH (HApply (_ :: c))) a =>
        (* types.py:537-540: forward to the parent class's __apply__ *)
        match pos a with
        | [] => Some (Exn EType, s)
        | _ => exec n (TOp (OH (HApply c)) a) s
        end
    | TDef OFwd a => Some (Exn ERuntime, s)      (* semantics.py:36 *)
    | TDef OGetArgs a =>                         (* runtime.py:36-38 *)
        if nonempty a then Some (Exn EType, s) else Some (Ok (enc_args noargs), s)
    end
  end.

End Eff.

Arguments Ret {W} v.
Arguments Raise {W} e.
Arguments BOp {W} o.
Arguments CDefault {W} o.
Arguments CConst {W} v.
Arguments TOp {W} o a.
Arguments TDef {W} o a.
