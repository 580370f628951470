(** Model of synthesized functions: decoding code into a callable and encoding a callable as code
    (effectful/handlers/llm/encoding.py:428-680), over a small Python of functions. *)
From Coq Require Import String Ascii List Bool Arith ZArith.
Import ListNotations.
Local Open Scope string_scope.
Local Open Scope list_scope.

(** ** Python *)
Inductive kind := PosOnly | PosKw | VarPos | KwOnly | VarKw.
(** Defaults are integers. Annotations of parameters are left out: the code does not look at them. *)
Record param := { p_name : string; p_kind : kind; p_default : option Z }.

Inductive expr :=
| EInt (z : Z)
| ENone
| EVar (x : string)
| EIf (c a b : expr)
| ECall (f : expr) (args : list expr).

(** [def], or a lambda ([f_lambda]); [f_returns]: has a return annotation *)
Record fdef := { f_name : string; f_params : list param; f_returns : bool; f_async : bool; f_lambda : bool; f_decorators : list expr; f_body : expr }.

(** Functions have the module of their globals and the values of their closure. *)
Inductive val :=
| VInt (z : Z)
| VNone
| VTuple (l : list val)
| VDict
| VFun (m : nat) (closure : list (string * val)) (d : fdef)
| VMethod (self : val) (m : nat) (closure : list (string * val)) (d : fdef)
| VPrim (name : option string) (doc : bool) (signature : option (list param)) (code : nat)
| VClass (name : string) (params : list param)
| VObject (n : nat)
| VCoroutine.

Inductive stmt :=
| SDef (d : fdef)
| SLambda (x : string) (d : fdef)
| SClass (x : string) (params : list param)
| SAssign (x : string) (e : expr)
| SExpr (e : expr)
| SDel (x : string).

Inductive error := ETypeError | EValueError | ENameError | ESyntaxError | EValidation | EFuel.
Inductive res (A : Type) := Ok (a : A) | Err (e : error).
Arguments Ok {A}. Arguments Err {A}.
Definition bind {A B} (r : res A) (f : A -> res B) : res B := match r with Ok a => f a | Err e => Err e end.

Definition env : Type := list (string * val).
Fixpoint get {A} (l : list (string * A)) (x : string) : option A :=
  match l with [] => None | (y, v) :: l' => if String.eqb y x then Some v else get l' x end.
Definition put {A} (l : list (string * A)) (x : string) (v : A) : list (string * A) := (x, v) :: l.
Definition del {A} (l : list (string * A)) (x : string) : list (string * A) := filter (fun p => negb (String.eqb (fst p) x)) l.
(** The globals of all modules; the last one is being executed. *)
Definition store : Type := list env.
Definition globals (st : store) (m : nat) : env := nth m st [].

(** Binding of positional arguments *)
Fixpoint bind_args (ps : list param) (args : list val) : res env :=
  match ps with
  | [] => match args with [] => Ok [] | _ => Err ETypeError end
  | p :: ps' =>
      match p_kind p with
      | PosOnly | PosKw =>
          match args with
          | a :: args' => bind (bind_args ps' args') (fun l => Ok ((p_name p, a) :: l))
          | [] => match p_default p with Some z => bind (bind_args ps' []) (fun l => Ok ((p_name p, VInt z) :: l)) | None => Err ETypeError end
          end
      | VarPos => bind (bind_args ps' []) (fun l => Ok ((p_name p, VTuple args) :: l))
      | KwOnly => match p_default p with Some z => bind (bind_args ps' args) (fun l => Ok ((p_name p, VInt z) :: l)) | None => Err ETypeError end
      | VarKw => bind (bind_args ps' args) (fun l => Ok ((p_name p, VDict) :: l))
      end
  end.

Fixpoint ints (l : list val) : option (list Z) :=
  match l with [] => Some [] | VInt z :: l' => option_map (cons z) (ints l') | _ => None end.
Definition truthy (v : val) : bool := match v with VInt z => negb (Z.eqb z 0) | VNone | VDict | VTuple [] => false | _ => true end.
Section Each.
Context {A B : Type} (f : A -> res B).
Fixpoint each (l : list A) : res (list B) :=
  match l with [] => Ok [] | x :: l' => bind (f x) (fun y => bind (each l') (fun ys => Ok (y :: ys))) end.
End Each.

Section Prims.
(** The built-in functions, on integers *)
Variable prim : nat -> list Z -> option Z.

(** [loc]: local variables, then those of the closure *)
Fixpoint eval (fuel : nat) (st : store) (m : nat) (loc : env) (e : expr) : res val :=
  match fuel with
  | 0 => Err EFuel
  | S n =>
      match e with
      | EInt z => Ok (VInt z)
      | ENone => Ok VNone
      | EVar x => match get loc x with Some v => Ok v | None => match get (globals st m) x with Some v => Ok v | None => Err ENameError end end
      | EIf c a b => bind (eval n st m loc c) (fun v => if truthy v then eval n st m loc a else eval n st m loc b)
      | ECall f args => bind (eval n st m loc f) (fun g => bind (each (eval n st m loc) args) (fun vs => call n st g vs))
      end
  end
with call (fuel : nat) (st : store) (g : val) (args : list val) : res val :=
  match fuel with
  | 0 => Err EFuel
  | S n =>
      match g with
      | VFun m cl d => bind (bind_args (f_params d) args) (fun l => if f_async d then Ok VCoroutine else eval n st m (l ++ cl) (f_body d))
      | VMethod self m cl d => bind (bind_args (f_params d) (self :: args)) (fun l => if f_async d then Ok VCoroutine else eval n st m (l ++ cl) (f_body d))
      | VPrim _ _ _ k => match ints args with Some zs => match prim k zs with Some z => Ok (VInt z) | None => Err ETypeError end | None => Err ETypeError end
      | VClass _ ps => bind (bind_args ps args) (fun _ => Ok (VObject 0))
      | _ => Err ETypeError
      end
  end.

(** Decorators are applied from the last to the first. *)
Fixpoint decorate (fuel : nat) (st : store) (m : nat) (ds : list expr) (f : val) : res val :=
  match ds with
  | [] => Ok f
  | d :: ds' => bind (eval fuel st m [] d) (fun g => bind (decorate fuel st m ds' f) (fun f' => call fuel st g [f']))
  end.
(** One statement of the new module, whose number is the length of [st] and whose globals are [g] *)
Definition exec1 (fuel : nat) (st : store) (g : env) (s : stmt) : res env :=
  let m := length st in
  let now := st ++ [g] in
  match s with
  | SDef d => bind (decorate fuel now m (f_decorators d) (VFun m [] d)) (fun v => Ok (put g (f_name d) v))
  | SLambda x d => Ok (put g x (VFun m [] d))
  | SClass x ps => Ok (put g x (VClass x ps))
  | SAssign x e => bind (eval fuel now m [] e) (fun v => Ok (put g x v))
  | SExpr e => bind (eval fuel now m [] e) (fun _ => Ok g)
  | SDel x => match get g x with Some _ => Ok (del g x) | None => Err ENameError end
  end.
Fixpoint exec (fuel : nat) (st : store) (g : env) (l : list stmt) : res env :=
  match l with [] => Ok g | s :: l' => bind (exec1 fuel st g s) (fun g' => exec fuel st g' l') end.

Definition callable (v : val) : bool :=
  match v with VFun _ _ _ | VMethod _ _ _ _ | VPrim _ _ _ _ | VClass _ _ => true | _ => false end.
(** [inspect.signature]: parameters and whether there is a return annotation; [None]: ValueError *)
Definition signature (v : val) : option (list param * bool) :=
  match v with
  | VFun _ _ d => Some (f_params d, f_returns d)
  | VMethod _ _ _ d => match f_params d with p :: ps => Some (ps, f_returns d) | [] => None end
  | VPrim _ _ s _ => option_map (fun ps => (ps, false)) s
  | VClass _ ps => Some (ps, false)
  | _ => None
  end.

(** ** Decoding *)
(** [Callable], or [Callable[[...], R]] with that many parameters or, if [None], [...]; [RNone]: the return type is written [None] *)
Inductive return_type := RNone | RType.
Inductive callable_type := Bare | Typed (params : option nat) (ret : return_type).

(** Module code; text that does not parse *)
Inductive source := Code (l : list stmt) | Garbage.
(** What is validated: a Python value, a [SynthesizedFunction] as an object, a dict or JSON text, or a dict or text that is none *)
Inductive input := IVal (v : val) | ICode (c : source) | IMalformed.

(** [str.isidentifier], on ASCII *)
Definition letter (c : ascii) : bool :=
  let n := nat_of_ascii c in (((65 <=? n) && (n <=? 90)) || ((97 <=? n) && (n <=? 122)) || (n =? 95))%nat.
Definition digit (c : ascii) : bool := let n := nat_of_ascii c in ((48 <=? n) && (n <=? 57))%nat.
Fixpoint rest_ok (s : string) : bool := match s with EmptyString => true | String c s' => (letter c || digit c) && rest_ok s' end.
Definition isidentifier (s : string) : bool := match s with EmptyString => false | String c s' => letter c && rest_ok s' end.

Definition positional (p : param) : bool := match p_kind p with PosOnly | PosKw => true | _ => false end.
(** [_validate_signature_ast] (488-503): [args.args + args.posonlyargs] *)
Definition validate_ast (d : fdef) (expected : option nat) : res unit :=
  match expected with
  | Some n => if Nat.eqb (length (filter positional (f_params d))) n then Ok tt else Err EValueError
  | None => Ok tt
  end.
(** [_validate_signature_callable] (506-536) *)
Definition validate_callable (v : val) (expected : option nat) : res unit :=
  match signature v with
  | None => Err EValueError
  | Some (ps, annotated) =>
      let rest := if annotated then Ok tt else Err EValueError in
      match expected with
      | Some n => if Nat.eqb (length ps) n then rest else Err EValueError
      | None => rest
      end
  end.

Definition last_stmt (l : list stmt) : option stmt := match rev l with [] => None | s :: _ => Some s end.

(** [_validate] (564-637). [check]: what [scan_non_nestable] and [type_check] say with an anchor, if there is one (597-602). The
    store after decoding has the globals of the new module at its end. *)
Definition validate (fuel : nat) (check : list stmt -> res unit) (t : callable_type) (st : store) (ctx : env) (i : input) : res (val * store) :=
  match i with
  | IVal v => if callable v then Ok (v, st) else Err EValueError
  | IMalformed => Err EValidation
  | ICode c =>
      match t with
      | Bare | Typed _ RNone => Err ETypeError
      | Typed expected RType =>
          match c with
          | Garbage => Err ESyntaxError
          | Code l =>
              match last_stmt l with
              | Some (SDef d) =>
                  if f_async d then Err EValueError
                  else
                    bind (validate_ast d expected) (fun _ =>
                    bind (check l) (fun _ =>
                    bind (exec fuel st (filter (fun p => isidentifier (fst p)) ctx) l) (fun g =>
                    match get g (f_name d) with
                    | None => Err EValueError
                    | Some v =>
                        if callable v then bind (validate_callable v expected) (fun _ => Ok (v, st ++ [g])) else Err EValueError
                    end)))
              | _ => Err EValueError
              end
          end
      end
  end.

(** ** Encoding *)
(** [inspect.getsource]: the [def] of a function or method, the statement with the lambda, the class; [None]: OSError or TypeError *)
Definition getsource (v : val) : option source :=
  match v with
  | VFun _ _ d | VMethod _ _ _ d => Some (Code [if f_lambda d then SLambda (f_name d) d else SDef d])
  | VClass x ps => Some (Code [SClass x ps])
  | _ => None
  end.
(** [_serialize] (639-668) *)
Definition serialize (v : val) : res source :=
  if callable v then
    match getsource v with
    | Some s => Ok s
    | None =>
        match v with
        | VPrim (Some name) true s _ =>
            match s with
            | Some ps => Ok (Code [SDef {| f_name := name; f_params := ps; f_returns := false; f_async := false; f_lambda := false; f_decorators := []; f_body := ENone |}])
            | None => Ok Garbage
            end
        | _ => Err EValueError
        end
    end
  else Err ETypeError.
End Prims.
