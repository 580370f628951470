(** Model of [productN] (effectful/internals/product_n.py): running several
    interpretations side by side. Operation calls and default rules as in
    effectful/ops/types.py:361-374, 507-526, 546-575. Simplifications: handlers do not use
    [fwd], so that [handler] replaces (EffModel has [fwd]); no keyword arguments; handlers have
    no side effects, so that a suspended result may be computed again at each request
    ([CallByNeed] itself is NeedModel); all operations have the class [Operation]. *)
From Coq Require Import List Bool Arith ZArith.
Import ListNotations.

(** User operations and [apply]; their copies made by [defop(op)] for a prompt
    (product_n.py:113); prompts; [argsof] (37-39). *)
Inductive bop := BOp (n : nat) | BApply.
Inductive op := OBase (b : bop) | ORen (p : nat) (b : bop) | OPrompt (p : nat) | OArgsOf.

Definition bop_dec (x y : bop) : {x = y} + {x <> y}. Proof. decide equality. apply Nat.eq_dec. Defined.
Definition op_dec (x y : op) : {x = y} + {x <> y}. Proof. decide equality; (apply bop_dec || apply Nat.eq_dec). Defined.

(** The three ways a prompt's result is computed (product_n.py:176-205). *)
Inductive kind := KDirect | KApply | KDefault.

(** Values. [VProd] is a [Product] (42-52): for each prompt the suspended call. *)
Inductive value :=
| VInt (z : Z)
| VOp (o : op)
| VTup (l : list value)
| VTerm (o : op) (l : list value)
| VProd (l : list (nat * (kind * bop * list value))).
Definition thunk : Type := kind * bop * list value.

Inductive exn := ENotHandled | ERuntime | EType | EUser (n : nat).
Inductive outcome := Ok (v : value) | Exn (e : exn).

(** Handler code: [Call o a k] is [o( *a )], [Dflt o a k] is [o.__default_rule__( *a )]; the
    outcome goes to [k], so exceptions may be caught. *)
Inductive comp :=
| Ret (v : value)
| Raise (e : exn)
| Call (o : op) (a : list value) (k : outcome -> comp)
| Dflt (o : op) (a : list value) (k : outcome -> comp).

Definition fn : Type := list value -> comp.
Definition intp : Type := list (bop * fn).

Fixpoint find (d : intp) (b : bop) : option fn :=
  match d with [] => None | (x, f) :: d' => if bop_dec x b then Some f else find d' b end.

Fixpoint assoc {A} (l : list (nat * A)) (p : nat) : option A :=
  match l with [] => None | (x, a) :: l' => if Nat.eqb x p then Some a else assoc l' p end.

Section Prod.
(** Default bodies of the user operations. *)
Variable defs : nat -> fn.
(** The argument of [productN]: for each prompt an interpretation. *)
Variable intps : list (nat * intp).

(** [result_ops] (109) *)
Definition result_ops : list bop := flat_map (fun pi => map fst (snd pi)) intps.

(** What handles an operation: a function; a component's function under the prompt's
    translation (122-129); another operation; a suspended call; the product of an
    operation (131-213); the [argsof] of a product (149-156, 210). *)
Inductive clo :=
| CFn (f : fn)
| CTr (p : nat) (f : fn)
| COp (o : op)
| CThunk (p : nat) (t : thunk)
| CProd (b : bop)
| CArgsOf (l : list (nat * thunk)).
Definition env : Type := list (op * clo).

Fixpoint get (E : env) (o : op) : option clo :=
  match E with [] => None | (x, c) :: E' => if op_dec x o then Some c else get E' o end.

(** 115-129 *)
Definition translation (p : nat) : env := map (fun b => (OBase b, COp (ORen p b))) result_ops.
Definition isolated (p : nat) (d : intp) : env := map (fun bf => (ORen p (fst bf), CTr p (snd bf))) d.
Definition isolated_of (p : nat) : env :=
  match assoc intps p with Some d => isolated p d | None => [] end.

(** [result_intp] as [_pack] installs it (49-52, 207-211) *)
Definition result_env (l : list (nat * thunk)) : env :=
  map (fun pt => (OPrompt (fst pt), CThunk (fst pt) (snd pt))) l ++ [(OArgsOf, CArgsOf l)].

(** Which of the three ways (176-205) *)
Definition kind_of (d : intp) (b : bop) : kind :=
  match find d b with Some _ => KDirect | None => match find d BApply with Some _ => KApply | None => KDefault end end.

(** What can be executed; [TForce p v] is [v.values(p)], [TUnpack p v] is
    [map_structure] of [_unpack] (55-103; tuples only), [TProds] the loop over the prompts. *)
Inductive task :=
| TComp (c : comp)
| TOp (o : op) (a : list value)
| TClo (c : clo) (a : list value)
| TDefault (o : op) (a : list value)
| TForce (p : nat) (v : value)
| TUnpack (p : nat) (v : value)
| TUnpackAll (p : nat) (l acc : list value)
| TProds (b : bop) (a : list value) (rest : list (nat * intp)) (acc : list (nat * thunk)).

(** [None]: out of fuel. *)
Fixpoint exec (n : nat) (t : task) (E : env) : option outcome :=
  match n with
  | 0 => None
  | S n =>
    match t with
    | TComp (Ret v) => Some (Ok v)
    | TComp (Raise e) => Some (Exn e)
    | TComp (Call o a k) => match exec n (TOp o a) E with Some r => exec n (TComp (k r)) E | None => None end
    | TComp (Dflt o a k) => match exec n (TDefault o a) E with Some r => exec n (TComp (k r)) E | None => None end

    | TOp o a =>
        (* types.py:507-526 *)
        match get E o with
        | Some c => exec n (TClo c a) E
        | None =>
            match a with
            | VOp o1 :: rest =>
                if op_dec o (OBase BApply) then exec n (TDefault o1 rest) E
                else exec n (TOp (OBase BApply) (VOp o :: a)) E
            | _ => exec n (TOp (OBase BApply) (VOp o :: a)) E
            end
        end

    | TClo (CFn f) a => exec n (TComp (f a)) E
    | TClo (CTr p f) a => exec n (TComp (f a)) (translation p ++ E)
    | TClo (COp o) a => exec n (TOp o a) E
    | TClo (CThunk p (kd, b, l)) a =>
        match a with
        | [] =>
          match kd with
          | KDirect => exec n (TOp (ORen p b) l) (isolated_of p ++ E)
          | KApply => exec n (TOp (ORen p BApply) (VOp (ORen p b) :: l)) (isolated_of p ++ E)
          | KDefault => exec n (TDefault (OBase b) l) (translation p ++ isolated_of p ++ E)
          end
        | _ => Some (Exn EType)
        end
    | TClo (CProd b) a => exec n (TProds b a intps []) E
    | TClo (CArgsOf l) a =>
        (* 149-156: the arguments of the suspended call, in the case of [apply] from the
           third on, the first being the operation *)
        match a with
        | [VOp (OPrompt p)] =>
            match assoc l p with
            | Some (KApply, _, args) => Some (Ok (VTup [VTup (tl args); VTup []]))
            | Some (_, _, args) => Some (Ok (VTup [VTup args; VTup []]))
            | None => Some (Exn (EUser 0))
            end
        | _ => Some (Exn EType)
        end

    | TDefault (OBase (BOp m)) a =>
        match exec n (TComp (defs m a)) E with
        | Some (Exn ENotHandled) => Some (Ok (VTerm (OBase (BOp m)) a))
        | r => r
        end
    | TDefault (OBase BApply) a =>
        match a with
        | VOp o1 :: rest =>
            match exec n (TDefault o1 rest) E with
            | Some (Exn ENotHandled) => Some (Ok (VTerm (OBase BApply) a))
            | r => r
            end
        | _ => Some (Exn EType)
        end
    | TDefault OArgsOf a => Some (Exn ERuntime)
    | TDefault o a => Some (Ok (VTerm o a))   (* copies and prompts have no default *)

    | TForce p (VProd l) => exec n (TOp (OPrompt p) []) (result_env l)
    | TForce p _ => Some (Exn EType)
    | TUnpack p v =>
        match v with
        | VProd _ => exec n (TForce p v) E
        | VTup l => exec n (TUnpackAll p l []) E
        | _ => Some (Ok v)
        end
    | TUnpackAll p l acc =>
        match l with
        | [] => Some (Ok (VTup acc))
        | v :: l' =>
            match exec n (TUnpack p v) E with
            | Some (Ok v') => exec n (TUnpackAll p l' (acc ++ [v'])) E
            | r => r
            end
        end

    | TProds b a rest acc =>
        match rest with
        | [] => Some (Ok (VProd acc))
        | (p, d) :: rest' =>
            match exec n (TUnpackAll p a []) E with
            | Some (Ok (VTup a')) => exec n (TProds b a rest' (acc ++ [(p, (kind_of d b, b, a'))])) E
            | Some (Ok _) => Some (Exn EType)
            | r => r
            end
        end
    end
  end.

(** The result of [productN] (212-214) and a component by itself, as interpretations. *)
Definition product_env : env := map (fun b => (OBase b, CProd b)) result_ops.
Definition single_env (d : intp) : env := map (fun bf => (OBase (fst bf), CFn (snd bf))) d.

(** Expressions to be interpreted: arguments first, then the operation. *)
Inductive expr := ELit (z : Z) | EOp (m : nat) (es : list expr).

Fixpoint eval (n : nat) (E : env) (e : expr) : option outcome :=
  match e with
  | ELit z => Some (Ok (VInt z))
  | EOp m es =>
      match (fix all es := match es with
                           | [] => Some (Ok (VTup []))
                           | e :: es' => match eval n E e with
                                         | Some (Ok v) => match all es' with Some (Ok (VTup vs)) => Some (Ok (VTup (v :: vs))) | r => r end
                                         | r => r
                                         end
                           end) es with
      | Some (Ok (VTup vs)) => exec n (TOp (OBase (BOp m)) vs) E
      | r => r
      end
  end.

(** [evaluate(e, productN(intps)).values(p)], and [evaluate(e, intps[p])], inside handlers [E0]. *)
Definition project_in (E0 : env) (n : nat) (p : nat) (e : expr) : option outcome :=
  match eval n (product_env ++ E0) e with
  | Some (Ok v) => exec n (TForce p v) E0
  | r => r
  end.
Definition alone_in (E0 : env) (n : nat) (d : intp) (e : expr) : option outcome := eval n (single_env d ++ E0) e.
Definition project := project_in [].
Definition alone := alone_in [].
End Prod.
