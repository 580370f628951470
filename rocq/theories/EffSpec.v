(** Reference semantics of handlers, used to state the properties of the
    runtime. No closures, no mutable interpretation: the environment lists, for
    each operation, the functions installed for it, innermost first, and for
    [fwd] the operation being handled and the functions not yet used. *)
From Coq Require Import List Bool.
From Verif Require Import EffModel.
Import ListNotations.
Set Implicit Arguments.

Section Spec.
Variable W : Type.
Variable defs : cls -> nat -> bool * (args -> comp W).

(** An installed function. [sv] tells whether calling it makes its arguments
    the "current arguments" of [fwd()]; false for functions without parameters
    and for functions installed by [interpreter] directly. *)
Record elem := mkelem { sv : bool; eb : base W }.

Definition elem_nullary (e : elem) : bool := base_nullary defs (eb e).

Definition sav (e : elem) : elem := mkelem (sv e || negb (elem_nullary e)) (eb e).
Definition savl (l : list elem) : list elem :=
  match l with [] => [] | e :: l' => sav e :: l' end.

(** Stacking functions for one operation on top of others. *)
Definition stack (below above : list elem) : list elem :=
  match above with [] => below | _ => savl above ++ savl below end.

(** The functions an interpretation provides for an operation. *)
Fixpoint lookup_lit (d : list (hop * base W)) (h : hop) : option (base W) :=
  match d with
  | [] => None
  | (h', b) :: d' =>
      match lookup_lit d' h with
      | Some b' => Some b'
      | None => if hop_eq_dec h' h then Some b else None
      end
  end.

Fixpoint provides (i : iexp W) (h : hop) : list elem :=
  match i with
  | IDict d => match lookup_lit d h with Some b => [mkelem false b] | None => [] end
  | ICop i j => stack (provides i h) (provides j h)
  end.

Record env := mkenv {
  hs : hop -> list elem;                 (* installed functions *)
  fw : option (op * list elem);          (* what fwd does *)
  ca : option args                       (* current arguments *)
}.

Definition env0 : env := mkenv (fun _ => []) None None.
Definition set_fw (E : env) (x : op * list elem) : env := mkenv (hs E) (Some x) (ca E).
Definition set_ca (E : env) (a : args) : env := mkenv (hs E) (fw E) (Some a).

Definition enter (m : mode) (i : iexp W) (E : env) : env :=
  match m with
  | MHandler => mkenv (fun h => stack (hs E h) (provides i h)) (fw E) (ca E)
  | MInterp => mkenv (provides i) None None
  end.

Inductive rtask :=
| RComp (c : comp W)
| RElem (e : elem) (a : args)            (* run an installed function *)
| ROp (o : op) (a : args)                (* call an operation *)
| RUnh (o : op) (a : args)               (* call an operation nobody handles *)
| RDefault (o : op) (a : args)           (* default rule, else free rule *)
| RDef (o : op) (a : args).              (* default body *)

Definition step_result := option (outcome * W).

(** [a] if non-empty, otherwise the current arguments. *)
Definition resolve (run : env -> rtask -> W -> step_result) (E : env) (a : args) (w : W)
  (k : args -> W -> step_result) : step_result :=
  if nonempty a then k a w
  else match run E (ROp OGetArgs noargs) w with
       | Some (Ok v, w') =>
           match dec_args v with Some a' => k a' w' | None => Some (Exn EType, w') end
       | Some (Exn e, w') => Some (Exn e, w')
       | None => None
       end.

Fixpoint ref (n : nat) (E : env) (t : rtask) (w : W) {struct n} : step_result :=
  match n with
  | O => None
  | S n =>
    match t with
    | RComp (Ret v) => Some (Ok v, w)
    | RComp (Raise e) => Some (Exn e, w)
    | RComp (Act f k) => let '(r, w') := f w in ref n E (RComp (k r)) w'
    | RComp (Call o a k) =>
        match ref n E (ROp o a) w with
        | Some (r, w') => ref n E (RComp (k r)) w'
        | None => None
        end
    | RComp (Scope m i body k) =>
        match ref n (enter m i E) (RComp body) w with
        | Some (r, w') => ref n E (RComp (k r)) w'
        | None => None
        end
    | RComp (LookOp o k) =>
        let o' := match o with
                  | OH h => match hs E h with
                            | [mkelem false (BOp o')] => o'
                            | _ => o
                            end
                  | _ => o
                  end in
        ref n E (RComp (k o')) w

    | RElem e a =>
        let E' := if sv e then set_ca E a else E in
        match eb e with
        | BFn nul f => if nul && nonempty a then Some (Exn EType, w)
                       else ref n E' (RComp (f a)) w
        | BOp o => ref n E' (ROp o a) w
        end

    | ROp (OH h) a =>
        match hs E h with
        | e :: rest => ref n (set_fw E (OH h, rest)) (RElem e a) w
        | [] => ref n E (RUnh (OH h) a) w
        end
    | ROp OFwd a =>
        match fw E with
        | None => ref n E (RUnh OFwd a) w
        | Some (o, e :: rest) =>
            let E' := set_fw E (o, rest) in
            if elem_nullary e then ref n E' (RElem e a) w
            else resolve (ref n) E' a w (fun a' w' => ref n E' (RElem e a') w')
        | Some (o, []) =>
            let E' := set_fw E (OFwd, []) in
            resolve (ref n) E' a w (fun a' w' => ref n E' (RDefault o a') w')
        end
    | ROp OGetArgs a =>
        match ca E with
        | None => ref n E (RUnh OGetArgs a) w
        | Some a' => if nonempty a then Some (Exn EType, w) else Some (Ok (enc_args a'), w)
        end

    | RUnh o a =>
        match pos a with
        | VOp o1 :: _ =>
            if op_eq_dec o (apply_of o1) then ref n E (RDef o a) w
            else ref n E (ROp (apply_of o) (mkargs (VOp o :: pos a) (kws a))) w
        | _ => ref n E (ROp (apply_of o) (mkargs (VOp o :: pos a) (kws a))) w
        end

    | RDefault o a =>
        match ref n E (RDef o a) w with
        | Some (Exn ENotHandled, w') => Some (Ok (VTerm o (pos a) (kws a)), w')
        | r => r
        end

    | RDef (OH (HUser c i)) a =>
        let '(nul, f) := defs c i in
        if nul && nonempty a then Some (Exn EType, w) else ref n E (RComp (f a)) w
    | RDef (OH (HApply [])) a =>
        match pos a with
        | VOp o1 :: rest => ref n E (RDefault o1 (mkargs rest (kws a))) w
        | _ :: _ => Some (Exn EAttr, w)
        | [] => Some (Exn EType, w)
        end
    | RDef (OH (HApply (_ :: c))) a =>
        match pos a with
        | [] => Some (Exn EType, w)
        | _ => ref n E (ROp (OH (HApply c)) a) w
        end
    | RDef OFwd a => Some (Exn ERuntime, w)
    | RDef OGetArgs a =>
        if nonempty a then Some (Exn EType, w) else Some (Ok (enc_args noargs), w)
    end
  end.

(** [runs E c w r w']: running [c] terminates with outcome [r] and world [w']. *)
Definition runs (E : env) (t : rtask) (w : W) (r : outcome) (w' : W) : Prop :=
  exists n, ref n E t w = Some (r, w').

End Spec.
