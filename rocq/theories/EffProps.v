(** Property theorems of the effect runtime (C01-C10). *)
From Coq Require Import List Bool Arith String ZArith.
From Verif Require Import EffModel EffSpec EffProofs EffRefine EffEquiv EffLemmas.
Import ListNotations.
Set Implicit Arguments.

(** *** C01 *)

(** Whatever is executed, a program, a closure, an operation call or a default
    rule, and however it ends, the interpretation in force afterwards is the one
    before. *)
Theorem C01_interpretation_restored :
  forall W (defs : cls -> nat -> bool * (args -> comp W)) n t s r s',
  exec defs n t s = Some (r, s') -> intp s' = intp s.
Proof. exact exec_restores. Qed.
Print Assumptions C01_interpretation_restored.

(** In particular the code after a block runs under the interpretation in force
    when the block was entered, whatever the block did and however it was left. *)
Theorem C01_after_block :
  forall W (defs : cls -> nat -> bool * (args -> comp W)) n m i body k s r s',
  exec defs (S n) (TComp (Scope m i body k)) s = Some (r, s') ->
  exists r1 w1, exec defs n (TComp (k r1)) (mkst (intp s) w1) = Some (r, s').
Proof. exact after_block. Qed.
Print Assumptions C01_after_block.

(** Non-trivial instance: a handler that raises inside two nested blocks. *)
Example C01_example :
  let raising := IDict [(HUser [] 0, BFn (W := nat) false (fun _ => Raise (EUser 7)))] in
  let prog := Scope MHandler raising
                (Scope MInterp raising (Call (OH (HUser [] 0)) noargs (@done nat)) (@done nat))
                (@done nat) in
  exists n, exec (fun _ _ => (false, fun _ => Raise ENotHandled)) n (TComp prog) (mkst [] 0)
            = Some (Exn (EUser 7), mkst [] 0).
Proof. exists 20. reflexivity. Qed.

(** *** C02 *)

Theorem C02_coproduct_keys :
  forall W (defs : cls -> nat -> bool * (args -> comp W)) i j o,
  In o (map fst (idict defs (ICop i j))) <->
  In o (map fst (idict defs i)) \/ In o (map fst (idict defs j)).
Proof. exact idict_keys. Qed.
Print Assumptions C02_coproduct_keys.

(** The right dictionary's function is the one that runs, with the caller's
    arguments; its outcome and effect are those of the call. *)
Theorem C02_right_wins :
  forall W (defs : cls -> nat -> bool * (args -> comp W)) i d h nul g a w,
  lookup_lit d h = Some (BFn nul (pure g)) -> nul && nonempty a = false ->
  evals defs (TComp (call_under (ICop i (IDict d)) (OH h) a)) (mkst [] w) (fst (g a w)) (snd (g a w)).
Proof. exact (fun W defs i d h nul g a w => @coproduct_right W defs i _ d h nul g a w eq_refl). Qed.
Print Assumptions C02_right_wins.

(** Operations the right side does not handle keep the left side's function. *)
Theorem C02_left_kept :
  forall W (defs : cls -> nat -> bool * (args -> comp W)) d j h nul g a w,
  lookup_lit d h = Some (BFn nul (pure g)) -> nul && nonempty a = false ->
  ~ In (OH h) (map fst (idict defs j)) ->
  evals defs (TComp (call_under (ICop (IDict d) j) (OH h) a)) (mkst [] w) (fst (g a w)) (snd (g a w)).
Proof. exact coproduct_left_keys. Qed.
Print Assumptions C02_left_kept.

Example C02_example :
  let f (x : nat) : base nat := BFn false (pure (fun a w => (Ok (VTup (pos a)), w + x))) in
  let i := IDict [(HUser [] 0, f 1); (HUser [] 1, f 10)] in
  let j := IDict [(HUser [] 1, f 100); (HUser [] 2, f 1000)] in
  let defs : cls -> nat -> bool * (args -> comp nat) := fun _ _ => (false, fun _ => Raise ENotHandled) in
  let a := mkargs [VInt 5] [] in
  evals defs (TComp (call_under (ICop i j) (OH (HUser [] 1)) a)) (mkst [] 0) (Ok (VTup [VInt 5])) 100 /\
  evals defs (TComp (call_under (ICop i j) (OH (HUser [] 0)) a)) (mkst [] 0) (Ok (VTup [VInt 5])) 1.
Proof. split; exists 40; vm_compute; reflexivity. Qed.

(** *** C03, C04, C05: laws, in every program context *)

(** Replacing interpretations by equal ones up to the laws of [EffEquiv.law], and
    nested blocks by one block with the coproduct, at any places of a program, of
    its handlers and of the default rules, changes neither termination, nor
    outcome, nor effects. *)
Theorem C03_C04_C05_laws_in_context :
  forall W (defs defs' : cls -> nat -> bool * (args -> comp W)) c c',
  defs_eq defs defs' -> ceq c c' ->
  forall w r w', evals defs (TComp c) (mkst [] w) r w' <-> evals defs' (TComp c') (mkst [] w) r w'.
Proof. exact ceq_observably_equal. Qed.
Print Assumptions C03_C04_C05_laws_in_context.

Theorem C03_coproduct_assoc :
  forall W (defs : cls -> nat -> bool * (args -> comp W)) outer m i j l body w r w',
  let prog x := Scope MHandler outer (Scope m x body (@done W)) (@done W) in
  evals defs (TComp (prog (ICop (ICop i j) l))) (mkst [] w) r w' <->
  evals defs (TComp (prog (ICop i (ICop j l)))) (mkst [] w) r w'.
Proof. exact coproduct_assoc. Qed.
Print Assumptions C03_coproduct_assoc.

Theorem C04_coproduct_units :
  forall W (defs : cls -> nat -> bool * (args -> comp W)) outer i body w r w',
  let prog x := Scope MHandler outer (Scope MHandler x body (@done W)) (@done W) in
  (evals defs (TComp (prog (ICop i (IDict [])))) (mkst [] w) r w' <->
   evals defs (TComp (prog i)) (mkst [] w) r w') /\
  (evals defs (TComp (prog (ICop (IDict []) i))) (mkst [] w) r w' <->
   evals defs (TComp (prog i)) (mkst [] w) r w').
Proof. exact coproduct_units. Qed.
Print Assumptions C04_coproduct_units.

Theorem C05_nested_handlers :
  forall W (defs : cls -> nat -> bool * (args -> comp W)) outer i j body w r w',
  evals defs (TComp (Scope MHandler outer
     (Scope MHandler i (Scope MHandler j body (@done W)) (@done W)) (@done W))) (mkst [] w) r w' <->
  evals defs (TComp (Scope MHandler outer
     (Scope MHandler (ICop i j) body (@done W)) (@done W))) (mkst [] w) r w'.
Proof. exact nested_handlers. Qed.
Print Assumptions C05_nested_handlers.

(** A program with three overlapping forwarding handlers where the equivalence is
    not trivial: both sides terminate with the same log. *)
Example C03_example :
  let h := HUser [] 0 in
  let i k := IDict [(h, BFn false (forwarding k (fun _ => noargs)))] in
  let defs : cls -> nat -> bool * (args -> comp (list ev)) :=
    fun _ _ => (false, pure (fun a w => (Ok (VInt 1), w ++ [EvDefault a]))) in
  let a := mkargs [VInt 5] [] in
  let out := [EvIn 3 a; EvIn 2 a; EvIn 1 a; EvDefault a;
              EvOut 1 (Ok (VInt 1)); EvOut 2 (Ok (VInt 1)); EvOut 3 (Ok (VInt 1))] in
  evals defs (TComp (call_under (ICop (ICop (i 1) (i 2)) (i 3)) (OH h) a)) (mkst [] []) (Ok (VInt 1)) out /\
  evals defs (TComp (call_under (ICop (i 1) (ICop (i 2) (i 3))) (OH h) a)) (mkst [] []) (Ok (VInt 1)) out.
Proof. split; exists 60; vm_compute; reflexivity. Qed.

(** *** C06 *)

(** [fs] lists the handlers outermost first; [expected] is the intended order. *)
Theorem C06_forwarding_order :
  forall (defs : cls -> nat -> bool * (args -> comp (list ev))) c n res,
  defs c n = (false, pure (fun a w => (res a, w ++ [EvDefault a]))) ->
  forall fs a w,
  evals defs (TComp (nest (HUser c n) fs (Call (OH (HUser c n)) a (@done _)))) (mkst [] w)
    (snd (expected (OH (HUser c n)) res (rev fs) a))
    (w ++ fst (expected (OH (HUser c n)) res (rev fs) a)).
Proof. exact chain_order. Qed.
Print Assumptions C06_forwarding_order.

Example C06_example :
  expected (OH (HUser [] 0)) (fun a => Ok (VTup (pos a)))
    [(2, fun _ => noargs); (1, fun _ => mkargs [VInt 9] [])] (mkargs [VInt 5] []) =
  ([EvIn 2 (mkargs [VInt 5] []); EvIn 1 (mkargs [VInt 5] []); EvDefault (mkargs [VInt 9] []);
    EvOut 1 (Ok (VTup [VInt 9])); EvOut 2 (Ok (VTup [VInt 9]))], Ok (VTup [VInt 9])).
Proof. reflexivity. Qed.

(** *** C07 *)

(** For a handler that takes parameters and was installed with [handler] (or
    inside a coproduct): after running anything ([pre]), [fwd()] calls the next
    function with the handler's own arguments. Missing for the full C07:
    handlers without parameters, and handlers installed by [interpreter]; see the
    refutations below. *)
Theorem C07_fwd_current_args_partial :
  forall W (defs : cls -> nat -> bool * (args -> comp W)) (E : env W) h pre e rest a w r1 w1 r2 w2,
  hs E h = mkelem true (BFn false (fun a => bind (pre a) (fun _ => Call OFwd noargs (@done W)))) :: e :: rest ->
  elem_nullary defs e = false ->
  runs defs (set_ca (set_fw E (OH h, e :: rest)) a) (RComp (pre a)) w r1 w1 ->
  runs defs (set_ca (set_fw E (OH h, rest)) a) (RElem e a) w1 r2 w2 ->
  runs defs E (ROp W (OH h) a) w r2 w2.
Proof. exact fwd_current_call. Qed.
Print Assumptions C07_fwd_current_args_partial.

Theorem C07_fwd_current_args_default_partial :
  forall W (defs : cls -> nat -> bool * (args -> comp W)) (E : env W) h pre a w r1 w1 r2 w2,
  hs E h = [mkelem true (BFn false (fun a => bind (pre a) (fun _ => Call OFwd noargs (@done W))))] ->
  runs defs (set_ca (set_fw E (OH h, [])) a) (RComp (pre a)) w r1 w1 ->
  runs defs (set_ca (set_fw E (OFwd, [])) a) (RDefault W (OH h) a) w1 r2 w2 ->
  runs defs E (ROp W (OH h) a) w r2 w2.
Proof. exact fwd_current_call_default. Qed.
Print Assumptions C07_fwd_current_args_default_partial.

(** Hypotheses met: the handler first calls another handled operation with its own
    arguments (7), then forwards; the next function sees 5. *)
Example C07_example :
  let defs : cls -> nat -> bool * (args -> comp nat) := fun _ _ => (false, fun _ => Raise ENotHandled) in
  let h := HUser [] 0 in
  let pre := fun _ : args => Call (OH (HUser [] 1)) (mkargs [VInt 7] []) (@done nat) in
  let g : base nat := BFn false (pure (fun a w => (Ok (VTup (pos a)), S w))) in
  let inner : base nat := BFn false (fun a => bind (pre a) (fun _ => Call OFwd noargs (@done nat))) in
  let E := enter defs MHandler (IDict [(h, inner)]) (enter defs MHandler (IDict [(h, g); (HUser [] 1, g)]) (env0 nat)) in
  let a := mkargs [VInt 5] [] in
  hs E h = [mkelem true inner; mkelem true g] /\
  runs defs (set_ca (set_fw E (OH h, [mkelem true g])) a) (RComp (pre a)) 0 (Ok (VTup [VInt 7])) 1 /\
  runs defs (set_ca (set_fw E (OH h, [])) a) (RElem (mkelem true g) a) 1 (Ok (VTup [VInt 5])) 2 /\
  runs defs E (ROp nat (OH h) a) 0 (Ok (VTup [VInt 5])) 2.
Proof. split; [reflexivity|]. split; [|split]; exists 40; vm_compute; reflexivity. Qed.

(** [greet] is handled by [lambda x: name()], [name] by [lambda: fwd()]; the
    default of [name] takes no argument and returns 1. At top level [name()] is 1;
    inside [greet(5)] the same call forwards greet's argument and raises. *)
Definition name_op : op := OH (HUser [] 0).
Definition greet_op : op := OH (HUser [] 1).
Definition c07_defs : cls -> nat -> bool * (args -> comp unit) :=
  fun _ n => match n with
             | 0 => (true, fun _ => Ret (VInt 1))
             | _ => (false, fun _ => Raise ENotHandled)
             end.
Definition c07_handlers : iexp unit :=
  IDict [(HUser [] 0, BFn true (fun _ => Call OFwd noargs (@done unit)));
         (HUser [] 1, BFn false (fun _ => Call name_op noargs (@done unit)))].

Theorem C07_parameterless_handler_refuted :
  exists (defs : cls -> nat -> bool * (args -> comp unit)) (i : iexp unit) (f g : op) (x : args),
    evals defs (TComp (call_under i f noargs)) (mkst [] tt) (Ok (VInt 1)) tt /\
    (* the handler of g only calls f() *)
    (exists d, i = IDict d /\ exists h, g = OH h /\
       lookup_lit d h = Some (BFn false (fun _ => Call f noargs (@done unit)))) /\
    evals defs (TComp (call_under i g x)) (mkst [] tt) (Exn EType) tt.
Proof. exact (ex_intro _ c07_defs (ex_intro _ c07_handlers (ex_intro _ name_op (ex_intro _ greet_op
  (ex_intro _ (mkargs [VInt 5] []) (conj (ex_intro _ 40 eq_refl) (conj
  (ex_intro _ _ (conj eq_refl (ex_intro _ _ (conj eq_refl eq_refl)))) (ex_intro _ 60 eq_refl)))))))). Qed.
Print Assumptions C07_parameterless_handler_refuted.

(** The same handler [lambda x: fwd()] for an operation whose default returns its
    argument: installed by [handler] the call returns 5, installed by
    [interpreter] (as [evaluate(..., intp=...)] does) the default is called without
    arguments and raises. *)
Definition c07b_defs : cls -> nat -> bool * (args -> comp unit) :=
  fun _ _ => (false, fun a => match pos a with [v] => Ret v | _ => Raise EType end).
Definition c07b_handlers : iexp unit :=
  IDict [(HUser [] 0, BFn false (fun _ => Call OFwd noargs (@done unit)))].

Theorem C07_interpreter_refuted :
  exists (defs : cls -> nat -> bool * (args -> comp unit)) (i : iexp unit) (f : op) (x : args),
    let under m := Scope m i (Call f x (@done unit)) (@done unit) in
    evals defs (TComp (under MHandler)) (mkst [] tt) (Ok (VInt 5)) tt /\
    evals defs (TComp (under MInterp)) (mkst [] tt) (Exn EType) tt.
Proof. exact (ex_intro _ c07b_defs (ex_intro _ c07b_handlers (ex_intro _ name_op
  (ex_intro _ (mkargs [VInt 5] []) (conj (ex_intro _ 40 eq_refl) (ex_intro _ 40 eq_refl)))))). Qed.
Print Assumptions C07_interpreter_refuted.

(** *** C08 *)

(** [g] is the default body. No handler for the operation nor for any
    [__apply__]. The operation may belong to a class of any depth. *)
Theorem C08_default_and_free_rule :
  forall W (defs : cls -> nat -> bool * (args -> comp W)) i c n nul g a w,
  defs c n = (nul, pure g) -> nul && nonempty a = false ->
  ~ In (OH (HUser c n)) (map fst (idict defs i)) ->
  (forall c', ~ In (OH (HApply c')) (map fst (idict defs i))) ->
  evals defs (TComp (call_under i (OH (HUser c n)) a)) (mkst [] w)
    match fst (g a w) with
    | Exn ENotHandled => Ok (VTerm (OH (HUser c n)) (pos a) (kws a))
    | r => r
    end (snd (g a w)).
Proof. exact unhandled_call_keys. Qed.
Print Assumptions C08_default_and_free_rule.

Example C08_example :
  let defs : cls -> nat -> bool * (args -> comp nat) :=
    fun _ _ => (false, pure (fun a w => (Exn ENotHandled, S w))) in
  let i := IDict [(HUser [] 3, BFn (W := nat) false (fun _ => Ret VNone))] in
  evals defs (TComp (call_under i (OH (HUser [1; 2] 0)) (mkargs [VInt 5] []))) (mkst [] 0)
    (Ok (VTerm (OH (HUser [1; 2] 0)) [VInt 5] [])) 1.
Proof. exists 60; vm_compute; reflexivity. Qed.

(** [fwd] outside of any handler raises RuntimeError (unless [__apply__] is
    handled). *)
Theorem C08_fwd_outside_handler :
  forall W (defs : cls -> nat -> bool * (args -> comp W)) a w,
  evals defs (TComp (Call OFwd a (@done W))) (mkst [] w) (Exn ERuntime) w.
Proof. exact fwd_outside. Qed.
Print Assumptions C08_fwd_outside_handler.

(** *** C09 *)

(** The operation's class is [p ++ c]; [c]'s [__apply__] is handled by [g], and
    neither the operation nor the [__apply__] of a class strictly between is
    handled. Missing for the full C09: [c] is [Operation] itself and the
    operation's class is two or more levels below (refuted next). *)
Theorem C09_apply_sees_op_partial :
  forall W (defs : cls -> nat -> bool * (args -> comp W)) p c n d g a w,
  lookup_lit d (HApply c) = Some (BFn false (pure g)) ->
  lookup_lit d (HUser (p ++ c) n) = None ->
  (forall p1 p2, p = p1 ++ p2 -> p2 <> [] -> lookup_lit d (HApply (p2 ++ c)) = None) ->
  (List.length p <= 1 \/ (c <> [] /\ lookup_lit d (HApply []) = None)) ->
  let o := OH (HUser (p ++ c) n) in
  let a' := mkargs (VOp o :: pos a) (kws a) in
  fst (g a' w) <> Exn ENotHandled ->
  evals defs (TComp (call_under (IDict d) o a)) (mkst [] w) (fst (g a' w)) (snd (g a' w)).
Proof. exact (fun W defs p c n d g a w H1 H2 H3 H4 =>
  @apply_sees_op W defs _ p c n d false g a w eq_refl H1 eq_refl H2 H3 H4). Qed.
Print Assumptions C09_apply_sees_op_partial.

(** World: the log of argument lists seen by the [Operation.__apply__] handler.
    The operation's class is a subclass of a subclass of [Operation]. The handler
    is called with the [__apply__] of the intermediate class first. *)
Theorem C09_apply_two_levels_refuted :
  exists (defs : cls -> nat -> bool * (args -> comp (list (list value)))) c n,
    List.length c = 2 /\
    let g := fun a w => (Ok VNone, w ++ [pos a]) in
    let i := IDict [(HApply [], BFn false (pure g))] in
    let o := OH (HUser c n) in
    evals defs (TComp (call_under i o (mkargs [VInt 5] []))) (mkst [] [])
      (Ok VNone) [[VOp (OH (HApply (tl c))); VOp o; VInt 5]].
Proof. exact (ex_intro _ (fun _ _ => (false, fun _ => Raise ENotHandled))
  (ex_intro _ [1; 2] (ex_intro _ 0 (conj eq_refl (ex_intro _ 40 eq_refl))))). Qed.
Print Assumptions C09_apply_two_levels_refuted.

(** If that handler forwards, it is called twice for one operation call. *)
Theorem C09_apply_called_twice_refuted :
  exists (defs : cls -> nat -> bool * (args -> comp (list (list value)))) c n,
    let f := fun a => Act (fun w => (Ok VNone, w ++ [pos a]))
                          (fun _ => Call OFwd noargs (@done (list (list value)))) in
    let i := IDict [(HApply [], BFn false f)] in
    let o := OH (HUser c n) in
    evals defs (TComp (call_under i o (mkargs [VInt 5] []))) (mkst [] [])
      (Ok (VInt 5)) [[VOp (OH (HApply (tl c))); VOp o; VInt 5]; [VOp o; VInt 5]].
Proof. exact (ex_intro _ (fun _ _ => (false, fun a => match pos a with [v] => Ret v | _ => Raise EType end))
  (ex_intro _ [1; 2] (ex_intro _ 0 (ex_intro _ 80 eq_refl)))). Qed.
Print Assumptions C09_apply_called_twice_refuted.

(** Hypotheses of the positive theorem met: class [1; 2; 3], handled class [3]. *)
Example C09_example :
  let g := fun (a : args) (w : list (list value)) => (Ok VNone, w ++ [pos a]) in
  let d := [(HApply [3], BFn false (pure g))] in
  evals (fun _ _ => (false, fun _ => Raise ENotHandled))
    (TComp (call_under (IDict d) (OH (HUser [1; 2; 3] 0)) (mkargs [VInt 5] []))) (mkst [] [])
    (Ok VNone) [[VOp (OH (HUser [1; 2; 3] 0)); VInt 5]].
Proof. exists 60; vm_compute; reflexivity. Qed.

(** *** C10 *)

(** The runtime (mutable interpretation, wrapper closures, [_get_args]) and the
    reference machine (lists of installed functions) have the same terminating
    behaviours. *)
Theorem C10_refines_reference :
  forall W (defs : cls -> nat -> bool * (args -> comp W)) c w r w',
  evals defs (TComp c) (mkst [] w) r w' <-> runs defs (env0 W) (RComp c) w r w'.
Proof. exact refinement. Qed.
Print Assumptions C10_refines_reference.

(** Execution is deterministic: more fuel never changes a result. *)
Theorem C10_deterministic :
  forall W (defs : cls -> nat -> bool * (args -> comp W)) t s r1 w1 r2 w2,
  evals defs t s r1 w1 -> evals defs t s r2 w2 -> r1 = r2 /\ w1 = w2.
Proof. exact evals_det. Qed.
Print Assumptions C10_deterministic.

(** A program using handlers, an interpreter block, a coproduct and fwd, run by
    both machines. *)
Example C10_example :
  let h := HUser [] 0 in
  let i k := IDict [(h, BFn false (forwarding k (fun _ => noargs)))] in
  let defs : cls -> nat -> bool * (args -> comp (list ev)) :=
    fun _ _ => (false, pure (fun a w => (Ok (VInt 1), w ++ [EvDefault a]))) in
  let a := mkargs [VInt 5] [] in
  let prog := Scope MInterp (ICop (i 1) (i 2)) (call_under (i 3) (OH h) a) (@done _) in
  exists out, evals defs (TComp prog) (mkst [] []) (Ok (VInt 1)) out /\
              runs defs (env0 _) (RComp prog) [] (Ok (VInt 1)) out /\ List.length out = 7.
Proof. eexists. split; [exists 80; vm_compute; reflexivity|].
       split; [exists 80; vm_compute; reflexivity|reflexivity]. Qed.
