(** Theorems about terms with binders (C14-C21, C45). [sigs] gives the signature of
    every operation; [n] is the next unused copy number, so that [below n t] says that
    fresh variables made from now on do not occur in [t]. *)
From Coq Require Import List ZArith String Bool Arith Lia.
From Verif Require Import TermModel TermSpec TermProofs TermScopes TermData TermEval TermSubst TermUser TermFvs TermBeta TermTrace TermRun TermExamples.
Import ListNotations.
Open Scope string_scope.
Open Scope list_scope.

(** *** C14 *)

(** Free variables of a constructed term: the operation, and for each argument its
    free variables except those in whose scope it is. Missing: arguments with
    operations inside sets ([walkable]). *)
Theorem C14_construct_free_variables_partial :
  forall sigs, (forall b, wf_sig (sigs b)) ->
  forall o a k n t n', NoDup (map fst k) ->
  (forall e, from (sigs (base o)) a k e -> walkable e = true /\ below n e) ->
  defdata sigs o a k n = Ok (t, n') ->
  exists b, bind (sigs (base o)) a k = Ok b /\
    let s := sigs (base o) in
    let sl := slots s (args_of s b) (kwargs_of s b) in
    forall v, In v (fv sigs t) <->
      v = o \/ exists x, In x sl /\ In v (fv sigs (snd x)) /\ ~ In v (scope s sl (fst x)).
Proof. exact construct_fv. Qed.
Print Assumptions C14_construct_free_variables_partial.

(** [let(x, x(), pair(x(), y()))]: the [x] in the definition stays free, the one in
    the body does not. *)
Example C14_example :
  exists t n', defdata ex_sigs let_op [EOp x; var x; pair (var x) (var y)] [] 1 = Ok (t, n') /\
    (forall e, from let_sig [EOp x; var x; pair (var x) (var y)] [] e -> walkable e = true /\ below 1 e) /\
    fv ex_sigs t = [let_op; x; pair_op; y].
Proof.
  eexists. eexists. split; [vm_compute; reflexivity|]. split; [|vm_compute; reflexivity].
  intros e [He|[He|(p & Hp & Hd)]].
  - cbn in He. destruct He as [<-|[<-|[<-|[]]]]; (split; [reflexivity|]); intros v Hv; cbn in Hv; intuition (subst; cbn; lia).
  - destruct He.
  - cbn in Hp. destruct Hp as [<-|[<-|[<-|[<-|[]]]]]; cbn in Hd; try discriminate Hd. inversion Hd; subst.
    split; [reflexivity|intros v []].
Qed.

(** [sum({x}, x())]: the variable of the body is renamed but not in the set, so the
    term has a free variable that none of the arguments has. *)
Theorem C14_set_of_binders_refuted :
  exists sigs o a n t n' v, (forall b, wf_sig (sigs b)) /\ (forall e, In e a -> below n e) /\
    defdata sigs o a [] n = Ok (t, n') /\ v <> o /\
    In v (fv sigs t) /\ forall e, In e a -> ~ In v (ops e).
Proof.
  exists ex_sigs, sum_op, [EColl KSet [EOp x]; var x], 1. eexists. eexists. exists (mkop 5 1).
  split; [exact ex_wf|]. split; [|split; [vm_compute; reflexivity|split; [discriminate|split; [right; left; reflexivity|]]]].
  - intros e He v Hv. cbn in He. intuition subst; cbn in Hv; intuition (subst; cbn; lia).
  - intros e He Hv. cbn in He. intuition subst; cbn in Hv; intuition discriminate.
Qed.
Print Assumptions C14_set_of_binders_refuted.

(** *** C15 *)

(** The constructed term equals, up to bound names and in every naming context, the
    naive application to the bound arguments (with defaults); its binders are
    copies of the given ones with numbers that were unused before. *)
Theorem C15_construct_alpha_fresh_partial :
  forall sigs, (forall b, wf_sig (sigs b)) ->
  forall o a k n t n', NoDup (map fst k) ->
  (forall e, from (sigs (base o)) a k e -> walkable e = true /\ below n e) ->
  defdata sigs o a k n = Ok (t, n') ->
  let s := sigs (base o) in
  exists b, bind s a k = Ok b /\
    let a0 := args_of s b in let k0 := kwargs_of s b in
    (forall m, canon sigs m t = canon sigs m (ETerm o a0 k0)) /\
    (exists a1 k1, t = ETerm o a1 k1 /\ List.length a1 = List.length a0 /\ map fst k1 = map fst k0 /\
       map base (binders s (slots s a1 k1)) = map base (binders s (slots s a0 k0)) /\
       forall x, In x (binders s (slots s a1 k1)) -> n <= copy x < n').
Proof. exact construct_spec. Qed.
Print Assumptions C15_construct_alpha_fresh_partial.

(** Terms a program reaches by construction and evaluation: free operations are its
    own, bound ones generated, all below the counter. *)
Theorem C15_reachable_hygiene :
  forall sigs, (forall b, wf_sig (sigs b)) ->
  (forall b p e, In p (params (sigs b)) -> dflt p = Some e -> user sigs 1 e) ->
  forall n t, reach sigs n t ->
  (forall v, In v (fvo sigs t) -> copy v = 0) /\ (forall v, In v (bv sigs t) -> copy v <> 0) /\ below n t.
Proof. exact (fun sigs H1 H2 n t H => match @reach_user sigs H1 H2 n t H with conj _ u => conj (@us_fvo _ _ _ u) (conj (@us_bv _ _ _ u) (@us_below _ _ _ u)) end). Qed.
Print Assumptions C15_reachable_hygiene.

(** Two [let] terms nested: three arguments each, default filled in, binders 2 and 1. *)
Example C15_example :
  reach ex_sigs 3 (ETerm let_op [EOp (mkop 5 2); var y;
     ETerm let_op [EOp (mkop 6 1); var (mkop 5 2); pair (var (mkop 5 2)) (var (mkop 6 1))] [("tag", EConst 1)]] [("tag", EConst 1)]).
Proof.
  assert (V : forall n o, 1 <= n -> copy o = 0 -> 4 <= base o -> reach ex_sigs n (var o)).
  { intros n [b c] Hn Ho Hb. cbn in Ho, Hb. subst c. eapply RCall with (n := n) (o := mkop b 0) (a := []) (k := []); [exact Hn|reflexivity|constructor|intros e []|].
    do 4 (destruct b as [|b]; [lia|]). unfold defdata. cbn. f_equal. f_equal. lia. }
  assert (P : reach ex_sigs 1 (pair (var x) (var y))).
  { apply RCall with (n := 1) (o := pair_op) (a := [var x; var y]) (k := []); [lia|reflexivity|constructor| |vm_compute; reflexivity].
    intros e He. cbn in He. intuition subst; apply V; cbn; lia. }
  assert (I : reach ex_sigs 2 (ETerm let_op [EOp (mkop 6 1); var x; pair (var x) (var (mkop 6 1))] [("tag", EConst 1)])).
  { apply RCall with (n := 1) (o := let_op) (a := [EOp y; var x; pair (var x) (var y)]) (k := []); [lia|reflexivity|constructor| |vm_compute; reflexivity].
    intros e He. cbn in He. destruct He as [<-|[<-|[<-|[]]]]; [apply ROp; [lia|reflexivity]|apply V; cbn; lia|exact P]. }
  apply RCall with (n := 2) (o := let_op) (a := [EOp x; var y; ETerm let_op [EOp (mkop 6 1); var x; pair (var x) (var (mkop 6 1))] [("tag", EConst 1)]]) (k := []);
    [lia|reflexivity|constructor| |vm_compute; reflexivity].
  intros e He. cbn in He. destruct He as [<-|[<-|[<-|[]]]]; [apply ROp; [lia|reflexivity]|apply V; cbn; lia|exact I].
Qed.

(** A set of binders: the term is not the naive application up to bound names. *)
Theorem C15_set_of_binders_refuted :
  exists sigs o a n t n', (forall b, wf_sig (sigs b)) /\ (forall e, In e a -> below n e) /\
    defdata sigs o a [] n = Ok (t, n') /\ ~ alpha sigs t (ETerm o a []).
Proof.
  exists ex_sigs, sum_op, [EColl KSet [EOp x]; var x], 1. eexists. eexists.
  split; [exact ex_wf|]. split; [|split; [vm_compute; reflexivity|vm_compute; discriminate]].
  intros e He v Hv. cbn in He. intuition subst; cbn in Hv; intuition (subst; cbn; lia).
Qed.
Print Assumptions C15_set_of_binders_refuted.

(** *** C16 *)

(** Handlers for variables of the program, returning terms of the program. *)
Theorem C16_capture_avoiding_partial :
  forall sigs, (forall b, wf_sig (sigs b)) ->
  forall h n t, 1 <= n -> user sigs n t -> user_env sigs h n ->
  exists t' n', eval_under sigs h t n = Ok (t', n') /\ n <= n' /\ user sigs n' t' /\
    canon sigs no_names t' = csubst (hc sigs h) (canon sigs no_names t).
Proof. exact user_subst. Qed.
Print Assumptions C16_capture_avoiding_partial.

(** More generally for any term no bound variable of which is replaced or is free in
    a replacement. *)
Theorem C16_capture_avoiding_general_partial :
  forall sigs, (forall b, wf_sig (sigs b)) ->
  forall h t, wf sigs t -> (forall x, In x (bv sigs t) -> avoids sigs h x) ->
  forall n, henv sigs h n -> below n t ->
  exists t' n', eval_under sigs h t n = Ok (t', n') /\ n <= n' /\ evals sigs h n n' t t'.
Proof. exact eval_subst. Qed.
Print Assumptions C16_capture_avoiding_general_partial.

(** A handler without parameters cannot be used on an operation applied to arguments. *)
Theorem C16_handler_arity :
  forall sigs h o v (a : args) (k : kwargs) n a' k' n1 n2, h o = Some v -> a <> [] \/ k <> [] ->
  mapm (eval_under sigs h) a n = Ok (a', n1) -> mapk (eval_under sigs h) k n1 = Ok (k', n2) ->
  eval_under sigs h (ETerm o a k) n = Err ECall.
Proof. exact handler_arity. Qed.
Print Assumptions C16_handler_arity.

Example C16_handler_arity_example :
  eval_under ex_sigs (lookup_sub [(pair_op, EConst 0)]) (pair (var x) (EConst 1)) 1 = Err ECall.
Proof. reflexivity. Qed.

(** [y := x()] in [deffn(pair(x(), y()), x)] (already renamed to copy 1). *)
Example C16_example :
  let t := fst (ok (defdata ex_sigs deffn_op [pair (var x) (var y); EOp x] [] 1)) in
  let h := lookup_sub [(y, var x)] in
  user_env ex_sigs h 2 /\
  exists t', eval_under ex_sigs h t 2 = Ok (t', 3) /\
    t' = ETerm deffn_op [pair (var (mkop 5 2)) (var x); EOp (mkop 5 2)] [].
Proof.
  cbv zeta. split.
  - intros o v H. apply lookup_sub_in in H. destruct H as [H|[]]. inversion H; subst.
    split; [reflexivity|]. split; [reflexivity|]. split; [apply user_v; cbn; lia|reflexivity].
  - eexists. split; vm_compute; reflexivity.
Qed.

(** The body of [f(f)] for [f = deffn(deffn(pair(y(), z()), z), y)], evaluated with its
    variable handled: occurrences bound inside the copy of [f] are replaced too. *)
Theorem C16_shadowed_refuted :
  exists sigs t x n t' n', (forall b, wf_sig (sigs b)) /\ below n t /\ nullary sigs x /\
    eval_under sigs (lookup_sub [(x, EConst 5)]) t n = Ok (t', n') /\
    canon sigs no_names t' <> csubst (hc sigs (lookup_sub [(x, EConst 5)])) (canon sigs no_names t).
Proof.
  exists ex_sigs, (match fst f_self with ETerm _ (b :: _) _ => b | e => e end), (mkop 7 3), 4. eexists. eexists.
  split; [exact ex_wf|]. split; [|split; [reflexivity|split; [vm_compute; reflexivity|vm_compute; discriminate]]].
  intros v Hv. vm_compute in Hv. intuition (subst; cbn; lia).
Qed.
Print Assumptions C16_shadowed_refuted.

(** *** C17 *)

Theorem C17_fvsof_reachable_partial :
  forall sigs, (forall b, wf_sig (sigs b)) ->
  (forall b p e, In p (params (sigs b)) -> dflt p = Some e -> user sigs 1 e) ->
  forall n t, reach sigs n t ->
  exists l, fvsof sigs t n = Ok l /\ forall v, In v l <-> In v (fv sigs t).
Proof. exact fvsof_reach. Qed.
Print Assumptions C17_fvsof_reachable_partial.

(** For any term: nothing that is not free is reported, and only names that are also
    bound somewhere can be missing. *)
Theorem C17_fvsof_bounds_partial :
  forall sigs, (forall b, wf_sig (sigs b)) -> forall t n, wf sigs t -> below n t ->
  exists l, fvsof sigs t n = Ok l /\
    (forall v, In v l -> In v (fv sigs t)) /\
    (forall v, In v (fv sigs t) -> ~ In v (bv sigs t) -> In v l).
Proof. exact fvsof_bounds. Qed.
Print Assumptions C17_fvsof_bounds_partial.

(** The term of [C15_example], reached by a program: binders [x'] and [y'] are not
    reported, the free [y] is. *)
Example C17_example :
  let t := ETerm let_op [EOp (mkop 5 2); var y;
     ETerm let_op [EOp (mkop 6 1); var (mkop 5 2); pair (var (mkop 5 2)) (var (mkop 6 1))] [("tag", EConst 1)]] [("tag", EConst 1)] in
  reach ex_sigs 3 t /\ exists l, fvsof ex_sigs t 3 = Ok l /\ forall v, In v l <-> v = let_op \/ v = y \/ v = pair_op.
Proof.
  split; [exact C15_example|]. eexists. split; [vm_compute; reflexivity|]. intros v. cbn. intuition.
Qed.

(** [pair(f.args[0], f)] with [f = deffn(x(), x)]: the bound variable of [f] is free in
    the first component and missing from the result. *)
Theorem C17_fvsof_opened_refuted :
  exists sigs t n l v, (forall b, wf_sig (sigs b)) /\ below n t /\ fvsof sigs t n = Ok l /\
    In v (fv sigs t) /\ ~ In v l.
Proof.
  exists ex_sigs, (pair (var (mkop 5 1)) (fst (ok (defdata ex_sigs deffn_op [var x; EOp x] [] 1)))), 2. eexists. exists (mkop 5 1).
  split; [exact ex_wf|]. split; [intros v Hv; vm_compute in Hv; intuition (subst; cbn; lia)|]. split; [vm_compute; reflexivity|].
  split; [vm_compute; auto|]. intros H. vm_compute in H. intuition discriminate.
Qed.
Print Assumptions C17_fvsof_opened_refuted.

(** *** C18 *)

(** A function just built from variables of the program, applied with the right
    arguments, is the body with its variables replaced. *)
Theorem C18_beta_partial :
  forall sigs, (forall b, wf_sig (sigs b)) -> forall d, sigs (base d) = deffn_sig ->
  forall body (xs : list op) (kn : list string) (ys : list op) n,
  1 <= n -> user sigs n body -> extract body = [] -> NoDup (xs ++ ys) ->
  (forall x, In x (xs ++ ys) -> copy x = 0 /\ nullary sigs x /\ ~ In x (fval sigs body)) ->
  List.length kn = List.length ys -> NoDup kn -> ~ In "body"%string kn ->
  exists f n1, defdata sigs d (body :: map EOp xs) (kwvars kn ys) n = Ok (f, n1) /\ n <= n1 /\
  forall (vs : list expr) (kws : kwargs) n2, n1 <= n2 ->
  List.length vs = List.length xs -> NoDup (map fst kws) -> (forall name, In name (map fst kws) <-> In name kn) ->
  (forall e, In e (vs ++ map snd kws) -> user sigs n2 e /\ extract e = []) ->
  exists t n3, call_deffn sigs d f vs kws n2 = Some (Ok (t, n3)) /\ n2 <= n3 /\ user sigs n3 t /\
    canon sigs no_names t = csubst (hc sigs (lookup_sub (applied xs kn ys vs kws))) (canon sigs no_names body).
Proof. exact apply_fresh. Qed.
Print Assumptions C18_beta_partial.

(** Any function term whose variables are not bound again in its body, applied to
    values that avoid the bound variables of the body. *)
Theorem C18_beta_general_partial :
  forall sigs, (forall b, wf_sig (sigs b)) -> forall d,
  forall body (xs : list op) (kn : list string) (ys : list op) (vs : list expr) (kws : kwargs) n,
  wf sigs body -> below n body -> NoDup (xs ++ ys) ->
  (forall x, In x (xs ++ ys) -> nullary sigs x /\ ~ In x (bv sigs body)) ->
  List.length kn = List.length ys -> NoDup kn ->
  List.length vs = List.length xs -> NoDup (map fst kws) -> (forall name, In name (map fst kws) <-> In name kn) ->
  (forall e, In e (vs ++ map snd kws) -> wf sigs e /\ below n e /\ extract e = [] /\
     forall x, In x (bv sigs body) -> ~ In x (fvo sigs e)) ->
  exists t n', call_deffn sigs d (ETerm d (body :: map EOp xs) (kwvars kn ys)) vs kws n = Some (Ok (t, n')) /\
    canon sigs no_names t = csubst (hc sigs (lookup_sub (applied xs kn ys vs kws))) (canon sigs no_names body).
Proof. exact apply_open_canon. Qed.
Print Assumptions C18_beta_general_partial.

(** An unknown keyword is rejected. *)
Theorem C18_unknown_keyword_rejected :
  forall sigs d body vars kv a k n name, In name (map fst k) -> ~ In name (map fst kv) ->
  call_deffn sigs d (ETerm d (body :: vars) kv) a k n = Some (Err EBind).
Proof. exact unknown_keyword. Qed.
Print Assumptions C18_unknown_keyword_rejected.

(** [deffn(pair(x(), deffn(pair(x(), z()), z)), x, k=y)(z(), k=2)] *)
Example C18_example :
  let body := pair (var x) (pair (var y) (fst (ok (defdata ex_sigs deffn_op [pair (var x) (var z); EOp z] [] 1)))) in
  let f := ok (defdata ex_sigs deffn_op [body; EOp x] [("k", EOp y)] 2) in
  call_deffn ex_sigs deffn_op (fst f) [var z] [("k", EConst 2)] (snd f) =
  Some (Ok (pair (var z) (pair (EConst 2) (ETerm deffn_op [pair (var z) (var (mkop 7 4)); EOp (mkop 7 4)] [])), 5)).
Proof. vm_compute. reflexivity. Qed.

(** A function obtained by applying a function: [f(f)(5)]. *)
Theorem C18_self_application_refuted :
  exists sigs d f n1 g n2 body x t n3, (forall b, wf_sig (sigs b)) /\ sigs (base d) = deffn_sig /\
    reach sigs n1 f /\
    call_deffn sigs d f [f] [] n1 = Some (Ok (g, n2)) /\ g = ETerm d [body; EOp x] [] /\
    call_deffn sigs d g [EConst 5] [] n2 = Some (Ok (t, n3)) /\
    canon sigs no_names t <> csubst (hc sigs (lookup_sub (applied [x] [] [] [EConst 5] []))) (canon sigs no_names body).
Proof.
  exists ex_sigs, deffn_op, (fst f_out), (snd f_out), (fst f_self), (snd f_self). do 4 eexists.
  split; [exact ex_wf|]. split; [reflexivity|]. split; [|split; [vm_compute; reflexivity|split; [vm_compute; reflexivity|split; [vm_compute; reflexivity|vm_compute; discriminate]]]].
  assert (V : forall n o, 1 <= n -> copy o = 0 -> 4 <= base o -> reach ex_sigs n (var o)).
  { intros n [b c] Hn Ho Hb. cbn in Ho, Hb. subst c. eapply RCall with (n := n) (o := mkop b 0) (a := []) (k := []); [exact Hn|reflexivity|constructor|intros e []|].
    do 4 (destruct b as [|b]; [lia|]). unfold defdata. cbn. f_equal. f_equal. lia. }
  apply RCall with (n := snd f_in) (o := deffn_op) (a := [fst f_in; EOp y]) (k := []); [cbn; lia|reflexivity|constructor| |vm_compute; reflexivity].
  intros e He. cbn [In List.app map] in He. destruct He as [<-|[<-|[]]]; [|apply ROp; [cbn; lia|reflexivity]].
  apply RCall with (n := 1) (o := deffn_op) (a := [pair (var y) (var z); EOp z]) (k := []); [lia|reflexivity|constructor| |vm_compute; reflexivity].
  intros e He. cbn [In List.app map] in He. destruct He as [<-|[<-|[]]]; [|apply ROp; [lia|reflexivity]].
  apply RCall with (n := 1) (o := pair_op) (a := [var y; var z]) (k := []); [lia|reflexivity|constructor| |vm_compute; reflexivity].
  intros e He. cbn in He. intuition subst; apply V; cbn; lia.
Qed.
Print Assumptions C18_self_application_refuted.

(** Surplus positional arguments are dropped, missing ones leave the bound variable
    free in the result. *)
Theorem C18_arity_refuted :
  exists sigs d f n x, (forall b, wf_sig (sigs b)) /\ sigs (base d) = deffn_sig /\
    (exists body, defdata sigs d [body; EOp x] [] 1 = Ok (f, n)) /\
    (exists t n', call_deffn sigs d f [EConst 1; EConst 2] [] n = Some (Ok (t, n'))) /\
    (exists t n' v, call_deffn sigs d f [] [] n = Some (Ok (t, n')) /\ In v (fv sigs t) /\ ~ In v (fv sigs f) /\ base v = base x).
Proof.
  exists ex_sigs, deffn_op, (fst (ok (defdata ex_sigs deffn_op [var x; EOp x] [] 1))), 2, x.
  split; [exact ex_wf|]. split; [reflexivity|]. split; [exists (var x); vm_compute; reflexivity|].
  split; [eexists; eexists; vm_compute; reflexivity|]. eexists. eexists. exists (mkop 5 1).
  split; [vm_compute; reflexivity|]. split; [left; reflexivity|]. split; [|reflexivity].
  intros H. vm_compute in H. intuition discriminate.
Qed.
Print Assumptions C18_arity_refuted.

(** A bound variable used as a value is not replaced: it is free in the result. *)
Theorem C18_variable_as_value_refuted :
  exists sigs d f n x t n' v, (forall b, wf_sig (sigs b)) /\ sigs (base d) = deffn_sig /\
    (exists body, extract body = [] /\ defdata sigs d [body; EOp x] [] 1 = Ok (f, n)) /\
    call_deffn sigs d f [EConst 1] [] n = Some (Ok (t, n')) /\ In v (fvo sigs t) /\ ~ In v (fvo sigs f).
Proof.
  exists ex_sigs, deffn_op, (fst (ok (defdata ex_sigs deffn_op [pair (EOp x) (EConst 0); EOp x] [] 1))), 2, x. do 2 eexists. exists (mkop 5 1).
  split; [exact ex_wf|]. split; [reflexivity|]. split; [exists (pair (EOp x) (EConst 0)); split; [reflexivity|vm_compute; reflexivity]|].
  split; [vm_compute; reflexivity|]. split; [right; left; reflexivity|]. intros H. vm_compute in H. intuition discriminate.
Qed.
Print Assumptions C18_variable_as_value_refuted.

(** An operation as the body counts as bound by [deffn] itself: the function returns
    a new operation instead of the given one, and [deffn(x, x)] is rejected. *)
Theorem C18_operation_body_refuted :
  exists sigs d f n t n' o x, (forall b, wf_sig (sigs b)) /\ sigs (base d) = deffn_sig /\ o <> x /\
    defdata sigs d [EOp o; EOp x] [] 1 = Ok (f, n) /\
    call_deffn sigs d f [EConst 1] [] n = Some (Ok (t, n')) /\ t <> EOp o /\
    defdata sigs d [EOp x; EOp x] [] 1 = Err EAssert.
Proof.
  exists ex_sigs, deffn_op. do 4 eexists. exists y, x. split; [exact ex_wf|]. split; [reflexivity|]. split; [discriminate|].
  split; [vm_compute; reflexivity|]. split; [vm_compute; reflexivity|]. split; [discriminate|vm_compute; reflexivity].
Qed.
Print Assumptions C18_operation_body_refuted.

(** *** C19 *)

Theorem C19_evaluate_identity :
  forall sigs, (forall b, wf_sig (sigs b)) -> forall n t, wf sigs t -> below n t ->
  exists t' n', eval_under sigs (fun _ => None) t n = Ok (t', n') /\ alpha sigs t' t /\
    forall v, In v (fv sigs t') <-> In v (fv sigs t).
Proof. exact eval_identity_fv. Qed.
Print Assumptions C19_evaluate_identity.

Example C19_example : wf ex_sigs (fst f_self) /\ below 4 (fst f_self) /\
  exists t', eval_under ex_sigs (fun _ => None) (fst f_self) 4 = Ok (t', 7) /\ t' <> fst f_self.
Proof.
  split; [|split; [intros v Hv; vm_compute in Hv; intuition (subst; cbn; lia)|eexists; split; [vm_compute; reflexivity|vm_compute; discriminate]]].
  vm_compute fst. repeat (econstructor; try (vm_compute; reflexivity)); try (vm_compute; lia); try discriminate; try (intros ? []).
Qed.

(** *** C20 *)

(** For every effect of operations on a state, and with exceptions. *)
Theorem C20_evaluation_order :
  forall St (look : op -> op) (app : op -> args -> kwargs -> St -> res (expr * St)) t s r,
  evaluate look app t s = r <-> runs look app t s r.
Proof. exact evaluate_iff. Qed.
Print Assumptions C20_evaluation_order.

(** Operations interpreted by any function, with a log of the calls. *)
Theorem C20_homomorphism :
  forall look F t l, evaluate look (logged F) t l = Ok (hom look F t, l ++ calls look F t).
Proof. exact evaluate_log. Qed.
Print Assumptions C20_homomorphism.

Example C20_example :
  map (fun c => fst (fst c)) (calls (fun o => o) (fun o a k => EConst (Z.of_nat (base o)))
    (EColl KList [ETerm let_op [EOp x; var y; pair (var x) (var z)] [("tag", var y)]; EColl KSet [var x]]))
  = [y; x; z; pair_op; y; let_op].
Proof. reflexivity. Qed.

(** *** C21 *)

(** After inference: the scopes of the parameters and of the result contain what was
    declared, and have a common type variable; whatever is common to all is in each. *)
Theorem C21_inferred_scopes :
  forall s o, In o (ordinals s) ->
  (forall n, In n o -> In (TV n) (infer_ord s o)) /\
  exists r, forall o', In o' (ordinals s) -> In r (infer_ord s o').
Proof. exact inferred_scopes. Qed.
Print Assumptions C21_inferred_scopes.

(** With the inferred scopes, the variables bound in an argument for [p] are those of
    the parameters whose declared scope is included in [p]'s and not in the result's. *)
Theorem C21_binding_relation :
  forall s p b B, In p (params s) -> analyze s (infer_ord s (ord p)) b [] = Ok B -> forall x,
  In x B <-> exists q v, In (q, v) b /\
    (incl (ord q) (ord p) /\ ~ incl (ord q) (ret s)) /\ In x (flat_map (ops_of q) (vals v)).
Proof. exact analyze_declared. Qed.
Print Assumptions C21_binding_relation.

(** What inference adds is only the root: declared variables common to all scopes, or
    one new variable when there are none. *)
Theorem C21_root :
  forall s x, (forall o, In o (ordinals s) -> In x (infer_ord s o)) <->
  In x (match root_ordinal s with [] => [Root] | r => map TV r end).
Proof. exact infer_root. Qed.
Print Assumptions C21_root.

(** A signature whose binder is visible in the result, but not in every scope, is
    rejected. *)
Theorem C21_binder_in_result_rejected :
  forall s a k p, In p (params s) -> isvar p = true -> incl (ord p) (ret s) ->
  (exists x, In x (ord p) /\ exists o, In o (ordinals s) /\ ~ In x o) -> fvs_rule s a k = Err EAssert.
Proof. exact bad_result_scope. Qed.
Print Assumptions C21_binder_in_result_rejected.

Example C21_rejected_example :
  let p := mkparam "v" true [0] None in
  let s := mksig [p; plain_p "b"] [] None [] None [0; 1] in
  In p (params s) /\ incl (ord p) (ret s) /\ In 0 (ord p) /\ In [] (ordinals s).
Proof. cbn. intuition. Qed.

Example C21_example :
  map (infer_ord let_sig) (ordinals let_sig) =
    [[TV 1; Root]; [TV 0; Root]; [TV 1; Root]; [TV 0; TV 1; Root]; [TV 1; Root]] /\
  map (fun q => map (fun p => binds_in let_sig q p) (params let_sig)) (params let_sig) =
    [[true; false; true; false]; [false; false; false; false]; [false; false; true; false]; [false; false; false; false]].
Proof. split; reflexivity. Qed.

(** *** C45 *)

(** [trace(f)] applied with every positional parameter given by position and every
    keyword-only one by keyword. *)
Theorem C45_trace_agrees_partial :
  forall sigs, (forall b, wf_sig (sigs b)) -> forall d, sigs (base d) = deffn_sig ->
  forall f n new, plain sigs f n -> 1 <= n ->
  NoDup (pvars new (params (fsig f))) ->
  (forall p, In p (params (fsig f)) -> copy (new (pname p)) = 0 /\ nullary sigs (new (pname p)) /\ ~ In (new (pname p)) (fvo sigs (fbody f))) ->
  exists F n1, trace sigs d f new n = Ok (F, n1) /\ n <= n1 /\
  forall (vs : args) (kws : kwargs) n2, n1 <= n2 ->
  List.length vs = List.length (poskw (fsig f)) -> NoDup (map fst kws) ->
  (forall name, In name (map fst kws) <-> In name (map pname (kwonly (fsig f)))) ->
  (forall e, In e (vs ++ map snd kws) -> user sigs n2 e /\ extract e = []) ->
  exists t u n3 n4, call_deffn sigs d F vs kws n2 = Some (Ok (t, n3)) /\ call_func sigs f vs kws n2 = Ok (u, n4) /\ alpha sigs t u.
Proof. exact trace_spec. Qed.
Print Assumptions C45_trace_agrees_partial.

Example C45_example : plain ex_sigs ex_func 1 /\ NoDup (pvars ex_new (params (fsig ex_func))) /\
  let F := ok (trace ex_sigs deffn_op ex_func ex_new 1) in
  call_deffn ex_sigs deffn_op (fst F) [EConst 1; var x] [("c", EConst 3)] (snd F) =
  Some (call_func ex_sigs ex_func [EConst 1; var x] [("c", EConst 3)] (snd F)).
Proof.
  split; [exact ex_plain|]. split; [cbn; repeat constructor; cbn; intuition discriminate|vm_compute; reflexivity].
Qed.

(** Passing a positional parameter by keyword works for [f] and fails for [trace(f)];
    leaving out one with a default leaves a generated variable free; a function with a
    positional-only parameter cannot be traced, nor one with a keyword-only parameter
    called [body]. *)
Theorem C45_calling_conventions_refuted :
  exists sigs d f new F n, (forall b, wf_sig (sigs b)) /\ sigs (base d) = deffn_sig /\ plain sigs f 1 /\
    trace sigs d f new 1 = Ok (F, n) /\
    (exists vs kws u n', call_func sigs f vs kws n = Ok (u, n') /\ call_deffn sigs d F vs kws n = Some (Err EBind)) /\
    (exists vs kws u n' t n'', call_func sigs f vs kws n = Ok (u, n') /\ call_deffn sigs d F vs kws n = Some (Ok (t, n'')) /\
       ~ alpha sigs t u /\ exists v, In v (fv sigs t) /\ copy v <> 0).
Proof.
  exists ex_sigs, deffn_op, ex_func, ex_new. do 2 eexists.
  split; [exact ex_wf|]. split; [reflexivity|]. split; [exact ex_plain|]. split; [vm_compute; reflexivity|]. split.
  - exists [EConst 1], [("b", EConst 2); ("c", EConst 3)]. do 2 eexists. split; vm_compute; reflexivity.
  - exists [EConst 1], [("c", EConst 3)]. do 4 eexists. split; [vm_compute; reflexivity|]. split; [vm_compute; reflexivity|]. split; [vm_compute; discriminate|].
    exists (mkop 22 2). split; [vm_compute; auto|discriminate].
Qed.
Print Assumptions C45_calling_conventions_refuted.

Theorem C45_untraceable_refuted :
  exists sigs d new, (forall b, wf_sig (sigs b)) /\ sigs (base d) = deffn_sig /\
    (exists f vs u n', wf_sig (fsig f) /\ call_func sigs f vs [] 1 = Ok (u, n') /\ trace sigs d f new 1 = Err EBind) /\
    (exists f kws u n', wf_sig (fsig f) /\ posonly (fsig f) = [] /\ call_func sigs f [] kws 1 = Ok (u, n') /\ trace sigs d f new 1 = Err EBind).
Proof.
  exists ex_sigs, deffn_op, ex_new. split; [exact ex_wf|]. split; [reflexivity|]. split.
  - exists (mkfunc (mksig [plain_p "a"] [] None [] None []) (fun _ => x) (var x)), [EConst 1]. do 2 eexists.
    split; [unfold wf_sig; cbn; repeat constructor; intros []|]. split; vm_compute; reflexivity.
  - exists (mkfunc (mksig [] [] None [plain_p "body"] None []) (fun _ => x) (var x)), [("body", EConst 1)]. do 2 eexists.
    split; [unfold wf_sig; cbn; repeat constructor; intros []|]. split; [reflexivity|]. split; vm_compute; reflexivity.
Qed.
Print Assumptions C45_untraceable_refuted.
