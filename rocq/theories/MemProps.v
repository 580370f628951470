(** C100: a cached template, or a cached constructor of operations, answers a call as the
    same call was first answered. *)
From Coq Require Import ZArith String List Bool Lia.
From Verif Require Import MemModel MemSpec MemProofs MemLaws.
Import ListNotations.
Open Scope string_scope.
Open Scope list_scope.

Definition fish : value := VStr "fish".
Definition haiku (n : nat) : value := VObj n.

(** Keys are found equal exactly for the same call: equal positional arguments, equal
    keyword arguments under the same names in the same order, and both or neither a lone
    integer or string. *)
Theorem C100_keys : forall args1 kwds1 args2 kwds2,
  key_eq (make_key args1 kwds1) (make_key args2 kwds2) = true <-> same_call args1 kwds1 args2 kwds2.
Proof. exact key_spec. Qed.
Print Assumptions C100_keys.

Example C100_keys_example :
  same_call [VInt 2; VInt 1] [("x", fish)] [VInt 2; VFloat 2] [("x", fish)] /\
  ~ same_call [VInt 1] [] [VFloat 2] [].
Proof.
  split; [apply key_spec; reflexivity|]. intros H. apply key_spec in H. vm_compute in H. discriminate.
Qed.

(** Whatever runs gives its own answer; whatever does not run gives the answer of an
    earlier run of the same call, unless its arguments cannot be hashed. *)
Theorem C100_answers : forall l c log, session l empty = (c, log) ->
  forall i e, nth_error log i = Some e ->
  (exists t, In t l /\ exists w, within w t /\ args_of w = eargs e /\ kwds_of w = ekwds e /\
     (ran e = true -> gave e = ending_of w)) /\
  (ran e = false ->
   (hashes (eargs e) (ekwds e) = false /\ exists x, gave e = Raised x) \/
   exists v e', gave e = Returned v /\ In e' (firstn i log) /\ ran e' = true /\ gave e' = Returned v /\ same_event e' e).
Proof. exact sessions_answers. Qed.
Print Assumptions C100_answers.

(** a call that raises, a run, a call of another template within, and a repeated call *)
Definition afternoon : list call :=
  [Call [fish] [] [] (Raised "ConnectionError");
   Call [VStr "pond"] [] [Call [fish] [] [] (Returned (haiku 1))] (Returned (haiku 2));
   Call [fish] [] [] (Returned (haiku 3))].

Example C100_answers_example : snd (session afternoon empty) =
  [Event [fish] [] true (Raised "ConnectionError"); Event [fish] [] true (Returned (haiku 1));
   Event [VStr "pond"] [] true (Returned (haiku 2)); Event [fish] [] false (Returned (haiku 1))].
Proof. reflexivity. Qed.

(** If no call is made again while it runs, a call that has returned returns the same
    ever after, without running. *)
Theorem C100_once : forall l c log, (forall t, In t l -> not_reentrant t) -> session l empty = (c, log) ->
  forall i j e e' v, i < j -> nth_error log i = Some e -> nth_error log j = Some e' -> same_event e e' ->
  gave e = Returned v -> gave e' = Returned v /\ ran e' = false.
Proof. exact sessions_once. Qed.
Print Assumptions C100_once.

Example C100_once_example : (forall t, In t afternoon -> not_reentrant t) /\
  exists e e', nth_error (snd (session afternoon empty)) 1 = Some e /\
    nth_error (snd (session afternoon empty)) 3 = Some e' /\ same_event e e' /\ gave e = Returned (haiku 1).
Proof.
  split.
  - intros t [<-|[<-|[<-|[]]]] u t' w U I W.
    + inversion U; subst; [destruct I | match goal with H : In _ [] |- _ => destruct H end].
    + inversion U as [|? t'' ? ? ? ? Hi Hu]; subst.
      * destruct I as [<-|[]]. inversion W; subst; [|match goal with H : In _ [] |- _ => destruct H end].
        intros Sc. apply key_spec in Sc. vm_compute in Sc. discriminate.
      * destruct Hi as [<-|[]]. inversion Hu; subst; [destruct I | match goal with H : In _ [] |- _ => destruct H end].
    + inversion U; subst; [destruct I | match goal with H : In _ [] |- _ => destruct H end].
  - do 2 eexists. split; [reflexivity|]. split; [reflexivity|]. split; [apply key_spec; reflexivity | reflexivity].
Qed.

(** Exceptions are not kept: until the same call has returned, it runs. *)
Theorem C100_runs : forall l c log, session l empty = (c, log) ->
  forall i e, nth_error log i = Some e -> hashes (eargs e) (ekwds e) = true ->
  (forall e' v, In e' (firstn i log) -> same_event e' e -> gave e' <> Returned v) -> ran e = true.
Proof. exact sessions_runs. Qed.
Print Assumptions C100_runs.

Example C100_runs_example : exists e, nth_error (snd (session afternoon empty)) 1 = Some e /\
  hashes (eargs e) (ekwds e) = true /\
  (forall e' v, In e' (firstn 1 (snd (session afternoon empty))) -> same_event e' e -> gave e' <> Returned v).
Proof.
  eexists. split; [reflexivity|]. split; [reflexivity|]. intros e' v [<-|[]] _. discriminate.
Qed.

(** Arguments cannot be hashed if a list is among them or within a tuple among them. *)
Theorem C100_hashes : forall args kwds, hashes args kwds = false <->
  exists v, (In v args \/ In v (map snd kwds)) /\ has_list v.
Proof. exact hashes_spec. Qed.
Print Assumptions C100_hashes.

Example C100_hashes_example : has_list (VTuple [fish; VList []]) /\ ~ has_list (VTuple [fish; VTuple []]).
Proof. split; [apply hashable_spec; reflexivity | intros H; apply hashable_spec in H; discriminate]. Qed.

(** Arguments that cannot be hashed are refused before anything runs. *)
Theorem C100_unhashable : forall l c c' log, session l c = (c', log) ->
  forall e, In e log -> hashes (eargs e) (ekwds e) = false -> ran e = false /\ exists x, gave e = Raised x.
Proof. exact hashes_refused. Qed.
Print Assumptions C100_unhashable.

Example C100_unhashable_example : hashes [VTuple [fish; VList []]] [] = false.
Proof. reflexivity. Qed.

(** [name_to_sym] gives the same operation for the same name and different operations for
    different names. *)
Theorem C100_names : forall names c log, session (name_calls 0 names) empty = (c, log) ->
  length log = length names /\
  forall i j s s' e e', nth_error names i = Some s -> nth_error names j = Some s' ->
  nth_error log i = Some e -> nth_error log j = Some e' -> (gave e = gave e' <-> s = s').
Proof. exact names_same. Qed.
Print Assumptions C100_names.

Example C100_names_example : map gave (snd (session (name_calls 0 ["T"; "X"; "T"]) empty)) =
  [Returned (VObj 0); Returned (VObj 1); Returned (VObj 0)].
Proof. reflexivity. Qed.

(** Arguments that are equal but print differently share an answer. *)
Theorem C100_numbers_refuted : exists args1 args2 v w c log,
  args1 <> args2 /\ v <> w /\
  session [Call args1 [] [] (Returned v); Call args2 [] [] (Returned w)] empty = (c, log) /\
  nth_error log 1 = Some (Event args2 [] false (Returned v)).
Proof.
  exists [VStr "lines"; VInt 1], [VStr "lines"; VBool true], (haiku 1), (haiku 2). do 2 eexists.
  split; [discriminate|]. split; [discriminate|]. split; reflexivity.
Qed.
Print Assumptions C100_numbers_refuted.

(** An argument given by position and the same given by name are different calls. *)
Theorem C100_spelling_refuted : exists name arg v w c log,
  v <> w /\
  session [Call [arg] [] [] (Returned v); Call [] [(name, arg)] [] (Returned w)] empty = (c, log) /\
  map gave log = [Returned v; Returned w].
Proof. exists "theme", fish, (haiku 1), (haiku 2). do 2 eexists. split; [discriminate|]. split; reflexivity. Qed.
Print Assumptions C100_spelling_refuted.

(** So are the same keyword arguments in another order. *)
Theorem C100_order_refuted : exists a x b y v w c log,
  v <> w /\
  session [Call [] [(a, x); (b, y)] [] (Returned v); Call [] [(b, y); (a, x)] [] (Returned w)] empty = (c, log) /\
  map gave log = [Returned v; Returned w].
Proof.
  exists "theme", fish, "lines", (VInt 3), (haiku 1), (haiku 2). do 2 eexists.
  split; [discriminate|]. split; reflexivity.
Qed.
Print Assumptions C100_order_refuted.

(** A template called once without a provider gives the term made then, under any
    provider later. *)
Theorem C100_handler_refuted : exists provider arg term c log,
  (forall v, provider v <> VObj term) /\
  session [template_call None term arg; template_call (Some provider) (S term) arg] empty = (c, log) /\
  map gave log = [Returned (VObj term); Returned (VObj term)].
Proof.
  exists (fun _ => VStr "Silent stream below"), fish, 0. do 2 eexists.
  split; [discriminate|]. split; reflexivity.
Qed.
Print Assumptions C100_handler_refuted.

(** A template that calls itself with the same arguments returns one thing inside and
    another ever after. *)
Theorem C100_nested_refuted : exists arg v w c log,
  v <> w /\
  session [Call [arg] [] [Call [arg] [] [] (Returned v); Call [arg] [] [] (Returned v)] (Returned w);
           Call [arg] [] [] (Returned v)] empty = (c, log) /\
  map gave log = [Returned v; Returned v; Returned w; Returned w].
Proof. exists fish, (haiku 1), (haiku 2). do 2 eexists. split; [discriminate|]. split; reflexivity. Qed.
Print Assumptions C100_nested_refuted.

(** A template that takes a list cannot be cached. *)
Theorem C100_lists_refuted : exists arg v c log e,
  session [Call [arg] [] [] (Returned v)] empty = (c, log) /\ map gave log = [Raised e].
Proof. exists (VList [fish]), (haiku 1). do 3 eexists. split; reflexivity. Qed.
Print Assumptions C100_lists_refuted.
