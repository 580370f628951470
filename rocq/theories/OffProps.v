(** C101: what is offered to a model under stacks of LexicalReaders and PythonRepl, while
    it runs code. *)
From Coq Require Import String List Bool Arith Lia.
From Verif Require Import ToolsModel ToolsSpec OffModel OffSpec OffProofs.
Import ListNotations.
Open Scope string_scope.
Open Scope list_scope.

Definition any (n : string) : bool := true.
Definition office : env := [("search", VTool 1); ("limit", VOther true); ("handle", VOther false)].

(** Under any stack of the two handlers, what is offered is exactly: the session's
    exec_code if there is a REPL; the tools found, under their names; and readers of the
    other readable variables if there are readers.  It raises only if an attribute of an
    agent does, or a reader meets a tool that is offered under another name. *)
Theorem C101_exact : forall isidentifier sess e, NoDup (map fst e) -> forall st,
  match collect isidentifier sess st e with
  | Some r => exists d, collect_tools e = Some d /\ NoDup (map fst r) /\
      (forall n o, In (n, o) r <-> offered isidentifier sess st e d n o)
  | None => raising e \/ exists n t d, In Readers st /\ In (n, VTool t) e /\ isidentifier n = true /\
      collect_tools e = Some d /\ forall u, ~ In (n, u) d
  end.
Proof. exact collect_spec. Qed.
Print Assumptions C101_exact.

Example C101_exact_example : NoDup (map fst office) /\
  collect any 9 [Repl; Readers] office = Some [("search", OTool 1); ("limit", OReader); ("exec_code", OTool 9)] /\
  collect any 9 [Readers; Repl] office = Some [("search", OTool 1); ("exec_code", OTool 9); ("limit", OReader)].
Proof.
  split; [|split; reflexivity]. repeat constructor; cbn; intros H; repeat (destruct H as [H|H]; [discriminate|]); exact H.
Qed.

(** Handlers may be installed in any order, and repeatedly. *)
Theorem C101_order : forall isidentifier sess st st' e r r', NoDup (map fst e) ->
  (forall l, In l st <-> In l st') ->
  collect isidentifier sess st e = Some r -> collect isidentifier sess st' e = Some r' ->
  forall n o, In (n, o) r <-> In (n, o) r'.
Proof. exact stacks_same. Qed.
Print Assumptions C101_order.

Example C101_order_example :
  (forall l, In l [Repl; Readers] <-> In l [Readers; Repl; Readers]) /\
  (exists r, collect any 9 [Readers; Repl; Readers] office = Some r).
Proof. split; [intros l; cbn; tauto | eexists; reflexivity]. Qed.

(** With a REPL each request offers what the environment shows at the time: for each name
    what the last snippet bound it to, or what it was before. *)
Theorem C101_rounds : forall isidentifier sess st base l, In Repl st -> NoDup (map fst base) ->
  forall i r, nth_error (rounds isidentifier sess st base None l) i = Some (Some r) ->
  exists e d, (forall n v, In (n, v) e <-> current base (concat (firstn i l)) n v) /\
    collect_tools e = Some d /\ NoDup (map fst r) /\
    forall n o, In (n, o) r <-> offered isidentifier sess st e d n o.
Proof. exact rounds_exact. Qed.
Print Assumptions C101_rounds.

Example C101_rounds_example :
  rounds any 9 [Readers; Repl] office None [[Bind "x" (VOther true); Del "limit"]; [Del "x"]; []] =
  [Some [("search", OTool 1); ("exec_code", OTool 9); ("limit", OReader)];
   Some [("search", OTool 1); ("exec_code", OTool 9); ("limit", OReader); ("x", OReader)];
   Some [("search", OTool 1); ("exec_code", OTool 9); ("limit", OReader)]].
Proof. reflexivity. Qed.

(** Without a REPL every request offers what the environment of the call has. *)
Theorem C101_rounds_alone : forall isidentifier sess st base l, ~ In Repl st -> NoDup (map fst base) ->
  forall i r, nth_error (rounds isidentifier sess st base None l) i = Some (Some r) ->
  exists d, collect_tools base = Some d /\ NoDup (map fst r) /\
    forall n o, In (n, o) r <-> offered isidentifier sess st base d n o.
Proof. exact rounds_alone. Qed.
Print Assumptions C101_rounds_alone.

Example C101_rounds_alone_example :
  rounds any 9 [Readers] office None [[Bind "x" (VOther true)]; []] =
  [Some [("search", OTool 1); ("limit", OReader)]; Some [("search", OTool 1); ("limit", OReader)]].
Proof. reflexivity. Qed.

(** If each tool has one name, and the snippets bind neither tools nor names of tools or
    agents, every request succeeds and offers the same tools. *)
Theorem C101_stable_partial : forall isidentifier sess st base l, NoDup (map fst base) -> In Repl st ->
  Forall (Forall (quiet base)) l -> ~ raising base -> unambiguous base -> one_name base ->
  exists d, collect_tools base = Some d /\ length (rounds isidentifier sess st base None l) = length l /\
  forall i r, nth_error (rounds isidentifier sess st base None l) i = Some r ->
  exists q, r = Some q /\ forall n t, In (n, OTool t) q <->
    (n = "exec_code" /\ t = sess) \/ (n <> "exec_code" /\ In (n, t) d).
Proof. exact rounds_stable. Qed.
Print Assumptions C101_stable_partial.

Example C101_stable_example :
  Forall (Forall (quiet office)) [[Bind "x" (VOther true); Bind "limit" (VOther false)]; [Del "search"]] /\
  ~ raising office /\ unambiguous office /\ one_name office.
Proof.
  assert (V : forall n t, visible office n t -> n = "search" /\ t = 1).
  { intros n t H. inversion H as [n' t' I|n' a b x t' I]; subst.
    - cbn in I. repeat (destruct I as [I|I]; [try discriminate; try (injection I as <- <-; auto)|]). destruct I.
    - cbn in I. repeat (destruct I as [I|I]; [discriminate|]). destruct I. }
  split; [|split; [|split]].
  - repeat constructor.
    + exists true. reflexivity.
    + intros t I. cbn in I. repeat (destruct I as [I|I]; [discriminate|]). exact I.
    + intros a b I. cbn in I. repeat (destruct I as [I|I]; [discriminate|]). exact I.
    + exists false. reflexivity.
    + intros t I. cbn in I. repeat (destruct I as [I|I]; [discriminate|]). exact I.
    + intros a b I. cbn in I. repeat (destruct I as [I|I]; [discriminate|]). exact I.
  - intros (n & a & b & x & I & _). cbn in I. repeat (destruct I as [I|I]; [discriminate|]). exact I.
  - intros n t u A B. apply V in A, B. intuition congruence.
  - intros n m t A B. apply V in A, B. intuition congruence.
Qed.

(** A tool called exec_code is not offered when there is a REPL. *)
Theorem C101_shadow_refuted : exists e t sess r, collect_tools e = Some [("exec_code", t)] /\ t <> sess /\
  collect any sess [Repl] e = Some r /\ forall n, ~ In (n, OTool t) r.
Proof.
  exists [("exec_code", VTool 1)], 1, 9. eexists. split; [reflexivity|]. split; [discriminate|]. split; [reflexivity|].
  intros n [H|[]]. discriminate.
Qed.
Print Assumptions C101_shadow_refuted.

(** A snippet that gives a tool a second name takes the first away from the model. *)
Theorem C101_renamed_refuted : exists base sess n m t r r',
  rounds any sess [Repl] base None [[Bind m (VTool t)]; []] = [Some r; Some r'] /\
  In (n, OTool t) r /\ In (n, VTool t) base /\ forall o, ~ In (n, o) r'.
Proof.
  exists [("search", VTool 1)], 9, "search", "tool", 1. do 2 eexists.
  split; [reflexivity|]. split; [now left|]. split; [now left|].
  intros o [H|[H|[]]]; discriminate.
Qed.
Print Assumptions C101_renamed_refuted.

(** With readers it ends the call with an AssertionError at the next request. *)
Theorem C101_alias_refuted : exists base sess m t r,
  one_name base /\
  rounds any sess [Readers; Repl] base None [[Bind m (VTool t)]; []] = [Some r; None].
Proof.
  exists [("search", VTool 1)], 9, "tool", 1. eexists. split; [|reflexivity].
  assert (V : forall n t, visible [("search", VTool 1)] n t -> n = "search").
  { intros n t H. inversion H as [n' t' I|n' a b x t' I]; subst; destruct I as [I|[]]; [|discriminate].
    now injection I as <- <-. }
  intros n m t A B. apply V in A, B. congruence.
Qed.
Print Assumptions C101_alias_refuted.

(** Whether it raises depends on the order of the handlers. *)
Theorem C101_order_refuted : exists e sess,
  collect any sess [Repl; Readers] e = None /\ collect any sess [Readers; Repl] e <> None.
Proof. exists [("exec_code", VTool 1); ("run", VTool 1)], 9. split; [reflexivity | discriminate]. Qed.
Print Assumptions C101_order_refuted.
