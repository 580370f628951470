(** Tool collection (C40, C49, C50). *)
From Coq Require Import String List Bool Arith.
From Verif Require Import ToolsModel ToolsSpec ToolsProofs.
Import ListNotations.
Local Open Scope string_scope.

(** If no name shows two tools, what is offered is each visible tool under the greatest of its
    names, and every visible tool is offered. *)
Theorem C40_exact_partial : forall e d, unambiguous e -> collect_tools e = Some d ->
  (forall n t, In (n, t) d <-> visible e n t /\ forall m, visible e m t -> le m n) /\
  (forall n t, visible e n t -> exists m, In (m, t) d).
Proof. exact collect_exact. Qed.
Print Assumptions C40_exact_partial.

(** In any environment: names are distinct, tools are distinct, and only visible tools are offered. *)
Theorem C40_distinct : forall e d, collect_tools e = Some d ->
  NoDup (map fst d) /\ NoDup (map snd d) /\ (forall n t, In (n, t) d -> visible e n t).
Proof. exact collect_distinct. Qed.
Print Assumptions C40_distinct.

(** Collecting raises exactly if reading an attribute of an agent does. *)
Theorem C40_raises : forall e, collect_tools e = None <-> raising e.
Proof. exact collect_raises. Qed.
Print Assumptions C40_raises.

(** An agent's tool and a variable whose name is the agent's name, two underscores and the
    attribute's name: one of the two is lost. *)
Definition with_tool (x : string) (t : nat) : agent :=
  {| mro := [[x]]; getattr := fun y => if String.eqb y x then ATool t else AOther |}.
Theorem C40_clash_refuted : exists e d n t,
  NoDup (map fst e) /\ collect_tools e = Some d /\ visible e n t /\ forall m, ~ In (m, t) d.
Proof.
  exists [("a__b", VTool 1); ("a", VAgent (with_tool "b" 2) true)], [("a__b", 2)], "a__b", 1.
  split; [repeat constructor; cbn; intuition discriminate|].
  split; [reflexivity|]. split; [apply vis_direct; left; reflexivity|].
  intros m [H|[]]. discriminate H.
Qed.
Print Assumptions C40_clash_refuted.

(** A property that raises on an agent takes all other tools with it. *)
Theorem C40_property_refuted : exists e n t,
  NoDup (map fst e) /\ unambiguous e /\ visible e n t /\ collect_tools e = None.
Proof.
  exists [("t", VTool 1); ("a", VAgent {| mro := [["p"]]; getattr := fun _ => ARaises |} true)], "t", 1.
  split; [repeat constructor; cbn; intuition discriminate|]. split; [|split; [apply vis_direct; left; reflexivity|reflexivity]].
  assert (V : forall n t, visible [("t", VTool 1); ("a", VAgent {| mro := [["p"]]; getattr := fun _ => ARaises |} true)] n t -> t = 1).
  { intros n t H. destruct H as [n t [H|[H|[]]]|n a b x t [H|[H|[]]] R G]; try discriminate H.
    - injection H as _ <-. reflexivity.
    - injection H as _ <- _. discriminate G. }
  intros n t u A B. rewrite (V n t A), (V n u B). reflexivity.
Qed.
Print Assumptions C40_property_refuted.

(** A template not marked recursive is never among its own [tools]. *)
Theorem C49_tools : forall t e d, template_tools false t e = Some d -> forall n, ~ In (n, t) d.
Proof. exact template_tools_self. Qed.
Print Assumptions C49_tools.
(** Nor is it offered to the model when called, unless an agent in the environment has it. *)
Theorem C49_call_partial : forall t e d,
  (forall n a b x, In (n, VAgent a b) e -> reaches a x -> getattr a x <> ATool t) ->
  collect_tools (call_env false t e) = Some d -> forall n, ~ In (n, t) d.
Proof. exact call_env_self. Qed.
Print Assumptions C49_call_partial.
(** A template method of an agent has the agent in its environment and is offered to itself. *)
Theorem C49_method_refuted : exists t e d n,
  template_tools false t e = Some [] /\ collect_tools (call_env false t e) = Some d /\ In (n, t) d.
Proof.
  exists 3, [("self", VAgent (with_tool "send" 3) true)], [("self__send", 3)], "self__send".
  split; [reflexivity|]. split; [reflexivity|left; reflexivity].
Qed.
Print Assumptions C49_method_refuted.

(** With readers, if each tool has one name: all the tools, and a reader for every other variable
    that is an identifier and for which one can be made. *)
Theorem C50_readers_partial : forall isidentifier e, NoDup (map fst e) -> ~ raising e -> unambiguous e -> one_name e ->
  exists r, collect_with_readers isidentifier e = Some r /\ NoDup (map fst r) /\
    forall n o, In (n, o) r <->
      (exists t, o = OTool t /\ visible e n t) \/
      (o = OReader /\ isidentifier n = true /\ readable e n /\ forall t, ~ visible e n t).
Proof. exact readers_all. Qed.
Print Assumptions C50_readers_partial.
(** In any environment, exactly what is offered and exactly when it raises. *)
Theorem C50_readers_exact : forall isidentifier e, NoDup (map fst e) ->
  match collect_with_readers isidentifier e with
  | Some r => exists d, collect_tools e = Some d /\ NoDup (map fst r) /\
      forall n o, In (n, o) r <->
        (exists t, o = OTool t /\ In (n, t) d) \/
        (o = OReader /\ isidentifier n = true /\ readable e n /\ forall t, ~ In (n, t) d)
  | None => raising e \/ exists n t d, In (n, VTool t) e /\ isidentifier n = true /\ collect_tools e = Some d /\
      forall u, ~ In (n, u) d
  end.
Proof. exact readers_exact. Qed.
Print Assumptions C50_readers_exact.
(** A tool bound to two variables makes it raise. *)
Theorem C50_two_names_refuted : exists isidentifier e,
  NoDup (map fst e) /\ ~ raising e /\ unambiguous e /\ collect_with_readers isidentifier e = None.
Proof.
  exists (fun _ => true), [("a", VTool 1); ("b", VTool 1)].
  split; [repeat constructor; cbn; intuition discriminate|].
  split; [intros (n & a & b & x & [H|[H|[]]] & _); discriminate H|]. split; [|reflexivity].
  assert (V : forall n t, visible [("a", VTool 1); ("b", VTool 1)] n t -> t = 1).
  { intros n t H. destruct H as [n t [H|[H|[]]]|n a b x t [H|[H|[]]] R G]; try discriminate H; injection H as _ <-; reflexivity. }
  intros n t u A B. rewrite (V n t A), (V n u B). reflexivity.
Qed.
Print Assumptions C50_two_names_refuted.

Example C40_example :
  let e := [("z", VTool 1); ("a", VAgent (with_tool "b" 2) true); ("c", VTool 2); ("k", VOther false); ("q", VTool 1)] in
  unambiguous e /\ collect_tools e = Some [("z", 1); ("c", 2)].
Proof.
  split; [|reflexivity].
  match goal with |- unambiguous ?e =>
    assert (V : forall n t, visible e n t -> In (n, t) [("z", 1); ("a__b", 2); ("c", 2); ("q", 1)]) end.
  { intros n t H. destruct H as [n t H|n a b x t H (names & M & N) G]; cbn [In] in H;
      destruct H as [H|[H|[H|[H|[H|[]]]]]]; try discriminate H.
    - injection H as <- <-. left. reflexivity.
    - injection H as <- <-. right. right. left. reflexivity.
    - injection H as <- <-. right. right. right. left. reflexivity.
    - injection H as <- <- <-. destruct M as [<-|[]]. destruct N as [<-|[]]. injection G as <-.
      right. left. reflexivity. }
  intros n t u A B. apply V in A. apply V in B. cbn [In] in A, B. intuition congruence.
Qed.
Example C50_example :
  collect_with_readers (fun _ => true) [("a", VTool 1); ("n", VOther true); ("m", VOther false); ("g", VAgent (with_tool "b" 2) true)] =
  Some [("a", OTool 1); ("g__b", OTool 2); ("n", OReader); ("g", OReader)].
Proof. reflexivity. Qed.
