(** Which tools an environment shows, and under which names. *)
From Coq Require Import String List Bool.
From Verif Require Import ToolsModel.
Import ListNotations.

Definition reaches (a : agent) (x : string) : Prop := exists names, In names (mro a) /\ In x names.
Inductive visible (e : env) : string -> nat -> Prop :=
| vis_direct : forall n t, In (n, VTool t) e -> visible e n t
| vis_agent : forall n a b x t, In (n, VAgent a b) e -> reaches a x -> getattr a x = ATool t ->
    visible e (n ++ "__" ++ x)%string t.
(** No name shows two tools. *)
Definition unambiguous (e : env) : Prop := forall n t u, visible e n t -> visible e n u -> t = u.
(** Some attribute of an agent raises when read. *)
Definition raising (e : env) : Prop :=
  exists n a b x, In (n, VAgent a b) e /\ reaches a x /\ getattr a x = ARaises.
(** The order of names. *)
Definition le (a b : string) : Prop := String.leb a b = true.
(** A reader can be made for the variable. *)
Definition readable (e : env) (n : string) : Prop :=
  (exists a, In (n, VAgent a true) e) \/ In (n, VOther true) e.
(** Each tool is shown under one name. *)
Definition one_name (e : env) : Prop := forall n m t, visible e n t -> visible e m t -> n = m.
