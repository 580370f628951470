(** What should be offered. *)
From Coq Require Import String List Bool Arith.
From Verif Require Import ToolsModel ToolsSpec OffModel.
Import ListNotations.
Open Scope string_scope.
Open Scope list_scope.

(** under the name [n], given the tools [d] found by the default rule: the session's tool
    if there is a REPL, else the tool found, else a reader if there are readers *)
Definition offered (isidentifier : string -> bool) (sess : nat) (st : list layer) (e : env) (d : list (string * nat))
  (n : string) (o : offer) : Prop :=
  (In Repl st /\ n = "exec_code" /\ o = OTool sess) \/
  (~ (In Repl st /\ n = "exec_code") /\
   ((exists t, o = OTool t /\ In (n, t) d) \/
    (o = OReader /\ In Readers st /\ isidentifier n = true /\ readable e n /\ forall t, ~ In (n, t) d))).

(** the value of a name after the events [evs] of the session: the last one decides; a
    deleted name shows what is below *)
Fixpoint latest (evs : list event) (n : string) : option event :=
  match evs with
  | [] => None
  | ev :: evs =>
      match latest evs n with
      | Some x => Some x
      | None => if String.eqb (match ev with Bind m _ => m | Del m => m end) n then Some ev else None
      end
  end.
Definition current (base : env) (evs : list event) (n : string) (v : value) : Prop :=
  match latest evs n with
  | Some (Bind _ w) => v = w
  | _ => In (n, v) base
  end.

(** events that bind names of no tool or agent to values that are no tools or agents *)
Definition quiet (base : env) (ev : event) : Prop :=
  match ev with
  | Bind n v => (exists b, v = VOther b) /\ (forall t, ~ In (n, VTool t) base) /\ (forall a b, ~ In (n, VAgent a b) base)
  | Del _ => True
  end.
