(** What a variable's value contains, said without computing it, and how far code has
    come at a tool call. *)
From Coq Require Import String List Bool Arith ZArith.
From Verif Require Import RdrModel.
Import ListNotations.
Open Scope list_scope.

(** in the lists [h] the value [v] is written [j] as JSON, and is nested less than [d] deep *)
Inductive Contents (h : heap) : nat -> val -> json -> Prop :=
| c_int : forall d z, Contents h (S d) (VInt z) (JInt z)
| c_str : forall d s, Contents h (S d) (VStr s) (JStr s)
| c_ref : forall d r vs js, nth_error h r = Some vs -> Forall2 (Contents h d) vs js ->
    Contents h (S d) (VRef r) (JList js).

(** the value [v] is nested less than [d] deep, whatever is in it *)
Inductive Shallow (h : heap) : nat -> val -> Prop :=
| s_int : forall d z, Shallow h (S d) (VInt z)
| s_str : forall d s, Shallow h (S d) (VStr s)
| s_opaque : forall d, Shallow h (S d) VOpaque
| s_ref : forall d r vs, nth_error h r = Some vs -> Forall (Shallow h d) vs -> Shallow h (S d) (VRef r).

(** all that the code run by some tool calls does, in order *)
Definition acts (l : list call) : list act :=
  flat_map (fun c => match c with Exec a => a | Read _ => [] end) l.
Definition reached (s : state) (l : list call) : state := fold_left do_act (acts l) s.

(** the same tool calls without assignments, and without readers *)
Definition no_assignments (l : list call) : list call :=
  map (fun c => match c with
                | Exec a => Exec (filter (fun x => match x with Rebind _ _ => false | _ => true end) a)
                | Read n => Read n
                end) l.
Definition only_code (l : list call) : list call :=
  filter (fun c => match c with Exec _ => true | Read _ => false end) l.

(** an object without a schema, or a list of one or more of these *)
Inductive Locked (h : heap) : val -> Prop :=
| l_opaque : Locked h VOpaque
| l_list : forall r k vs, nth_error h r = Some vs -> vs = repeat VOpaque (S k) -> Locked h (VRef r).
