(** Model of [PythonRepl] (effectful/handlers/llm/completions.py 295-347) with [_repl_session]
    (effectful/handlers/llm/evaluation.py 691-705), [ReplSession.__init__] (610-633), the environment of a template call
    ([LiteLLMProvider._call], completions.py 659-702, and [collect_tools] in [call_assistant], 385) and [Template.tools]
    (effectful/handlers/llm/template.py 215-232): which namespaces code of the session reads and binds.
    A snippet is any function from the namespace to the namespace after it and its output: [exec] of a code object, with
    the traceback if it raises (exec_code itself is C42, C43). Functions that keep the namespace they were defined in are
    C42's. Simplified: the arguments and the layer that hides the template's own name (665-668) are one layer; other
    tools, [SystemExit] and the messages are left out. *)
From Coq Require Import String List Bool Arith.
Import ListNotations.

Section Scope.
Variable V : Type.
Definition ns : Type := string -> option V.
Definition snippet : Type := ns -> ns * string.

(** Dictionaries; [ChainMap]s, objects with a list of dictionaries; the variable [session] of each call (319) *)
Record world := World { nns : nat; spaces : nat -> ns; nch : nat; chains : nat -> list nat; ncell : nat; cells : nat -> option nat }.
Definition put {A} (f : nat -> A) (i : nat) (a : A) : nat -> A := fun j => if Nat.eqb j i then a else f j.
Definition bind (s : ns) (k : string) (v : V) : ns := fun x => if String.eqb x k then Some v else s x.

(** [ChainMap.__getitem__] *)
Fixpoint chain_get (sp : nat -> ns) (maps : list nat) (k : string) : option V :=
  match maps with
  | [] => None
  | i :: maps' => match sp i k with Some v => Some v | None => chain_get sp maps' k end
  end.
Definition new_space (s : ns) (w : world) : nat * world :=
  (nns w, World (S (nns w)) (put (spaces w) (nns w) s) (nch w) (chains w) (ncell w) (cells w)).
Definition set_space (i : nat) (s : ns) (w : world) : world := World (nns w) (put (spaces w) i s) (nch w) (chains w) (ncell w) (cells w).
Definition new_chain (m : list nat) (w : world) : nat * world :=
  (nch w, World (nns w) (spaces w) (S (nch w)) (put (chains w) (nch w) m) (ncell w) (cells w)).
Definition set_chain (c : nat) (m : list nat) (w : world) : world := World (nns w) (spaces w) (nch w) (put (chains w) c m) (ncell w) (cells w).
Definition new_cell (w : world) : nat * world :=
  (ncell w, World (nns w) (spaces w) (nch w) (chains w) (S (ncell w)) (put (cells w) (ncell w) None)).
Definition set_cell (x : nat) (s : nat) (w : world) : world := World (nns w) (spaces w) (nch w) (chains w) (ncell w) (put (cells w) x (Some s)).

(** [ReplSession.__init__] (610-633) on the chain [c]: a dictionary with a flat copy, spliced in as first layer *)
Definition create (c : nat) (w : world) : nat * world :=
  let (i, w1) := new_space (chain_get (spaces w) (chains w c)) w in
  (i, set_chain c (i :: chains w c) w1).
(** [_repl_session]: [session_for] (321-331) of the call, or the default rule (evaluation.py 705) *)
Definition repl_session (cell : option nat) (c : nat) (w : world) : nat * world :=
  match cell with
  | None => create c w
  | Some x => match cells w x with
              | Some s => (s, w)
              | None => let (s, w1) := create c w in (s, set_cell x s w1)
              end
  end.

(** Where [PythonRepl] is installed: not at all; so that it handles [Template.__apply__] before the provider, which does
    not forward; or after it, so that its rule for [Template.__apply__] is never reached. *)
Inductive mode := Off | Above | Below.
(** [collect_tools]: the session of the tool [exec_code] (336-347) *)
Definition collect (md : mode) (cell : option nat) (c : nat) (w : world) : option nat * world :=
  match md with Off => (None, w) | _ => let (s, w1) := repl_session cell c w in (Some s, w1) end.

(** What happens in a template call, and between calls. Templates are named by the chain of their context. *)
Inductive ev :=
| Round                                           (* a request to the model: [collect_tools(env)] *)
| Run (f : snippet)                               (* the model calls the [exec_code] of the last round *)
| Look (k : string)                               (* the rest of the call reads [env[k]] *)
| Assign (i : nat) (k : string) (v : V)           (* other code, such as a tool, binds a name in one of its namespaces *)
| Tools (t : nat) (fs : list snippet)             (* [t.tools]; [fs] are run with its [exec_code] *)
| Call (t : nat) (args : ns) (es : list ev).
Inductive obs := Saw (v : option V) | Out (s : string).
(** The environment, cell and session of the call we are in *)
Record frame := Frame { fenv : option nat; fcell : option nat; ftool : option nat }.

Definition run_in (s : nat) (f : snippet) (w : world) : obs * world :=
  let (n, o) := f (spaces w s) in (Out o, set_space s n w).
Fixpoint run_all (s : nat) (fs : list snippet) (w : world) : list obs * world :=
  match fs with
  | [] => ([], w)
  | f :: fs' => let (o, w1) := run_in s f w in let (os, w2) := run_all s fs' w1 in (o :: os, w2)
  end.
(** [PythonRepl._apply] (312-334) and the beginning of [LiteLLMProvider._call] (664-668) *)
Definition enter (md : mode) (fr : frame) (t : nat) (args : ns) (w : world) : frame * world :=
  let (cell, w1) := match md with Above => let (x, w1) := new_cell w in (Some x, w1) | _ => (fcell fr, w) end in
  let (a, w2) := new_space args w1 in
  let (c, w3) := new_chain (a :: chains w2 t) w2 in
  (Frame (Some c) cell None, w3).

Definition round_ (md : mode) (fr : frame) (w : world) : list obs * frame * world :=
  match fenv fr with
  | Some c => let (t, w1) := collect md (fcell fr) c w in ([], Frame (fenv fr) (fcell fr) t, w1)
  | None => ([], fr, w)
  end.
Definition run_tool (fr : frame) (f : snippet) (w : world) : list obs * frame * world :=
  match ftool fr with Some s => let (o, w1) := run_in s f w in ([o], fr, w1) | None => ([], fr, w) end.
Definition look (fr : frame) (k : string) (w : world) : list obs * frame * world :=
  match fenv fr with Some c => ([Saw (chain_get (spaces w) (chains w c) k)], fr, w) | None => ([], fr, w) end.
Definition tools (md : mode) (fr : frame) (t : nat) (fs : list snippet) (w : world) : list obs * frame * world :=
  let (s, w1) := collect md (fcell fr) t w in
  match s with Some s => let (os, w2) := run_all s fs w1 in (os, fr, w2) | None => ([], fr, w1) end.

(** A list of events, one after the other *)
Section Sequence.
Variable S : ev -> frame -> world -> list obs * frame * world.
Fixpoint sequence (es : list ev) (fr : frame) (w : world) : list obs * frame * world :=
  match es with
  | [] => ([], fr, w)
  | e :: es' => let '(o, fr1, w1) := S e fr w in let '(os, fr2, w2) := sequence es' fr1 w1 in (o ++ os, fr2, w2)
  end.
End Sequence.
Fixpoint step (md : mode) (e : ev) (fr : frame) (w : world) : list obs * frame * world :=
  match e with
  | Round => round_ md fr w
  | Run f => run_tool fr f w
  | Look k => look fr k w
  | Assign i k v => ([], fr, set_space i (bind (spaces w i) k v) w)
  | Tools t fs => tools md fr t fs w
  | Call t args es =>
      let (fr1, w1) := enter md fr t args w in
      let '(os, _, w2) := sequence (step md) es fr1 w1 in (os, fr, w2)
  end.
Definition steps (md : mode) := sequence (step md).
(** Code outside any template call *)
Definition outside : frame := Frame None None None.
End Scope.
