(** What is offered to the model in a template call under a stack of handlers of
    [collect_tools] (effectful/handlers/llm/completions.py 225-349: the default rule,
    [LexicalReaders], [PythonRepl]), while the snippets it runs bind names
    (effectful/handlers/llm/evaluation.py 610-633: the session's dictionary is put before
    the maps of the call's environment).

    The environment, tools and readers are those of ToolsModel.  Simplified: [sess] is the
    tool [exec_code] of the call's session; the environment below the session does not
    change during the call; a request is followed by the bindings and deletions at top
    level that the snippets of its answer make. *)
From Coq Require Import String List Bool Arith.
From Verif Require Import ToolsModel.
Import ListNotations.
Open Scope string_scope.
Open Scope list_scope.

Inductive layer := Readers | Repl.
Definition is_repl (l : layer) : bool := match l with Repl => true | Readers => false end.

Section Offers.
Variable isidentifier : string -> bool.
Variable sess : nat.

(** the handlers installed, outermost first (268-292, 336-347; default 225-258) *)
Fixpoint collect (st : list layer) (e : env) : option (list (string * offer)) :=
  match st with
  | [] => match collect_tools e with
          | Some d => Some (map (fun x => (fst x, OTool (snd x))) d)
          | None => None
          end
  | Readers :: st => match collect st e with Some d => read_all isidentifier e d | None => None end
  | Repl :: st => match collect st e with
                  | Some d => Some (dput String.eqb "exec_code" (OTool sess) d)
                  | None => None
                  end
  end.

(** what a snippet does to the session's dictionary *)
Inductive event := Bind (n : string) (v : value) | Del (n : string).
Definition apply (s : env) (ev : event) : env :=
  match ev with
  | Bind n v => dput String.eqb n v s
  | Del n => filter (fun x => negb (String.eqb (fst x) n)) s
  end.

(** items of the [ChainMap] with the session's dictionary in front: [ChainMap.__iter__]
    goes through the maps from the last to the first *)
Definition view (base s : env) : env :=
  map (fun x => match dget String.eqb (fst x) s with Some v => (fst x, v) | None => x end) base ++
  filter (fun x => match dget String.eqb (fst x) base with Some _ => false | None => true end) s.

(** the requests of a call: what each offers, until one raises.  [s] is the dictionary of
    the session once it has been made ([session_for] 321-331, from [dict(env)]) *)
Fixpoint rounds (st : list layer) (base : env) (s : option env) (l : list (list event))
  : list (option (list (string * offer))) :=
  match l with
  | [] => []
  | evs :: l =>
      let e := match s with Some s => view base s | None => base end in
      match collect st e with
      | None => [None]
      | Some r =>
          Some r ::
          (if existsb is_repl st
           then rounds st base (Some (fold_left apply evs (match s with Some s => s | None => base end))) l
           else rounds st base s l)
      end
  end.
End Offers.
