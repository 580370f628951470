(** Model of tool collection: [collect_tools] and [LexicalReaders]
    (effectful/handlers/llm/completions.py:225-292), the environment a template call collects
    from (663-665) and [Template.tools] (effectful/handlers/llm/template.py:216-231).
    Tools are told apart by identity (ops/types.py:110-113) and named by numbers here; [PythonRepl] is not
    modelled here. *)
From Coq Require Import String List Bool Arith.
Import ListNotations.

(** What [getattr] gives on an agent: a tool, something else, or an exception. *)
Inductive attr := ATool (t : nat) | AOther | ARaises.
(** An agent: the names in [vars(cls)] for each class of its MRO, and [getattr]. *)
Record agent := { mro : list (list string); getattr : string -> attr }.
(** A value of the environment; [VOther]: whether a reader can be made for it, that is,
    [_LexicalVariableTool.define] (184-222) neither raises TypeError nor a pydantic error. *)
Inductive value := VTool (t : nat) | VAgent (a : agent) (encodable : bool) | VOther (encodable : bool).
(** An environment in the order of its items. *)
Definition env : Type := list (string * value).

(** Dictionaries in insertion order. *)
Section Dict.
Context {K A : Type} (eqb : K -> K -> bool).
Fixpoint dput (k : K) (v : A) (d : list (K * A)) : list (K * A) :=
  match d with
  | [] => [(k, v)]
  | (x, y) :: d' => if eqb x k then (k, v) :: d' else (x, y) :: dput k v d'
  end.
Fixpoint dget (k : K) (d : list (K * A)) : option A :=
  match d with [] => None | (x, y) :: d' => if eqb x k then Some y else dget k d' end.
End Dict.

(** [for attr_name in vars(cls)] (248-250); [None]: an exception *)
Fixpoint scan (name : string) (a : agent) (names : list string) (d : list (string * nat)) : option (list (string * nat)) :=
  match names with
  | [] => Some d
  | x :: names' =>
      match getattr a x with
      | ARaises => None
      | AOther => scan name a names' d
      | ATool t => scan name a names' (dput String.eqb (name ++ "__" ++ x)%string t d)
      end
  end.
(** [for cls in type(obj).__mro__] (247) *)
Fixpoint scan_mro (name : string) (a : agent) (l : list (list string)) (d : list (string * nat)) : option (list (string * nat)) :=
  match l with
  | [] => Some d
  | names :: l' => match scan name a names d with Some d => scan_mro name a l' d | None => None end
  end.
(** [for name, obj in env.items()] (243-250) *)
Fixpoint gather (e : env) (d : list (string * nat)) : option (list (string * nat)) :=
  match e with
  | [] => Some d
  | (name, VTool t) :: e' => gather e' (dput String.eqb name t d)
  | (name, VAgent a _) :: e' => match scan_mro name a (mro a) d with Some d => gather e' d | None => None end
  | (_, VOther _) :: e' => gather e' d
  end.

(** [sorted(result.items())] (255): the names are distinct, so the tools are never compared *)
Fixpoint insert (x : string * nat) (l : list (string * nat)) : list (string * nat) :=
  match l with
  | [] => [x]
  | y :: l' => if String.leb (fst x) (fst y) then x :: l else y :: insert x l'
  end.
Fixpoint sort (l : list (string * nat)) : list (string * nat) :=
  match l with [] => [] | x :: l' => insert x (sort l') end.
(** [tool2name] (255) *)
Definition tool2name (l : list (string * nat)) : list (nat * string) :=
  fold_left (fun d x => dput Nat.eqb (snd x) (fst x) d) (sort l) [].
(** Deleting the other names (256-258) *)
Definition dedupe (l : list (string * nat)) : list (string * nat) :=
  filter (fun x => match dget Nat.eqb (snd x) (tool2name l) with Some n => String.eqb n (fst x) | None => false end) l.

(** [collect_tools] (225-258) *)
Definition collect_tools (e : env) : option (list (string * nat)) :=
  match gather e [] with Some d => Some (dedupe d) | None => None end.

(** [env.new_child({k: None for k, v in env.items() if v is template})] (663-665) unless the
    template [t] is recursive; a reader can be made for [None]. *)
Definition call_env (recursive : bool) (t : nat) (e : env) : env :=
  if recursive then e
  else map (fun x => match snd x with VTool u => if Nat.eqb u t then (fst x, VOther true) else x | _ => x end) e.
(** [Template.tools] (template.py:216-231) *)
Definition template_tools (recursive : bool) (t : nat) (e : env) : option (list (string * nat)) :=
  match collect_tools e with
  | Some d => Some (if recursive then d else filter (fun x => negb (Nat.eqb (snd x) t)) d)
  | None => None
  end.

(** [LexicalReaders._collect] (269-292): what is offered under a name is a tool or a reader of the
    variable of that name. [None]: an exception, from collecting or from the assertion that no
    tool is wrapped (204-206), which is not among those caught. *)
Inductive offer := OTool (t : nat) | OReader.
Section Readers.
Variable isidentifier : string -> bool.
Fixpoint read_all (e : env) (d : list (string * offer)) : option (list (string * offer)) :=
  match e with
  | [] => Some d
  | (name, v) :: e' =>
      match dget String.eqb name d with
      | Some _ => read_all e' d
      | None =>
          if isidentifier name then
            match v with
            | VTool _ => None
            | VAgent _ true | VOther true => read_all e' (dput String.eqb name OReader d)
            | VAgent _ false | VOther false => read_all e' d
            end
          else read_all e' d
      end
  end.
Definition collect_with_readers (e : env) : option (list (string * offer)) :=
  match collect_tools e with
  | Some d => read_all e (map (fun x => (fst x, OTool (snd x))) d)
  | None => None
  end.
End Readers.
