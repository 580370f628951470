(** The zero-argument tools that read a template's variables: [_LexicalVariableTool.define]
    (effectful/handlers/llm/completions.py 184-222), the loop of [LexicalReaders._collect]
    (269-292), the decoding of a round's tool calls (427-437), [call_tool] (464-488), and
    the loop of [LiteLLMProvider._call] (687-695) as far as tools are concerned.

    Variables hold integers, strings, objects without a schema, or references to lists,
    which can be changed in place.  Simplified: every variable is a plain value under an
    identifier that is not the name of a tool (C50 and C101 are about which names are
    offered); a tool other than a reader is what it does to variables and lists; its
    answer is not modelled, nor is it made to fail; contents are JSON values (C35 and C36
    are about their encoding as blocks). *)
From Coq Require Import String List Bool Arith ZArith.
Import ListNotations.
Open Scope list_scope.

Inductive val := VInt (z : Z) | VStr (s : string) | VOpaque | VRef (r : nat).
Definition heap := list (list val).
Definition env := list (string * val).

(** a value with the lists it refers to, as [nested_type] and pydantic go through it *)
Inductive tree := TInt (z : Z) | TStr (s : string) | TOpaque | TList (l : list tree).
Inductive json := JInt (z : Z) | JStr (s : string) | JList (l : list json).

Fixpoint all_some {A : Type} (l : list (option A)) : option (list A) :=
  match l with
  | [] => Some []
  | Some x :: l => match all_some l with Some r => Some (x :: r) | None => None end
  | None :: _ => None
  end.

(** [None] is RecursionError: [fuel] stands for Python's limit on recursion *)
Fixpoint deep (fuel : nat) (h : heap) (v : val) : option tree :=
  match fuel with
  | 0 => None
  | S fuel =>
      match v with
      | VInt z => Some (TInt z)
      | VStr s => Some (TStr s)
      | VOpaque => Some TOpaque
      | VRef r =>
          match nth_error h r with
          | None => None
          | Some vs =>
              match all_some (map (deep fuel h) vs) with
              | Some ts => Some (TList ts)
              | None => None
              end
          end
      end
  end.

(** [nested_type] (effectful/internals/unification.py 1080-1112): a list has an element
    type if its elements have one type, and none if it is empty or they differ *)
Inductive ty := TyInt | TyStr | TyOpaque | TyList (e : option ty).
Fixpoint ty_eqb (a b : ty) : bool :=
  match a, b with
  | TyInt, TyInt | TyStr, TyStr | TyOpaque, TyOpaque => true
  | TyList None, TyList None => true
  | TyList (Some a), TyList (Some b) => ty_eqb a b
  | _, _ => false
  end.
Fixpoint nested (t : tree) : ty :=
  match t with
  | TInt _ => TyInt
  | TStr _ => TyStr
  | TOpaque => TyOpaque
  | TList l =>
      match map nested l with
      | [] => TyList None
      | a :: r => if forallb (ty_eqb a) r then TyList (Some a) else TyList None
      end
  end.

(** [TypeAdapter(Encodable[typ]).json_schema()] (completions.py 208) does not raise *)
Fixpoint schema (a : ty) : bool :=
  match a with
  | TyInt | TyStr => true
  | TyOpaque => false
  | TyList None => true
  | TyList (Some a) => schema a
  end.

(** [dump_python(result, mode="json")] (482): [None] is PydanticSerializationError *)
Fixpoint dump (t : tree) : option json :=
  match t with
  | TInt z => Some (JInt z)
  | TStr s => Some (JStr s)
  | TOpaque => None
  | TList l => match all_some (map dump l) with Some js => Some (JList js) | None => None end
  end.

Section Limit.
Variable limit : nat.

(** one variable (275-291): kept, skipped because there is no schema, or an error that
    is not among those caught *)
Inductive probed := Offered | Skipped | Raised.
Definition probe (h : heap) (v : val) : probed :=
  match deep limit h v with
  | None => Raised
  | Some t => if schema (nested t) then Offered else Skipped
  end.

(** the readers, each with the value it closes over (210-211) *)
Fixpoint offer (h : heap) (e : env) : option (list (string * val)) :=
  match e with
  | [] => Some []
  | (n, v) :: e =>
      match probe h v with
      | Raised => None
      | Skipped => offer h e
      | Offered => match offer h e with Some r => Some ((n, v) :: r) | None => None end
      end
  end.

Fixpoint lookup (n : string) (e : env) : option val :=
  match e with
  | [] => None
  | (m, v) :: e => if String.eqb n m then Some v else lookup n e
  end.

(** what running code does: assignment, change of a list in place, a new list *)
Inductive act := Rebind (n : string) (v : val) | Mutate (r : nat) (vs : list val) | New (vs : list val).
Fixpoint assign (n : string) (v : val) (e : env) : env :=
  match e with
  | [] => [(n, v)]
  | (m, w) :: e => if String.eqb n m then (m, v) :: e else (m, w) :: assign n v e
  end.
Fixpoint put (r : nat) (vs : list val) (h : heap) : heap :=
  match h, r with
  | [], _ => []
  | _ :: h, 0 => vs :: h
  | x :: h, S r => x :: put r vs h
  end.
Definition state := (env * heap)%type.
Definition do_act (s : state) (a : act) : state :=
  match a with
  | Rebind n v => (assign n v (fst s), snd s)
  | Mutate r vs => (fst s, put r vs (snd s))
  | New vs => (fst s, snd s ++ [vs])
  end.

(** tool calls of an answer; a reader takes no arguments *)
Inductive call := Read (n : string) | Exec (l : list act).

(** [call_tool] on a reader (471-483): its type is found anew from the value returned;
    errors of that and of the encoding are outside the [try] *)
Definition answer (h : heap) (v : val) : option json :=
  match deep limit h v with
  | None => None
  | Some t => if schema (nested t) then dump t else None
  end.

(** the calls of a round, one after the other; an error ends the template call *)
Inductive outcome := Said (j : json) | Did | Broke.
Fixpoint run (caps : list (string * val)) (s : state) (l : list call) : list outcome * state :=
  match l with
  | [] => ([], s)
  | Exec acts :: l => let (o, s) := run caps (fold_left do_act acts s) l in (Did :: o, s)
  | Read n :: l =>
      match lookup n caps with
      | None => ([Broke], s)
      | Some v =>
          match answer (snd s) v with
          | None => ([Broke], s)
          | Some j => let (o, s) := run caps s l in (Said j :: o, s)
          end
      end
  end.
Definition known (caps : list (string * val)) (c : call) : bool :=
  match c with Read n => match lookup n caps with Some _ => true | None => false end | Exec _ => true end.

(** a request and its answer: collect, decode every call, then call the tools *)
Inductive round_result := NoRequest | Undecodable | Ran (o : list outcome).
Definition round (s : state) (l : list call) : round_result * state :=
  match offer (snd s) (fst s) with
  | None => (NoRequest, s)
  | Some caps =>
      if forallb (known caps) l then let (o, s) := run caps s l in (Ran o, s) else (Undecodable, s)
  end.

Definition fine (r : round_result) : bool :=
  match r with
  | Ran o => forallb (fun x => match x with Broke => false | _ => true end) o
  | _ => false
  end.
(** the rounds of a template call (687-695), until one fails *)
Fixpoint rounds (s : state) (ls : list (list call)) : list round_result :=
  match ls with
  | [] => []
  | l :: ls => let (r, s) := round s l in r :: (if fine r then rounds s ls else [])
  end.
End Limit.
