(** Model of the lexical context of templates: [Template.define] (effectful/handlers/llm/template.py 255-324), the check of the
    prompt (174-209), and the lookup of its fields in a call (effectful/handlers/llm/completions.py 663-668, 490-516). Simplified:
    values are numbers; a frame is given with the scope it executes; the docstring is given as the list of its fields
    ([string.Formatter().parse], C44). *)
From Coq Require Import String Ascii List Bool Arith.
Import ListNotations.
Open Scope string_scope.
Open Scope list_scope.

(** What a frame executes: a module, a call of a function or the body of a class, in the scope where the definition of the
    function or class was executed. [a] identifies the call. *)
Inductive scope := Mod (m : nat) | Fn (a : nat) (name : string) (outer : scope) | Cl (a : nat) (name : string) (outer : scope).
(** The state: variables of calls, globals of modules; for the code of each call, its local variables (those bound anywhere in
    it) and the variables of enclosing functions that it mentions. *)
Record mem := { own : nat -> string -> option nat; glob : nat -> string -> option nat; vars : nat -> list string; frees : nat -> list string }.
Definition has (l : list string) (x : string) : bool := existsb (String.eqb x) l.
(** the cell of a variable in the enclosing functions *)
Fixpoint cell (M : mem) (s : scope) (x : string) : option nat :=
  match s with
  | Mod _ => None
  | Fn a _ o => if has (vars M a) x then own M a x else cell M o x
  | Cl _ _ o => cell M o x
  end.
(** [frame.f_locals]: of a function, its bound local variables and the bound cells it mentions; of a module, its globals
    (also [frame.f_globals]) *)
Definition f_locals (M : mem) (s : scope) (x : string) : option nat :=
  match s with
  | Mod m => glob M m x
  | Fn a _ o => if has (vars M a) x then own M a x else if has (frees M a) x then cell M o x else None
  | Cl a _ _ => own M a x
  end.
Fixpoint module_of (s : scope) : nat := match s with Mod m => m | Fn _ _ o => module_of o | Cl _ _ o => module_of o end.

(** [__qualname__], split at the dots *)
Inductive seg := Name (s : string) | Locals.
Fixpoint qual (s : scope) : list seg :=
  match s with
  | Mod _ => []
  | Fn _ n o => qual o ++ (match o with Fn _ _ _ => [Locals] | _ => [] end) ++ [Name n]
  | Cl _ n o => qual o ++ (match o with Fn _ _ _ => [Locals] | _ => [] end) ++ [Name n]
  end.
(** of a function defined in [s] *)
Definition qual_in (s : scope) (n : string) : list seg := qual s ++ (match s with Fn _ _ _ => [Locals] | _ => [] end) ++ [Name n].

(** 275-281: one frame back per name of the class' [__qualname__] up to the first [<locals>] from the right *)
Fixpoint names_until (l : list seg) : nat := match l with [] => 0 | Locals :: _ => 0 | Name _ :: r => S (names_until r) end.
Definition skip (stack : list scope) : list scope :=
  match stack with (Cl _ _ _ as s) :: _ => skipn (names_until (rev (qual s))) stack | _ => stack end.
(** 291-295 *)
Fixpoint before_locals (l : list seg) : list string :=
  match l with
  | Name n :: ((Locals :: _) as r) => n :: before_locals r
  | _ :: r => before_locals r
  | [] => []
  end.
Definition enclosing_fns (parts : list seg) : list string := rev (before_locals parts).
(** [frame.f_code.co_name] *)
Definition co_name (s : scope) : string := match s with Mod _ => "<module>" | Fn _ n _ => n | Cl _ n _ => n end.
(** 302-307: the frame found, and the frames behind it; or the frames where the search stopped *)
Fixpoint search (n : string) (stack : list scope) : option scope * list scope :=
  match stack with
  | [] => (None, [])
  | Mod m :: _ => (None, stack)
  | s :: r => if String.eqb (co_name s) n then (Some s, r) else search n r
  end.
(** 301-307 *)
Fixpoint walk (fns : list string) (stack : list scope) : list scope :=
  match fns with
  | [] => []
  | n :: rest => let '(f, st) := search n stack in match f with Some s => s :: walk rest st | None => walk rest st end
  end.
(** 268-311: the frames whose locals make the context, then the module of the globals; [None]: an assertion fails *)
Definition context (stack : list scope) (parts : list seg) : option (list scope) :=
  match skip stack with
  | [] => None
  | s :: r => Some (walk (enclosing_fns parts) (s :: r) ++ [Mod (module_of s)])
  end.
(** What the context keeps of a frame ([MappingProxyType(frame.f_locals)], 304): in Python 3.13 its present variables; in Python
    3.12, of a call, the variables as they were when [frame.f_locals] was last accessed ([seen]). *)
Inductive version := V312 | V313.
Definition kept (v : version) (seen : nat -> string -> option nat) (M : mem) (s : scope) (x : string) : option nat :=
  match v, s with V312, Fn a _ _ => seen a x | _, _ => f_locals M s x end.
(** [ChainMap.__getitem__] over the frames of the context (309-311) *)
Fixpoint look (v : version) (seen : nat -> string -> option nat) (M : mem) (ctx : list scope) (x : string) : option nat :=
  match ctx with [] => None | s :: r => match kept v seen M s x with Some w => Some w | None => look v seen M r x end end.

(** The check of the prompt. [\w+] at the start of a field (199-200; ASCII only), or all of it *)
Definition wordy (c : ascii) : bool :=
  let n := nat_of_ascii c in (Nat.leb 48 n && Nat.leb n 57) || (Nat.leb 65 n && Nat.leb n 90) || (Nat.leb 97 n && Nat.leb n 122) || Nat.eqb n 95.
Fixpoint word (f : string) : string := match f with EmptyString => EmptyString | String c r => if wordy c then String c (word r) else EmptyString end.
Definition root (f : string) : string := match word f with EmptyString => f | w => w end.
Inductive res (A : Type) := Ok (a : A) | TypeErr (unresolved : list string) | Failed.
Arguments Ok {A}. Arguments TypeErr {A}. Arguments Failed {A}.
(** 190-209 *)
Definition unresolved (params : list string) (ctx : string -> option nat) (fields : list string) : list string :=
  filter (fun f => negb (has params (root f) || match ctx (root f) with Some _ => true | None => false end)) fields.
(** 268-324, for functions; all [f_locals] have just been accessed ([static]: static methods and class methods are not checked) *)
Definition define (M : mem) (stack : list scope) (parts : list seg) (static : bool) (params fields : list string) : res (list scope) :=
  match context stack parts with
  | None => Failed
  | Some ctx => if static then Ok ctx else match unresolved params (look V313 (fun _ _ => None) M ctx) fields with [] => Ok ctx | u => TypeErr u end
  end.
(** A call: the arguments (with defaults) before the context; [formatter.get_field] (508) takes the name up to the first [.] or [[] *)
Fixpoint first (f : string) : string :=
  match f with EmptyString => EmptyString | String c r => if Ascii.eqb c "." || Ascii.eqb c "[" then EmptyString else String c (first r) end.
Definition env (args : list (string * nat)) (shows : string -> option nat) (x : string) : option nat :=
  match find (fun p => String.eqb (fst p) x) args with Some p => Some (snd p) | None => shows x end.
Definition field (args : list (string * nat)) (shows : string -> option nat) (f : string) : option nat := env args shows (first f).
