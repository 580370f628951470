(** Model of the encoding of code objects: [_pydantic_type_code] (effectful/handlers/llm/encoding.py 208-270), [scan_non_nestable]
    (effectful/handlers/llm/evaluation.py 117-139), [parse] and [compile] of both eval providers (431-446, 502-521), with Python's
    [str.splitlines], [linecache] and the rules on import statements of its compiler. Characters are numbers. Parsing and the type
    check are given; the splice that is checked is RegionModel's. *)
From Coq Require Import List Bool Arith.
Import ListNotations.

(** [str.splitlines(True)]; [breaks]: which characters end a line. [10] and [13] are the newline and the carriage return, which together
    end one line. *)
Definition onto (c : nat) (ls : list (list nat)) : list (list nat) := match ls with [] => [[c]] | l :: ls' => (c :: l) :: ls' end.
Fixpoint splitlines (breaks : nat -> bool) (s : list nat) : list (list nat) :=
  match s with
  | [] => []
  | c :: s' =>
      match s' with
      | d :: s'' => if (c =? 13) && (d =? 10) then [13; 10] :: splitlines breaks s'' else if breaks c then [c] :: splitlines breaks s' else onto c (splitlines breaks s')
      | [] => [[c]]
      end
  end.

(** Statements, as far as imports go: [from m import ...]; blocks of [if], [for], [while], [with], [try], [match]; bodies of [def] and [class] *)
Inductive stmt :=
| SFrom (future star : bool)
| SOther
| SBlock (body : list stmt)
| SScope (body : list stmt).

(** 129-139; [true]: no ValueError *)
Definition scan (body : list stmt) : bool := forallb (fun s => match s with SFrom future star => negb (future || star) | _ => true end) body.

(** Python's compiler: a future import is among the first statements of the module (a docstring may come before, not distinguished from
    others here: [lead] says whether one may still come); a star import is not in a function or class. RestrictedPython has no star
    imports at all. *)
Fixpoint compiles_in (restricted inner : bool) (s : stmt) : bool :=
  match s with
  | SFrom future star => negb future && (negb star || negb inner && negb restricted)
  | SOther => true
  | SBlock body => forallb (compiles_in restricted inner) body
  | SScope body => forallb (compiles_in restricted true) body
  end.
Fixpoint compiles (restricted : bool) (body : list stmt) : bool :=
  match body with
  | SFrom true star :: body' => negb star && compiles restricted body'
  | _ => forallb (compiles_in restricted false) body
  end.

Inductive name := Snippet (n : nat) | File (n : nat).
Inductive code := Code (filename : name) (body : list stmt).
Inductive value := VCode (c : code) | VStr (s : list nat) | VOther.
Inductive res (A : Type) := Ok (a : A) | ValueErr | TypeErr.
Arguments Ok {A}. Arguments ValueErr {A}. Arguments TypeErr {A}.

(** [linecache.cache]: entries with lines and whether the file is checked for changes; the last put in is found first. [next]: the
    unique name of the next snippet ([uuid4]). *)
Record state := mkstate { cache : list (name * (bool * list (list nat))); next : nat }.
Definition name_eqb (a b : name) : bool := match a, b with Snippet n, Snippet m | File n, File m => n =? m | _, _ => false end.
Fixpoint find (n : name) (l : list (name * (bool * list (list nat)))) : option (bool * list (list nat)) :=
  match l with [] => None | (m, e) :: l' => if name_eqb n m then Some e else find n l' end.

Section Code.
Variable breaks : nat -> bool.
Variable restricted : bool.
Variable tree : list nat -> option (list stmt).     (* [ast.parse]: None, a SyntaxError or ValueError *)
Variable checked : list nat -> bool.                (* [type_check] of the splice, if there is an anchor *)
Variable disk : nat -> list (list nat).             (* lines of a file, none if there is no such file *)

(** [validate] (226-261). [parse] puts the source into the cache before parsing. *)
Definition decode (v : value) (st : state) : res code * state :=
  match v with
  | VCode c => (Ok c, st)
  | VOther => (ValueErr, st)
  | VStr s =>
      let f := Snippet (next st) in
      let st' := mkstate ((f, (false, splitlines breaks s)) :: cache st) (S (next st)) in
      (match tree s with
       | None => ValueErr
       | Some body => if scan body then if checked s then if compiles restricted body then Ok (Code f body) else ValueErr else TypeErr else ValueErr
       end, st')
  end.
(** [linecache.getlines]; a name in angle brackets is no file *)
Definition getlines (f : name) (st : state) : list (list nat) :=
  match find f (cache st) with Some (_, ls) => ls | None => match f with File n => disk n | Snippet _ => [] end end.
(** the serializer (265-267) *)
Definition encode (c : code) (st : state) : list nat := match c with Code f _ => concat (getlines f st) end.

(** What else happens to the cache: files are read into it, [checkcache] drops entries of changed files, [clearcache] all *)
Inductive event := EDecode (v : value) | ERead (n : nat) | ECheck | EClear.
Definition after (e : event) (st : state) : state :=
  match e with
  | EDecode v => snd (decode v st)
  | ERead n => mkstate ((File n, (true, disk n)) :: cache st) (next st)
  | ECheck => mkstate (filter (fun e => negb (fst (snd e))) (cache st)) (next st)
  | EClear => mkstate [] (next st)
  end.
End Code.
