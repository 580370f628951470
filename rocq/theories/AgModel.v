(** Model of template methods and agents: [Template.__get__] (effectful/handlers/llm/template.py 233-253), [Agent] (327-378), and
    the part of [LiteLLMProvider._call] (effectful/handlers/llm/completions.py 658-706) that starts from the history and saves it.
    Simplified: which template a class has under a name is given (the method resolution order and the names on instances are C63);
    a call makes one request, then its tools run, then it returns or raises (tools and decoding are C37 to C39, C48); docstrings are
    numbers, [None] the empty one. *)
From Coq Require Import List Bool Arith.
Import ListNotations.

Inductive msg := Sys (parts : list nat) | Usr (q : nat) | Asst (r : nat).
(** The classes: whether it is an agent, whether instances have [__dict__] and no free variables (agents always have [__dict__]; a dataclass
    with a term as a field has free variables), its docstring (own or inherited);
    the templates: whether a class has it, the docstring of its module. *)
Record world := { agent : nat -> bool; plain : nat -> bool; class_doc : nat -> option nat; has : nat -> nat -> bool; module_doc : nat -> option nat }.
(** A template bound to an instance: the values of [self] in its context from the innermost, its history, its system prompt *)
Record bound := { bctx : list (option nat); bhist : option nat; bsys : list nat }.
(** What can be observed of a call: the request (instance, template, [self] in the prompt, messages) or an error *)
Inductive out := Sent (i t : nat) (self : option nat) (l : list msg) | Raised (i t : nat).
(** Instances [0 .. count-1]: class, [__history__] in [__dict__], instance operations in [__dict__]; the histories; for each
    template the values of [self] put into its context; what was observed. *)
Record state := { count : nat; cls : nat -> nat; hist : nat -> option nat; ops : nat -> nat -> option bound; hs : nat -> list msg; nh : nat; above : nat -> list (option nat); log : list out }.
Definition upd {A} (f : nat -> A) (i : nat) (a : A) : nat -> A := fun j => if j =? i then a else f j.
Definition start : state := {| count := 0; cls := fun _ => 0; hist := fun _ => None; ops := fun _ _ => None; hs := fun _ => []; nh := 0; above := fun _ => []; log := [] |}.
Definition with_hs (s : state) f := {| count := count s; cls := cls s; hist := hist s; ops := ops s; hs := f; nh := nh s; above := above s; log := log s |}.
Definition with_hist (s : state) f n := {| count := count s; cls := cls s; hist := f; ops := ops s; hs := hs s; nh := n; above := above s; log := log s |}.
Definition with_ops (s : state) f := {| count := count s; cls := cls s; hist := hist s; ops := f; hs := hs s; nh := nh s; above := above s; log := log s |}.
Definition with_above (s : state) f := {| count := count s; cls := cls s; hist := hist s; ops := ops s; hs := hs s; nh := nh s; above := f; log := log s |}.
Definition with_log (s : state) o := {| count := count s; cls := cls s; hist := hist s; ops := ops s; hs := hs s; nh := nh s; above := above s; log := log s ++ [o] |}.
Definition with_new (s : state) c h o := {| count := S (count s); cls := upd (cls s) (count s) c; hist := upd (hist s) (count s) h; ops := upd (ops s) (count s) o; hs := hs s; nh := nh s; above := above s; log := log s |}.

Section World.
Variable w : world.
Definition parts (d : option nat) : list nat := match d with Some x => [x] | None => [] end.
(** 245-252: the docstrings of module and class that are not empty *)
Definition prompt (t c : nat) : list nat := parts (module_doc w t) ++ parts (class_doc w c).
(** the cached property [__history__] (367-372): made at the first access and kept in [__dict__] *)
Definition history (s : state) (i : nat) : state * nat :=
  match hist s i with Some h => (s, h) | None => (with_hist (with_hs s (upd (hs s) (nh s) [])) (upd (hist s) i (Some (nh s))) (S (nh s)), nh s) end.
(** [instance.template] (233-253): the operation kept in [__dict__], or a new one; [None]: AttributeError, as the class has no such
    template, or as it cannot be kept and attributes cannot be set on a bound method (239-241) *)
Definition access (s : state) (i t : nat) : state * option bound :=
  if (i <? count s) && has w (cls s i) t then
    match ops s i t with
    | Some b => (s, Some b)
    | None =>
        if plain w (cls s i) then
          let ctx := Some i :: above s t in
          let '(s1, b) := if agent w (cls s i)
            then let '(s1, h) := history s i in (s1, {| bctx := ctx; bhist := Some h; bsys := prompt t (cls s i) |})
            else (s, {| bctx := ctx; bhist := None; bsys := parts (module_doc w t) |}) in
          (with_ops s1 (upd (ops s1) i (upd (ops s1 i) t (Some b))), Some b)
        else (s, None)
    end
  else (s, None).

(** What a program does: make an instance; look up a template on an instance or on a class; [copy.copy]; assign a new dictionary to
    [__history__]; clear the history; call a template, during which tools do things, and which answers or raises. *)
Inductive ev := New (c : nat) | Get (i t : nat) | GetClass (t : nat) | Copy (i : nat) | Assign (i : nat) | Clear (i : nat) | Call (i t q : nat) (tools : list ev) (reply : option nat).
Section Tools.
Variable run : ev -> state -> state.
Fixpoint each (l : list ev) (s : state) : state := match l with [] => s | e :: r => each r (run e s) end.
End Tools.
(** [self] as the prompt sees it *)
Definition self_of (b : bound) : option nat := match bctx b with x :: _ => x | [] => None end.
(** completions.py 670-680: a copy of the history, the system message in front unless there is one, the prompt *)
Definition request (s : state) (b : bound) (q : nat) : list msg :=
  let h := match bhist b with Some h => hs s h | None => [] end in
  (match h with Sys _ :: _ => h | _ => Sys (bsys b) :: h end) ++ [Usr q].
(** [top]: no call is under way (696-702, the history is saved only then) *)
Fixpoint run (top : bool) (e : ev) (s : state) : state :=
  match e with
  | New c => with_new s c None (fun _ => None)
  | Get i t => fst (access s i t)
  | GetClass t => with_above s (upd (above s) t (None :: above s t))
  | Copy i => if i <? count s then with_new s (cls s i) (hist s i) (ops s i) else s
  | Assign i => if i <? count s then with_hist (with_hs s (upd (hs s) (nh s) [])) (upd (hist s) i (Some (nh s))) (S (nh s)) else s
  | Clear i => if (i <? count s) && agent w (cls s i) then let '(s1, h) := history s i in with_hs s1 (upd (hs s1) h []) else s
  | Call i t q tools reply =>
      match access s i t with
      | (s1, None) => with_log s1 (Raised i t)
      | (s1, Some b) =>
          let l := request s1 b q in
          let s2 := each (run false) tools (with_log s1 (Sent i t (self_of b) l)) in
          match reply, bhist b with
          | Some r, Some h => if top then with_hs s2 (upd (hs s2) h (l ++ [Asst r])) else s2
          | _, _ => s2
          end
      end
  end.
Definition program (l : list ev) : state := each (run true) l start.
End World.
