(** Model of the evaluation providers and the session (effectful/handlers/llm/evaluation.py):
    [UnsafeEvalProvider.exec] (448-458), [RestrictedEvalProvider.exec] (523-565), [ReplSession]
    (586-688). Code is any deterministic program that binds, deletes and reads global names,
    defines functions reading a global of the namespace they were defined in, calls them, prints,
    raises or exits. Not modelled: RestrictedPython's static checks, code that moves the position
    of the output buffers, [linecache] (a snippet comes with its source). *)
From Coq Require Import String List Bool Arith.
Import ListNotations.
Local Open Scope string_scope.

(** Values: told apart by identity. A reader is a function [def k(): return x] of the namespace
    [home]; [VLib] are the objects the restricted provider puts in. *)
Inductive value := VAtom (n : nat) | VReader (home : nat) (x : string) | VLib (s : string).
Definition value_eqb (a b : value) : bool :=
  match a, b with
  | VAtom n, VAtom m => Nat.eqb n m
  | VReader h x, VReader h' x' => Nat.eqb h h' && String.eqb x x'
  | VLib s, VLib s' => String.eqb s s'
  | _, _ => false
  end.
(** Namespaces (dictionaries) and the heap of them. *)
Definition ns : Type := string -> option value.
Definition upd (s : ns) (k : string) (o : option value) : ns := fun x => if String.eqb x k then o else s x.
Record heap := Heap { next : nat; space : nat -> ns }.
Definition write (h : heap) (i : nat) (s : ns) : heap := Heap (next h) (fun x => if Nat.eqb x i then s else space h x).
Definition alloc (h : heap) (s : ns) : nat * heap :=
  (next h, Heap (S (next h)) (fun x => if Nat.eqb x (next h) then s else space h x)).

Inductive prog :=
| PDone
| PRaise (traceback : string)
| PExit
| POut (s : string) (p : prog)
| PErr (s : string) (p : prog)
| PSet (k : string) (v : value) (p : prog)
| PDel (k : string) (p : prog)
| PDef (k x : string) (p : prog)
| PGet (k : string) (f : option value -> prog)
| PCall (k : string) (f : option value -> prog).       (* [None]: not a function, or its global is missing *)

Inductive ending := EndOk | EndRaise (traceback : string) | EndExit.

(** The interpreter state: namespaces, and the buffers that stdout and stderr go to. *)
Record state := State { mem : heap; out : string; err : string }.

(** [builtins.exec(bytecode, ns, ns)] with the namespace [i] *)
Fixpoint run (i : nat) (p : prog) (st : state) : ending * state :=
  let set o k := State (write (mem st) i (upd (space (mem st) i) k o)) (out st) (err st) in
  match p with
  | PDone => (EndOk, st)
  | PRaise tb => (EndRaise tb, st)
  | PExit => (EndExit, st)
  | POut s p => run i p (State (mem st) (out st ++ s) (err st))
  | PErr s p => run i p (State (mem st) (out st) (err st ++ s))
  | PSet k v p => run i p (set (Some v) k)
  | PDel k p => run i p (set None k)
  | PDef k x p => run i p (set (Some (VReader i x)) k)
  | PGet k f => run i (f (space (mem st) i k)) st
  | PCall k f =>
      run i (f (match space (mem st) i k with
                | Some (VReader home x) => space (mem st) home x
                | _ => None
                end)) st
  end.

(** [UnsafeEvalProvider.exec] (448-458) on the namespace [e] *)
Definition exec_unsafe (e : nat) (p : prog) (st : state) : ending * state :=
  let s := space (mem st) e in
  let s := match s "__builtins__" with Some _ => s | None => upd s "__builtins__" (Some (VLib "builtins")) end in
  run e p (State (write (mem st) e s) (out st) (err st)).

(** The namespace restricted code runs in (530-552): [safe_globals] holds the restricted builtins *)
Definition layered (s : ns) : ns :=
  let r : ns := fun _ => None in
  let r := upd r "__builtins__" (Some (VLib "safe_builtins")) in
  let r := upd r "__metaclass__" (Some (VLib "type")) in
  let r := upd r "__name__" (Some (VLib "restricted")) in
  let r : ns := fun k => if String.eqb k "__builtins__" then r k else match s k with Some v => Some v | None => r k end in
  let r := upd r "_getiter_" (Some (VLib "default_guarded_getiter")) in
  let r := upd r "_iter_unpack_sequence_" (Some (VLib "guarded_iter_unpack_sequence")) in
  let r := upd r "getattr" (Some (VLib "safer_getattr")) in
  let r := upd r "setattr" (Some (VLib "guarded_setattr")) in
  let r := upd r "_write_" (Some (VLib "_write_")) in
  upd r "_print_" (Some (VLib "_StdoutPrintCollector")).
Definition same (a b : option value) : bool :=
  match a, b with Some v, Some w => value_eqb v w | None, None => true | _, _ => false end.
(** [env.update(...)] (558-565) *)
Definition copy_back (before after env : ns) : ns := fun k =>
  match after k with
  | Some v => if String.eqb k "__builtins__" || same (before k) (Some v) then env k else Some v
  | None => env k
  end.
(** [RestrictedEvalProvider.exec] (523-565); on an exception or exit nothing is copied back *)
Definition exec_restricted (e : nat) (p : prog) (st : state) : ending * state :=
  let before := layered (space (mem st) e) in
  let (i, h) := alloc (mem st) before in
  let (o, st') := run i p (State h (out st) (err st)) in
  match o with
  | EndOk => (o, State (write (mem st') e (copy_back before (space (mem st') i) (space (mem st') e))) (out st') (err st'))
  | _ => (o, st')
  end.
Definition exec (restricted : bool) : nat -> prog -> state -> ending * state :=
  if restricted then exec_restricted else exec_unsafe.

(** A session: its namespace, what it has recorded, and the state around it. *)
Record session := Session { scope : nat; prior : list string; st : state }.

(** Looking a name up in a [ChainMap] of namespaces *)
Fixpoint chain_get (h : heap) (maps : list nat) (k : string) : option value :=
  match maps with
  | [] => None
  | i :: maps' => match space h i k with Some v => Some v | None => chain_get h maps' k end
  end.
(** [ReplSession.__init__] (610-633): a flat copy of the environment, put in front of it *)
Definition start (maps : list nat) (h : heap) : session * list nat :=
  let (i, h') := alloc h (chain_get h maps) in
  (Session i [] (State h' "" ""), i :: maps).

(** [exec_code] (653-688) with [runcode] (641-651): [None] if [SystemExit] propagates *)
Definition exec_code (restricted : bool) (source : string) (p : prog) (s : session) : option string * session :=
  let out_start := String.length (out (st s)) in
  let err_start := String.length (err (st s)) in
  let prior' := (prior s ++ [source])%list in
  let (o, t) := exec restricted (scope s) p (st s) in
  let t := match o with EndRaise tb => State (mem t) (out t) (err t ++ tb) | _ => t end in
  let result := substring out_start (String.length (out t) - out_start) (out t) ++
                substring err_start (String.length (err t) - err_start) (err t) in
  (match o with EndExit => None | _ => Some result end, Session (scope s) prior' t).
Fixpoint exec_all (restricted : bool) (l : list (string * prog)) (s : session) : list (option string) * session :=
  match l with
  | [] => ([], s)
  | (src, p) :: l' =>
      let (r, s) := exec_code restricted src p s in
      let (rs, s) := exec_all restricted l' s in (r :: rs, s)
  end.
