(** Model of how the current interpretation is stored per thread, at the
    granularity at which other threads can run in between; and of blocks left in
    any order within one thread. *)
From Coq Require Import List Arith Bool.
Import ListNotations.
Set Implicit Arguments.

Section Threads.
(** Interpretations are opaque here; [empty] is the empty dict. *)
Variable I : Type.
Variable empty : I.

(** What a thread does with the library.
    - [AInterp i]: enter [with interpreter(i)] (effectful/internals/runtime.py:25-33);
    - [AHandler f]: enter [with handler(j)], where [f] maps the current
      interpretation to its coproduct with [j] (effectful/ops/semantics.py:106-115);
    - [AExit]: leave the innermost block (the [finally] of runtime.py:32-33);
    - [ALook]: read the current interpretation, as every operation call does
      (effectful/ops/types.py:511). *)
Inductive act := AInterp (i : I) | AHandler (f : I -> I) | AExit | ALook.

(** [Runtime] objects are numbered. A [Runtime] is a [threading.local]
    (runtime.py:11-13): one attribute [interpretation] per thread, initialised to
    the empty dict at the thread's first access (runtime.py:18). *)
Record mem := mkmem {
  cache : option nat;                  (* the entry of lru_cache(maxsize=1), runtime.py:16 *)
  fresh : nat;                         (* next Runtime object *)
  attr : nat -> nat -> I               (* Runtime object -> thread -> interpretation *)
}.

Definition upd (m : mem) (r t : nat) (i : I) : mem :=
  mkmem (cache m) (fresh m)
    (fun r' t' => if (r' =? r) && (t' =? t) then i else attr m r' t').

(** Where a thread is inside a call to [get_runtime()].
    [Missed]: the lookup found nothing and the function body is about to run;
    [Made r]: the body has built Runtime [r]; it is not in the cache yet. CPython's
    lru_cache does not lock around the call, and when the entry has been filled in
    the meantime it returns the computed object without storing it. *)
Inductive gr := GStart | GMissed | GMade (r : nat).

(** Continuation of an action after its current [get_runtime()] returns.
    [handler] calls [get_runtime()] once to read the current interpretation
    (semantics.py:114, runtime.py:21-22), then again in [interpreter] (runtime.py:27). *)
Inductive phase := PRead (f : I -> I) | PSet (i : I) | PLook.

Record thread := mkth {
  todo : list act;
  pc : option (phase * gr);            (* None: between actions *)
  saved : list (nat * I);              (* [r] and [old_intp] of the open blocks, innermost first *)
  seen : list I                        (* results of ALook, newest first *)
}.

Definition th0 (p : list act) : thread := mkth p None [] [].

(** One step of thread [t]; a finished thread stays put. *)
Definition tstep (t : nat) (th : thread) (m : mem) : thread * mem :=
  match pc th with
  | None =>
      match todo th with
      | [] => (th, m)
      | AInterp i :: p => (mkth p (Some (PSet i, GStart)) (saved th) (seen th), m)
      | AHandler f :: p => (mkth p (Some (PRead f, GStart)) (saved th) (seen th), m)
      | ALook :: p => (mkth p (Some (PLook, GStart)) (saved th) (seen th), m)
      | AExit :: p =>
          match saved th with
          | [] => (mkth p None [] (seen th), m)   (* no open block: cannot happen in Python *)
          | (r, old) :: s => (mkth p None s (seen th), upd m r t old)
          end
      end
  | Some (ph, g) =>
      let finish r m :=
        match ph with
        | PRead f => (mkth (todo th) (Some (PSet (f (attr m r t)), GStart)) (saved th) (seen th), m)
        | PSet i => (mkth (todo th) None ((r, attr m r t) :: saved th) (seen th), upd m r t i)
        | PLook => (mkth (todo th) None (saved th) (attr m r t :: seen th), m)
        end in
      match g with
      | GStart =>
          match cache m with
          | Some r => finish r m
          | None => (mkth (todo th) (Some (ph, GMissed)) (saved th) (seen th), m)
          end
      | GMissed =>
          (mkth (todo th) (Some (ph, GMade (fresh m))) (saved th) (seen th),
           mkmem (cache m) (S (fresh m)) (attr m))
      | GMade r =>
          match cache m with
          | Some _ => finish r m
          | None => finish r (mkmem (Some r) (fresh m) (attr m))
          end
      end
  end.

Record sys := mksys { threads : nat -> thread; memory : mem }.

Definition sstep (s : sys) (t : nat) : sys :=
  let '(th', m') := tstep t (threads s t) (memory s) in
  mksys (fun t' => if t' =? t then th' else threads s t') m'.

(** Run a schedule: the list of threads that take a step. *)
Definition run (s : sys) (sched : list nat) : sys := fold_left sstep sched s.

(** Initial memory: first use of the library, or after some use. *)
Definition cold : mem := mkmem None 0 (fun _ _ => empty).
Definition warm : mem := mkmem (Some 0) 1 (fun _ _ => empty).

End Threads.

(** ** Blocks within one thread, left in any order *)

Section Blocks.
Variable I : Type.

(** A block entered inside a generator stays open while the generator is
    suspended, so exits need not be last-in-first-out. Each block keeps its own
    [old_intp] (runtime.py:28-33). *)
Inductive bev := BEnter (id : nat) (f : I -> I) | BExit (id : nat).

Record bst := mkb { cur : I; olds : list (nat * I) }.

Fixpoint blookup (l : list (nat * I)) (id : nat) : option I :=
  match l with
  | [] => None
  | (k, i) :: l' => if k =? id then Some i else blookup l' id
  end.

Definition bstep (s : bst) (e : bev) : bst :=
  match e with
  | BEnter id f => mkb (f (cur s)) ((id, cur s) :: olds s)
  | BExit id =>
      match blookup (olds s) id with
      | Some i => mkb i (filter (fun p => negb (fst p =? id)) (olds s))
      | None => s
      end
  end.

Definition brun (s : bst) (l : list bev) : bst := fold_left bstep l s.

End Blocks.
