(** Property theorems about threads and block order. *)
From Coq Require Import List Arith.
From Verif Require Import ThreadModel ThreadProofs.
Import ListNotations.

(** C11. Whatever the other threads do and however the threads are scheduled, even
    at first use of the library, everything thread [t] ever sees satisfies every
    property that holds of "no handlers" and is kept by [t]'s own blocks: nothing
    installed by another thread is ever visible to [t]. *)
Theorem C11_never_sees_other_threads :
  forall (I : Type) (empty : I) (P : I -> Prop) (m0 : mem I) progs sched t,
  (m0 = cold empty \/ m0 = warm empty) ->
  P empty ->
  Forall (fun a => match a with
                   | AInterp i => P i
                   | AHandler f => forall x, P x -> P (f x)
                   | _ => True
                   end) (progs t) ->
  Forall P (seen (threads (run (start m0 progs) sched) t)).
Proof. exact sees_only_own. Qed.
Print Assumptions C11_never_sees_other_threads.

(** Thread 0 installs label 5 in every list it builds, thread 1 installs label 7:
    the schedule below makes thread 0 see exactly its own label. *)
Definition two (t : nat) : list (act (list nat)) :=
  match t with
  | 0 => [AHandler (cons 5); ALook _; AExit _; ALook _]
  | 1 => [AHandler (cons 7); ALook _; AExit _]
  | _ => []
  end.
Example C11_witness :
  Forall (fun a => match a with
                   | AInterp i => ~ In 7 i
                   | AHandler f => forall x, ~ In 7 x -> ~ In 7 (f x)
                   | _ => True
                   end) (two 0) /\
  seen (threads (run (start (warm []) two) [0;1;0;1;0;1;0;0;1;1;0;0;0;0;1]) 0) = [[]; [5]].
Proof.
  split; [|vm_compute; reflexivity].
  repeat constructor. intros x Hx [H|H]; [discriminate H|exact (Hx H)].
Qed.

(** C11, C12. Once the library has been used, every thread reads exactly what it
    would read if it ran alone, at every moment of every schedule. *)
Theorem C12_as_if_alone_partial :
  forall (I : Type) (empty : I) progs sched t,
  let th := threads (run (start (warm empty) progs) sched) t in
  (exists l, alone (progs t) empty [] [] = l ++ seen th) /\
  (todo th = [] -> pc th = None -> seen th = alone (progs t) empty [] []).
Proof. exact (fun I e progs sched t => conj (warm_prefix e progs sched t) (@warm_as_alone I e progs sched t)). Qed.
Print Assumptions C12_as_if_alone_partial.

Example C12_partial_witness :
  let th := threads (run (start (warm []) two) [0;1;0;1;0;1;0;0;1;1;0;0;0;0;1]) 0 in
  todo th = [] /\ pc th = None /\ seen th = alone (two 0) [] [] [].
Proof. vm_compute. repeat split. Qed.

(** The warm state is what the first completed use leaves behind. *)
Example C12_warm_is_reached :
  let m := memory (run (start (cold []) (fun _ => [ALook (list nat)])) [0;0;0;0]) in
  cache m = cache (warm (I := list nat) []) /\ fresh m = fresh (warm (I := list nat) []) /\
  forall r t, attr m r t = attr (warm []) r t.
Proof. repeat split. Qed.

(** C12 is false at concurrent first use: a thread installs a handler and its very
    next lookup, inside the block, does not see it. *)
Theorem C12_first_use_refuted :
  exists (progs : nat -> list (act (list nat))) sched,
    let th := threads (run (start (cold []) progs) sched) 0 in
    progs 0 = [AInterp [5]; ALook _; AExit _] /\
    todo th = [] /\ pc th = None /\
    alone (progs 0) [] [] [] = [[5]] /\
    seen th = [[]].
Proof.
  exact (ex_intro _ (fun t => match t with 0 => [AInterp [5]; ALook _; AExit _] | 1 => [ALook _] | _ => [] end)
    (ex_intro _ [0;0;0; 1;1;1;1; 0; 0;0; 0]
      (conj eq_refl (conj eq_refl (conj eq_refl (conj eq_refl eq_refl)))))).
Qed.
Print Assumptions C12_first_use_refuted.

(** C13 holds when blocks are left last-in-first-out. *)
Theorem C13_nested_restores_partial :
  forall (I : Type) ids (l : list (bev I)) ids' (s : bst I),
  nested ids l ids' -> incl (map fst (olds s)) ids -> brun s l = s.
Proof. exact (fun I ids l ids' s H => nested_restores H s). Qed.
Print Assumptions C13_nested_restores_partial.

Example C13_partial_witness :
  nested [] [BEnter 1 (cons 1); BEnter 2 (cons 2); BExit (list nat) 2; BExit _ 1; BEnter 3 (cons 3); BExit _ 3] [3; 2; 1].
Proof.
  refine (@n_block _ [] [2; 1] [3; 2; 1] 1 (cons 1) [BEnter 2 (cons 2); BExit _ 2] [BEnter 3 (cons 3); BExit _ 3] _ _ _).
  - intros [].
  - refine (@n_block _ [1] [2; 1] [2; 1] 2 (cons 2) [] [] _ (n_nil _ _) (n_nil _ _)).
    cbn. intuition discriminate.
  - refine (@n_block _ [2; 1] [3; 2; 1] [3; 2; 1] 3 (cons 3) [] [] _ (n_nil _ _) (n_nil _ _)).
    cbn. intuition discriminate.
Qed.

(** C13 is false in general: two blocks entered as 1, 2 and left as 1, 2 leave
    block 1's handler in force for good. *)
Theorem C13_any_order_refuted :
  exists l : list (bev (list nat)),
    l = [BEnter 1 (cons 1); BEnter 2 (cons 2); BExit _ 1; BExit _ 2] /\
    brun (mkb [] []) l = mkb [1] [].
Proof. exact (ex_intro _ _ (conj eq_refl eq_refl)). Qed.
Print Assumptions C13_any_order_refuted.
