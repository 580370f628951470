(** C93: a program over a free iterable means that program over the iterable. Programs take elements with [iter] and [next] and
    return a sum; [trace] is what they build while the iterables are free, [ev] the evaluation of that term once the iterables are
    given by a handler, [runs] what the program does on the iterables themselves. *)
From Coq Require Import List ZArith Arith Lia.
From Verif Require Import ItModel ItSpec ItProofs.
Import ListNotations.
Local Open Scope list_scope.

(** Collections and one-shot iterators alike, the elements being used once each in the order they were taken and no iterator of a
    collection being advanced twice: the same number, the same elements left in the given iterators, and StopIteration for
    StopIteration. *)
Theorem C93_in_order :
  forall env fuel h0 p o, (forall s i, env s = VIt i -> i < length h0) -> runs env h0 [] [] p o -> once_each env [] [] 0 p -> in_order 0 p ->
  exists t, trace fuel p [] [] = Ok t /\
  match o with
  | ODone z h' => exists H', ev env t h0 = Ok (VNum z, H') /\ firstn (length h0) H' = firstn (length h0) h'
  | OStop => ev env t h0 = Stop
  end.
Proof. exact iterators. Qed.
Print Assumptions C93_in_order.

(** [it = iter(xs); a = next(it); b = next(iter(ys)); c = next(it); return a + (b + c)], [xs] a one-shot iterator, [ys] a list *)
Definition ex_p := PIter 0 (PNext 0 (PIter 1 (PNext 1 (PNext 0 (PRet (PAdd (PVal 0) (PAdd (PVal 1) (PVal 2)))))))).
Definition ex_env (s : nat) : val := match s with 0 => VIt 0 | _ => VSeq [10%Z; 20%Z] end.
Example C93_in_order_example :
  (forall s i, ex_env s = VIt i -> i < 1) /\ once_each ex_env [] [] 0 ex_p /\ in_order 0 ex_p /\
  runs ex_env [[1; 2; 3]%Z] [] [] ex_p (ODone 13 [[3]; [20]]%Z) /\ runs ex_env [[1]%Z] [] [] ex_p OStop.
Proof.
  split; [intros [|s] i E; [injection E as <-; apply le_n|discriminate]|]. split; [|split; [|split]].
  - apply oe_iter. apply oe_iterator with 0 0 0; [reflexivity|reflexivity|]. apply oe_iter. apply oe_list with 1 1 [10%Z; 20%Z]; [reflexivity|reflexivity|intros []|].
    apply oe_iterator with 0 0 0; [reflexivity|reflexivity|]. apply oe_ret.
  - repeat constructor.
  - apply ru_iterator with 0; [reflexivity|]. apply (ru_next ex_env [] 1%Z [2; 3]%Z []); [reflexivity|]. apply ru_list with [10; 20]%Z; [reflexivity|].
    apply (ru_next ex_env [[2; 3]%Z] 10%Z [20]%Z []); [reflexivity|]. apply (ru_next ex_env [] 2%Z [3]%Z [[20]%Z]); [reflexivity|].
    apply ru_ret. apply (va_add _ _ _ 1 12); [constructor; reflexivity|]. apply (va_add _ _ _ 10 2); constructor; reflexivity.
  - apply ru_iterator with 0; [reflexivity|]. apply (ru_next ex_env [] 1%Z [] []); [reflexivity|]. apply ru_list with [10; 20]%Z; [reflexivity|].
    apply (ru_next ex_env [[]] 10%Z [20]%Z []); [reflexivity|]. apply (ru_stop ex_env [] [[20]%Z]). reflexivity.
Qed.

(** Collections only, no iterator advanced twice: the elements may be used any number of times, in any order. *)
Theorem C93_collections :
  forall env fuel, (forall s, exists l, env s = VSeq l) -> forall p z h', runs env [] [] [] p (ODone z h') -> once_each env [] [] 0 p ->
  exists t, trace fuel p [] [] = Ok t /\ forall h, exists H, ev env t h = Ok (VNum z, H).
Proof. exact collections. Qed.
Print Assumptions C93_collections.

(** What is computed however often the iterators are advanced: every [next] is the first element of the collection. *)
Theorem C93_first_elements :
  forall env fuel p z, firsts env [] [] p z ->
  exists t, trace fuel p [] [] = Ok t /\ forall h, exists H, ev env t h = Ok (VNum z, H).
Proof. intros env fuel p z F. exact (firsts_evaluated env fuel [] [] p z F [] [] (Forall2_nil _) (Forall2_nil _)). Qed.
Print Assumptions C93_first_elements.

Definition two := PIter 0 (PNext 0 (PNext 0 (PRet (PAdd (PVal 0) (PVal 1))))).
Definition lst (_ : nat) : val := VSeq [1; 2]%Z.
Example C93_collections_example :
  let p := PIter 0 (PIter 1 (PNext 0 (PNext 1 (PRet (PAdd (PVal 1) (PAdd (PVal 0) (PVal 1))))))) in
  runs lst [] [] [] p (ODone 3 [[2]; [2]]%Z) /\ once_each lst [] [] 0 p.
Proof.
  split.
  - apply ru_list with [1; 2]%Z; [reflexivity|]. apply ru_list with [1; 2]%Z; [reflexivity|]. apply (ru_next lst [] 1%Z [2]%Z [[1; 2]%Z]); [reflexivity|].
    apply (ru_next lst [[2]%Z] 1%Z [2]%Z []); [reflexivity|]. apply ru_ret. apply (va_add _ _ _ 1 2); [constructor; reflexivity|]. apply (va_add _ _ _ 1 1); constructor; reflexivity.
  - apply oe_iter. apply oe_iter. apply oe_list with 0 0 [1; 2]%Z; [reflexivity|reflexivity|intros []|].
    apply oe_list with 1 1 [1; 2]%Z; [reflexivity|reflexivity|intros [H|[]]; discriminate|]. apply oe_ret.
Qed.
Example C93_first_elements_example : firsts lst [] [] two 2.
Proof.
  apply fi_iter. apply fi_next with 0 1%Z [2]%Z; [reflexivity|reflexivity|]. apply fi_next with 0 1%Z [2]%Z; [reflexivity|reflexivity|].
  apply fi_ret. apply (va_add _ _ _ 1 1); constructor; reflexivity.
Qed.

(** *** What differs *)
(** [it = iter(xs); next(it) + next(it)] of a list is twice its first element. *)
Theorem C93_next_twice_refuted :
  exists env p z h' t z' H, runs env [] [] [] p (ODone z h') /\ trace 0 p [] [] = Ok t /\ ev env t [] = Ok (VNum z', H) /\ z <> z'.
Proof.
  exists lst, two, 3%Z, [[]]. do 3 eexists. split; [|split; [reflexivity|split; [vm_compute; reflexivity|discriminate]]].
  apply ru_list with [1; 2]%Z; [reflexivity|]. apply (ru_next lst [] 1%Z [2]%Z []); [reflexivity|]. apply (ru_next lst [] 2%Z [] []); [reflexivity|].
  apply ru_ret. apply (va_add _ _ _ 1 2); constructor; reflexivity.
Qed.
Print Assumptions C93_next_twice_refuted.

(** [x = next(it); x + x] of a one-shot iterator takes two elements. *)
Theorem C93_used_twice_refuted :
  exists env h p z h' t z' H, runs env h [] [] p (ODone z h') /\ once_each env [] [] 0 p /\ trace 0 p [] [] = Ok t /\ ev env t h = Ok (VNum z', H) /\ z <> z' /\ h' <> H.
Proof.
  exists (fun _ => VIt 0), [[1; 2]%Z], (PIter 0 (PNext 0 (PRet (PAdd (PVal 0) (PVal 0))))), 2%Z, [[2]%Z]. do 3 eexists.
  split; [|split; [|split; [reflexivity|split; [vm_compute; reflexivity|split; discriminate]]]].
  - apply ru_iterator with 0; [reflexivity|]. apply (ru_next _ [] 1%Z [2]%Z []); [reflexivity|]. apply ru_ret. apply (va_add _ _ _ 1 1); constructor; reflexivity.
  - apply oe_iter. apply oe_iterator with 0 0 0; [reflexivity|reflexivity|]. apply oe_ret.
Qed.
Print Assumptions C93_used_twice_refuted.

(** Skipping the header, [next(it); return next(it)], does not skip it: an element that is not used is not taken. *)
Theorem C93_skipped_refuted :
  exists env h p z h' t z' H, runs env h [] [] p (ODone z h') /\ once_each env [] [] 0 p /\ trace 0 p [] [] = Ok t /\ ev env t h = Ok (VNum z', H) /\ z <> z'.
Proof.
  exists (fun _ => VIt 0), [[1; 2]%Z], (PIter 0 (PNext 0 (PNext 0 (PRet (PVal 1))))), 2%Z, [[]]. do 3 eexists.
  split; [|split; [|split; [reflexivity|split; [vm_compute; reflexivity|discriminate]]]].
  - apply ru_iterator with 0; [reflexivity|]. apply (ru_next _ [] 1%Z [2]%Z []); [reflexivity|]. apply (ru_next _ [] 2%Z [] []); [reflexivity|]. apply ru_ret. constructor. reflexivity.
  - apply oe_iter. apply oe_iterator with 0 0 0; [reflexivity|reflexivity|]. apply oe_iterator with 0 0 0; [reflexivity|reflexivity|]. apply oe_ret.
Qed.
Print Assumptions C93_skipped_refuted.

(** StopIteration of an element that is not used is lost. *)
Theorem C93_empty_unused_refuted :
  exists env p t H, runs env [] [] [] p OStop /\ once_each env [] [] 0 p /\ trace 0 p [] [] = Ok t /\ ev env t [] = Ok (VNum 7, H).
Proof.
  exists (fun _ => VSeq []), (PIter 0 (PNext 0 (PRet (PLit 7)))). do 2 eexists. split; [|split; [|split; [reflexivity|vm_compute; reflexivity]]].
  - apply ru_list with []; [reflexivity|]. apply (ru_stop _ [] []). reflexivity.
  - apply oe_iter. apply oe_list with 0 0 []; [reflexivity|reflexivity|intros []|]. apply oe_ret.
Qed.
Print Assumptions C93_empty_unused_refuted.

(** A loop over a free iterable does not end: no amount of steps gives a term, whatever comes before or after it. *)
Theorem C93_loop_differs :
  forall fuel p, loops p -> forall its vs t, trace fuel p its vs <> Ok t.
Proof. exact loops_forever. Qed.
Print Assumptions C93_loop_differs.
Theorem C93_loop_refuted :
  exists env p z h', runs env [] [] [] p (ODone z h') /\ forall fuel, trace fuel p [] [] = Fuel.
Proof.
  exists lst, (PIter 0 (PSum 0 (PRet (PVal 0)))), 3%Z, [[]]. split; [|intros fuel; apply loop_runs_on].
  apply ru_list with [1; 2]%Z; [reflexivity|]. apply (ru_sum _ [] [1; 2]%Z []); [reflexivity|]. apply ru_ret. constructor. reflexivity.
Qed.
Print Assumptions C93_loop_refuted.
Example C93_loop_differs_example : loops (PIter 0 (PNext 0 (PSum 0 (PRet (PVal 0))))).
Proof. repeat constructor. Qed.
