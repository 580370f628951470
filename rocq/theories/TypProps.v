(** Properties of type inference. *)
From Coq Require Import List Bool Arith.
From Verif Require Import UnifModel UnifSpec UnifExamples TypModel TypSpec TypProofs TypExamples.
Import ListNotations.

(** C57: whatever a term evaluates to is an instance of its [typeof], if the handlers return what the
    signatures say. Partial: types as [tame] and [plain_table] say; refuted beyond. *)
Theorem C57_typeof_sound_partial : forall T vbound V (inhabits : V -> ty -> Prop) tuple coll sigs impl fuel,
  plain_table T vbound -> universe T inhabits tuple coll -> respects T V inhabits sigs impl ->
  forall e n t v, typeof T vbound sigs fuel e n = Ok t -> evals V inhabits tuple coll impl e v -> tame T sigs fuel e -> inhabits v t.
Proof. intros T vbound V inhabits tuple coll sigs impl fuel PT U RS. exact (typeof_sound T vbound PT V inhabits tuple coll U sigs impl RS fuel). Qed.
Print Assumptions C57_typeof_sound_partial.
(** The same of the type found inside, with its arguments. *)
Theorem C57_inferred_sound_partial : forall T vbound V (inhabits : V -> ty -> Prop) tuple coll sigs impl fuel,
  plain_table T vbound -> universe T inhabits tuple coll -> respects T V inhabits sigs impl ->
  forall e n t n' v, infer T sigs fuel e n = Ok (t, n') -> ground t -> evals V inhabits tuple coll impl e v -> tame T sigs fuel e -> inhabits v t.
Proof. intros T vbound V inhabits tuple coll sigs impl fuel PT U RS. exact (infer_sound T vbound PT V inhabits tuple coll U sigs impl RS fuel). Qed.
Print Assumptions C57_inferred_sound_partial.
(** [wrap(first((1, True), 2))] is a [Box[int]] *)
Example C57_example : plain_table farm (fun _ => CObject) /\ universe farm inh Tup Coll /\ respects farm value inh ops runs /\
  tame farm ops 9 wrapped /\ evals value inh Tup Coll runs wrapped (Coll Box [Atom Bool]) /\
  infer farm ops 9 wrapped 10 = Ok (TApp Box [TCon Int], 80) /\ typeof farm (fun _ => CObject) ops 9 wrapped 10 = Ok (TCon Box).
Proof.
  split; [exact farm_plain|]. split; [exact farm_universe|]. split; [exact runs_respects|]. split; [exact wrapped_tame|].
  split; [exact wrapped_evals|]. split; reflexivity.
Qed.
(** Refuted for collections of mixed types: their type says nothing about the items, but goes where one
    that does is wanted. [first([1, "a"], "b")] is a [str] and may be 1. *)
Theorem C57_mixed_refuted : exists e v t, plain_table farm (fun _ => CObject) /\ universe farm inh Tup Coll /\ respects farm value inh ops runs /\
  (forall n, typeof farm (fun _ => CObject) ops 9 e n = Ok t) /\ evals value inh Tup Coll runs e v /\ ~ inh v t.
Proof.
  exists (ECall 0 [EColl List_ [EVal Int; EVal Str]; EVal Str]), (Atom Int), (TCon Str).
  split; [exact farm_plain|]. split; [exact farm_universe|]. split; [exact runs_respects|]. split; [reflexivity|]. split; [|discriminate].
  apply ev_call with [Coll List_ [Atom Int; Atom Str]; Atom Str]; [|right; now left].
  constructor; [apply ev_coll; repeat constructor|]. repeat constructor.
Qed.
Print Assumptions C57_mixed_refuted.
(** Refuted for classes that are generic ones without being generic: a text goes where a sequence of
    integers is wanted. [first("abc", 1)] is an [int] and may be "a". *)
Theorem C57_text_refuted : exists e v t, respects town value (inh_in town) ops takes /\
  (forall n, typeof town (fun _ => CObject) ops 9 e n = Ok t) /\ evals value (inh_in town) Tup Coll takes e v /\ ~ inh_in town v t.
Proof.
  exists (ECall 0 [EVal Str; EVal Int]), (Atom Str), (TCon Int). split; [exact takes_respects|]. split; [reflexivity|]. split; [|discriminate].
  apply ev_call with [Coll Str [Atom Str]; Atom Int]; [|right; now left]. repeat constructor.
Qed.
Print Assumptions C57_text_refuted.
(** Refuted for the arithmetic of number terms (effectful/ops/syntax.py 1006-1330), whose methods leave
    [self] without annotation: 1.5 + 2 is an [int]. *)
Theorem C57_number_refuted : exists e v t, ops 4 = TSig [None; Some (TVar 0)] None (Some (TVar 0)) /\
  (forall n, typeof farm (fun _ => CObject) ops 9 e n = Ok t) /\ evals value inh Tup Coll python e v /\ ~ inh v t.
Proof.
  exists (ECall 4 [EVal Float; EVal Int]), (Atom Float), (TCon Int). split; [reflexivity|]. split; [reflexivity|]. split; [|discriminate].
  apply ev_call with [Atom Float; Atom Int]; [|reflexivity]. repeat constructor.
Qed.
Print Assumptions C57_number_refuted.

(** A collection of one or more values of one class is of that item type, if its type takes one. *)
Theorem C57_items : forall T sigs fuel c d x k n, canon T fuel (TCon c) = Ok (TCon d) -> generic T d = true ->
  infer T sigs fuel (EColl c (repeat (EVal x) (S k))) n = Ok (TApp d [TCon x], n).
Proof. exact infer_items. Qed.
Print Assumptions C57_items.
(** A list of ints is a [MutableSequence[int]]. *)
Example C57_items_example : canon farm 9 (TCon (CUser 3)) = Ok (TCon MutableSequence) /\ generic farm MutableSequence = true.
Proof. split; reflexivity. Qed.
