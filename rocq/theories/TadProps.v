(** C89: [Encodable[T]] reads what stands for a value of [T]. *)
From Coq Require Import String List Bool Arith ZArith.
From Verif Require Import TadModel TadSpec TadProofs.
Import ListNotations.
Local Open Scope list_scope.

(** For every encoding of the registered types, every meaning of constraints and every good type, the adapter is made, and it reads from JSON exactly the values that the
    JSON stands for, with the registered types in their encoding at any depth of containers, tuples, unions, annotations, new types and aliases. *)
Theorem C89_reads_partial : forall codec holds item t, good t ->
  forall j v, encodable codec holds item t j = Some v <-> reads codec holds item t j v.
Proof. exact encodable_reads. Qed.
Print Assumptions C89_reads_partial.
Example C89_reads_example : good sample /\
  encodable cpx positive items sample (JList [JStr "x"; JObj [("item_0"%string, i_unit); ("item_1"%string, JNum 3)]; JList [i_unit; JNum 4]])
  = Some (VList 0 [VStr "x"; VTup [VSpecial 0 i_unit; VNum 3]; VTup [VSpecial 0 i_unit; VNum 4]]).
Proof. split; [exact sample_good|reflexivity]. Qed.

(** A type is refused ([TypeError]) if and only if a term or an operation occurs in it outside of classes, named tuples and generic aliases. *)
Theorem C89_refused : forall t, adapt t = None <-> mentions t.
Proof. exact refused_iff. Qed.
Print Assumptions C89_refused.
Example C89_refused_example : mentions (Listy 0 (Tup [TInt; Union [TStr; Forbidden 0]])) /\ ~ mentions sample.
Proof.
  split.
  - constructor. constructor. apply Exists_cons_tl. apply Exists_cons_hd. constructor. apply Exists_cons_tl. apply Exists_cons_hd. constructor.
  - intros H. apply mentions_refused in H. discriminate.
Qed.

(** Constraints of [Annotated] are lost: 0 is read for a positive number. *)
Theorem C89_constraint_refuted : exists t j v,
  encodable cpx positive items t j = Some v /\ (forall w, ~ reads cpx positive items t j w).
Proof. exact constraint_refuted. Qed.
Print Assumptions C89_constraint_refuted.

(** A registered type in a field of a class is not read. *)
Theorem C89_class_refuted : exists t j v, reads cpx positive items t j v /\ encodable cpx positive items t j = None.
Proof. exact class_refuted. Qed.
Print Assumptions C89_class_refuted.

(** A tuple in a field of a class is not written as it is elsewhere. *)
Theorem C89_class_tuple_refuted : exists t j v, reads cpx positive items t j v /\ encodable cpx positive items t j = None /\
  (exists j', encodable cpx positive items (Tup [TInt]) j' = Some (VTup [VNum 5]) /\
              encodable cpx positive items t (JObj [("p"%string, j')]) = None).
Proof. exact class_tuple_refuted. Qed.
Print Assumptions C89_class_tuple_refuted.

(** Nor is a registered type in a field of a named tuple. *)
Theorem C89_named_tuple_refuted : exists t j v, reads cpx positive items t j v /\ encodable cpx positive items t j = None.
Proof. exact named_tuple_refuted. Qed.
Print Assumptions C89_named_tuple_refuted.

(** Nor what a generic alias stands for, though the same alias without parameters is. *)
Theorem C89_generic_refuted : exists t j v, reads cpx positive items (GAlias t) j v /\
  encodable cpx positive items (GAlias t) j = None /\ encodable cpx positive items (Alias t) j = Some v.
Proof. exact generic_refuted. Qed.
Print Assumptions C89_generic_refuted.

(** The empty tuple is read from anything. *)
Theorem C89_empty_tuple_refuted : exists t j v,
  encodable cpx positive items t j = Some v /\ (forall w, ~ reads cpx positive items t j w).
Proof. exact empty_tuple_refuted. Qed.
Print Assumptions C89_empty_tuple_refuted.

(** An alias that mentions itself under a list has no end. *)
Theorem C89_recursive_refuted : exists env n, (forall k, env k <> NAlias k) /\ forall fuel, adapt_alias fuel env (NAlias n) = None.
Proof. exact recursive_refuted. Qed.
Print Assumptions C89_recursive_refuted.
