(** Theorems about [syntactic_eq] (C22, C23). [eq_op] is what the operation
    [_NumberTerm.__eq__] does in the current interpretation; [arity] and [fields] describe
    the named tuple and dataclass types. *)
From Coq Require Import List ZArith String Ascii Bool.
From Verif Require Import CmpModel CmpSpec CmpProofs.
Import ListNotations.
Open Scope string_scope.
Open Scope list_scope.

(** Shared example: [{"items": [x() + 1, "ab"]}] against [{"items": (x() + 1, "ab")}]. *)
Definition ex_plus := VTerm true 1 [VTerm true 0 [] []; VAtom (AInt 1)] [].
Definition ex_val (c : seqkind) := VMap [(AStr "items", VSeq c [ex_plus; VAtom (AStr "ab")]); (AInt 3, VData 0 [("f", VTerm false 2 [] [("k", VAtom (AInt 1)); ("l", VSet [AInt 1; AInt 2])])])].
Definition ex_val' (c : seqkind) := VMap [(AInt 3, VData 0 [("f", VTerm false 2 [] [("l", VSet [AInt 2; AInt 1]); ("k", VAtom (AInt 1))])]); (AStr "items", VSeq c [ex_plus; VAtom (AStr "ab")])].
Definition ex_fields (n : nat) : list string := ["f"].
Definition ex_arity (n : nat) : nat := 2.

Ltac split_in H := cbn in H; repeat (destruct H as [<-|H]); try contradiction.
Ltac wf_tac := repeat match goal with
  | |- wf _ _ _ => constructor
  | |- NoDup _ => constructor
  | |- ~ In _ _ => cbn; intuition discriminate
  | |- _ = _ => reflexivity
  | |- forall v, In v _ -> _ => let v := fresh in let H := fresh in intros v H; split_in H
  end.

Example ex_wf c : wf ex_arity ex_fields (ex_val c).
Proof. unfold ex_val, ex_plus. wf_tac. Qed.
Example ex_wf' c : wf ex_arity ex_fields (ex_val' c).
Proof. unfold ex_val', ex_plus. wf_tac. Qed.

(** *** C22 *)

Theorem C22_reflexive :
  forall arity fields eq_op x, wf arity fields x -> syntactic_eq eq_op x x = (OBool true, []).
Proof. exact seq_refl. Qed.
Print Assumptions C22_reflexive.

Example C22_reflexive_example : wf ex_arity ex_fields (ex_val SList).
Proof. exact (ex_wf SList). Qed.

Theorem C22_transitive :
  forall arity fields eq_op x y z, wf arity fields x -> wf arity fields y -> wf arity fields z ->
  syntactic_eq eq_op x y = (OBool true, []) -> syntactic_eq eq_op y z = (OBool true, []) ->
  syntactic_eq eq_op x z = (OBool true, []).
Proof. exact seq_trans. Qed.
Print Assumptions C22_transitive.

Example C22_transitive_example :
  syntactic_eq no_handlers (ex_val SList) (ex_val' STuple) = (OBool true, []) /\
  syntactic_eq no_handlers (ex_val' STuple) (ex_val STuple) = (OBool true, []).
Proof. split; reflexivity. Qed.

(** Symmetric unless the left side has a sequence spelling a text and the right side
    has a text. *)
Theorem C22_symmetric_partial :
  forall arity fields eq_op x y, wf arity fields x -> wf arity fields y ->
  ~ spells x \/ ~ has_text y ->
  syntactic_eq eq_op x y = (OBool true, []) -> syntactic_eq eq_op y x = (OBool true, []).
Proof. exact seq_sym. Qed.
Print Assumptions C22_symmetric_partial.

(** The hypotheses are met by dictionaries of texts: no list spells a text. *)
Example C22_symmetric_example : ~ spells (ex_val SList).
Proof.
  intros H. inversion H as [| | |m v Hv Hs| |]; subst. cbn in Hv. destruct Hv as [<-|[<-|[]]].
  - inversion Hs as [c l a (l' & E & F)|c l v Hv Hs'| | | |]; subst.
    + inversion F as [|x y lx ly H1 H2]; subst. inversion H1; subst. destruct a as [z|s|b|o]; try discriminate E; cbn in E; inversion E.
      * destruct s; discriminate H3.
      * destruct b; discriminate H3.
    + cbn in Hv. destruct Hv as [<-|[<-|[]]]; [|inversion Hs'].
      inversion Hs' as [| | | | |n o a k v Hv Hs'']; subst. cbn in Hv. destruct Hv as [<-|[<-|[]]]; [|inversion Hs''].
      inversion Hs'' as [| | | | |n o a k v Hv Hs3]; subst. destruct Hv.
  - inversion Hs as [| | | |c m v Hv Hs'|]; subst. cbn in Hv. destruct Hv as [<-|[]].
    inversion Hs' as [| | | | |n o a k v Hv Hs'']; subst. cbn in Hv. destruct Hv as [<-|[<-|[]]]; inversion Hs''.
Qed.

(** It decides the documented relation, under the same condition and when no number
    term is compared with something else. *)
Theorem C22_documented_partial :
  forall arity fields eq_op x y, wf arity fields x -> wf arity fields y ->
  ~ spells x \/ ~ has_text y -> ~ meets x y ->
  exists b, syntactic_eq eq_op x y = (OBool b, []) /\ (b = true <-> same false x y).
Proof. exact seq_documented. Qed.
Print Assumptions C22_documented_partial.

(** Exactly: it is True without calling anything iff the values have the same structure
    where a text counts as the sequence of its characters when on the right. *)
Theorem C22_exact :
  forall arity fields eq_op x y, wf arity fields x -> wf arity fields y ->
  (syntactic_eq eq_op x y = (OBool true, []) <-> same true x y).
Proof. exact seq_same. Qed.
Print Assumptions C22_exact.

Example C22_documented_example : same false (ex_val SList) (ex_val' STuple) /\ ~ same true (VTerm true 0 [] []) ex_plus.
Proof.
  split.
  - apply same_documented; [left; exact C22_symmetric_example|].
    apply (seq_same ex_arity ex_fields no_handlers); [apply ex_wf|apply ex_wf'|reflexivity].
  - intros H. inversion H.
Qed.

Theorem C22_documented_is_equivalence :
  forall arity fields x, wf arity fields x -> same false x x /\
  (forall y, same false x y -> same false y x) /\
  (forall y z, same false x y -> same false y z -> same false x z).
Proof. exact (fun arity fields x H => conj (same_refl false x arity fields H) (conj (same_sym x) (same_trans false x))). Qed.
Print Assumptions C22_documented_is_equivalence.

(** [syntactic_eq(["a"], "a")] is True, the other way round False. *)
Theorem C22_symmetric_refuted :
  exists x y, (forall arity fields, wf arity fields x /\ wf arity fields y) /\ ~ has_number x /\ ~ has_number y /\
    syntactic_eq no_handlers x y = (OBool true, []) /\ syntactic_eq no_handlers y x = (OBool false, []) /\
    ~ same false x y.
Proof.
  exists (VSeq SList [VAtom (AStr "a")]), (VAtom (AStr "a")). split; [intros; split; wf_tac|].
  split; [intros H; inversion H; subst; cbn in *; intuition subst; inversion H3|].
  split; [intros H; inversion H|]. split; [reflexivity|]. split; [reflexivity|]. intros H. inversion H. discriminate.
Qed.
Print Assumptions C22_symmetric_refuted.

(** Under a handler for [__eq__] (or [apply]) that builds terms: [syntactic_eq([1], [t])]
    raises while [syntactic_eq([t], [1])] is False, and [syntactic_eq(1, t)] is not a bool. *)
Theorem C22_number_terms_refuted :
  exists eq_op x t, (forall arity fields, wf arity fields x /\ wf arity fields t) /\
    fst (syntactic_eq eq_op x t) = OTerm /\
    fst (syntactic_eq eq_op (VSeq SList [x]) (VSeq SList [t])) = OErr /\
    syntactic_eq eq_op (VSeq SList [t]) (VSeq SList [x]) = (OBool false, []).
Proof.
  exists (fun _ _ => OTerm), (VAtom (AInt 1)), (VTerm true 0 [] []). split; [intros; split; wf_tac|]. repeat split; reflexivity.
Qed.
Print Assumptions C22_number_terms_refuted.

(** *** C23 *)

(** No operation is called, whatever the interpretation, unless a non-term on the left
    is compared with a number term on the right. *)
Theorem C23_no_operations_partial :
  forall arity fields eq_op x y, wf arity fields x -> wf arity fields y -> ~ meets x y ->
  exists b, syntactic_eq eq_op x y = (OBool b, []) /\ (b = true <-> same true x y).
Proof. exact seq_total. Qed.
Print Assumptions C23_no_operations_partial.

Theorem C23_no_number_terms_partial :
  forall eq_op x y, ~ has_number y -> exists b, syntactic_eq eq_op x y = (OBool b, []).
Proof. exact seq_no_numbers. Qed.
Print Assumptions C23_no_number_terms_partial.

(** [x() + 1] against [x() + x()] meets one, against [y() + 1] none. *)
Example C23_example :
  ~ meets ex_plus (VTerm true 1 [VTerm true 9 [] []; VAtom (AInt 1)] []) /\
  meets ex_plus (VTerm true 1 [VTerm true 0 [] []; VTerm true 0 [] []] []).
Proof.
  split.
  - intros H. inversion H as [? ? ? ? ? _ D| | | | |? ? ? ? ? ? ? ? i v v' H1 H2 H3|]; subst.
    + destruct D as [[? D]|[[? D]|(? & ? & D)]]; discriminate D.
    + destruct i as [|[|i]]; cbn in H1, H2; [| |destruct i; discriminate].
      * inversion H1; inversion H2; subst. inversion H3 as [? ? ? ? ? _ D| | | | |? ? ? ? ? ? ? ? i v v' J1 J2 J3|]; subst.
        -- destruct D as [[? D]|[[? D]|(? & ? & D)]]; discriminate D.
        -- destruct i; discriminate J1.
        -- match goal with J : In _ [] |- _ => destruct J end.
      * inversion H1; inversion H2; subst. inversion H3.
    + match goal with J : In _ [] |- _ => destruct J end.
  - eapply (MArg _ _ _ _ _ _ _ _ 1); [reflexivity|reflexivity|]. constructor; [reflexivity|]. left. eexists. reflexivity.
Qed.

Theorem C23_no_operations_refuted :
  exists x y, (forall arity fields, wf arity fields x /\ wf arity fields y) /\
    forall eq_op, exists t v, In (t, v) (snd (syntactic_eq eq_op x y)).
Proof.
  exists ex_plus, (VTerm true 1 [VTerm true 0 [] []; VTerm true 0 [] []] []). split; [intros; split; unfold ex_plus; wf_tac|].
  intros eq_op. exists (VTerm true 0 [] []), (VAtom (AInt 1)). cbn. destruct (eq_op _ _) as [[|]| |]; cbn; auto.
Qed.
Print Assumptions C23_no_operations_refuted.
