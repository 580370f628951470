(** C84: the rules of the introduction bring every sum into a normal form, and sums that are equal by commutativity,
    associativity and addition of integers into the same. *)
From Coq Require Import List Bool Arith ZArith Permutation Lia.
Import ListNotations.
From Verif Require Import IntroModel IntroSpec IntroProofs.

(** Evaluation ends, groups to the left with at most one integer, leftmost, and keeps the value, if no other operation has two
    arguments. *)
Theorem C84_sums_partial : forall addr e, no_pairs e -> exists r, becomes addr add_stack e r /\ grouped r /\ forall I, value I r = value I e.
Proof. exact (fun addr e => sums_l addr PSequence e). Qed.
Print Assumptions C84_sums_partial.

(** It keeps the sum of the integers and the variables with their numbers. *)
Theorem C84_keeps : forall addr e r, plain e -> becomes addr add_stack e r -> same_sum e r.
Proof. exact (fun addr => keeps_l addr PSequence). Qed.
Print Assumptions C84_keeps.

(** Evaluating the result again gives the result. *)
Theorem C84_again : forall addr e r, plain e -> becomes addr add_stack e r -> becomes addr add_stack r r.
Proof. exact (fun addr => again_l addr PSequence). Qed.
Print Assumptions C84_again.

(** Equal sums of one variable and integers have one normal form. *)
Theorem C84_one_variable_partial : forall addr f e e' r r', plain e -> plain e' -> Forall (fun s => s = Op f []) (summands e) -> same_sum e e' ->
  becomes addr add_stack e r -> becomes addr add_stack e' r' -> r = r'.
Proof. exact (fun addr => one_variable_l addr PSequence). Qed.
Print Assumptions C84_one_variable_partial.

(** With the pattern [Term(mv, (), {})] in the third rule, normal forms are equal exactly for equal sums. *)
Theorem C84_corrected : forall addr, (forall f g, addr f = addr g -> f = g) -> forall e e' r r', plain e -> plain e' ->
  becomes addr (stack PMapping) e r -> becomes addr (stack PMapping) e' r' -> (r = r' <-> same_sum e e').
Proof. exact (fun addr => canonical_l addr PMapping eq_refl). Qed.
Print Assumptions C84_corrected.

(** [test_mixed_together] (376-377) passes, with either order of addresses. *)
Definition x := Op 0 []. Definition y := Op 1 []. Definition z := Op 2 [].
Example C84_example :
  let e := Add (Add x (Num 2)) (Add (Num 2) y) in let e' := Add x (Add (Add (Num 3) y) (Num 1)) in
  no_pairs e /\ plain e /\ plain e' /\ same_sum e e' /\
  forall addr, becomes addr add_stack e (Add (Add (Num 4) x) y) /\ becomes addr add_stack e' (Add (Add (Num 4) x) y).
Proof.
  cbv zeta. split; [repeat split; discriminate|]. split; [repeat split|]. split; [repeat split|]. split; [split; reflexivity|].
  intros addr. split; exists 10; intros m L; do 10 (destruct m as [|m]; [exfalso; lia|]); reflexivity.
Qed.
Example C84_corrected_example : let addr := fun f : nat => f in
  eval addr 20 (stack PMapping) (Add (Add (Num 1) x) (Add z y)) = Ok (Add (Add (Add (Num 1) z) y) x) /\
  eval addr 20 (stack PMapping) (Add z (Add (Add y (Num 1)) x)) = Ok (Add (Add (Add (Num 1) z) y) x).
Proof. split; reflexivity. Qed.

(** The third rule never fires: its pattern [Term(mv, (), ())] asks for a sequence where a mapping is. *)
Theorem C84_dead_rule_refuted : forall addr add a b, fire addr add (AssocCommute PSequence) a b = None.
Proof. intros addr add a b. destruct a as [|f [|l [|[|m [|]|] [|]]]|l [|m [|]|]], b as [|v [|]|]; reflexivity. Qed.
Print Assumptions C84_dead_rule_refuted.

(** So equal sums of two variables and an integer have two normal forms, whatever the addresses. *)
Theorem C84_canonical_refuted : forall addr, exists e e' r r', plain e /\ plain e' /\ same_sum e e' /\ becomes addr add_stack e r /\ becomes addr add_stack e' r' /\ r <> r'.
Proof.
  intros addr. exists (Add (Add (Num 1) x) y), (Add (Add (Num 1) y) x), (Add (Add (Num 1) x) y), (Add (Add (Num 1) y) x).
  split; [repeat split|]. split; [repeat split|]. split; [split; [reflexivity|apply perm_swap]|].
  split; [|split; [|discriminate]]; exists 1; intros [|m] L; solve [inversion L|reflexivity].
Qed.
Print Assumptions C84_canonical_refuted.

(** Three variables without an integer: the order still depends on how they were written. *)
Theorem C84_three_refuted : exists addr e e' r r', (forall f g, addr f = addr g -> f = g) /\ plain e /\ plain e' /\ same_sum e e' /\
  becomes addr add_stack e r /\ becomes addr add_stack e' r' /\ r <> r'.
Proof.
  exists (fun f => f), (Add (Add x y) z), (Add (Add z y) x), (Add (Add y x) z), (Add (Add z y) x).
  split; [auto|]. split; [repeat split|]. split; [repeat split|].
  split; [split; [reflexivity|cbn; rewrite (perm_swap z y), (perm_swap z x), (perm_swap y x); reflexivity]|].
  split; [|split; [|discriminate]]; exists 3; intros [|[|[|m]]] L; try (exfalso; lia); reflexivity.
Qed.
Print Assumptions C84_three_refuted.

(** The rules take every term with two arguments for a sum: [1 + x * y] becomes [(1 + x) + y]. *)
Theorem C84_pairs_refuted : forall addr p, exists e r I, becomes addr (stack p) e r /\ value I r <> value I e.
Proof.
  intros addr p. exists (Add (Num 1) (Op 5 [x; y])), (if matches_kwargs p && (addr 0 <? addr 1) then Add (Add (Num 1) y) x else Add (Add (Num 1) x) y),
    (fun f l => if f =? 5 then fold_right Z.mul 1%Z l else 3%Z).
  split; [|destruct (matches_kwargs p && (addr 0 <? addr 1)); discriminate]. exists 4. intros [|[|[|[|m]]]] L; try (exfalso; lia).
  destruct p; [|reflexivity]. cbn -[Nat.ltb]. destruct (Nat.ltb_spec (addr 0) (addr 1)) as [Lt|_]; [|reflexivity].
  cbn -[Nat.ltb]. destruct (Nat.ltb_spec (addr 1) (addr 0)); [exfalso; lia|reflexivity].
Qed.
Print Assumptions C84_pairs_refuted.

(** Zero is not dropped. *)
Theorem C84_zero_refuted : forall addr p, exists e e' r r', plain e /\ plain e' /\ (forall I, value I e = value I e') /\ becomes addr (stack p) e r /\ becomes addr (stack p) e' r' /\ r <> r'.
Proof.
  intros addr p. exists (Add (Num 0) x), x, (Add (Num 0) x), x. split; [repeat split|]. split; [reflexivity|]. split; [reflexivity|].
  split; [|split; [|discriminate]]; [exists 1; intros [|m] L; [inversion L|destruct p; reflexivity]|exists 0; reflexivity].
Qed.
Print Assumptions C84_zero_refuted.

(** [fails] with a narrower class than [RuntimeError]'s is right; as it is used, with [BaseException], it accepts everything, also a
    test that passes. *)
Theorem C84_fails_narrow_partial : forall (exn : Type) (rt : exn) raising r, raising rt = false -> (fails exn rt raising r = None <-> exists e, r = Some e /\ raising e = true).
Proof. exact @fails_narrow. Qed.
Print Assumptions C84_fails_narrow_partial.
Theorem C84_fails_refuted : forall (exn : Type) (rt : exn) r, fails exn rt (fun _ => true) r = None.
Proof. exact @fails_all. Qed.
Print Assumptions C84_fails_refuted.
