(** C77: programs over semi-ring dictionaries (docs/source/semi_ring.py). *)
From Coq Require Import String List Bool Arith ZArith Permutation.
Import ListNotations.
From Verif Require Import SrModel SrSpec SrProofs SrLaws SrCases SrFuse.
Local Open Scope list_scope.

(** What [handler(eager)] makes of a program, a value or a term, means what the program means, whatever the variables that
    are left stand for. *)
Theorem C77_sound : forall n t x, eager n t = Ok x -> forall r, den r x = den r t.
Proof. exact eager_sound. Qed.
Print Assumptions C77_sound.
(** [Let(Dict(("a", 1), ("b", 2)), x, Sum(x(), k, v, Dict((k(), v() + 1))))], and a program with a variable left *)
Example C77_sound_example :
  eager 9 (Let ab (Sum (Var 0) (Dict [(Var 1, Add (Var 0) (num 1))]))) = Ok (Val (VMap true [(AStr "a", VAtom (AInt 2)); (AStr "b", VAtom (AInt 3))])) /\
  eager 9 (Let ab (Add (Field (Var 0) (str "b")) (Var 1))) = Ok (Add (num 2) (Var 0)).
Proof. split; vm_compute; reflexivity. Qed.

(** [+] of dictionaries adds what is at the same place and keeps the rest. *)
Theorem C77_add : forall x y z, proper y -> plus x y = Some z -> forall p, look p z = together (look p x) (look p y).
Proof. intros x y z P H. exact (plus_look y P x z H). Qed.
Print Assumptions C77_add.
Example C77_add_example : let x := VMap true [(AInt 1, VMap true [(AInt 2, VAtom (AInt 5))]); (AInt 4, VAtom (AInt 0))] in
  let y := VMap true [(AInt 1, VMap true [(AInt 2, VAtom (AInt 6)); (AInt 3, VAtom (AInt 7))])] in
  proper y /\ exists z, plus x y = Some z /\ look [AInt 1; AInt 2] z = Some (LInt 11) /\ look [AInt 1; AInt 3] z = Some (LInt 7).
Proof.
  cbv zeta. split.
  - repeat constructor; cbn; intuition discriminate.
  - eexists. split; [vm_compute; reflexivity|]. split; reflexivity.
Qed.

(** Sums of numbers do not depend on the order in which the dictionary was made: the other order can be summed too, and
    has the same entries. *)
Theorem C77_order_partial : forall body m m' x, Permutation m m' ->
  (forall k v y, In (k, v) m -> body k v = Some y -> proper y /\ numeric y) ->
  sum_of body m = Some x -> exists x', sum_of body m' = Some x' /\ same_value x x'.
Proof. exact sum_any_order. Qed.
Print Assumptions C77_order_partial.
Example C77_order_example :
  sum_of (fun k v => Some (VMap true [(AInt 0, v); (k, v)])) [(AInt 1, VAtom (AInt 5)); (AInt 2, VAtom (AInt 6))] = Some (VMap true [(AInt 0, VAtom (AInt 11)); (AInt 1, VAtom (AInt 5)); (AInt 2, VAtom (AInt 6))]) /\
  sum_of (fun k v => Some (VMap true [(AInt 0, v); (k, v)])) [(AInt 2, VAtom (AInt 6)); (AInt 1, VAtom (AInt 5))] = Some (VMap true [(AInt 0, VAtom (AInt 11)); (AInt 2, VAtom (AInt 6)); (AInt 1, VAtom (AInt 5))]).
Proof. split; reflexivity. Qed.
Theorem C77_commutes_partial : forall x y z, proper x -> numeric x -> proper y -> numeric y -> plus x y = Some z -> exists z', plus y x = Some z' /\ same_value z z'.
Proof. exact add_any_order. Qed.
Print Assumptions C77_commutes_partial.
Example C77_commutes_example : plus (VMap true [(AInt 1, VAtom (AInt 5))]) (VMap true [(AInt 2, VAtom (AInt 6)); (AInt 1, VAtom (AInt 7))]) = Some (VMap true [(AInt 1, VAtom (AInt 12)); (AInt 2, VAtom (AInt 6))]).
Proof. reflexivity. Qed.

(** A sum over a dictionary that is not empty, whose body has no sums or lets, is only over its own key and value, and is
    not a record, is computed: the result is its meaning. So is a [Let] with such a body. *)
Theorem C77_sum_evaluates_partial : forall n e b m x, eager n e = Ok (Val (VMap true m)) -> m <> [] -> simple 2 b ->
  (forall k v, In (k, v) m -> forall fs, den (with2 (Some v) (Some (VAtom k)) nowhere) b <> Some (VMap false fs)) ->
  den nowhere (Sum e b) = Some x -> exists n', eager n' (Sum e b) = Ok (Val x).
Proof. exact sum_evaluates. Qed.
Print Assumptions C77_sum_evaluates_partial.
Example C77_sum_evaluates_example :
  eager 3 ab = Ok (Val (VMap true [(AStr "a", VAtom (AInt 1)); (AStr "b", VAtom (AInt 2))])) /\
  simple 2 (Dict [(str "v", Add (Var 0) (num 1)); (Var 1, num 0)]) /\
  den nowhere (Sum ab (Dict [(str "v", Add (Var 0) (num 1)); (Var 1, num 0)])) = Some (VMap true [(AStr "v", VAtom (AInt 5)); (AStr "a", VAtom (AInt 0)); (AStr "b", VAtom (AInt 0))]).
Proof. split; [reflexivity|]. split; [repeat constructor | vm_compute; reflexivity]. Qed.
Theorem C77_let_evaluates_partial : forall n e b u x, eager n e = Ok (Val u) -> simple 1 b -> den nowhere (Let e b) = Some x -> exists n', eager n' (Let e b) = Ok (Val x).
Proof. exact let_evaluates. Qed.
Print Assumptions C77_let_evaluates_partial.
Example C77_let_evaluates_example : simple 1 (Field (Var 0) (str "b")) /\ den nowhere (Let ab (Field (Var 0) (str "b"))) = Some (VAtom (AInt 2)).
Proof. split; [repeat constructor | reflexivity]. Qed.

(** Installing [opt] over [eager] changes no program whose [Dict]s are given pairs. *)
Theorem C77_opt_partial : forall n t, paired t -> eager_opt n t = eager n t.
Proof. exact opt_nothing. Qed.
Print Assumptions C77_opt_partial.
Example C77_opt_example : paired docs_program.
Proof. exact (proj1 docs_not_fused). Qed.

(** The rewriting of the rule (read with pairs) keeps what two sums in a row mean if the second body does not use its
    key. *)
Theorem C77_rewriting_partial : forall r es lhs rhs m x, uses 1 rhs = false -> uses 2 rhs = false -> den r es = Some (VMap true m) -> NoDup (map fst m) ->
  den r (pipeline es lhs rhs) = Some x -> den r (rewritten es lhs rhs) = Some x.
Proof. exact rewriting. Qed.
Print Assumptions C77_rewriting_partial.
Example C77_rewriting_example : den nowhere (pipeline ab (Add (Var 0) (num 1)) (Add (Var 0) (Var 0))) = Some (VMap true [(AStr "a", VAtom (AInt 4)); (AStr "b", VAtom (AInt 6))]).
Proof. vm_compute. reflexivity. Qed.

(** Not so: a sum in a sum over a known dictionary raises, though it means something. *)
Theorem C77_nested_refuted : exists t x, den nowhere t = Some x /\ (exists e e' b, t = Sum e (Sum e' b)) /\ forall n, eager (6 + n) t = Raise.
Proof. exists nested. eexists. split; [exact (proj1 nested_raises)|]. split; [do 3 eexists; reflexivity | exact (proj2 nested_raises)]. Qed.
Print Assumptions C77_nested_refuted.
(** So does a [Let] around a sum whose body uses the variable. *)
Theorem C77_let_sum_refuted : exists t x, den nowhere t = Some x /\ (exists e e' b, t = Let e (Sum e' b)) /\ forall n, eager (6 + n) t = Raise.
Proof. exists let_nested. eexists. split; [exact (proj1 let_nested_raises)|]. split; [do 3 eexists; reflexivity | exact (proj2 let_nested_raises)]. Qed.
Print Assumptions C77_let_sum_refuted.
(** A sum over the empty dictionary can raise. *)
Theorem C77_empty_refuted : exists b, den nowhere (Sum (Dict []) b) = Some (VMap true []) /\ forall n, eager (6 + n) (Sum (Dict []) b) = Raise.
Proof. exists (Dict [(Var 1, Field ab (str "z"))]). exact empty_sum_raises. Qed.
Print Assumptions C77_empty_refuted.
(** A sum of a record without variables is not computed. *)
Theorem C77_record_refuted : exists t x, den nowhere t = Some x /\ forall n, exists e b, eager (6 + n) t = Ok (Sum e b).
Proof. exists closed_record. eexists. exact closed_record_stuck. Qed.
Print Assumptions C77_record_refuted.
(** A [Dict] with a key twice is not the sum of its entries. *)
Theorem C77_duplicates_refuted : exists a b x y, (forall n, eager (6 + n) (Dict [a; b]) = Ok (Val x)) /\ (forall n, eager (6 + n) (Add (Dict [a]) (Dict [b])) = Ok (Val y)) /\ ~ same_value x y.
Proof.
  exists (str "a", num 1), (str "a", num 2). do 2 eexists. split; [exact (proj1 twice_last)|]. split; [exact (proj2 twice_last)|].
  intros S. specialize (S [AStr "a"]). vm_compute in S. discriminate.
Qed.
Print Assumptions C77_duplicates_refuted.
(** Sums of strings depend on the order of the entries. *)
Theorem C77_strings_refuted : exists k1 v1 k2 v2 b x y, (forall n, eager (6 + n) (Sum (Dict [(k1, v1); (k2, v2)]) b) = Ok (Val x)) /\
  (forall n, eager (6 + n) (Sum (Dict [(k2, v2); (k1, v1)]) b) = Ok (Val y)) /\ ~ same_value x y.
Proof.
  exists (num 1), (str "x"), (num 2), (str "y"), (Dict [(str "w", Var 0)]). do 2 eexists.
  split; [intros n; exact (proj1 (words_order n))|]. split; [intros n; exact (proj2 (words_order n))|]. intros S. specialize (S [AStr "w"]). vm_compute in S. discriminate.
Qed.
Print Assumptions C77_strings_refuted.
(** [opt] does not fuse the two sums of the docs' program. *)
Theorem C77_fused_refuted : exists es lhs rhs, forall n, exists e b b', eager_opt (6 + n) (pipeline es lhs rhs) = Ok (Sum (Sum e b) b').
Proof. do 3 eexists. exact (proj2 docs_not_fused). Qed.
Print Assumptions C77_fused_refuted.
(** And the rewriting, were it made, changes programs whose second body uses its key. *)
Theorem C77_rewriting_refuted : exists es lhs rhs r x y, den r (pipeline es lhs rhs) = Some x /\ den r (rewritten es lhs rhs) = Some y /\ ~ same_value x y.
Proof. do 3 eexists. exact rewriting_keys. Qed.
Print Assumptions C77_rewriting_refuted.
