(** C87: evaluation goes through collections and dataclasses. *)
From Coq Require Import String List Bool Arith.
From Verif Require Import ColModel ColSpec ColProofs ColLaws.
Import ListNotations.
Local Open Scope list_scope.

(** For every equality of keys, every handler and every value made of the collections of [plain], with sets only of members that
    become themselves: [evaluate] returns exactly what the value becomes member by member, and fails if there is none.
    Missing: the other collections, which are changed or fail (below), and sets of other members, which are left alone. *)
Theorem C87_evaluate_partial : forall keyeq hash_term call ren v, equality keyeq ->
  plain v -> settled keyeq hash_term call ren v ->
  forall w, evaluate keyeq hash_term call ren v = Ok w <-> becomes keyeq hash_term call ren v w.
Proof. exact (fun keyeq hash_term call ren v Heq => evaluate_iff keyeq hash_term Heq call ren v). Qed.
Print Assumptions C87_evaluate_partial.
Definition sample : val :=
  Data 3 [(("rows"%string, true), Seq KList [Seq (KNamed 1) [Trm 0 [] []; Oper 7]; Seq KTuple []]);
          (("table"%string, true), Mapp (KDefault 2) [(Str "a"%string, Trm 4 [Trm 1 [] []] [("k"%string, Oper 7)]); (Trm 0 [] [], Num 1)])].
Example C87_evaluate_example : plain sample /\ settled by_code hashes fives seven sample /\
  evaluate by_code hashes fives seven sample = Ok (
    Data 3 [(("rows"%string, true), Seq KList [Seq (KNamed 1) [Num 5; Oper 8]; Seq KTuple []]);
            (("table"%string, true), Mapp (KDefault 2) [(Str "a"%string, Trm 4 [Num 5] [("k"%string, Oper 8)]); (Num 5, Num 1)])]).
Proof. split; [unfold sample; repeat constructor|split; [unfold sample; repeat constructor|reflexivity]]. Qed.

(** Without handlers, or without operations and terms inside, a value of these collections (sets included) is
    returned as it is. *)
Theorem C87_same : forall keyeq hash_term call ren v, equality keyeq -> unhandled call ren \/ inert v ->
  plain v -> proper keyeq hash_term v -> evaluate keyeq hash_term call ren v = Ok v.
Proof. exact (fun keyeq hash_term call ren v Heq => evaluate_self keyeq hash_term Heq call ren v). Qed.
Print Assumptions C87_same.
Example C87_same_example : let v := Seq KList [Sets KSet [Num 1; Num 2]; Mapp KDict [(Num 3, Sets KFrozen [])]] in
  inert v /\ plain v /\ proper by_code hashes v /\ evaluate by_code hashes fives seven v = Ok v.
Proof.
  cbn zeta. split; [repeat constructor|]. split; [repeat constructor|]. split; [|reflexivity].
  constructor. constructor; [|constructor; [|constructor]].
  - constructor; [repeat constructor|]. split; [repeat constructor|reflexivity].
  - constructor; [repeat constructor| |].
    + constructor; [|constructor]. constructor; [constructor|]. split; [constructor|reflexivity].
    + split; [repeat constructor|reflexivity].
Qed.

(** A mapping whose keys stay different is evaluated pair by pair, in order. *)
Theorem C87_pairs : forall keyeq hash_term call ren k l ks vs, equality keyeq ->
  plain (Mapp k l) -> settled keyeq hash_term call ren (Mapp k l) ->
  Forall2 (becomes keyeq hash_term call ren) (map fst l) ks -> Forall2 (becomes keyeq hash_term call ren) (map snd l) vs ->
  distinct keyeq hash_term ks -> evaluate keyeq hash_term call ren (Mapp k l) = Ok (Mapp k (combine ks vs)).
Proof. exact (fun keyeq hash_term call ren k l ks vs Heq => evaluate_pairs keyeq hash_term Heq call ren k l ks vs). Qed.
Print Assumptions C87_pairs.
Example C87_pairs_example : let l := [(Oper 7, Trm 0 [] []); (Num 1, Oper 7)] in
  plain (Mapp KProxy l) /\ settled by_code hashes fives seven (Mapp KProxy l) /\
  Forall2 (becomes by_code hashes fives seven) (map fst l) [Oper 8; Num 1] /\
  Forall2 (becomes by_code hashes fives seven) (map snd l) [Num 5; Oper 8] /\ distinct by_code hashes [Oper 8; Num 1].
Proof.
  cbn zeta. split; [repeat constructor|]. split; [repeat constructor|]. split; [|split].
  - constructor; [apply (b_oper by_code hashes fives seven 7)|]. repeat constructor.
  - constructor; [apply (b_term _ _ _ _ 0 [] [] [] []); [constructor|constructor|reflexivity]|].
    constructor; [apply (b_oper by_code hashes fives seven 7)|constructor].
  - split; [repeat constructor|reflexivity].
Qed.

(** A free operation makes the term of what its arguments become. *)
Theorem C87_free_partial : forall keyeq hash_term call ren op args kw, equality keyeq ->
  Forall (fun v => plain v /\ settled keyeq hash_term call ren v) args ->
  Forall (fun v => plain v /\ settled keyeq hash_term call ren v) (map snd kw) ->
  forall w, free keyeq hash_term call ren op args kw = Ok w <->
    exists args' ws, Forall2 (becomes keyeq hash_term call ren) args args' /\
      Forall2 (becomes keyeq hash_term call ren) (map snd kw) ws /\ w = Trm op args' (combine (map fst kw) ws).
Proof. exact (fun keyeq hash_term call ren op args kw Heq Ha Hk w => free_iff keyeq hash_term Heq call ren op args kw w Ha Hk). Qed.
Print Assumptions C87_free_partial.
Example C87_free_example : plain sample /\ settled by_code hashes fives seven sample /\
  free by_code hashes fives seven 9 [Oper 7] [("x"%string, Seq KList [Trm 1 [] []])]
  = Ok (Trm 9 [Oper 8] [("x"%string, Seq KList [Num 5])]).
Proof. split; [unfold sample; repeat constructor|split; [unfold sample; repeat constructor|reflexivity]]. Qed.

(** [map_structure] applies the function at the leaves of every value of these collections, sets included. *)
Theorem C87_map_structure_partial : forall keyeq hash_term f v, equality keyeq -> plain v ->
  forall w, map_structure keyeq hash_term f v = Ok w <-> mapped keyeq hash_term f v w.
Proof. exact (fun keyeq hash_term f v Heq => map_structure_iff keyeq hash_term Heq f v). Qed.
Print Assumptions C87_map_structure_partial.
Example C87_map_structure_example : let f := fun v => match v with Num n => Ok (Num (n - 1)) | Oper 0 => Other 3 | _ => Ok v end in
  plain (Seq KTuple [Sets KSet [Num 0; Num 1; Num 5]; Str "a"%string]) /\
  map_structure by_code hashes f (Seq KTuple [Sets KSet [Num 0; Num 1; Num 5]; Str "a"%string])
  = Ok (Seq KTuple [Sets KSet [Num 0; Num 4]; Str "a"%string]) /\
  map_structure by_code hashes f (Seq KList [Oper 0]) = Other 3.
Proof. cbn zeta. split; [repeat constructor|]. split; reflexivity. Qed.
Theorem C87_map_structure_same : forall keyeq hash_term v, equality keyeq -> plain v -> proper keyeq hash_term v ->
  map_structure keyeq hash_term (fun x => Ok x) v = Ok v.
Proof. exact (fun keyeq hash_term v Heq => map_structure_self keyeq hash_term Heq v). Qed.
Print Assumptions C87_map_structure_same.
Example C87_map_structure_same_example : plain (Sets KSet [Oper 1; Oper 2]) /\ proper by_code hashes (Sets KSet [Oper 1; Oper 2]).
Proof. split; [repeat constructor|]. constructor; [repeat constructor|split; [repeat constructor|reflexivity]]. Qed.

(** Evaluating at the leaves by [map_structure] is [evaluate], errors and results, for every value without sets. *)
Theorem C87_agreement_partial : forall keyeq hash_term call ren v, setless v ->
  map_structure keyeq hash_term (evaluate keyeq hash_term call ren) v = evaluate keyeq hash_term call ren v.
Proof. exact agreement. Qed.
Print Assumptions C87_agreement_partial.
Example C87_agreement_example : setless sample /\ setless (Seq KRange [Num 0]).
Proof. split; [unfold sample; repeat constructor|repeat constructor]. Qed.

(** What is not kept. A [range] cannot be evaluated: every call of a free operation with one raises [TypeError]. *)
Theorem C87_range_refuted : exists v, proper by_code hashes v /\ inert v /\
  forall keyeq hash_term call ren, evaluate keyeq hash_term call ren v = TypeError /\
    forall op, free keyeq hash_term call ren op [v] [] = TypeError.
Proof. exact range_refuted. Qed.
Print Assumptions C87_range_refuted.
(** Terms and operations in a set are not evaluated. *)
Theorem C87_sets_refuted : exists v w, plain v /\ proper by_code hashes v /\ becomes by_code hashes fives seven v w /\
  evaluate by_code hashes fives seven v = Ok v /\ w <> v.
Proof. exact sets_refuted. Qed.
Print Assumptions C87_sets_refuted.
(** A [Counter] becomes the count of its pairs. *)
Theorem C87_counter_refuted : exists v w, proper by_code hashes v /\ inert v /\
  (forall call ren, evaluate by_code hashes call ren v = Ok w) /\ w = Mapp KCounter [(Seq KTuple [Str "a"%string; Num 2], Num 1); (Seq KTuple [Str "bb"%string; Num 3], Num 1)] /\
  v = Mapp KCounter [(Str "a"%string, Num 2); (Str "bb"%string, Num 3)] /\
  evaluate by_code hashes fives seven (Mapp KCounter [(Trm 0 [] [], Num 1); (Trm 1 [] [], Num 1)])
  = Ok (Mapp KCounter [(Seq KTuple [Num 5; Num 1], Num 2)]).
Proof. exact counter_refuted. Qed.
Print Assumptions C87_counter_refuted.
(** A [ChainMap] becomes one over a tuple, which is no mapping. *)
Theorem C87_chain_refuted : exists v w, proper by_code hashes v /\ inert v /\
  (forall call ren, evaluate by_code hashes call ren v = Ok w) /\ forall k l, w <> Mapp k l.
Proof. exact chain_refuted. Qed.
Print Assumptions C87_chain_refuted.
(** A [deque] loses its maximal length. *)
Theorem C87_deque_refuted : exists v w, proper by_code hashes v /\ inert v /\
  (forall call ren, evaluate by_code hashes call ren v = Ok w) /\
  v = Seq (KDeque (Some 2)) [Num 1; Num 2] /\ w = Seq (KDeque None) [Num 1; Num 2].
Proof. exact deque_refuted. Qed.
Print Assumptions C87_deque_refuted.
(** A dataclass with a field outside [__init__] raises [ValueError], evaluated, as an argument, and mapped. *)
Theorem C87_dataclass_refuted : exists v, proper by_code hashes v /\ inert v /\
  (forall call ren, evaluate by_code hashes call ren v = ValueError /\ forall op, free by_code hashes call ren op [v] [] = ValueError) /\
  forall f, (forall n, f (Num n) = Ok (Num n)) -> map_structure by_code hashes f v = ValueError.
Proof. exact dataclass_refuted. Qed.
Print Assumptions C87_dataclass_refuted.
(** Indeed every such dataclass, once its fields are evaluated *)
Theorem C87_fields : forall keyeq hash_term call ren c fs ws, mapS (evaluate keyeq hash_term call ren) fs = Ok ws ->
  (exists f, In f fs /\ snd (fst f) = false) -> evaluate keyeq hash_term call ren (Data c fs) = ValueError.
Proof. exact noninit_error. Qed.
Print Assumptions C87_fields.
Example C87_fields_example : let fs := [(("x"%string, true), Trm 0 [] []); (("y"%string, false), Num 1)] in
  mapS (evaluate by_code hashes fives seven) fs = Ok [(("x"%string, true), Num 5); (("y"%string, false), Num 1)] /\
  exists f, In f fs /\ snd (fst f) = false.
Proof. split; [reflexivity|]. exists (("y"%string, false), Num 1). split; [right; now left|reflexivity]. Qed.
(** The items of a dictionary with an unhashable value raise [TypeError], although the dictionary itself is fine. *)
Theorem C87_items_refuted : exists l, distinct by_code hashes (map fst l) /\ Forall inert (map snd l) /\
  forall call ren, evaluate by_code hashes call ren (Items l) = TypeError /\
    evaluate by_code hashes call ren (Mapp KDict l) = Ok (Mapp KDict l).
Proof. exact items_refuted. Qed.
Print Assumptions C87_items_refuted.
(** Keys that become equal are merged: the value of the last, at the place of the first. *)
Theorem C87_keys_refuted : exists v, plain v /\ proper by_code hashes v /\
  v = Mapp KDict [(Trm 0 [] [], Str "a"%string); (Trm 2 [] [], Str "c"%string); (Trm 1 [] [], Str "b"%string)] /\
  evaluate by_code hashes fives seven v = Ok (Mapp KDict [(Num 5, Str "b"%string); (Trm 2 [] [], Str "c"%string)]).
Proof. exact keys_refuted. Qed.
Print Assumptions C87_keys_refuted.
