(** C90: a method of a free JAX array is the method of arrays. *)
From Coq Require Import String List Bool Arith ZArith.
From Verif Require Import JmModel JmSpec JmProofs.
Import ListNotations.
Local Open Scope list_scope.

(** For every method of the table and all arguments: if no more of them are given by position than the two signatures have in common at their start, and no keyword is
    given that the term's method does not have, the call on a term is refused exactly if the call on an array is, and otherwise gives the function of the
    library the same value for every parameter. *)
Theorem C90_methods_partial : forall m, In m table -> forall pos kw, common m pos kw -> term_call m pos kw = array_call m pos kw.
Proof. exact methods_same. Qed.
Print Assumptions C90_methods_partial.
Example C90_methods_example :
  common (named "std") [VInt 0] [("ddof"%string, VInt 1)] /\
  term_call (named "std") [VInt 0] [("ddof"%string, VInt 1)] =
    Some [("axis", VInt 0); ("dtype", VNone); ("out", VNone); ("ddof", VInt 1); ("keepdims", VFalse); ("where", VNone); ("correction", VNone)]%string.
Proof.
  split; [|reflexivity]. split.
  - repeat split; cbn; repeat constructor.
  - intros x v [E|[]]. inversion E; subst. cbn. tauto.
Qed.

(** So it is with all arguments given by keywords that the term's method has. *)
Theorem C90_keywords_partial : forall m, In m table -> forall kw, (forall x v, In (x, v) kw -> In x (names (mterm m))) ->
  term_call m [] kw = array_call m [] kw.
Proof. exact keywords_same. Qed.
Print Assumptions C90_keywords_partial.
Example C90_keywords_example : In (named "sort") table /\
  term_call (named "sort") [] [("descending"%string, VTrue)] =
    Some [("axis", VInt (-1)); ("kind", VNone); ("order", VNone); ("stable", VTrue); ("descending", VTrue)]%string.
Proof. split; [apply named_in|]; reflexivity. Qed.

(** And with as many positional arguments as listed for each method. *)
Theorem C90_positions_partial : forall m n, In m table -> In (mname m, n) by_position -> forall pos kw, length pos <= n ->
  (forall x w, In (x, w) kw -> In x (names (mterm m))) -> term_call m pos kw = array_call m pos kw.
Proof. exact positions_same. Qed.
Print Assumptions C90_positions_partial.
Theorem C90_listed : forall m, In m table -> exists n, In (mname m, n) by_position.
Proof. exact positions_all. Qed.
Print Assumptions C90_listed.
Example C90_positions_example : In (named "sum") table /\
  term_call (named "sum") [VInt 1] [("keepdims"%string, VTrue)] =
    Some [("axis", VInt 1); ("dtype", VNone); ("out", VNone); ("keepdims", VTrue); ("initial", VNone); ("where", VNone); ("promote_integers", VTrue)]%string.
Proof. split; [apply named_in|]; reflexivity. Qed.

(** [reshape] reads its arguments as arrays do. *)
Theorem C90_reshape : forall args kw, term_reshape args kw = array_reshape args kw.
Proof. exact reshape_same. Qed.
Print Assumptions C90_reshape.
Example C90_reshape_example :
  term_reshape [VInt 2; VInt 3] [] = Some ([VInt 2; VInt 3], VText "C"%string) /\
  term_reshape [VList [VInt 2; VInt 3]] [("order"%string, VText "F"%string)] = Some ([VInt 2; VInt 3], VText "F"%string) /\
  term_reshape [VInt 6] [("shape"%string, VNone)] = None.
Proof. repeat split. Qed.

(** [transpose] does so without an argument or with one tuple or list. *)
Theorem C90_transpose_partial : forall l,
  term_transpose [VTuple l] [] = array_transpose [VTuple l] [] /\ term_transpose [VList l] [] = array_transpose [VList l] [] /\
  term_transpose [] [] = array_transpose [] [] /\ term_transpose [VNone] [] = array_transpose [VNone] [] /\
  term_transpose [] [] = Some VNone.
Proof. exact transpose_same. Qed.
Print Assumptions C90_transpose_partial.
Example C90_transpose_example : term_transpose [VTuple [VInt 1; VInt 0]] [] = Some (VTuple [VInt 1; VInt 0]).
Proof. reflexivity. Qed.

(** In twelve methods a second positional argument, whatever it is, is taken for [keepdims], where arrays take it for [dtype] or [out]; both accept it. *)
Theorem C90_second : forall x a v, In x shifted ->
  In (named x) table /\ mname (named x) = x /\ exists s t, 
  term_call (named x) [a; v] [] = Some s /\ array_call (named x) [a; v] [] = Some t /\
  lookup "keepdims" s = Some v /\ lookup "keepdims" t = Some VFalse /\ (lookup "dtype" t = Some v \/ lookup "out" t = Some v).
Proof. exact shifted_different. Qed.
Print Assumptions C90_second.
Example C90_second_example : In "var"%string shifted /\ length shifted = 12.
Proof. split; [cbn; tauto|reflexivity]. Qed.
Theorem C90_positional_refuted : exists m pos s t, In m table /\ term_call m pos [] = Some s /\ array_call m pos [] = Some t /\ s <> t.
Proof. exact shifted_refuted. Qed.
Print Assumptions C90_positional_refuted.

(** [sort] and [argsort] take a second positional argument, which arrays refuse. *)
Theorem C90_sort_differs : forall x a v, x = "sort"%string \/ x = "argsort"%string ->
  (exists s, term_call (named x) [a; v] [] = Some s /\ lookup "descending" s = Some v) /\ array_call (named x) [a; v] [] = None.
Proof. exact sort_positional. Qed.
Print Assumptions C90_sort_differs.
Example C90_sort_differs_example : array_call (named "sort") [VInt 0] [("descending"%string, VTrue)] <> None.
Proof. discriminate. Qed.
Theorem C90_sort_refuted : exists m, In m table /\ forall a v,
  (exists s, term_call m [a; v] [] = Some s /\ lookup "descending" s = Some v) /\ array_call m [a; v] [] = None.
Proof. exact sort_refuted. Qed.
Print Assumptions C90_sort_refuted.

(** The keyword [dtype] is refused in five methods. *)
Theorem C90_dtype_differs : forall x v, In x ["mean"; "std"; "var"; "sum"; "prod"]%string ->
  term_call (named x) [] [("dtype"%string, v)] = None /\
  exists t, array_call (named x) [] [("dtype"%string, v)] = Some t /\ lookup "dtype" t = Some v.
Proof. exact dtype_refused. Qed.
Print Assumptions C90_dtype_differs.
Example C90_dtype_differs_example : In "prod"%string ["mean"; "std"; "var"; "sum"; "prod"]%string.
Proof. cbn. tauto. Qed.
Theorem C90_dtype_refuted : exists m, In m table /\ forall v, term_call m [] [("dtype"%string, v)] = None /\
  exists t, array_call m [] [("dtype"%string, v)] = Some t /\ lookup "dtype" t = Some v.
Proof. exact dtype_refuted. Qed.
Print Assumptions C90_dtype_refuted.

(** [transpose] with the axes one by one is refused. *)
Theorem C90_transpose_differs : forall a b l, term_transpose (a :: b :: l) [] = None /\ array_transpose (a :: b :: l) [] = Some (VTuple (a :: b :: l)).
Proof. exact transpose_axes. Qed.
Print Assumptions C90_transpose_differs.
Theorem C90_transpose_refuted : exists pos v, term_transpose pos [] = None /\ array_transpose pos [] = Some v.
Proof. exact transpose_refuted. Qed.
Print Assumptions C90_transpose_refuted.
(** With the keyword [axes] it is arrays that refuse. *)
Theorem C90_axes_differs : forall v, term_transpose [] [("axes"%string, v)] = Some v /\ array_transpose [] [("axes"%string, v)] = None.
Proof. exact transpose_keyword. Qed.
Print Assumptions C90_axes_differs.

(** Some methods of arrays are missing. *)
Theorem C90_missing_differs : forall x, In x further -> ~ In x term_methods.
Proof. exact further_missing. Qed.
Print Assumptions C90_missing_differs.
Theorem C90_missing_refuted : exists x, In x further /\ ~ In x term_methods.
Proof. exact missing_refuted. Qed.
Print Assumptions C90_missing_refuted.

(** The same update written twice gives two different terms. *)
Theorem C90_update_differs : forall next a k v t1 n1 n2 t2 n3, at_set next a k v = (t1, n1) -> n1 <= n2 -> at_set n2 a k v = (t2, n3) -> t1 <> t2.
Proof. exact updates_differ. Qed.
Print Assumptions C90_update_differs.
Example C90_update_differs_example : at_set 0 1 2 3 = (Update 0 1 2 3, 1) /\ at_set 5 1 2 3 = (Update 5 1 2 3, 6).
Proof. split; reflexivity. Qed.
Theorem C90_update_refuted : exists next a k v, fst (at_set next a k v) <> fst (at_set (snd (at_set next a k v)) a k v).
Proof. exact update_refuted. Qed.
Print Assumptions C90_update_refuted.
