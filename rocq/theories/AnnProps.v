(** C92: annotations in the signature of an operation mean what they say. *)
From Coq Require Import String List Bool Arith.
From Verif Require Import TermModel AnnModel AnnSpec AnnProofs.
Import ListNotations.
Local Open Scope string_scope.
Local Open Scope list_scope.

(** Two functions: [def f(x: "Annotated[int, Scoped[A]]", y: list["int"]) -> None], texts 0 and 1; type variables 1 (A), 2 (B),
    3 (T); class 5 is [int], 6 [list], 7 [Operation]. *)
Definition ex_env (x : nat) : option ann := match x with 0 => Some (AAnnot (ACls 5 false) [MScoped [1]]) | 1 => Some (ACls 5 false) | _ => None end.
Definition quoted : asig := ASig [] [AParam "x" (AText 0) None; AParam "y" (AGen 6 false [AText 1]) None] None [] None ANone.
Definition plain : asig := ASig [] [AParam "x" (AAnnot (ACls 5 false) [MScoped [1]]) None; AParam "y" (AGen 6 false [ACls 5 false]) None] None [] None (ACls 0 false).
(** [def lam(x: Annotated[Operation, Scoped[B]], body: Annotated[T, 9, Scoped[A | B]]) -> Annotated[T, IsRecursive, Scoped[A]]], and
    with no scope for the result *)
Definition lam : asig := ASig [AParam "x" (AAnnot (ACls 7 true) [MScoped [2]]) None] [AParam "body" (AAnnot (AVar 3) [MOther 9; MScoped [1; 2]]) None] None [] None (AAnnot (AVar 3) [MRec; MScoped [1]]).

(** [__signature__] is the one the annotations spell. *)
Theorem C92_read : forall env s s', flat_sig s -> (signature env s = Done s' <-> spells_sig env s s').
Proof. exact signature_iff. Qed.
Print Assumptions C92_read.
Example C92_read_example : flat_sig quoted /\ signature ex_env quoted = Done plain.
Proof. split; [repeat constructor|reflexivity]. Qed.

(** Quoting annotations or parts of them, as [from __future__ import annotations] does, changes nothing. *)
Theorem C92_quoted : forall env s s' u, flat_sig s -> flat_sig s' -> spells_sig env s u -> spells_sig env s' u -> signature env s = signature env s'.
Proof. exact signature_quoted. Qed.
Print Assumptions C92_quoted.
Example C92_quoted_example : flat_sig quoted /\ flat_sig plain /\ spells_sig ex_env quoted plain /\ spells_sig ex_env plain plain.
Proof.
  assert (F : flat_sig quoted) by repeat constructor. assert (F' : flat_sig plain) by (repeat constructor; discriminate).
  split; [exact F|]. split; [exact F'|]. split; apply signature_iff; auto.
Qed.

(** It is a [NameError] exactly if a text means nothing among the globals of the function. *)
Theorem C92_unknown : forall env s, signature env s = NameError <-> exists a, In a (annos s) /\ unknown env a.
Proof. exact signature_unknown. Qed.
Print Assumptions C92_unknown.
Example C92_unknown_example : signature (fun _ => None) quoted = NameError.
Proof. reflexivity. Qed.

(** But a local name is none: the same annotation, unquoted, is fine. *)
Theorem C92_local_refuted : exists env s u, flat_sig s /\ flat_sig u /\ (forall full, full 1 = Some (ACls 5 false) -> signature full s = Done u) /\ signature env u = Done u /\ signature env s = NameError.
Proof.
  exists (fun _ => None), (ASig [] [AParam "y" (AGen 6 false [AText 1]) None] None [] None (ACls 5 false)), (ASig [] [AParam "y" (AGen 6 false [ACls 5 false]) None] None [] None (ACls 5 false)).
  split; [repeat constructor|]. split; [repeat constructor|]. split; [|split; reflexivity]. intros full E. apply signature_iff; [repeat constructor|]. constructor; repeat constructor; exact E.
Qed.
Print Assumptions C92_local_refuted.

(** [Scoped[A]] and [Scoped[A | B]] *)
Theorem C92_scope : forall a l, scoped (One (AVar a)) = Done (MScoped [a]) /\ (l <> [] -> scoped (One (AUnion true (map AVar l))) = Done (MScoped l)).
Proof. exact scoped_variables. Qed.
Print Assumptions C92_scope.
Example C92_scope_example : scoped (One (AUnion true [AVar 1; AVar 2])) = Done (MScoped [1; 2]).
Proof. reflexivity. Qed.
(** Nothing else than a variable or a union is a scope ... *)
Theorem C92_scope_refused : forall x, (forall a, x <> One (AVar a)) -> (forall l, x <> One (AUnion true l)) -> forall m, scoped x <> Done m.
Proof. exact scoped_refused. Qed.
Print Assumptions C92_scope_refused.
Example C92_scope_refused_example : scoped (One (ACls 5 false)) = TypeError /\ scoped (Several [AVar 1; AVar 2]) = AssertionError.
Proof. split; reflexivity. Qed.
(** ... but the union need not be one of variables: [Scoped[A | int]] *)
Theorem C92_scope_refuted : exists l c, In (ACls c false) l /\ exists m, scoped (One (AUnion true l)) = Done m.
Proof. exists [AVar 1; ACls 5 false], 5. split; [right; now left|]. eexists. reflexivity. Qed.
Print Assumptions C92_scope_refuted.

(** A signature is accepted exactly if no parameter has two scopes, no variable stands both in a scope and in a type, and no
    variable that is bound is in scope in the result. *)
Theorem C92_accepts : forall s, flat_sig s -> ((exists s', infer s = Done s') <->
  (forall p, In p (a_params s) -> at_most_one (a_ann p)) /\
  (forall a b d x, In a (annos s) -> In b (annos s) -> declares a d -> In x d -> ~ occurs x b) /\
  (forall p d t, In p (a_params s) -> an_operation (a_ann p) -> declares (a_ann p) d -> declares (a_ret s) t -> incl d t -> forall x, In x d -> everywhere s x)).
Proof. exact infer_accepts. Qed.
Print Assumptions C92_accepts.
Example C92_accepts_example : flat_sig lam /\ (exists s', infer lam = Done s') /\
  infer (ASig (a_posonly lam) (AParam "y" (ACls 5 false) None :: a_poskw lam) None [] None (AAnnot (AVar 3) [MScoped [1; 2]])) = AssertionError.
Proof. split; [repeat constructor; discriminate|]. split; [eexists|]; reflexivity. Qed.
(** Any other is an [AssertionError]. *)
Theorem C92_errors : forall s, flat_sig s -> (exists s', infer s = Done s') \/ infer s = AssertionError.
Proof. exact infer_errors. Qed.
Print Assumptions C92_errors.
Example C92_errors_example : infer (ASig [] [AParam "x" (AAnnot (AVar 1) [MScoped [1]]) None] None [] None AEmpty) = AssertionError.
Proof. reflexivity. Qed.

(** What is inferred: the types, names, kinds, defaults and other marks stay; every scope is the declared one with a root, which
    is what all scopes share, if anything, or else one variable found nowhere else; the scopes now share the root, nothing more. *)
Theorem C92_inferred : forall s s', flat_sig s -> infer s = Done s' ->
  exists r, joined_sig r s s' /\ r <> [] /\ ((forall x, In x r <-> everywhere s x) \/ ((forall x, ~ everywhere s x) /\ exists x, r = [x] /\ nowhere s x)) /\ forall x, In x r <-> everywhere s' x.
Proof. exact infer_joined. Qed.
Print Assumptions C92_inferred.
Example C92_inferred_example : infer lam = Done (ASig [AParam "x" (AAnnot (ACls 7 true) [MScoped [2; 4]]) None] [AParam "body" (AAnnot (AVar 3) [MScoped [1; 2; 4]; MOther 9]) None] None [] None (AAnnot (AVar 3) [MScoped [1; 4]; MRec])).
Proof. reflexivity. Qed.

(** Inferring again changes nothing. *)
Theorem C92_again : forall s s', flat_sig s -> infer s = Done s' -> exists s'', infer s' = Done s'' /\ same_sig s' s''.
Proof. exact infer_again. Qed.
Print Assumptions C92_again.
Example C92_again_example : exists s' s'', infer lam = Done s' /\ infer s' = Done s'' /\ a_ret s'' = AAnnot (AVar 3) [MScoped [1; 4; 4]; MRec].
Proof. eexists. eexists. repeat split. Qed.

(** One scope is inside another as declared, neither more nor less. *)
Theorem C92_within : forall s s', flat_sig s -> infer s = Done s' ->
  forall i j a b a' b' d e d' e', nth_error (annos s) i = Some a -> nth_error (annos s) j = Some b -> nth_error (annos s') i = Some a' -> nth_error (annos s') j = Some b' ->
  declares a d -> declares b e -> declares a' d' -> declares b' e' -> (incl d' e' <-> incl d e).
Proof. exact infer_within. Qed.
Print Assumptions C92_within.
Example C92_within_example : exists s' a', infer lam = Done s' /\ nth_error (annos s') 1 = Some a' /\ declares a' [2; 4].
Proof. eexists. eexists. split; [reflexivity|]. split; [reflexivity|]. apply (de_first (ACls 7 true) [] [2; 4] []). intros l []. Qed.

(** The binders of terms (C14 to C21) go by the scopes inferred here: their root is the fresh variable, and the check of the
    result is the one made here. *)
Theorem C92_terms : forall s a t, flat_sig s -> In a (annos s) -> In t (infer_ord (to_sig s) (ordinal a)) <-> exists x, In x (ordinal (new_ann (the_root s) a)) /\ t = as_tv s x.
Proof. exact to_scopes. Qed.
Print Assumptions C92_terms.
Example C92_terms_example : flat_sig lam /\ infer_ord (to_sig lam) (ordinal (a_ret lam)) = [TV 1; Root] /\ infer lam = Done (new_sig (the_root lam) lam).
Proof. split; [repeat constructor; discriminate|]. split; reflexivity. Qed.
Theorem C92_check : forall s, check_result (to_sig s) = unbound s.
Proof. exact to_check. Qed.
Print Assumptions C92_check.
Example C92_check_example : check_result (to_sig lam) = true.
Proof. reflexivity. Qed.

(** Two scopes on the result are not refused; the second one is dropped. *)
Theorem C92_return_refuted : exists s s', flat_sig s /\ ~ at_most_one (a_ret s) /\ infer s = Done s' /\ exists x, In (MScoped [x]) (metas (a_ret s)) /\ forall l, In (MScoped l) (metas (a_ret s')) -> ~ In x l.
Proof.
  exists (ASig [] [AParam "x" (ACls 5 false) None] None [] None (AAnnot (ACls 5 false) [MScoped [1]; MScoped [2]])). eexists.
  split; [repeat constructor; discriminate|]. split; [intros H; exact (H (ACls 5 false) [] [1] [] [2] [] eq_refl)|]. split; [reflexivity|].
  exists 2. split; [right; now left|]. intros l [E|[]]. injection E as <-. intros [X|[X|[]]]; discriminate.
Qed.
Print Assumptions C92_return_refuted.
(** A scope inside a type, as in [list[Annotated[Operation, Scoped[A]]]], is not seen; and a list of variables is no variable: what
    would be refused of a variable is accepted of a list of them. *)
Theorem C92_nested_refuted : exists s s' c o t, flat_sig s /\ a_poskw s = [AParam "xs" (AGen c o [AAnnot t [MScoped [1]]]) None] /\ infer s = Done s' /\
  forall p d, In p (a_poskw s') -> declares (a_ann p) d -> ~ In 1 d.
Proof.
  exists (ASig [] [AParam "xs" (AGen 6 false [AAnnot (ACls 7 true) [MScoped [1]]]) None] None [] None (AVar 3)). eexists. exists 6, false, (ACls 7 true).
  split; [repeat constructor; discriminate|]. split; [reflexivity|]. split; [reflexivity|].
  intros p d [<-|[]] D. apply declares_ordinal in D. subst d. intros [X|[]]. discriminate.
Qed.
Print Assumptions C92_nested_refuted.
Theorem C92_list_refuted : exists t c s s', flat_sig (s t) /\ flat_sig (s (AGen c false [t])) /\ is_var t = true /\ infer (s t) = AssertionError /\ infer (s (AGen c false [t])) = Done s'.
Proof.
  exists (ACls 7 true), 6, (fun t => ASig [] [AParam "x" (AAnnot t [MScoped [1]]) None; AParam "y" (ACls 5 false) None] None [] None (AAnnot (AVar 3) [MScoped [1]])). eexists.
  split; [repeat constructor; discriminate|]. split; [repeat constructor; discriminate|]. repeat split.
Qed.
Print Assumptions C92_list_refuted.

(** [IsRecursive] on the result of a tool is kept. *)
Theorem C92_recursive : forall s s', flat_sig s -> infer s = Done s' -> (is_recursive s' = true <-> exists t ms, a_ret s = AAnnot t ms /\ In MRec ms).
Proof. exact rec_kept. Qed.
Print Assumptions C92_recursive.
Example C92_recursive_example : exists s', infer lam = Done s' /\ is_recursive s' = true.
Proof. eexists. split; reflexivity. Qed.
(** On a parameter it should be a [TypeError]; it never is. *)
Theorem C92_recursive_refuted : exists env s p t ms, In p (a_params s) /\ a_ann p = AAnnot t ms /\ In MRec ms /\ tool_signature env s = Done s.
Proof.
  exists (fun _ => None), (ASig [] [AParam "n" (AAnnot (ACls 5 false) [MRec]) None] None [] None (ACls 5 false)). eexists. exists (ACls 5 false), [MRec].
  split; [left; reflexivity|]. split; [reflexivity|]. split; [now left|reflexivity].
Qed.
Print Assumptions C92_recursive_refuted.
Theorem C92_recursive_never : forall s, rec_infer s = Done s.
Proof. exact rec_never. Qed.
Print Assumptions C92_recursive_never.
Example C92_recursive_never_example : rec_infer lam = Done lam.
Proof. reflexivity. Qed.
