(** Properties of type unification (C26, C27, C53-C55). *)
From Coq Require Import List Bool Arith Lia.
From Verif Require Import UnifModel UnifSpec UnifSubst UnifProofs UnifCanon UnifSound UnifExamples.
Import ListNotations.

(** C26: unification keeps the bindings it is given. *)
Theorem C26_kept : forall T n t x s s', unify T n t x s = Ok s' -> extends s s'.
Proof. exact unify_extends. Qed.
Print Assumptions C26_kept.
Example C26_kept_example :
  unify zoo 9 (TList [TVar 1; TApp CSequence [TVar 2]]) (TList [TCon Bool; TApp MutableSequence [TCon Str]]) [(1, TCon Int)]
  = Ok [(2, TCon Str); (1, TCon Int)].
Proof. reflexivity. Qed.

(** C26: against a concrete type, the pattern under the substitution found accepts that type, and
    substituting ends. Types with variables on both sides are left out: see the refutations. *)
Theorem C26_sound_partial : forall T, regular T -> tidy_bases T ->
  forall n t x s s' t' x', unify_types T n t x s = Ok s' -> canon T n t = Ok t' -> canon T n x = Ok x' ->
  ell_ok x -> ground x' -> grounded s ->
  grounded s' /\ extends s s' /\ exists m r, substitute m t' s' = Ok r /\ accepts T r x'.
Proof. exact unify_types_accepts. Qed.
Print Assumptions C26_sound_partial.
Example C26_sound_example : regular zoo /\ tidy_bases zoo /\
  unify_types zoo 9 (TApp CIterable [TUnion [TVar 1; TApp Box [TVar 2]]]) (TApp List_ [TApp Box [TCon Int]]) [] = Err /\
  unify_types zoo 9 (TList [TApp CIterable [TVar 1]; TApp Box [TVar 2]; TVar 2]) (TList [TApp CTuple [TCon Int; TCon Bool]; TApp Crate [TCon Int]; TCon Bool]) []
  = Ok [(2, TCon Int); (1, TCon Int)].
Proof. split; [apply zoo_regular|]. split; [apply zoo_bases|]. split; reflexivity. Qed.

(** Refuted when the other type has variables: a variable is bound to a type that mentions it, and
    substituting never ends. *)
Theorem C26_cycle_refuted : exists t x s', (forall n, unify zoo (2 + n) t x [] = Ok s') /\ forall m r, substitute m t s' <> Ok r.
Proof.
  exists (TVar 0), (TApp Box [TVar 0]), [(0, TApp Box [TVar 0])]. split.
  - intros n. reflexivity.
  - intros m r. apply (substitute_cyclic _ (fun v => v = 0)) with 0; [|now left|reflexivity].
    intros v ->. exists (TApp Box [TVar 0]), 0. split; [reflexivity|]. split; [now left|reflexivity].
Qed.
Print Assumptions C26_cycle_refuted.
(** Refuted: a bound variable against a free one gives back the same substitution, which does not
    make the two types agree. *)
Theorem C26_conflict_refuted : exists t x s s' r, (forall n, unify zoo (1 + n) t x s = Ok s') /\
  (forall n, substitute (2 + n) t s' = Ok r) /\ (forall n, substitute (1 + n) x s' = Ok x) /\ ~ accepts zoo r x.
Proof.
  exists (TVar 0), (TVar 1), [(0, TCon Int)], [(0, TCon Int)], (TCon Int). repeat split.
  intros A. remember (TCon Int) as t eqn:Et. remember (TVar 1) as x eqn:Ex. destruct A; discriminate.
Qed.
Print Assumptions C26_conflict_refuted.
(** Refuted: a class of the program counts as the topmost of its ancestors, so that a pattern that is
    a subclass accepts its base class and its siblings. *)
Theorem C26_subclass_refuted : exists c d, issub zoo d c = false /\ issub zoo c d = false /\
  forall n, unify_types zoo (3 + n) (TCon c) (TCon d) [] = Ok [].
Proof. exists Puppy, Kitten. repeat split. Qed.
Print Assumptions C26_subclass_refuted.
(** Refuted: parameters of functions are unified covariantly, so a function of [bool] is taken for one of
    [int]: [f(x: A, k: Callable[[A], bool])] called with an [int] and a function of [bool], for which no [A] fits. *)
Theorem C26_function_refuted : exists t u x y s', (forall n, unify zoo (6 + n) (TList [t; u]) (TList [x; y]) [] = Ok s') /\
  forall f, ~ (below zoo x (apply f t) /\ below zoo y (apply f u)).
Proof.
  exists (TVar 0), (TApp CCallable [TList [TVar 0]; TCon Bool]), (TCon Int), (TApp CCallable [TList [TCon Bool]; TCon Bool]), [(0, TCon Int)].
  split; [reflexivity|]. intros f. exact (function_parameter (f 0)).
Qed.
Print Assumptions C26_function_refuted.

(** C27: the variables of [substitute(t, s)] are those without a binding that [t] reaches. *)
Theorem C27_variables : forall s n t r, substitute n t s = Ok r ->
  forall v, In v (fvs r) <-> get s v = None /\ reaches s t v.
Proof. exact substitute_vars. Qed.
Print Assumptions C27_variables.
Example C27_variables_example :
  substitute 9 (TApp Box [TUnion [TVar 0; TVar 5; TCon Int]]) [(0, TApp Box [TVar 1]); (1, TVar 2); (3, TCon Str)]
  = Ok (TApp Box [TUnion [TApp Box [TVar 2]; TVar 5; TCon Int]]).
Proof. reflexivity. Qed.

(** C27: without unions, the result is the type with every variable resolved, part by part. *)
Theorem C27_parts : forall s, (forall v t, get s v = Some t -> plain t) ->
  forall n t r, plain t -> substitute n t s = Ok r -> resolves s t r.
Proof. exact substitute_resolves. Qed.
Print Assumptions C27_parts.
Example C27_parts_example :
  substitute 9 (TApp CMapping [TVar 0; TList [TVar 1; TVar 2]]) [(0, TApp Box [TVar 1]); (1, TCon Int)]
  = Ok (TApp CMapping [TApp Box [TCon Int]; TList [TCon Int; TVar 2]]).
Proof. reflexivity. Qed.

(** C27: [substitute] ends if the bindings have no cycle, and does not if the type has a variable on one. *)
Theorem C27_ends : forall s t, acyclic s -> exists n r, substitute n t s = Ok r.
Proof. exact substitute_terminates. Qed.
Print Assumptions C27_ends.
Example C27_ends_example : acyclic [(0, TApp Box [TVar 1]); (1, TVar 2); (3, TCon Str)].
Proof.
  exists (fun v => 2 - v). intros v t w G I W. cbn in G.
  destruct v as [|[|[|[|v]]]]; try discriminate G; injection G as <-; repeat (destruct I as [<-|I]; [cbn in *; try lia; congruence|]); destruct I.
Qed.
Theorem C27_cycles : forall s D, cyclic_at s D -> forall n t r v, In v (fvs t) -> D v -> substitute n t s <> Ok r.
Proof. exact substitute_cyclic. Qed.
Print Assumptions C27_cycles.
Example C27_cycles_example : cyclic_at [(0, TApp Box [TVar 1]); (1, TList [TVar 2; TVar 0])] (fun v => v < 2).
Proof.
  intros [|[|v]] H; [|  |lia].
  - exists (TApp Box [TVar 1]), 1. split; [reflexivity|]. split; [now left|lia].
  - exists (TList [TVar 2; TVar 0]), 0. split; [reflexivity|]. split; [right; now left|lia].
Qed.

(** C53: a pattern unifies with each of its instances, and the substitution found is that instance. *)
Theorem C53_instance_partial : forall T, (forall c, issub T c c = true) -> forall f, (forall v, ground (f v)) ->
  forall t, closed_unions t -> exists n0, forall n s, n0 <= n -> (forall v b, get s v = Some b -> b = f v) ->
  exists s', unify T n t (apply f t) s = Ok s' /\
    (forall v b, get s' v = Some b -> b = f v) /\
    (forall v, In v (fvs t) -> get s' v = Some (f v)) /\ (forall v, ~ In v (fvs t) -> get s' v = get s v).
Proof. exact instance_works. Qed.
Print Assumptions C53_instance_partial.
Example C53_instance_example :
  unify zoo 9 (TApp CCallable [TList [TVar 0; TApp Box [TVar 1]]; TVar 0])
    (TApp CCallable [TList [TCon Int; TApp Box [TUnion [TCon Str; TCon Int]]]; TCon Int]) [(4, TCon Str)]
  = Ok [(1, TUnion [TCon Str; TCon Int]); (0, TCon Int); (4, TCon Str)].
Proof. reflexivity. Qed.
(** C53: a union without variables takes what one of its members takes, and binds nothing. *)
Theorem C53_union : forall T, regular T -> tidy_bases T -> forall n l x s, Forall ground l -> tidy T x -> is_union x = false -> (forall xs, x <> TList xs) ->
  (forall a, In a l -> unify T n a x s <> Out) ->
  (unify T (S n) (TUnion l) x s = Ok s <-> exists a, In a l /\ unify T n a x s = Ok s).
Proof. exact union_takes. Qed.
Print Assumptions C53_union.
Example C53_union_example : unify zoo 9 (TUnion [TCon Str; TApp CIterable [TCon Int]; TApp CSequence [TCon Int]]) (TApp MutableSequence [TCon Bool]) [(4, TCon Str)]
  = Ok [(4, TCon Str)].
Proof. reflexivity. Qed.
(** Refuted with subclasses: whether two arguments for one variable unify depends on their order. *)
Theorem C53_order_refuted : exists t x f, accepts zoo (apply f t) x /\ (forall v, ground (f v)) /\ (forall n, unify zoo (6 + n) t x [] = Err) /\
  exists x' s', accepts zoo (apply f t) x' /\ (forall n, unify zoo (6 + n) t x' [] = Ok s') /\
    exists a b, x = TList [a; b] /\ x' = TList [b; a].
Proof.
  exists (TList [TVar 0; TVar 0]), (TList [TCon Bool; TCon Int]), (fun _ => TCon Int).
  assert (A : accepts zoo (TCon Int) (TCon Bool)) by now apply ac_class.
  assert (B : accepts zoo (TCon Int) (TCon Int)) by apply ac_same.
  split; [apply ac_list; exact (Forall2_cons _ _ A (Forall2_cons _ _ B (Forall2_nil _)))|]. split; [reflexivity|]. split; [reflexivity|].
  exists (TList [TCon Int; TCon Bool]), [(0, TCon Int)]. split; [apply ac_list; exact (Forall2_cons _ _ B (Forall2_cons _ _ A (Forall2_nil _)))|]. split; [reflexivity|]. eauto.
Qed.
Print Assumptions C53_order_refuted.
(** Refuted with unions: a variable beside a class that fits as well is ambiguous, and no substitution is found. *)
Theorem C53_union_refuted : exists t x f, apply f t = TUnion [TCon Str; TCon Int] /\ accepts zoo (apply f t) x /\ (forall v, ground (f v)) /\
  forall n, unify zoo (6 + n) t x [] = Err.
Proof.
  exists (TUnion [TVar 0; TCon Int]), (TCon Int), (fun _ => TCon Str). split; [reflexivity|]. split; [|split; reflexivity].
  apply ac_union_l with (TCon Int); [right; now left|apply ac_same].
Qed.
Print Assumptions C53_union_refuted.
(** Refuted for bare generic classes: their canonical form shows the variable of the class statement,
    which is mixed up with the caller's if it is the same one. [Crate] and [Bin] differ only in it. *)
Theorem C53_capture_refuted : exists t x x' s',
  (forall n, unify_types zoo (9 + n) t x [] = Ok s') /\ (forall n, unify_types zoo (9 + n) t x' [] = Err) /\
  t = TList [TVar 0; TApp Box [TCon Int]] /\ x = TList [TCon Str; TCon Crate] /\ x' = TList [TCon Str; TCon Bin] /\
  issub zoo Crate Box = true /\ issub zoo Bin Box = true.
Proof.
  exists (TList [TVar 0; TApp Box [TCon Int]]), (TList [TCon Str; TCon Crate]), (TList [TCon Str; TCon Bin]), [(7, TCon Int); (0, TCon Str)].
  repeat split.
Qed.
Print Assumptions C53_capture_refuted.

(** C54: [canonicalize] ends, and what it returns is canonical: it is left as it is. *)
Theorem C54_ends : forall T, founded T -> forall t, exists n0, forall n, n0 <= n -> canon T n t <> Out.
Proof. exact canon_terminates. Qed.
Print Assumptions C54_ends.
Example C54_ends_example : founded zoo.
Proof. exact zoo_founded. Qed.
Theorem C54_idempotent_partial : forall T, regular T -> forall n t t', canon T n t = Ok t' -> ell_ok t ->
  exists n0, forall m, n0 <= m -> canon T m t' = Ok t'.
Proof. exact canon_idempotent. Qed.
Print Assumptions C54_idempotent_partial.
Example C54_idempotent_example : regular zoo /\
  canon zoo 9 (TUnion [TApp CTuple [TCon Int; TEll]; TCon Range; TApp List_ [TApp Crate [TCon Puppy]]]) =
  Ok (TUnion [TApp CSequence [TCon Int]; TApp MutableSequence [TApp Box [TCon Dog]]]).
Proof. split; [apply zoo_regular|reflexivity]. Qed.
(** Refuted: a class without free variables can have a canonical form with some. *)
Theorem C54_leak_refuted : exists t t', fvs t = [] /\ (forall n, canon zoo (3 + n) t = Ok t') /\ fvs t' <> [].
Proof. exists (TCon Crate), (TApp Box [TVar 7]). repeat split. discriminate. Qed.
Print Assumptions C54_leak_refuted.

(** C55: fresh variables replace those of the type one by one. *)
Theorem C55_ends : forall fresh t, (forall v w, In v (fvs t) -> In w (fvs t) -> fresh v <> w) -> exists n r, freshen fresh n t = Ok r.
Proof. exact freshen_terminates. Qed.
Print Assumptions C55_ends.
Theorem C55_variables : forall fresh n t r, (forall v w, In v (fvs t) -> In w (fvs t) -> fresh v <> w) ->
  freshen fresh n t = Ok r -> forall v, In v (fvs r) <-> exists w, In w (fvs t) /\ v = fresh w.
Proof. exact freshen_vars. Qed.
Print Assumptions C55_variables.
Theorem C55_parts : forall fresh n t r, (forall v w, In v (fvs t) -> In w (fvs t) -> fresh v = fresh w -> v = w) ->
  (forall v w, In v (fvs t) -> In w (fvs t) -> fresh v <> w) -> neat t -> freshen fresh n t = Ok r -> r = apply (fun v => TVar (fresh v)) t.
Proof. exact freshen_parts. Qed.
Print Assumptions C55_parts.
Example C55_example : neat (TUnion [TVar 1; TApp Box [TVar 0]]) /\
  freshen (fun v => 100 + v) 9 (TApp CMapping [TVar 0; TUnion [TVar 1; TApp Box [TVar 0]]])
  = Ok (TApp CMapping [TVar 100; TUnion [TVar 101; TApp Box [TVar 100]]]).
Proof. split; [apply ne_union; repeat constructor; discriminate|reflexivity]. Qed.
