(** C98.  The rule used for a type is that of the most specific registered class. *)
From Coq Require Import List Arith Bool Permutation.
From Verif Require Import SdModel SdSpec SdProofs SdLaws SdCache SdCases.
Import ListNotations.

(** A class that is registered uses its own rule. *)
Theorem C98_exact : forall V w c (reg : list (cls * V)) f,
  lookup c reg = Some f -> fresh w c reg = Ok (Some f).
Proof. exact fresh_exact. Qed.
Print Assumptions C98_exact.
Example C98_exact_example : fresh py 10 defdata_rules = Ok (Some 10).
Proof. vm_compute. reflexivity. Qed.

(** Any other class for which a rule is found uses the rule of a registered class that
    is its superclass, no registered superclass being below that one. *)
Theorem C98_best : forall V w c (reg : list (cls * V)) r, sound w -> In 0 (keys reg) ->
  ~ In c (keys reg) -> fresh w c reg = Ok r ->
  exists t f, r = Some f /\ lookup t reg = Some f /\ best w (keys reg) c t.
Proof. exact fresh_best. Qed.
Print Assumptions C98_best.
(** integers are [Integral], generators [Iterator] *)
Example C98_best_example :
  sound py /\ In 0 (keys defdata_rules) /\ ~ In 9 (keys defdata_rules) /\
  fresh py 9 defdata_rules = Ok (Some 8) /\ fresh py 12 defdata_rules = Ok (Some 3).
Proof.
  split; [exact py_sound|]. split; [now left|]. split; [|split; vm_compute; reflexivity].
  vm_compute. intuition discriminate.
Qed.

(** There are two ways to fail, neither for a registered class: the order of the
    bases of abstract classes contradicts that of the class, or two registered abstract
    classes are superclasses without being inherited, none of the two below the other. *)
Theorem C98_errors : forall V w c (reg : list (cls * V)) e, sound w -> fresh w c reg = Err e ->
  ~ In c (keys reg) /\
  (e = Inconsistent \/
   exists m t, e = Ambiguous m t /\ best w (keys reg) c m /\ m <> t /\ In t (keys reg) /\
     issub w c t = true /\ ~ nominal w c m /\ ~ nominal w c t /\ issub w m t = false /\ ~ nominal w t m).
Proof. exact fresh_errors. Qed.
Print Assumptions C98_errors.
Example C98_errors_example : sound py /\ fresh py 11 defdata_rules = Err (Ambiguous 1 2).
Proof. split; [exact py_sound | vm_compute; reflexivity]. Qed.

(** If one registered superclass is below all others, its rule is used, unless the
    orders of bases contradict. *)
Theorem C98_least : forall V w c (reg : list (cls * V)) t f, sound w -> In 0 (keys reg) ->
  lookup t reg = Some f -> issub w c t = true -> ~ In c (keys reg) ->
  (forall u, In u (keys reg) -> issub w c u = true -> nominal w t u) ->
  fresh w c reg = Ok (Some f) \/ fresh w c reg = Err Inconsistent.
Proof. exact fresh_least. Qed.
Print Assumptions C98_least.
Example C98_least_example :
  issub py 9 8 = true /\
  forall u, In u (keys defdata_rules) -> issub py 9 u = true -> nominal py 8 u.
Proof.
  split; [reflexivity|]. intros u Hu Hs. apply (listed py py_sound).
  assert (K : forallb (fun u => implb (issub py 9 u) (mem u (mro py 8))) (keys defdata_rules) = true)
    by (vm_compute; reflexivity).
  rewrite forallb_forall in K. specialize (K u Hu). rewrite Hs in K. now apply mem_In.
Qed.

(** If every registered superclass is inherited, and no class on the way up lists a
    base that is not abstract after one that is, then the rule is that of the first
    registered class of [__mro__]: there is no failure. *)
Theorem C98_inherited : forall V w c (reg : list (cls * V)), sound w -> ordered w -> unmixed w c ->
  In 0 (keys reg) -> no_virtual w (keys reg) c ->
  exists t f, first_in (keys reg) (mro w c) = Some t /\ lookup t reg = Some f /\
    fresh w c reg = Ok (Some f).
Proof. exact fresh_inherited. Qed.
Print Assumptions C98_inherited.
(** [C(P, Q)], with rules for [Q] and [P], in this order *)
Example C98_inherited_example :
  ordered pq /\ unmixed pq 4 /\ no_virtual pq [0; 2; 1] 4 /\
  fresh pq 4 [(0, 0); (2, 2); (1, 1)] = Ok (Some 1).
Proof.
  split; [exact pq_ordered|]. split; [|split].
  - intros d Hd. apply (listed pq pq_sound) in Hd. left.
    destruct Hd as [<-|[<-|[<-|[<-|[]]]]]; cbn; intuition (subst; reflexivity).
  - intros t Ht _. apply (listed pq pq_sound). cbn in *. tauto.
  - vm_compute. reflexivity.
Qed.

(** Then the order of registration does not matter. *)
Theorem C98_order : forall V w c (a b : list (cls * V)), sound w ->
  (forall t, lookup t a = lookup t b) -> no_virtual w (keys a) c -> fresh w c a = fresh w c b.
Proof. exact fresh_order. Qed.
Print Assumptions C98_order.
Example C98_order_example :
  (forall t, lookup t [(0, 0); (2, 2); (1, 1)] = lookup t [(1, 1); (0, 0); (2, 2)]) /\
  fresh pq 4 [(1, 1); (0, 0); (2, 2)] = Ok (Some 1).
Proof. split; [intros [|[|[|t]]]; reflexivity | vm_compute; reflexivity]. Qed.

(** A first base that is abstract and registered wins over superclasses that are not
    inherited, unless one of these is below it. *)
Theorem C98_first : forall V w c b bs (reg : list (cls * V)) f, sound w ->
  bases w c = b :: bs -> abstr w b = true -> (forall d, In d bs -> ~ nominal w d b) ->
  (forall a, In a (keys reg) -> issub w c a = true -> nominal w a b -> nominal w c a) ->
  lookup b reg = Some f -> ~ In c (keys reg) ->
  fresh w c reg = Ok (Some f) \/ fresh w c reg = Err Inconsistent.
Proof. exact fresh_first. Qed.
Print Assumptions C98_first.
(** a class with [__call__] that inherits from Iterator *)
Example C98_first_example :
  bases py 13 = [3] /\ abstr py 3 = true /\ issub py 13 1 = true /\ lookup 3 defdata_rules = Some 3 /\
  (forall a, In a (keys defdata_rules) -> issub py 13 a = true -> nominal py a 3 -> nominal py 13 a) /\
  fresh py 13 defdata_rules = Ok (Some 3).
Proof.
  split; [reflexivity|]. split; [reflexivity|]. split; [reflexivity|]. split; [reflexivity|].
  split; [|vm_compute; reflexivity]. intros a Ha _ Hn. apply (listed py py_sound) in Hn. apply (listed py py_sound).
  assert (K : forallb (fun a => implb (mem 3 (mro py a)) (mem a (mro py 13))) (keys defdata_rules) = true)
    by (vm_compute; reflexivity).
  rewrite forallb_forall in K. specialize (K a Ha). rewrite (proj2 (mem_In 3 (mro py a)) Hn) in K.
  now apply mem_In.
Qed.

(** Classes of which the type is not a subclass do not matter, though the order is
    arranged with the help of subclasses of registered classes. *)
Theorem C98_unrelated : forall V w w' c (reg : list (cls * V)),
  (forall d, bases w d = bases w' d) -> (forall d, mro w d = mro w' d) ->
  (forall d t, issub w d t = issub w' d t) -> (forall d, abstr w d = abstr w' d) ->
  (forall t, filter (issub w c) (subclasses w t) = filter (issub w c) (subclasses w' t)) ->
  fresh w c reg = fresh w' c reg.
Proof. exact fresh_unrelated. Qed.
Print Assumptions C98_unrelated.
(** Reversible is a new subclass of Iterable: integers and generators do not see it *)
Example C98_unrelated_example :
  let w := table py_bases py_mro (firstn 2 py_subs ++ [[3; 14]] ++ skipn 3 py_subs) py_virtual py_abstract in
  subclasses w 2 <> subclasses py 2 /\
  filter (issub py 12) (subclasses py 2) = filter (issub py 12) (subclasses w 2) /\
  fresh w 12 defdata_rules = Ok (Some 3).
Proof. split; [discriminate | split; vm_compute; reflexivity]. Qed.

(** The cache is not seen: after any registrations of rules, uses, and registrations
    with abstract classes, the rule used is that of the rules given so far and of
    [issubclass] as it is now, provided that unions list no abstract class. *)
Theorem C98_cache : forall V w, steady w -> forall (f : V) (l : list event) c,
  abstr (w 0) 0 = false -> Forall (direct w) l ->
  snd (dispatch w (fst (run w f l)) (snd (run w f l)) c) = fresh (w (bumps l)) c (given f l).
Proof. exact @dispatch_fresh. Qed.
Print Assumptions C98_cache.
Example C98_cache_example :
  let l := [Register 1 7; Dispatch 2; AbcRegister] in
  Forall (direct later) l /\
  snd (dispatch later 0 (snd (run later 5 [Register 1 7])) 2) = Ok (Some 5) /\
  snd (dispatch later (fst (run later 5 l)) (snd (run later 5 l)) 2) = Ok (Some 7).
Proof. split; [repeat constructor | vm_compute; split; reflexivity]. Qed.

(** Not always a rule: for a type with both [__call__] and [__iter__] the registry of
    [defdata] has two equally good classes and raises RuntimeError, although it has a
    rule for every type ([object]). *)
Theorem C98_callable_iterable_refuted : exists w c, sound w /\ ordered w /\ plain w /\
  In 0 (keys defdata_rules) /\ fresh w c defdata_rules = Err (Ambiguous 1 2).
Proof.
  exact (ex_intro _ py (ex_intro _ 11 (conj py_sound (conj py_ordered (conj py_plain
    (conj (or_introl eq_refl) eq_refl)))))).
Qed.
Print Assumptions C98_callable_iterable_refuted.

(** Not always an error either: of two equally good classes the one registered first
    may be used without complaint, so that the order of imports matters. *)
Theorem C98_order_refuted : exists w c (a b : list (cls * nat)), sound w /\ ordered w /\ plain w /\
  Permutation a b /\ fresh w c a = Ok (Some 3) /\ fresh w c b = Ok (Some 4).
Proof.
  exact (ex_intro _ ab (ex_intro _ 5 (ex_intro _ [(0, 0); (3, 3); (4, 4)] (ex_intro _ [(0, 0); (4, 4); (3, 3)]
    (conj ab_sound (conj ab_ordered (conj ab_plain
      (conj (perm_skip (0, 0) (perm_swap (4, 4) (3, 3) [])) (conj eq_refl eq_refl))))))))).
Qed.
Print Assumptions C98_order_refuted.

(** A single class to choose may fail: an abstract class whose bases are those of the
    class the other way round. *)
Theorem C98_inconsistent_refuted : exists w c t (reg : list (cls * nat)), sound w /\ ordered w /\ plain w /\
  best w (keys reg) c t /\ t <> 0 /\ fresh w c reg = Err Inconsistent.
Proof.
  refine (ex_intro _ pq (ex_intro _ 4 (ex_intro _ 3 (ex_intro _ [(0, 0); (3, 3)]
    (conj pq_sound (conj pq_ordered (conj pq_plain (conj _ (conj (Nat.neq_succ_0 2) eq_refl))))))))).
  exact (conj (or_intror (or_introl eq_refl)) (conj eq_refl
    (fun u Hu _ Hn => match Hu with
      | or_introl E => False_ind _ (Nat.nle_succ_0 2 (eq_ind_r (fun x => 3 <= x) (nominal_old pq pq_sound u 3 Hn) E))
      | or_intror (or_introl E) => eq_sym E
      | or_intror (or_intror F) => False_ind _ F
      end))).
Qed.
Print Assumptions C98_inconsistent_refuted.

(** Not the order of [__mro__] if bases are mixed: for [C(A, p, b)], [A(b)], [p] abstract,
    the rule of [b] is used, although [p] comes first in [__mro__]. *)
Theorem C98_mixed_refuted : exists w c (reg : list (cls * nat)), sound w /\ ordered w /\ plain w /\
  no_virtual w (keys reg) c /\ first_in (keys reg) (mro w c) = Some 2 /\ fresh w c reg = Ok (Some 1).
Proof.
  exact (ex_intro _ mixed (ex_intro _ 4 (ex_intro _ [(0, 0); (1, 1); (2, 2)]
    (conj mixed_sound (conj mixed_ordered (conj mixed_plain
      (conj (fun t Ht _ => proj1 (listed mixed mixed_sound 4 t)
               (incb_in [0; 1; 2] [4; 3; 2; 1; 0] eq_refl t Ht))
            (conj eq_refl eq_refl)))))))).
Qed.
Print Assumptions C98_mixed_refuted.

(** A rule registered for a union with an abstract class may come too late: a class
    registered with the abstract class after its first use keeps its old rule. *)
Theorem C98_union_refuted : exists w (f : nat) l c, steady w /\ abstr (w 0) 0 = false /\
  snd (dispatch w (fst (run w f l)) (snd (run w f l)) c) = Ok (Some 5) /\
  fresh (w (bumps l)) c (given f l) = Ok (Some 7).
Proof.
  exact (ex_intro _ later (ex_intro _ 5 (ex_intro _ [RegisterUnion [1] 7; Dispatch 2; AbcRegister] (ex_intro _ 2
    (conj later_steady (conj eq_refl (conj eq_refl eq_refl))))))).
Qed.
Print Assumptions C98_union_refuted.
