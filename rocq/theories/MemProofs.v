From Coq Require Import ZArith String List Bool Lia.
From Verif Require Import MemModel MemSpec.
Import ListNotations.

(** ** Values *)
Lemma value_all : forall P : value -> Prop,
  (forall z, P (VInt z)) -> (forall b, P (VBool b)) -> (forall h, P (VFloat h)) -> (forall s, P (VStr s)) ->
  P VNone -> (forall l, Forall P l -> P (VTuple l)) -> (forall l, Forall P l -> P (VList l)) ->
  (forall i, P (VObj i)) -> forall v, P v.
Proof.
  intros P H1 H2 H3 H4 H5 H6 H7 H8. fix F 1. intros [z|b|h|s| |l|l|i].
  - apply H1. - apply H2. - apply H3. - apply H4. - apply H5.
  - apply H6. induction l as [|x l IH]; constructor; [apply F | exact IH].
  - apply H7. induction l as [|x l IH]; constructor; [apply F | exact IH].
  - apply H8.
Qed.

Fixpoint eqs (l m : list value) : bool :=
  match l, m with
  | [], [] => true
  | x :: l, y :: m => py_eq x y && eqs l m
  | _, _ => false
  end.

Lemma eqs_spec : forall l, Forall (fun a => forall b, py_eq a b = true <-> same_value a b) l ->
  forall m, eqs l m = true <-> Forall2 same_value l m.
Proof.
  intros l H; induction H as [|x l Hx Hl IH]; intros [|y m]; cbn.
  - split; [constructor | reflexivity].
  - split; [discriminate | intros K; inversion K].
  - split; [discriminate | intros K; inversion K].
  - rewrite andb_true_iff, Hx, IH. split; [intros [? ?]; now constructor | intros K; inversion K; subst; auto].
Qed.

Lemma py_eq_spec : forall a b, py_eq a b = true <-> same_value a b.
Proof.
  assert (N : forall a b x y, halves_of a = Some x -> halves_of b = Some y ->
    (Z.eqb x y = true <-> same_value a b)).
  { intros a b x y Ha Hb. split.
    - intros E. apply Z.eqb_eq in E. subst y. now apply same_number with x.
    - intros K. apply Z.eqb_eq. inversion K; subst; cbn in *; congruence. }
  assert (D : forall a b, halves_of a = None \/ halves_of b = None ->
    (forall s, a = VStr s -> b = VStr s -> False) -> (a = VNone -> b = VNone -> False) ->
    (forall l m, a = VTuple l -> b = VTuple m -> False) -> (forall l m, a = VList l -> b = VList m -> False) ->
    (forall i, a = VObj i -> b = VObj i -> False) -> (false = true <-> same_value a b)).
  { intros a b H S1 S2 S3 S4 S5. split; [discriminate|]. intros K. exfalso.
    inversion K; subst; eauto. destruct H; congruence. }
  induction a as [z|c|h|s| |l IH|l IH|i] using value_all; intros b;
    destruct b as [z'|c'|h'|s'| |l'|l'|i'];
    try (apply N; reflexivity);
    try (apply D; [cbn; auto|intros; discriminate..]).
  - cbn. rewrite String.eqb_eq. split; [intros ->; constructor | intros K; inversion K; subst; [discriminate | reflexivity]].
  - cbn. split; [constructor | reflexivity].
  - assert (U : py_eq (VTuple l) (VTuple l') = eqs l l') by reflexivity. rewrite U, (eqs_spec l IH).
    split; [constructor; assumption | intros K; inversion K; subst; [discriminate | assumption]].
  - assert (U : py_eq (VList l) (VList l') = eqs l l') by reflexivity. rewrite U, (eqs_spec l IH).
    split; [constructor; assumption | intros K; inversion K; subst; [discriminate | assumption]].
  - cbn. rewrite Nat.eqb_eq. split; [intros ->; constructor | intros K; inversion K; subst; [discriminate | reflexivity]].
Qed.

Lemma same_refl : forall a, same_value a a.
Proof.
  assert (L : forall l, Forall (fun a => same_value a a) l -> Forall2 same_value l l)
    by (intros l H; induction H; constructor; assumption).
  induction a as [z|c|h|s| |l IH|l IH|i] using value_all.
  - now apply same_number with (2 * z)%Z.
  - now apply same_number with (if c then 2 else 0)%Z.
  - now apply same_number with h.
  - constructor.
  - constructor.
  - constructor. now apply L.
  - constructor. now apply L.
  - constructor.
Qed.

Lemma same_sym : forall a b, same_value a b -> same_value b a.
Proof.
  assert (L : forall l, Forall (fun a => forall b, same_value a b -> same_value b a) l ->
    forall m, Forall2 same_value l m -> Forall2 same_value m l).
  { intros l H; induction H as [|x l Hx Hl IH]; intros m K; inversion K; subst; constructor; auto. }
  induction a as [z|c|h|s| |l IH|l IH|i] using value_all; intros b K; inversion K; subst;
    try (now apply same_number with z0); try constructor; auto; try discriminate;
    match goal with H : halves_of _ = Some ?z |- _ => now apply same_number with z end.
Qed.

Lemma halves_same : forall a b z, halves_of a = Some z -> same_value a b -> halves_of b = Some z.
Proof. intros a b z H K. inversion K; subst; cbn in *; congruence. Qed.

Lemma same_trans : forall a b c, same_value a b -> same_value b c -> same_value a c.
Proof.
  assert (L : forall l, Forall (fun a => forall b c, same_value a b -> same_value b c -> same_value a c) l ->
    forall m n, Forall2 same_value l m -> Forall2 same_value m n -> Forall2 same_value l n).
  { intros l H; induction H as [|x l Hx Hl IH]; intros m n K1 K2; inversion K1; subst; inversion K2; subst;
      constructor; eauto. }
  assert (N : forall a b c z, halves_of a = Some z -> same_value a b -> same_value b c -> same_value a c).
  { intros a b c z H K1 K2. pose proof (halves_same a b z H K1) as Hb.
    pose proof (halves_same b c z Hb K2). now apply same_number with z. }
  induction a as [z|k|h|s| |l IH|l IH|i] using value_all; intros b c K1 K2;
    try (eapply N; [reflexivity | exact K1 | exact K2]).
  - inversion K1; subst; [discriminate | exact K2].
  - inversion K1; subst; [discriminate | exact K2].
  - inversion K1; subst; [discriminate |]. inversion K2; subst; [discriminate|]. constructor. eauto.
  - inversion K1; subst; [discriminate |]. inversion K2; subst; [discriminate|]. constructor. eauto.
  - inversion K1; subst; [discriminate | exact K2].
Qed.

Lemma same_hash : forall a b, same_value a b -> hashable a = hashable b.
Proof.
  assert (H0 : forall a z, halves_of a = Some z -> hashable a = true) by (intros [] ? H; cbn in H; congruence || reflexivity).
  assert (L : forall l, Forall (fun a => forall b, same_value a b -> hashable a = hashable b) l ->
    forall m, Forall2 same_value l m -> forallb hashable l = forallb hashable m).
  { intros l H; induction H as [|x l Hx Hl IH]; intros m K; inversion K; subst; cbn; [reflexivity|].
    f_equal; auto. }
  induction a as [z|k|h|s| |l IH|l IH|i] using value_all; intros b K; inversion K; subst; try reflexivity;
    try discriminate;
    try (match goal with H : halves_of b = Some _ |- _ => rewrite (H0 _ _ H); reflexivity end).
  cbn. now apply L.
Qed.

Lemma hashable_spec : forall v, hashable v = false <-> has_list v.
Proof.
  induction v as [z|k|h|s| |l IH|l IH|i] using value_all; cbn;
    try (split; [discriminate | intros H; inversion H]).
  - rewrite Forall_forall in IH. split.
    + intros H. destruct (forallb hashable l) eqn:E; [discriminate|]. clear H.
      assert (X : exists v, In v l /\ hashable v = false).
      { clear IH. induction l as [|x l IHl]; [discriminate|]. cbn in E. apply andb_false_iff in E.
        destruct E as [E|E]; [exists x; split; [now left | exact E]|].
        destruct (IHl E) as [v [I H]]. exists v. split; [now right | exact H]. }
      destruct X as [v [I H]]. apply has_member with v; [exact I|]. now apply IH.
    + intros H. inversion H as [|v ? I Hv]; subst. apply (IH v I) in Hv.
      destruct (forallb hashable l) eqn:E; [|reflexivity]. rewrite forallb_forall in E. rewrite (E v I) in Hv. discriminate.
  - split; [constructor | reflexivity].
Qed.

Lemma hashes_spec : forall args kwds, hashes args kwds = false <->
  exists v, (In v args \/ In v (map snd kwds)) /\ has_list v.
Proof.
  intros args kwds. unfold hashes.
  assert (X : forall l, forallb hashable l = false <-> exists v, In v l /\ has_list v).
  { induction l as [|x l IH]; cbn; [split; [discriminate | intros [v [[] _]]]|].
    rewrite andb_false_iff, hashable_spec, IH. split.
    - intros [H|[v [I H]]]; [exists x; auto | exists v; auto].
    - intros [v [[->|I] H]]; [now left | right; now exists v]. }
  assert (Y : forallb (fun kv : string * value => hashable (snd kv)) kwds = forallb hashable (map snd kwds)).
  { induction kwds as [|p l IH]; cbn; [reflexivity | now rewrite IH]. }
  rewrite Y, andb_false_iff, !X. split.
  - intros [[v [I H]]|[v [I H]]]; exists v; auto.
  - intros [v [[I|I] H]]; [left | right]; now exists v.
Qed.

(** ** Keys *)
Lemma items_refl : forall l, items_eq l l = true.
Proof.
  induction l as [|[|v] l IH]; cbn; auto. rewrite IH, (proj2 (py_eq_spec v v) (same_refl v)). reflexivity.
Qed.

Lemma items_sym : forall l m, items_eq l m = true -> items_eq m l = true.
Proof.
  induction l as [|x l IH]; intros [|y m] H; cbn in *; try discriminate; auto.
  apply andb_true_iff in H. destruct H as [H1 H2]. rewrite (IH _ H2), andb_true_r.
  destruct x, y; cbn in *; auto. apply py_eq_spec, same_sym, py_eq_spec, H1.
Qed.

Lemma items_trans : forall l m n, items_eq l m = true -> items_eq m n = true -> items_eq l n = true.
Proof.
  induction l as [|x l IH]; intros [|y m] [|z n] H K; cbn in *; try discriminate; auto.
  apply andb_true_iff in H. destruct H as [H1 H2]. apply andb_true_iff in K. destruct K as [K1 K2].
  rewrite (IH _ _ H2 K2), andb_true_r. destruct x, y, z; cbn in *; auto; try discriminate.
  apply py_eq_spec. apply py_eq_spec in H1, K1. now apply same_trans with v0.
Qed.

Lemma key_refl : forall k, key_eq k k = true.
Proof. intros [v|l]; cbn; [apply py_eq_spec, same_refl | apply items_refl]. Qed.

Lemma key_sym : forall a b, key_eq a b = true -> key_eq b a = true.
Proof. intros [v|l] [w|m] H; cbn in *; try discriminate; [apply py_eq_spec, same_sym, py_eq_spec, H | now apply items_sym]. Qed.

Lemma key_trans : forall a b c, key_eq a b = true -> key_eq b c = true -> key_eq a c = true.
Proof.
  intros [v|l] [w|m] [u|n] H K; cbn in *; try discriminate; [|now apply items_trans with m].
  apply py_eq_spec. apply py_eq_spec in H, K. now apply same_trans with w.
Qed.

Definition kw_item (kv : string * value) : list item := [Item (VStr (fst kv)); Item (snd kv)].
Definition same_kw (p q : string * value) : Prop := fst p = fst q /\ same_value (snd p) (snd q).

Lemma kw_items : forall k1 k2, items_eq (flat_map kw_item k1) (flat_map kw_item k2) = true <-> Forall2 same_kw k1 k2.
Proof.
  induction k1 as [|[n v] k1 IH]; intros [|[n' v'] k2]; cbn.
  - split; [constructor | reflexivity].
  - split; [discriminate | intros K; inversion K].
  - split; [discriminate | intros K; inversion K].
  - rewrite !andb_true_iff, String.eqb_eq, py_eq_spec, IH. split.
    + intros [-> [Hv Hk]]. constructor; [split; auto | exact Hk].
    + intros K. inversion K as [|? ? ? ? [E S] ?]; subst. auto.
Qed.

Lemma items_args : forall a1 a2 r1 r2,
  (r1 = [] \/ exists r, r1 = Mark :: r) -> (r2 = [] \/ exists r, r2 = Mark :: r) ->
  (items_eq (map Item a1 ++ r1) (map Item a2 ++ r2) = true <-> Forall2 same_value a1 a2 /\ items_eq r1 r2 = true).
Proof.
  induction a1 as [|x a1 IH]; intros [|y a2] r1 r2 H1 H2; cbn.
  - split; [intros K; split; [constructor | exact K] | intros [_ K]; exact K].
  - split; [|intros [K _]; inversion K]. destruct H1 as [->|[r ->]]; cbn; discriminate.
  - split; [|intros [K _]; inversion K]. destruct H2 as [->|[r ->]]; cbn; discriminate.
  - rewrite andb_true_iff, py_eq_spec, (IH a2 r1 r2 H1 H2). split.
    + intros [A [B C]]. split; [now constructor | exact C].
    + intros [A C]. inversion A; subst. auto.
Qed.

Definition rest_of (kwds : list (string * value)) : list item :=
  match kwds with [] => [] | _ => Mark :: flat_map kw_item kwds end.

Lemma rest_shape : forall k, rest_of k = [] \/ exists r, rest_of k = Mark :: r.
Proof. intros [|p k]; [now left | right; eexists; reflexivity]. Qed.

Lemma rest_spec : forall k1 k2, items_eq (rest_of k1) (rest_of k2) = true <-> Forall2 same_kw k1 k2.
Proof.
  intros [|p k1] [|q k2].
  - cbn. split; [constructor | reflexivity].
  - cbn. split; [discriminate | intros K; inversion K].
  - cbn. split; [discriminate | intros K; inversion K].
  - apply (kw_items (p :: k1) (q :: k2)).
Qed.

Lemma key_cases : forall a k,
  (exists v, a = [v] /\ k = [] /\ fast v = true /\ make_key a k = Raw v) \/
  (~ lone a k /\ make_key a k = Seq (map Item a ++ rest_of k)).
Proof.
  intros a [|p k].
  - destruct a as [|v [|w a]].
    + right. split; [intros [v [H _]]; discriminate | reflexivity].
    + cbn. destruct (fast v) eqn:F; [left; exists v; auto | right].
      split; [|reflexivity]. intros [w [H [_ K]]]. injection H as <-. destruct v; cbn in F; congruence || contradiction.
    + right. split; [intros [u [H _]]; discriminate | cbn; now rewrite app_nil_r].
  - right. split; [intros [v [_ [H _]]]; discriminate | reflexivity].
Qed.

Lemma fast_lone : forall v, fast v = true -> lone [v] [].
Proof. intros v F. exists v. destruct v; cbn in F; try discriminate; repeat split. Qed.

Lemma lone_fast : forall v, lone [v] [] -> fast v = true.
Proof. intros v [w [H [_ K]]]. injection H as <-. destruct v; cbn; auto; contradiction. Qed.

Lemma key_spec : forall a1 k1 a2 k2, key_eq (make_key a1 k1) (make_key a2 k2) = true <-> same_call a1 k1 a2 k2.
Proof.
  intros a1 k1 a2 k2. unfold same_call. fold same_kw.
  destruct (key_cases a1 k1) as [[v [-> [-> [F ->]]]]|[L1 ->]];
    destruct (key_cases a2 k2) as [[w [-> [-> [G ->]]]]|[L2 ->]]; cbn [key_eq].
  - rewrite py_eq_spec. pose proof (fast_lone v F). pose proof (fast_lone w G). split.
    + intros S. split; [repeat constructor; exact S|]. split; [constructor | tauto].
    + intros [S _]. now inversion S.
  - split; [discriminate|]. intros [_ [_ E]]. exfalso. apply L2, E, fast_lone, F.
  - split; [discriminate|]. intros [_ [_ E]]. exfalso. apply L1, E, fast_lone, G.
  - rewrite (items_args a1 a2 _ _ (rest_shape k1) (rest_shape k2)), rest_spec. tauto.
Qed.

Lemma same_hashes : forall a1 k1 a2 k2, same_call a1 k1 a2 k2 -> hashes a1 k1 = hashes a2 k2.
Proof.
  intros a1 k1 a2 k2 [A [K _]]. unfold hashes. f_equal.
  - clear K. induction A as [|x y l m H A IH]; cbn; [reflexivity|]. now rewrite (same_hash _ _ H), IH.
  - clear A. induction K as [|x y l m [_ H] K IH]; cbn; [reflexivity|]. now rewrite (same_hash _ _ H), IH.
Qed.

(** ** The dictionary *)
Lemma lookup_eq : forall c k k', key_eq k k' = true -> lookup k c = lookup k' c.
Proof.
  induction c as [|[k0 v] c IH]; intros k k' E; cbn; [reflexivity|].
  rewrite (IH k k' E). destruct (key_eq k0 k) eqn:A; destruct (key_eq k0 k') eqn:B; try reflexivity.
  - rewrite (key_trans _ _ _ A E) in B. discriminate.
  - rewrite (key_trans _ _ _ B (key_sym _ _ E)) in A. discriminate.
Qed.

Lemma lookup_store : forall c k v k', lookup k' (store k v c) = if key_eq k k' then Some v else lookup k' c.
Proof.
  induction c as [|[k0 w] c IH]; intros k v k'; cbn; [reflexivity|].
  destruct (key_eq k0 k) eqn:A; cbn.
  - destruct (key_eq k0 k') eqn:B; destruct (key_eq k k') eqn:D; try reflexivity.
    + rewrite (key_trans _ _ _ (key_sym _ _ A) B) in D. discriminate.
    + rewrite (key_trans _ _ _ A D) in B. discriminate.
  - rewrite IH. destruct (key_eq k0 k') eqn:B; [|reflexivity].
    destruct (key_eq k k') eqn:D; [|reflexivity].
    rewrite (key_trans _ _ _ B (key_sym _ _ D)) in A. discriminate.
Qed.

(** ** Calls *)
Lemma call_all : forall P : call -> Prop,
  (forall a k inner e, Forall P inner -> P (Call a k inner e)) -> forall t, P t.
Proof.
  intros P H. fix F 1. intros [a k inner e]. apply H.
  induction inner as [|t l IH]; constructor; [apply F | exact IH].
Qed.

Lemma exec_eq : forall a k inner ending c, exec (Call a k inner ending) c =
  if hashes a k then
    match lookup (make_key a k) c with
    | Some v => (c, [Event a k false (Returned v)])
    | None =>
        let (c1, log) := session inner c in
        match ending with
        | Returned v => (store (make_key a k) v c1, log ++ [Event a k true (Returned v)])
        | Raised e => (c1, log ++ [Event a k true (Raised e)])
        end
    end
  else (c, [Event a k false (Raised "TypeError: unhashable type")]).
Proof. intros; reflexivity. Qed.

Definition K (e : event) : key := make_key (eargs e) (ekwds e).
Definition CK (t : call) : key := make_key (args_of t) (kwds_of t).
