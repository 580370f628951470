(** Proofs about the sizes of named dimensions. *)
From Coq Require Import List Bool Arith ZArith Lia.
From Verif Require Import ArrModel ArrSpec ArrProofs ArrNames ArrBind.
Import ListNotations.

Lemma texpr_ind2 (P : texpr -> Prop) :
  (forall sh, P (XArr sh)) -> (forall sh dims, P (XEager sh dims)) -> (forall x key, P x -> P (XGet x key)) ->
  (forall args, Forall P args -> P (XOp args)) -> forall e, P e.
Proof.
  intros H1 H2 H3 H4. fix IH 1. intros [sh|sh dims|x key|args]; [apply H1|apply H2|apply H3, IH|apply H4].
  induction args as [|e args IHa]; constructor; [apply IH|exact IHa].
Qed.

Lemma indexes_app_iff sh sh' k k' n d : length sh = length k -> indexes (sh ++ sh') (k ++ k') n d <-> indexes sh k n d \/ indexes sh' k' n d.
Proof.
  intros L. split; [apply indexes_app; exact L|]. intros [(i & H1 & H2)|(i & H1 & H2)].
  - exists i. rewrite !nth_error_app1; auto; apply nth_error_Some; congruence.
  - exists (length k + i). rewrite !nth_error_app2 by lia. rewrite L. replace (length k + i - length k) with i by lia. auto.
Qed.

Lemma dwalk_applies e : forall key sh nsh nkey, dwalk e key sh = Some (nsh, nkey) -> forall n d, indexes nsh nkey n d <-> applies e key sh n d.
Proof.
  assert (R : forall l m n d, ~ indexes l (repeat KAll m) n d) by (intros l m n d (i & H & _); apply nth_error_In, repeat_spec in H; discriminate H).
  induction key as [|k key IH]; intros sh nsh nkey H n d; cbn [dwalk] in H.
  - destruct sh; inversion H; subst. split; [intros Hx; destruct (indexes_nil _ _ _ Hx)|intros Hx; inversion Hx].
  - assert (Hx : uses_axis k = true -> match sh with [] => None | d :: sh' => match dwalk e key sh' with Some (s, k0) => Some (d :: s, k :: k0) | None => None end end = Some (nsh, nkey) ->
      indexes nsh nkey n d <-> applies e (k :: key) sh n d).
    { clear H. intros Hk H. destruct sh as [|d0 sh]; [discriminate H|]. destruct (dwalk e key sh) as [[s k0]|] eqn:E; [|discriminate H]. inversion H; subst.
      rewrite indexes_cons, (IH _ _ _ E). split.
      - intros [[-> ->]|Hy]; constructor; assumption.
      - intros Hy. inversion Hy; subst; auto; discriminate Hk. }
    destruct k as [| |z|a b c|m]; try (apply Hx; [reflexivity|exact H]).
    + destruct (dwalk e key sh) as [[s k0]|] eqn:E; [|discriminate H]. inversion H; subst. rewrite indexes_cons, (IH _ _ _ E). split.
      * intros [[Hy _]|Hy]; [discriminate Hy|constructor; exact Hy].
      * intros Hy. inversion Hy; subst; [discriminate|auto].
    + destruct (e <=? length sh) eqn:El; [|discriminate H]. apply Nat.leb_le in El. destruct (dwalk e key (skipn e sh)) as [[s k0]|] eqn:E; [|discriminate H]. inversion H; subst.
      rewrite indexes_app_iff by (rewrite firstn_length_le, repeat_length; auto). rewrite (IH _ _ _ E). split.
      * intros [Hy|Hy]; [destruct (R _ _ _ _ Hy)|constructor; exact Hy].
      * intros Hy. inversion Hy; subst; [discriminate|auto].
Qed.

Lemma applies_full e key sh n d : applies e (full key) sh n d <-> applies e key sh n d.
Proof.
  unfold full. destruct (existsb is_ell key); [reflexivity|]. split.
  - revert sh. induction key as [|k key IH]; intros sh H; cbn [app] in H.
    + inversion H; subst; try discriminate. match goal with H : applies _ [] _ _ _ |- _ => inversion H end.
    + inversion H; subst; constructor; auto.
  - revert sh. induction key as [|k key IH]; intros sh H; [inversion H|]. cbn [app]. inversion H; subst; constructor; auto.
Qed.

Lemma desugar_applies sh key : ellipses key <= 1 -> used key <= length sh ->
  exists nsh nkey, desugar sh key = Ok (nsh, nkey) /\ length nkey = length nsh /\
    (forall n d, indexes nsh nkey n d <-> applies (length sh - used key) key sh n d) /\ dwalk (length sh - used key) (full key) sh = Some (nsh, nkey).
Proof.
  intros He Hu. destruct (desugar_ok _ _ He Hu) as (nsh & nkey & E & D). exists nsh, nkey. split; [exact E|].
  split; [apply (walk_dwalk (fun _ => 0) _ _ _ _ _ D)|]. split; [|exact D]. intros n d. rewrite (dwalk_applies _ _ _ _ _ D). apply applies_full.
Qed.

(** Shapes *)
Lemma eager_shape_axes env : forall sh dims s g, Forall whole dims -> index_axes env sh dims = Some (s, g) -> eager_shape sh dims = s.
Proof.
  induction sh as [|d sh IH]; intros [|k dims] s g W H; cbn [index_axes] in H; try discriminate H; [inversion H; reflexivity|].
  inversion W as [|? ? Wk W']; subst. destruct Wk as [->|[->|[->|[n ->]]]].
  - destruct (pick_all env d) as (f & Ef & _). rewrite Ef in H. destruct (index_axes env sh dims) as [[s0 g0]|] eqn:E; [|discriminate H]. inversion H; subst. cbn. f_equal. eapply IH; eassumption.
  - discriminate H.
  - discriminate H.
  - cbn [pick] in H. destruct (env n <? d); [|discriminate H]. destruct (index_axes env sh dims) as [[s0 g0]|] eqn:E; [|discriminate H]. inversion H; subst. cbn. eapply IH; eassumption.
Qed.

Lemma dwalk_whole e : forall key sh nsh nkey, dwalk e key sh = Some (nsh, nkey) -> Forall whole key -> Forall whole nkey.
Proof.
  induction key as [|k key IH]; intros sh nsh nkey H W; cbn [dwalk] in H.
  - destruct sh; inversion H; subst. constructor.
  - inversion W as [|? ? Wk W']; subst. destruct k as [| |z|a b c|m].
    + destruct (dwalk e key sh) as [[s k0]|] eqn:E; [|discriminate H]. inversion H; subst. constructor; [left; reflexivity|eapply IH; eassumption].
    + destruct (e <=? length sh); [|discriminate H]. destruct (dwalk e key (skipn e sh)) as [[s k0]|] eqn:E; [|discriminate H]. inversion H; subst.
      apply Forall_app. split; [|eapply IH; eassumption]. apply Forall_forall. intros x Hx. apply repeat_spec in Hx. left. exact Hx.
    + destruct Wk as [Hx|[Hx|[Hx|[n Hx]]]]; discriminate Hx.
    + destruct sh as [|d sh]; [discriminate H|]. destruct (dwalk e key sh) as [[s k0]|] eqn:E; [|discriminate H]. inversion H; subst. constructor; [exact Wk|eapply IH; eassumption].
    + destruct sh as [|d sh]; [discriminate H|]. destruct (dwalk e key sh) as [[s k0]|] eqn:E; [|discriminate H]. inversion H; subst. constructor; [exact Wk|eapply IH; eassumption].
Qed.

Lemma full_whole key : Forall whole key -> Forall whole (full key).
Proof. intros H. unfold full. destruct (existsb is_ell key); [exact H|]. apply Forall_app. split; [exact H|]. constructor; [|constructor]. right. right. left. reflexivity. Qed.

(** The result of rebuilding. *)
Definition tracks (e : texpr) (v : tshape) : Prop :=
  match v with
  | SArr sh => e = XArr sh
  | SEager sh dims => (forall sh', e <> XArr sh') /\ (exists s, shape_of e s) /\ forall s, shape_of e s -> eager_shape sh dims = s
  | SOther => forall s, ~ shape_of e s
  end.

Definition good {A} (P : A -> Prop) (r : res A) (Q : nat -> nat -> Prop) : Prop :=
  match r with
  | Ok a => P a
  | ValueError => exists n d d', d <> d' /\ Q n d /\ Q n d'
  | _ => False
  end.

Lemma add_names_good sh dims m Q0 : NoDup (map fst m) -> (forall n d, lookup m n = Some d <-> Q0 n d) ->
  good (fun m' => NoDup (map fst m') /\ forall n d, lookup m' n = Some d <-> Q0 n d \/ indexes sh dims n d) (add_names sh dims m) (fun n d => Q0 n d \/ indexes sh dims n d).
Proof.
  intros Hn HQ. pose proof (add_names_spec sh dims m) as S. destruct (add_names sh dims m) as [m'| | | | |]; cbn [good]; try exact S.
  - destruct S as [S1 S2]. split; [auto|]. intros n d. rewrite S1, HQ. reflexivity.
  - destruct S as (n & d & d' & Hd & H1 & H2). exists n, d, d'. rewrite HQ in H1. auto.
Qed.

Lemma good_weaken {A} (P : A -> Prop) r (Q Q' : nat -> nat -> Prop) : (forall n d, Q n d -> Q' n d) -> good P r Q -> good P r Q'.
Proof. intros H. destruct r; cbn; auto. intros (n & d & d' & Hd & H1 & H2). exists n, d, d'. auto. Qed.

Lemma good_bind {A B} (P : A -> Prop) (P' : B -> Prop) r f Q : good P r Q -> (forall a, P a -> good P' (f a) Q) -> good P' (bindr r f) Q.
Proof. intros H Hf. destruct r; cbn in *; auto. Qed.

Definition knows (m : list (nat * nat)) (Q : nat -> nat -> Prop) : Prop := NoDup (map fst m) /\ forall n d, lookup m n = Some d <-> Q n d.

Lemma knows_ext m (Q Q' : nat -> nat -> Prop) : (forall n d, Q n d <-> Q' n d) -> knows m Q -> knows m Q'.
Proof. intros H [H1 H2]. split; [exact H1|]. intros n d. rewrite H2. apply H. Qed.

Definition steps (get : tshape -> list kelem -> list (nat * nat) -> res (tshape * list (nat * nat))) (e : texpr) : Prop :=
  forall m Q0, knows m Q0 ->
  good (fun '(v, m') => tracks e v /\ knows m' (fun n d => Q0 n d \/ uses e n d)) (sizes_expr get e m) (fun n d => Q0 n d \/ uses e n d).

Lemma shape_get_inv x key s : shape_of (XGet x key) s -> exists sh env g, x = XArr sh /\ key <> [] /\ index_full env sh key = Some (s, g).
Proof. intros H. inversion H; subst. eauto 7. Qed.

Lemma uses_get_inv x key n d : uses (XGet x key) n d -> (exists sh, shape_of x sh /\ applies (length sh - used key) key sh n d) \/ uses x n d.
Proof. intros H. inversion H; subst; eauto. Qed.

Lemma index_full_axes env sh key s g nsh nkey : index_full env sh key = Some (s, g) -> dwalk (length sh - used key) (full key) sh = Some (nsh, nkey) ->
  exists g', index_axes env nsh nkey = Some (s, g').
Proof.
  intros H D. unfold index_full in H. destruct ((1 <? ellipses key) || (length sh <? used key)); [discriminate H|]. fold (full key) in H.
  destruct (walk_dwalk env _ _ _ _ _ D) as (_ & _ & _ & M). rewrite H in M. destruct (index_axes env nsh nkey) as [[s' g']|]; [|contradiction]. destruct M as [-> _]. eauto.
Qed.

Lemma get_arr_torch sh key m Q0 : knows m Q0 -> ellipses key <= 1 -> used key <= length sh -> Forall whole key -> (key <> [] -> exists s, shape_of (XGet (XArr sh) key) s) ->
  good (fun '(v, m') => tracks (XGet (XArr sh) key) v /\ knows m' (fun n d => Q0 n d \/ applies (length sh - used key) key sh n d)) (get_torch (SArr sh) key m)
    (fun n d => Q0 n d \/ applies (length sh - used key) key sh n d).
Proof.
  intros [K1 K2] He Hu W Hs. cbn [get_torch]. destruct (desugar_applies sh key He Hu) as (nsh & nkey & E & L & A & D). rewrite E. cbn [bindr].
  eapply good_bind; [apply (good_weaken _ _ (fun n d => Q0 n d \/ indexes nsh nkey n d)); [intros n d; rewrite A; auto|]; apply add_names_good; assumption|].
  intros m' [M1 M2]. cbn [good]. split.
  - assert (Hk : key = [] \/ key <> []) by (destruct key; [left; reflexivity|right; discriminate]). destruct Hk as [->|Hk].
    + cbn [tracks]. intros s Hx. apply shape_get_inv in Hx. destruct Hx as (? & ? & ? & _ & Hx & _). apply Hx. reflexivity.
    + destruct key as [|k0 key0]; [destruct (Hk eq_refl)|]. cbn [tracks]. split; [discriminate|]. split; [apply Hs; discriminate|]. intros s Hx. apply shape_get_inv in Hx.
      destruct Hx as (sh' & env & g & Ex & _ & Hx). inversion Ex; subst sh'. destruct (index_full_axes _ _ _ _ _ _ _ Hx D) as (g' & Ei).
      eapply eager_shape_axes; [|exact Ei]. eapply dwalk_whole; [exact D|]. apply full_whole. exact W.
  - split; [exact M1|]. intros n d. rewrite M2, A. reflexivity.
Qed.

Lemma eager_applies sh dims n d : length dims = length sh -> plain dims -> applies (length sh - used dims) dims sh n d <-> indexes sh dims n d.
Proof.
  intros L P. destruct (plain_counts dims P) as [C1 C2]. destruct (desugar_applies sh dims) as (nsh & nkey & E & _ & A & _); [lia|lia|].
  rewrite desugar_plain in E by (auto; lia). rewrite L, Nat.sub_diag in E. cbn [repeat] in E. rewrite app_nil_r in E. inversion E; subst. rewrite A. reflexivity.
Qed.

Lemma steps_op get args : Forall (steps get) args -> steps get (XOp args).
Proof.
  intros F m Q0 K. cbn [sizes_expr].
  assert (G : good (fun m' => knows m' (fun n d => Q0 n d \/ exists x, In x args /\ uses x n d))
    ((fix all es m := match es with [] => Ok m | e :: es' => bindr (sizes_expr get e m) (fun '(_, m') => all es' m') end) args m)
    (fun n d => Q0 n d \/ exists x, In x args /\ uses x n d)).
  { revert m Q0 K. induction F as [|x args Hx F IH]; intros m Q0 K.
    - cbn [good]. eapply knows_ext; [|exact K]. intros n d. split; [auto|]. intros [H|(x & [] & _)]. exact H.
    - eapply good_bind; [apply (good_weaken _ _ (fun n d => Q0 n d \/ uses x n d)); [|exact (Hx m Q0 K)]; intros n d [H|H]; [auto|right; exists x; split; [left; reflexivity|exact H]]|].
      intros [v m'] [_ K']. specialize (IH m' _ K'). eapply good_weaken; [|].
      2: { match goal with |- good _ ?r _ => destruct r as [m2| | | | |]; cbn [good] in *; try exact IH end.
           eapply knows_ext; [|exact IH]. intros n d. cbn beta. split.
           - intros [[H|H]|(y & H1 & H2)]; [auto|right; exists x; split; [left; reflexivity|exact H]|right; exists y; split; [right; exact H1|exact H2]].
           - intros [H|(y & [<-|H1] & H2)]; [auto|auto|right; exists y; auto]. }
      intros n d. cbn beta. intros [[H|H]|(y & H1 & H2)]; [auto|right; exists x; split; [left; reflexivity|exact H]|right; exists y; split; [right; exact H1|exact H2]]. }
  assert (EU : forall n d, (exists x, In x args /\ uses x n d) <-> uses (XOp args) n d).
  { intros n d. split; [intros (x & H1 & H2); eapply uses_op; eassumption|]. intros H. inversion H; subst. eauto. }
  eapply good_bind; [apply (good_weaken _ _ (fun n d => Q0 n d \/ exists x, In x args /\ uses x n d)); [intros n d; rewrite EU; auto|exact G]|].
  intros m' K'. cbn [good tracks]. split; [intros s H; inversion H|]. eapply knows_ext; [|exact K']. intros n d. cbn beta. rewrite EU. reflexivity.
Qed.

Theorem sizes_torch_good : forall e, wf e -> steps get_torch e.
Proof.
  induction e as [sh|sh dims|x key IH|args IH] using texpr_ind2; intros Hw m Q0 K.
  - cbn. split; [reflexivity|]. eapply knows_ext; [|exact K]. intros n d. split; [auto|]. intros [H|H]; [exact H|inversion H].
  - inversion Hw as [|? ? s L P W S| |]; subst. cbn [sizes_expr get_torch]. rewrite desugar_plain by (auto; lia). rewrite L, Nat.sub_diag. cbn [repeat]. rewrite app_nil_r. cbn [bindr].
    assert (EU : forall n d, uses (XEager sh dims) n d <-> indexes sh dims n d) by (intros n d; split; [intros H; inversion H; assumption|constructor; assumption]).
    pose proof (add_names_good sh dims m Q0 (proj1 K) (proj2 K)) as G. destruct (add_names sh dims m) as [m'| | | | |]; cbn [bindr good] in *; try contradiction.
    + split.
      * split; [discriminate|]. split; [eauto|]. intros s' Hs. inversion Hs; subst. eapply eager_shape_axes; eassumption.
      * split; [apply G|]. intros n d. rewrite (proj2 G). rewrite EU. reflexivity.
    + destruct G as (n & d & d' & Hd & H1 & H2). exists n, d, d'. rewrite !EU. auto.
  - inversion Hw as [| |? ? Wx He Hu Hwh|]; subst. cbn [sizes_expr]. specialize (IH Wx m Q0 K).
    assert (EU : forall n d, uses (XGet x key) n d <-> uses x n d \/ exists sh, shape_of x sh /\ applies (length sh - used key) key sh n d).
    { intros n d. split; [intros H; apply uses_get_inv in H; tauto|]. intros [H|(sh & H1 & H2)]; [apply uses_in; exact H|eapply uses_get; eassumption]. }
    eapply good_bind; [apply (good_weaken _ _ (fun n d => Q0 n d \/ uses x n d) (fun n d => Q0 n d \/ uses (XGet x key) n d)); [|exact IH]; intros n d [H|H]; [auto|right; apply EU; auto]|].
    intros [v m'] [T K']. destruct v as [sh|sh dims|].
    + cbn [tracks] in T. subst x. destruct (Hwh sh eq_refl) as (_ & Hww & Hsw).
      assert (EA : forall n d, (exists sh0, shape_of (XArr sh) sh0 /\ applies (length sh0 - used key) key sh0 n d) <-> applies (length sh - used key) key sh n d).
      { intros n d. split; [intros (sh0 & H1 & H2); inversion H1; subst; exact H2|]. intros H. exists sh. split; [constructor|exact H]. }
      pose proof (get_arr_torch sh key m' _ K' He (Hu sh (shape_arr sh)) Hww (fun _ => Hsw)) as G.
      eapply good_weaken with (Q' := fun n d => Q0 n d \/ uses (XGet (XArr sh) key) n d) in G; [|intros n d H; rewrite EU, EA; tauto].
      destruct (get_torch (SArr sh) key m') as [[v' m2]| | | | |]; cbn [good] in *; try exact G. destruct G as [G1 G2]. split; [exact G1|].
      eapply knows_ext; [|exact G2]. intros n d. cbn beta. rewrite EU, EA. tauto.
    + destruct T as [T0 [(s & Hs) T]]. cbn [get_torch]. rewrite (T s Hs). destruct (desugar_applies s key He (Hu s Hs)) as (nsh & nkey & E & L & A & D). rewrite E. cbn [bindr].
      assert (EA : forall n d, (exists sh0, shape_of x sh0 /\ applies (length sh0 - used key) key sh0 n d) <-> applies (length s - used key) key s n d).
      { intros n d. split; [|intros H; exists s; auto]. intros (sh0 & H1 & H2). rewrite <- (T s Hs), (T sh0 H1). exact H2. }
      eapply good_bind; [apply (good_weaken _ _ (fun n d => (Q0 n d \/ uses x n d) \/ indexes nsh nkey n d)); [intros n d H; rewrite EU, EA; rewrite A in H; tauto|]; apply add_names_good; apply K'|].
      intros m2 [M1 M2]. cbn [good tracks]. split.
      * intros s' Hx. apply shape_get_inv in Hx. destruct Hx as (sh' & env & g & -> & _ & _). exact (T0 sh' eq_refl).
      * split; [exact M1|]. intros n d. rewrite M2, EU, EA, A. tauto.
    + cbn [tracks] in T. cbn [get_torch good tracks]. split.
      * intros s Hx. apply shape_get_inv in Hx. destruct Hx as (sh' & env & g & -> & _ & _). exact (T sh' (shape_arr sh')).
      * eapply knows_ext; [|exact K']. intros n d. cbn beta. rewrite EU. split; [tauto|]. intros [H|[H|(sh & H & _)]]; auto. destruct (T sh H).
  - apply steps_op; [|exact K]. inversion Hw as [| | |? F]; subst. clear Hw K. induction IH as [|x args Hx IH IHa]; [constructor|]. inversion F; subst. constructor; auto.
Qed.

Theorem sizes_sound get : (forall e, wf e -> steps get e -> good (fun m => forall n d, lookup m n = Some d <-> uses e n d) (bindr (sizes_expr get e []) (fun '(_, m) => Ok m)) (uses e)).
Proof.
  intros e Hw Hs. specialize (Hs [] (fun _ _ => False)). assert (K : knows [] (fun _ _ : nat => False)) by (split; [constructor|]; intros n d; cbn; split; [discriminate|intros []]).
  specialize (Hs K). destruct (sizes_expr get e []) as [[v m]| | | | |]; cbn [bindr good] in *; try exact Hs.
  - destruct Hs as [_ [_ Hs]]. intros n d. rewrite Hs. tauto.
  - destruct Hs as (n & d & d' & Hd & H1 & H2). exists n, d, d'. tauto.
Qed.

Theorem sizesof_torch_meaning e : wf e ->
  match sizesof_torch e with
  | Ok m => forall n d, lookup m n = Some d <-> uses e n d
  | ValueError => exists n d d', d <> d' /\ uses e n d /\ uses e n d'
  | _ => False
  end.
Proof. intros Hw. exact (sizes_sound get_torch e Hw (sizes_torch_good e Hw)). Qed.

(** ** The jax version *)
Lemma add_raw_plain : forall key i sh m, plain key -> i + length key <= length sh -> add_raw i sh key m = add_names (skipn i sh) key m.
Proof.
  induction key as [|k key IH]; intros i sh m P L.
  - cbn [add_raw]. destruct (skipn i sh); reflexivity.
  - cbn [length] in L. destruct (nth_skipn sh i) as (d & E1 & E2); [lia|]. rewrite E2. 
    assert (P' : plain key) by (intros x Hx; apply P; right; exact Hx).
    destruct k as [| |z|a b c|n]; cbn [add_raw add_names]; try (apply IH; [exact P'|lia]).
    rewrite E1. destruct (add_size m n d); cbn [bindr]; try reflexivity. apply IH; [exact P'|lia].
Qed.

Lemma add_names_short : forall key sh l m, length key <= length sh -> (forall k, In k l -> k = KAll) -> add_names sh (key ++ l) m = add_names sh key m.
Proof.
  intros key. induction key as [|k key IH]; intros sh l m L Hl.
  - cbn [app]. transitivity (@Ok (list (nat * nat)) m); [|destruct sh; reflexivity]. clear L. revert sh. induction l as [|x l IHl]; intros sh; [destruct sh; reflexivity|].
    assert (x = KAll) by (apply Hl; left; reflexivity). subst. destruct sh; [reflexivity|]. cbn [add_names KAll]. apply IHl. intros y Hy. apply Hl. right. exact Hy.
  - destruct sh as [|d sh]; [cbn in L; lia|]. cbn [length] in L. destruct k as [| |z|a b c|n]; cbn [app add_names]; try (apply IH; [lia|exact Hl]).
    destruct (add_size m n d); try reflexivity. apply IH; [lia|exact Hl].
Qed.

Lemma raw_desugar sh key m : plain key -> length key <= length sh ->
  add_raw 0 sh key m = bindr (desugar sh key) (fun '(nsh, nkey) => add_names nsh nkey m).
Proof.
  intros P L. rewrite desugar_plain by assumption. cbn [bindr]. rewrite add_raw_plain by (auto; lia). cbn [skipn]. symmetry. apply add_names_short; [exact L|].
  intros k Hk. apply repeat_spec in Hk. exact Hk.
Qed.

Lemma bindr_assoc {A B C} (x : res A) (f : A -> res B) (g : B -> res C) : bindr (bindr x f) g = bindr x (fun a => bindr (f a) g).
Proof. destruct x; reflexivity. Qed.

Lemma get_jax_torch v key m : plain key -> (forall sh, v = SArr sh -> key <> [] /\ length key <= length sh) -> (forall sh dims, v = SEager sh dims -> length key <= length (eager_shape sh dims)) ->
  get_jax v key m = get_torch v key m.
Proof.
  intros P H1 H2. destruct v as [sh|sh dims|]; cbn [get_jax get_torch]; [| |reflexivity].
  - destruct (H1 sh eq_refl) as [Hne H3]. rewrite raw_desugar by assumption. rewrite desugar_plain by assumption. cbn [bindr]. destruct key; [destruct (Hne eq_refl)|].
    destruct (add_names _ _ m); reflexivity.
  - specialize (H2 sh dims eq_refl). rewrite raw_desugar by assumption. rewrite desugar_plain by assumption. cbn [bindr]. destruct (add_names _ _ m); reflexivity.
Qed.

Lemma sizes_jax_torch : forall e, wf e -> plain_keys e -> forall m, NoDup (map fst m) -> sizes_expr get_jax e m = sizes_expr get_torch e m.
Proof.
  induction e as [sh|sh dims|x key IH|args IH] using texpr_ind2; intros Hw Hp m Hn.
  - reflexivity.
  - inversion Hw as [|? ? s L P W S| |]; subst. cbn [sizes_expr get_jax get_torch]. rewrite raw_desugar by (auto; lia). rewrite desugar_plain by (auto; lia). cbn [bindr].
    destruct (add_names _ _ m); reflexivity.
  - inversion Hw as [| |? ? Wx He Hu Hwh|]; subst. inversion Hp as [| |? ? Px Pk|]; subst. cbn [sizes_expr]. rewrite (IH Wx Px m Hn).
    pose proof (sizes_torch_good x Wx m (fun n d => lookup m n = Some d)) as G. lapply G; [clear G; intros G|split; [exact Hn|reflexivity]].
    destruct (sizes_expr get_torch x m) as [[v m']| | | | |]; cbn [bindr good] in *; try reflexivity. destruct G as [T _].
    destruct (plain_counts key Pk) as [C1 _]. apply get_jax_torch; [exact Pk| |].
    + intros sh ->. cbn [tracks] in T. subst x. split; [apply (Hwh sh eq_refl)|]. rewrite <- C1. apply Hu. constructor.
    + intros sh dims ->. destruct T as (_ & (s & Hs) & T). rewrite (T s Hs), <- C1. apply Hu. exact Hs.
  - inversion Hw as [| | |? F]; subst. inversion Hp as [| | |? Fp]; subst. cbn [sizes_expr]. f_equal. revert m Hn. clear Hw Hp.
    induction IH as [|x args Hx IH IHa]; intros m Hn; [reflexivity|]. inversion F as [|? ? F1 F2]; subst. inversion Fp as [|? ? G1 G2]; subst. rewrite (Hx F1 G1 m Hn).
    pose proof (sizes_torch_good x F1 m (fun n d => lookup m n = Some d)) as G. lapply G; [clear G; intros G|split; [exact Hn|reflexivity]].
    destruct (sizes_expr get_torch x m) as [[v m']| | | | |]; cbn [bindr good] in *; try reflexivity. apply (IHa F2 G2). apply G.
Qed.

Theorem sizesof_jax_meaning e : wf e -> plain_keys e ->
  match sizesof_jax e with
  | Ok m => forall n d, lookup m n = Some d <-> uses e n d
  | ValueError => exists n d d', d <> d' /\ uses e n d /\ uses e n d'
  | _ => False
  end.
Proof.
  intros Hw Hp. pose proof (sizesof_torch_meaning e Hw) as H. unfold sizesof_jax. rewrite (sizes_jax_torch e Hw Hp []) by constructor. exact H.
Qed.
