(** Proofs about functions of arrays with named results: names taken off and put back. *)
From Coq Require Import List Bool Arith ZArith Lia.
From Verif Require Import ArrModel ArrSpec ArrProofs ArrNames ArrBind ArrUnbind NopModel NopSpec NopProofs FunModel FunSpec.
Import ListNotations.

Section Fun.
Variable V : Type.
Variable num : nat -> V.
Notation none := (fun _ : nat => @None (arr V)).

Lemma regular_neat (a : arr V) dims : regular V (VGet V a dims) <-> neat a dims.
Proof.
  cbn [regular]. unfold neat, built. split.
  - intros [L F]. split; [split; [exact L|]|exact F]. intros k Hk. rewrite Forall_forall in F. destruct (F k Hk) as [->|(n & ->)]; reflexivity.
  - intros [[L _] F]. split; assumption.
Qed.

Lemma leaf_den env v : leaf_at V env v = den env (to_tval V v).
Proof. destruct v; reflexivity. Qed.

(** ** Sizes of a leaf *)
Lemma neat_index env (a : arr V) dims m : neat a dims -> add_names (shape a) dims [] = Ok m -> valid env m -> index_axes env (shape a) dims <> None.
Proof.
  intros [[L _] F] E Ve. pose proof (add_names_spec (shape a) dims []) as S. rewrite E in S. destruct S as [S _].
  assert (R : forall n d, indexes (shape a) dims n d -> env n < d) by (intros n d H; apply Ve, S; right; exact H).
  clear E S Ve m. revert dims L F R. generalize (shape a). induction l as [|d sh IH]; intros [|k dims] L F R; try discriminate L; [discriminate|].
  apply Forall_cons_iff in F. destruct F as [Hk F]. cbn [length] in L. injection L as L. cbn [index_axes].
  assert (IH' : index_axes env sh dims <> None) by (apply IH; auto; intros n e H; apply R, indexes_cons; right; exact H).
  destruct (index_axes env sh dims) as [[s g]|]; [|congruence]. destruct Hk as [->|(n & ->)].
  - cbn. discriminate.
  - cbn [pick]. rewrite (proj2 (Nat.ltb_lt _ _)) by (apply R, indexes_cons; left; auto). discriminate.
Qed.

(** ** [bind_dims] with a name used twice *)
Lemma bind_core_once (a : arr V) dims names r : built a dims -> bind_core a dims names = Ok r -> once dims names.
Proof.
  intros [L _] H n i j Hn Hi Hj. unfold bind_core in H. match type of H with (if ?c then _ else _) = _ => destruct c eqn:Ef; [|discriminate H] end.
  rewrite L, Nat.sub_diag in H. cbn [seq] in H. rewrite app_nil_r in H.
  unfold permute in H. match type of H with context [if is_perm ?x ?y then _ else _] => destruct (is_perm x y) eqn:P; [|discriminate H] end. clear H.
  unfold is_perm in P. apply andb_true_iff in P. destruct P as [_ P]. rewrite forallb_forall in P.
  assert (G : forall i, nth_error dims i = Some (KName n) -> oindex n (names_of dims) = Some i).
  { intros x Hx. assert (Hl : x < length dims) by (apply nth_error_Some; congruence). specialize (P x). rewrite in_seq in P. specialize (P ltac:(rewrite <- L; lia)).
    apply existsb_exists in P. destruct P as (y & Hy & E). apply Nat.eqb_eq in E. subst y. apply in_app_or in Hy. destruct Hy as [Hy|Hy].
    - apply in_map_iff in Hy. destruct Hy as (n' & E & Hn'). rewrite forallb_forall in Ef. specialize (Ef n' Hn'). pose proof (oindex_spec n' dims) as S.
      destruct (oindex n' (names_of dims)) as [z|] eqn:Ez; [|discriminate Ef]. subst z. rewrite Hx in S. injection S as ->. exact Ez.
    - apply reindex_spec in Hy. destruct Hy as (m & k & E & Hk & B). cbn in E. subst m. rewrite Hx in Hk. injection Hk as <-. cbn [bound] in B.
      assert (mem n names = true) by (apply mem_In; exact Hn). congruence. }
  pose proof (G i Hi). pose proof (G j Hj). congruence.
Qed.

Lemma bind_torch_once (a : arr V) dims names r : built a dims -> (exists n, In n names /\ In (KName n) dims) -> bind_dims_torch (TGet a dims) names = Ok r -> once dims names.
Proof.
  intros B (n0 & Hn0 & Hd0) H. unfold bind_dims_torch in H. destruct (negb (nodupb names)); [discriminate H|]. cbn [sizes1] in H.
  pose proof (add_names_spec (shape a) dims []) as S. destruct (add_names (shape a) dims []) as [m| | | | |]; try discriminate H. destruct S as [S _].
  match type of H with (if ?c then _ else _) = _ => destruct c eqn:E end; [|eapply bind_core_once; eassumption].
  exfalso. apply negb_true_iff in E. destruct (name_indexed V a dims n0 B Hd0) as (d & Hd). assert (X : existsb (fun n => mem n (map fst m)) names = true).
  { apply existsb_exists. exists n0. split; [exact Hn0|]. apply mem_In. assert (Q : lookup m n0 = Some d) by (apply S; right; exact Hd). apply lookup_some_In in Q. apply in_map_iff. exists (n0, d). auto. }
  congruence.
Qed.

(** What both versions of [bind_dims] do with all names of an array *)
Definition binds (bind : tval V -> list nat -> res (tval V)) : Prop :=
  (forall a, bind (TArr a) [] = Ok (TArr a)) /\
  (forall names, match bind TLazy names with Ok (TArr _) => False | _ => True end) /\
  (forall a dims, add_names (shape a) dims [] = Ok [] -> bind (TGet a dims) [] = Ok (TGet a dims)) /\
  forall (a : arr V) dims m b env0, neat a dims -> add_names (shape a) dims [] = Ok m -> m <> [] -> valid env0 m ->
    bind (TGet a dims) (map fst m) = Ok (TArr b) -> stacked (map snd m) (map fst m) (TArr b) (TGet a dims).

Lemma sizes_forall2 (a : arr V) dims m : add_names (shape a) dims [] = Ok m ->
  NoDup (map fst m) /\ consistent (shape a) dims /\ Forall2 (fun n d => indexes (shape a) dims n d) (map fst m) (map snd m).
Proof.
  intros E. pose proof (add_names_spec (shape a) dims []) as S. rewrite E in S. destruct S as [S N]. specialize (N (NoDup_nil _)).
  split; [exact N|]. split.
  - intros n d d' H H'. assert (A : lookup m n = Some d) by (apply S; auto). assert (B : lookup m n = Some d') by (apply S; auto). congruence.
  - assert (G : forall l, (forall n d, In (n, d) l -> In (n, d) m) -> Forall2 (fun n d => indexes (shape a) dims n d) (map fst l) (map snd l)).
    { induction l as [|[n d] l IH]; intros H; [constructor|]. cbn [map fst snd]. constructor; [|apply IH; intros; apply H; right; assumption].
      assert (Q : lookup m n = Some d) by (apply lookup_In; [exact N|apply H; left; reflexivity]). apply S in Q. destruct Q as [Q|Q]; [discriminate Q|exact Q]. }
    apply G. auto.
Qed.

Lemma torch_binds : binds bind_dims_torch.
Proof.
  split; [reflexivity|]. split.
  - intros names. unfold bind_dims_torch. destruct (negb (nodupb names)); [exact Logic.I|]. cbn [sizes1 map]. match goal with |- context [if ?c then _ else _] => destruct c end; exact Logic.I.
  - split; [intros a dims E; unfold bind_dims_torch; cbn [nodupb negb sizes1]; rewrite E; reflexivity|].
    intros a dims m b env0 N E Hm Ve H. destruct (sizes_forall2 a dims m E) as (N1 & C & F).
    destruct m as [|[n0 d0] m0] eqn:Em; [congruence|]. rewrite <- Em in *.
    assert (O : once dims (map fst m)).
    { eapply bind_torch_once; [exact (proj1 N)| |exact H]. rewrite Em in F |- *. cbn [map fst snd] in *. inversion F as [|? ? ? ? (i & Hi & _) ?]; subst. exists n0. split; [left; reflexivity|eapply nth_error_In; exact Hi]. }
    destruct (bind_torch_meaning V a dims (map fst m) (map snd m) env0 (proj1 N) N1 O C F) as (r & Hr & S).
    + cbn [den]. unfold index_arr. pose proof (neat_index env0 a dims m N E Ve) as X. destruct (index_axes env0 (shape a) dims) as [[s g]|]; [discriminate|congruence].
    + rewrite Hr in H. injection H as ->. exact S.
Qed.

Lemma jax_binds : binds bind_dims_jax.
Proof.
  split; [reflexivity|]. split.
  - intros [|n names]; exact Logic.I.
  - split; [intros a dims E; unfold bind_dims_jax, partial_eval; rewrite E; reflexivity|].
    intros a dims m b env0 N E Hm Ve H. destruct (sizes_forall2 a dims m E) as (N1 & C & F).
    destruct (bind_jax_meaning V a dims (map fst m) (map snd m) env0 (proj1 N) N1 C F) as (r & Hr & S).
    + cbn [den]. unfold index_arr. pose proof (neat_index env0 a dims m N E Ve) as X. destruct (index_axes env0 (shape a) dims) as [[s g]|]; [discriminate|congruence].
    + rewrite Hr in H. injection H as ->. exact S.
Qed.

(** ** Taking the names off a leaf *)
Section Bind.
Variable bind : tval V -> list nat -> res (tval V).
Hypothesis binding : binds bind.

Lemma slice_nil (a : arr V) : same_arr (slice_at V 0 [] a) a.
Proof. split; [reflexivity|]. intros idx _. reflexivity. Qed.

Lemma valid_nil env : valid env [].
Proof. intros n d H. discriminate H. Qed.

Lemma deindex_law v m a : regular V v -> sizes_val V v [] = Ok m -> deindex V bind v m = Ok a ->
  evaluated v /\ NoDup (map fst m) /\ prefixed V 0 (map snd m) a /\
  forall env, (valid env m -> same (leaf_at V env v) (Some (slice_at V 0 (map env (map fst m)) a))) /\
              ((exists n d, lookup m n = Some d /\ d <= env n) -> leaf_at V env v = None).
Proof.
  intros Rv Em H. unfold deindex in H. destruct (bind (to_tval V v) (map fst m)) as [[b|b dims|]| | | | |] eqn:Eb; try discriminate H.
  destruct (eq_list (firstn (length m) (shape b)) (map snd m)) eqn:El; [|discriminate H]. injection H as <-. unfold eq_list in El.
  destruct (list_eq_dec Nat.eq_dec (firstn (length m) (shape b)) (map snd m)) as [El'|]; [|discriminate El]. clear El.
  assert (Pb : prefixed V 0 (map snd m) b) by (split; [lia|]; exists (skipn (length m) (shape b)); cbn [skipn]; rewrite <- El'; symmetry; apply firstn_skipn).
  destruct binding as (B1 & B2 & B4 & B3). destruct v as [c|c dims|n|f i l|v key]; cbn [to_tval sizes_val] in *.
  - injection Em as <-. cbn [map] in Eb. rewrite B1 in Eb. injection Eb as <-. split; [exact Logic.I|]. split; [constructor|]. split; [exact Pb|]. intros env. split; [intros _; cbn [leaf_at map]; split; reflexivity|].
    intros (n & d & Hn & _). discriminate Hn.
  - apply regular_neat in Rv. pose proof (add_names_spec (shape c) dims []) as S. rewrite Em in S. destruct S as [S N]. specialize (N (NoDup_nil _)).
    split; [exact Logic.I|]. split; [exact N|]. split; [exact Pb|].
    assert (Out : forall env, (exists n d, lookup m n = Some d /\ d <= env n) -> leaf_at V env (VGet V c dims) = None).
    { intros env (n & d & Hn & Hd). apply S in Hn. destruct Hn as [Hn|Hn]; [discriminate Hn|]. cbn [leaf_at]. unfold index_arr. rewrite (index_axes_out env _ _ _ _ Hn Hd). reflexivity. }
    intros env. split; [|apply Out]. intros Ve. destruct m as [|p m0] eqn:Emm.
    + exfalso. cbn [map] in Eb. rewrite (B4 c dims Em) in Eb. discriminate Eb.
    + rewrite <- Emm in *. pose proof (B3 c dims m b env Rv Em ltac:(rewrite Emm; discriminate) Ve Eb env (map env (map fst m)) (sized_within env m N Ve)) as St.
      cbn [den] in St. cbn [leaf_at].
      assert (Ea : index_arr (assign env (map fst m) (map env (map fst m))) c dims = index_arr env c dims).
      { unfold index_arr. rewrite (index_axes_agree (assign env (map fst m) (map env (map fst m))) env); [reflexivity|]. intros n Hn. destruct (name_indexed V c dims n (proj1 Rv) Hn) as (d & Hd).
        apply assign_map. assert (Q : lookup m n = Some d) by (apply S; right; exact Hd). apply lookup_some_In in Q. apply in_map_iff. exists (n, d). auto. }
      rewrite Ea in St. destruct (index_arr env c dims) as [e|]; [|contradiction]. destruct St as [S1 S2].
      assert (Ln : length (map env (map fst m)) = length (map snd m)) by (rewrite !map_length; reflexivity).
      split.
      * cbn [slice_at shape firstn skipn app Nat.add]. rewrite S1, Ln, skipn_app, Nat.sub_diag, skipn_all. reflexivity.
      * intros idx W. cbn [slice_at at_ firstn skipn app]. symmetry. apply S2. exact W.
  - exfalso. specialize (B2 (map fst m)). rewrite Eb in B2. exact B2.
  - exfalso. specialize (B2 (map fst m)). rewrite Eb in B2. exact B2.
  - exfalso. specialize (B2 (map fst m)). rewrite Eb in B2. exact B2.
Qed.

(** ** Lists of leaves *)
Lemma rmap_spec {A B} (f : A -> res B) l r : rmap f l = Ok r <-> Forall2 (fun x y => f x = Ok y) l r.
Proof.
  revert r. induction l as [|x l IH]; intros r; cbn [rmap].
  - split; [intros H; injection H as <-; constructor|]. intros H. inversion H. reflexivity.
  - split.
    + intros H. destruct (f x) as [y| | | | |] eqn:E; try discriminate H. cbn [bindr] in H. destruct (rmap f l) as [ys| | | | |] eqn:El; try discriminate H. cbn [bindr] in H. injection H as <-.
      constructor; [exact E|]. apply IH. reflexivity.
    + intros H. inversion H as [|? y ? ys E F]; subst. rewrite E. cbn [bindr]. apply IH in F. rewrite F. reflexivity.
Qed.

Lemma tmap2_spec {A B C} (f : A -> B -> res C) t u r : tmap2 f t u = Ok r ->
  is_node t = is_node u /\ is_node r = is_node t /\ length (leaves t) = length (leaves u) /\ Forall2 (fun p c => f (fst p) (snd p) = Ok c) (combine (leaves t) (leaves u)) (leaves r).
Proof.
  unfold tmap2. destruct (Bool.eqb (is_node t) (is_node u)) eqn:E1; [|discriminate]. destruct (Nat.eqb (length (leaves t)) (length (leaves u))) eqn:E2; [|discriminate]. cbn [andb].
  apply Bool.eqb_prop in E1. apply Nat.eqb_eq in E2. destruct (rmap (fun p : A * B => f (fst p) (snd p)) (combine (leaves t) (leaves u))) as [l| | | | |] eqn:El; try discriminate.
  cbn [bindr]. intros H. injection H as <-. apply rmap_spec in El. auto.
Qed.

(** The leaves of [ret], their sizes [ms] and the arrays [outs] without names *)
Definition stripped (v : val V) (m : list (nat * nat)) (a : arr V) : Prop := sizes_val V v [] = Ok m /\ deindex V bind v m = Ok a.
Inductive strip : list (val V) -> list (list (nat * nat)) -> list (arr V) -> Prop :=
| strip_nil : strip [] [] []
| strip_cons v m a vs ms outs : stripped v m a -> strip vs ms outs -> strip (v :: vs) (m :: ms) (a :: outs).

Lemma deindexed_spec func args ix t ix' : deindexed V bind func args ix = (Ok t, ix') ->
  exists ret ms, func args = Ok ret /\ is_node t = is_node ret /\ strip (leaves ret) ms (leaves t) /\ ix' = Some (Tree (is_node ret) (map (map fst) ms)).
Proof.
  unfold deindexed. destruct (func args) as [ret| | | | |]; try discriminate. unfold tmap. destruct (rmap (fun v => sizes_val V v []) (leaves ret)) as [ms| | | | |] eqn:Em; try discriminate.
  cbn [bindr is_node leaves]. intros H. injection H as H Hix. apply tmap2_spec in H. cbn [is_node leaves] in H. destruct H as (_ & Hn & Hl & F). exists ret, ms. split; [reflexivity|]. split; [exact Hn|].
  split; [|symmetry; exact Hix]. apply rmap_spec in Em. revert Em Hl F. generalize (leaves ret) as vs, (leaves t) as outs. clear. intros vs outs Em. revert outs.
  induction Em as [|v m vs ms E Em IH]; intros outs Hl F; cbn [combine] in F; inversion F as [|? a ? outs' H1 H2]; subst; constructor; [split; assumption|]. apply IH; [cbn in Hl; lia|exact H2].
Qed.

Lemma deindexed_conv func args ret ms outs ix : func args = Ok ret -> strip (leaves ret) ms outs ->
  deindexed V bind func args ix = (Ok (Tree (is_node ret) outs), Some (Tree (is_node ret) (map (map fst) ms))).
Proof.
  intros E S. unfold deindexed. rewrite E. unfold tmap. assert (Em : rmap (fun v => sizes_val V v []) (leaves ret) = Ok ms).
  { apply rmap_spec. clear E. induction S as [|v m a vs ms outs [H _] S IH]; constructor; auto. }
  rewrite Em. cbn [bindr is_node leaves]. f_equal. unfold tmap2. cbn [is_node leaves]. rewrite Bool.eqb_reflx. assert (L : length (leaves ret) = length ms) by (clear E Em; induction S; cbn; congruence).
  rewrite L, Nat.eqb_refl. cbn [andb]. assert (Eo : rmap (fun p : val V * list (nat * nat) => deindex V bind (fst p) (snd p)) (combine (leaves ret) ms) = Ok outs).
  { apply rmap_spec. clear E Em L. induction S as [|v m a vs ms outs [_ H] S IH]; cbn [combine]; constructor; auto. }
  rewrite Eo. reflexivity.
Qed.

(** ** Indexing with names in front, or after whole axes *)
Lemma index_expr_axes env start names (a : arr V) sz : prefixed V start sz a -> length names = length sz ->
  exists rest, shape a = firstn start (shape a) ++ sz ++ rest /\ length (firstn start (shape a)) = start /\
  same (index_full_arr env a (index_expr start names)) (index_arr env a (repeat KAll start ++ map KName names ++ repeat KAll (length rest))).
Proof.
  intros [L (rest & E)] Ln. exists rest. split; [rewrite <- E; symmetry; apply firstn_skipn|]. split; [apply firstn_length_le; exact L|].
  assert (Ls : length (shape a) = start + length sz + length rest).
  { rewrite <- (firstn_skipn start (shape a)), E, !app_length, firstn_length_le by exact L. lia. }
  assert (P : plain (index_expr start names)).
  { intros k Hk. unfold index_expr in Hk. apply in_app_or in Hk. destruct Hk as [Hk|Hk]; [apply repeat_spec in Hk; subst; reflexivity|]. apply in_map_iff in Hk. destruct Hk as (n & <- & _). reflexivity. }
  assert (Lk : length (index_expr start names) = start + length sz) by (unfold index_expr; rewrite app_length, repeat_length, map_length; lia).
  destruct (plain_counts _ P) as [C1 C2]. destruct (desugar_meaning V a (index_expr start names)) as (nsh & nkey & D & _ & _ & _ & M); [lia|lia|].
  rewrite desugar_plain in D by (auto; lia). injection D as <- <-. eapply same_trans; [apply same_sym, M|]. eapply same_trans; [apply index_arr_same, reshape_same|].
  replace (length (shape a) - length (index_expr start names)) with (length rest) by lia. unfold index_expr. rewrite <- app_assoc. apply same_refl.
Qed.

Lemma names_after env start names (a : arr V) sz : prefixed V start sz a -> length names = length sz -> within sz (map env names) ->
  same (index_full_arr env a (index_expr start names)) (Some (slice_at V start (map env names) a)).
Proof.
  intros P Ln W. destruct (index_expr_axes env start names a sz P Ln) as (rest & Es & Lf & M). eapply same_trans; [exact M|]. clear M.
  destruct (names_axes env names sz rest W) as (g & Eg & Hg). destruct (index_axes_all env (firstn start (shape a)) (sz ++ rest) (map KName names ++ repeat KAll (length rest)) rest g Eg) as (g' & Eg' & Hg').
  rewrite <- Es, Lf in Eg'. unfold index_arr. rewrite Eg'. split.
  - cbn [shape slice_at]. rewrite map_length, Ln. rewrite Es at 3. rewrite skipn_app, Lf, Nat.add_comm, Nat.add_sub, skipn_app, Nat.sub_diag.
    rewrite (skipn_all2 (firstn start (shape a))) by lia. rewrite skipn_all. reflexivity.
  - cbn [shape at_]. intros idx Wi. apply within_split in Wi. destruct Wi as [W1 W2]. rewrite Lf in W1, W2. pose proof (within_length _ _ W1) as L1. pose proof (within_length _ _ W2) as L2.
    rewrite <- (firstn_skipn start idx) at 1. rewrite Hg' by (symmetry; exact L1). rewrite Hg by (symmetry; exact L2). reflexivity.
Qed.

Lemma names_outside env start names (a : arr V) sz n d : prefixed V start sz a -> length names = length sz -> lookup (combine names sz) n = Some d -> d <= env n ->
  index_full_arr env a (index_expr start names) = None.
Proof.
  intros P Ln Hl Hd. destruct (index_expr_axes env start names a sz P Ln) as (rest & Es & Lf & M).
  assert (X : index_axes env (sz ++ rest) (map KName names ++ repeat KAll (length rest)) = None).
  { clear -Hl Hd Ln. revert sz Hl Ln. induction names as [|m names IH]; intros [|e sz] Hl Ln; try discriminate. cbn [combine lookup] in Hl. cbn [map app index_axes pick]. destruct (Nat.eqb m n) eqn:E.
    - apply Nat.eqb_eq in E. injection Hl as ->. subst. rewrite (proj2 (Nat.ltb_ge _ _) Hd). reflexivity.
    - rewrite IH; [destruct (env m <? e); reflexivity|exact Hl|cbn in Ln; lia]. }
  apply (index_axes_all_none env (firstn start (shape a))) in X. rewrite <- Es, Lf in X. unfold index_arr in M. rewrite X in M. destruct (index_full_arr env a (index_expr start names)); [contradiction|reflexivity].
Qed.
End Bind.
End Fun.
