(** Proofs about indexing, binding and unbinding of named dimensions. *)
From Coq Require Import List Bool Arith ZArith Lia Permutation.
From Verif Require Import ArrModel ArrSpec ArrProofs ArrNames.
Import ListNotations.

Lemma reshape_same {V} (a : arr V) : same_arr (reshape a (shape a)) a.
Proof. split; [reflexivity|]. intros idx H. apply reshape_at; [exact H|reflexivity]. Qed.

Lemma index_arr_same {V} env (a b : arr V) key : same_arr a b -> same (index_arr env a key) (index_arr env b key).
Proof.
  intros [H1 H2]. unfold index_arr. rewrite <- H1. destruct (index_axes env (shape a) key) as [[s g]|] eqn:E; [|exact I]. split; [reflexivity|].
  cbn [shape at_]. intros idx Hw. apply H2. eapply index_axes_within; eassumption.
Qed.

(** ** Desugaring and names *)
Lemma dwalk_names e : forall key sh nsh nkey, dwalk e key sh = Some (nsh, nkey) -> forall n, In (KName n) nkey <-> In (KName n) key.
Proof.
  assert (R : forall n m, ~ In (KName n) (repeat KAll m)) by (intros n m H; apply repeat_spec in H; discriminate H).
  induction key as [|k key IH]; intros sh nsh nkey H n; cbn [dwalk] in H.
  - destruct sh; inversion H; subst. reflexivity.
  - assert (Hx : match sh with [] => None | d :: sh' => match dwalk e key sh' with Some (s, k0) => Some (d :: s, k :: k0) | None => None end end = Some (nsh, nkey) ->
      In (KName n) nkey <-> In (KName n) (k :: key)).
    { clear H. intros H. destruct sh as [|d sh]; [discriminate H|]. destruct (dwalk e key sh) as [[s k0]|] eqn:E; [|discriminate H]. inversion H; subst. cbn [In]. rewrite (IH _ _ _ E). reflexivity. }
    destruct k as [| |z|a b c|m]; try (apply Hx; exact H).
    + destruct (dwalk e key sh) as [[s k0]|] eqn:E; [|discriminate H]. inversion H; subst. cbn [In]. rewrite (IH _ _ _ E). split; intros [Hy|Hy]; try discriminate Hy; auto.
    + destruct (e <=? length sh); [|discriminate H]. destruct (dwalk e key (skipn e sh)) as [[s k0]|] eqn:E; [|discriminate H]. inversion H; subst.
      rewrite in_app_iff. cbn [In]. rewrite (IH _ _ _ E). split; intros [Hy|Hy]; auto; [destruct (R _ _ Hy)|discriminate Hy].
Qed.

Lemma desugar_names sh key nsh nkey : desugar sh key = Ok (nsh, nkey) -> ellipses key <= 1 -> used key <= length sh -> forall n, In (KName n) nkey <-> In (KName n) key.
Proof.
  intros H He Hu n. destruct (desugar_ok _ _ He Hu) as (nsh' & nkey' & E & D). rewrite E in H. inversion H; subst. rewrite (dwalk_names _ _ _ _ _ D). unfold full.
  destruct (existsb is_ell key); [reflexivity|]. rewrite in_app_iff. cbn. split; [intros [Hx|[Hx|[]]]; [exact Hx|discriminate Hx]|auto].
Qed.

Lemma plain_counts key : plain key -> used key = length key /\ ellipses key = 0.
Proof.
  unfold used, ellipses. induction key as [|k key IH]; intros H; [split; reflexivity|]. destruct IH as [I1 I2]; [intros x Hx; apply H; right; exact Hx|].
  assert (Hk : uses_axis k = true) by (apply H; left; reflexivity). cbn [filter]. destruct (plain_kinds k Hk) as [_ K]. rewrite Hk, K. cbn [length]. split; congruence.
Qed.

Lemma dwalk_plain_key : forall key e sh, plain key -> length key + e = length sh -> dwalk e (key ++ [KEll]) sh = Some (sh, key ++ repeat KAll e).
Proof.
  induction key as [|k key IH]; intros e sh P L.
  - cbn [app dwalk]. cbn in L. rewrite (proj2 (Nat.leb_le e (length sh))) by lia. rewrite L, skipn_all, firstn_all, !app_nil_r. reflexivity.
  - destruct sh as [|d sh]; [cbn in L; lia|]. cbn [app]. rewrite dwalk_plain by (apply P; left; reflexivity).
    rewrite IH; [reflexivity| |cbn in L; lia]. intros x Hx. apply P. right. exact Hx.
Qed.

Lemma desugar_plain sh key : plain key -> length key <= length sh -> desugar sh key = Ok (sh, key ++ repeat KAll (length sh - length key)).
Proof.
  intros P L. destruct (plain_counts key P) as [C1 C2]. destruct (desugar_ok sh key) as (nsh & nkey & E & D); [lia|lia|]. rewrite E.
  unfold full in D. rewrite ellipses_existsb, C2 in D. cbn [Nat.eqb negb] in D. rewrite C1, dwalk_plain_key in D by (auto; lia). inversion D; subst. reflexivity.
Qed.

(** ** Indexing *)
Lemma existsb_name key : existsb is_name key = true <-> exists n, In (KName n) key.
Proof.
  rewrite existsb_exists. split.
  - intros (k & Hk & E). destruct k; try discriminate E. exists n. exact Hk.
  - intros (n & Hn). exists (KName n). auto.
Qed.

Lemma no_names_agree key : existsb is_name key = false -> forall n, ~ In (KName n) key.
Proof. intros H n Hn. assert (E : existsb is_name key = true) by (apply existsb_name; exists n; exact Hn). congruence. Qed.

Theorem getitem_meaning V (a : arr V) key v : getitem a key = Ok v -> forall env, same (den env v) (index_full_arr env a key).
Proof.
  intros H env. destruct key as [|k0 key0] eqn:Ek.
  - cbn in H. inversion H; subst. cbn [den]. unfold index_full_arr, index_full. cbn. rewrite Nat.sub_0_r, skipn_all, firstn_all, app_nil_r. split; [reflexivity|].
    cbn [at_]. intros idx Hw. rewrite app_nil_r, firstn_all2; [reflexivity|]. rewrite (within_length _ _ Hw). lia.
  - rewrite <- Ek in *. assert (H' : match desugar (shape a) key with
      | Ok (nsh, nkey) => if existsb is_name key then
        if forallb is_name key then match add_names nsh nkey [] with Ok _ => Ok (TGet (reshape a nsh) nkey) | ValueError => ValueError | _ => RuntimeError end
        else partial_eval (reshape a nsh) nkey
      else match index_arr (fun _ => 0) (reshape a nsh) nkey with Some r => Ok (TArr r) | None => IndexError end
      | IndexError => IndexError | AssertionError => AssertionError | _ => RuntimeError end = Ok v) by (rewrite <- H; rewrite Ek; reflexivity).
    clear H. rename H' into H. clear Ek k0 key0.
    destruct (Nat.le_gt_cases (ellipses key) 1) as [He|He]; [|destruct (desugar_rejects (shape a) key) as [E|E]; [auto|rewrite E in H; discriminate H..]].
    destruct (Nat.le_gt_cases (used key) (length (shape a))) as [Hu|Hu]; [|destruct (desugar_rejects (shape a) key) as [E|E]; [auto|rewrite E in H; discriminate H..]].
    destruct (desugar_meaning V a key He Hu) as (nsh & nkey & E & _ & L & P & M). rewrite E in H.
    destruct (existsb is_name key) eqn:En.
    + destruct (forallb is_name key).
      * destruct (add_names nsh nkey []); inversion H; subst. apply M.
      * eapply same_trans; [apply (partial_eval_meaning V (reshape a nsh) nkey); [split; [exact L|exact P]|exact H]|]. apply M.
    + destruct (index_arr (fun _ => 0) (reshape a nsh) nkey) as [r|] eqn:Ei; inversion H; subst. cbn [den]. rewrite <- Ei. eapply same_trans; [|apply M].
      unfold index_arr. rewrite (index_axes_agree (fun _ => 0) env); [apply same_refl|]. intros n Hn. apply (desugar_names _ _ _ _ E He Hu) in Hn. destruct (no_names_agree _ En n Hn).
Qed.

(** Indexing with one element per axis. *)
Lemma index_full_plain {V} env (a : arr V) key : built a key -> same (index_full_arr env a key) (index_arr env a key).
Proof.
  intros [L P]. destruct (plain_counts key P) as [C1 C2]. destruct (desugar_meaning V a key) as (nsh & nkey & E & _ & _ & _ & M); [lia|lia|].
  rewrite desugar_plain in E by (auto; lia). rewrite L, Nat.sub_diag in E. cbn [repeat] in E. rewrite app_nil_r in E. inversion E; subst nsh nkey.
  eapply same_trans; [apply same_sym, M|]. apply index_arr_same, reshape_same.
Qed.

Lemma getitem_nonempty {V} (a : arr V) key : key <> [] -> getitem a key =
  match desugar (shape a) key with
  | Ok (nsh, nkey) => if existsb is_name key then
    if forallb is_name key then match add_names nsh nkey [] with Ok _ => Ok (TGet (reshape a nsh) nkey) | ValueError => ValueError | _ => RuntimeError end
    else partial_eval (reshape a nsh) nkey
  else match index_arr (fun _ => 0) (reshape a nsh) nkey with Some r => Ok (TArr r) | None => IndexError end
  | IndexError => IndexError | AssertionError => AssertionError | _ => RuntimeError end.
Proof. destruct key; [intros H; destruct (H eq_refl)|reflexivity]. Qed.

Lemma getitem_ok V (a : arr V) key env : built a key -> index_axes env (shape a) key <> None -> consistent (shape a) key ->
  exists v, getitem a key = Ok v.
Proof.
  intros [L P] Hd Hc. assert (Ek : key = [] \/ key <> []) by (destruct key; [left; reflexivity|right; discriminate]).
  destruct Ek as [->|Ek]; [eexists; reflexivity|]. rewrite getitem_nonempty by exact Ek. rewrite desugar_plain by (auto; lia).
  rewrite L, Nat.sub_diag. cbn [repeat]. rewrite app_nil_r. destruct (existsb is_name key) eqn:En.
  - destruct (forallb is_name key).
    + pose proof (add_names_spec (shape a) key []) as S. destruct (add_names (shape a) key []) as [m| | | | |]; try contradiction; [eexists; reflexivity|].
      destruct S as (n & d & d' & Hne & [Hx|Hx] & Hy); [discriminate Hx|]. exfalso. apply Hne. eapply Hc; eassumption.
    + destruct (partial_eval_ok V (reshape a (shape a)) key env) as (a' & dims' & E & _); [split; assumption|exact Hd|exact Hc|]. rewrite E. eexists. reflexivity.
  - unfold index_arr. change (shape (reshape a (shape a))) with (shape a). rewrite (index_axes_agree (fun _ => 0) env).
    + destruct (index_axes env (shape a) key) as [[s g]|]; [|exfalso; apply Hd; reflexivity]. eexists. reflexivity.
    + intros n Hn. destruct (no_names_agree _ En n Hn).
Qed.

(** ** Binding *)
Lemma mem_In n l : mem n l = true <-> In n l.
Proof.
  unfold mem. rewrite existsb_exists. split; [intros (x & Hx & E); apply Nat.eqb_eq in E; subst; exact Hx|]. intros H. exists n. rewrite Nat.eqb_refl. auto.
Qed.
Lemma nodupb_NoDup l : nodupb l = true <-> NoDup l.
Proof.
  induction l as [|x l IH]; cbn [nodupb]; [split; [constructor|reflexivity]|]. rewrite andb_true_iff, negb_true_iff, IH. split.
  - intros [H1 H2]. constructor; [|exact H2]. intros Hx. apply mem_In in Hx. congruence.
  - intros H. inversion H; subst. split; [|assumption]. destruct (mem x l) eqn:E; [apply mem_In in E; contradiction|reflexivity].
Qed.

Lemma oindex_spec n : forall dims, match oindex n (names_of dims) with Some i => nth_error dims i = Some (KName n) | None => ~ In (KName n) dims end.
Proof.
  unfold names_of. induction dims as [|k dims IH]; cbn [map oindex]; [intros []|].
  assert (Hx : (forall m, k <> KName m) -> match option_map S (oindex n (map (fun k => match k with KName n => Some n | _ => None end) dims)) with Some i => nth_error (k :: dims) i = Some (KName n) | None => ~ In (KName n) (k :: dims) end).
  { intros Hk. destruct (oindex n _) as [i|]; cbn [option_map]; [exact IH|]. intros [H|H]; [exact (Hk n H)|contradiction]. }
  destruct k as [| |z|a b c|m]; try (apply Hx; discriminate).
  destruct (Nat.eqb n m) eqn:E; [apply Nat.eqb_eq in E; subst; reflexivity|]. apply Nat.eqb_neq in E.
  destruct (oindex n _) as [i|]; cbn [option_map]; [exact IH|]. intros [H|H]; [inversion H; congruence|contradiction].
Qed.

Definition bound (names : list nat) (k : kelem) : bool := match k with KName n => mem n names | _ => false end.

Lemma reindex_cons i names k dims : reindex i names (k :: dims) = if bound names k then reindex (S i) names dims else i :: reindex (S i) names dims.
Proof. destruct k; reflexivity. Qed.

Lemma reindex_spec names : forall dims i j, In j (reindex i names dims) <-> exists m k, j = i + m /\ nth_error dims m = Some k /\ bound names k = false.
Proof.
  induction dims as [|k dims IH]; intros i j.
  - cbn. split; [intros []|]. intros ([|m] & x & _ & H & _); discriminate H.
  - rewrite reindex_cons. split.
    + destruct (bound names k) eqn:E; intros H.
      * apply IH in H. destruct H as (m & x & -> & H1 & H2). exists (S m), x. split; [lia|auto].
      * destruct H as [<-|H]; [exists 0, k; split; [lia|auto]|]. apply IH in H. destruct H as (m & x & -> & H1 & H2). exists (S m), x. split; [lia|auto].
    + intros ([|m] & x & -> & H1 & H2); cbn in H1.
      * inversion H1; subst. rewrite H2. left. lia.
      * assert (In (i + S m) (reindex (S i) names dims)) by (apply IH; exists m, x; split; [lia|auto]). destruct (bound names k); [|right]; assumption.
Qed.

Lemma reindex_ge names dims i j : In j (reindex i names dims) -> i <= j < i + length dims.
Proof. rewrite reindex_spec. intros (m & k & -> & H & _). assert (m < length dims) by (apply nth_error_Some; congruence). lia. Qed.

Lemma reindex_NoDup names : forall dims i, NoDup (reindex i names dims).
Proof.
  induction dims as [|k dims IH]; intros i; [constructor|]. rewrite reindex_cons. destruct (bound names k); [apply IH|]. constructor; [|apply IH].
  intros H. apply reindex_ge in H. lia.
Qed.

(** Positions of the bound names in their places, the others from the list. *)
Fixpoint merge (names : list nat) (env : nat -> nat) (dims : list kelem) (l : list nat) : list nat :=
  match dims with
  | [] => []
  | k :: dims' => if bound names k then match k with KName n => env n | _ => 0 end :: merge names env dims' l else hd 0 l :: merge names env dims' (tl l)
  end.

Lemma nth_sh {A} (pre suf : list A) x d : nth (length pre) (pre ++ x :: suf) d = x.
Proof. rewrite app_nth2, Nat.sub_diag by lia. reflexivity. Qed.

Lemma map_nth_reindex {A} names (dflt : A) dims : forall pre x suf, 
  map (fun i => nth i (pre ++ x :: suf) dflt) (reindex (S (length pre)) names dims) = map (fun i => nth i ((pre ++ [x]) ++ suf) dflt) (reindex (length (pre ++ [x])) names dims).
Proof. intros pre x suf. rewrite app_length, Nat.add_comm. cbn [length Nat.add]. rewrite <- app_assoc. reflexivity. Qed.

Lemma axes_merge names env env2 : (forall n, mem n names = false -> env2 n = env n) ->
  forall dims sh pd ps, length pd = length ps -> length dims = length sh -> (forall n d, In n names -> indexes sh dims n d -> env2 n < d) ->
  match index_axes env (map (fun i => nth i (ps ++ sh) 0) (reindex (length ps) names dims)) (map (fun i => nth i (pd ++ dims) KAll) (reindex (length ps) names dims)),
        index_axes env2 sh dims with
  | Some (s, g), Some (s2, g2) => s = s2 /\ forall idx, length idx = length s -> g2 idx = merge names env2 dims (g idx)
  | None, None => True
  | _, _ => False
  end.
Proof.
  intros Henv. induction dims as [|k dims IH]; intros [|d sh] pd ps Lp L Hr; try discriminate L.
  - cbn. split; reflexivity.
  - rewrite !reindex_cons. cbn [merge]. specialize (IH sh (pd ++ [k]) (ps ++ [d])).
    lapply IH; [clear IH; intros IH|rewrite !app_length; cbn; congruence]. lapply IH; [clear IH; intros IH|inversion L; reflexivity].
    lapply IH; [clear IH; intros IH|intros n e Hn He; apply (Hr n e Hn); apply indexes_cons; auto].
    rewrite <- !map_nth_reindex in IH. assert (El : length (ps ++ [d]) = S (length pd)) by (rewrite app_length, Lp; cbn; lia). rewrite El in IH.
    rewrite <- map_nth_reindex in IH || idtac. rewrite <- !Lp in *.
    replace (map (fun i => nth i ((pd ++ [k]) ++ dims) KAll) (reindex (S (length pd)) names dims)) with (map (fun i => nth i (pd ++ k :: dims) KAll) (reindex (S (length pd)) names dims)) in IH by (rewrite <- app_assoc; reflexivity).
    replace (map (fun i => nth i ((ps ++ [d]) ++ sh) 0) (reindex (S (length pd)) names dims)) with (map (fun i => nth i (ps ++ d :: sh) 0) (reindex (S (length pd)) names dims)) in IH by (rewrite <- app_assoc; reflexivity).
    destruct (bound names k) eqn:Ek.
    + destruct k as [| |z|a b c|n]; try discriminate Ek. cbn [bound] in Ek. apply mem_In in Ek. cbn [index_axes pick].
      rewrite (proj2 (Nat.ltb_lt (env2 n) d)) by (apply (Hr n d Ek); apply indexes_cons; auto).
      destruct (index_axes env _ _) as [[s g]|], (index_axes env2 sh dims) as [[s2 g2]|]; try exact IH.
      destruct IH as [-> Hg]. split; [reflexivity|]. intros idx Li. rewrite Hg by exact Li. reflexivity.
    + cbn [map]. rewrite (nth_sh pd). assert (En : nth (length pd) (ps ++ d :: sh) 0 = d) by (rewrite Lp; apply nth_sh). rewrite En. cbn [index_axes].
      rewrite (pick_agree env2 env k d) by (intros n ->; apply Henv; exact Ek).
      destruct (pick env k d) as [[i|e f]|]; [| |exact I];
      destruct (index_axes env _ _) as [[s g]|], (index_axes env2 sh dims) as [[s2 g2]|]; try exact IH; destruct IH as [-> Hg]; (split; [reflexivity|]); intros idx Li.
      * cbn [hd tl]. rewrite Hg by exact Li. reflexivity.
      * cbn [hd tl]. rewrite Hg; [reflexivity|]. destruct idx; [discriminate Li|]. inversion Li. reflexivity.
Qed.

Lemma position_nth l i x : NoDup l -> nth_error l i = Some x -> position x l = i.
Proof.
  revert i. induction l as [|y l IH]; intros [|i] Hn H; try discriminate H; inversion Hn as [|? ? Hy Hn']; subst; cbn [nth_error position] in *.
  - inversion H; subst. rewrite Nat.eqb_refl. reflexivity.
  - destruct (Nat.eqb x y) eqn:E; [apply Nat.eqb_eq in E; subst; exfalso; apply Hy; eapply nth_error_In; exact H|]. f_equal. auto.
Qed.

Lemma NoDup_append {A} (l l' : list A) : NoDup l -> NoDup l' -> (forall x, In x l -> ~ In x l') -> NoDup (l ++ l').
Proof.
  induction l as [|x l IH]; intros H1 H2 H3; [exact H2|]. inversion H1; subst. cbn. constructor.
  - rewrite in_app_iff. intros [H|H]; [contradiction|]. exact (H3 x (or_introl eq_refl) H).
  - apply IH; auto. intros y Hy. apply H3. right. exact Hy.
Qed.

Section Bind.
  Variables (dims : list kelem) (names : list nat).
  Hypothesis Hn : NoDup names.
  Hypothesis Hin : forall n, In n names -> In (KName n) dims.
  Hypothesis Honce : once dims names.

  Definition pos (n : nat) : nat := match oindex n (names_of dims) with Some i => i | None => 0 end.
  Definition perm : list nat := map pos names ++ reindex 0 names dims.

  Lemma pos_nth n : In n names -> nth_error dims (pos n) = Some (KName n).
  Proof. intros H. unfold pos. pose proof (oindex_spec n dims) as S. destruct (oindex n (names_of dims)); [exact S|]. destruct (S (Hin n H)). Qed.

  Lemma perm_NoDup : NoDup perm.
  Proof.
    apply NoDup_append; [|apply reindex_NoDup|].
    - assert (G : forall l, (forall n, In n l -> In n names) -> NoDup l -> NoDup (map pos l)).
      { induction l as [|n l IH]; intros Hl H; [constructor|]. inversion H as [|? ? Hx H']; subst. cbn. constructor; [|apply IH; [intros m Hm; apply Hl; right; exact Hm|exact H']].
        intros Hm. apply in_map_iff in Hm. destruct Hm as (m & Em & Hm). assert (E1 := pos_nth n (Hl n (or_introl eq_refl))). assert (E2 := pos_nth m (Hl m (or_intror Hm))).
        rewrite Em, E1 in E2. inversion E2; subst. contradiction. }
      apply G; auto.
    - intros x Hx Hr. apply in_map_iff in Hx. destruct Hx as (n & <- & Hx). apply reindex_spec in Hr. destruct Hr as (m & k & E & Hk & Hb). cbn in E. subst m.
      rewrite (pos_nth n Hx) in Hk. inversion Hk; subst. cbn in Hb. apply mem_In in Hx. congruence.
  Qed.

  Lemma perm_In i : In i perm <-> i < length dims.
  Proof.
    unfold perm. rewrite in_app_iff. split.
    - intros [H|H].
      + apply in_map_iff in H. destruct H as (n & <- & H). apply nth_error_Some. rewrite (pos_nth n H). discriminate.
      + apply reindex_ge in H. lia.
    - intros H. destruct (nth_error dims i) as [k|] eqn:E; [|apply nth_error_None in E; lia]. destruct (bound names k) eqn:Eb.
      + left. destruct k as [| |z|a b c|n]; try discriminate Eb. cbn in Eb. apply mem_In in Eb. apply in_map_iff. exists n. split; [|exact Eb].
        apply (Honce n); [exact Eb|apply pos_nth; exact Eb|exact E].
      + right. apply reindex_spec. exists i, k. auto.
  Qed.

  Lemma perm_length : length perm = length dims.
  Proof.
    assert (P : Permutation perm (seq 0 (length dims))).
    { apply NoDup_Permutation; [apply perm_NoDup|apply seq_NoDup|]. intros x. rewrite perm_In, in_seq. lia. }
    apply Permutation_length in P. rewrite seq_length in P. exact P.
  Qed.

  Lemma perm_is_perm : is_perm (length dims) perm = true.
  Proof.
    unfold is_perm. rewrite perm_length, Nat.eqb_refl. cbn [andb]. apply forallb_forall. intros x Hx. apply in_seq in Hx. apply existsb_exists. exists x. rewrite Nat.eqb_refl.
    split; [apply perm_In; lia|reflexivity].
  Qed.

  Lemma merge_positions env is : length is = length names -> forall dims' pd rd ld l',
    dims = pd ++ dims' -> reindex 0 names dims = rd ++ reindex (length pd) names dims' -> length rd = length ld -> length l' = length (reindex (length pd) names dims') ->
    map (fun j => nth (position j perm) (is ++ ld ++ l') 0) (seq (length pd) (length dims')) = merge names (assign env names is) dims' l'.
  Proof.
    intros Li. induction dims' as [|k dims' IH]; intros pd rd ld l' Ed Er Lr Ll; [reflexivity|].
    cbn [length seq map merge]. rewrite reindex_cons in Er, Ll. destruct (bound names k) eqn:Ek.
    - f_equal.
      + destruct k as [| |z|a b c|n]; try discriminate Ek. cbn in Ek. apply mem_In in Ek. unfold assign. pose proof (index_of_spec n names) as Hi.
        destruct (index_of n names) as [i|]; [|contradiction]. assert (Hlt : i < length names) by (apply nth_error_Some; congruence).
        assert (Ep : nth_error perm i = Some (length pd)).
        { unfold perm. rewrite nth_error_app1 by (rewrite map_length; exact Hlt). rewrite nth_error_map, Hi. cbn [option_map]. f_equal.
          apply (Honce n); [exact Ek|apply pos_nth; exact Ek|]. rewrite Ed, nth_error_app2, Nat.sub_diag by lia. reflexivity. }
        rewrite (position_nth perm i (length pd) perm_NoDup Ep). rewrite app_nth1 by lia. apply nth_indep. lia.
      + specialize (IH (pd ++ [k]) rd ld l'). rewrite app_length in IH. cbn [length] in IH. rewrite Nat.add_1_r in IH. apply IH; auto. rewrite <- app_assoc. exact Ed.
    - destruct l' as [|x l']; [discriminate Ll|]. cbn [hd tl]. f_equal.
      + assert (Ep : nth_error perm (length names + length rd) = Some (length pd)).
        { unfold perm. rewrite nth_error_app2 by (rewrite map_length; lia). rewrite map_length, Er. replace (length names + length rd - length names) with (length rd) by lia.
          rewrite nth_error_app2, Nat.sub_diag by lia. reflexivity. }
        rewrite (position_nth _ _ _ perm_NoDup Ep). rewrite app_nth2 by lia. rewrite Li. replace (length names + length rd - length names) with (length ld) by lia. apply nth_sh.
      + specialize (IH (pd ++ [k]) (rd ++ [length pd]) (ld ++ [x]) l'). rewrite !app_length in IH. cbn [length] in IH. rewrite !Nat.add_1_r in IH.
        rewrite <- (IH (eq_trans Ed (app_assoc pd [k] dims'))).
        * apply map_ext. intros j. rewrite <- app_assoc. reflexivity.
        * rewrite Er, <- app_assoc. reflexivity.
        * congruence.
        * inversion Ll. reflexivity.
  Qed.
End Bind.

Lemma index_axes_length env sh key s g : index_axes env sh key = Some (s, g) -> forall idx, length (g idx) = length sh.
Proof.
  revert key s g. induction sh as [|d sh IH]; intros [|k key] s g H; cbn [index_axes] in H; try discriminate H.
  - inversion H; subst. reflexivity.
  - destruct (pick env k d) as [[i|d' f]|]; [| |discriminate H]; destruct (index_axes env sh key) as [[s0 g0]|] eqn:Ei; try discriminate H; inversion H; subst;
      intros idx; cbn [length]; f_equal; eapply IH; eassumption.
Qed.

Lemma within_sub env names dims sh szs is : NoDup names -> Forall2 (fun n d => indexes sh dims n d) names szs -> within szs is -> consistent sh dims ->
  forall n d, In n names -> indexes sh dims n d -> assign env names is n < d.
Proof.
  intros Hn F W Hc n d Hi Hd. unfold assign. pose proof (index_of_spec n names) as S. destruct (index_of n names) as [i|]; [|contradiction]. clear Hi.
  revert szs is i F W S. clear Hn. induction names as [|m names IH]; intros szs is i F W S; [destruct i; discriminate S|].
  inversion F as [|? d0 ? szs' F1 F2]; subst. inversion W as [|? ? x is' W1 W2]; subst. destruct i as [|i]; cbn in S.
  - inversion S; subst. cbn [nth]. rewrite (Hc n d d0 Hd F1). exact W1.
  - cbn [nth]. eapply IH; eassumption.
Qed.

Lemma indexes_perm sh dims re n d : length dims = length sh -> (forall i, In i re -> i < length dims) ->
  indexes (map (fun i => nth i sh 0) re) (map (fun i => nth i dims KAll) re) n d -> indexes sh dims n d.
Proof.
  intros L H (i & H1 & H2). rewrite nth_error_map in H1, H2. destruct (nth_error re i) as [j|] eqn:E; [|discriminate H1]. cbn in H1, H2. inversion H1; inversion H2; subst.
  assert (j < length dims) by (apply H; eapply nth_error_In; exact E). exists j. split.
  - rewrite <- H3. apply nth_error_nth'. assumption.
  - apply nth_error_nth'. lia.
Qed.

Lemma indexes_app sh sh' k k' n d : length sh = length k -> indexes (sh ++ sh') (k ++ k') n d -> indexes sh k n d \/ indexes sh' k' n d.
Proof.
  intros L (i & H1 & H2). destruct (Nat.lt_ge_cases i (length k)) as [Hlt|Hge].
  - left. exists i. rewrite nth_error_app1 in H1, H2 by lia. auto.
  - right. exists (i - length k). rewrite nth_error_app2 in H1, H2 by lia. rewrite L in H2. auto.
Qed.

Theorem bind_core_meaning V (a : arr V) dims names szs env0 :
  built a dims -> NoDup names -> names <> [] -> once dims names -> consistent (shape a) dims ->
  Forall2 (fun n d => indexes (shape a) dims n d) names szs ->
  index_axes env0 (shape a) dims <> None ->
  exists r, bind_core a dims names = Ok r /\ stacked szs names r (TGet a dims).
Proof.
  intros B Hn Hne Ho Hc F Hd. destruct B as [L P].
  assert (Hin : forall n, In n names -> In (KName n) dims).
  { clear -F. induction F as [|n d names szs H F IH]; intros m Hm; [destruct Hm|]. destruct Hm as [<-|Hm]; [|auto]. destruct H as (i & H & _). eapply nth_error_In; exact H. }
  unfold bind_core. assert (Hf : forallb (fun n => match oindex n (names_of dims) with Some _ => true | None => false end) names = true).
  { apply forallb_forall. intros n Hi. pose proof (oindex_spec n dims) as S. destruct (oindex n (names_of dims)); [reflexivity|]. destruct (S (Hin n Hi)). }
  rewrite Hf, L, Nat.sub_diag. cbn [seq]. rewrite app_nil_r. change (map (fun n => match oindex n (names_of dims) with Some i => i | None => 0 end) names ++ reindex 0 names dims) with (perm dims names).
  unfold permute. rewrite <- L, (perm_is_perm dims names Hn Hin Ho). set (re := reindex 0 names dims).
  match goal with |- context [getitem ?x _] => set (t := x) end. set (key := repeat KAll (length names) ++ map (fun i => nth i dims KAll) re).
  assert (Hsz : map (fun i => nth i (shape a) 0) (map (pos dims) names) = szs).
  { rewrite map_map. assert (G : forall l s, (forall n, In n l -> In n names) -> Forall2 (fun n d => indexes (shape a) dims n d) l s -> map (fun x => nth (pos dims x) (shape a) 0) l = s).
    { induction l as [|n l IH]; intros s Hl Hs; inversion Hs as [|? d ? s' H1 H2]; subst; [reflexivity|]. cbn [map]. f_equal; [|apply IH; auto; intros m Hm; apply Hl; right; exact Hm].
      destruct H1 as (i & Hi & Hs1). assert (E : pos dims n = i) by (apply (Ho n); [apply Hl; left; reflexivity|apply (pos_nth dims names Hin); apply Hl; left; reflexivity|exact Hi]).
      rewrite E. apply nth_error_nth. exact Hs1. }
    apply G; auto. }
  assert (Hsh : shape t = szs ++ map (fun i => nth i (shape a) 0) re).
  { unfold t. cbn [shape]. unfold perm. rewrite map_app, Hsz. reflexivity. }
  assert (Lz : length szs = length names) by (clear -F; induction F; cbn; congruence).
  assert (Hre : forall i, In i re -> i < length dims) by (intros i Hi; apply reindex_ge in Hi; lia).
  assert (Bk : built t key).
  { split.
    - unfold key. rewrite Hsh, !app_length, !map_length, repeat_length, Lz. reflexivity.
    - intros k Hk. unfold key in Hk. apply in_app_or in Hk. destruct Hk as [Hk|Hk]; [apply repeat_spec in Hk; subst; reflexivity|].
      apply in_map_iff in Hk. destruct Hk as (i & <- & Hi). apply P. apply nth_In. auto. }
  assert (Ck : consistent (shape t) key).
  { intros n d d' H1 H2. rewrite Hsh in H1, H2. unfold key in H1, H2.
    apply indexes_app in H1; [|rewrite repeat_length; exact Lz]. apply indexes_app in H2; [|rewrite repeat_length; exact Lz].
    destruct H1 as [(i & H1 & _)|H1]; [apply nth_error_In, repeat_spec in H1; discriminate H1|].
    destruct H2 as [(i & H2 & _)|H2]; [apply nth_error_In, repeat_spec in H2; discriminate H2|].
    apply (Hc n); eapply indexes_perm; eassumption. }
  (* relation between the two index computations *)
  assert (Rel : forall env is, within szs is ->
    match index_axes env (map (fun i => nth i (shape a) 0) re) (map (fun i => nth i dims KAll) re), index_axes (assign env names is) (shape a) dims with
    | Some (s, g), Some (s2, g2) => s = s2 /\ forall idx, length idx = length s -> g2 idx = merge names (assign env names is) dims (g idx)
    | None, None => True | _, _ => False end).
  { intros env is W. apply (axes_merge names env (assign env names is)) with (pd := []) (ps := []); auto.
    - intros n Hm. unfold assign. pose proof (index_of_spec n names) as S. destruct (index_of n names) as [i|]; [|reflexivity]. apply nth_error_In, mem_In in S. congruence.
    - eapply within_sub; eassumption. }
  assert (R0 : in_range env0 (shape a) dims).
  { destruct (in_range_dec env0 (shape a) dims) as [R|(n & d & Hx & Hdd)]; [exact R|]. exfalso. apply Hd. exact (index_axes_out _ _ _ _ _ Hx Hdd). }
  assert (W0 : within szs (map env0 names)).
  { clear -F R0. induction F as [|n d names szs H F IH]; cbn [map]; constructor; auto. }
  assert (Hk : index_axes env0 (shape t) key <> None).
  { rewrite Hsh. unfold key. pose proof (Rel env0 _ W0) as R1. rewrite (index_axes_agree (assign env0 names (map env0 names)) env0) in R1.
    - destruct (index_axes env0 (map _ re) _) as [[s g]|] eqn:Ei.
      + rewrite <- Lz. destruct (index_axes_all env0 szs _ _ _ _ Ei) as (g' & E' & _). rewrite E'. discriminate.
      + destruct (index_axes env0 (shape a) dims) as [[? ?]|]; [contradiction|exfalso; apply Hd; reflexivity].
    - intros n _. destruct (in_dec Nat.eq_dec n names) as [Hy|Hy]; [apply assign_map; exact Hy|]. unfold assign. pose proof (index_of_spec n names) as S.
      destruct (index_of n names) as [i|]; [|reflexivity]. apply nth_error_In in S. contradiction. }
  destruct (getitem_ok V t key env0 Bk Hk Ck) as (r & Er). exists r. split; [exact Er|]. intros env is W.
  pose proof (same_trans _ _ _ (getitem_meaning V t key r Er env) (index_full_plain env t key Bk)) as M.
  cbn [den]. unfold index_arr in M at 1. rewrite Hsh in M. unfold key in M. specialize (Rel env is W).
  destruct (index_axes env (map _ re) _) as [[s g]|] eqn:Ei.
  - rewrite <- Lz in M. destruct (index_axes_all env szs _ _ _ _ Ei) as (g' & E' & Hg'). rewrite E' in M.
    destruct (den env r) as [b|]; [|contradiction]. destruct M as [M1 M2]. cbn [shape at_] in M1, M2. unfold index_arr.
    destruct (index_axes (assign env names is) (shape a) dims) as [[s2 g2]|] eqn:E2; [|contradiction]. destruct Rel as [<- Rel]. cbn [shape at_].
    split; [exact M1|]. intros idx Wi. rewrite M2 by (rewrite M1; apply within_app; assumption). rewrite Hg' by (symmetry; apply within_length; exact W).
    rewrite Rel by (symmetry; apply within_length; exact Wi). unfold t. cbn [at_]. f_equal.
    rewrite (perm_length dims names Hn Hin Ho).
    apply (merge_positions dims names Hn Hin Ho env is) with (pd := []) (rd := []) (ld := []); [rewrite <- Lz; symmetry; apply within_length; exact W|reflexivity|reflexivity|reflexivity|].
    rewrite (index_axes_length _ _ _ _ _ Ei), map_length. reflexivity.
  - rewrite <- Lz in M. rewrite (index_axes_all_none _ _ _ _ Ei) in M. unfold index_arr.
    destruct (index_axes (assign env names is) (shape a) dims) as [[s2 g2]|]; [contradiction|]. destruct (den env r); [contradiction|exact I].
Qed.
