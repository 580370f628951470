From Coq Require Import List Bool Arith ZArith Lia.
From Verif Require Import ArrModel ArrSpec.
Import ListNotations.

(** ** Positions *)
Lemma within_length sh i : within sh i -> length sh = length i.
Proof. induction 1; cbn; congruence. Qed.

Lemma within_app sh sh' i i' : within sh i -> within sh' i' -> within (sh ++ sh') (i ++ i').
Proof. induction 1; cbn [app]; intros; [assumption|constructor; auto]. Qed.

Lemma within_split sh sh' i : within (sh ++ sh') i ->
  within sh (firstn (length sh) i) /\ within sh' (skipn (length sh) i).
Proof.
  revert i. induction sh as [|d sh IH]; intros i H; cbn [app length firstn skipn] in *; [split; [constructor|exact H]|].
  inversion H as [|? ? x idx Hx Hw]; subst. destruct (IH idx Hw) as [H1 H2]. split; [constructor; assumption|exact H2].
Qed.

Lemma prod_app a b : prod (a ++ b) = prod a * prod b.
Proof. unfold prod. induction a as [|d a IH]; cbn [fold_right app]; [lia|]. rewrite IH. lia. Qed.

Lemma ravel_lt sh idx : within sh idx -> ravel sh idx < prod sh.
Proof.
  induction 1 as [|d sh i idx Hi Hw IH]; [cbn; lia|]. cbn [ravel]. change (prod (d :: sh)) with (d * prod sh).
  assert (i * prod sh + prod sh <= d * prod sh) by nia. lia.
Qed.

Lemma prod_within sh idx : within sh idx -> 0 < prod sh.
Proof. intros H. apply ravel_lt in H. lia. Qed.

Lemma unravel_ravel sh idx : within sh idx -> unravel sh (ravel sh idx) = idx.
Proof.
  induction 1 as [|d sh i idx Hi Hw IH]; [reflexivity|]. cbn [ravel unravel]. pose proof (ravel_lt _ _ Hw) as L.
  assert (P : prod sh <> 0) by lia. f_equal.
  - rewrite Nat.div_add_l by exact P. rewrite Nat.div_small by exact L. lia.
  - rewrite Nat.add_comm, Nat.mod_add by exact P. rewrite Nat.mod_small by exact L. exact IH.
Qed.

Lemma unravel_within sh n : n < prod sh -> within sh (unravel sh n) /\ ravel sh (unravel sh n) = n.
Proof.
  revert n. induction sh as [|d sh IH]; intros n H; cbn [unravel ravel].
  - cbn in H. split; [constructor|lia].
  - change (prod (d :: sh)) with (d * prod sh) in H. assert (P : prod sh <> 0) by nia.
    destruct (IH (n mod prod sh)) as [H1 H2]; [apply Nat.mod_upper_bound; exact P|]. split.
    + constructor; [apply Nat.div_lt_upper_bound; lia|exact H1].
    + rewrite H2. rewrite Nat.mul_comm. symmetry. apply Nat.div_mod. exact P.
Qed.

Lemma ravel_app sh sh' i i' : within sh i -> ravel (sh ++ sh') (i ++ i') = ravel sh i * prod sh' + ravel sh' i'.
Proof.
  induction 1 as [|d sh x idx Hx Hw IH]; cbn [app ravel]; [reflexivity|]. rewrite IH, prod_app. nia.
Qed.

(** ** One axis *)
Lemma pick_range env k d s : pick env k d = Some s ->
  match s with Drop i => i < d | Keep d' f => forall i, i < d' -> f i < d end.
Proof.
  destruct k as [| |z|start stop step|n]; cbn [pick]; try discriminate.
  - destruct ((- Z.of_nat d <=? z) && (z <? Z.of_nat d))%Z eqn:E; [|discriminate]. intros H. inversion H; subst.
    apply andb_prop in E. destruct E as [E1 E2]. apply Z.leb_le in E1. apply Z.ltb_lt in E2. destruct (z <? 0)%Z eqn:E3; [apply Z.ltb_lt in E3|apply Z.ltb_ge in E3]; lia.
  - destruct ((match step with Some s0 => s0 | None => 1%Z end) <=? 0)%Z eqn:E; [discriminate|]. apply Z.leb_gt in E. intros H. inversion H; subst. clear H.
    set (st := Z.to_nat (match step with Some s0 => s0 | None => 1%Z end)) in *. assert (Hst : 0 < st) by (unfold st; lia).
    set (a := match start with Some z => clamp d z | None => 0 end). set (b := match stop with Some z => clamp d z | None => d end).
    assert (Hb : b <= d).
    { unfold b. destruct stop as [z|]; [|lia]. unfold clamp. destruct (z <? 0)%Z eqn:E3; [apply Z.ltb_lt in E3|apply Z.ltb_ge in E3]; lia. }
    intros i Hi. assert (st * ((b - a + (st - 1)) / st) <= b - a + (st - 1)) by (apply Nat.mul_div_le; lia). nia.
  - destruct (env n <? d) eqn:E; [|discriminate]. intros H. inversion H; subst. apply Nat.ltb_lt. exact E.
Qed.

Lemma pick_all env d : exists f, pick env KAll d = Some (Keep d f) /\ forall i, f i = i.
Proof.
  exists (fun i => 0 + i * 1). split; [|intros i; lia].
  change (Some (Keep ((d - 0 + (1 - 1)) / 1) (fun i => 0 + i * 1)) = Some (Keep d (fun i => 0 + i * 1))).
  assert (E : (d - 0 + (1 - 1)) / 1 = d) by (rewrite Nat.div_1_r; lia). rewrite E. reflexivity.
Qed.

Lemma index_axes_all env l : forall sh key s g, index_axes env sh key = Some (s, g) ->
  exists g', index_axes env (l ++ sh) (repeat KAll (length l) ++ key) = Some (l ++ s, g') /\
    forall i idx, length i = length l -> g' (i ++ idx) = i ++ g idx.
Proof.
  induction l as [|d l IH]; intros sh key s g H; cbn [app length repeat].
  - exists g. split; [exact H|]. intros [|x i] idx E; [reflexivity|discriminate E].
  - cbn [index_axes]. destruct (IH sh key s g H) as (g' & E & Hg). rewrite E. destruct (pick_all env d) as (f & Ef & Hf). rewrite Ef.
    eexists. split; [reflexivity|]. intros [|x i] idx L; [discriminate L|]. cbn [app hd tl]. rewrite Hf, Hg by (inversion L; reflexivity). reflexivity.
Qed.

Lemma index_axes_all_none env l sh key : index_axes env sh key = None -> index_axes env (l ++ sh) (repeat KAll (length l) ++ key) = None.
Proof.
  intros H. induction l as [|d l IH]; cbn [app length repeat]; [exact H|]. cbn [index_axes]. rewrite IH. destruct (pick env KAll d) as [[|]|]; reflexivity.
Qed.

Lemma index_axes_within env sh key s g : index_axes env sh key = Some (s, g) -> forall idx, within s idx -> within sh (g idx).
Proof.
  revert key s g. induction sh as [|d sh IH]; intros [|k key] s g H; cbn [index_axes] in H; try discriminate H.
  - inversion H; subst. intros. constructor.
  - destruct (pick env k d) as [[i|d' f]|] eqn:Ep; [| |discriminate H]; destruct (index_axes env sh key) as [[s0 g0]|] eqn:Ei; try discriminate H; inversion H; subst;
      apply pick_range in Ep; intros idx Hw.
    + constructor; [exact Ep|]. eapply IH; eauto.
    + inversion Hw as [|? ? x idx' Hx Hw']; subst. cbn [hd tl]. constructor; [apply Ep; exact Hx|]. eapply IH; eauto.
Qed.

(** ** Desugaring *)
Fixpoint dwalk (e : nat) (key : list kelem) (sh : list nat) : option (list nat * list kelem) :=
  match key with
  | [] => match sh with [] => Some ([], []) | _ => None end
  | KNone :: key' => match dwalk e key' sh with Some (s, k) => Some (1 :: s, KAll :: k) | None => None end
  | KEll :: key' => if e <=? length sh then match dwalk e key' (skipn e sh) with Some (s, k) => Some (firstn e sh ++ s, repeat KAll e ++ k) | None => None end else None
  | x :: key' => match sh with [] => None | d :: sh' => match dwalk e key' sh' with Some (s, k) => Some (d :: s, x :: k) | None => None end end
  end.

Lemma walk_dwalk env e : forall key sh nsh nkey, dwalk e key sh = Some (nsh, nkey) ->
  prod nsh = prod sh /\ length nkey = length nsh /\ plain nkey /\
  match walk env e key sh, index_axes env nsh nkey with
  | Some (s, g), Some (s', g') => s' = s /\ forall idx, within s idx -> within sh (g idx) /\ within nsh (g' idx) /\ ravel nsh (g' idx) = ravel sh (g idx)
  | None, None => True
  | _, _ => False
  end.
Proof.
  induction key as [|k key IH]; intros sh nsh nkey H.
  - cbn [dwalk] in H. destruct sh as [|d sh]; [|discriminate H]. inversion H; subst. split; [reflexivity|]. split; [reflexivity|]. split; [intros x []|]. cbn. split; [reflexivity|]. intros idx Hi. repeat split; constructor.
  - assert (Hx : uses_axis k = true -> 
      match sh with [] => None | d :: sh' => match dwalk e key sh' with Some (s, k') => Some (d :: s, k :: k') | None => None end end = Some (nsh, nkey) ->
      prod nsh = prod sh /\ length nkey = length nsh /\ plain nkey /\
      match (match sh with [] => None | d :: sh' =>
          match pick env k d, walk env e key sh' with
          | Some (Drop i), Some (s, g) => Some (s, fun idx => i :: g idx)
          | Some (Keep d' f), Some (s, g) => Some (d' :: s, fun idx => f (hd 0 idx) :: g (tl idx))
          | _, _ => None end end), index_axes env nsh nkey with
      | Some (s, g), Some (s', g') => s' = s /\ forall idx, within s idx -> within sh (g idx) /\ within nsh (g' idx) /\ ravel nsh (g' idx) = ravel sh (g idx)
      | None, None => True | _, _ => False end).
    { intros Hk Hd. destruct sh as [|d sh]; [discriminate Hd|]. destruct (dwalk e key sh) as [[s0 k0]|] eqn:E; [|discriminate Hd]. inversion Hd; subst.
      destruct (IH _ _ _ E) as (H1 & H2 & Hp & H3). change (prod (d :: s0)) with (d * prod s0). change (prod (d :: sh)) with (d * prod sh).
      split; [rewrite H1; reflexivity|]. split; [cbn; rewrite H2; reflexivity|]. split; [intros x [<-|Hx]; [exact Hk|apply Hp; exact Hx]|].
      cbn [index_axes]. destruct (pick env k d) as [[i|d' f]|] eqn:Ep; [| |exact I];
        destruct (walk env e key sh) as [[s g]|], (index_axes env s0 k0) as [[s' g']|]; try contradiction; try exact I;
        destruct H3 as [-> H3]; (split; [reflexivity|]); apply pick_range in Ep; intros idx Hw.
      - destruct (H3 idx Hw) as (A & B & C). split; [constructor; assumption|]. split; [constructor; assumption|]. cbn [ravel]. rewrite C, H1. reflexivity.
      - inversion Hw as [|? ? x idx' Hx Hw']; subst. cbn [hd tl]. destruct (H3 idx' Hw') as (A & B & C). split; [constructor; auto|]. split; [constructor; auto|]. cbn [ravel]. rewrite C, H1. reflexivity. }
    destruct k as [| |z|a b c|n]; try (apply (Hx eq_refl); exact H).
    + cbn [dwalk] in H. destruct (dwalk e key sh) as [[s0 k0]|] eqn:E; [|discriminate H]. inversion H; subst. destruct (IH _ _ _ E) as (H1 & H2 & Hp & H3).
      change (prod (1 :: s0)) with (1 * prod s0). split; [lia|]. split; [cbn; rewrite H2; reflexivity|]. split; [intros x [<-|Hx']; [reflexivity|apply Hp; exact Hx']|].
      cbn [walk index_axes]. destruct (pick_all env 1) as (f & Ef & Hf). rewrite Ef.
      destruct (walk env e key sh) as [[s g]|], (index_axes env s0 k0) as [[s' g']|]; try contradiction; try exact I.
      destruct H3 as [-> H3]. split; [reflexivity|]. intros idx Hw. inversion Hw as [|? ? x idx' Hx' Hw']; subst. cbn [hd tl]. destruct (H3 idx' Hw') as (A & B & C).
      split; [exact A|]. rewrite Hf. split; [constructor; assumption|]. cbn [ravel]. replace x with 0 by lia. rewrite C. reflexivity.
    + cbn [dwalk] in H. destruct (e <=? length sh) eqn:Ele; [|discriminate H]. apply Nat.leb_le in Ele.
      destruct (dwalk e key (skipn e sh)) as [[s0 k0]|] eqn:E; [|discriminate H]. inversion H; subst. clear H. destruct (IH _ _ _ E) as (H1 & H2 & Hp & H3).
      assert (Le : length (firstn e sh) = e) by (apply firstn_length_le; exact Ele).
      rewrite <- (firstn_skipn e sh) at 2. rewrite !prod_app, H1. split; [reflexivity|]. split; [rewrite !app_length, repeat_length, H2, Le; reflexivity|].
      split; [intros x Hx'; apply in_app_or in Hx'; destruct Hx' as [Hx'|Hx']; [apply repeat_spec in Hx'; subst; reflexivity|apply Hp; exact Hx']|].
      cbn [walk]. replace (repeat KAll e) with (repeat KAll (length (firstn e sh))) by (rewrite Le; reflexivity). destruct (walk env e key (skipn e sh)) as [[s g]|], (index_axes env s0 k0) as [[s' g']|] eqn:Ei; try contradiction.
      * destruct H3 as [-> H3]. destruct (index_axes_all env (firstn e sh) _ _ _ _ Ei) as (g2 & E2 & Hg2). rewrite E2. split; [reflexivity|]. intros idx Hw.
        destruct (within_split _ _ _ Hw) as [W1 W2]. rewrite Le in W1, W2. pose proof (within_length _ _ W1) as L1. destruct (H3 _ W2) as (A & B & C).
        split; [rewrite <- (firstn_skipn e sh) at 1; apply within_app; assumption|].
        assert (Eg : g2 idx = firstn e idx ++ g' (skipn e idx)) by (rewrite <- (firstn_skipn e idx) at 1; apply Hg2; congruence).
        rewrite Eg. split; [apply within_app; assumption|]. rewrite ravel_app by exact W1. rewrite C. rewrite <- (firstn_skipn e sh) at 3. rewrite ravel_app by exact W1. rewrite H1. reflexivity.
      * rewrite index_axes_all_none by exact Ei. exact I.
Qed.

Definition nones (key : list kelem) : nat := length (filter is_none key).

Lemma nones_app a b : nones (a ++ b) = nones a + nones b.
Proof. unfold nones. rewrite filter_app, app_length. reflexivity. Qed.
Lemma used_app a b : used (a ++ b) = used a + used b.
Proof. unfold used. rewrite filter_app, app_length. reflexivity. Qed.
Lemma ellipses_app a b : ellipses (a ++ b) = ellipses a + ellipses b.
Proof. unfold ellipses. rewrite filter_app, app_length. reflexivity. Qed.
Lemma ellipses_existsb key : existsb is_ell key = negb (Nat.eqb (ellipses key) 0).
Proof. unfold ellipses. induction key as [|k key IH]; [reflexivity|]. cbn [existsb filter]. destruct (is_ell k); [reflexivity|exact IH]. Qed.
Lemma key_length key : length key = used key + nones key + ellipses key.
Proof. unfold used, nones, ellipses. induction key as [|k key IH]; [reflexivity|]. cbn [filter length]. destruct k; cbn; lia. Qed.

Lemma py_get_nth {A} (l : list A) c m : py_get l (Z.of_nat (c + m) - Z.of_nat m) = nth_error l c.
Proof. unfold py_get. replace (Z.of_nat (c + m) - Z.of_nat m)%Z with (Z.of_nat c) by lia. destruct (Z.of_nat c <? 0)%Z eqn:E; [apply Z.ltb_lt in E; lia|]. rewrite Nat2Z.id. reflexivity. Qed.

Lemma nth_skipn {A} (l : list A) c : c < length l -> exists d, nth_error l c = Some d /\ skipn c l = d :: skipn (S c) l.
Proof.
  revert c. induction l as [|x l IH]; intros c H; [cbn in H; lia|]. destruct c as [|c]; [exists x; split; reflexivity|].
  cbn in H. destruct (IH c) as (d & E1 & E2); [lia|]. exists d. split; [exact E1|exact E2].
Qed.

Lemma skipn_skipn' {A} (l : list A) a b : skipn a (skipn b l) = skipn (b + a) l.
Proof. revert b. induction l as [|x l IH]; intros b; [rewrite !skipn_nil; reflexivity|]. destruct b as [|b]; [reflexivity|]. cbn [skipn Nat.add]. apply IH. Qed.

Definition plain_step sh pre k rest nsh nkey :=
  match py_get sh (Z.of_nat (length nsh) - extra_dims pre) with
  | Some d => desugar_loop sh (pre ++ [k]) rest (nsh ++ [d]) (nkey ++ [k])
  | None => IndexError
  end.

Lemma loop_plain sh pre k rest nsh nkey : uses_axis k = true -> desugar_loop sh pre (k :: rest) nsh nkey = plain_step sh pre k rest nsh nkey.
Proof. destruct k; try discriminate; intros _; reflexivity. Qed.

Lemma dwalk_plain e k rest sh : uses_axis k = true -> dwalk e (k :: rest) sh =
  match sh with [] => None | d :: sh' => match dwalk e rest sh' with Some (s, k') => Some (d :: s, k :: k') | None => None end end.
Proof. destruct k; try discriminate; intros _; reflexivity. Qed.

Lemma used_cons k rest : used (k :: rest) = (if uses_axis k then 1 else 0) + used rest.
Proof. unfold used. cbn [filter]. destruct (uses_axis k); reflexivity. Qed.
Lemma nones_snoc pre k : nones (pre ++ [k]) = nones pre + (if is_none k then 1 else 0).
Proof. rewrite nones_app. unfold nones at 2. cbn [filter]. destruct (is_none k); reflexivity. Qed.
Lemma ellipses_cons k rest : ellipses (k :: rest) = (if is_ell k then 1 else 0) + ellipses rest.
Proof. unfold ellipses. cbn [filter]. destruct (is_ell k); reflexivity. Qed.

Lemma plain_kinds k : uses_axis k = true -> is_none k = false /\ is_ell k = false.
Proof. destruct k; try discriminate; auto. Qed.

Lemma kind_cases k : k = KNone \/ k = KEll \/ uses_axis k = true.
Proof. destruct k; auto. Qed.

Lemma loop_tail sh e : forall post pre nsh nkey c,
  ellipses post = 0 -> length nsh = c + nones pre -> c + used post = length sh ->
  exists s k, dwalk e post (skipn c sh) = Some (s, k) /\ desugar_loop sh pre post nsh nkey = Ok (nsh ++ s, nkey ++ k).
Proof.
  induction post as [|k rest IH]; intros pre nsh nkey c He Hn Hu.
  - unfold used in Hu. cbn in Hu. exists [], []. cbn [dwalk desugar_loop]. rewrite skipn_all2 by lia. rewrite !app_nil_r. split; reflexivity.
  - rewrite ellipses_cons in He. rewrite used_cons in Hu. destruct (kind_cases k) as [->|[->|Hk]].
    + cbn [is_ell uses_axis] in *. destruct (IH (pre ++ [KNone]) (nsh ++ [1]) (nkey ++ [KAll]) c) as (s & k & E1 & E2).
      * exact He.
      * rewrite app_length, nones_snoc. cbn. lia.
      * exact Hu.
      * cbn [dwalk desugar_loop]. rewrite E1, E2. rewrite <- !app_assoc. eexists _, _. split; reflexivity.
    + cbn in He. lia.
    + destruct (plain_kinds k Hk) as [K1 K2]. rewrite K2 in He. rewrite Hk in Hu. rewrite loop_plain, dwalk_plain by exact Hk.
      unfold plain_step, extra_dims. rewrite Hn. fold (nones pre). rewrite py_get_nth. destruct (nth_skipn sh c) as (d & -> & ->); [lia|].
      destruct (IH (pre ++ [k]) (nsh ++ [d]) (nkey ++ [k]) (S c)) as (s & k' & E1 & E2).
      * exact He.
      * rewrite app_length, nones_snoc, K1. cbn. lia.
      * lia.
      * rewrite E1, E2. rewrite <- !app_assoc. eexists _, _. split; reflexivity.
Qed.

Lemma py_slice_mid {A} (l : list A) c e : c + e <= length l -> py_slice l (Z.of_nat c) (Z.of_nat c + Z.of_nat e) = firstn e (skipn c l).
Proof.
  intros H. unfold py_slice, py_bound. destruct (Z.of_nat c <? 0)%Z eqn:E1; [apply Z.ltb_lt in E1; lia|].
  destruct (Z.of_nat c + Z.of_nat e <? 0)%Z eqn:E2; [apply Z.ltb_lt in E2; lia|]. rewrite Nat2Z.id.
  replace (Z.to_nat (Z.of_nat c + Z.of_nat e)) with (c + e) by lia. rewrite !Nat.min_l by lia. f_equal. lia.
Qed.

Lemma loop_head sh e : forall post pre nsh nkey c,
  ellipses post = 1 -> length pre = c + nones pre -> length nsh = c + nones pre -> c + used post + e = length sh ->
  exists s k, dwalk e post (skipn c sh) = Some (s, k) /\ desugar_loop sh pre post nsh nkey = Ok (nsh ++ s, nkey ++ k).
Proof.
  induction post as [|k rest IH]; intros pre nsh nkey c He Hp Hn Hu; [discriminate He|].
  rewrite ellipses_cons in He. rewrite used_cons in Hu. destruct (kind_cases k) as [->|[->|Hk]].
  - cbn [is_ell uses_axis] in *. destruct (IH (pre ++ [KNone]) (nsh ++ [1]) (nkey ++ [KAll]) c) as (s & k & E1 & E2).
    + exact He.
    + rewrite app_length, nones_snoc. cbn. lia.
    + rewrite app_length, nones_snoc. cbn. lia.
    + exact Hu.
    + cbn [dwalk desugar_loop]. rewrite E1, E2. rewrite <- !app_assoc. eexists _, _. split; reflexivity.
  - cbn [is_ell uses_axis] in *. assert (He0 : ellipses rest = 0) by lia. cbn [desugar_loop dwalk]. rewrite ellipses_existsb, He0. cbn [Nat.eqb negb].
    unfold extra_dims. fold (nones pre) (nones rest).
    pose proof (key_length rest) as Lr. rewrite He0 in Lr.
    replace (Z.of_nat (length pre) - Z.of_nat (nones pre))%Z with (Z.of_nat c) by lia.
    replace (Z.of_nat (length sh) - Z.of_nat c - (Z.of_nat (length rest) - Z.of_nat (nones rest)))%Z with (Z.of_nat e) by lia.
    rewrite Nat2Z.id, py_slice_mid by lia.
    assert (Ls : length (skipn c sh) = length sh - c) by apply skipn_length.
    assert (Lf : length (firstn e (skipn c sh)) = e) by (apply firstn_length_le; lia).
    destruct (loop_tail sh e rest (pre ++ [KEll]) (nsh ++ firstn e (skipn c sh)) (nkey ++ repeat KAll e) (c + e)) as (s & k & E1 & E2).
    + exact He0.
    + rewrite app_length, nones_snoc, Lf. cbn. lia.
    + lia.
    + rewrite skipn_skipn', E1, E2. rewrite (proj2 (Nat.leb_le e (length (skipn c sh)))) by lia. rewrite <- !app_assoc. eexists _, _. split; reflexivity.
  - destruct (plain_kinds k Hk) as [K1 K2]. rewrite K2 in He. rewrite Hk in Hu. rewrite loop_plain, dwalk_plain by exact Hk.
    unfold plain_step, extra_dims. rewrite Hn. fold (nones pre). rewrite py_get_nth. destruct (nth_skipn sh c) as (d & -> & ->); [lia|].
    destruct (IH (pre ++ [k]) (nsh ++ [d]) (nkey ++ [k]) (S c)) as (s & k' & E1 & E2).
    + exact He.
    + rewrite app_length, nones_snoc, K1. cbn. lia.
    + rewrite app_length, nones_snoc, K1. cbn. lia.
    + lia.
    + rewrite E1, E2. rewrite <- !app_assoc. eexists _, _. split; reflexivity.
Qed.

(** *** Keys that do not fit *)
Lemma fail_tail sh : forall post pre nsh nkey c,
  ellipses post = 0 -> length nsh = c + nones pre -> c <= length sh -> length sh < c + used post ->
  desugar_loop sh pre post nsh nkey = IndexError.
Proof.
  induction post as [|k rest IH]; intros pre nsh nkey c He Hn Hc Hu; [unfold used in Hu; cbn in Hu; lia|].
  rewrite ellipses_cons in He. rewrite used_cons in Hu. destruct (kind_cases k) as [->|[->|Hk]].
  - cbn [is_ell uses_axis desugar_loop] in *. apply (IH _ _ _ c); [exact He| |exact Hc|exact Hu]. rewrite app_length, nones_snoc. cbn. lia.
  - cbn in He. lia.
  - destruct (plain_kinds k Hk) as [K1 K2]. rewrite K2 in He. rewrite Hk in Hu. rewrite loop_plain by exact Hk.
    unfold plain_step, extra_dims. rewrite Hn. fold (nones pre). rewrite py_get_nth.
    destruct (nth_error sh c) as [d|] eqn:E; [|reflexivity]. assert (c < length sh) by (apply nth_error_Some; congruence).
    apply (IH _ _ _ (S c)); [exact He| |lia|lia]. rewrite app_length, nones_snoc, K1. cbn. lia.
Qed.

Lemma fail_head sh : forall post pre nsh nkey c,
  length pre = c + nones pre -> length nsh = c + nones pre -> c <= length sh ->
  (ellipses post = 1 /\ length sh < c + used post \/ 2 <= ellipses post) ->
  desugar_loop sh pre post nsh nkey = IndexError \/ desugar_loop sh pre post nsh nkey = AssertionError.
Proof.
  induction post as [|k rest IH]; intros pre nsh nkey c Hp Hn Hc Hu; [destruct Hu as [[H _]|H]; cbn in H; lia|].
  rewrite ellipses_cons, used_cons in Hu. destruct (kind_cases k) as [->|[->|Hk]].
  - cbn [is_ell uses_axis desugar_loop] in *. apply (IH _ _ _ c); [| |exact Hc|exact Hu]; rewrite app_length, nones_snoc; cbn; lia.
  - cbn [is_ell uses_axis desugar_loop] in *. rewrite ellipses_existsb. destruct (Nat.eqb (ellipses rest) 0) eqn:E; [|right; reflexivity].
    apply Nat.eqb_eq in E. cbn [negb]. destruct Hu as [[_ Hu]|Hu]; [|lia]. left.
    unfold extra_dims. fold (nones pre) (nones rest).
    replace (Z.of_nat (length pre) - Z.of_nat (nones pre))%Z with (Z.of_nat c) by lia.
    match goal with |- context [py_slice sh (Z.of_nat c) ?b] => set (sl := py_slice sh (Z.of_nat c) b) end.
    assert (Lsl : length sl <= length sh - c).
    { unfold sl, py_slice. unfold py_bound at 2 3. destruct (Z.of_nat c <? 0)%Z eqn:E1; [apply Z.ltb_lt in E1; lia|]. rewrite Nat2Z.id, Nat.min_l by lia.
      rewrite firstn_length, skipn_length. lia. }
    apply (fail_tail sh rest _ _ _ (c + length sl)); [exact E| |lia|lia]. rewrite app_length, nones_snoc. cbn. lia.
  - destruct (plain_kinds k Hk) as [K1 K2]. rewrite K2, Hk in Hu. rewrite loop_plain by exact Hk.
    unfold plain_step, extra_dims. rewrite Hn. fold (nones pre). rewrite py_get_nth.
    destruct (nth_error sh c) as [d|] eqn:E; [|left; reflexivity]. assert (c < length sh) by (apply nth_error_Some; congruence).
    apply (IH _ _ _ (S c)); [| |lia|]; try (rewrite app_length, nones_snoc, K1; cbn; lia). destruct Hu as [[H1 H2]|H1]; [left; split; lia|right; lia].
Qed.

Definition full (key : list kelem) : list kelem := if existsb is_ell key then key else key ++ [KEll].

Lemma full_counts key : used (full key) = used key /\ (ellipses key <= 1 -> ellipses (full key) = 1) /\ (2 <= ellipses key -> full key = key).
Proof.
  unfold full. rewrite ellipses_existsb. destruct (Nat.eqb (ellipses key) 0) eqn:E; cbn [negb].
  - apply Nat.eqb_eq in E. rewrite used_app, ellipses_app, E. split; [cbn; lia|]. split; [reflexivity|lia].
  - apply Nat.eqb_neq in E. split; [reflexivity|]. split; [lia|reflexivity].
Qed.

Lemma desugar_ok sh key : ellipses key <= 1 -> used key <= length sh ->
  exists nsh nkey, desugar sh key = Ok (nsh, nkey) /\ dwalk (length sh - used key) (full key) sh = Some (nsh, nkey).
Proof.
  intros He Hu. destruct (full_counts key) as (F1 & F2 & _).
  destruct (loop_head sh (length sh - used key) (full key) [] [] [] 0) as (s & k & E1 & E2); [auto|reflexivity|reflexivity|rewrite F1; lia|].
  exists s, k. split; [exact E2|exact E1].
Qed.

Theorem desugar_rejects sh key : 1 < ellipses key \/ length sh < used key ->
  desugar sh key = IndexError \/ desugar sh key = AssertionError.
Proof.
  intros H. destruct (full_counts key) as (F1 & F2 & F3). unfold desugar. fold (full key). apply (fail_head sh (full key) [] [] [] 0); [reflexivity|reflexivity|lia|].
  destruct (Nat.le_gt_cases (ellipses key) 1) as [Hle|Hgt].
  - left. split; [auto|]. rewrite F1. lia.
  - right. rewrite F3; lia.
Qed.

Lemma reshape_at {V} (a : arr V) nsh j i : within (shape a) i -> ravel nsh j = ravel (shape a) i -> at_ (reshape a nsh) j = at_ a i.
Proof. intros Hi E. cbn [reshape at_]. rewrite E, unravel_ravel by exact Hi. reflexivity. Qed.

Theorem desugar_meaning V (a : arr V) key :
  ellipses key <= 1 -> used key <= length (shape a) ->
  exists nsh nkey, desugar (shape a) key = Ok (nsh, nkey) /\
    prod nsh = prod (shape a) /\ length nkey = length nsh /\ plain nkey /\
    forall env, same (index_arr env (reshape a nsh) nkey) (index_full_arr env a key).
Proof.
  intros He Hu. destruct (desugar_ok _ _ He Hu) as (nsh & nkey & E & D). exists nsh, nkey. split; [exact E|].
  destruct (walk_dwalk (fun _ => 0) _ _ _ _ _ D) as (H1 & H2 & H3 & _). split; [exact H1|]. split; [exact H2|]. split; [exact H3|].
  intros env. destruct (walk_dwalk env _ _ _ _ _ D) as (_ & _ & _ & H4). unfold index_arr, index_full_arr, index_full. cbn [reshape shape].
  rewrite (proj2 (Nat.ltb_ge 1 _)) by exact He. rewrite (proj2 (Nat.ltb_ge (length (shape a)) _)) by exact Hu. cbn [orb]. fold (full key).
  destruct (walk env (length (shape a) - used key) (full key) (shape a)) as [[s g]|], (index_axes env nsh nkey) as [[s' g']|]; try contradiction; try exact I.
  destruct H4 as [-> H4]. split; [reflexivity|]. cbn [shape at_]. intros idx Hw. destruct (H4 idx Hw) as (A & B & C).
  exact (reshape_at a nsh (g' idx) (g idx) A C).
Qed.
