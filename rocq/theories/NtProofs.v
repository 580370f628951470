From Coq Require Import List Bool Arith Reals Lia Lra.
Import ListNotations.
From Verif Require Import NtModel NtSpec.
Local Arguments Nat.div : simpl never.
Local Arguments Nat.modulo : simpl never.

(** ** Lists *)
Lemma seq_map : forall k n, map (Nat.add k) (seq 0 n) = seq k n.
Proof.
  intros k n. revert k. assert (H : forall n s k, map (Nat.add k) (seq s n) = seq (k + s) n).
  { induction n0 as [|n0 IH]; intros s k; cbn; [reflexivity|]. rewrite IH. now rewrite Nat.add_succ_r. }
  intros k. rewrite H. now rewrite Nat.add_0_r.
Qed.
Lemma seq_grid {A} : forall (g : nat -> A) b a, map g (seq 0 (a * b)) = flat_map (fun i => map (fun j => g (i * b + j)) (seq 0 b)) (seq 0 a).
Proof.
  intros g b a. induction a as [|a IH]; [reflexivity|].
  replace (S a) with (a + 1) at 2 by lia. rewrite seq_app, flat_map_app. rewrite <- IH.
  replace (S a * b) with (a * b + b) by lia. rewrite seq_app, map_app. f_equal. cbn. rewrite app_nil_r.
  rewrite <- (seq_map (a * b) b), map_map. reflexivity.
Qed.
Lemma flat_map_ext_in {A B} : forall (f g : A -> list B) l, (forall x, In x l -> f x = g x) -> flat_map f l = flat_map g l.
Proof. intros f g l. induction l as [|x l IH]; intros H; cbn; [reflexivity|]. rewrite (H x) by now left. rewrite IH; [reflexivity|]. intros y Hy. apply H. now right. Qed.
Lemma map_flat_map {A B C} : forall (g : B -> C) (f : A -> list B) l, map g (flat_map f l) = flat_map (fun x => map g (f x)) l.
Proof. intros g f l. induction l as [|x l IH]; cbn; [reflexivity|]. now rewrite map_app, IH. Qed.
Lemma flat_map_flat_map {A B C} : forall (g : B -> list C) (f : A -> list B) l, flat_map g (flat_map f l) = flat_map (fun x => flat_map g (f x)) l.
Proof. intros g f l. induction l as [|x l IH]; cbn; [reflexivity|]. now rewrite flat_map_app, IH. Qed.
Lemma flat_map_map {A B C} : forall (g : B -> list C) (f : A -> B) l, flat_map g (map f l) = flat_map (fun x => g (f x)) l.
Proof. intros g f l. induction l as [|x l IH]; cbn; [reflexivity|]. now rewrite IH. Qed.

(** ** Flattening *)
Definition product (ss : list nat) : nat := fold_right Nat.mul 1 ss.
Lemma flatten2_shape : forall t a b s, shape t = a :: b :: s -> shape (flatten2 t) = a * b :: s.
Proof. intros t a b s H. unfold flatten2. now rewrite H. Qed.
Lemma iter_dims : forall k t, dims (iter k t) = dims t.
Proof. induction k as [|k IH]; intros t; [reflexivity|]. cbn. rewrite IH. unfold flatten2. now destruct (shape t) as [|a [|b s]]. Qed.
Lemma iter_shape : forall ss t a s, shape t = a :: ss ++ s -> shape (iter (length ss) t) = a * product ss :: s.
Proof.
  induction ss as [|b ss IH]; intros t a s H; cbn in *.
  - now rewrite H, Nat.mul_1_r.
  - rewrite (IH _ (a * b) s). { f_equal. unfold product. lia. } now apply flatten2_shape.
Qed.
Lemma iter_val : forall ss t a s e js, shape t = a :: ss ++ s ->
  map (fun i => val (iter (length ss) t) e (i :: js)) (seq 0 (a * product ss)) = map (fun is => val t e (is ++ js)) (indices (a :: ss)).
Proof.
  induction ss as [|b ss IH]; intros t a s e js H.
  - cbn. rewrite Nat.mul_1_r. rewrite map_flat_map. clear H.
    assert (G : forall n k, map (fun i => val t e (i :: js)) (seq k n) = flat_map (fun x => map (fun is => val t e (is ++ js)) [[x]]) (seq k n)).
    { induction n as [|n IH]; intros k; cbn; [reflexivity|]. now rewrite IH. }
    apply G.
  - cbn [length iter]. assert (H2 := flatten2_shape _ _ _ _ H).
    replace (a * product (b :: ss)) with (a * b * product ss) by (unfold product; cbn [fold_right]; symmetry; apply Nat.mul_assoc || (rewrite Nat.mul_assoc; reflexivity)).
    rewrite (IH _ (a * b) s e js H2). cbn [indices]. rewrite map_flat_map.
    rewrite <- (map_id (seq 0 (a * b))), seq_grid, flat_map_flat_map, map_flat_map. apply flat_map_ext_in. intros i Hi.
    rewrite flat_map_map, map_map, map_flat_map. apply flat_map_ext_in. intros j Hj. apply in_seq in Hj. rewrite !map_map. apply map_ext. intros is.
    unfold flatten2. cbn [app] in H. rewrite H. cbn. 
    rewrite Nat.div_add_l by lia. rewrite Nat.div_small by lia. rewrite Nat.add_0_r.
    rewrite Nat.add_comm, Nat.mod_add by lia. now rewrite Nat.mod_small by lia.
Qed.

(** ** Sizes *)
Lemma lookup_filter : forall n m l, lookup m (filter (fun p => negb (fst p =? n)) l) = if m =? n then None else lookup m l.
Proof.
  intros n m l. induction l as [|[k s] l IH]; cbn. { now destruct (m =? n). }
  destruct (Nat.eqb_spec k n) as [-> | Hk]; cbn; rewrite IH.
  - destruct (Nat.eqb_spec m n) as [-> | Hm]; [reflexivity|]. destruct (Nat.eqb_spec n m); [congruence|reflexivity].
  - destruct (Nat.eqb_spec m n) as [-> | Hm]; [|reflexivity]. now destruct (Nat.eqb_spec k n).
Qed.
Lemma lookup_app : forall n l r, lookup n (l ++ r) = match lookup n l with Some s => Some s | None => lookup n r end.
Proof. intros n l r. induction l as [|[k s] l IH]; cbn; [reflexivity|]. now destruct (k =? n). Qed.
Lemma lookup_in : forall n l, lookup n l <> None -> exists s, In (n, s) l.
Proof.
  intros n l. induction l as [|[k s] l IH]; cbn; intros H; [congruence|].
  destruct (Nat.eqb_spec k n) as [-> | Hk]; [exists s; now left|]. destruct (IH H) as [s' Hs]. exists s'. now right.
Qed.
Lemma in_lookup : forall n s l, In (n, s) l -> lookup n l <> None.
Proof.
  intros n s l. induction l as [|[k s'] l IH]; cbn; intros H; [easy|]. destruct (Nat.eqb_spec k n) as [-> | Hk]; [easy|].
  destruct H as [H | H]; [congruence|]. now apply IH.
Qed.
Lemma upd_eq : forall e n i, upd e n i n = i.
Proof. intros. unfold upd. now rewrite Nat.eqb_refl. Qed.
Lemma upd_ne : forall e n m i, m <> n -> upd e n i m = e m.
Proof. intros e n m i H. unfold upd. now destruct (Nat.eqb_spec m n). Qed.

(** ** Binding names *)
Lemma bind_dims_some : forall ns t, NoDup ns -> (forall n, In n ns -> size t n <> None) ->
  exists u, bind_dims t ns = Some u /\ (forall m, size u m = without (size t) ns m)
    /\ shape u = map snd (along (size t) ns) ++ shape t
    /\ forall e js, map (fun is => val u e (is ++ js)) (indices (map snd (along (size t) ns))) = map (fun e => val t e js) (positions (along (size t) ns) e).
Proof.
  induction ns as [|n ns IH]; intros t Hd Hs.
  - exists t. repeat split; try reflexivity.
  - inversion Hd as [|? ? Hn Hd']; subst. destruct (IH t Hd') as [u (Hu & Hz & Hsh & Hv)]. { intros m Hm. apply Hs. now right. }
    cbn [bind_dims fold_right]. change (fold_right _ _ ns) with (bind_dims t ns). rewrite Hu. cbn [bind]. unfold bind1.
    assert (Hun : size u n = size t n). { rewrite Hz. unfold without. destruct (existsb (Nat.eqb n) ns) eqn:E; [|reflexivity]. apply existsb_exists in E as [m [Hm E]]. apply Nat.eqb_eq in E. now subst. }
    rewrite Hun. destruct (size t n) as [s|] eqn:Es. 2: { exfalso. apply (Hs n); [now left|easy]. }
    cbn [bind]. eexists. split; [reflexivity|]. cbn [along flat_map]. rewrite Es. cbn [app map]. split; [|split].
    + intros m. unfold size at 1. cbn [dims]. rewrite lookup_filter. change (lookup m (dims u)) with (size u m). rewrite Hz. unfold without. cbn [existsb]. now destruct (m =? n).
    + cbn [shape]. change (flat_map _ ns) with (along (size t) ns). now rewrite Hsh.
    + intros e js. change (flat_map _ ns) with (along (size t) ns). cbn [snd indices positions]. rewrite !map_flat_map. apply flat_map_ext_in. intros i _. rewrite map_map. cbn [val app]. now rewrite Hv.
Qed.
Lemma present_along : forall t ns, along (size t) (present t ns) = along (size t) ns.
Proof. intros t ns. unfold along, present. induction ns as [|n ns IH]; [reflexivity|]. cbn [filter flat_map]. destruct (size t n) as [s|] eqn:E; [|exact IH]. cbn [flat_map]. rewrite E. now rewrite IH. Qed.
Lemma present_without : forall t ns m, without (size t) (present t ns) m = without (size t) ns m.
Proof.
  intros t ns m. unfold without. induction ns as [|n ns IH]; cbn; [reflexivity|].
  destruct (Nat.eqb_spec m n) as [-> | H]; cbn.
  - destruct (size t n) as [s|] eqn:E; cbn; [now rewrite Nat.eqb_refl|]. now match goal with |- context [existsb ?f ?l] => destruct (existsb f l) end.
  - destruct (size t n) as [s|] eqn:E; cbn; [|exact IH]. destruct (Nat.eqb_spec m n); [congruence|exact IH].
Qed.
Lemma along_length : forall t ns, (forall n, In n ns -> size t n <> None) -> length (along (size t) ns) = length ns.
Proof. intros t ns. induction ns as [|n ns IH]; intros H; cbn; [reflexivity|]. destruct (size t n) as [s|] eqn:E; cbn; [|exfalso; apply (H n); [now left|easy]]. f_equal. apply IH. intros m Hm. apply H. now right. Qed.
Lemma product_count : forall z ns, product (map snd (along z ns)) = count z ns.
Proof. intros z ns. unfold product, count. induction (along z ns) as [|p l IH]; cbn; [reflexivity|]. now rewrite IH. Qed.
Lemma positions_length : forall l e, length (positions l e) = fold_right (fun p n => snd p * n) 1 l.
Proof.
  induction l as [|[n s] l IH]; intros e; cbn; [reflexivity|].
  assert (G : forall k a, length (flat_map (fun i => positions l (upd e n i)) (seq a k)) = k * fold_right (fun p n => snd p * n) 1 l).
  { induction k as [|k IHk]; intros a; cbn; [reflexivity|]. now rewrite app_length, IH, IHk. }
  apply G.
Qed.

(** ** Reduction, with positional dimensions kept *)
Lemma reduce_some : forall ns t r, NoDup ns -> (exists n, In n ns /\ size t n <> None) -> r <> Max -> defined r (count (size t) ns) = true ->
  exists u, reduce ns t r = Some u /\ (forall m, size u m = without (size t) ns m) /\ shape u = shape t
    /\ forall e js, val u e js = entries r (map (fun e => val t e js) (positions (along (size t) ns) e)).
Proof.
  intros ns t r Hd [n0 [Hn0 Hs0]] Hr Hdef. unfold reduce.
  assert (Hp : forall n, In n (present t ns) -> size t n <> None). { intros n Hn. apply filter_In in Hn as [_ Hn]. now destruct (size t n). }
  destruct (bind_dims_some (present t ns) t (NoDup_filter _ Hd) Hp) as [u (Hu & Hz & Hsh & Hv)]. rewrite Hu. cbn [bind].
  assert (Hl := along_length t (present t ns) Hp). rewrite present_along in Hl, Hsh.
  assert (Hv2 : forall e js, map (fun is => val u e (is ++ js)) (indices (map snd (along (size t) ns))) = map (fun e => val t e js) (positions (along (size t) ns) e)) by (intros e js; rewrite <- present_along; apply Hv).
  clear Hv. rename Hv2 into Hv.
  assert (Hc := product_count (size t) ns).
  assert (Hne : along (size t) ns <> []).
  { intros Hn. rewrite Hn in Hl. cbn in Hl. destruct (present t ns) eqn:Ep; [|easy].
    assert (In n0 (present t ns)) as H. { apply filter_In. split; [exact Hn0|]. now destruct (size t n0). } rewrite Ep in H. easy. }
  destruct (along (size t) ns) as [|[n s] l] eqn:Ea; [easy|]. clear Hne. rewrite <- Hl. cbn [length flatten map snd app] in *.
  assert (Hi := iter_shape (map snd l) u s (shape t) Hsh). assert (Hv2 := fun e js => iter_val (map snd l) u s (shape t) e js Hsh).
  rewrite map_length in *. unfold reduced. rewrite Hi. change (s * product (map snd l)) with (product (s :: map snd l)) in *. rewrite Hc in *. rewrite Hdef.
  assert (Hz2 : forall m, size (iter (length l) u) m = without (size t) ns m). { intros m. unfold size at 1. rewrite iter_dims. change (lookup m (dims u)) with (size u m). now rewrite Hz, present_without. }
  destruct r; try easy; (eexists; split; [reflexivity|]; split; [exact Hz2|]; split; [reflexivity|]; intros e js; cbn [val]; rewrite Hv2; now rewrite Hv).
Qed.

(** ** Composition *)
Lemma along_ext : forall z z' ns, (forall n, z n = z' n) -> along z ns = along z' ns.
Proof. intros z z' ns H. unfold along. apply flat_map_ext_in. intros n _. now rewrite H. Qed.
Lemma is_ext : forall t z f z' f', is t z f -> (forall n, z n = z' n) -> (forall e, f e = f' e) -> is t z' f'.
Proof.
  intros t z f z' f' [Hs Ha Hv Hl] Hz Hf. split; [exact Hs| | |].
  - intros n. now rewrite Ha.
  - intros e. now rewrite Hv.
  - intros e e' He. rewrite <- !Hf. apply Hl. intros n Hn. apply He. now rewrite <- Hz.
Qed.
Lemma is_ex {o : option tensor} : forall z f z' f', (exists u, o = Some u /\ is u z f) -> (forall n, z n = z' n) -> (forall e, f e = f' e) -> exists u, o = Some u /\ is u z' f'.
Proof. intros z f z' f' [u [Hu Hi]] Hz Hf. exists u. split; [exact Hu|]. eapply is_ext; eassumption. Qed.
Lemma map1_is : forall g t z f, is t z f -> is (map1 g t) z (fun e => g (f e)).
Proof.
  intros g t z f [Hs Ha Hv Hl]. split; [exact Hs|exact Ha| |].
  - intros e. cbn. now rewrite Hv.
  - intros e e' He. f_equal. now apply Hl.
Qed.
Definition compatible (z y : axes) : Prop := forall n s s', z n = Some s -> y n = Some s' -> s = s'.
Lemma sized_compatible : forall S z y, sized S z -> sized S y -> compatible z y.
Proof. intros S z y Hz Hy n s s' H H'. rewrite (Hz _ _ H). symmetry. now apply Hy. Qed.
Lemma agrees_true : forall a b, compatible (size a) (size b) -> agrees a b = true.
Proof.
  intros a b H. unfold agrees. apply forallb_forall. intros [n s] _. cbn. destruct (size a n) as [x|] eqn:Ea; [|reflexivity]. destruct (size b n) as [y|] eqn:Eb; [|reflexivity].
  apply Nat.eqb_eq. eapply H; eassumption.
Qed.
Lemma zip_is : forall g a b z y f h, is a z f -> is b y h -> compatible z y -> exists t, zip g a b = Some t /\ is t (join z y) (fun e => g (f e) (h e)).
Proof.
  intros g a b z y f h [Hs Ha Hv Hl] [Hs' Ha' Hv' Hl'] Hc. unfold zip.
  rewrite agrees_true. 2: { intros n s s'. rewrite Ha, Ha'. apply Hc. }
  rewrite Hs, Hs'. cbn. eexists. split; [reflexivity|]. split; cbn.
  - reflexivity.
  - intros n. unfold size. cbn. rewrite lookup_app. unfold join. rewrite <- Ha, <- Ha'. reflexivity.
  - intros e. now rewrite Hv, Hv'.
  - intros e e' He. f_equal; [apply Hl|apply Hl']; intros n Hn; apply He; unfold join; destruct (z n); try easy.
Qed.
Lemma positions_local : forall z f l e e', local z f -> (forall n, z n <> None -> ~ In n (map fst l) -> e n = e' n) -> map f (positions l e) = map f (positions l e').
Proof.
  intros z f l. induction l as [|[n s] l IH]; intros e e' Hl He; cbn.
  - f_equal. apply Hl. intros n Hn. apply He; [exact Hn|easy].
  - rewrite !map_flat_map. apply flat_map_ext_in. intros i _. apply IH; [exact Hl|]. intros m Hm Hin. unfold upd. destruct (Nat.eqb_spec m n) as [-> | Hne]; [reflexivity|].
    apply He; [exact Hm|]. cbn. intros [H | H]; [now subst|easy].
Qed.
Lemma along_in : forall z ns n, In n (map fst (along z ns)) <-> In n ns /\ z n <> None.
Proof.
  intros z ns n. unfold along. induction ns as [|m ns IH]; cbn; [easy|]. rewrite map_app, in_app_iff, IH. destruct (z m) as [s|] eqn:E; cbn.
  - split; [intros [[H | H] | H]; subst|intros [[H | H] H']; subst]; try tauto; try (split; [now left|congruence]).
  - split; [tauto|]. intros [[H | H] H']; subst; [congruence|tauto].
Qed.
Lemma without_some : forall z ns n, without z ns n <> None <-> z n <> None /\ ~ In n ns.
Proof.
  intros z ns n. unfold without. destruct (existsb (Nat.eqb n) ns) eqn:E.
  - apply existsb_exists in E as [m [Hm E]]. apply Nat.eqb_eq in E. subst. split; [easy|tauto].
  - split; [intros H; split; [exact H|]|tauto]. intros Hin. assert (existsb (Nat.eqb n) ns = true); [|congruence]. apply existsb_exists. exists n. split; [exact Hin|apply Nat.eqb_refl].
Qed.
Lemma reduced_local : forall z f ns (g : list R -> R), local z f -> local (without z ns) (fun e => g (map f (positions (along z ns) e))).
Proof.
  intros z f ns g Hl e e' He. f_equal. apply positions_local with z; [exact Hl|]. intros n Hn Hin. apply He. apply without_some. split; [exact Hn|]. intros H. apply Hin. now apply along_in.
Qed.
Lemma entries_one : forall r x, entries r [x] = x.
Proof. intros [] x; cbn; try lra. unfold sum. cbn. rewrite Rplus_0_r. apply ln_exp. Qed.
Lemma existsb_none : forall z ns, (forall n, In n ns -> z n = None) -> (forall n, without z ns n = z n) /\ along z ns = [].
Proof.
  intros z ns H. split.
  - intros n. unfold without. destruct (existsb (Nat.eqb n) ns) eqn:E; [|reflexivity]. apply existsb_exists in E as [m [Hm E]]. apply Nat.eqb_eq in E. subst. symmetry. now apply H.
  - unfold along. induction ns as [|m ns IH]; [reflexivity|]. cbn. rewrite (H m) by now left. apply IH. intros n Hn. apply H. now right.
Qed.
Lemma present_none : forall t ns, (forall n, In n ns -> size t n = None) -> present t ns = [].
Proof. intros t ns H. unfold present. induction ns as [|m ns IH]; [reflexivity|]. cbn. rewrite (H m) by now left. apply IH. intros n Hn. apply H. now right. Qed.
Lemma some_or_none : forall (z : axes) ns, (exists n, In n ns /\ z n <> None) \/ (forall n, In n ns -> z n = None).
Proof.
  intros z ns. induction ns as [|m ns IH]; [now right|]. destruct IH as [[n [Hn Hz]] | IH]; [left; exists n; split; [now right|exact Hz]|].
  destruct (z m) as [s|] eqn:E; [left; exists m; split; [now left|congruence]|]. right. intros n [-> | Hn]; [exact E|now apply IH].
Qed.
Lemma reduce_is : forall ns t r z f, is t z f -> NoDup ns -> r <> Max -> defined r (count z ns) = true ->
  exists u, reduce ns t r = Some u /\ is u (without z ns) (fun e => entries r (map f (positions (along z ns) e))).
Proof.
  intros ns t r z f Hi Hd Hr Hdef. assert (Hl := reduced_local z f ns (entries r) (is_local _ _ _ Hi)). destruct Hi as [Hs Ha Hv _].
  destruct (some_or_none z ns) as [[n [Hn Hz]] | Hno].
  - destruct (reduce_some ns t r Hd) as [u (Hu & Hsz & Hsh & Hval)].
    + exists n. split; [exact Hn|]. now rewrite Ha.
    + exact Hr.
    + unfold count. rewrite (along_ext _ z _ Ha). exact Hdef.
    + exists u. split; [exact Hu|]. split; [now rewrite Hsh| | |exact Hl].
      * intros m. rewrite Hsz. unfold without. now rewrite Ha.
      * intros e. rewrite Hval. rewrite (along_ext _ z _ Ha). f_equal. now apply map_ext.
  - destruct (existsb_none z ns Hno) as [Hw Hal]. unfold reduce. rewrite present_none by (intros m Hm; rewrite Ha; now apply Hno). cbn. unfold flatten. rewrite Hs. unfold reduced. cbn [shape].
    assert (H1 : defined r 1 = true) by now destruct r. rewrite H1.
    destruct r; try easy; (eexists; split; [reflexivity|]; split; [reflexivity|intros m; unfold size; cbn; rewrite Hw; apply Ha| |exact Hl]; intros e; rewrite Hal; cbn [val positions map seq]; rewrite !entries_one; apply Hv).
Qed.

(** ** Renaming *)
Lemma lookup_renamed : forall r l m s, lookup m (map (fun p => (renamed r (fst p), snd p)) l) = Some s -> exists n, renamed r n = m /\ lookup n l = Some s.
Proof.
  intros r l m s. induction l as [|[k x] l IH]; cbn; [easy|]. destruct (Nat.eqb_spec (renamed r k) m) as [Hk | Hk]; intros H.
  - exists k. now rewrite Nat.eqb_refl.
  - destruct (IH H) as [n [Hn Hl]]. exists n. split; [exact Hn|]. destruct (Nat.eqb_spec k n); [subst; easy|exact Hl].
Qed.
Lemma lookup_renamed_none : forall r l n, lookup n l <> None -> lookup (renamed r n) (map (fun p => (renamed r (fst p), snd p)) l) <> None.
Proof. intros r l n. induction l as [|[k x] l IH]; cbn; [easy|]. destruct (Nat.eqb_spec k n) as [-> | Hk]; [now rewrite Nat.eqb_refl|]. intros H. destruct (renamed r k =? renamed r n); [easy|now apply IH]. Qed.
Lemma rename_is : forall r t z f z', is t z f -> (forall n, z n <> None -> z' (renamed r n) = z n) -> (forall m, z' m <> None -> exists n, z n <> None /\ renamed r n = m) ->
  exists u, rename t r = Some u /\ is u z' (fun e => f (fun n => e (renamed r n))).
Proof.
  intros r t z f z' [Hs Ha Hv Hl] Hz Hz'. unfold rename.
  assert (Hfits : fits r (dims t) = true).
  { unfold fits. apply forallb_forall. intros [n x] Hn. apply forallb_forall. intros [m y] Hm. cbn. change (lookup n (dims t)) with (size t n). change (lookup m (dims t)) with (size t m). rewrite !Ha.
    destruct (Nat.eqb_spec (renamed r n) (renamed r m)) as [E | E]; [|reflexivity]. cbn. destruct (z n) as [a|] eqn:En; [|reflexivity]. destruct (z m) as [b|] eqn:Em; [|reflexivity].
    apply Nat.eqb_eq. assert (H1 := Hz n). assert (H2 := Hz m). rewrite E in H1. rewrite En in H1. rewrite Em in H2. rewrite H2 in H1 by easy. specialize (H1 ltac:(easy)). congruence. }
  rewrite Hfits. eexists. split; [reflexivity|]. split; cbn; [exact Hs| | |].
  - intros m. unfold size. cbn [dims]. destruct (lookup m (map (fun p => (renamed r (fst p), snd p)) (dims t))) as [s|] eqn:E.
    + destruct (lookup_renamed _ _ _ _ E) as [n [<- Hn]]. change (lookup n (dims t)) with (size t n) in Hn. rewrite Ha in Hn. rewrite Hz by congruence. now rewrite Hn.
    + destruct (z' m) as [s|] eqn:Em; [|reflexivity]. exfalso. destruct (Hz' m) as [n [Hn Hr]]; [congruence|]. subst m. revert E. apply lookup_renamed_none. change (lookup n (dims t)) with (size t n). now rewrite Ha.
  - intros e. now rewrite Hv.
  - intros e e' He. apply Hl. intros n Hn. apply He. now rewrite Hz.
Qed.

(** Without axes among the names all positional dimensions are reduced *)
Lemma reduce_none : forall ns t, (forall n, In n ns -> size t n = None) -> shape t <> [] ->
  exists u, reduce ns t Sum = Some u /\ shape u = [] /\ (forall m, size u m = size t m) /\ forall e, val u e [] = fold_right Rplus 0%R (map (val t e) (indices (shape t))).
Proof.
  intros ns t Hn Hs. unfold reduce. rewrite (present_none _ _ Hn). cbn [bind_dims fold_right bind length]. unfold flatten. destruct (shape t) as [|a ss] eqn:E; [easy|].
  cbn [length]. rewrite Nat.sub_succ, Nat.sub_0_r. assert (E2 : shape t = a :: ss ++ []) by now rewrite app_nil_r.
  unfold reduced. rewrite (iter_shape _ _ _ _ E2). cbn [defined]. eexists. split; [reflexivity|]. split; [reflexivity|]. split.
  - intros m. unfold size. cbn [dims]. now rewrite iter_dims.
  - intros e. cbn [val entries]. rewrite (iter_val _ _ _ _ e [] E2). unfold sum. f_equal. apply map_ext. intros js. now rewrite app_nil_r.
Qed.
