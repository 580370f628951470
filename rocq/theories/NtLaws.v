From Coq Require Import List Bool Arith Reals Lia Lra.
Import ListNotations.
From Verif Require Import NtModel NtSpec NtProofs.
Local Arguments Nat.div : simpl never.
Local Arguments Nat.modulo : simpl never.

Lemma NoDup1 : forall n : nat, NoDup [n].
Proof. intros n. constructor; [easy|constructor]. Qed.
Lemma NoDup2 : forall n m : nat, n <> m -> NoDup [n; m].
Proof. intros n m H. constructor; [cbn; intuition congruence|apply NoDup1]. Qed.
Lemma sum_is : forall ns t z f, is t z f -> NoDup ns -> exists u, reduce ns t Sum = Some u /\ is u (without z ns) (Sigma z ns f).
Proof. intros ns t z f Hi Hd. apply (reduce_is ns t Sum z f Hi Hd); easy. Qed.
Lemma sized_join : forall S z y, sized S z -> sized S y -> sized S (join z y).
Proof. intros S z y Hz Hy n s. unfold join. destruct (z n) eqn:E; intros H; [injection H as <-; now apply Hz|now apply Hy]. Qed.
Lemma sized_without : forall S z l, sized S z -> sized S (without z l).
Proof. intros S z l Hz n s. unfold without. destruct (existsb _ l); [easy|]. apply Hz. Qed.
Lemma sized_plus : forall S z n s, sized S z -> s = S n -> sized S (plus z n s).
Proof. intros S z n s Hz Hs m x. unfold plus. destruct (Nat.eqb_spec m n) as [-> | Hm]; [intros H; injection H as <-; exact Hs|apply Hz]. Qed.
Lemma along1 : forall z n s, z n = Some s -> along z [n] = [(n, s)].
Proof. intros z n s H. unfold along. cbn. now rewrite H. Qed.
Lemma count1 : forall z n s, z n = Some s -> count z [n] = s.
Proof. intros z n s H. unfold count. rewrite (along1 _ _ _ H). cbn. lia. Qed.
Lemma along2 : forall z n s m r, z n = Some s -> z m = Some r -> along z [n; m] = [(n, s); (m, r)].
Proof. intros z n s m r H H'. unfold along. cbn. now rewrite H, H'. Qed.
Lemma count2 : forall z n s m r, z n = Some s -> z m = Some r -> count z [n; m] = s * r.
Proof. intros z n s m r H H'. unfold count. rewrite (along2 _ _ _ _ _ H H'). cbn. lia. Qed.
Lemma without_none : forall z l n, without z l n = None <-> z n = None \/ In n l.
Proof.
  intros z l n. destruct (without z l n) eqn:E.
  - assert (H : without z l n <> None) by congruence. apply without_some in H as [H1 H2]. split; [easy|tauto].
  - split; [intros _|reflexivity]. destruct (z n) eqn:Ez; [|now left]. right. destruct (in_dec Nat.eq_dec n l) as [H | H]; [exact H|]. exfalso.
    assert (without z l n <> None); [|congruence]. apply without_some. split; [congruence|exact H].
Qed.

(** ** Networks of one layer *)
Lemma sigmoid_logistic : forall x, sigmoid x = logistic x.
Proof. intros x. unfold sigmoid, logistic. rewrite exp_Ropp. assert (H := exp_pos x). field. lra. Qed.
Lemma sigmoid_is : forall t z f, is t z f -> is (map1 sigmoid t) z (fun e => logistic (f e)).
Proof. intros t z f H. eapply is_ext; [exact (map1_is sigmoid _ _ _ H)|reflexivity|]. intros e. apply sigmoid_logistic. Qed.
Lemma fullconn_is : forall S x W b layer zx zW zb fx fW fb, sized S zx -> sized S zW -> sized S zb -> is x zx fx -> is W zW fW -> is b zb fb ->
  exists y, FullConn x W b layer = Some y /\ is y (join (without (join zW zx) [layer]) zb) (fun e => (Sigma (join zW zx) [layer] (fun e => logistic (fW e * fx e)) e + fb e)%R).
Proof.
  intros S x W b layer zx zW zb fx fW fb Sx SW Sb Hx HW Hb. unfold FullConn.
  destruct (zip_is Rmult _ _ _ _ _ _ HW Hx (sized_compatible _ _ _ SW Sx)) as [p [-> Hp]]. cbn [bind].
  destruct (sum_is [layer] _ _ _ (sigmoid_is _ _ _ Hp) (NoDup1 _)) as [s [-> Hs]]. cbn [bind].
  apply (zip_is Rplus _ _ _ _ _ _ Hs Hb). apply sized_compatible with S; [|exact Sb]. now apply sized_without, sized_join.
Qed.
Lemma rnn_is : forall S x Wh Wi b h hidden layer zx zWh zWi zb zh fx fWh fWi fb fh, sized S zx -> sized S zWh -> sized S zWi -> sized S zb -> sized S zh ->
  is x zx fx -> is Wh zWh fWh -> is Wi zWi fWi -> is b zb fb -> is h zh fh ->
  exists y, RNN x Wh Wi b h hidden layer = Some y
    /\ is y (join (join (without (join zWh zh) [hidden]) (without (join zWi zx) [layer])) zb)
         (fun e => logistic (Sigma (join zWh zh) [hidden] (fun e => (fWh e * fh e)%R) e + Sigma (join zWi zx) [layer] (fun e => (fWi e * fx e)%R) e + fb e)%R).
Proof.
  intros S x Wh Wi b h hidden layer zx zWh zWi zb zh fx fWh fWi fb fh Sx SWh SWi Sb Sh Hx HWh HWi Hb Hh. unfold RNN.
  destruct (zip_is Rmult _ _ _ _ _ _ HWh Hh (sized_compatible _ _ _ SWh Sh)) as [p [-> Hp]]. cbn [bind].
  destruct (sum_is [hidden] _ _ _ Hp (NoDup1 _)) as [u [-> Hu]]. cbn [bind].
  destruct (zip_is Rmult _ _ _ _ _ _ HWi Hx (sized_compatible _ _ _ SWi Sx)) as [q [-> Hq]]. cbn [bind].
  destruct (sum_is [layer] _ _ _ Hq (NoDup1 _)) as [v [-> Hv]]. cbn [bind].
  assert (S1 : sized S (without (join zWh zh) [hidden])) by now apply sized_without, sized_join.
  assert (S2 : sized S (without (join zWi zx) [layer])) by now apply sized_without, sized_join.
  destruct (zip_is Rplus _ _ _ _ _ _ Hu Hv (sized_compatible _ _ _ S1 S2)) as [s [-> Hs]]. cbn [bind].
  destruct (zip_is Rplus _ _ _ _ _ _ Hs Hb) as [s' [-> Hs']]. { apply sized_compatible with S; [now apply sized_join|exact Sb]. } cbn [bind].
  eexists. split; [reflexivity|]. exact (sigmoid_is _ _ _ Hs').
Qed.
Lemma relu_is : forall x z f, is x z f -> is (Relu x) z (fun e => Rmax (f e) 0).
Proof. intros x z f H. exact (map1_is (fun v => Rmax v 0) _ _ _ H). Qed.

(** ** Softmax *)
Lemma renamed1 : forall ax ax2 n, renamed [(ax, ax2)] n = if n =? ax then ax2 else n.
Proof. intros ax ax2 n. cbn. now rewrite Nat.eqb_sym. Qed.
Lemma rename1_is : forall t z f ax ax2 n, is t z f -> z ax = Some n -> without z [ax] ax2 = None ->
  exists u, rename t [(ax, ax2)] = Some u /\ is u (plus (without z [ax]) ax2 n) (fun e => f (upd e ax (e ax2))).
Proof.
  intros t z f ax ax2 n Hi Hz Hn. eapply is_ex; [eapply (rename_is _ _ _ _ (plus (without z [ax]) ax2 n) Hi)| |].
  - intros m Hm. rewrite renamed1. unfold plus, without. cbn. destruct (Nat.eqb_spec m ax) as [-> | Hne]; [now rewrite Nat.eqb_refl|].
    destruct (Nat.eqb_spec m ax2) as [-> | Hne2]. { exfalso. apply without_none in Hn as [H | [H | []]]; congruence. } destruct (Nat.eqb_spec m ax); [congruence|reflexivity].
  - intros m. unfold plus. destruct (Nat.eqb_spec m ax2) as [-> | Hne]; intros Hm.
    + exists ax. split; [congruence|]. rewrite renamed1. now rewrite Nat.eqb_refl.
    + apply without_some in Hm as [Hm Hne2]. exists m. split; [exact Hm|]. rewrite renamed1. destruct (Nat.eqb_spec m ax) as [-> | H]; [|reflexivity]. exfalso. apply Hne2. now left.
  - reflexivity.
  - intros e. apply (is_local _ _ _ Hi). intros m _. rewrite renamed1. unfold upd. now destruct (m =? ax).
Qed.
(** Sums along the new name are sums along the old one *)
Lemma positions_renamed : forall z f ax ax2 n e, local z f -> z ax = Some n -> without z [ax] ax2 = None ->
  map (fun e => f (upd e ax (e ax2))) (positions (along (plus (without z [ax]) ax2 n) [ax2]) e) = map f (positions (along z [ax]) e).
Proof.
  intros z f ax ax2 n e Hl Hz Hn. rewrite (along1 _ ax2 n) by (unfold plus; now rewrite Nat.eqb_refl). rewrite (along1 _ _ _ Hz). cbn. rewrite !map_flat_map. apply flat_map_ext_in. intros i _. cbn. f_equal.
  apply Hl. intros m Hm. rewrite upd_eq. unfold upd. destruct (Nat.eqb_spec m ax) as [-> | Hne]; [reflexivity|]. destruct (Nat.eqb_spec m ax2) as [-> | H]; [|reflexivity].
  exfalso. apply without_none in Hn as [H | [H | []]]; congruence.
Qed.
Lemma Sigma_local : forall z l f, local z f -> local (without z l) (Sigma z l f).
Proof. intros z l f H. exact (reduced_local z f l sum H). Qed.
Lemma local_comp : forall z f (g : R -> R), local z f -> local z (fun e => g (f e)).
Proof. intros z f g H e e' He. f_equal. now apply H. Qed.
Lemma off : forall z l f e ax i, local (without z l) f -> In ax l -> f (upd e ax i) = f e.
Proof. intros z l f e ax i H Hin. apply H. intros m Hm. apply without_some in Hm as [_ Hm]. apply upd_ne. now intros ->. Qed.
Lemma sum_pos : forall (l : list R), l <> [] -> (0 < fold_right Rplus 0 (map exp l))%R.
Proof.
  intros l Hl. assert (G : forall l, (0 <= fold_right Rplus 0 (map exp l))%R). { induction l0 as [|x l0 IH]; cbn; [lra|]. assert (H := exp_pos x). lra. }
  destruct l as [|x l]; [easy|]. cbn. assert (H := exp_pos x). specialize (G l). lra.
Qed.
Lemma positions_ne : forall z l e, 0 < count z l -> positions (along z l) e <> [].
Proof. intros z l e H E. unfold count in H. rewrite <- (positions_length _ e), E in H. cbn in H. lia. Qed.
Lemma Sigma_exp_pos : forall z l f e, 0 < count z l -> (0 < Sigma z l (fun e => exp (f e)) e)%R.
Proof. intros z l f e H. unfold Sigma. rewrite <- (map_map f exp). apply sum_pos. intros E. apply map_eq_nil in E. revert E. now apply positions_ne. Qed.
Lemma exp_minus_ln : forall a b, (0 < b)%R -> exp (a - ln b) = (exp a / b)%R.
Proof. intros a b H. unfold Rminus, Rdiv. rewrite exp_plus, exp_Ropp, exp_ln by exact H. reflexivity. Qed.
Lemma sum_div : forall l (c : R), fold_right Rplus 0%R (map (fun x => (x / c)%R) l) = (fold_right Rplus 0 l / c)%R.
Proof. intros l c. induction l as [|x l IH]; cbn; [unfold Rdiv; lra|]. rewrite IH. unfold Rdiv. lra. Qed.
Lemma softmax_is : forall x z f ax ax2 n, is x z f -> z ax = Some n -> 0 < n -> without z [ax] ax2 = None ->
  exists y, Softmax x ax ax2 = Some y /\ is y (plus (without z [ax]) ax2 n) (fun e => softmax z [ax] f (upd e ax (e ax2))).
Proof.
  intros x z f ax ax2 n Hi Hz Hpos Hn. unfold Softmax.
  destruct (rename1_is x z f ax ax2 n Hi Hz Hn) as [x' [-> Hx]]. cbn [bind]. set (z' := plus (without z [ax]) ax2 n) in *.
  assert (Hz' : z' ax2 = Some n) by (unfold z', plus; now rewrite Nat.eqb_refl).
  destruct (reduce_is [ax2] x' LogSumExp z' _ Hx (NoDup1 _)) as [l [-> Hlse]]; [easy| |]. { cbn [defined]. rewrite (count1 _ _ _ Hz'). destruct n; [lia|reflexivity]. } cbn [bind].
  destruct (zip_is Rminus _ _ _ _ _ _ Hx Hlse) as [y [-> Hy]]. { intros m s s' H1 H2. unfold without in H2. destruct (existsb _ _); [easy|]. congruence. } cbn [bind].
  eexists. split; [reflexivity|]. eapply is_ext; [exact (map1_is exp _ _ _ Hy)| |].
  - intros m. unfold join. destruct (z' m) eqn:E; [reflexivity|]. unfold without. now rewrite E; destruct (existsb _ _).
  - intros e. cbn beta. unfold softmax. cbn [entries]. unfold z'. rewrite (positions_renamed z f ax ax2 n e (is_local _ _ _ Hi) Hz Hn). rewrite map_map.
    change (sum (map (fun x0 => exp (f x0)) (positions (along z [ax]) e))) with (Sigma z [ax] (fun e => exp (f e)) e).
    rewrite exp_minus_ln by (apply Sigma_exp_pos; now rewrite (count1 _ _ _ Hz)). f_equal. symmetry.
    apply (off z [ax]); [|now left]. apply Sigma_local. apply local_comp. exact (is_local _ _ _ Hi).
Qed.
Lemma softmax_sums : forall z f ax ax2 n e, local z f -> z ax = Some n -> 0 < n -> without z [ax] ax2 = None ->
  Sigma (plus (without z [ax]) ax2 n) [ax2] (fun e => softmax z [ax] f (upd e ax (e ax2))) e = 1%R.
Proof.
  intros z f ax ax2 n e Hl Hz Hpos Hn. unfold Sigma at 1.
  assert (Hs : local z (softmax z [ax] f)).
  { intros e1 e2 He. unfold softmax. f_equal; [f_equal; now apply Hl|]. apply Sigma_local; [now apply local_comp|]. intros m Hm. apply He. now apply without_some in Hm. }
  rewrite (positions_renamed z (softmax z [ax] f) ax ax2 n e Hs Hz Hn). set (D := Sigma z [ax] (fun e => exp (f e)) e).
  assert (HD : (0 < D)%R) by (apply Sigma_exp_pos; now rewrite (count1 _ _ _ Hz)).
  transitivity (fold_right Rplus 0%R (map (fun x => (x / D)%R) (map (fun e => exp (f e)) (positions (along z [ax]) e)))).
  - f_equal. rewrite map_map. rewrite (along1 _ _ _ Hz). cbn. rewrite !map_flat_map. apply flat_map_ext_in. intros i _. cbn. f_equal. unfold softmax. f_equal.
    apply (off z [ax]); [|now left]. apply Sigma_local. now apply local_comp.
  - rewrite sum_div. change (fold_right Rplus 0%R (map (fun e0 => exp (f e0)) (positions (along z [ax]) e))) with D. field. lra.
Qed.

(** ** Attention *)
Lemma attention_is : forall S Q K V M key seq seq2 zQ zK zV zM q k v m nk n, sized S zQ -> sized S zK -> sized S zV -> sized S zM ->
  is Q zQ q -> is K zK k -> is V zV v -> is M zM m -> zQ key = Some nk ->
  let zx := join (without (join zQ zK) [key]) zM in
  zx seq = Some n -> 0 < n -> without zx [seq] seq2 = None -> S seq2 = n ->
  let z := join (plus (without zx [seq]) seq2 n) zV in
  exists y, Attention Q K V M key seq seq2 = Some y
    /\ is y (without z [seq]) (Sigma z [seq] (fun e => (softmax zx [seq] (score zQ zK key (INR nk) q k m) (upd e seq (e seq2)) * v e)%R)).
Proof.
  intros S Q K V M key seq seq2 zQ zK zV zM q k v m nk n SQ SK SV SM HQ HK HV HM Hkey zx Hzx Hn Hnew HS z. unfold Attention.
  destruct (zip_is Rmult _ _ _ _ _ _ HQ HK (sized_compatible _ _ _ SQ SK)) as [p [-> Hp]]. cbn [bind].
  destruct (sum_is [key] _ _ _ Hp (NoDup1 _)) as [s [-> Hs]]. cbn [bind]. rewrite (is_axes _ _ _ HQ), Hkey. cbn [bind].
  assert (S1 : sized S (without (join zQ zK) [key])) by now apply sized_without, sized_join.
  destruct (zip_is Rplus _ _ _ _ _ _ (map1_is (fun v => (v / INR nk)%R) _ _ _ Hs) HM (sized_compatible _ _ _ S1 SM)) as [x [Hx' Hx]]. unfold over. rewrite Hx'. cbn [bind]. clear Hx'.
  destruct (softmax_is x zx _ seq seq2 n Hx Hzx Hn Hnew) as [w [-> Hw]]. cbn [bind].
  assert (Szx : sized S zx) by now apply sized_join.
  destruct (zip_is Rmult _ _ _ _ _ _ Hw HV) as [y [-> Hy]]. { apply sized_compatible with S; [|exact SV]. apply sized_plus; [now apply sized_without|now symmetry]. } cbn [bind].
  exact (sum_is [seq] _ _ _ Hy (NoDup1 _)).
Qed.

(** ** Convolutions and pooling *)
Lemma bind1_is : forall t z f n s, is t z f -> z n = Some s -> exists u, bind_dims t [n] = Some u /\ shape u = [s] /\ (forall m, size u m = without z [n] m) /\ forall e i, val u e [i] = f (upd e n i).
Proof.
  intros t z f n s [Hs Ha Hv Hl] Hz. cbn. unfold bind1. rewrite Ha, Hz. cbn. eexists. split; [reflexivity|]. cbn. rewrite Hs. split; [reflexivity|]. split.
  - intros m. unfold size. cbn [dims]. rewrite lookup_filter. unfold without. cbn. destruct (m =? n); [reflexivity|apply Ha].
  - intros e i. apply Hv.
Qed.
Lemma name2_is : forall u a b z g seq2 kernel, shape u = [a; b] -> (forall m, size u m = z m) -> z seq2 = None -> z kernel = None -> kernel <> seq2 ->
  (forall e e' i j, (forall m, z m <> None -> e m = e' m) -> g e i j = g e' i j) -> (forall e i j, val u e [i; j] = g e i j) ->
  exists y, name2 seq2 kernel u = Some y /\ is y (plus (plus z seq2 a) kernel b) (fun e => g e (e seq2) (e kernel)).
Proof.
  intros u a b z g seq2 kernel Hsh Hz H2 Hk Hne Hg Hv. unfold name2, name1. rewrite Hsh, Hz, H2. cbn [bind shape]. unfold size at 1. cbn [dims lookup].
  destruct (Nat.eqb_spec seq2 kernel); [congruence|]. change (lookup kernel (dims u)) with (size u kernel). rewrite Hz, Hk. eexists. split; [reflexivity|]. split; cbn [shape val]; [reflexivity| | |].
  - intros m. unfold size, plus. cbn. rewrite (Nat.eqb_sym m kernel), (Nat.eqb_sym m seq2). destruct (kernel =? m); [reflexivity|]. destruct (seq2 =? m); [reflexivity|]. apply Hz.
  - intros e. apply Hv.
  - intros e e' He. unfold plus in He. rewrite (He seq2), (He kernel).
    + apply Hg. intros m Hm. apply He. destruct (m =? kernel); [easy|]. now destruct (m =? seq2).
    + now rewrite Nat.eqb_refl.
    + rewrite Nat.eqb_refl. now destruct (seq2 =? kernel).
Qed.
Lemma upd_local : forall z f n e e' i j, local z f -> (forall m, without z [n] m <> None -> e m = e' m) -> i = j -> f (upd e n i) = f (upd e' n j).
Proof. intros z f n e e' i j Hl He ->. apply Hl. intros m Hm. unfold upd. destruct (Nat.eqb_spec m n) as [-> | H]; [reflexivity|]. apply He. apply without_some. split; [exact Hm|]. cbn. intuition congruence. Qed.
Lemma unroll_is : forall x z f seq k kernel seq2 n, is x z f -> z seq = Some n -> k <= n -> without z [seq] seq2 = None -> without z [seq] kernel = None -> kernel <> seq2 ->
  exists y, Unroll x seq k kernel seq2 = Some y /\ is y (plus (plus (without z [seq]) seq2 (n - k + 1)) kernel k) (fun e => f (upd e seq (e seq2 + e kernel))).
Proof.
  intros x z f seq k kernel seq2 n Hi Hz Hk H2 H3 Hne. unfold Unroll. destruct (bind1_is _ _ _ _ _ Hi Hz) as [u (-> & Hsh & Hsz & Hv)]. cbn [bind].
  unfold unfold0. rewrite Hsh. destruct (Nat.leb_spec k n); [|lia]. cbn [bind app].
  apply (name2_is _ _ _ (without z [seq]) (fun e i j => f (upd e seq (i + j)))); try easy.
  - intros e e' i j He. eapply upd_local; [exact (is_local _ _ _ Hi)|exact He|reflexivity].
  - intros e i j. cbn. apply Hv.
Qed.
Lemma unroll_none : forall x z f seq k kernel seq2 n, is x z f -> z seq = Some n -> n < k -> Unroll x seq k kernel seq2 = None.
Proof.
  intros x z f seq k kernel seq2 n Hi Hz Hk. unfold Unroll. destruct (bind1_is _ _ _ _ _ Hi Hz) as [u (-> & Hsh & Hsz & Hv)]. cbn [bind]. unfold unfold0. rewrite Hsh. now destruct (Nat.leb_spec k n); [lia|].
Qed.
Lemma pool_is : forall x z f seq k kernel seq2 m, is x z f -> 0 < k -> z seq = Some (m * k) -> without z [seq] seq2 = None -> without z [seq] kernel = None -> kernel <> seq2 ->
  exists y, Pool x seq k kernel seq2 = Some y /\ is y (plus (plus (without z [seq]) seq2 m) kernel k) (fun e => f (upd e seq (e seq2 * k + e kernel))).
Proof.
  intros x z f seq k kernel seq2 m Hi Hk Hz H2 H3 Hne. unfold Pool. destruct (bind1_is _ _ _ _ _ Hi Hz) as [u (-> & Hsh & Hsz & Hv)]. cbn [bind]. rewrite Hsh.
  assert (Hd : m * k / k = m) by (apply Nat.div_mul; lia). rewrite Hd, Nat.eqb_refl. destruct (Nat.eqb_spec k 0); [lia|]. cbn [negb andb].
  apply (name2_is _ _ _ (without z [seq]) (fun e i j => f (upd e seq (i * k + j)))); try easy.
  - intros e e' i j He. eapply upd_local; [exact (is_local _ _ _ Hi)|exact He|reflexivity].
  - intros e i j. cbn. apply Hv.
Qed.
Lemma pool_none : forall x z f seq k kernel seq2 n, is x z f -> z seq = Some n -> (k = 0 \/ n mod k <> 0) -> Pool x seq k kernel seq2 = None.
Proof.
  intros x z f seq k kernel seq2 n Hi Hz Hk. unfold Pool. destruct (bind1_is _ _ _ _ _ Hi Hz) as [u (-> & Hsh & Hsz & Hv)]. cbn [bind]. rewrite Hsh.
  destruct (Nat.eqb_spec k 0) as [-> | H0]; [reflexivity|]. cbn [negb andb]. destruct (Nat.eqb_spec (n / k * k) n) as [E | E]; [|reflexivity]. exfalso.
  destruct Hk as [Hk | Hk]; [easy|]. apply Hk. rewrite <- E. now apply Nat.mod_mul.
Qed.
Lemma conv1d_is : forall S X W b chans k kernel seq seq2 zX zW zb fX fW fb n, sized S zX -> sized S zW -> sized S zb -> is X zX fX -> is W zW fW -> is b zb fb ->
  zX seq = Some n -> k <= n -> without zX [seq] seq2 = None -> without zX [seq] kernel = None -> kernel <> seq2 -> chans <> kernel -> S seq2 = n - k + 1 -> S kernel = k ->
  let z := join zW (plus (plus (without zX [seq]) seq2 (n - k + 1)) kernel k) in
  exists y, Conv1d X W b chans k kernel seq seq2 = Some y /\ is y (join (without z [chans; kernel]) zb) (fun e => (Sigma z [chans; kernel] (fun e => (fW e * fX (upd e seq (e seq2 + e kernel)%nat))%R) e + fb e)%R).
Proof.
  intros S X W b chans k kernel seq seq2 zX zW zb fX fW fb n SX SW Sb HX HW Hb Hz Hk H2 H3 Hne Hck HS2 HSk z. unfold Conv1d.
  destruct (unroll_is _ _ _ _ k kernel seq2 n HX Hz Hk H2 H3 Hne) as [u [-> Hu]]. cbn [bind].
  assert (Su : sized S (plus (plus (without zX [seq]) seq2 (n - k + 1)) kernel k)) by (apply sized_plus; [apply sized_plus; [now apply sized_without|now symmetry]|now symmetry]).
  destruct (zip_is Rmult _ _ _ _ _ _ HW Hu (sized_compatible _ _ _ SW Su)) as [y [-> Hy]]. cbn [bind].
  destruct (sum_is [chans; kernel] _ _ _ Hy (NoDup2 _ _ Hck)) as [s [-> Hs]]. cbn [bind].
  apply (zip_is Rplus _ _ _ _ _ _ Hs Hb). apply sized_compatible with S; [|exact Sb]. now apply sized_without, sized_join.
Qed.
Lemma conv2d_is : forall S X W b chans khs kh height height2 kws kw width width2 zX zW zb fX fW fb nh nw, sized S zX -> sized S zW -> sized S zb -> is X zX fX -> is W zW fW -> is b zb fb ->
  zX width = Some nw -> zX height = Some nh -> kws <= nw -> khs <= nh ->
  NoDup [width; height; width2; height2; kw; kh; chans] -> zX width2 = None -> zX height2 = None -> zX kw = None -> zX kh = None ->
  S width2 = nw - kws + 1 -> S height2 = nh - khs + 1 -> S kw = kws -> S kh = khs ->
  let z := join zW (windows (windows zX width nw kws width2 kw) height nh khs height2 kh) in
  exists y, Conv2d X W b chans khs kh height height2 kws kw width width2 = Some y
    /\ is y (join (without z [chans; kh; kw]) zb)
         (fun e => (Sigma z [chans; kh; kw] (fun e => (fW e * fX (upd (upd e height (e height2 + e kh)%nat) width (e width2 + e kw)%nat))%R) e + fb e)%R).
Proof.
  intros S X W b chans khs kh height height2 kws kw width width2 zX zW zb fX fW fb nh nw SX SW Sb HX HW Hb Hw Hh Hkw Hkh Hnd Hw2 Hh2 Hkwn Hkhn Sw2 Sh2 Skw Skh z. unfold Conv2d.
  repeat match goal with H : NoDup (_ :: _) |- _ => let H1 := fresh in let H2 := fresh in inversion H as [|? ? H1 H2]; clear H; subst; cbn [In] in H1 end.
  destruct (unroll_is _ _ _ width (S kw) kw width2 nw HX Hw) as [u [-> Hu]]; try easy; try (apply without_none; now left); try (intros ->; tauto). cbn [bind].
  assert (Hfree : forall m, m <> width2 -> m <> kw -> m <> width -> windows zX width nw (S kw) width2 kw m = zX m).
  { intros m E1 E2 E3. unfold windows, plus, without. cbn. destruct (Nat.eqb_spec m kw); [easy|]. destruct (Nat.eqb_spec m width2); [easy|]. now destruct (Nat.eqb_spec m width). }
  destruct (unroll_is _ _ _ height (S kh) kh height2 nh Hu) as [u2 [-> Hu2]].
  { change (windows zX width nw (S kw) width2 kw height = Some nh). rewrite Hfree; [exact Hh| | |]; intros ->; tauto. }
  { exact Hkh. }
  { apply without_none. left. change (windows zX width nw (S kw) width2 kw height2 = None). rewrite Hfree; [exact Hh2| | |]; intros ->; tauto. }
  { apply without_none. left. change (windows zX width nw (S kw) width2 kw kh = None). rewrite Hfree; [exact Hkhn| | |]; intros ->; tauto. }
  { intros ->; tauto. }
  cbn [bind].
  assert (Su : sized S (windows (windows zX width nw (S kw) width2 kw) height nh (S kh) height2 kh)).
  { unfold windows. repeat first [apply sized_plus; [|now symmetry] | apply sized_without | exact SX | reflexivity]. }
  destruct (zip_is Rmult _ _ _ _ _ _ HW Hu2 (sized_compatible _ _ _ SW Su)) as [y [-> Hy]]. cbn [bind].
  destruct (sum_is [chans; kh; kw] _ _ _ Hy) as [s [-> Hs]]. { constructor; [cbn; intuition congruence|apply NoDup2; intros ->; tauto]. } cbn [bind].
  eapply is_ex; [apply (zip_is Rplus _ _ _ _ _ _ Hs Hb); apply sized_compatible with S; [|exact Sb]; apply sized_without, sized_join; [exact SW|exact Su]| |].
  - reflexivity.
  - intros e. cbn beta. f_equal. unfold Sigma. f_equal. apply map_ext. intros e'. f_equal. rewrite !upd_ne; [reflexivity| |]; intros ->; tauto.
Qed.

(** ** Maxima *)
Lemma reduce_max : forall ns t u, reduce ns t Amax = Some u ->
  exists v, reduce ns t Max = Some v /\ dims v = dims u /\ shape v = 1 :: shape u /\ forall e j js, val v e (j :: js) = val u e js.
Proof.
  intros ns t u. unfold reduce. destruct (bind_dims t (present t ns)) as [b|]; [|easy]. cbn [bind]. unfold reduced. destruct (shape (flatten b (length (present t ns)))) as [|n s]; [easy|].
  cbn [defined]. destruct (negb (n =? 0)); [|easy]. intros H. injection H as <-. eexists. split; [reflexivity|]. repeat split.
Qed.
Lemma maximum_spec : forall l, l <> [] -> In (maximum l) l /\ forall v, In v l -> (v <= maximum l)%R.
Proof.
  intros [|x l]; [easy|]. intros _. cbn [maximum]. induction l as [|y l [IH1 IH2]]; cbn [fold_right].
  - split; [now left|]. intros v [-> | []]. lra.
  - set (m := fold_right Rmax x l) in *. split.
    + unfold Rmax. destruct (Rle_dec y m) as [H | H]; [destruct IH1; [now left|right; now right]|right; now left].
    + intros v Hv. assert (A := Rmax_l y m). assert (B := Rmax_r y m). destruct Hv as [-> | [-> | Hv]]; [specialize (IH2 v (or_introl eq_refl)); lra|lra|specialize (IH2 v (or_intror Hv)); lra].
Qed.
Lemma amax_is : forall ns t z f, is t z f -> NoDup ns -> 0 < count z ns -> exists u, reduce ns t Amax = Some u /\ exists g, is u (without z ns) g /\ forall e, Largest z ns f e (g e).
Proof.
  intros ns t z f Hi Hd Hc. destruct (reduce_is ns t Amax z f Hi Hd) as [u [Hu Hiu]]; [easy|cbn [defined]; destruct (count z ns); [lia|reflexivity]|]. exists u. split; [exact Hu|]. eexists. split; [exact Hiu|].
  intros e. apply maximum_spec. intros E. apply map_eq_nil in E. revert E. now apply positions_ne.
Qed.
Lemma max_keeps : forall ns t z f, is t z f -> NoDup ns -> 0 < count z ns -> exists u, reduce ns t Max = Some u /\ shape u = [1] /\ (forall n, size u n = without z ns n) /\ forall e, Largest z ns f e (val u e [0]).
Proof.
  intros ns t z f Hi Hd Hc. destruct (amax_is ns t z f Hi Hd Hc) as [u [Hu [g [Hg Hl]]]]. destruct (reduce_max _ _ _ Hu) as [v (Hv & Hdm & Hsh & Hval)].
  exists v. split; [exact Hv|]. split; [now rewrite Hsh, (is_shape _ _ _ Hg)|]. split.
  - intros n. unfold size. rewrite Hdm. exact (is_axes _ _ _ Hg n).
  - intros e. rewrite Hval, (is_val _ _ _ Hg). apply Hl.
Qed.
Lemma maxpool1d_is : forall x z f seq k kernel seq2 m, is x z f -> 0 < k -> z seq = Some (m * k) -> without z [seq] seq2 = None -> without z [seq] kernel = None -> kernel <> seq2 ->
  exists y, MaxPool1d x seq k kernel seq2 = Some y /\ shape y = [1] /\ (forall n, size y n = without (blocks z seq m k seq2 kernel) [kernel] n)
    /\ forall e, Largest (blocks z seq m k seq2 kernel) [kernel] (fun e => f (upd e seq (e seq2 * k + e kernel))) e (val y e [0]).
Proof.
  intros x z f seq k kernel seq2 m Hi Hk Hz H2 H3 Hne. unfold MaxPool1d. destruct (pool_is x z f seq k kernel seq2 m Hi Hk Hz H2 H3 Hne) as [p [-> Hp]]. cbn [bind].
  apply (max_keeps [kernel] _ _ _ Hp (NoDup1 _)). rewrite (count1 _ _ k); [exact Hk|]. unfold plus. now rewrite Nat.eqb_refl.
Qed.
Lemma maxpool2d_is : forall x z f height khs kh height2 width kws kw width2 mh mw, is x z f -> 0 < khs -> 0 < kws -> z height = Some (mh * khs) -> z width = Some (mw * kws) ->
  NoDup [height; width; height2; width2; kh; kw] -> z height2 = None -> z width2 = None -> z kh = None -> z kw = None ->
  let z' := blocks (blocks z height mh khs height2 kh) width mw kws width2 kw in
  exists y, MaxPool2d x height khs kh height2 width kws kw width2 = Some y /\ shape y = [1] /\ (forall n, size y n = without z' [kh; kw] n)
    /\ forall e, Largest z' [kh; kw] (fun e => f (upd (upd e width (e width2 * kws + e kw)) height (e height2 * khs + e kh))) e (val y e [0]).
Proof.
  intros x z f height khs kh height2 width kws kw width2 mh mw Hi Hkh Hkw Hh Hw Hnd Hh2 Hw2 Hkhn Hkwn z'. unfold MaxPool2d.
  repeat match goal with H : NoDup (_ :: _) |- _ => let H1 := fresh in let H2 := fresh in inversion H as [|? ? H1 H2]; clear H; subst; cbn [In] in H1 end.
  destruct (pool_is x z f height khs kh height2 mh Hi Hkh Hh) as [p [-> Hp]]; try (apply without_none; now left). { intros ->; tauto. } cbn [bind].
  change (plus (plus (without z [height]) height2 mh) kh khs) with (blocks z height mh khs height2 kh) in Hp.
  assert (Hfree : forall m, m <> height2 -> m <> kh -> m <> height -> blocks z height mh khs height2 kh m = z m).
  { intros m E1 E2 E3. unfold blocks, plus, without. cbn. destruct (Nat.eqb_spec m kh); [easy|]. destruct (Nat.eqb_spec m height2); [easy|]. now destruct (Nat.eqb_spec m height). }
  destruct (pool_is p _ _ width kws kw width2 mw Hp Hkw) as [q [-> Hq]].
  { rewrite Hfree; [exact Hw| | |]; intros ->; tauto. }
  { apply without_none. left. rewrite Hfree; [exact Hw2| | |]; intros ->; tauto. }
  { apply without_none. left. rewrite Hfree; [exact Hkwn| | |]; intros ->; tauto. }
  { intros ->; tauto. }
  cbn [bind]. change (plus (plus _ width2 mw) kw kws) with z' in Hq.
  assert (Hq2 : is q z' (fun e => f (upd (upd e width (e width2 * kws + e kw)) height (e height2 * khs + e kh)))).
  { eapply is_ext; [exact Hq|reflexivity|]. intros e. cbn beta. rewrite !upd_ne; [reflexivity| |]; intros ->; tauto. }
  apply (max_keeps [kh; kw] _ _ _ Hq2). { apply NoDup2. intros ->; tauto. }
  rewrite (count2 _ _ khs _ kws). { lia. }
  - unfold z', blocks at 1. unfold plus at 1, plus at 1. destruct (Nat.eqb_spec kh kw); [subst; tauto|]. destruct (Nat.eqb_spec kh width2); [subst; tauto|].
    unfold without at 1. cbn [existsb]. destruct (Nat.eqb_spec kh width); [subst; tauto|]. cbn. unfold blocks, plus. now rewrite Nat.eqb_refl.
  - unfold z', blocks at 1. unfold plus at 1. now rewrite Nat.eqb_refl.
Qed.

(** A convolution of the result of max-pooling fails *)
Lemma conv_of_max : forall p W b chans k kernel seq seq2, shape p = [1] -> size W kernel = Some k -> k <> 1 -> Conv1d p W b chans k kernel seq seq2 = None.
Proof.
  intros p W b chans k kernel seq seq2 Hsh HW Hk. unfold Conv1d.
  destruct (Unroll p seq k kernel seq2) as [u|] eqn:E; [|reflexivity]. cbn [bind].
  assert (Hu : size u kernel = Some 1).
  { unfold Unroll in E. cbn in E. unfold bind1 in E. destruct (size p seq) as [n|]; [|easy]. cbn [bind] in E. unfold unfold0 in E. cbn [shape] in E. destruct (k <=? n); [|easy]. cbn [bind] in E. rewrite Hsh in E. cbn [app] in E.
    unfold name2 in E. unfold name1 at 1 in E. cbn [shape] in E. match type of E with bind (if ?c then _ else _) _ = _ => destruct c; [|easy] end. cbn [bind] in E. unfold name1 in E. cbn [shape] in E.
    match type of E with (if ?c then _ else _) = _ => destruct c; [|easy] end. injection E as <-. unfold size. cbn. now rewrite Nat.eqb_refl. }
  assert (Ha : agrees W u = false).
  { destruct (agrees W u) eqn:Ea; [|reflexivity]. exfalso. unfold agrees in Ea. rewrite forallb_forall in Ea. destruct (lookup_in kernel (dims W)) as [s Hs]; [unfold size in HW; congruence|].
    specialize (Ea _ Hs). cbn in Ea. rewrite HW, Hu in Ea. apply Nat.eqb_eq in Ea. easy. }
  unfold zip. now rewrite Ha.
Qed.

(** ** Means and variances *)
Lemma mean_local : forall z l f, local z f -> local (without z l) (mean z l f).
Proof. intros z l f H. exact (local_comp _ _ (fun x => (x / INR (count z l))%R) (Sigma_local z l f H)). Qed.
Lemma local_more : forall z l f, local (without z l) f -> local z f.
Proof. intros z l f H e e' He. apply H. intros n Hn. apply He. now apply without_some in Hn. Qed.
Lemma variance_local : forall z l f, local z f -> local (without z l) (variance z l f).
Proof.
  intros z l f H. unfold variance. apply mean_local. intros e e' He. rewrite (H e e' He). now rewrite (local_more _ _ _ (mean_local z l f H) e e' He).
Qed.
Lemma mean_is : forall X z f ax n, is X z f -> z ax = Some n -> exists u, Mean X ax = Some u /\ is u (without z [ax]) (mean z [ax] f).
Proof.
  intros X z f ax n Hi Hz. unfold Mean. destruct (sum_is [ax] _ _ _ Hi (NoDup1 _)) as [s [-> Hs]]. cbn [bind]. rewrite (is_axes _ _ _ Hi), Hz. cbn [bind]. eexists. split; [reflexivity|].
  eapply is_ext; [exact (map1_is (fun v => (v / INR n)%R) _ _ _ Hs)|reflexivity|]. intros e. unfold mean. now rewrite (count1 _ _ _ Hz).
Qed.
Lemma mean2_is : forall X z f ax ay n m, is X z f -> ax <> ay -> z ax = Some n -> z ay = Some m -> exists u, Mean2 X ax ay = Some u /\ is u (without z [ax; ay]) (mean z [ax; ay] f).
Proof.
  intros X z f ax ay n m Hi Hne Hz Hy. unfold Mean2. destruct (sum_is [ax; ay] _ _ _ Hi (NoDup2 _ _ Hne)) as [s [-> Hs]]. cbn [bind]. rewrite !(is_axes _ _ _ Hi), Hz, Hy. cbn [bind]. eexists. split; [reflexivity|].
  eapply is_ext; [exact (map1_is (fun v => (v / INR (n * m))%R) _ _ _ Hs)|reflexivity|]. intros e. unfold mean. now rewrite (count2 _ _ _ _ _ Hz Hy).
Qed.
Lemma join_without : forall z l n, join z (without z l) n = z n.
Proof. intros z l n. unfold join, without. destruct (z n); [reflexivity|]. now destruct (existsb _ l). Qed.
Lemma compatible_without : forall z l, compatible z (without z l).
Proof. intros z l m s s' H1 H2. unfold without in H2. destruct (existsb _ _); [easy|]. congruence. Qed.
Lemma centred_is : forall X z f l u, is X z f -> is u (without z l) (mean z l f) -> exists d, zip Rminus X u = Some d /\ is (square d) z (fun e => (f e - mean z l f e) * (f e - mean z l f e))%R.
Proof.
  intros X z f l u Hi Hu. destruct (zip_is Rminus _ _ _ _ _ _ Hi Hu (compatible_without z l)) as [d [-> Hd]]. exists d. split; [reflexivity|].
  eapply is_ext; [exact (map1_is (fun v => (v * v)%R) _ _ _ Hd)|apply join_without|reflexivity].
Qed.
Lemma variance_is : forall X z f ax n, is X z f -> z ax = Some n -> exists u, Variance X ax = Some u /\ is u (without z [ax]) (variance z [ax] f).
Proof.
  intros X z f ax n Hi Hz. unfold Variance. destruct (mean_is _ _ _ _ _ Hi Hz) as [m [-> Hm]]. cbn [bind]. destruct (centred_is _ _ _ _ _ Hi Hm) as [d [-> Hd]]. cbn [bind]. exact (mean_is _ _ _ _ _ Hd Hz).
Qed.
Lemma variance2_is : forall X z f ax ay n m, is X z f -> ax <> ay -> z ax = Some n -> z ay = Some m -> exists u, Variance2 X ax ay = Some u /\ is u (without z [ax; ay]) (variance z [ax; ay] f).
Proof.
  intros X z f ax ay n m Hi Hne Hz Hy. unfold Variance2. destruct (mean2_is _ _ _ _ _ _ _ Hi Hne Hz Hy) as [mm [-> Hm]]. cbn [bind]. destruct (centred_is _ _ _ _ _ Hi Hm) as [d [-> Hd]]. cbn [bind]. exact (mean2_is _ _ _ _ _ _ _ Hd Hne Hz Hy).
Qed.

(** ** Standardization *)
Lemma join_plus : forall z w n s m, (forall m, w m <> None -> z m = w m) -> join (plus z n s) w m = plus z n s m.
Proof. intros z w n s m H. unfold join, plus. destruct (m =? n); [reflexivity|]. destruct (z m) eqn:E; [reflexivity|]. destruct (w m) eqn:Ew; [|reflexivity]. rewrite H in E; congruence. Qed.
Lemma absorb : forall (y w : axes), (forall m, w m <> None -> y m = w m) -> compatible y w /\ forall m, join y w m = y m.
Proof.
  intros y w H. split.
  - intros n s s' H1 H2. rewrite H in H1; congruence.
  - intros m. unfold join. destruct (y m) eqn:E; [reflexivity|]. destruct (w m) eqn:Ew; [|reflexivity]. rewrite H in E; congruence.
Qed.
Lemma normal_is : forall eps (z : axes) l y m v (z' : axes) f' f, is y z' f' -> is m (without z l) (mean z l f) -> is v (without z l) (variance z l f) -> (forall n, without z l n <> None -> z' n = without z l n) ->
  exists u, bind (zip Rminus y m) (fun d => zip Rdiv d (deviation eps v)) = Some u /\ is u z' (fun e => (f' e - mean z l f e) / sqrt (variance z l f e + eps))%R.
Proof.
  intros eps z l y m v z' f' f Hy Hm Hv Hw. destruct (absorb _ _ Hw) as [Hc Hj].
  destruct (zip_is Rminus _ _ _ _ _ _ Hy Hm Hc) as [d [-> Hd]]. cbn [bind].
  assert (Hd' : is d z' (fun e => f' e - mean z l f e)%R) by (eapply is_ext; [exact Hd|exact Hj|reflexivity]).
  eapply is_ex; [apply (zip_is Rdiv _ _ _ _ _ _ Hd' (map1_is (fun x => sqrt (x + eps)) _ _ _ Hv) Hc)|exact Hj|reflexivity].
Qed.
Lemma bind_swap {A B C} : forall (a : option A) (b : option B) (f : A -> B -> option C) x y, a = Some x -> b = Some y -> bind a (fun x => bind b (fun y => f x y)) = f x y.
Proof. intros a b f x y -> ->. reflexivity. Qed.
Lemma standardize_is : forall eps X z f ax new n, is X z f -> z ax = Some n -> without z [ax] new = None ->
  exists y, Standardize eps X ax new = Some y /\ is y (plus (without z [ax]) new n) (fun e => standard eps z [ax] f (upd e ax (e new))).
Proof.
  intros eps X z f ax new n Hi Hz Hn. unfold Standardize. destruct (rename1_is X z f ax new n Hi Hz Hn) as [y [-> Hy]]. cbn [bind].
  destruct (mean_is _ _ _ _ _ Hi Hz) as [m [-> Hm]]. cbn [bind]. destruct (variance_is _ _ _ _ _ Hi Hz) as [v [-> Hv]].
  assert (Hw : forall k, without z [ax] k <> None -> plus (without z [ax]) new n k = without z [ax] k). { intros k Hk. unfold plus. destruct (Nat.eqb_spec k new) as [-> | H]; [congruence|reflexivity]. }
  eapply is_ex; [exact (normal_is eps z [ax] y m v _ _ f Hy Hm Hv Hw)|reflexivity|]. intros e. cbn beta. unfold standard.
  rewrite (off z [ax] (mean z [ax] f) e ax) by (try apply mean_local; try exact (is_local _ _ _ Hi); now left). now rewrite (off z [ax] (variance z [ax] f) e ax) by (try apply variance_local; try exact (is_local _ _ _ Hi); now left).
Qed.
Lemma renamed2 : forall ax nx ay ny n, renamed [(ax, nx); (ay, ny)] n = if n =? ax then nx else if n =? ay then ny else n.
Proof. intros. cbn. now rewrite (Nat.eqb_sym ax), (Nat.eqb_sym ay). Qed.
Lemma rename2_is : forall t z f ax ay nx ny n m, is t z f -> ax <> ay -> nx <> ny -> z ax = Some n -> z ay = Some m -> without z [ax; ay] nx = None -> without z [ax; ay] ny = None ->
  exists u, rename t [(ax, nx); (ay, ny)] = Some u /\ is u (plus (plus (without z [ax; ay]) nx n) ny m) (fun e => f (upd (upd e ax (e nx)) ay (e ny))).
Proof.
  intros t z f ax ay nx ny n m Hi Hne Hnn Hz Hy Hnx Hny. eapply is_ex; [eapply (rename_is _ _ _ _ (plus (plus (without z [ax; ay]) nx n) ny m) Hi)| |].
  - intros k Hk. rewrite renamed2. unfold plus. destruct (Nat.eqb_spec k ax) as [-> | H1].
    + destruct (Nat.eqb_spec nx ny); [easy|]. now rewrite Nat.eqb_refl.
    + destruct (Nat.eqb_spec k ay) as [-> | H2]; [now rewrite Nat.eqb_refl|].
      assert (Hk2 : without z [ax; ay] k <> None) by (apply without_some; split; [exact Hk|cbn; intuition congruence]).
      destruct (Nat.eqb_spec k ny); [congruence|]. destruct (Nat.eqb_spec k nx); [congruence|]. unfold without. cbn. destruct (Nat.eqb_spec k ax); [easy|]. now destruct (Nat.eqb_spec k ay).
  - intros k. unfold plus. destruct (Nat.eqb_spec k ny) as [-> | H1]; intros Hk.
    + exists ay. split; [congruence|]. rewrite renamed2, Nat.eqb_refl. destruct (Nat.eqb_spec ay ax); congruence.
    + destruct (Nat.eqb_spec k nx) as [-> | H2].
      * exists ax. split; [congruence|]. now rewrite renamed2, Nat.eqb_refl.
      * apply without_some in Hk as [Hk Hin]. exists k. split; [exact Hk|]. rewrite renamed2. cbn in Hin. destruct (Nat.eqb_spec k ax); [intuition congruence|]. destruct (Nat.eqb_spec k ay); [intuition congruence|reflexivity].
  - reflexivity.
  - intros e. apply (is_local _ _ _ Hi). intros k _. rewrite renamed2. unfold upd. destruct (Nat.eqb_spec k ax) as [-> | H1]; [|now destruct (k =? ay)]. destruct (Nat.eqb_spec ax ay); [easy|reflexivity].
Qed.
Lemma standardize2_is : forall eps X z f ax ay nx ny n m, is X z f -> ax <> ay -> nx <> ny -> z ax = Some n -> z ay = Some m -> without z [ax; ay] nx = None -> without z [ax; ay] ny = None ->
  exists y, Standardize2 eps X ax ay nx ny = Some y /\ is y (plus (plus (without z [ax; ay]) nx n) ny m) (fun e => standard eps z [ax; ay] f (upd (upd e ax (e nx)) ay (e ny))).
Proof.
  intros eps X z f ax ay nx ny n m Hi Hne Hnn Hz Hy Hnx Hny. unfold Standardize2. destruct (rename2_is X z f ax ay nx ny n m Hi Hne Hnn Hz Hy Hnx Hny) as [y [-> Hyi]]. cbn [bind].
  destruct (mean2_is _ _ _ _ _ _ _ Hi Hne Hz Hy) as [mm [-> Hm]]. cbn [bind]. destruct (variance2_is _ _ _ _ _ _ _ Hi Hne Hz Hy) as [v [-> Hv]].
  assert (Hw : forall k, without z [ax; ay] k <> None -> plus (plus (without z [ax; ay]) nx n) ny m k = without z [ax; ay] k).
  { intros k Hk. unfold plus. destruct (Nat.eqb_spec k ny) as [-> | H]; [congruence|]. destruct (Nat.eqb_spec k nx) as [-> | H']; [congruence|reflexivity]. }
  eapply is_ex; [exact (normal_is eps z [ax; ay] y mm v _ _ f Hyi Hm Hv Hw)|reflexivity|]. intros e. cbn beta. unfold standard.
  assert (Lm := mean_local z [ax; ay] f (is_local _ _ _ Hi)). assert (Lv := variance_local z [ax; ay] f (is_local _ _ _ Hi)).
  rewrite !(off z [ax; ay] _ _ ay _ Lm), !(off z [ax; ay] _ _ ax _ Lm), !(off z [ax; ay] _ _ ay _ Lv), !(off z [ax; ay] _ _ ax _ Lv); cbn; tauto.
Qed.
Lemma affine_is : forall S s gamma beta z zg zb f g b, sized S z -> sized S zg -> sized S zb -> is s z f -> is gamma zg g -> is beta zb b ->
  exists y, bind (zip Rmult s gamma) (fun p => zip Rplus p beta) = Some y /\ is y (join (join z zg) zb) (fun e => f e * g e + b e)%R.
Proof.
  intros S s gamma beta z zg zb f g b Sz Sg Sb Hs Hg Hb. destruct (zip_is Rmult _ _ _ _ _ _ Hs Hg (sized_compatible _ _ _ Sz Sg)) as [p [-> Hp]]. cbn [bind].
  apply (zip_is Rplus _ _ _ _ _ _ Hp Hb). apply sized_compatible with S; [now apply sized_join|exact Sb].
Qed.
Lemma instancenorm_is : forall S eps X gamma beta layer layer2 z zg zb f g b n, sized S z -> sized S zg -> sized S zb -> is X z f -> is gamma zg g -> is beta zb b ->
  z layer = Some n -> without z [layer] layer2 = None -> S layer2 = n ->
  exists y, InstanceNorm eps X gamma beta layer layer2 = Some y
    /\ is y (join (join (plus (without z [layer]) layer2 n) zg) zb) (fun e => standard eps z [layer] f (upd e layer (e layer2)) * g e + b e)%R.
Proof.
  intros S eps X gamma beta layer layer2 z zg zb f g b n Sz Sg Sb HX Hg Hb Hz Hn HS. unfold InstanceNorm. destruct (standardize_is eps _ _ _ _ layer2 _ HX Hz Hn) as [s [-> Hs]]. cbn [bind].
  assert (S1 : sized S (plus (without z [layer]) layer2 n)) by (apply sized_plus; [now apply sized_without|now symmetry]).
  exact (affine_is S _ _ _ _ _ _ _ _ _ S1 Sg Sb Hs Hg Hb).
Qed.
Lemma batchnorm_is : forall S eps X gamma beta ax ay nx ny z zg zb f g b n m, sized S z -> sized S zg -> sized S zb -> is X z f -> is gamma zg g -> is beta zb b ->
  ax <> ay -> nx <> ny -> z ax = Some n -> z ay = Some m -> without z [ax; ay] nx = None -> without z [ax; ay] ny = None -> S nx = n -> S ny = m ->
  exists y, BatchNorm eps X gamma beta ax ay nx ny = Some y
    /\ is y (join (join (plus (plus (without z [ax; ay]) nx n) ny m) zg) zb) (fun e => standard eps z [ax; ay] f (upd (upd e ax (e nx)) ay (e ny)) * g e + b e)%R.
Proof.
  intros S eps X gamma beta ax ay nx ny z zg zb f g b n m Sz Sg Sb HX Hg Hb Hne Hnn Hz Hy Hnx Hny HSx HSy. unfold BatchNorm.
  destruct (standardize2_is eps _ _ _ _ _ nx ny _ _ HX Hne Hnn Hz Hy Hnx Hny) as [s [-> Hs]]. cbn [bind].
  assert (S1 : sized S (plus (plus (without z [ax; ay]) nx n) ny m)) by (apply sized_plus; [apply sized_plus; [now apply sized_without|now symmetry]|now symmetry]).
  exact (affine_is S _ _ _ _ _ _ _ _ _ S1 Sg Sb Hs Hg Hb).
Qed.
Lemma layernorm_batch : forall eps X gamma beta ax ay nx ny, LayerNorm eps X gamma beta ax ay nx ny = BatchNorm eps X gamma beta ax ay nx ny.
Proof. reflexivity. Qed.

(** Standardized entries have the mean zero *)
Lemma sum_shift : forall l (M D : R), fold_right Rplus 0%R (map (fun x => ((x - M) / D)%R) l) = ((fold_right Rplus 0 l - INR (length l) * M) / D)%R.
Proof. intros l M D. induction l as [|x l IH]; [cbn; unfold Rdiv; lra|]. cbn [map fold_right length]. rewrite IH, S_INR. unfold Rdiv. lra. Qed.
Lemma positions_off : forall l e p n, In p (positions l e) -> ~ In n (map fst l) -> p n = e n.
Proof.
  induction l as [|[k s] l IH]; intros e p n Hp Hn; cbn in *.
  - destruct Hp as [-> | []]. reflexivity.
  - apply in_flat_map in Hp as [i [_ Hp]]. rewrite (IH _ _ n Hp) by tauto. apply upd_ne. intuition congruence.
Qed.
Lemma along_off : forall z l f e p, local (without z l) f -> In p (positions (along z l) e) -> f p = f e.
Proof. intros z l f e p H Hp. apply H. intros n Hn. apply (positions_off _ _ _ _ Hp). intros Hin. apply along_in in Hin. apply without_some in Hn. tauto. Qed.
Lemma standard_mean : forall eps z l f e, local z f -> 0 < count z l -> mean z l (standard eps z l f) e = 0%R.
Proof.
  intros eps z l f e Hl Hc. unfold mean at 1. unfold Sigma.
  transitivity (fold_right Rplus 0%R (map (fun x => ((x - mean z l f e) / sqrt (variance z l f e + eps))%R) (map f (positions (along z l) e))) / INR (count z l))%R.
  - f_equal. f_equal. rewrite map_map. apply map_ext_in. intros p Hp. unfold standard. rewrite (along_off z l (mean z l f) e p) by (try apply mean_local; assumption). now rewrite (along_off z l (variance z l f) e p) by (try apply variance_local; assumption).
  - rewrite sum_shift, map_length, positions_length. change (fold_right (fun p n => snd p * n) 1 (along z l)) with (count z l). unfold mean. change (fold_right Rplus 0%R (map f (positions (along z l) e))) with (Sigma z l f e).
    replace (Sigma z l f e - INR (count z l) * (Sigma z l f e / INR (count z l)))%R with 0%R; [unfold Rdiv; lra|]. field. apply not_0_INR. lia.
Qed.

(** ** Statements *)
Lemma softmax_full : forall x z f ax ax2 n, is x z f -> z ax = Some n -> 0 < n -> without z [ax] ax2 = None ->
  exists y, Softmax x ax ax2 = Some y
    /\ is y (plus (without z [ax]) ax2 n) (fun e => softmax z [ax] f (upd e ax (e ax2)))
    /\ (forall e, (0 < val y e [])%R) /\ forall e, Sigma (plus (without z [ax]) ax2 n) [ax2] (fun e => val y e []) e = 1%R.
Proof.
  intros x z f ax ax2 n Hi Hz Hpos Hn. destruct (softmax_is x z f ax ax2 n Hi Hz Hpos Hn) as [y [Hy Hyi]]. exists y. split; [exact Hy|]. split; [exact Hyi|]. split.
  - intros e. rewrite (is_val _ _ _ Hyi). apply Rdiv_lt_0_compat; [apply exp_pos|]. apply Sigma_exp_pos. now rewrite (count1 _ _ _ Hz).
  - intros e. rewrite <- (softmax_sums z f ax ax2 n e (is_local _ _ _ Hi) Hz Hpos Hn). unfold Sigma at 1 2. f_equal. apply map_ext. apply (is_val _ _ _ Hyi).
Qed.
Lemma standardize_full : forall eps X z f ax new n, is X z f -> z ax = Some n -> 0 < n -> without z [ax] new = None ->
  exists y, Standardize eps X ax new = Some y
    /\ is y (plus (without z [ax]) new n) (fun e => standard eps z [ax] f (upd e ax (e new)))
    /\ forall e, mean (plus (without z [ax]) new n) [new] (fun e => val y e []) e = 0%R.
Proof.
  intros eps X z f ax new n Hi Hz Hpos Hn. destruct (standardize_is eps X z f ax new n Hi Hz Hn) as [y [Hy Hyi]]. exists y. split; [exact Hy|]. split; [exact Hyi|].
  intros e. assert (Hl := is_local _ _ _ Hi). rewrite <- (standard_mean eps z [ax] f e Hl) by now rewrite (count1 _ _ _ Hz).
  assert (Ls : local z (standard eps z [ax] f)).
  { intros e1 e2 He. unfold standard. rewrite (Hl e1 e2 He). rewrite (local_more _ _ _ (mean_local z [ax] f Hl) e1 e2 He). now rewrite (local_more _ _ _ (variance_local z [ax] f Hl) e1 e2 He). }
  unfold mean at 1 2. f_equal.
  - unfold Sigma. rewrite <- (positions_renamed z _ ax new n e Ls Hz Hn). f_equal. apply map_ext. apply (is_val _ _ _ Hyi).
  - rewrite (count1 _ _ _ Hz). now rewrite (count1 _ _ n) by (unfold plus; now rewrite Nat.eqb_refl).
Qed.
Lemma Sigma_ext : forall z z' l f g e, (forall n, z n = z' n) -> (forall e, f e = g e) -> Sigma z l f e = Sigma z' l g e.
Proof. intros z z' l f g e Hz Hf. unfold Sigma. rewrite (along_ext _ _ l Hz). f_equal. now apply map_ext. Qed.
Lemma attention_same : forall S Q K V M key seq zQ zK zV zM q k v m nk n, sized S zQ -> sized S zK -> sized S zV -> sized S zM ->
  is Q zQ q -> is K zK k -> is V zV v -> is M zM m -> zQ key = Some nk ->
  let zx := join (without (join zQ zK) [key]) zM in
  zx seq = Some n -> 0 < n ->
  exists y, Attention Q K V M key seq seq = Some y
    /\ is y (without (join zx zV) [seq]) (Sigma (join zx zV) [seq] (fun e => (softmax zx [seq] (score zQ zK key (INR nk) q k m) e * v e)%R)).
Proof.
  intros S Q K V M key seq zQ zK zV zM q k v m nk n SQ SK SV SM HQ HK HV HM Hkey zx Hzx Hn.
  assert (Szx : sized S zx) by (apply sized_join; [apply sized_without, sized_join|]; assumption).
  assert (Hz : forall i, join (plus (without zx [seq]) seq n) zV i = join zx zV i).
  { intros i. unfold join at 1. unfold plus, without. cbn. destruct (Nat.eqb_spec i seq) as [-> | Hi]; cbn; [unfold join at 1; now rewrite Hzx|reflexivity]. }
  eapply is_ex; [eapply (attention_is S Q K V M key seq seq zQ zK zV zM q k v m nk n); try eassumption| |].
  - apply without_none. right. now left.
  - symmetry. now apply Szx.
  - intros i. unfold without at 1. now rewrite Hz.
  - intros e. apply Sigma_ext; [exact Hz|]. intros p. f_equal.
    assert (L : local zx (score zQ zK key (INR nk) q k m)).
    { unfold score. intros e1 e2 He. f_equal; [f_equal|].
      - apply (Sigma_local (join zQ zK) [key]).
        + intros a b Hab. rewrite (is_local _ _ _ HQ a b), (is_local _ _ _ HK a b); [reflexivity| |]; intros i Hi; apply Hab; unfold join; destruct (zQ i); easy.
        + intros i Hi. apply He. unfold zx, join at 1. now destruct (without (join zQ zK) [key] i).
      - apply (is_local _ _ _ HM). intros i Hi. apply He. unfold zx, join at 1. now destruct (without (join zQ zK) [key] i). }
    unfold softmax. f_equal.
    + f_equal. apply L. intros i _. unfold upd. now destruct (Nat.eqb_spec i seq) as [-> | H].
    + apply (off zx [seq]); [|now left]. apply Sigma_local. now apply local_comp.
Qed.
Lemma layernorm_same : forall S eps X gamma beta ax ay z zg zb f g b n m, sized S z -> sized S zg -> sized S zb -> is X z f -> is gamma zg g -> is beta zb b -> ax <> ay -> z ax = Some n -> z ay = Some m ->
  exists y, LayerNorm eps X gamma beta ax ay ax ay = Some y /\ is y (join (join z zg) zb) (fun e => standard eps z [ax; ay] f e * g e + b e)%R.
Proof.
  intros S eps X gamma beta ax ay z zg zb f g b n m Sz Sg Sb HX Hg Hb Hne Hz Hy.
  eapply is_ex; [eapply (batchnorm_is S eps X gamma beta ax ay ax ay z zg zb f g b n m); try eassumption| |].
  - apply without_none. right. now left.
  - apply without_none. right. right. now left.
  - symmetry. now apply Sz.
  - symmetry. now apply Sz.
  - intros i. unfold join. unfold plus, without. cbn. destruct (Nat.eqb_spec i ay) as [-> | Hi]; [now rewrite Hy|]. destruct (Nat.eqb_spec i ax) as [-> | Hi']; [now rewrite Hz|]. reflexivity.
  - intros e. cbn beta. f_equal. f_equal. assert (Hl := is_local _ _ _ HX). unfold standard.
    assert (Lm := mean_local z [ax; ay] f Hl). assert (Lv := variance_local z [ax; ay] f Hl).
    rewrite !(off z [ax; ay] _ _ ay _ Lm), !(off z [ax; ay] _ _ ax _ Lm), !(off z [ax; ay] _ _ ay _ Lv), !(off z [ax; ay] _ _ ax _ Lv) by (cbn; tauto).
    f_equal. f_equal. apply Hl. intros i _. unfold upd. destruct (Nat.eqb_spec i ay) as [-> | H]; [reflexivity|]. now destruct (Nat.eqb_spec i ax) as [-> | H'].
Qed.
Lemma pool_error : forall x z f seq k kernel seq2 n, is x z f -> z seq = Some n -> without z [seq] seq2 = None -> without z [seq] kernel = None -> kernel <> seq2 ->
  (Pool x seq k kernel seq2 = None <-> k = 0 \/ n mod k <> 0).
Proof.
  intros x z f seq k kernel seq2 n Hi Hz H2 H3 Hne. split; [|now apply (pool_none x z f)]. intros H.
  destruct (Nat.eq_dec k 0) as [H0 | H0]; [now left|]. destruct (Nat.eq_dec (n mod k) 0) as [Hm | Hm]; [|now right]. exfalso.
  destruct (pool_is x z f seq k kernel seq2 (n / k) Hi) as [y [Hy _]]; try easy; [lia| |congruence].
  rewrite Hz. f_equal. rewrite (Nat.div_mod n k H0) at 1. lia.
Qed.
Lemma unroll_error : forall x z f seq k kernel seq2 n, is x z f -> z seq = Some n -> without z [seq] seq2 = None -> without z [seq] kernel = None -> kernel <> seq2 ->
  (Unroll x seq k kernel seq2 = None <-> n < k).
Proof.
  intros x z f seq k kernel seq2 n Hi Hz H2 H3 Hne. split; [|now apply (unroll_none x z f)]. intros H. destruct (Nat.lt_ge_cases n k) as [Hk | Hk]; [exact Hk|]. exfalso.
  destruct (unroll_is x z f seq k kernel seq2 n Hi Hz Hk H2 H3 Hne) as [y [Hy _]]. congruence.
Qed.
Lemma reduce_all : forall ns t, NoDup ns -> (exists n, In n ns /\ size t n <> None) ->
  (exists u, reduce ns t Sum = Some u /\ (forall m, size u m = without (size t) ns m) /\ shape u = shape t /\ forall e js, val u e js = Sigma (size t) ns (fun e => val t e js) e)
  /\ (exists u, reduce ns t Prod = Some u /\ (forall m, size u m = without (size t) ns m) /\ shape u = shape t /\ forall e js, val u e js = fold_right Rmult 1%R (map (fun e => val t e js) (positions (along (size t) ns) e)))
  /\ (0 < count (size t) ns -> exists u, reduce ns t Amax = Some u /\ (forall m, size u m = without (size t) ns m) /\ shape u = shape t /\ forall e js, Largest (size t) ns (fun e => val t e js) e (val u e js)).
Proof.
  intros ns t Hd Hp. split; [|split].
  - exact (reduce_some ns t Sum Hd Hp ltac:(easy) eq_refl).
  - exact (reduce_some ns t Prod Hd Hp ltac:(easy) eq_refl).
  - intros Hc. destruct (reduce_some ns t Amax Hd Hp) as [u (Hu & Hz & Hs & Hv)]; [easy|cbn [defined]; destruct (count (size t) ns); [lia|reflexivity]|]. exists u. split; [exact Hu|]. split; [exact Hz|]. split; [exact Hs|].
    intros e js. rewrite Hv. apply maximum_spec. intros E. apply map_eq_nil in E. revert E. now apply positions_ne.
Qed.

(** * Broadcasting *)
Lemma cast_rev_law : forall a b s, cast_rev a b = Some s -> length s = Nat.max (length a) (length b) /\
  forall i, nth i s 1 = (if nth i a 1 =? 1 then nth i b 1 else nth i a 1) /\ (nth i a 1 = nth i b 1 \/ nth i a 1 = 1 \/ nth i b 1 = 1).
Proof.
  induction a as [|x a IH]; intros b s H; cbn [cast_rev] in H.
  - injection H as <-. split; [reflexivity|]. intros i. destruct i; cbn; auto.
  - destruct b as [|y b].
    + injection H as <-. split; [cbn; lia|]. intros i. destruct i; cbn [nth].
      * destruct (Nat.eqb_spec x 1); auto.
      * destruct (Nat.eqb_spec (nth i a 1) 1); auto.
    + assert (Q : exists d r, s = d :: r /\ cast_rev a b = Some r /\ d = (if x =? 1 then y else x) /\ (x = y \/ x = 1 \/ y = 1)).
      { destruct (Nat.eqb_spec x y) as [E|N]; cbn [orb] in H.
        - destruct (cast_rev a b) as [r|]; [|discriminate]. injection H as <-. exists x, r. repeat split; auto. subst y. destruct (x =? 1); reflexivity.
        - destruct (Nat.eqb_spec y 1) as [E'|N'].
          + destruct (cast_rev a b) as [r|]; [|discriminate]. injection H as <-. exists x, r. repeat split; auto.
            destruct (Nat.eqb_spec x 1); [lia|reflexivity].
          + destruct (Nat.eqb_spec x 1) as [E1|N1]; [|discriminate]. destruct (cast_rev a b) as [r|]; [|discriminate]. injection H as <-.
            exists y, r. repeat split; auto. }
      destruct Q as (d & r & -> & Hr & -> & C). destruct (IH b r Hr) as [L P]. split; [cbn; lia|].
      intros [|i]; cbn [nth]; [split; [reflexivity|exact C]|apply P].
Qed.
Lemma cast_rev_total : forall a b, (forall i, nth i a 1 = nth i b 1 \/ nth i a 1 = 1 \/ nth i b 1 = 1) -> exists s, cast_rev a b = Some s.
Proof.
  induction a as [|x a IH]; intros b H; [now eexists|]. destruct b as [|y b]; [now eexists|].
  destruct (IH b (fun i => H (S i))) as [r Hr]. cbn [cast_rev]. rewrite Hr.
  specialize (H 0). cbn in H. destruct (Nat.eqb_spec x y); cbn [orb]; [now eexists|].
  destruct (Nat.eqb_spec y 1); [now eexists|]. destruct (Nat.eqb_spec x 1); [now eexists|]. lia.
Qed.
Lemma zip_shape : forall g a b u, zip g a b = Some u -> length (shape u) = Nat.max (length (shape a)) (length (shape b)) /\
  forall i, from_right (shape u) i = (if from_right (shape a) i =? 1 then from_right (shape b) i else from_right (shape a) i).
Proof.
  intros g a b u H. unfold zip in H. destruct (agrees a b); [|discriminate]. unfold cast in H.
  destruct (cast_rev (rev (shape a)) (rev (shape b))) as [s|] eqn:E; [|discriminate]. injection H as <-. cbn [shape].
  destruct (cast_rev_law _ _ _ E) as [L P]. rewrite !rev_length in L. rewrite rev_length. split; [exact L|].
  intros i. unfold from_right. rewrite rev_involutive. apply P.
Qed.
Lemma zip_defined : forall g a b, (exists u, zip g a b = Some u) <->
  agrees a b = true /\ forall i, from_right (shape a) i = from_right (shape b) i \/ from_right (shape a) i = 1 \/ from_right (shape b) i = 1.
Proof.
  intros g a b. unfold zip, from_right. split.
  - intros [u H]. destruct (agrees a b); [|discriminate]. unfold cast in H. destruct (cast_rev (rev (shape a)) (rev (shape b))) as [s|] eqn:E; [|discriminate].
    split; [reflexivity|]. intros i. apply (cast_rev_law _ _ _ E).
  - intros [-> H]. destruct (cast_rev_total _ _ H) as [s E]. unfold cast. rewrite E. now eexists.
Qed.
