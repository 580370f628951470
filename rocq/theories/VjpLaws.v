(** Proofs about [vjp]: the result and the gradients. *)
From Coq Require Import List Bool Arith ZArith Lia.
From Verif Require Import ArrModel ArrSpec ArrProofs ArrNames ArrBind ArrUnbind NopModel NopSpec NopProofs NopLaws FunModel FunSpec FunProofs FunLaws FunTrans FunExpr VjpModel VjpSpec VjpProofs.
Import ListNotations.

Section Vjp.
Variable V : Type.
Variables (zero : V) (add mul : V -> V -> V).
Variable D : V -> (V -> V) -> V.
Notation bindt := (@bind_dims_torch V).
Notation stripped := (stripped V bindt).
Notation strip := (strip V bindt).
Notation law := (deindex_law V bindt (torch_binds V)).
Definition num0 : nat -> V := fun _ => zero.
Definition here_same (v w : val V) : Prop := forall rho, same (leaf_at V rho v) (leaf_at V rho w).

Lemma strip_prefix vs ms ys : Forall (good V) vs -> strip vs ms ys -> Forall2 (fun m y => prefixed V 0 (map snd m) y) ms ys.
Proof.
  intros G S. revert G. induction S as [|v m a vs ms ys [Em Hd] S IH]; intros G; constructor; apply Forall_cons_iff in G.
  - apply (law v m a (proj2 (proj1 G)) Em Hd).
  - apply IH, G.
Qed.
Lemma repack_good ms ps ws : Forall2 (fun m y => prefixed V 0 (map snd m) y) ms ps -> repack V (map (map fst) ms) ps = Ok ws -> Forall (good V) ws.
Proof.
  intros F H. apply repack_spec in H. revert ws H. induction F as [|m p ms ps P F IH]; intros ws H; cbn [map combine] in H; inversion H as [|? w ? ws' H1 H2]; subst; constructor; [|apply IH; exact H2].
  cbn [fst snd] in H1. eapply (index_good V p (map fst m) w (map snd m) P); [rewrite !map_length; reflexivity|exact H1].
Qed.
Lemma repack_back vs ms ys ws : Forall (good V) vs -> strip vs ms ys -> repack V (map (map fst) ms) ys = Ok ws -> Forall2 here_same ws vs.
Proof.
  intros G S H. apply repack_spec in H. revert ws G H. induction S as [|v m a vs ms ys Sv S IH]; intros ws G H; cbn [map combine] in H; inversion H as [|? w ? ws' H1 H2]; subst; constructor; apply Forall_cons_iff in G.
  - intros rho. apply (back V num0 bindt (torch_binds V) v m a w (proj2 (proj1 G)) Sv H1).
  - apply IH; [apply G|exact H2].
Qed.
Lemma repack_set env i t : forall vs ms ys, strip vs ms ys -> forall k v m y x ws, Forall (good V) vs -> nth_error vs k = Some v -> nth_error ms k = Some m -> nth_error ys k = Some y ->
  leaf_at V env v = Some x -> within (shape x) i -> repack V (map (map fst) ms) (set_nth V k (set_elem V y (map env (map fst m) ++ i) t) ys) = Ok ws ->
  Forall2 here_same ws (change k (set_at V env i t) vs).
Proof.
  induction 1 as [|v0 m0 a0 vs ms ys Sv S IH]; intros k v m y x ws G Hv Hm Hy Hx W H; [destruct k; discriminate Hv|]. apply Forall_cons_iff in G. destruct G as [G0 G].
  destruct k as [|k]; cbn [nth_error] in Hv, Hm, Hy; cbn [set_nth change] in *.
  - injection Hv as ->. injection Hm as ->. injection Hy as ->. apply repack_spec in H. cbn [map combine] in H. inversion H as [|? w ? ws' H1 H2]; subst. constructor.
    + exact (back_set V env i t v m y w x G0 Sv Hx W H1).
    + apply (repack_back vs ms ys ws' G S). apply rmap_spec. exact H2.
  - apply repack_spec in H. cbn [map combine] in H. inversion H as [|? w ? ws' H1 H2]; subst. constructor.
    + intros rho. apply (back V num0 bindt (torch_binds V) v0 m0 a0 w (proj2 G0) Sv H1).
    + apply (IH k v m y x ws' G Hv Hm Hy Hx W). apply rmap_spec. exact H2.
Qed.
Lemma change_alike env i t vs : Forall (good V) vs -> forall k, Forall2 (alike V) vs (change k (set_at V env i t) vs).
Proof.
  induction 1 as [|v vs G F IH]; intros [|k]; cbn [change]; constructor; try (apply IH).
  - apply set_alike. exact G.
  - clear -F. induction F; constructor; [apply alike_refl; assumption|assumption].
  - apply alike_refl. exact G.
Qed.
Lemma set_nth_shape k y y0 ys : nth_error ys k = Some y0 -> same_shape y0 y -> Forall2 same_shape ys (set_nth V k y ys).
Proof.
  revert k. induction ys as [|a ys IH]; intros [|k] H E; cbn [nth_error set_nth] in *; try discriminate H.
  - injection H as ->. constructor; [exact E|]. apply same_shape_refl.
  - constructor; [reflexivity|]. apply IH; assumption.
Qed.

Lemma strip_nth vs ms ys : strip vs ms ys -> forall k v, nth_error vs k = Some v -> exists m y, nth_error ms k = Some m /\ nth_error ys k = Some y /\ stripped v m y.
Proof.
  induction 1 as [|v0 m0 a0 vs ms ys Sv S IH]; intros [|k] v Hv; try discriminate Hv; cbn [nth_error] in *; [injection Hv as <-; eauto|]. apply IH. exact Hv.
Qed.
Lemma strip_len vs ms ys : strip vs ms ys -> length vs = length ys /\ length ms = length ys.
Proof. induction 1 as [|v m a vs ms ys Sv S IH]; [auto|]. cbn [length]. lia. Qed.

(** ** The result *)
Lemma vjp_inv func primals r bk : Forall (good V) primals -> Forall (inhabited V) primals -> vjp V zero add mul D func primals = Ok (r, bk) ->
  exists ms ys ws outs, strip primals ms ys /\ repack V (map (map fst) ms) ys = Ok ws /\ func ws = Ok r /\ tmap (unpacked V) r = Ok outs /\
  bk = vjpfunc V zero add mul D func (map (map fst) ms) ys (is_node outs).
Proof.
  intros G I H. unfold vjp in H. destruct (rmap (unpack V) primals) as [ups| | | | |] eqn:Eu; try discriminate H. cbn [bindr] in H.
  destruct (unpack_all V primals ups G I Eu) as (ms & S & En). rewrite En in H. unfold wrapper in H. destruct (repack V (map (map fst) ms) (map fst ups)) as [ws| | | | |] eqn:Er; try discriminate H. cbn [bindr] in H.
  destruct (func ws) as [r'| | | | |] eqn:Ef; try discriminate H. cbn [bindr] in H. destruct (tmap (unpacked V) r') as [outs| | | | |] eqn:Et; try discriminate H. cbn [bindr fst snd] in H. injection H as <- <-.
  exists ms, (map fst ups), ws, outs. auto.
Qed.
Lemma here_at rho vs ws : Forall2 here_same vs ws -> Forall2 (fun v w => same (leaf_at V rho v) (leaf_at V rho w)) vs ws.
Proof. apply Forall2_weaken. intros v w H. apply H. Qed.
Lemma Forall2_every {A B} (R : (nat -> nat) -> A -> B -> Prop) l r : (forall rho, Forall2 (R rho) l r) -> Forall2 (fun a b => forall rho, R rho a b) l r.
Proof.
  revert r. induction l as [|a l IH]; intros r H.
  - specialize (H (fun _ => 0)). inversion H; subst. constructor.
  - destruct r as [|b r]; [specialize (H (fun _ => 0)); inversion H|]. constructor.
    + intros rho. specialize (H rho). inversion H; subst. assumption.
    + apply IH. intros rho. specialize (H rho). inversion H; subst. assumption.
Qed.
Lemma nice_everywhere func vs ws t u : nice V func -> Forall (good V) vs -> Forall (good V) ws -> Forall2 here_same vs ws -> func vs = Ok t -> func ws = Ok u ->
  is_node t = is_node u /\ Forall2 here_same (leaves t) (leaves u).
Proof.
  intros N G1 G2 F E1 E2. split.
  - apply (nice_at V func N vs ws t u (fun _ => 0) G1 G2 (here_at _ _ _ F) E1 E2).
  - apply Forall2_every. intros rho. apply (nice_at V func N vs ws t u rho G1 G2 (here_at _ _ _ F) E1 E2).
Qed.

Lemma vjp_result func primals r bk r0 : nice V func -> Forall (good V) primals -> Forall (inhabited V) primals -> vjp V zero add mul D func primals = Ok (r, bk) -> func primals = Ok r0 ->
  is_node r = is_node r0 /\ Forall2 here_same (leaves r) (leaves r0).
Proof.
  intros N G I H E0. destruct (vjp_inv func primals r bk G I H) as (ms & ys & ws & outs & S & Er & Ef & _ & _).
  apply (nice_everywhere func ws primals r r0 N); [eapply repack_good; [apply (strip_prefix primals ms ys G S)|exact Er]|exact G|apply (repack_back primals ms ys ws G S Er)|exact Ef|exact E0].
Qed.

(** ** The function on changed arguments *)
Lemma wrapped_set func primals r0 ms ys ws r outs mr env i t k v m y x :
  nice V func -> Forall (good V) primals -> strip primals ms ys -> repack V (map (map fst) ms) ys = Ok ws -> func ws = Ok r -> strip (leaves r) mr outs -> func primals = Ok r0 ->
  nth_error primals k = Some v -> nth_error ms k = Some m -> nth_error ys k = Some y -> leaf_at V env v = Some x -> within (shape x) i ->
  exists rt ru os, wrapped V func (map (map fst) ms) (set_nth V k (set_elem V y (map env (map fst m) ++ i) t) ys) = Some os /\ strip (leaves rt) mr os /\ Forall (good V) (leaves rt) /\ Forall2 same_shape outs os /\
    func (change k (set_at V env i t) primals) = Ok ru /\ Forall2 here_same (leaves rt) (leaves ru).
Proof.
  intros N G S Er Ef So E0 Hv Hm Hy Hx W. set (yt := set_elem V y (map env (map fst m) ++ i) t). set (yst := set_nth V k yt ys).
  assert (Ss : Forall2 same_shape ys yst) by (apply (set_nth_shape k yt y ys Hy); reflexivity).
  destruct (repack_like V (map (map fst) ms) ys yst ws Ss Er) as (wst & Ewt & Lk).
  pose proof (strip_prefix primals ms ys G S) as P. pose proof (repack_good ms ys ws P Er) as Gw.
  assert (Al : Forall2 (alike V) ws wst) by (clear -Lk; induction Lk; constructor; [apply like_alike; assumption|assumption]).
  pose proof (alike_goods V ws wst Al Gw) as Gwt.
  pose proof (nice_shape V func N ws wst Gw Gwt Al) as B. rewrite Ef in B. destruct (func wst) as [rt| | | | |] eqn:Eft; try contradiction. destruct B as [Bn Ba].
  pose proof (change_alike env i t primals G k) as Ac. pose proof (alike_goods V _ _ Ac G) as Gc.
  pose proof (nice_shape V func N primals _ G Gc Ac) as B'. rewrite E0 in B'. destruct (func (change k (set_at V env i t) primals)) as [ru| | | | |] eqn:Efu; try contradiction.
  pose proof (repack_set env i t primals ms ys S k v m y x wst G Hv Hm Hy Hx W Ewt) as Hs.
  destruct (nice_everywhere func wst _ rt ru N Gwt Gc Hs Eft Efu) as [_ Hh].
  pose proof (nice_good V func N ws r Gw Ef) as Gr. pose proof (nice_good V func N wst rt Gwt Eft) as Grt.
  destruct (strip_ext V (leaves r) (leaves rt) mr outs Ba (goods_regular V _ Gr) (goods_regular V _ Grt) So) as (os & Sos & Sh & _).
  exists rt, ru, os. split; [|auto]. unfold wrapped, wrapper. fold yt. fold yst. rewrite Ewt. cbn [bindr]. rewrite Eft. cbn [bindr]. unfold tmap. rewrite (strip_unpacked V _ _ _ Sos). cbn [bindr leaves]. reflexivity.
Qed.

(** An element of a stripped array *)
Lemma stripped_at v m a rho : good V v -> stripped v m a -> valid rho m -> exists l, leaf_at V rho v = Some l /\ shape a = map snd m ++ shape l /\
  forall idx, within (shape l) idx -> at_ l idx = at_ a (map rho (map fst m) ++ idx).
Proof.
  intros G [Em Hd] Vr. destruct (law v m a (proj2 G) Em Hd) as (_ & _ & P & L). destruct (L rho) as [L1 _]. specialize (L1 Vr). destruct (leaf_at V rho v) as [l|]; [|contradiction]. exists l. split; [reflexivity|].
  destruct L1 as [Ls La]. cbn [slice_at shape firstn app Nat.add] in Ls. destruct P as (_ & rest & Er). cbn [skipn] in Er. split.
  - rewrite Ls, Er. replace (length (map rho (map fst m))) with (length (map snd m)) by (rewrite !map_length; reflexivity). rewrite skipn_app, Nat.sub_diag, skipn_all. reflexivity.
  - intros idx Wi. rewrite (La idx Wi). cbn [slice_at at_ firstn skipn app]. reflexivity.
Qed.
Lemma stripped_nodup v m a : good V v -> stripped v m a -> NoDup (map fst m).
Proof. intros G [Em Hd]. apply (law v m a (proj2 G) Em Hd). Qed.
Lemma assign_valid env m p : NoDup (map fst m) -> within (map snd m) p -> valid (assign env (map fst m) p) m.
Proof.
  intros N W n d Hl. apply lookup_some_In in Hl. pose proof (within_length _ _ W) as L. rewrite map_length in L.
  assert (E : map (assign env (map fst m) p) (map fst m) = p) by (apply map_assign; [exact N|rewrite map_length; lia]). rewrite <- E in W. clear E L N. generalize dependent (assign env (map fst m) p). intros rho W.
  induction m as [|[a b] m IH]; [destruct Hl|]. cbn [map fst snd] in W. inversion W; subst. destruct Hl as [Hl|Hl]; [injection Hl as -> ->; assumption|auto].
Qed.

Lemma flat_combine {A B C} (f : nat * A -> list C) (g : nat * B -> list C) : forall l1 l2 s, length l1 = length l2 ->
  (forall j a b, nth_error l1 j = Some a -> nth_error l2 j = Some b -> f (s + j, a) = g (s + j, b)) ->
  flat_map f (combine (seq s (length l1)) l1) = flat_map g (combine (seq s (length l2)) l2).
Proof.
  induction l1 as [|a l1 IH]; intros [|b l2] s L H; try discriminate L; [reflexivity|]. cbn [length seq combine flat_map]. f_equal.
  - specialize (H 0 a b eq_refl eq_refl). rewrite Nat.add_0_r in H. exact H.
  - apply IH; [injection L as L; exact L|]. intros j a' b' Ha Hb. specialize (H (S j) a' b' Ha Hb). rewrite Nat.add_succ_r in H. exact H.
Qed.
Lemma nth_combine {A B} (l1 : list A) (l2 : list B) j p : nth_error (combine l1 l2) j = Some p -> nth_error l1 j = Some (fst p) /\ nth_error l2 j = Some (snd p).
Proof. revert l2 j. induction l1 as [|a l1 IH]; intros [|b l2] [|j] H; try discriminate H; cbn [combine nth_error] in *; [injection H as <-; auto|apply IH; exact H]. Qed.
Lemma Forall2_at {A B} (R : A -> B -> Prop) l r : Forall2 R l r -> forall j a, nth_error l j = Some a -> exists b, nth_error r j = Some b /\ R a b.
Proof. induction 1 as [|x y l r H F IH]; intros [|j] a Ha; try discriminate Ha; cbn [nth_error] in *; [injection Ha as <-; eauto|auto]. Qed.
Lemma Forall_at {A} (P : A -> Prop) l j a : Forall P l -> nth_error l j = Some a -> P a.
Proof. intros F H. rewrite Forall_forall in F. apply F. eapply nth_error_In. exact H. Qed.

(** ** The gradients *)
Definition extensional : Prop := forall x f g, (forall t, f t = g t) -> D x f = D x g.

Section Back.
Variables (func : nfun V) (primals : list (val V)) (r r0 cts : tree (val V)) (bk : tree (val V) -> res (list (val V))) (ns : list (list (nat * nat))) (gs : list (val V)).
Hypothesis N : nice V func.
Hypothesis G : Forall (good V) primals.
Hypothesis Inh : Forall (inhabited V) primals.
Hypothesis Hvjp : vjp V zero add mul D func primals = Ok (r, bk).
Hypothesis E0 : func primals = Ok r0.
Hypothesis Ir : Forall (inhabited V) (leaves r).
Hypothesis Gc : Forall (good V) (leaves cts).
Hypothesis Ic : Forall (inhabited V) (leaves cts).
Hypothesis Sr : Forall2 (fun v m => sizes_val V v [] = Ok m) (leaves r) ns.
Hypothesis Sc : Forall2 (fun v m => sizes_val V v [] = Ok m) (leaves cts) ns.
Hypothesis Hb : bk cts = Ok gs.
Hypothesis Dext : extensional.

Lemma strip_det_ms vs ms ms' os : strip vs ms os -> Forall2 (fun v m => sizes_val V v [] = Ok m) vs ms' -> ms = ms'.
Proof.
  intros S. revert ms'. induction S as [|v m a vs ms os [Em _] S IH]; intros ms' F; inversion F as [|? m' ? ms'' H1 H2]; subst; [reflexivity|]. rewrite Em in H1. injection H1 as <-. f_equal. apply IH. exact H2.
Qed.

Lemma back_inv : exists ms ys ws outs cs, strip primals ms ys /\ repack V (map (map fst) ms) ys = Ok ws /\ func ws = Ok r /\ Forall (good V) (leaves r) /\ strip (leaves r) ns outs /\ strip (leaves cts) ns cs /\
  map shape outs = map shape cs /\ is_node cts = is_node r /\ repack V (map (map fst) ms) (map (fun kx => pullback V zero add mul D (wrapped V func (map (map fst) ms)) ys cs (fst kx) (snd kx)) (combine (seq 0 (length ys)) ys)) = Ok gs.
Proof.
  destruct (vjp_inv func primals r bk G Inh Hvjp) as (ms & ys & ws & outs & S & Er & Ef & Et & Eb). rewrite Eb in Hb. unfold vjpfunc in Hb. clear Eb.
  unfold tmap in Hb, Et. destruct (rmap (unpacked V) (leaves r)) as [os| | | | |] eqn:Eo; try discriminate Et. cbn [bindr] in Et. injection Et as <-.
  destruct (rmap (unpacked V) (leaves cts)) as [cs| | | | |] eqn:Ec; try discriminate Hb. cbn [bindr is_node leaves] in Hb. destruct (Bool.eqb (is_node cts) (is_node r)) eqn:En; [|discriminate Hb].
  unfold torch_vjp in Hb. assert (Gr : Forall (good V) (leaves r)) by (apply (nice_good V func N ws r); [eapply repack_good; [apply (strip_prefix primals ms ys G S)|exact Er]|exact Ef]).
  destruct (unpacked_all V (leaves r) os Gr Ir Eo) as (mr & So). destruct (unpacked_all V (leaves cts) cs Gc Ic Ec) as (mc & Sc').
  pose proof (strip_det_ms _ _ _ _ So Sr) as ->. pose proof (strip_det_ms _ _ _ _ Sc' Sc) as ->.
  assert (Ew : wrapped V func (map (map fst) ms) ys = Some os) by (unfold wrapped, wrapper; rewrite Er; cbn [bindr]; rewrite Ef; cbn [bindr]; unfold tmap; rewrite Eo; reflexivity).
  rewrite Ew in Hb. unfold VjpModel.same_shapes in Hb. destruct (list_eq_dec (list_eq_dec Nat.eq_dec) (map shape os) (map shape cs)) as [Es|]; [|discriminate Hb].
  exists ms, ys, ws, os, cs. repeat split; try assumption. apply Bool.eqb_prop. exact En.
Qed.

Lemma nth_map_shape (l l' : list (arr V)) j a : map shape l = map shape l' -> nth_error l j = Some a -> exists b, nth_error l' j = Some b /\ shape a = shape b.
Proof.
  intros E H. apply (f_equal (fun l => nth_error l j)) in E. rewrite !nth_error_map, H in E. cbn [option_map] in E. destruct (nth_error l' j) as [b|]; [|discriminate E]. injection E as E. eauto.
Qed.

(** The elements of all positions, split into positions and elements *)
Lemma pulled ms ys ws outs cs k v m y x env i : strip primals ms ys -> repack V (map (map fst) ms) ys = Ok ws -> func ws = Ok r -> Forall (good V) (leaves r) -> strip (leaves r) ns outs -> strip (leaves cts) ns cs ->
  map shape outs = map shape cs -> nth_error primals k = Some v -> nth_error ms k = Some m -> nth_error ys k = Some y -> leaf_at V env v = Some x -> within (shape x) i -> valid env m -> stripped v m y ->
  at_ (pullback V zero add mul D (wrapped V func (map (map fst) ms)) ys cs k y) (map env (map fst m) ++ i)
  = gradient V zero add mul D func primals k env everywhere i (at_ x i) ns (leaves cts).
Proof.
  intros S Er Ef Gr So Sc' Es Hv Hm Hy Hx W Ve Sv. unfold pullback. cbn [at_]. unfold gradient. f_equal.
  destruct (strip_len _ _ _ Sc') as [L1 L2].
  assert (Lc : length (combine ns (leaves cts)) = length (leaves cts)) by (rewrite combine_length; lia).
  rewrite <- Lc. apply flat_combine; [lia|]. intros j c [mj ct] Hc Hmc. apply nth_combine in Hmc. cbn [fst snd] in *. destruct Hmc as [Hmj Hct]. cbn [Nat.add].
  destruct (strip_nth _ _ _ Sc' j ct Hct) as (mj' & c' & Hmj' & Hc' & Scj). rewrite Hmj in Hmj'. injection Hmj' as <-. rewrite Hc in Hc'. injection Hc' as <-.
  assert (Gct : good V ct) by (apply (Forall_at _ _ _ _ Gc Hct)). pose proof (stripped_nodup ct mj c Gct Scj) as Nd.
  destruct Scj as [Emj Dj]. destruct (law ct mj c (proj2 Gct) Emj Dj) as (_ & _ & (_ & rest & Esh) & _). cbn [skipn] in Esh. rewrite Esh, indices_app, map_flat_map. unfold positions.
  assert (Fi : forall l, filter everywhere l = l) by (induction l as [|a l IHl]; [reflexivity|]; cbn [filter everywhere]; rewrite IHl; reflexivity). rewrite Fi, flat_map_map.
  apply flat_map_in. intros p Hp. apply in_indices in Hp. rewrite map_map. set (rho := assign env (map fst mj) p).
  assert (Vr : valid rho mj) by (apply assign_valid; assumption).
  assert (Ep : map rho (map fst mj) = p) by (apply map_assign; [exact Nd|rewrite map_length; apply within_length in Hp; rewrite map_length in Hp; lia]).
  destruct (stripped_at ct mj c rho Gct (conj Emj Dj) Vr) as (lc & Elc & Shc & Atc). unfold contributions. rewrite Elc.
  assert (Er' : rest = shape lc) by (rewrite Esh in Shc; apply app_inv_head in Shc; exact Shc). subst rest.
  apply map_ext_in. intros q Hq. apply in_indices in Hq. rewrite (Atc q Hq), Ep. f_equal.
  destruct (stripped_at v m y env (Forall_at _ _ _ _ G Hv) Sv Ve) as (x' & Ex' & Shx & Atx). rewrite Hx in Ex'. injection Ex' as <-. rewrite <- (Atx i W).
  apply Dext. intros t.
  destruct (wrapped_set func primals r0 ms ys ws r outs ns env i t k v m y x N G S Er Ef So E0 Hv Hm Hy Hx W) as (rt & ru & os & -> & Sot & Grt & Shs & -> & Hh). cbn [elem_of elem].
  destruct (nth_map_shape cs outs j c (eq_sym Es) Hc) as (o & Ho & Sho). destruct (Forall2_at _ _ _ Shs j o Ho) as (ot & Hot & Shot). rewrite Hot.
  assert (Hl : exists lr, nth_error (leaves rt) j = Some lr).
  { destruct (nth_error (leaves rt) j) as [lr|] eqn:E; [eauto|]. apply nth_error_None in E. destruct (strip_len _ _ _ Sot) as [L3 _]. assert (nth_error os j <> None) by (rewrite Hot; discriminate). apply nth_error_Some in H. lia. }
  destruct Hl as [lr Hlr]. destruct (strip_nth _ _ _ Sot j lr Hlr) as (mj' & ot' & Hmj' & Hot' & Slr). rewrite Hmj in Hmj'. injection Hmj' as <-. rewrite Hot in Hot'. injection Hot' as <-.
  destruct (Forall2_at _ _ _ Hh j lr Hlr) as (lu & Hlu & Hsame). rewrite Hlu. specialize (Hsame rho).
  destruct (stripped_at lr mj ot rho (Forall_at _ _ _ _ Grt Hlr) Slr Vr) as (la & Ela & Sha & Ata). rewrite Ela in Hsame. destruct (leaf_at V rho lu) as [lua|]; [|contradiction]. destruct Hsame as [Ss Sa].
  assert (Eshape : shape la = shape lc) by (unfold same_shape in Shot; rewrite <- Shot, <- Sho, Shc in Sha; apply app_inv_head in Sha; symmetry; exact Sha).
  rewrite <- Sa by (rewrite Eshape; exact Hq). rewrite Ata by (rewrite Eshape; exact Hq). rewrite Ep. reflexivity.
Qed.

Lemma vjp_gradient : length gs = length primals /\ is_node cts = is_node r /\ forall k v env x, nth_error primals k = Some v -> leaf_at V env v = Some x ->
  exists g ga, nth_error gs k = Some g /\ leaf_at V env g = Some ga /\ shape ga = shape x /\
  forall i, within (shape x) i -> at_ ga i = gradient V zero add mul D func primals k env everywhere i (at_ x i) ns (leaves cts).
Proof.
  destruct back_inv as (ms & ys & ws & outs & cs & S & Er & Ef & Gr & So & Sc' & Es & En & Eg). destruct (strip_len _ _ _ S) as [L1 L2].
  apply repack_spec in Eg. match type of Eg with Forall2 _ (combine ?l _) _ => set (ps := l) in * end.
  assert (Lp : length ps = length ys) by (unfold ps; rewrite map_length, combine_length, seq_length; lia).
  split; [|split; [exact En|]].
  - assert (Q : forall (A B : Type) (R : A -> B -> Prop) l l', Forall2 R l l' -> length l = length l') by (induction 1; cbn [length]; lia). apply Q in Eg. rewrite combine_length, map_length in Eg. lia.
  - intros k v env x Hv Hx. destruct (strip_nth _ _ _ S k v Hv) as (m & y & Hm & Hy & Sv). pose proof (Forall_at _ _ _ _ G Hv) as Gv.
    assert (Ve : valid env m).
    { destruct Sv as [Em Hd]. destruct (law v m y (proj2 Gv) Em Hd) as (_ & _ & _ & L). destruct (valid_dec env m) as [Q|Q]; [exact Q|]. rewrite (proj2 (L env) Q) in Hx. discriminate Hx. }
    set (p := pullback V zero add mul D (wrapped V func (map (map fst) ms)) ys cs k y).
    assert (Hp : nth_error (combine ps (map (map fst) ms)) k = Some (p, map fst m)).
    { assert (Hpk : nth_error ps k = Some p).
      { unfold ps. rewrite nth_error_map. assert (Hc : nth_error (combine (seq 0 (length ys)) ys) k = Some (k, y)); [|rewrite Hc; reflexivity].
        assert (Q : forall (l : list (arr V)) s k, nth_error l k = Some y -> nth_error (combine (seq s (length l)) l) k = Some (s + k, y)).
        { induction l as [|a l IHl]; intros s [|k'] Hk; try discriminate Hk; cbn [length seq combine nth_error] in *; [injection Hk as ->; rewrite Nat.add_0_r; reflexivity|]. rewrite (IHl (Datatypes.S s) k' Hk). f_equal. f_equal. lia. }
        apply (Q ys 0 k Hy). }
      assert (Hmk : nth_error (map (map fst) ms) k = Some (map fst m)) by (rewrite nth_error_map, Hm; reflexivity).
      revert Hpk Hmk. generalize ps (map (map fst) ms) k. clear. intros l. induction l as [|a l IHl]; intros [|b l'] [|k'] H1 H2; try discriminate; cbn [nth_error combine] in *; [congruence|apply IHl; assumption]. }
    destruct (Forall2_at _ _ _ Eg k _ Hp) as (g & Hg & Ig). cbn [fst snd] in Ig. destruct (index_leaf V num0 (VArr V p) _ g Logic.I Logic.I Logic.I Ig) as (_ & _ & M). specialize (M env). cbn [leaf_at] in M.
    destruct Sv as [Em Hd]. destruct (law v m y (proj2 Gv) Em Hd) as (_ & Nd & P & _). assert (Pp : prefixed V 0 (map snd m) p) by exact P.
    pose proof (names_after V env 0 (map fst m) p (map snd m) Pp ltac:(rewrite !map_length; reflexivity) (sized_within env m Nd Ve)) as Na.
    pose proof (same_trans _ _ _ M Na) as Sa. destruct (leaf_at V env g) as [ga|] eqn:Ega; [|contradiction]. destruct Sa as [Ss Sv].
    destruct (stripped_at v m y env Gv (conj Em Hd) Ve) as (x' & Ex' & Shx & Atx). rewrite Hx in Ex'. injection Ex' as <-.
    assert (Shg : shape ga = shape x).
    { rewrite Ss. cbn [slice_at shape firstn app Nat.add]. change (shape p) with (shape y). rewrite Shx. replace (length (map env (map fst m))) with (length (map snd m)) by (rewrite !map_length; reflexivity). rewrite skipn_app, Nat.sub_diag, skipn_all. reflexivity. }
    exists g, ga. split; [exact Hg|]. split; [exact Ega|]. split; [exact Shg|]. intros i W. rewrite Sv by (rewrite Shg; exact W). cbn [slice_at at_ firstn skipn app].
    apply (pulled ms ys ws outs cs k v m y x env i); try assumption. split; assumption.
Qed.

(** ** Positions where the argument is not changed *)
Hypothesis Dconst : forall x c, D x (fun _ => c) = zero.
Hypothesis mul0 : forall a, mul a zero = zero.
Hypothesis add0 : forall a, add zero a = a.

Lemma total_app l l' : total V zero add (l ++ l') = fold_right add (total V zero add l') l.
Proof. unfold total. apply fold_right_app. Qed.
Lemma total_flat {A} (f g : A -> list V) l : (forall a s, In a l -> fold_right add s (f a) = fold_right add s (g a)) -> total V zero add (flat_map f l) = total V zero add (flat_map g l).
Proof.
  induction l as [|a l IH]; intros H; [reflexivity|]. cbn [flat_map]. rewrite !total_app, IH; [apply H; left; reflexivity|]. intros b s Hb'. apply H. right. exact Hb'.
Qed.
Lemma fold_flat {A} (f g : A -> list V) l s : (forall a s', In a l -> fold_right add s' (f a) = fold_right add s' (g a)) -> fold_right add s (flat_map f l) = fold_right add s (flat_map g l).
Proof.
  induction l as [|a l IH]; intros H; [reflexivity|]. cbn [flat_map]. rewrite !fold_right_app, IH; [apply H; left; reflexivity|]. intros b s' Hb'. apply H. right. exact Hb'.
Qed.
Lemma filter_flat {A} (h : A -> bool) (f : A -> list V) l : flat_map f (filter h l) = flat_map (fun a => if h a then f a else []) l.
Proof. induction l as [|a l IH]; [reflexivity|]. cbn [filter flat_map]. destruct (h a); cbn [flat_map app]; rewrite IH; reflexivity. Qed.
Lemma zeros {A} (f : A -> V) l s : (forall a, In a l -> f a = zero) -> fold_right add s (map f l) = s.
Proof. induction l as [|a l IH]; intros H; [reflexivity|]. cbn [map fold_right]. rewrite (H a (or_introl eq_refl)), add0. apply IH. intros b Hb'. apply H. right. exact Hb'. Qed.

(** Elsewhere, arguments are as they were. *)
Lemma change_elsewhere env i t k v x rho : nth_error primals k = Some v -> leaf_at V env v = Some x -> within (shape x) i -> where_ V env v rho = false ->
  Forall2 (fun a b => same (leaf_at V rho a) (leaf_at V rho b)) primals (change k (set_at V env i t) primals).
Proof.
  intros Hv Hx W Hw. revert k Hv. revert G. clear -Hx W Hw. revert v x Hx W Hw. induction primals as [|v0 ps IH]; intros v x Hx W Hw G0 [|k] Hv; try discriminate Hv; cbn [nth_error change] in *; apply Forall_cons_iff in G0; destruct G0 as [Gv G0].
  - injection Hv as ->. constructor; [|clear; induction ps; constructor; [apply same_refl|assumption]]. pose proof (set_leaf V env i t v x Gv Hx W rho) as L. destruct (leaf_at V rho v) as [y|] eqn:Ey.
    + destruct (L y eq_refl) as (z & -> & Sz & _ & Az). split; [symmetry; exact Sz|]. intros idx Wi. destruct (Az idx Wi) as [_ A]. symmetry. apply A. intros [_ Q]. rewrite Hw in Q. discriminate Q.
    + clear L. destruct v as [c|c dims| | |]; try (destruct (proj1 Gv)); [discriminate Ey|]. cbn [leaf_at set_at] in *. unfold index_arr in *. destruct (index_axes env (shape c) dims) as [[s g]|]; [|discriminate Hx].
      cbn [leaf_at]. unfold index_arr. cbn [set_elem shape]. destruct (index_axes rho (shape c) dims) as [[s' g']|]; [discriminate Ey|exact Logic.I].
  - constructor; [apply same_refl|]. apply (IH v x Hx W Hw G0 k Hv).
Qed.

Lemma gradient_here k v env x i : nth_error primals k = Some v -> leaf_at V env v = Some x -> within (shape x) i ->
  gradient V zero add mul D func primals k env everywhere i (at_ x i) ns (leaves cts) = gradient V zero add mul D func primals k env (where_ V env v) i (at_ x i) ns (leaves cts).
Proof.
  intros Hv Hx W. destruct back_inv as (ms & ys & ws & outs & cs & S & Er & Ef & Gr & So & Sc' & Es & _ & _). unfold gradient. apply total_flat. intros [j [mj ct]] s Hin. cbn [fst snd].
  destruct (strip_len _ _ _ Sc') as [L1 L2]. apply In_nth_error in Hin. destruct Hin as [j' Hj].
  apply nth_combine in Hj. cbn [fst snd] in Hj. destruct Hj as [Hj Hmc]. apply nth_combine in Hmc. cbn [fst snd] in Hmc. destruct Hmc as [Hmj Hct].
  assert (j = j') by (rewrite nth_error_nth' with (d := 0) in Hj by (apply nth_error_Some; rewrite Hj; discriminate); injection Hj as <-; rewrite seq_nth; [lia|]; apply nth_error_Some; rewrite Hct; discriminate). subst j'.
  unfold positions. rewrite !filter_flat. apply fold_flat. intros rho s' Hrho. cbn [everywhere]. destruct (where_ V env v rho) eqn:Ew; [reflexivity|]. cbn [fold_right].
  apply in_map_iff in Hrho. destruct Hrho as (p & <- & Hp). apply in_indices in Hp. set (rho := assign env (map fst mj) p) in *.
  destruct (strip_nth _ _ _ Sc' j ct Hct) as (mj' & c & Hmj' & Hc & Scj). rewrite Hmj in Hmj'. injection Hmj' as <-. pose proof (Forall_at _ _ _ _ Gc Hct) as Gct.
  assert (Vr : valid rho mj) by (apply assign_valid; [apply (stripped_nodup ct mj c Gct Scj)|exact Hp]).
  destruct (stripped_at ct mj c rho Gct Scj Vr) as (lc & Elc & Shc & _). unfold contributions. rewrite Elc. apply zeros. intros idx Hi. apply in_indices in Hi.
  destruct (nth_map_shape cs outs j c (eq_sym Es) Hc) as (o & Ho & Sho).
  assert (Hl : exists lr, nth_error (leaves r) j = Some lr).
  { destruct (nth_error (leaves r) j) as [lr|] eqn:E; [eauto|]. apply nth_error_None in E. destruct (strip_len _ _ _ So) as [L3 _]. assert (nth_error outs j <> None) by (rewrite Ho; discriminate). apply nth_error_Some in H. lia. }
  destruct Hl as [lr Hlr]. destruct (strip_nth _ _ _ So j lr Hlr) as (mj' & o' & Hmj' & Ho' & Slr). rewrite Hmj in Hmj'. injection Hmj' as <-. rewrite Ho in Ho'. injection Ho' as <-.
  destruct (stripped_at lr mj o rho (Forall_at _ _ _ _ Gr Hlr) Slr Vr) as (la & Ela & Sha & _). rewrite <- Sho, Shc in Sha. apply app_inv_head in Sha.
  destruct (vjp_result func primals r bk r0 N G Inh Hvjp E0) as [_ Hh]. destruct (Forall2_at _ _ _ Hh j lr Hlr) as (l0 & Hl0 & Hs0). specialize (Hs0 rho). rewrite Ela in Hs0. destruct (leaf_at V rho l0) as [a0|] eqn:El0; [|contradiction]. destruct Hs0 as [Ss0 _].
  assert (Cst : forall t, elem V zero (func (change k (set_at V env i t) primals)) j rho idx = at_ a0 idx).
  { intros t. pose proof (change_alike env i t primals G k) as Ac. pose proof (alike_goods V _ _ Ac G) as Gch. pose proof (nice_shape V func N primals _ G Gch Ac) as B. rewrite E0 in B.
    destruct (func (change k (set_at V env i t) primals)) as [u| | | | |] eqn:Eu; try contradiction. destruct (nice_at V func N primals _ r0 u rho G Gch (change_elsewhere env i t k v x rho Hv Hx W Ew) E0 Eu) as [_ F].
    destruct (Forall2_at _ _ _ F j l0 Hl0) as (lu & Hlu & Su). cbn [elem]. rewrite Hlu. rewrite El0 in Su. destruct (leaf_at V rho lu) as [au|]; [|contradiction]. destruct Su as [_ Su]. symmetry. apply Su. rewrite <- Ss0, <- Sha. exact Hi. }
  rewrite (Dext _ _ _ Cst), Dconst. apply mul0.
Qed.
Lemma vjp_pointwise : forall k v env x, nth_error primals k = Some v -> leaf_at V env v = Some x ->
  exists g ga, nth_error gs k = Some g /\ leaf_at V env g = Some ga /\ shape ga = shape x /\
  forall i, within (shape x) i -> at_ ga i = gradient V zero add mul D func primals k env (where_ V env v) i (at_ x i) ns (leaves cts).
Proof.
  intros k v env x Hv Hx. destruct vjp_gradient as (_ & _ & H). destruct (H k v env x Hv Hx) as (g & ga & Hg & Hga & Sh & At). exists g, ga. repeat split; try assumption. intros i W. rewrite (At i W). apply gradient_here; assumption.
Qed.
End Back.
End Vjp.
