(** Proofs about [vjp]. *)
From Coq Require Import List Bool Arith ZArith Lia.
From Verif Require Import ArrModel ArrSpec ArrProofs ArrNames ArrBind ArrUnbind NopModel NopSpec NopProofs NopLaws FunModel FunSpec FunProofs FunLaws FunTrans FunExpr VjpModel VjpSpec.
Import ListNotations.

(** ** Indices *)
Lemma in_indices : forall sh idx, In idx (indices sh) <-> within sh idx.
Proof.
  induction sh as [|d sh IH]; intros idx; cbn [indices].
  - split; [intros [<-|[]]; constructor|]. intros H. inversion H. left. reflexivity.
  - rewrite in_flat_map. split.
    + intros (i & Hi & H). apply in_seq in Hi. apply in_map_iff in H. destruct H as (r & <- & H). constructor; [lia|]. apply IH. exact H.
    + intros H. inversion H as [|? ? i r Hi Hr]; subst. exists i. split; [apply in_seq; lia|]. apply in_map. apply IH. exact Hr.
Qed.
Lemma nodup_indices : forall sh, NoDup (indices sh).
Proof.
  induction sh as [|d sh IH]; cbn [indices]; [constructor; [intros []|constructor]|].
  assert (G : forall l, NoDup l -> NoDup (flat_map (fun i : nat => map (cons i) (indices sh)) l)).
  { induction l as [|i l IHl]; intros N; cbn [flat_map]; [constructor|]. inversion N as [|? ? Hi Nl]; subst.
    assert (Nm : forall (k : nat) m, NoDup m -> NoDup (map (cons k) m)).
    { intros k m. induction m as [|x m IHm]; intros Hm; cbn [map]; [constructor|]. inversion Hm as [|? ? Hx Hm']; subst. constructor; [|apply IHm; exact Hm'].
      intros E. apply in_map_iff in E. destruct E as (y & E & Hy). injection E as ->. contradiction. }
    assert (App : forall a b : list (list nat), NoDup a -> NoDup b -> (forall x, In x a -> ~ In x b) -> NoDup (a ++ b)).
    { induction a as [|x a IHa]; intros b Na Nb Hd; [exact Nb|]. inversion Na as [|? ? Hx Na']; subst. cbn [app]. constructor.
      - rewrite in_app_iff. intros [H|H]; [contradiction|]. apply (Hd x (or_introl eq_refl) H).
      - apply IHa; [exact Na'|exact Nb|]. intros y Hy. apply Hd. right. exact Hy. }
    apply App; [apply Nm; exact IH|apply IHl; exact Nl|]. intros x H1 H2. apply in_map_iff in H1. destruct H1 as (y & <- & _). apply in_flat_map in H2. destruct H2 as (i' & Hi' & H2).
    apply in_map_iff in H2. destruct H2 as (z & E & _). injection E as -> _. contradiction. }
  apply G. apply seq_NoDup.
Qed.
Lemma flat_map_map {A B C} (f : B -> list C) (g : A -> B) l : flat_map f (map g l) = flat_map (fun x => f (g x)) l.
Proof. induction l as [|x l IH]; [reflexivity|]. cbn [map flat_map]. rewrite IH. reflexivity. Qed.
Lemma map_flat_map {A B C} (f : B -> C) (g : A -> list B) l : map f (flat_map g l) = flat_map (fun x => map f (g x)) l.
Proof. induction l as [|x l IH]; [reflexivity|]. cbn [flat_map]. rewrite map_app, IH. reflexivity. Qed.
Lemma flat_map_flat_map {A B C} (f : B -> list C) (g : A -> list B) l : flat_map f (flat_map g l) = flat_map (fun x => flat_map f (g x)) l.
Proof. induction l as [|x l IH]; [reflexivity|]. cbn [flat_map]. rewrite flat_map_app, IH. reflexivity. Qed.
Lemma indices_app : forall a b, indices (a ++ b) = flat_map (fun p => map (app p) (indices b)) (indices a).
Proof.
  induction a as [|d a IH]; intros b; cbn [app indices flat_map].
  - rewrite app_nil_r. rewrite map_id. reflexivity.
  - rewrite flat_map_flat_map. apply flat_map_ext. intros i. rewrite flat_map_map. rewrite IH, map_flat_map. apply flat_map_ext. intros p. rewrite map_map. reflexivity.
Qed.
Lemma flat_map_in {A B} (f g : A -> list B) l : (forall x, In x l -> f x = g x) -> flat_map f l = flat_map g l.
Proof. induction l as [|x l IH]; intros H; [reflexivity|]. cbn [flat_map]. rewrite (H x (or_introl eq_refl)), IH; [reflexivity|]. intros y Hy. apply H. right. exact Hy. Qed.

Section Vjp.
Variable V : Type.
Variables (zero : V) (add mul : V -> V -> V).
Variable D : V -> (V -> V) -> V.
Notation bindt := (@bind_dims_torch V).
Notation stripped := (stripped V bindt).
Notation strip := (strip V bindt).
Notation law := (deindex_law V bindt (torch_binds V)).

(** ** Names taken off *)
Lemma unpack_strip v a ns : good V v -> inhabited V v -> unpack V v = Ok (a, ns) -> exists m, stripped v m a /\ ns = map fst m.
Proof.
  intros [Cv Rv] [env0 He] H. unfold unpack in H. destruct (sizes_val V v []) as [m| | | | |] eqn:Em; try discriminate H. cbn [bindr] in H.
  destruct (bindt (to_tval V v) (map fst m)) as [[b|b ds|]| | | | |] eqn:Eb; try discriminate H. injection H as -> <-. exists m. split; [|reflexivity]. split; [exact Em|].
  unfold deindex. rewrite Eb. assert (E : firstn (length m) (shape a) = map snd m).
  { destruct (torch_binds V) as (B1 & B2 & B4 & B3). destruct v as [c|c dims| | |]; try contradiction.
    - cbn [sizes_val] in Em. injection Em as <-. reflexivity.
    - cbn [sizes_val to_tval] in *. apply regular_neat in Rv. pose proof (add_names_spec (shape c) dims []) as S. rewrite Em in S. destruct S as [S _].
      assert (Ve : valid env0 m).
      { intros n d Hn. apply S in Hn. destruct Hn as [Hn|Hn]; [discriminate Hn|]. destruct (Nat.lt_ge_cases (env0 n) d) as [Hl|Hg]; [exact Hl|]. exfalso. apply He. cbn [leaf_at]. unfold index_arr.
        rewrite (index_axes_out env0 _ _ _ _ Hn Hg). reflexivity. }
      destruct m as [|p m0] eqn:Emm; [reflexivity|]. rewrite <- Emm in *.
      pose proof (B3 c dims m a env0 Rv Em ltac:(rewrite Emm; discriminate) Ve Eb env0 (map env0 (map fst m)) (sized_within env0 m (proj1 (sizes_forall2 V c dims m Em)) Ve)) as St.
      cbn [den] in St. destruct (index_arr _ c dims) as [e|]; [|contradiction]. destruct St as [S1 _]. rewrite S1. rewrite <- (map_length snd m). rewrite firstn_app, Nat.sub_diag, firstn_O, app_nil_r. apply firstn_all. }
  unfold eq_list. rewrite E. destruct (list_eq_dec Nat.eq_dec (map snd m) (map snd m)) as [_|N]; [reflexivity|destruct (N eq_refl)].
Qed.
Lemma strip_unpack v m a : stripped v m a -> unpack V v = Ok (a, map fst m).
Proof.
  intros [Em Hd]. unfold unpack. rewrite Em. cbn [bindr]. unfold deindex in Hd. destruct (bindt (to_tval V v) (map fst m)) as [[b|b ds|]| | | | |]; try discriminate Hd.
  destruct (eq_list (firstn (length m) (shape b)) (map snd m)); [|discriminate Hd]. injection Hd as ->. reflexivity.
Qed.
Lemma unpack_all vs ups : Forall (good V) vs -> Forall (inhabited V) vs -> rmap (unpack V) vs = Ok ups ->
  exists ms, strip vs ms (map fst ups) /\ map snd ups = map (map fst) ms.
Proof.
  intros G I H. apply rmap_spec in H. revert G I. induction H as [|v [a ns] vs ups Hv H IH]; intros G I; [exists []; split; [constructor|reflexivity]|].
  apply Forall_cons_iff in G. apply Forall_cons_iff in I. destruct (IH (proj2 G) (proj2 I)) as (ms & S & E). destruct (unpack_strip v a ns (proj1 G) (proj1 I) Hv) as (m & Sm & ->).
  exists (m :: ms). cbn [map fst snd]. split; [constructor; assumption|]. rewrite E. reflexivity.
Qed.
Lemma unpacked_all vs os : Forall (good V) vs -> Forall (inhabited V) vs -> rmap (unpacked V) vs = Ok os -> exists ms, strip vs ms os.
Proof.
  intros G I H. apply rmap_spec in H. revert G I. induction H as [|v a vs os Hv H IH]; intros G I; [exists []; constructor|].
  apply Forall_cons_iff in G. apply Forall_cons_iff in I. destruct (IH (proj2 G) (proj2 I)) as (ms & S). unfold unpacked in Hv.
  destruct (unpack V v) as [[b ns]| | | | |] eqn:E; try discriminate Hv. cbn [bindr fst] in Hv. injection Hv as ->. destruct (unpack_strip v a ns (proj1 G) (proj1 I) E) as (m & Sm & _).
  exists (m :: ms). constructor; assumption.
Qed.
Lemma strip_unpacked vs ms os : strip vs ms os -> rmap (unpacked V) vs = Ok os.
Proof.
  intros S. apply rmap_spec. induction S as [|v m a vs ms os Sv S IH]; constructor; [|exact IH]. unfold unpacked. rewrite (strip_unpack v m a Sv). reflexivity.
Qed.
Lemma strip_sizes vs ms os : strip vs ms os -> Forall2 (fun v m => sizes_val V v [] = Ok m) vs ms.
Proof. induction 1 as [|v m a vs ms os [E _] S IH]; constructor; assumption. Qed.

(** ** Alike values *)
Lemma alike_refl v : good V v -> alike V v v.
Proof. intros [C _]. destruct v; try contradiction; cbn [alike]; auto. Qed.
Lemma alike_good v w : alike V v w -> good V v -> good V w.
Proof.
  intros A [C R]. destruct v as [a|a dims| | |], w as [b|b dims'| | |]; cbn [alike] in A; try contradiction; [split; exact Logic.I|]. destruct A as [<- E]. split; [exact C|]. cbn [regular] in *. rewrite <- E. exact R.
Qed.
Lemma alike_like v w : good V v -> alike V v w -> like V v w.
Proof.
  intros [C _] A. destruct v as [a|a dims| | |], w as [b|b dims'| | |]; cbn [alike] in A; try contradiction; [constructor; exact A|]. destruct A as [<- E]. constructor. exact E.
Qed.
Lemma alike_goods vs ws : Forall2 (alike V) vs ws -> Forall (good V) vs -> Forall (good V) ws.
Proof. induction 1 as [|v w vs ws H F IH]; intros G; constructor; apply Forall_cons_iff in G; [eapply alike_good; [exact H|apply G]|apply IH, G]. Qed.
Lemma goods_regular vs : Forall (good V) vs -> Forall (regular V) vs.
Proof. apply Forall_impl. intros v [_ R]. exact R. Qed.
Lemma good_evaluated v : good V v -> evaluated v.
Proof. intros [C _]. destruct v; try contradiction; exact Logic.I. Qed.

(** ** Names put back *)
Lemma index_good (a : arr V) names w sz : prefixed V 0 sz a -> length names = length sz -> index_val V (VArr V a) (map KName names) = Ok w -> good V w.
Proof.
  intros P L H. destruct (index_leaf V (fun _ => at_ a []) (VArr V a) _ w Logic.I Logic.I Logic.I H) as (Ew & Rw & M). split; [|exact Rw].
  destruct w as [b|b dims| | |]; try contradiction; [exact Logic.I|]. cbn [concrete]. cbn [index_val] in H.
  destruct (getitem a (map KName names)) as [[c|c ds|]| | | | |] eqn:E; try discriminate H. injection H as -> ->.
  destruct names as [|n names]; [discriminate E|]. exists n. cbn [map] in E. unfold getitem in E.
  destruct (desugar (shape a) (KName n :: map KName names)) as [[nsh nkey]| | | | |] eqn:Ed; try discriminate E. cbn [existsb is_name forallb orb andb] in E.
  assert (F : forallb is_name (map KName names) = true) by (apply forallb_forall; intros k Hk; apply in_map_iff in Hk; destruct Hk as (? & <- & _); reflexivity).
  rewrite F in E. destruct (add_names nsh nkey []); try discriminate E. injection E as _ <-. destruct (desugar_counts _ _ _ Ed) as [C1 C2].
  apply (desugar_names _ _ _ _ Ed C1 C2). left. reflexivity.
Qed.
Lemma repack_spec names ps ws : repack V names ps = Ok ws -> Forall2 (fun p w => index_val V (VArr V (fst p)) (map KName (snd p)) = Ok w) (combine ps names) ws.
Proof. apply rmap_spec. Qed.
Lemma repack_like names ps qs ws : Forall2 same_shape ps qs -> repack V names ps = Ok ws -> exists us, repack V names qs = Ok us /\ Forall2 (like V) ws us.
Proof.
  intros S H. apply repack_spec in H. revert names ws H. induction S as [|p q ps qs E S IH]; intros names ws H.
  - cbn [combine] in H. inversion H; subst. exists []. split; [destruct names; reflexivity|constructor].
  - destruct names as [|ns names]; cbn [combine] in H; inversion H as [|? w ? ws' H1 H2]; subst; [exists []; split; [reflexivity|constructor]|].
    destruct (IH names ws' H2) as (us & Eu & Lu). cbn [fst snd] in H1. pose proof (index_like V (VArr V p) (VArr V q) (map KName ns) (like_arr V p q E)) as Q.
    rewrite H1 in Q. destruct (index_val V (VArr V q) (map KName ns)) as [u| | | | |] eqn:Eq; try contradiction. exists (u :: us). split; [|constructor; assumption].
    unfold repack in *. cbn [combine rmap fst snd]. rewrite Eq. cbn [bindr]. rewrite Eu. reflexivity.
Qed.

(** ** One element set *)
Lemma index_inj : forall sh dims rho env s1 g1 s2 g2, Forall (fun k => k = KAll \/ exists n, k = KName n) dims ->
  index_axes rho sh dims = Some (s1, g1) -> index_axes env sh dims = Some (s2, g2) -> s1 = s2 /\
  forall i1 i2, within s1 i1 -> within s1 i2 -> (g1 i1 = g2 i2 <-> i1 = i2 /\ forall n, In (KName n) dims -> rho n = env n).
Proof.
  induction sh as [|d sh IH]; intros [|k dims] rho env s1 g1 s2 g2 F E1 E2; try discriminate E1; cbn [index_axes] in E1, E2.
  - injection E1 as <- <-. injection E2 as <- <-. split; [reflexivity|]. intros i1 i2 W1 W2. inversion W1; inversion W2; subst. split; [intros _; split; [reflexivity|intros n []]|reflexivity].
  - apply Forall_cons_iff in F. destruct F as [Fk F]. destruct (index_axes rho sh dims) as [[t1 h1]|] eqn:R1; [|destruct (pick rho k d) as [[|]|]; discriminate E1].
    destruct (index_axes env sh dims) as [[t2 h2]|] eqn:R2; [|destruct (pick env k d) as [[|]|]; discriminate E2].
    destruct (IH dims rho env t1 h1 t2 h2 F R1 R2) as [<- I]. destruct Fk as [->|(n & ->)].
    + cbn in E1, E2. injection E1 as <- <-. injection E2 as <- <-. split; [reflexivity|]. intros i1 i2 W1 W2. inversion W1 as [|? ? x r1 Hx Wr1]; subst. inversion W2 as [|? ? y r2 Hy Wr2]; subst. cbn [hd tl].
      specialize (I r1 r2 Wr1 Wr2). rewrite !Nat.mul_1_r. split.
      * intros E. injection E as E1 E2. apply I in E2. destruct E2 as [-> A]. split; [congruence|]. intros n [H|H]; [discriminate H|exact (A n H)].
      * intros [E A]. injection E as -> ->. f_equal. apply I. split; [reflexivity|]. intros n H. apply A. right. exact H.
    + cbn [pick] in E1, E2. destruct (rho n <? d); [|discriminate E1]. destruct (env n <? d); [|discriminate E2]. injection E1 as <- <-. injection E2 as <- <-. split; [reflexivity|].
      intros i1 i2 W1 W2. specialize (I i1 i2 W1 W2). split.
      * intros E. injection E as E1 E2. apply I in E2. destruct E2 as [-> A]. split; [reflexivity|]. intros m [H|H]; [injection H as <-; exact E1|exact (A m H)].
      * intros [-> A]. f_equal; [apply A; left; reflexivity|]. apply I. split; [reflexivity|]. intros m H. apply A. right. exact H.
Qed.

Lemma set_shape (x : arr V) xi t : shape (set_elem V x xi t) = shape x.
Proof. reflexivity. Qed.
Lemma set_alike env i t v : good V v -> alike V v (set_at V env i t v).
Proof.
  intros G. pose proof (alike_refl v G) as A. destruct v as [a|a dims| | |]; try exact A. cbn [set_at]. destruct (index_axes env (shape a) dims) as [[s g]|]; [|exact A]. split; reflexivity.
Qed.

(** What an element set to [t] is at each position *)
Lemma set_leaf env i t v x : good V v -> leaf_at V env v = Some x -> within (shape x) i -> forall rho y, leaf_at V rho v = Some y ->
  exists z, leaf_at V rho (set_at V env i t v) = Some z /\ shape z = shape y /\ shape y = shape x /\
  forall idx, within (shape y) idx -> (idx = i /\ where_ V env v rho = true -> at_ z idx = t) /\ (~ (idx = i /\ where_ V env v rho = true) -> at_ z idx = at_ y idx).
Proof.
  intros [C R] Hx W rho y Hy. destruct v as [a|a dims| | |]; try contradiction; cbn [leaf_at set_at where_] in *.
  - injection Hx as <-. injection Hy as <-. eexists. split; [reflexivity|]. split; [reflexivity|]. split; [reflexivity|]. intros idx _. unfold set_elem. cbn [at_].
    destruct (list_eq_dec Nat.eq_dec idx i) as [E|E]; split; intros H; try reflexivity; [destruct H; auto|destruct E; apply H].
  - unfold index_arr in Hx, Hy. destruct (index_axes env (shape a) dims) as [[s2 g2]|] eqn:E2; [|discriminate Hx]. destruct (index_axes rho (shape a) dims) as [[s1 g1]|] eqn:E1; [|discriminate Hy].
    injection Hx as <-. injection Hy as <-. destruct R as [_ R]. destruct (index_inj (shape a) dims rho env s1 g1 s2 g2 R E1 E2) as [<- I]. cbn [shape] in W.
    cbn [leaf_at]. unfold index_arr. cbn [set_elem shape]. rewrite E1. eexists. split; [reflexivity|]. cbn [shape at_]. split; [reflexivity|]. split; [reflexivity|]. intros idx Wi. specialize (I idx i Wi W).
    assert (Wh : forallb (fun k => match k with KName n => rho n =? env n | _ => true end) dims = true <-> forall n, In (KName n) dims -> rho n = env n).
    { rewrite forallb_forall. split; [intros H n Hn; apply Nat.eqb_eq; exact (H _ Hn)|]. intros H k Hk. destruct k; try reflexivity. apply Nat.eqb_eq. apply H. exact Hk. }
    rewrite Wh. unfold set_elem. cbn [at_]. destruct (list_eq_dec Nat.eq_dec (g1 idx) (g2 i)) as [E|E]; split; intros H; try reflexivity; [destruct H; apply I; exact E|destruct E; apply I; exact H].
Qed.

Lemma back_set env i t v m y w x : good V v -> stripped v m y -> leaf_at V env v = Some x -> within (shape x) i ->
  index_val V (VArr V (set_elem V y (map env (map fst m) ++ i) t)) (map KName (map fst m)) = Ok w ->
  forall rho, same (leaf_at V rho w) (leaf_at V rho (set_at V env i t v)).
Proof.
  intros G [Em Dm] Hx W H rho. destruct (law v m y (proj2 G) Em Dm) as (Ev & N & P & L). destruct (L rho) as [L1 L2]. destruct (L env) as [E1 E2].
  set (y' := set_elem V y (map env (map fst m) ++ i) t) in *. assert (P' : prefixed V 0 (map snd m) y') by exact P.
  assert (Ve : valid env m) by (destruct (valid_dec env m) as [Q|Q]; [exact Q|rewrite (E2 Q) in Hx; discriminate Hx]). specialize (E1 Ve). rewrite Hx in E1. destruct E1 as [Es Ea].
  destruct (index_leaf V (fun _ => t) (VArr V y') _ w Logic.I Logic.I Logic.I H) as (_ & _ & M). specialize (M rho). cbn [leaf_at] in M. eapply same_trans; [exact M|]. clear M.
  destruct (valid_dec rho m) as [Vr|Nr].
  - eapply same_trans; [apply (names_after V rho 0 (map fst m) y' (map snd m) P'); [rewrite !map_length; reflexivity|apply sized_within; assumption]|].
    specialize (L1 Vr). destruct (leaf_at V rho v) as [u|] eqn:Eu; [|contradiction]. destruct L1 as [Ls La].
    destruct (set_leaf env i t v x G Hx W rho u Eu) as (z & -> & Sz & Su & Az). split.
    + rewrite Sz, Ls. reflexivity.
    + intros idx Wi. assert (Wu : within (shape u) idx) by (rewrite Ls; exact Wi). destruct (Az idx Wu) as [A1 A2]. cbn [slice_at at_ firstn skipn app]. unfold y', set_elem. cbn [at_].
      specialize (La idx Wu). cbn [slice_at at_ firstn skipn app] in La. rewrite La in A2.
      assert (Q : map rho (map fst m) ++ idx = map env (map fst m) ++ i <-> idx = i /\ where_ V env v rho = true).
      { assert (Nw : where_ V env v rho = true <-> map rho (map fst m) = map env (map fst m)).
        { assert (X : (forall n, In n (map fst m) -> rho n = env n) <-> map rho (map fst m) = map env (map fst m)).
          { clear. induction (map fst m) as [|n l IH]; cbn [map]; [split; [reflexivity|intros _ n []]|]. split.
            - intros Hn. f_equal; [apply Hn; left; reflexivity|]. apply IH. intros k Hk. apply Hn. right. exact Hk.
            - intros E. injection E as E1 E2. intros k [<-|Hk]; [exact E1|]. apply IH; assumption. }
          rewrite <- X. destruct v as [c|c dims| | |]; try (destruct (proj1 G)); cbn [where_ sizes_val] in *.
          - injection Em as <-. split; [intros _ n []|reflexivity].
          - pose proof (add_names_spec (shape c) dims []) as S. rewrite Em in S. destruct S as [S _]. apply proj2 in G. apply regular_neat in G.
            assert (Nm : forall n, In n (map fst m) <-> In (KName n) dims).
            { intros n. split.
              - intros Hn. destruct (lookup m n) as [d|] eqn:El; [|apply lookup_fst in El; contradiction]. apply S in El. destruct El as [El|(q & Hq & _)]; [discriminate El|]. eapply nth_error_In. exact Hq.
              - intros Hn. destruct (name_indexed V c dims n (proj1 G) Hn) as (d & Hd). assert (El : lookup m n = Some d) by (apply S; right; exact Hd). apply lookup_some_In in El. apply in_map_iff. exists (n, d). auto. }
            rewrite forallb_forall. split; [intros Hn n Hi; apply Nat.eqb_eq; apply Nm in Hi; exact (Hn _ Hi)|]. intros Hn k Hk. destruct k; try reflexivity. apply Nat.eqb_eq, Hn, Nm. exact Hk. }
        rewrite Nw. split.
        - intros E. apply app_inj_1 in E || idtac. assert (Ll : length (map rho (map fst m)) = length (map env (map fst m))) by (rewrite !map_length; reflexivity).
          pose proof (f_equal (firstn (length (map rho (map fst m)))) E) as E1. pose proof (f_equal (skipn (length (map rho (map fst m)))) E) as E2'.
          rewrite firstn_app, Nat.sub_diag, firstn_O, app_nil_r, firstn_all in E1. rewrite Ll, firstn_app, Nat.sub_diag, firstn_O, app_nil_r, firstn_all in E1.
          rewrite skipn_app, Nat.sub_diag, skipn_all in E2'. rewrite Ll, skipn_app, Nat.sub_diag, skipn_all in E2'. cbn [skipn app] in E2'. auto.
        - intros [-> ->]. reflexivity. }
      destruct (list_eq_dec Nat.eq_dec (map rho (map fst m) ++ idx) (map env (map fst m) ++ i)) as [E|E]; symmetry; [apply A1, Q, E|apply A2; rewrite <- Q; exact E].
  - specialize (L2 Nr). destruct Nr as (n & d & Hn & Hd).
    change (map KName (map fst m)) with (index_expr 0 (map fst m)). rewrite (names_outside V rho 0 (map fst m) y' (map snd m) n d P'); [|rewrite !map_length; reflexivity|rewrite lookup_combine; exact Hn|exact Hd].
    destruct v as [c|c dims| | |]; try (destruct (proj1 G)); cbn [leaf_at set_at] in *; [discriminate L2|]. unfold index_arr in *. destruct (index_axes env (shape c) dims) as [[s g]|]; [|discriminate Hx].
    cbn [leaf_at]. unfold index_arr. cbn [set_elem shape]. destruct (index_axes rho (shape c) dims) as [[s' g']|]; [discriminate L2|exact Logic.I].
Qed.
End Vjp.
