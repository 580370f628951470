(** The distribution that calls, embeddings and evaluations stand for. *)
From Coq Require Import String ZArith List Bool Arith Lia.
From Verif Require Import NpdModel NpdSpec NpdProofs.
Import ListNotations.
Local Open Scope string_scope.
Local Open Scope list_scope.

Lemma fill_Forall (P : val -> Prop) ps kw vs : (forall n d, In (n, Some d) ps -> P d) -> Forall P (map snd kw) -> fill ps kw = Ok vs -> Forall P vs.
Proof.
  intros D K. revert vs. induction ps as [|[n d] ps IH]; intros vs H; [injection H as <-; constructor|]. cbn [fill] in H.
  destruct (get kw n) as [v|] eqn:G.
  - apply andthen_ok in H. destruct H as [ws [E H]]. injection H as <-. constructor; [|apply IH; [intros m x Hx; apply (D m x); now right|assumption]].
    rewrite Forall_forall in K. apply K. apply get_In in G. apply (in_map snd) in G. exact G.
  - destruct d as [d|]; [|discriminate]. apply andthen_ok in H. destruct H as [ws [E H]]. injection H as <-. constructor; [|apply IH; [intros m x Hx; apply (D m x); now right|assumption]].
    apply (D n d). now left.
Qed.
Lemma others_Forall (P : val -> Prop) ps kw : Forall P (map snd kw) -> Forall P (map snd (others ps kw)).
Proof. unfold others. induction kw as [|k kw IH]; intros H; [constructor|]. cbn in H. apply Forall_cons_iff in H. destruct H as [H1 H2]. cbn. destruct (negb _); [cbn; constructor|]; auto. Qed.
Lemma bind_Forall (P : val -> Prop) ps pos kw vs ex : (forall n d, In (n, Some d) ps -> P d) -> Forall P pos -> Forall P (map snd kw) -> bind ps pos kw = Ok (vs, ex) ->
  Forall P vs /\ Forall P (map snd ex).
Proof.
  intros D O K. unfold bind. destruct (Nat.ltb _ _); [discriminate|]. destruct (existsb _ kw); [discriminate|]. intros H. apply andthen_ok in H. destruct H as [ws [E H]]. injection H as <- <-.
  split; [|now apply others_Forall]. apply Forall_app. split; [assumption|]. eapply fill_Forall; [|exact K|exact E]. intros n d Hd. apply (D n d). rewrite <- (firstn_skipn (length pos) ps). apply in_or_app. now right.
Qed.
Lemma maxl_le l n : (forall x, In x l -> x <= n) -> maxl l <= n.
Proof. induction l as [|x l IH]; intros H; cbn; [lia|]. apply Nat.max_lub; [apply H; now left|apply IH; intros y Hy; apply H; now right]. Qed.
Lemma maxl_in l x : In x l -> x <= maxl l.
Proof. induction l as [|y l IH]; intros H; [destruct H|]. change (maxl (y :: l)) with (Nat.max y (maxl l)). destruct H as [->|H]; [|specialize (IH H)]; lia. Qed.

Section Laws.
Variables chol chol_inv cov prec : nat -> nat.
Hypothesis laws : coherent chol chol_inv cov prec.
Notation lib_new := (lib_new chol chol_inv cov prec).
Notation mat := (mat chol chol_inv cov prec).
Notation object := (object chol chol_inv cov prec).

Lemma data_object d : data d = true -> object d.
Proof. destruct d; intros H; try discriminate; constructor. Qed.
Lemma data_mat d : data d = true -> mat d = Ok d.
Proof. destruct d; intros H; try discriminate; reflexivity. Qed.
Lemma data_map l : Forall (fun d => data d = true) l -> mapO mat l = Ok l.
Proof. induction 1 as [|d l D _ IH]; [reflexivity|]. cbn. rewrite (data_mat d D). cbn. now rewrite IH. Qed.

(** The library's signature extends the operation's. *)
Record library (e : entry) (rest : list (string * option val)) (only : list string) : Prop := Library {
  lb_get : get constructors (cls e) = Some (params e ++ rest, only);
  lb_nodup : NoDup (map fst (params e ++ rest));
  lb_dflt : forall n d, In (n, Some d) (params e ++ rest) -> data d = true;
  lb_rest : forall p, In p rest -> snd p <> None;
  lb_matrix : by_matrix (cls e) = true -> length (params e) = 4 /\ rest = [] }.
Lemma table_library e : In e table -> cls e <> "Wishart" -> exists rest only, library e rest only.
Proof.
  intros I N. assert (M := table_matches e I N). unfold matches in M. destruct (get constructors (cls e)) as [[ps only]|] eqn:G; [|discriminate]. rewrite !andb_true_iff in M.
  destruct M as [[[[M1 M2] M3] M4] M5]. apply prefix_ok in M1. exists (skipn (length (params e)) ps), only. rewrite M1 in G, M2, M3. constructor.
  - exact G.
  - now apply nodup_ok.
  - intros n d H. rewrite forallb_forall in M3. apply (M3 (n, Some d) H).
  - intros p H. rewrite forallb_forall in M4. specialize (M4 p H). cbv beta in M4. destruct (snd p); discriminate.
  - intros B. rewrite B in M5. cbn [implb] in M5. apply andb_prop in M5. destruct M5 as [L1 L2]. apply Nat.eqb_eq in L1, L2. split; [assumption|]. rewrite L1 in *. rewrite <- L2. apply skipn_all.
Qed.
(** The library, given what the operation binds *)
Lemma lib_bound e rest only pos kw : library e rest only -> length pos <= length (params e) ->
  lib_new (cls e) pos kw = andthen (bind (params e) pos kw) (fun b => lib_new (cls e) (fst b) (snd b)).
Proof.
  intros [G ND _ _ _] L. destruct (bind_outcome (params e) pos kw) as [[[vs ex] B] | B]; rewrite B; cbn [andthen fst snd]; unfold NpdModel.lib_new; rewrite G.
  - now rewrite (bind_steps _ _ _ _ _ _ ND B).
  - now rewrite (bind_longer _ rest _ _ L B).
Qed.
Lemma fill_rest rest : (forall p : string * option val, In p rest -> snd p <> None) -> (forall n d, In (n, Some d) rest -> data d = true) ->
  exists ds, fill rest [] = Ok ds /\ Forall (fun d => data d = true) ds /\ length ds = length rest.
Proof.
  intros H D. induction rest as [|[n [d|]] rest IH]; [exists []; repeat constructor| |exfalso; now apply (H (n, None)); [left|]].
  destruct IH as [ds [E [F L]]]; [intros p Hp; apply H; now right|intros m x Hx; apply (D m x); now right|]. exists (d :: ds). cbn [fill get]. rewrite E. cbn. repeat split; [|congruence].
  constructor; [apply (D n d); now left|assumption].
Qed.
Lemma bind_all e rest only vs ds : library e rest only -> length vs = length (params e) -> fill rest [] = Ok ds -> bind (params e ++ rest) vs [] = Ok (vs ++ ds, []).
Proof.
  intros _ L E. unfold bind. rewrite app_length, L. destruct (Nat.ltb_spec (length (params e) + length rest) (length (params e))); [lia|]. cbn [existsb]. rewrite skipn_app, skipn_all, Nat.sub_diag. cbn [skipn app].
  now rewrite E.
Qed.

(** An object made by the library: what its embedding reads, and what the library makes of that *)
Record made (e : entry) (attrs opts : list (string * val)) (vals : list val) : Prop := Made {
  md_opts : opts = [];
  md_length : length vals = length (params e);
  md_read : read attrs (names e) = Ok vals;
  md_object : Forall object vals;
  md_in : incl vals (map snd attrs);
  md_mat : forall attrs', mapK mat attrs = Ok attrs' -> exists ms, mapO mat vals = Ok ms /\ lib_new (cls e) ms [] = Ok (Raw (cls e) attrs' []) }.
Lemma incl_combine (ns : list string) (vs : list val) : length vs <= length ns -> incl vs (map snd (combine ns vs)).
Proof. revert ns. induction vs as [|v vs IH]; intros [|n ns] L x H; cbn in *; try lia; try contradiction. destruct H as [->|H]; [now left|right; apply IH; [lia|assumption]]. Qed.
Lemma lib_made e pos kw v : In e table -> cls e <> "Wishart" -> length pos <= length (params e) -> incl (map fst kw) (names e) ->
  Forall object pos -> Forall object (map snd kw) -> lib_new (cls e) pos kw = Ok v -> exists attrs opts vals, v = Raw (cls e) attrs opts /\ made e attrs opts vals.
Proof.
  intros I N L K FP FK H. destruct (table_library e I N) as [rest [only LB]]. rewrite (lib_bound e rest only) in H by assumption. apply andthen_ok in H. destruct H as [[vs ex] [B H]]. cbn [fst snd] in H.
  destruct (bind_length _ _ _ _ _ B) as [LV EX]. assert (EX' : ex = []) by (rewrite EX; now apply others_none). subst ex. rewrite EX' in *. clear EX'.
  destruct (bind_Forall object _ _ _ _ _ (fun n d Hd => data_object d (sh_dflt e (shaped_shape e I) n d Hd)) FP FK B) as [FV _].
  destruct (fill_rest rest (lb_rest _ _ _ LB)) as [ds [ED [FD LD]]]; [intros n d Hd; apply (lb_dflt _ _ _ LB n d), in_or_app; now right|].
  revert H. unfold NpdModel.lib_new at 1. rewrite (lb_get _ _ _ LB), (bind_all e rest only vs ds LB LV ED). cbn [andthen fst snd forallb]. unfold finish. destruct (by_matrix (cls e)) eqn:BM.
  - destruct (lb_matrix _ _ _ LB BM) as [L4 R0]. rewrite R0 in ED, LD. injection ED as <-. rewrite app_nil_r. rewrite R0, app_nil_r. rewrite L4 in LV. destruct vs as [|x [|a [|b [|l [|? ?]]]]]; try discriminate.
    intros H. apply andthen_ok in H. destruct H as [[[a' b'] l'] [T H]]. injection H as <-.
    assert (A : exists p q r, a' = Arr p /\ b' = Arr q /\ l' = Arr r /\ three chol chol_inv cov prec (Arr p) (Arr q) (Arr r) = Ok (Arr p, Arr q, Arr r)).
    { destruct laws as [CL PL]. unfold three in T. destruct a; try discriminate; [destruct b; try discriminate; [destruct l; try discriminate|]|]; injection T as <- <- <-; do 3 eexists; repeat split; cbn; rewrite ?CL, ?PL; reflexivity. }
    destruct A as [p [q [r [-> [-> [-> T']]]]]]. exists (combine (map fst (params e)) [x; Arr p; Arr q; Arr r]), [], [x; Arr p; Arr q; Arr r]. split; [reflexivity|].
    assert (LN : length [x; Arr p; Arr q; Arr r] = length (names e)) by (now rewrite names_length, L4). constructor.
    + reflexivity.
    + now rewrite L4.
    + apply read_all; [apply (sh_nodup e (shaped_shape e I))|assumption].
    + apply Forall_cons_iff in FV. destruct FV as [FX _]. repeat (constructor; [assumption || constructor|]). constructor.
    + apply incl_combine. rewrite LN. unfold names. lia.
    + intros attrs' M. apply mapK_combine_inv in M; [|rewrite LN; unfold names; lia]. destruct M as [ms [M ->]]. exists ms. split; [assumption|].
      cbn in M. apply andthen_ok in M. destruct M as [x' [X M]]. injection M as <-. unfold NpdModel.lib_new. rewrite (lb_get _ _ _ LB), R0, app_nil_r.
      rewrite bind_full; [|now rewrite L4|intros k []]. cbn [andthen fst snd forallb]. unfold finish. rewrite BM, T'. reflexivity.
  - intros H. injection H as <-. exists (combine (map fst (params e ++ rest)) (vs ++ ds)), [], vs. split; [reflexivity|].
    assert (LA : length (vs ++ ds) <= length (map fst (params e ++ rest))) by (rewrite map_length, !app_length; lia). constructor.
    + reflexivity.
    + assumption.
    + rewrite map_app. refine (read_prefix (names e) (map fst rest) vs ds [] _ _ [] eq_refl); [cbn [app]; unfold names; rewrite <- map_app; apply (lb_nodup _ _ _ LB)|now rewrite names_length].
    + assumption.
    + intros y Hy. apply incl_combine; [assumption|]. apply in_or_app. now left.
    + intros attrs' M. apply mapK_combine_inv in M; [|assumption]. destruct M as [ms [M ->]]. rewrite mapO_app in M. apply andthen_ok in M. destruct M as [m1 [M1 M]]. rewrite (data_map ds FD) in M. cbn in M. injection M as <-.
      exists m1. split; [assumption|]. unfold NpdModel.lib_new. rewrite (lb_get _ _ _ LB). assert (LM := mapO_length _ _ _ M1).
      rewrite (bind_all e rest only m1 ds LB) by (try assumption; congruence). cbn [andthen fst snd forallb]. unfold finish. now rewrite BM.
Qed.
Lemma object_raw c attrs opts : object (Raw c attrs opts) -> exists e vals, In e table /\ cls e = c /\ cls e <> "Wishart" /\ made e attrs opts vals.
Proof.
  intros H. remember (Raw c attrs opts) as v eqn:E. destruct H as [ | | | |e pos kw v I N L K FP FK H| ]; try discriminate. subst v. destruct (lib_made e pos kw _ I N L K FP FK H) as [a [o [vals [E M]]]].
  injection E as -> -> ->. exists e, vals. repeat split; try assumption; apply M.
Qed.
Lemma object_term c args kw : object (Tm c args kw) -> exists e, In e table /\ cls e = c /\ cls e <> "Wishart" /\ length args = length (params e) /\
  (forall k, In k (map fst kw) -> ~ In k (names e)) /\ Forall object args /\ Forall object (map snd kw).
Proof.
  intros H. remember (Tm c args kw) as v eqn:E. destruct H as [ | | | |e pos kw' v I N L K FP FK H|e args' kw' I N L K FA FK]; try discriminate.
  - subst v. destruct (lib_made e pos kw' _ I N L K FP FK H) as [a [o [vals [E _]]]]. discriminate.
  - injection E as <- <- <-. exists e. repeat split; assumption.
Qed.

Lemma read_depth c attrs opts vals v : incl vals (map snd attrs) -> In v vals -> depth v <= pred (depth (Raw c attrs opts)).
Proof. intros H I. cbn. apply maxl_in. rewrite <- (map_map snd depth). apply in_map. now apply H. Qed.
Lemma depth_term c args kw n : (forall v, In v args -> depth v <= n) -> (forall v, In v (map snd kw) -> depth v <= n) -> depth (Tm c args kw) <= n.
Proof.
  intros A K. cbn. apply Nat.max_lub; apply maxl_le; intros x H; apply in_map_iff in H; destruct H as [v [<- H]]; [now apply A|]. apply K. now apply in_map.
Qed.
Lemma depth_arg c args kw v : In v args \/ In v (map snd kw) -> depth v <= depth (Tm c args kw).
Proof.
  cbn. intros [H|H]; [apply (in_map depth) in H; apply maxl_in in H; lia|]. apply (in_map depth) in H. rewrite map_map in H. apply maxl_in in H. lia.
Qed.
(** Many values, each mapped to one that stands for the same *)
Definition serves (f : val -> outcome val) (n : nat) (v : val) : Prop :=
  forall w, mat v = Ok w -> exists t, f v = Ok t /\ mat t = Ok w /\ object t /\ depth t <= n.
Lemma serves_list f n l ms : Forall (serves f n) l -> mapO mat l = Ok ms -> exists ts, mapO f l = Ok ts /\ mapO mat ts = Ok ms /\ Forall object ts /\ (forall t, In t ts -> depth t <= n) /\ length ts = length l.
Proof.
  intros H. revert ms. induction H as [|v l S _ IH]; intros ms M; [injection M as <-; exists []; repeat split; try constructor; intros t []|].
  cbn in M. apply andthen_ok in M. destruct M as [w [W M]]. apply andthen_ok in M. destruct M as [ws [E M]]. injection M as <-. destruct (S w W) as [t [T1 [T2 [T3 T4]]]]. destruct (IH ws E) as [ts [U1 [U2 [U3 [U4 U5]]]]].
  exists (t :: ts). cbn. rewrite T1. cbn. rewrite U1, T2. cbn. rewrite U2. repeat split; [now constructor| |congruence]. intros x [<-|Hx]; [assumption|now apply U4].
Qed.
Lemma serves_keys f n l ms : Forall (serves f n) (map snd l) -> mapK mat l = Ok ms -> exists ts, mapK f l = Ok ts /\ mapK mat ts = Ok ms /\ Forall object (map snd ts) /\ (forall t, In t (map snd ts) -> depth t <= n) /\ map fst ts = map fst l.
Proof.
  revert ms. induction l as [|[k v] l IH]; intros ms H M; [injection M as <-; exists []; repeat split; try constructor; intros t []|].
  cbn in H. apply Forall_cons_iff in H. destruct H as [S H]. cbn in M. apply andthen_ok in M. destruct M as [w [W M]]. apply andthen_ok in M. destruct M as [ws [E M]]. injection M as <-. destruct (S w W) as [t [T1 [T2 [T3 T4]]]].
  destruct (IH ws H E) as [ts [U1 [U2 [U3 [U4 U5]]]]].
  exists ((k, t) :: ts). cbn. rewrite T1. cbn. rewrite U1, T2. cbn. rewrite U2. repeat split; [now constructor| |congruence]. intros x [<-|Hx]; [assumption|now apply U4].
Qed.
Lemma serves_le f n m v : n <= m -> serves f n v -> serves f m v.
Proof. intros L S w W. destruct (S w W) as [t [T1 [T2 [T3 T4]]]]. exists t. repeat split; try assumption. lia. Qed.
Lemma Forall_keys (P : val -> Prop) (l : list (string * val)) : Forall (fun k => P (snd k)) l <-> Forall P (map snd l).
Proof. rewrite Forall_map. reflexivity. Qed.

Theorem settle_serves v : object v -> serves settle (pred (depth v)) v.
Proof.
  induction v as [|z|s|n|c attrs opts _|c args kw IHa IHk] using val_all; intros O w W; try (exists w; injection W as <-; repeat split; [assumption|cbn; lia]).
  - destruct (object_raw _ _ _ O) as [e [vals [I [<- [N M]]]]]. cbn [settle]. rewrite (proj2 (table_shaped e I)), (sh_passed e (shaped_shape e I)), (md_read _ _ _ _ M). cbn [andthen].
    assert (LV := md_length _ _ _ _ M). rewrite mk_full; [|assumption|assumption|intros k []]. eexists. split; [reflexivity|]. cbn [NpdModel.mat] in W. apply andthen_ok in W. destruct W as [attrs' [A W]]. injection W as <-.
    rewrite (md_opts _ _ _ _ M). destruct (md_mat _ _ _ _ M attrs' A) as [ms [M1 M2]]. split; [cbn [NpdModel.mat mapK]; rewrite M1; cbn [andthen]; exact M2|]. split.
    + constructor; try assumption; try (intros k []); [apply M|constructor].
    + apply depth_term; [|intros v []]. intros v Hv. eapply read_depth; [apply (md_in _ _ _ _ M)|assumption].
  - destruct (object_term _ _ _ O) as [e [I [<- [N [L [K [FA FK]]]]]]]. cbn [NpdModel.mat] in W. apply andthen_ok in W. destruct W as [ma [MA W]]. apply andthen_ok in W. destruct W as [mk' [MK W]].
    set (n := pred (depth (Tm (cls e) args kw))).
    assert (SA : Forall (serves settle n) args).
    { rewrite Forall_forall in *. intros v Hv. eapply serves_le; [|apply IHa; [assumption|now apply FA]]. assert (depth v <= depth (Tm (cls e) args kw)) by (apply depth_arg; now left). unfold n. lia. }
    assert (SK : Forall (serves settle n) (map snd kw)).
    { apply (proj1 (Forall_keys (fun v => object v -> serves settle (pred (depth v)) v) kw)) in IHk. rewrite Forall_forall in *. intros v Hv. eapply serves_le; [|apply IHk; [assumption|now apply FK]]. assert (depth v <= depth (Tm (cls e) args kw)) by (apply depth_arg; now right). unfold n. lia. }
    destruct (serves_list _ _ _ _ SA MA) as [ta [A1 [A2 [A3 [A4 A5]]]]]. destruct (serves_keys _ _ _ _ SK MK) as [tk [K1 [K2 [K3 [K4 K5]]]]].
    cbn [settle]. rewrite (proj2 (table_shaped e I)), A1, K1. cbn [andthen]. rewrite mk_full; [|assumption|congruence|now rewrite K5]. eexists. split; [reflexivity|]. split.
    + cbn [NpdModel.mat]. rewrite A2, K2. exact W.
    + split; [constructor; try assumption; [congruence|now rewrite K5]|]. now apply depth_term.
Qed.
(** Calling the operation in any spelling *)
Definition deepest (pos : list val) (kw : list (string * val)) : nat := Nat.max (maxl (map depth pos)) (maxl (map depth (map snd kw))).
Lemma data_depth d : data d = true -> depth d = 0.
Proof. now destruct d. Qed.
Theorem call_serves e pos kw mpos mkw : In e table -> cls e <> "Wishart" -> length pos <= length (params e) -> Forall object pos -> Forall object (map snd kw) ->
  mapO mat pos = Ok mpos -> mapK mat kw = Ok mkw ->
  andthen (call none e pos kw) mat = lib_new (cls e) mpos mkw /\ (forall t, call none e pos kw = Ok t -> object t /\ depth t <= pred (deepest pos kw)).
Proof.
  intros I N L FP FK MP MK. destruct (table_library e I N) as [rest [only LB]]. assert (SH := shaped_shape e I).
  assert (FX : fixed mat (params e)) by (intros n d Hd; apply data_mat; apply (sh_dflt e SH n d Hd)).
  rewrite (lib_bound e rest only) by (try assumption; rewrite (mapO_length _ _ _ MP); assumption). unfold call, none. assert (B := bind_map mat (params e) pos kw mpos mkw FX MP MK).
  destruct (bind_outcome (params e) pos kw) as [[[vs ex] E] | E]; rewrite E in *; cbn [andthen fst snd].
  2:{ rewrite B. split; [reflexivity|discriminate]. }
  destruct B as [ms [mex [B1 [B2 B3]]]]. rewrite B3. cbn [andthen fst snd]. destruct (bind_length _ _ _ _ _ E) as [LV EX].
  destruct (bind_Forall object _ _ _ _ _ (fun n d Hd => data_object d (sh_dflt e SH n d Hd)) FP FK E) as [FV FE].
  assert (D : Forall (fun v => depth v <= deepest pos kw) vs /\ Forall (fun v => depth v <= deepest pos kw) (map snd ex)).
  { apply (bind_Forall (fun v => depth v <= deepest pos kw) _ _ _ _ _) with (4 := E).
    - intros n d Hd. rewrite (data_depth d); [lia|]. apply (sh_dflt e SH n d Hd).
    - apply Forall_forall. intros v Hv. unfold deepest. apply (in_map depth) in Hv. apply maxl_in in Hv. lia.
    - apply Forall_forall. intros v Hv. unfold deepest. apply (in_map depth) in Hv. apply maxl_in in Hv. lia. }
  destruct D as [DV DE]. set (n := pred (deepest pos kw)).
  assert (SV : Forall (serves settle n) vs).
  { rewrite Forall_forall in *. intros v Hv. eapply serves_le; [|apply settle_serves; now apply FV]. specialize (DV v Hv). cbv beta in DV. unfold n. lia. }
  assert (SE : Forall (serves settle n) (map snd ex)).
  { rewrite Forall_forall in *. intros v Hv. eapply serves_le; [|apply settle_serves; now apply FE]. specialize (DE v Hv). cbv beta in DE. unfold n. lia. }
  destruct (serves_list _ _ _ _ SV B1) as [ta [A1 [A2 [A3 [A4 A5]]]]]. destruct (serves_keys _ _ _ _ SE B2) as [tk [K1 [K2 [K3 [K4 K5]]]]].
  assert (KK : forall k, In k (map fst tk) -> ~ In k (names e)) by (rewrite K5, EX; intros k Hk; eapply others_out; eassumption).
  rewrite A1, K1. cbn [andthen]. rewrite mk_full; [|assumption|congruence|assumption]. cbn [andthen NpdModel.mat]. rewrite A2, K2. cbn [andthen]. split; [reflexivity|].
  intros t T. injection T as <-. split; [constructor; try assumption; congruence|]. now apply depth_term.
Qed.
Lemma deepest_le pos kw n : (forall v, In v pos -> depth v <= n) -> (forall v, In v (map snd kw) -> depth v <= n) -> deepest pos kw <= n.
Proof. intros A K. unfold deepest. apply Nat.max_lub; apply maxl_le; intros x H; apply in_map_iff in H; destruct H as [v [<- H]]; [now apply A|now apply K]. Qed.
Theorem evaluate_serves v : object v -> serves (evaluate none) (depth v - 2) v.
Proof.
  induction v as [|z|s|n|c attrs opts _|c args kw IHa IHk] using val_all; intros O w W; try (exists w; injection W as <-; repeat split; [assumption|cbn; lia]).
  - destruct (object_raw _ _ _ O) as [e [vals [I [<- [N M]]]]]. cbn [evaluate]. rewrite (proj2 (table_shaped e I)), (sh_passed e (shaped_shape e I)), (md_read _ _ _ _ M). cbn [andthen].
    cbn [NpdModel.mat] in W. apply andthen_ok in W. destruct W as [attrs' [A W]]. injection W as <-. destruct (md_mat _ _ _ _ M attrs' A) as [ms [M1 M2]].
    destruct (call_serves e vals [] ms []) as [C1 C2]; try assumption; try reflexivity; [rewrite (md_length _ _ _ _ M); lia|apply M|constructor|].
    rewrite M2 in C1. apply andthen_ok in C1. destruct C1 as [t [T1 T2]]. exists t. rewrite (md_opts _ _ _ _ M). destruct (C2 t T1) as [T3 T4]. repeat split; try assumption.
    assert (deepest vals [] <= pred (depth (Raw (cls e) attrs opts))). { apply deepest_le; [|intros v []]. intros v Hv. eapply read_depth; [apply (md_in _ _ _ _ M)|assumption]. } cbn [depth] in *. lia.
  - destruct (object_term _ _ _ O) as [e [I [<- [N [L [K [FA FK]]]]]]]. cbn [NpdModel.mat] in W. apply andthen_ok in W. destruct W as [ma [MA W]]. apply andthen_ok in W. destruct W as [mk' [MK W]].
    set (n := depth (Tm (cls e) args kw) - 2).
    assert (SA : Forall (serves (evaluate none) n) args).
    { rewrite Forall_forall in *. intros v Hv. eapply serves_le; [|apply IHa; [assumption|now apply FA]]. assert (depth v <= depth (Tm (cls e) args kw)) by (apply depth_arg; now left). unfold n. lia. }
    assert (SK : Forall (serves (evaluate none) n) (map snd kw)).
    { apply (proj1 (Forall_keys (fun v => object v -> serves (evaluate none) (depth v - 2) v) kw)) in IHk. rewrite Forall_forall in *. intros v Hv. eapply serves_le; [|apply IHk; [assumption|now apply FK]]. assert (depth v <= depth (Tm (cls e) args kw)) by (apply depth_arg; now right). unfold n. lia. }
    destruct (serves_list _ _ _ _ SA MA) as [ta [A1 [A2 [A3 [A4 A5]]]]]. destruct (serves_keys _ _ _ _ SK MK) as [tk [K1 [K2 [K3 [K4 K5]]]]].
    cbn [evaluate]. rewrite (proj2 (table_shaped e I)), A1, K1. cbn [andthen].
    destruct (call_serves e ta tk ma mk') as [C1 C2]; try assumption; [lia|]. rewrite W in C1. apply andthen_ok in C1. destruct C1 as [t [T1 T2]]. exists t. destruct (C2 t T1) as [T3 T4]. repeat split; try assumption.
    assert (deepest ta tk <= n) by now apply deepest_le. lia.
Qed.
Theorem passes_serves m v w : object v -> mat v = Ok w -> exists t, passes m v = Ok t /\ mat t = Ok w /\ object t /\ depth t <= depth v - 2 * m.
Proof.
  revert v. induction m as [|m IH]; intros v O W; [exists v; repeat split; try assumption; lia|]. destruct (evaluate_serves v O w W) as [t [T1 [T2 [T3 T4]]]]. destruct (IH t T3 T2) as [u [U1 [U2 [U3 U4]]]].
  exists u. cbn [passes]. rewrite T1. repeat split; try assumption. lia.
Qed.
(** Attributes *)
Lemma argument_spec ps pos kw : NoDup (map fst ps) -> forall vs ex a, bind ps pos kw = Ok (vs, ex) -> In a (map fst ps) -> argument ps pos kw a = get (combine (map fst ps) vs) a /\ argument ps pos kw a <> None.
Proof.
  intros ND vs ex a. unfold bind. destruct (Nat.ltb_spec (length ps) (length pos)) as [|L]; [discriminate|]. destruct (existsb _ kw) eqn:X; [discriminate|]. clear X. intros H. apply andthen_ok in H. destruct H as [ws [E H]].
  injection H as <- _. clear ex. revert pos L ws E. induction ps as [|[n d] ps IH]; intros pos L ws E I; [destruct I|]. cbn in ND. apply NoDup_cons_iff in ND. destruct ND as [N1 N2].
  destruct pos as [|p pos].
  - cbn [length skipn fill] in E. assert (Q : argument ((n, d) :: ps) [] kw n = match get kw n with Some v => Some v | None => d end) by (cbn; now rewrite String.eqb_refl).
    destruct (match get kw n with Some v => Some v | None => d end) as [v|] eqn:G; [|discriminate]. apply andthen_ok in E. destruct E as [us [E H]]. injection H as <-. cbn [map fst app combine get].
    destruct (String.eqb_spec n a) as [->|NE]; [rewrite Q; split; [reflexivity|discriminate]|]. cbn [argument]. destruct (String.eqb_spec n a); [contradiction|]. cbn [tl].
    destruct I as [I|I]; [contradiction|]. apply (IH N2 [] (Nat.le_0_l _) us); assumption.
  - cbn [length skipn] in E, L. cbn [map fst app combine get argument]. destruct (String.eqb_spec n a) as [->|NE]; [split; [reflexivity|discriminate]|]. cbn [tl]. destruct I as [I|I]; [contradiction|]. apply (IH N2 pos); try assumption. lia.
Qed.
Lemma get_mapO f ns vs ts a : mapO f vs = Ok ts -> match get (combine ns vs) a with Some v => exists t, get (combine ns ts) a = Some t /\ f v = Ok t | None => get (combine ns ts) a = None end.
Proof. intros H. apply (mapK_combine f ns) in H. exact (mapK_get f _ _ a H). Qed.
Theorem call_attributes e pos kw t : In e table -> cls e <> "Wishart" -> Forall object pos -> Forall object (map snd kw) -> call none e pos kw = Ok t ->
  forall a, In a (sets e) -> exists v x, argument (params e) pos kw a = Some v /\ tattr t a = Ok x /\ (forall w, mat v = Ok w -> mat x = Ok w) /\ (data v = true -> x = v).
Proof.
  intros I N FP FK C a Ha. assert (SH := shaped_shape e I). unfold call, none in C. apply andthen_ok in C. destruct C as [[vs ex] [B C]]. cbn [fst snd] in C. apply andthen_ok in C. destruct C as [ts [T C]].
  apply andthen_ok in C. destruct C as [tk [K C]]. destruct (bind_length _ _ _ _ _ B) as [LV EX].
  rewrite mk_full in C; [|assumption|rewrite (mapO_length _ _ _ T); assumption|].
  2:{ rewrite (mapK_names _ _ _ K), EX. intros k Hk. eapply others_out; eassumption. }
  injection C as <-. destruct (argument_spec (params e) pos kw (sh_nodup e SH) vs ex a B) as [A1 A2]; [apply (sh_sets e SH); assumption|].
  destruct (argument (params e) pos kw a) as [v|]; [|contradiction]. clear A2. assert (G := get_mapO settle (names e) vs ts a T). unfold names in G. rewrite <- A1 in G. destruct G as [x [G S]].
  exists v, x. split; [reflexivity|]. split; [|split].
  - cbn [tattr]. rewrite (proj2 (table_shaped e I)), (sh_init e SH). apply mem_In in Ha. rewrite Ha. unfold names. now rewrite G.
  - intros w W. assert (OV : object v).
    { destruct (bind_Forall object _ _ _ _ _ (fun n d Hd => data_object d (sh_dflt e SH n d Hd)) FP FK B) as [FV _]. rewrite Forall_forall in FV. apply FV. eapply get_combine_In. symmetry. exact A1. }
    destruct (settle_serves v OV w W) as [t [T1 [T2 _]]]. congruence.
  - intros D. destruct v; try discriminate; cbn in S; congruence.
Qed.
End Laws.

(** Handlers on terms without objects *)
Lemma mapO_same f l : (forall v, In v l -> f v = Ok v) -> mapO f l = Ok l.
Proof. induction l as [|v l IH]; intros H; [reflexivity|]. cbn. rewrite (H v) by now left. cbn. rewrite IH; [reflexivity|]. intros x Hx. apply H. now right. Qed.
Lemma mapK_same f l : (forall v, In v (map snd l) -> f v = Ok v) -> mapK f l = Ok l.
Proof. induction l as [|[k v] l IH]; intros H; [reflexivity|]. cbn. rewrite (H v) by now left. cbn. rewrite IH; [reflexivity|]. intros x Hx. apply H. now right. Qed.
Lemma mapO_map f g l : (forall v, In v l -> f v = Ok (g v)) -> mapO f l = Ok (map g l).
Proof. induction l as [|v l IH]; intros H; [reflexivity|]. cbn. rewrite (H v) by now left. cbn. rewrite IH; [reflexivity|]. intros x Hx. apply H. now right. Qed.
Lemma mapK_map f g l : (forall v, In v (map snd l) -> f v = Ok (g v)) -> mapK f l = Ok (map (fun k : string * val => (fst k, g (snd k))) l).
Proof. induction l as [|[k v] l IH]; intros H; [reflexivity|]. cbn. rewrite (H v) by now left. cbn. rewrite IH; [reflexivity|]. intros x Hx. apply H. now right. Qed.
Lemma whole_term c args kw : whole (Tm c args kw) -> exists e, In e table /\ cls e = c /\ length args = length (params e) /\
  (forall k, In k (map fst kw) -> ~ In k (names e)) /\ Forall whole args /\ Forall whole (map snd kw).
Proof. intros H. inversion H; subst. exists e. repeat split; assumption. Qed.
Lemma settle_whole v : whole v -> settle v = Ok v.
Proof.
  induction v as [|z|s|n|c attrs opts _|c args kw IHa IHk] using val_all; intros W; try reflexivity; [inversion W|].
  destruct (whole_term _ _ _ W) as [e [I [<- [L [K [FA FK]]]]]]. apply (proj1 (Forall_keys (fun v => whole v -> settle v = Ok v) kw)) in IHk. rewrite Forall_forall in IHa, IHk, FA, FK. cbn [settle]. rewrite (proj2 (table_shaped e I)).
  rewrite mapO_same by auto. cbn [andthen]. rewrite mapK_same by auto. cbn [andthen]. now apply mk_full.
Qed.
Theorem handle_replaces a f v : (forall args kw, Forall whole args -> Forall whole (map snd kw) -> whole (f args kw)) -> whole v ->
  evaluate (handle a f) v = Ok (replace a f v) /\ whole (replace a f v).
Proof.
  intros F. induction v as [|z|s|n|c attrs opts _|c args kw IHa IHk] using val_all; intros W; try (split; [reflexivity|assumption]); [inversion W|].
  destruct (whole_term _ _ _ W) as [e [I [<- [L [K [FA FK]]]]]]. apply (proj1 (Forall_keys (fun v => whole v -> evaluate (handle a f) v = Ok (replace a f v) /\ whole (replace a f v)) kw)) in IHk. rewrite Forall_forall in IHa, IHk, FA, FK. cbn [evaluate replace]. rewrite (proj2 (table_shaped e I)).
  rewrite (mapO_map _ (replace a f)) by (intros v Hv; now apply IHa; [|apply FA]). rewrite (mapK_map _ (replace a f)) by (intros v Hv; now apply IHk; [|apply FK]). cbn [andthen].
  set (args' := map (replace a f) args). set (kw' := map (fun k : string * val => (fst k, replace a f (snd k))) kw).
  assert (WA : Forall whole args').
  { apply Forall_forall. intros x Hx. apply in_map_iff in Hx. destruct Hx as [v [<- Hv]]. now apply IHa; [|apply FA]. }
  assert (WK : Forall whole (map snd kw')).
  { unfold kw'. rewrite map_map. cbn [snd]. apply Forall_forall. intros x Hx. apply in_map_iff in Hx. destruct Hx as [k [<- Hk]]. apply (in_map snd) in Hk. now apply IHk; [|apply FK]. }
  assert (NK : map fst kw' = map fst kw) by (unfold kw'; rewrite map_map; reflexivity).
  assert (LA : length args' = length (params e)) by (unfold args'; now rewrite map_length).
  unfold call, handle. destruct (String.eqb_spec (cls e) a) as [E|E]; [split; [reflexivity|now apply F]|].
  rewrite bind_full; [|assumption|rewrite NK; exact K]. cbn [andthen fst snd]. rewrite mapO_same by (intros v Hv; apply settle_whole; rewrite Forall_forall in WA; now apply WA).
  cbn [andthen]. rewrite mapK_same by (intros v Hv; apply settle_whole; rewrite Forall_forall in WK; now apply WK). cbn [andthen].
  rewrite mk_full; [|assumption|assumption|now rewrite NK]. split; [reflexivity|]. constructor; try assumption. now rewrite NK.
Qed.
