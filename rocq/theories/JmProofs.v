From Coq Require Import String List Bool Arith ZArith Lia.
From Verif Require Import JmModel JmSpec.
Import ListNotations.
Local Open Scope list_scope.

Definition get (p : param) (kw : kwargs) : option value := match lookup (pname p) kw with Some v => Some v | None => pdef p end.
Lemma fill_cons : forall p s kw, fill (p :: s) [] kw = match get p kw with Some v => option_map (cons (pname p, v)) (fill s [] kw) | None => None end.
Proof. intros p s kw. cbn [fill]. unfold get. destruct (lookup (pname p) kw); reflexivity. Qed.
Lemma fill_ext : forall s a b, (forall p, In p s -> get p a = get p b) -> fill s [] a = fill s [] b.
Proof.
  intros s a b. induction s as [|p s IH]; intros H; [reflexivity|]. rewrite !fill_cons. rewrite (H p (or_introl eq_refl)).
  rewrite IH; [reflexivity|]. intros q Hq. apply H. right. exact Hq.
Qed.
Lemma fill_none : forall s kw, fill s [] kw = None <-> exists p, In p s /\ get p kw = None.
Proof.
  intros s kw. induction s as [|p s IH].
  - cbn. split; [discriminate|intros [p [[] _]]].
  - rewrite fill_cons. destruct (get p kw) as [v|] eqn:E.
    + destruct (fill s [] kw) as [l|]; cbn.
      * split; [discriminate|]. intros [q [[<-|Hq] Hn]]; [rewrite E in Hn; discriminate|]. enough (Some l = None) by discriminate.
        apply IH. exists q. split; assumption.
      * split; [|reflexivity]. intros _. destruct (proj1 IH eq_refl) as [q [Hq Hn]]. exists q. split; [right; exact Hq|exact Hn].
    + split; [|reflexivity]. intros _. exists p. split; [left; reflexivity|exact E].
Qed.
Lemma fill_app : forall a b kw, fill (a ++ b) [] kw = match fill a [] kw with Some l => option_map (app l) (fill b [] kw) | None => None end.
Proof.
  intros a b kw. induction a as [|p a IH].
  - cbn [app fill]. destruct (fill b [] kw); reflexivity.
  - cbn [app]. rewrite !fill_cons. destruct (get p kw) as [v|]; [|reflexivity]. rewrite IH.
    destruct (fill a [] kw) as [l|]; [|reflexivity]. cbn. destruct (fill b [] kw); reflexivity.
Qed.
Definition given (kw : kwargs) (p : param) : bool := match lookup (pname p) kw with Some _ => true | None => false end.
Lemma fill_start : forall pre pos r kw, length pos = length pre -> Forall (fun p => pkw p = false) pre ->
  fill (pre ++ r) pos kw = if existsb (given kw) pre then None else option_map (app (combine (names pre) pos)) (fill r [] kw).
Proof.
  intros pre. induction pre as [|p pre IH]; intros pos r kw HL HF.
  - destruct pos; [|discriminate]. cbn [app existsb names map combine]. destruct (fill r [] kw); reflexivity.
  - destruct pos as [|v pos]; [discriminate|]. inversion HF as [|p' pre' Hp HF']; subst. cbn [app fill existsb]. rewrite Hp.
    unfold given at 1. destruct (lookup (pname p) kw); [reflexivity|]. cbn [orb].
    rewrite IH; [|cbn in HL; lia|exact HF']. destruct (existsb (given kw) pre); [reflexivity|].
    cbn [names map combine]. destruct (fill r [] kw); reflexivity.
Qed.
Lemma given_names : forall kw a b, names a = names b -> existsb (given kw) a = existsb (given kw) b.
Proof.
  intros kw a. induction a as [|p a IH]; intros [|q b] H; try discriminate; [reflexivity|]. cbn in H. inversion H as [[H1 H2]].
  cbn [existsb]. rewrite (IH b H2). unfold given. rewrite H1. reflexivity.
Qed.
Lemma lookup_none : forall x kw, lookup x kw = None <-> ~ In x (map fst kw).
Proof.
  intros x kw. induction kw as [|[y v] kw IH]; cbn [lookup map fst In].
  - split; [intros _ []|reflexivity].
  - destruct (String.eqb_spec x y) as [E|E].
    + subst. split; [discriminate|intros H; destruct H; left; reflexivity].
    + rewrite IH. split; [intros H [H1|H1]; [subst; apply E; reflexivity|apply H; exact H1]|intros H H1; apply H; right; exact H1].
Qed.
Lemma lookup_app : forall x a b, lookup x (a ++ b) = match lookup x a with Some v => Some v | None => lookup x b end.
Proof. intros x a b. induction a as [|[y v] a IH]; [reflexivity|]. cbn [app lookup]. destruct (String.eqb x y); [reflexivity|exact IH]. Qed.
Lemma fill_names : forall s kw l, fill s [] kw = Some l -> map fst l = names s.
Proof.
  intros s. induction s as [|p s IH]; intros kw l H.
  - cbn in H. inversion H. reflexivity.
  - rewrite fill_cons in H. destruct (get p kw) as [v|]; [|discriminate]. destruct (fill s [] kw) as [l'|] eqn:E; [|discriminate].
    cbn in H. inversion H; subst. cbn. rewrite (IH kw l' E). reflexivity.
Qed.
Lemma fill_lookup : forall s kw l p, fill s [] kw = Some l -> NoDup (names s) -> In p s -> lookup (pname p) l = get p kw.
Proof.
  intros s. induction s as [|q s IH]; intros kw l p H HN Hp; [destruct Hp|].
  rewrite fill_cons in H. destruct (get q kw) as [v|] eqn:Eq; [|discriminate]. destruct (fill s [] kw) as [l'|] eqn:E; [|discriminate].
  cbn in H. inversion H; subst. cbn in HN. inversion HN as [|x xs Hx HN']; subst. cbn [lookup].
  destruct (String.eqb_spec (pname p) (pname q)) as [Epq|Epq].
  - destruct Hp as [<-|Hp]; [symmetry; exact Eq|]. destruct Hx. rewrite <- Epq. apply in_map. exact Hp.
  - destruct Hp as [<-|Hp]; [contradiction|]. apply (IH kw l' p E HN' Hp).
Qed.
Lemma combine_fst : forall (a : list string) (b : list value), length b = length a -> map fst (combine a b) = a.
Proof. intros a. induction a as [|x a IH]; intros [|y b] H; try discriminate; [reflexivity|]. cbn. rewrite IH; [reflexivity|]. cbn in H. lia. Qed.
Lemma fill_combine : forall pre pos rest, NoDup (names pre) -> length pos = length pre ->
  fill pre [] (combine (names pre) pos ++ rest) = Some (combine (names pre) pos).
Proof.
  intros pre. induction pre as [|p pre IH]; intros pos rest HN HL.
  - destruct pos; [reflexivity|discriminate].
  - destruct pos as [|v pos]; [discriminate|]. cbn in HN. inversion HN as [|x xs Hx HN']; subst.
    rewrite fill_cons. cbn [names map combine app]. unfold get. cbn [lookup]. rewrite String.eqb_refl.
    assert (E : fill pre [] ((pname p, v) :: combine (names pre) pos ++ rest) = fill pre [] (combine (names pre) pos ++ rest)).
    { apply fill_ext. intros q Hq. unfold get. cbn [lookup]. destruct (String.eqb_spec (pname q) (pname p)) as [Eq|Eq]; [|reflexivity].
      destruct Hx. rewrite <- Eq. apply in_map. exact Hq. }
    unfold names in E. rewrite E. pose proof (IH pos rest HN' ltac:(cbn in HL; lia)) as E1. unfold names in E1. rewrite E1. reflexivity.
Qed.
Lemma known_in : forall s x, known s x = true <-> In x (names s).
Proof.
  intros s x. unfold known. rewrite existsb_exists. split.
  - intros [y [Hy E]]. apply String.eqb_eq in E. subst. exact Hy.
  - intros H. exists x. split; [exact H|apply String.eqb_refl].
Qed.
(** What is needed of the two signatures of a method *)
Definition fits (m : method) : Prop :=
  NoDup (names (mterm m)) /\ NoDup (names (marray m)) /\
  (forall p, In p (mterm m) -> exists q, In q (marray m) /\ pname q = pname p /\ pdef q = pdef p) /\
  (forall q, In q (marray m) -> In (pname q) (names (mterm m)) \/ pdef q <> None).
Lemma name_unique : forall s p q, NoDup (names s) -> In p s -> In q s -> pname p = pname q -> p = q.
Proof.
  intros s p q HN. induction s as [|r s IH]; intros Hp Hq E; [destruct Hp|]. cbn in HN. inversion HN as [|x xs Hx HN']; subst.
  destruct Hp as [<-|Hp], Hq as [<-|Hq].
  - reflexivity.
  - destruct Hx. rewrite E. apply in_map. exact Hq.
  - destruct Hx. rewrite <- E. apply in_map. exact Hp.
  - apply IH; assumption.
Qed.
Lemma NoDup_app_not : forall (a b : list string) x, NoDup (a ++ b) -> In x a -> ~ In x b.
Proof.
  intros a b x H Ha Hb. induction a as [|y a IH]; [destruct Ha|]. cbn in H. inversion H as [|z zs Hz H']; subst.
  destruct Ha as [<-|Ha]; [apply Hz; apply in_or_app; right; exact Hb|apply IH; assumption].
Qed.
Lemma NoDup_app_l : forall (a b : list string), NoDup (a ++ b) -> NoDup a.
Proof.
  intros a b H. induction a as [|y a IH]; [constructor|]. cbn in H. inversion H as [|z zs Hz H']; subst.
  constructor; [intros Hy; apply Hz; apply in_or_app; left; exact Hy|apply IH; exact H'].
Qed.
Lemma NoDup_app_r : forall (a b : list string), NoDup (a ++ b) -> NoDup b.
Proof. intros a b H. induction a as [|y a IH]; [exact H|]. apply IH. cbn in H. inversion H; assumption. Qed.

Lemma calls_same : forall m pos kw, fits m -> common m pos kw -> term_call m pos kw = array_call m pos kw.
Proof.
  intros m pos kw (HN1 & HN2 & Hin & Hout) ((HL1 & HL2 & Hnames & HF1 & HF2) & Hkw).
  unfold term_call, array_call. set (n := length pos) in *.
  remember (firstn n (mterm m)) as pre1 eqn:Epre1. remember (skipn n (mterm m)) as r1 eqn:Er1.
  remember (firstn n (marray m)) as pre2 eqn:Epre2. remember (skipn n (marray m)) as r2 eqn:Er2.
  assert (Es : mterm m = pre1 ++ r1) by (subst; symmetry; apply firstn_skipn).
  assert (Et : marray m = pre2 ++ r2) by (subst; symmetry; apply firstn_skipn).
  assert (Hl1 : length pos = length pre1) by (subst pre1; rewrite firstn_length; unfold n in *; lia).
  assert (Hl2 : length pos = length pre2) by (subst pre2; rewrite firstn_length; unfold n in *; lia).
  clear Epre1 Er1 Epre2 Er2. rewrite Es, Et in *.
  assert (Hsub : forall x, In x (names (pre1 ++ r1)) -> In x (names (pre2 ++ r2))).
  { intros x Hx. unfold names in Hx. apply in_map_iff in Hx. destruct Hx as [p [<- Hp]]. destruct (Hin p Hp) as [q [Hq [Eq _]]].
    rewrite <- Eq. apply in_map. exact Hq. }
  assert (Hk1 : forallb (fun a => known (pre1 ++ r1) (fst a)) kw = true).
  { apply forallb_forall. intros [x v] Hx. apply known_in. apply (Hkw x v Hx). }
  assert (Hk2 : forallb (fun a => known (pre2 ++ r2) (fst a)) kw = true).
  { apply forallb_forall. intros [x v] Hx. apply known_in. apply Hsub. apply (Hkw x v Hx). }
  assert (HN1' : NoDup (names pre1 ++ names r1)) by (unfold names in *; rewrite <- map_app; exact HN1).
  assert (HN2' : NoDup (names pre2 ++ names r2)) by (unfold names in *; rewrite <- map_app; exact HN2).
  unfold bind. rewrite Hk1, Hk2. rewrite (fill_start pre1 pos r1 kw Hl1 HF1), (fill_start pre2 pos r2 kw Hl2 HF2).
  rewrite <- (given_names kw pre1 pre2 Hnames).
  destruct (existsb (given kw) pre1) eqn:Eg; [reflexivity|].
  (* parameters of the rest correspond *)
  assert (Hrest : forall p, In p r1 -> exists q, In q r2 /\ pname q = pname p /\ pdef q = pdef p).
  { intros p Hp. destruct (Hin p (in_or_app _ _ _ (or_intror Hp))) as [q [Hq [Eq Ed]]]. exists q. split; [|split; assumption].
    apply in_app_or in Hq. destruct Hq as [Hq|Hq]; [|exact Hq]. exfalso.
    apply (NoDup_app_not _ _ (pname p) HN1'); [|apply in_map; exact Hp]. rewrite Hnames, <- Eq. apply in_map. exact Hq. }
  destruct (fill r1 [] kw) as [l1|] eqn:E1; cbn [option_map].
  - assert (Hk3 : forallb (fun a => known (pre2 ++ r2) (fst a)) (combine (names pre1) pos ++ l1) = true).
    { apply forallb_forall. intros [x v] Hx. apply known_in. apply Hsub. cbn [fst].
      apply (in_map fst) in Hx. rewrite map_app in Hx. cbn [fst] in Hx.
      rewrite combine_fst in Hx; [|unfold names; rewrite map_length; exact Hl1]. rewrite (fill_names r1 kw l1 E1) in Hx.
      unfold names in *. rewrite map_app. exact Hx. }
    rewrite Hk3. rewrite fill_app. rewrite Hnames.
    rewrite (fill_combine pre2 pos l1 (NoDup_app_l _ _ HN2') Hl2).
    f_equal. apply fill_ext. intros q Hq.
    assert (Hnot : ~ In (pname q) (names pre2)).
    { intros H. apply (NoDup_app_not _ _ (pname q) HN2' H). apply in_map. exact Hq. }
    unfold get at 1. rewrite lookup_app.
    assert (Ec : lookup (pname q) (combine (names pre2) pos) = None).
    { apply lookup_none. rewrite combine_fst; [exact Hnot|unfold names; rewrite map_length; exact Hl2]. }
    rewrite Ec.
    destruct (in_dec string_dec (pname q) (names r1)) as [Hq1|Hq1].
    + unfold names in Hq1. apply in_map_iff in Hq1. destruct Hq1 as [p [Ep Hp]].
      destruct (Hrest p Hp) as [q' [Hq' [En Ed]]].
      assert (q' = q) by (apply (name_unique r2); [exact (NoDup_app_r _ _ HN2')|exact Hq'|exact Hq|congruence]). subst q'.
      rewrite <- Ep. rewrite (fill_lookup r1 kw l1 p E1 (NoDup_app_r _ _ HN1') Hp).
      destruct (get p kw) as [v|] eqn:Eg1.
      * unfold get in Eg1 |- *. rewrite En, Ed. symmetry. exact Eg1.
      * exfalso. assert (HX : fill r1 [] kw = None) by (apply fill_none; exists p; split; assumption). rewrite HX in E1. discriminate.
    + assert (El : lookup (pname q) l1 = None).
      { apply lookup_none. rewrite (fill_names r1 kw l1 E1). exact Hq1. }
      rewrite El. unfold get.
      assert (Ek : lookup (pname q) kw = None).
      { apply lookup_none. intros H. apply in_map_iff in H. destruct H as [[x v] [Ex Hx]]. cbn in Ex. subst x.
        apply Hkw in Hx. unfold names in Hx. rewrite map_app in Hx. apply in_app_or in Hx. destruct Hx as [Hx|Hx]; [|contradiction].
        apply Hnot. rewrite <- Hnames. exact Hx. }
      rewrite Ek. reflexivity.
  - apply fill_none in E1. destruct E1 as [p [Hp Eg1]]. destruct (Hrest p Hp) as [q [Hq [En Ed]]].
    assert (HX : fill r2 [] kw = None) by (apply fill_none; exists q; split; [exact Hq|]; unfold get in *; rewrite En, Ed; exact Eg1).
    rewrite HX. reflexivity.
Qed.

(** The table *)
Fixpoint nodupb (l : list string) : bool := match l with [] => true | x :: l' => negb (existsb (String.eqb x) l') && nodupb l' end.
Lemma nodupb_ok : forall l, nodupb l = true -> NoDup l.
Proof.
  intros l. induction l as [|x l IH]; intros H; [constructor|]. cbn in H. apply andb_true_iff in H. destruct H as [H1 H2].
  constructor; [|apply IH; exact H2]. intros Hx. apply negb_true_iff in H1. enough (existsb (String.eqb x) l = true) by congruence.
  apply existsb_exists. exists x. split; [exact Hx|apply String.eqb_refl].
Qed.
Definition defs (a b : option value) : bool :=
  match a, b with
  | None, None => true
  | Some VNone, Some VNone | Some VTrue, Some VTrue | Some VFalse, Some VFalse => true
  | Some (VInt x), Some (VInt y) => Z.eqb x y
  | Some (VText x), Some (VText y) => String.eqb x y
  | _, _ => false
  end.
Lemma defs_ok : forall a b, defs a b = true -> a = b.
Proof.
  intros [[]|] [[]|] H; cbn in H; try discriminate; try reflexivity.
  - apply Z.eqb_eq in H. subst. reflexivity.
  - apply String.eqb_eq in H. subst. reflexivity.
Qed.
Definition fitsb (m : method) : bool :=
  nodupb (names (mterm m)) && nodupb (names (marray m)) &&
  forallb (fun p => existsb (fun q => String.eqb (pname q) (pname p) && defs (pdef q) (pdef p)) (marray m)) (mterm m) &&
  forallb (fun q => known (mterm m) (pname q) || match pdef q with Some _ => true | None => false end) (marray m).
Lemma fitsb_ok : forall m, fitsb m = true -> fits m.
Proof.
  intros m H. unfold fitsb in H. apply andb_true_iff in H. destruct H as [H H4]. apply andb_true_iff in H. destruct H as [H H3].
  apply andb_true_iff in H. destruct H as [H1 H2]. split; [apply nodupb_ok; exact H1|]. split; [apply nodupb_ok; exact H2|]. split.
  - intros p Hp. rewrite forallb_forall in H3. specialize (H3 p Hp). apply existsb_exists in H3. destruct H3 as [q [Hq E]].
    apply andb_true_iff in E. destruct E as [E1 E2]. exists q. split; [exact Hq|]. split; [apply String.eqb_eq; exact E1|apply defs_ok; exact E2].
  - intros q Hq. rewrite forallb_forall in H4. specialize (H4 q Hq). apply orb_true_iff in H4. destruct H4 as [H4|H4].
    + left. apply known_in. exact H4.
    + right. intros E. rewrite E in H4. discriminate.
Qed.
Lemma table_fits : forall m, In m table -> fits m.
Proof.
  intros m Hm. apply fitsb_ok. assert (H : forallb fitsb table = true) by (vm_compute; reflexivity).
  rewrite forallb_forall in H. apply H. exact Hm.
Qed.
Lemma methods_same : forall m, In m table -> forall pos kw, common m pos kw -> term_call m pos kw = array_call m pos kw.
Proof. intros m Hm pos kw H. apply calls_same; [apply table_fits; exact Hm|exact H]. Qed.
Lemma keywords_same : forall m, In m table -> forall kw, (forall x v, In (x, v) kw -> In x (names (mterm m))) ->
  term_call m [] kw = array_call m [] kw.
Proof.
  intros m Hm kw H. apply methods_same; [exact Hm|]. split; [|exact H]. unfold same_start. cbn.
  repeat split; try lia; constructor.
Qed.
Fixpoint starts (n : nat) (s t : list param) : bool :=
  match n, s, t with
  | 0, _, _ => true
  | S n', p :: s', q :: t' => String.eqb (pname p) (pname q) && negb (pkw p) && negb (pkw q) && starts n' s' t'
  | _, _, _ => false
  end.
Lemma starts_ok : forall n s t, starts n s t = true -> same_start n s t.
Proof.
  intros n. induction n as [|n IH]; intros s t H.
  - unfold same_start. cbn. repeat split; try lia; constructor.
  - destruct s as [|p s], t as [|q t]; try discriminate. cbn [starts] in H. apply andb_true_iff in H. destruct H as [H H4].
    apply andb_true_iff in H. destruct H as [H H3]. apply andb_true_iff in H. destruct H as [H1 H2].
    apply String.eqb_eq in H1. apply negb_true_iff in H2. apply negb_true_iff in H3.
    destruct (IH s t H4) as (A & B & C & D & E). unfold same_start. cbn [length firstn]. unfold names in *. cbn [map].
    repeat split; try lia; [rewrite H1, C; reflexivity|constructor; assumption|constructor; assumption].
Qed.
Lemma starts_less : forall n k s t, k <= n -> starts n s t = true -> starts k s t = true.
Proof.
  intros n. induction n as [|n IH]; intros k s t Hk H; destruct k as [|k]; try reflexivity; [lia|].
  destruct s as [|p s], t as [|q t]; try discriminate. cbn [starts] in *. apply andb_true_iff in H. destruct H as [H H4].
  rewrite H. cbn. apply IH; [lia|exact H4].
Qed.
Lemma positions_table : map fst by_position = map mname table /\
  forallb (fun a => starts (snd (fst a)) (mterm (snd a)) (marray (snd a))) (combine by_position table) = true.
Proof. split; vm_compute; reflexivity. Qed.
Lemma combine_names : forall (l : list (string * nat)) t m, map fst l = map mname t -> In m t -> exists n, In ((mname m, n), m) (combine l t).
Proof.
  intros l. induction l as [|[x n] l IH]; intros [|q t] m H Hm; try discriminate; [destruct Hm|]. cbn in H. inversion H as [[H1 H2]].
  destruct Hm as [<-|Hm].
  - exists n. left. reflexivity.
  - destruct (IH t m H2 Hm) as [k Hk]. exists k. right. exact Hk.
Qed.
Lemma positions_unique : forall x n k, In (x, n) by_position -> In (x, k) by_position -> n = k.
Proof.
  assert (H : nodupb (map fst by_position) = true) by (vm_compute; reflexivity). apply nodupb_ok in H.
  revert H. generalize by_position as l. intros l HN x n k H1 H2. induction l as [|[y j] l IH]; [destruct H1|].
  cbn in HN. inversion HN as [|z zs Hz HN']; subst. destruct H1 as [H1|H1], H2 as [H2|H2].
  - congruence.
  - exfalso. inversion H1; subst. apply Hz. apply (in_map fst) in H2. exact H2.
  - exfalso. inversion H2; subst. apply Hz. apply (in_map fst) in H1. exact H1.
  - apply IH; assumption.
Qed.
Lemma positions_same : forall m n, In m table -> In (mname m, n) by_position -> forall pos kw, length pos <= n ->
  (forall x w, In (x, w) kw -> In x (names (mterm m))) -> term_call m pos kw = array_call m pos kw.
Proof.
  intros m n Hm Hn pos kw HL H. apply methods_same; [exact Hm|]. split; [|exact H]. apply starts_ok.
  destruct positions_table as [E1 E2]. destruct (combine_names _ _ m E1 Hm) as [k Hk].
  assert (k = n) by (apply (positions_unique (mname m)); [apply in_combine_l in Hk; exact Hk|exact Hn]). subst k.
  rewrite forallb_forall in E2. specialize (E2 _ Hk). cbn [fst snd] in E2. apply (starts_less n); assumption.
Qed.
Lemma positions_all : forall m, In m table -> exists n, In (mname m, n) by_position.
Proof. intros m Hm. destruct (combine_names _ _ m (proj1 positions_table) Hm) as [n Hn]. exists n. apply in_combine_l in Hn. exact Hn. Qed.

(** What goes wrong, for all values *)
Definition named (x : string) : method := match find (fun m => String.eqb (mname m) x) table with Some m => m | None => M x [] [] end.
Definition shifted : list string := ["all"; "any"; "argmax"; "argmin"; "max"; "mean"; "min"; "prod"; "ptp"; "std"; "sum"; "var"]%string.
Lemma named_in : forall x, existsb (fun m => String.eqb (mname m) x) table = true -> In (named x) table /\ mname (named x) = x.
Proof.
  intros x H. unfold named. destruct (find (fun m => String.eqb (mname m) x) table) as [m|] eqn:E.
  - apply find_some in E. destruct E as [E1 E2]. split; [exact E1|apply String.eqb_eq; exact E2].
  - exfalso. apply existsb_exists in H. destruct H as [m [Hm Em]]. pose proof (find_none _ _ E m Hm) as E1. cbn in E1. congruence.
Qed.
Lemma shifted_different : forall x a v, In x shifted ->
  In (named x) table /\ mname (named x) = x /\ exists s t, 
  term_call (named x) [a; v] [] = Some s /\ array_call (named x) [a; v] [] = Some t /\
  lookup "keepdims" s = Some v /\ lookup "keepdims" t = Some VFalse /\ (lookup "dtype" t = Some v \/ lookup "out" t = Some v).
Proof.
  intros x a v Hx. assert (H : existsb (fun m => String.eqb (mname m) x) table = true).
  { cbn [In shifted] in Hx. repeat (destruct Hx as [<-|Hx]; [reflexivity|]). destruct Hx. }
  destruct (named_in x H) as [H1 H2]. split; [exact H1|]. split; [exact H2|]. clear H1 H2 H. cbn [In shifted] in Hx.
  repeat (destruct Hx as [<-|Hx]; [eexists _, _; repeat split; try reflexivity; try (left; reflexivity); right; reflexivity|]).
  destruct Hx.
Qed.
Lemma shifted_refuted : exists m pos s t, In m table /\ term_call m pos [] = Some s /\ array_call m pos [] = Some t /\ s <> t.
Proof.
  exists (named "mean"), [VInt 0; VOther 32]. destruct (shifted_different "mean" (VInt 0) (VOther 32)) as [H1 [_ [s [t [E1 [E2 [E3 [E4 _]]]]]]]]; [cbn; tauto|].
  exists s, t. split; [exact H1|]. split; [exact E1|]. split; [exact E2|]. intros E. rewrite E in E3. rewrite E3 in E4. discriminate.
Qed.
Lemma sort_positional : forall x a v, x = "sort"%string \/ x = "argsort"%string ->
  (exists s, term_call (named x) [a; v] [] = Some s /\ lookup "descending" s = Some v) /\ array_call (named x) [a; v] [] = None.
Proof. intros x a v [-> | ->]; (split; [eexists; split; reflexivity|reflexivity]). Qed.
Lemma dtype_refused : forall x v, In x ["mean"; "std"; "var"; "sum"; "prod"]%string ->
  term_call (named x) [] [("dtype"%string, v)] = None /\
  exists t, array_call (named x) [] [("dtype"%string, v)] = Some t /\ lookup "dtype" t = Some v.
Proof.
  intros x v Hx. cbn [In] in Hx.
  repeat (destruct Hx as [<-|Hx]; [split; [reflexivity|eexists; split; reflexivity]|]). destruct Hx.
Qed.
Lemma transpose_same : forall l, term_transpose [VTuple l] [] = array_transpose [VTuple l] [] /\ term_transpose [VList l] [] = array_transpose [VList l] [] /\
  term_transpose [] [] = array_transpose [] [] /\ term_transpose [VNone] [] = array_transpose [VNone] [] /\
  term_transpose [] [] = Some VNone.
Proof. intros l. repeat split. Qed.
Lemma transpose_axes : forall a b l, term_transpose (a :: b :: l) [] = None /\ array_transpose (a :: b :: l) [] = Some (VTuple (a :: b :: l)).
Proof.
  intros a b l. split; [reflexivity|]. destruct a; reflexivity.
Qed.
Lemma transpose_keyword : forall v, term_transpose [] [("axes"%string, v)] = Some v /\ array_transpose [] [("axes"%string, v)] = None.
Proof. intros v. split; reflexivity. Qed.
Lemma reshape_same : forall args kw, term_reshape args kw = array_reshape args kw.
Proof.
  intros args kw. unfold term_reshape, array_reshape.
  destruct args as [|a [|b args]]; cbv zeta.
  - reflexivity.
  - assert (E1 : sizes (match [a] with [VTuple l] => VTuple l | [VList l] => VList l | _ => VTuple [a] end) = sizes a) by (destruct a; reflexivity).
    rewrite E1. reflexivity.
  - destruct a; reflexivity.
Qed.
Lemma updates_differ : forall next a k v t1 n1 n2 t2 n3, at_set next a k v = (t1, n1) -> n1 <= n2 -> at_set n2 a k v = (t2, n3) -> t1 <> t2.
Proof.
  intros next a k v t1 n1 n2 t2 n3 H1 Hn H2 E. unfold at_set in *. injection H1 as <- <-. injection H2 as <- <-. injection E. lia.
Qed.
Lemma further_missing : forall x, In x further -> ~ In x term_methods.
Proof.
  intros x Hx H. assert (E : existsb (fun y => existsb (String.eqb y) term_methods) further = false) by (vm_compute; reflexivity).
  enough (existsb (fun y => existsb (String.eqb y) term_methods) further = true) by congruence.
  apply existsb_exists. exists x. split; [exact Hx|]. apply existsb_exists. exists x. split; [exact H|apply String.eqb_refl].
Qed.
Lemma sort_refuted : exists m, In m table /\ forall a v, (exists s, term_call m [a; v] [] = Some s /\ lookup "descending" s = Some v) /\ array_call m [a; v] [] = None.
Proof. exists (named "sort"). split; [apply named_in; reflexivity|]. intros a v. apply sort_positional. left. reflexivity. Qed.
Lemma dtype_refuted : exists m, In m table /\ forall v, term_call m [] [("dtype"%string, v)] = None /\
  exists t, array_call m [] [("dtype"%string, v)] = Some t /\ lookup "dtype" t = Some v.
Proof. exists (named "mean"). split; [apply named_in; reflexivity|]. intros v. apply dtype_refused. cbn. tauto. Qed.
Lemma transpose_refuted : exists pos v, term_transpose pos [] = None /\ array_transpose pos [] = Some v.
Proof. exists [VInt 1; VInt 0], (VTuple [VInt 1; VInt 0]). apply transpose_axes. Qed.
Lemma missing_refuted : exists x, In x further /\ ~ In x term_methods.
Proof. exists "flatten"%string. assert (H : In "flatten"%string further) by (cbn; tauto). split; [exact H|apply further_missing; exact H]. Qed.
Lemma update_refuted : exists next a k v, fst (at_set next a k v) <> fst (at_set (snd (at_set next a k v)) a k v).
Proof. exists 0, 1, 2, 3. discriminate. Qed.
