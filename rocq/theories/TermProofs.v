(** Proofs about TermModel: binding of arguments, scopes, renaming. *)
From Coq Require Import List ZArith String Bool Arith Lia.
From Verif Require Import TermModel TermSpec.
Import ListNotations.
Set Implicit Arguments.

(** ** Induction on expressions *)
Section ExprInd.
Variable P : expr -> Prop.
Hypothesis Hconst : forall z, P (EConst z).
Hypothesis Hop : forall o, P (EOp o).
Hypothesis Hterm : forall o a k, Forall P a -> Forall (fun x => P (snd x)) k -> P (ETerm o a k).
Hypothesis Hcoll : forall c l, Forall P l -> P (EColl c l).

Fixpoint expr_ind2 (t : expr) : P t :=
  match t with
  | EConst z => Hconst z
  | EOp o => Hop o
  | ETerm o a k =>
      Hterm o
        ((fix go (l : list expr) : Forall P l :=
            match l with [] => Forall_nil _ | e :: l' => Forall_cons e (expr_ind2 e) (go l') end) a)
        ((fix go (l : list (string * expr)) : Forall (fun x => P (snd x)) l :=
            match l with [] => Forall_nil _ | e :: l' => Forall_cons e (expr_ind2 (snd e)) (go l') end) k)
  | EColl c l =>
      Hcoll c
        ((fix go (l : list expr) : Forall P l :=
            match l with [] => Forall_nil _ | e :: l' => Forall_cons e (expr_ind2 e) (go l') end) l)
  end.
End ExprInd.

(** ** Booleans *)
Lemma op_eqb_eq x y : op_eqb x y = true <-> x = y.
Proof.
  unfold op_eqb. destruct x as [b c], y as [b' c']. cbn [base copy].
  rewrite andb_true_iff, !Nat.eqb_eq. split; [intros [-> ->]; reflexivity|intros H; inversion H; split; reflexivity].
Qed.
Lemma op_eqb_refl x : op_eqb x x = true.
Proof. apply op_eqb_eq. reflexivity. Qed.
Lemma op_eqb_neq x y : op_eqb x y = false <-> x <> y.
Proof. rewrite <- op_eqb_eq. destruct (op_eqb x y); split; congruence. Qed.

Lemma memo_in x l : memo x l = true <-> In x l.
Proof.
  unfold memo. rewrite existsb_exists. split.
  - intros (y & Hy & E). apply op_eqb_eq in E. subst. exact Hy.
  - intros H. exists x. split; [exact H|apply op_eqb_refl].
Qed.
Lemma memo_notin x l : memo x l = false <-> ~ In x l.
Proof. rewrite <- memo_in. destruct (memo x l); split; congruence. Qed.

Lemma memn_in x l : memn x l = true <-> In x l.
Proof.
  unfold memn. rewrite existsb_exists. split.
  - intros (y & Hy & E). apply Nat.eqb_eq in E. subst. exact Hy.
  - intros H. exists x. split; [exact H|apply Nat.eqb_refl].
Qed.
Lemma subset_incl l1 l2 : subset l1 l2 = true <-> incl l1 l2.
Proof.
  unfold subset. rewrite forallb_forall. split; intros H x Hx.
  - apply memn_in. apply H. exact Hx.
  - apply memn_in. apply H. exact Hx.
Qed.
Lemma tv_eqb_eq x y : tv_eqb x y = true <-> x = y.
Proof.
  destruct x, y; cbn [tv_eqb]; try (split; congruence).
  rewrite Nat.eqb_eq. split; congruence.
Qed.
Lemma memt_in x l : memt x l = true <-> In x l.
Proof.
  unfold memt. rewrite existsb_exists. split.
  - intros (y & Hy & E). apply tv_eqb_eq in E. subst. exact Hy.
  - intros H. exists x. split; [exact H|apply tv_eqb_eq; reflexivity].
Qed.
Lemma subt_incl l1 l2 : subt l1 l2 = true <-> incl l1 l2.
Proof.
  unfold subt. rewrite forallb_forall. split; intros H x Hx.
  - apply memt_in. apply H. exact Hx.
  - apply memt_in. apply H. exact Hx.
Qed.
Lemma nodupb_spec l : nodupb l = true <-> NoDup l.
Proof.
  induction l as [|x l IH]; cbn [nodupb]; [split; [constructor|reflexivity]|].
  rewrite andb_true_iff, negb_true_iff, memo_notin, IH. split.
  - intros [H1 H2]. constructor; assumption.
  - intros H. inversion H; subst. split; assumption.
Qed.

(** ** infer_annotations *)

Lemma fold_inter_in ps : forall acc x,
  In x (fold_left (fun acc p => inter acc (ord p)) ps acc) <-> In x acc /\ forall p, In p ps -> In x (ord p).
Proof.
  induction ps as [|q ps IH]; intros acc x; cbn [fold_left].
  - split; [intros H; split; [exact H|intros p []]|intros [H _]; exact H].
  - rewrite IH. unfold inter. rewrite filter_In, memn_in. split.
    + intros [[H1 H2] H3]. split; [exact H1|]. intros p [<-|Hp]; [exact H2|apply H3; exact Hp].
    + intros [H1 H2]. split; [split; [exact H1|apply H2; left; reflexivity]|].
      intros p Hp. apply H2. right. exact Hp.
Qed.

Lemma root_in s x : In x (root_ordinal s) <-> In x (ret s) /\ forall p, In p (params s) -> In x (ord p).
Proof. apply fold_inter_in. Qed.

(** The ordinals of a signature. *)
Definition ordinals (s : sig) : list (list nat) := ret s :: map ord (params s).

Lemma root_sub s o : In o (ordinals s) -> incl (root_ordinal s) o.
Proof.
  intros Ho x Hx. apply root_in in Hx. destruct Hx as [H1 H2]. destruct Ho as [<-|Ho]; [exact H1|].
  apply in_map_iff in Ho. destruct Ho as (p & <- & Hp). apply H2. exact Hp.
Qed.

Lemma infer_ord_sub s o1 o2 : In o2 (ordinals s) ->
  subt (infer_ord s o1) (infer_ord s o2) = subset o1 o2.
Proof.
  intros Ho. apply eq_true_iff_eq. rewrite subt_incl, subset_incl. unfold infer_ord.
  pose proof (@root_sub s o2 Ho) as Hr.
  destruct (root_ordinal s) as [|r0 r] eqn:Er.
  - split; intros H x Hx.
    + assert (Hi : In (TV x) (map TV o1 ++ [Root])) by (apply in_or_app; left; apply in_map; exact Hx).
      apply H in Hi. apply in_app_or in Hi. destruct Hi as [Hi|[Hi|[]]]; [|discriminate Hi].
      apply in_map_iff in Hi. destruct Hi as (y & Hy & Hi). inversion Hy; subst. exact Hi.
    + apply in_app_or in Hx. apply in_or_app. destruct Hx as [Hx|Hx]; [left|right; exact Hx].
      apply in_map_iff in Hx. destruct Hx as (y & <- & Hy). apply in_map. apply H. exact Hy.
  - split; intros H x Hx.
    + assert (Hi : In (TV x) (map TV o1 ++ map TV (r0 :: r))) by (apply in_or_app; left; apply in_map; exact Hx).
      apply H in Hi. apply in_app_or in Hi.
      destruct Hi as [Hi|Hi]; apply in_map_iff in Hi; destruct Hi as (y & Hy & Hi); inversion Hy; subst;
        [exact Hi|apply Hr; exact Hi].
    + apply in_app_or in Hx. apply in_or_app. destruct Hx as [Hx|Hx]; [left|right; exact Hx].
      apply in_map_iff in Hx. destruct Hx as (y & <- & Hy). apply in_map. apply H. exact Hy.
Qed.

(** The root scope of the inferred signature is the one computed at the start and is
    not empty: the post-condition asserted at syntax.py:317. *)
Lemma infer_root s x :
  (forall o, In o (ordinals s) -> In x (infer_ord s o)) <->
  In x (match root_ordinal s with [] => [Root] | r => map TV r end).
Proof.
  unfold infer_ord. split.
  - intros H. assert (Hret : In (ret s) (ordinals s)) by (left; reflexivity).
    destruct x as [|n].
    + specialize (H _ Hret). apply in_app_or in H. destruct H as [H|H]; [|exact H].
      apply in_map_iff in H. destruct H as (y & Hy & _). discriminate Hy.
    + destruct (in_dec Nat.eq_dec n (root_ordinal s)) as [Hn|Hn].
      * destruct (root_ordinal s) as [|r0 r]; [destruct Hn|]. apply in_map. exact Hn.
      * exfalso. apply Hn. apply root_in. split.
        -- specialize (H _ Hret). apply in_app_or in H. destruct H as [H|H].
           ++ apply in_map_iff in H. destruct H as (y & Hy & Hi). inversion Hy; subst. exact Hi.
           ++ destruct (root_ordinal s) as [|r0 r] eqn:Er; [destruct H as [H|[]]; discriminate H|].
              apply in_map_iff in H. destruct H as (y & Hy & Hi). inversion Hy; subst. contradiction.
        -- intros p Hp. assert (Ho : In (ord p) (ordinals s)) by (right; apply in_map; exact Hp).
           specialize (H _ Ho). apply in_app_or in H. destruct H as [H|H].
           ++ apply in_map_iff in H. destruct H as (y & Hy & Hi). inversion Hy; subst. exact Hi.
           ++ destruct (root_ordinal s) as [|r0 r] eqn:Er; [destruct H as [H|[]]; discriminate H|].
              apply in_map_iff in H. destruct H as (y & Hy & Hi). inversion Hy; subst. contradiction.
  - intros H o _. apply in_or_app. right. exact H.
Qed.

Lemma inferred_scopes s o : In o (ordinals s) ->
  (forall n, In n o -> In (TV n) (infer_ord s o)) /\
  exists r, forall o', In o' (ordinals s) -> In r (infer_ord s o').
Proof.
  intros _. split.
  - intros n Hn. unfold infer_ord. apply in_or_app. left. apply in_map. exact Hn.
  - destruct (root_ordinal s) as [|r0 r] eqn:E.
    + exists Root. apply infer_root. rewrite E. left. reflexivity.
    + exists (TV r0). apply infer_root. rewrite E. left. reflexivity.
Qed.


(** ** bind *)

Definition a1map (ps : list param) (a : list expr) : list (param * aval) :=
  map (fun pe => (fst pe, A1 (snd pe))) (combine ps a).

Lemma take_none name k : take name k = None <-> ~ In name (map fst k).
Proof.
  induction k as [|[n e] k IH]; cbn [take map fst In]; [split; [intros _ []|reflexivity]|].
  destruct (String.eqb n name) eqn:E.
  - apply String.eqb_eq in E. split; [discriminate|]. intros H. exfalso. apply H. left. exact E.
  - apply String.eqb_neq in E. destruct (take name k) as [[x r]|].
    + split; [discriminate|]. intros H. exfalso. destruct IH as [_ IH].
      assert (Hn : ~ In name (map fst k)) by (intros Hi; apply H; right; exact Hi).
      specialize (IH Hn). discriminate IH.
    + split; [|reflexivity]. intros _ [H|H]; [exact (E H)|]. apply (proj1 IH eq_refl). exact H.
Qed.

Lemma take_some name k : forall e k', take name k = Some (e, k') ->
  incl (map fst k') (map fst k) /\
  (NoDup (map fst k) -> NoDup (map fst k') /\ ~ In name (map fst k')).
Proof.
  induction k as [|[n x] k IH]; intros e k' H; cbn [take] in H; [discriminate H|].
  destruct (String.eqb n name) eqn:E.
  - inversion H; subst. apply String.eqb_eq in E. subst name. cbn [map fst]. split.
    + apply incl_tl, incl_refl.
    + intros Hn. inversion Hn; subst. split; assumption.
  - destruct (take name k) as [[y r]|]; [|discriminate H]. inversion H; subst.
    destruct (IH _ _ eq_refl) as [Hi Hd]. cbn [map fst]. split.
    + intros z [Hz|Hz]; [left; exact Hz|right; apply Hi; exact Hz].
    + intros Hn. inversion Hn as [|? ? Hx Hk]; subst. destruct (Hd Hk) as [Hd1 Hd2]. split.
      * constructor; [|exact Hd1]. intros Hy. apply Hx. apply Hi. exact Hy.
      * intros [Hy|Hy]; [apply String.eqb_neq in E; congruence|exact (Hd2 Hy)].
Qed.

Lemma bind_posonly_full ps : forall a, List.length ps <= List.length a ->
  bind_posonly ps a = Ok (a1map ps a, skipn (List.length ps) a).
Proof.
  induction ps as [|p ps IH]; intros a H; cbn [bind_posonly]; [reflexivity|].
  destruct a as [|e a]; [cbn in H; lia|]. cbn [List.length] in H.
  rewrite IH by lia. reflexivity.
Qed.

Lemma bind_poskw_full ps k : (forall p, In p ps -> ~ In (pname p) (map fst k)) ->
  forall a, List.length ps <= List.length a ->
  bind_poskw ps a k = Ok (a1map ps a, skipn (List.length ps) a, k).
Proof.
  induction ps as [|p ps IH]; intros Hk a H; cbn [bind_poskw]; [reflexivity|].
  destruct a as [|e a]; [cbn in H; lia|]. cbn [List.length] in H.
  assert (E : take (pname p) k = None) by (apply take_none; apply Hk; left; reflexivity).
  rewrite E. rewrite IH; [reflexivity| |lia]. intros q Hq. apply Hk. right. exact Hq.
Qed.

Lemma bind_kwonly_full ps extra : forall k, map fst k = map pname ps ++ extra ->
  bind_kwonly ps k = Ok (a1map ps (map snd k), skipn (List.length ps) k).
Proof.
  induction ps as [|p ps IH]; intros k H; cbn [bind_kwonly]; [reflexivity|].
  destruct k as [|[n e] k]; [discriminate H|]. cbn [map app fst] in H. inversion H as [[Hn Hr]].
  cbn [take]. rewrite String.eqb_refl. rewrite (IH _ Hr). reflexivity.
Qed.

Definition wf_sig (s : sig) : Prop := NoDup (map pname (params s)).

(** The shape of arguments stored in terms: every parameter without a star is
    given, positional ones by position. *)
Definition normal (s : sig) (na : nat) (names : list string) : Prop :=
  List.length (posonly s ++ poskw s) <= na /\
  (varpos s = None -> na = List.length (posonly s ++ poskw s)) /\
  exists extra, names = map pname (kwonly s) ++ extra /\
    (varkw s = None -> extra = []) /\ NoDup extra /\
    forall x, In x extra -> ~ In x (map pname (poskw s ++ kwonly s)).

Definition fill (s : sig) (a : args) (k : kwargs) : list (param * aval) :=
  a1map (posonly s) a ++ a1map (poskw s) (skipn (List.length (posonly s)) a)
  ++ map (fun p => (p, APos (skipn (List.length (posonly s ++ poskw s)) a))) (opt_list (varpos s))
  ++ a1map (kwonly s) (map snd k)
  ++ map (fun p => (p, AKw (skipn (List.length (kwonly s)) k))) (opt_list (varkw s)).

Lemma skipn_add {A} n : forall m (l : list A), skipn n (skipn m l) = skipn (m + n) l.
Proof.
  induction m as [|m IH]; intros l; [reflexivity|]. destruct l as [|x l]; [cbn; destruct n; reflexivity|].
  cbn [skipn Nat.add]. apply IH.
Qed.

Lemma params_names s : map pname (params s) =
  map pname (posonly s) ++ map pname (poskw s) ++ map pname (opt_list (varpos s))
  ++ map pname (kwonly s) ++ map pname (opt_list (varkw s)).
Proof. unfold params. rewrite !map_app. reflexivity. Qed.

Lemma NoDup_app_disj {A} (l1 l2 : list A) : NoDup (l1 ++ l2) -> forall x, In x l1 -> ~ In x l2.
Proof.
  induction l1 as [|y l1 IH]; intros H x Hx; [destruct Hx|]. cbn in H. inversion H as [|? ? Hy Hr]; subst.
  destruct Hx as [<-|Hx]; [intros H2; apply Hy; apply in_or_app; right; exact H2|apply IH; assumption].
Qed.
Lemma NoDup_app_r {A} (l1 l2 : list A) : NoDup (l1 ++ l2) -> NoDup l2.
Proof. induction l1 as [|y l1 IH]; intros H; [exact H|]. inversion H; subst. apply IH. assumption. Qed.
Lemma NoDup_app_l {A} (l1 l2 : list A) : NoDup (l1 ++ l2) -> NoDup l1.
Proof.
  induction l1 as [|y l1 IH]; intros H; [constructor|]. inversion H as [|? ? Hy Hr]; subst.
  constructor; [intros Hi; apply Hy; apply in_or_app; left; exact Hi|apply IH; exact Hr].
Qed.
Lemma NoDup_app_intro {A} (l1 l2 : list A) : NoDup l1 -> NoDup l2 -> (forall x, In x l1 -> ~ In x l2) -> NoDup (l1 ++ l2).
Proof.
  induction l1 as [|y l1 IH]; intros H1 H2 H; [exact H2|]. cbn. inversion H1; subst. constructor.
  - intros Hi. apply in_app_or in Hi. destruct Hi as [Hi|Hi]; [contradiction|].
    exact (H y (or_introl eq_refl) Hi).
  - apply IH; try assumption. intros x Hx. apply H. right. exact Hx.
Qed.

Lemma bind_normal s a k : wf_sig s -> normal s (List.length a) (map fst k) -> bind s a k = Ok (fill s a k).
Proof.
  intros Hw (Hl & Hvp & extra & Hn & Hvk & _ & Hex). unfold bind, fill.
  rewrite app_length in Hl. rewrite bind_posonly_full by lia.
  rewrite bind_poskw_full.
  - rewrite skipn_add. rewrite app_length in Hvp.
    assert (E3 : bind_kwonly (kwonly s) k = Ok (a1map (kwonly s) (map snd k), skipn (List.length (kwonly s)) k))
      by (apply bind_kwonly_full with (extra := extra); exact Hn).
    assert (Hlen : List.length k = List.length (kwonly s) + List.length extra)
      by (rewrite <- (map_length fst k), Hn, app_length, map_length; reflexivity).
    rewrite E3. rewrite app_length.
    destruct (varpos s) as [vp|] eqn:Evp.
    + destruct (varkw s) as [vk|] eqn:Evk; [reflexivity|].
      rewrite (Hvk eq_refl) in Hlen. cbn [List.length] in Hlen.
      rewrite skipn_all2 by lia. reflexivity.
    + rewrite (skipn_all2 (n := List.length (posonly s) + List.length (poskw s)) a) by (rewrite (Hvp eq_refl); lia).
      destruct (varkw s) as [vk|] eqn:Evk; [reflexivity|].
      rewrite (Hvk eq_refl) in Hlen. cbn [List.length] in Hlen.
      rewrite skipn_all2 by lia. reflexivity.
  - intros p Hp. rewrite Hn. intros Hi. apply in_app_or in Hi. destruct Hi as [Hi|Hi].
    + unfold wf_sig in Hw. rewrite params_names in Hw. apply NoDup_app_r in Hw.
      apply (NoDup_app_disj _ _ Hw (pname p)); [apply in_map; exact Hp|].
      apply in_or_app. right. apply in_or_app. left. exact Hi.
    + apply (Hex _ Hi). rewrite map_app. apply in_or_app. left. apply in_map. exact Hp.
  - rewrite skipn_length. lia.
Qed.

Lemma a1map_app ps1 : forall ps2 a, List.length ps1 <= List.length a ->
  a1map (ps1 ++ ps2) a = a1map ps1 a ++ a1map ps2 (skipn (List.length ps1) a).
Proof.
  induction ps1 as [|p ps1 IH]; intros ps2 a H; [reflexivity|].
  destruct a as [|e a]; [cbn in H; lia|]. cbn [List.length] in H.
  unfold a1map. cbn [app combine map skipn List.length fst snd]. f_equal. apply IH. lia.
Qed.

Lemma bind_posonly_inv ps : forall a b r, bind_posonly ps a = Ok (b, r) ->
  exists vals, List.length vals = List.length ps /\ b = a1map ps vals.
Proof.
  induction ps as [|p ps IH]; intros a b r H; cbn [bind_posonly] in H.
  - inversion H; subst. exists []. split; reflexivity.
  - destruct a as [|e a].
    + destruct (dflt p) as [e|]; [|discriminate H].
      destruct (bind_posonly ps []) as [[b1 r1]|] eqn:E; [|discriminate H]. inversion H; subst.
      destruct (IH _ _ _ E) as (vals & Hl & ->). exists (e :: vals). split; [cbn; rewrite Hl; reflexivity|reflexivity].
    + destruct (bind_posonly ps a) as [[b1 r1]|] eqn:E; [|discriminate H]. inversion H; subst.
      destruct (IH _ _ _ E) as (vals & Hl & ->). exists (e :: vals). split; [cbn; rewrite Hl; reflexivity|reflexivity].
Qed.

Lemma bind_poskw_inv ps : forall a k b r k', NoDup (map fst k) -> bind_poskw ps a k = Ok (b, r, k') ->
  (exists vals, List.length vals = List.length ps /\ b = a1map ps vals) /\
  NoDup (map fst k') /\ incl (map fst k') (map fst k) /\ (forall p, In p ps -> ~ In (pname p) (map fst k')).
Proof.
  induction ps as [|p ps IH]; intros a k b r k' Hnd H; cbn [bind_poskw] in H.
  - inversion H; subst. split; [exists []; split; reflexivity|]. split; [exact Hnd|].
    split; [apply incl_refl|intros p []].
  - destruct a as [|e a].
    + destruct (take (pname p) k) as [[e k1]|] eqn:Et.
      * destruct (bind_poskw ps [] k1) as [[[b1 r1] k2]|] eqn:E; [|discriminate H].
        destruct (take_some _ _ Et) as [Hi Hd]. destruct (Hd Hnd) as [Hd1 Hd2].
        destruct (IH _ _ _ _ _ Hd1 E) as ((vals & Hl & ->) & H1 & H2 & H3). inversion H; subst.
        split; [exists (e :: vals); split; [cbn; rewrite Hl; reflexivity|reflexivity]|].
        split; [exact H1|]. split; [eapply incl_tran; eassumption|].
        intros q [<-|Hq]; [|apply H3; exact Hq]. intros Hi2. apply Hd2. apply H2. exact Hi2.
      * destruct (dflt p) as [e|]; [|discriminate H].
        destruct (bind_poskw ps [] k) as [[[b1 r1] k2]|] eqn:E; [|discriminate H].
        destruct (IH _ _ _ _ _ Hnd E) as ((vals & Hl & ->) & H1 & H2 & H3). inversion H; subst.
        split; [exists (e :: vals); split; [cbn; rewrite Hl; reflexivity|reflexivity]|].
        split; [exact H1|]. split; [exact H2|].
        intros q [<-|Hq]; [|apply H3; exact Hq]. intros Hi2. apply take_none in Et. apply Et. apply H2. exact Hi2.
    + destruct (take (pname p) k) as [[e0 k1]|] eqn:Et; [discriminate H|].
      destruct (bind_poskw ps a k) as [[[b1 r1] k2]|] eqn:E; [|discriminate H].
      destruct (IH _ _ _ _ _ Hnd E) as ((vals & Hl & ->) & H1 & H2 & H3). inversion H; subst.
      split; [exists (e :: vals); split; [cbn; rewrite Hl; reflexivity|reflexivity]|].
      split; [exact H1|]. split; [exact H2|].
      intros q [<-|Hq]; [|apply H3; exact Hq]. intros Hi2. apply take_none in Et. apply Et. apply H2. exact Hi2.
Qed.

Lemma bind_kwonly_inv ps : forall k b k', NoDup (map fst k) -> bind_kwonly ps k = Ok (b, k') ->
  (exists vals, List.length vals = List.length ps /\ b = a1map ps vals) /\
  NoDup (map fst k') /\ incl (map fst k') (map fst k) /\ (forall p, In p ps -> ~ In (pname p) (map fst k')).
Proof.
  induction ps as [|p ps IH]; intros k b k' Hnd H; cbn [bind_kwonly] in H.
  - inversion H; subst. split; [exists []; split; reflexivity|]. split; [exact Hnd|].
    split; [apply incl_refl|intros p []].
  - destruct (take (pname p) k) as [[e k1]|] eqn:Et.
    + destruct (bind_kwonly ps k1) as [[b1 k2]|] eqn:E; [|discriminate H].
      destruct (take_some _ _ Et) as [Hi Hd]. destruct (Hd Hnd) as [Hd1 Hd2].
      destruct (IH _ _ _ Hd1 E) as ((vals & Hl & ->) & H1 & H2 & H3). inversion H; subst.
      split; [exists (e :: vals); split; [cbn; rewrite Hl; reflexivity|reflexivity]|].
      split; [exact H1|]. split; [eapply incl_tran; eassumption|].
      intros q [<-|Hq]; [|apply H3; exact Hq]. intros Hi2. apply Hd2. apply H2. exact Hi2.
    + destruct (dflt p) as [e|]; [|discriminate H].
      destruct (bind_kwonly ps k) as [[b1 k2]|] eqn:E; [|discriminate H].
      destruct (IH _ _ _ Hnd E) as ((vals & Hl & ->) & H1 & H2 & H3). inversion H; subst.
      split; [exists (e :: vals); split; [cbn; rewrite Hl; reflexivity|reflexivity]|].
      split; [exact H1|]. split; [exact H2|].
      intros q [<-|Hq]; [|apply H3; exact Hq]. intros Hi2. apply take_none in Et. apply Et. apply H2. exact Hi2.
Qed.

(** is_kwonly in a well formed signature *)
Lemma is_kwonly_true s p : In p (kwonly s) -> is_kwonly s p = true.
Proof. intros H. apply existsb_exists. exists p. split; [exact H|apply String.eqb_refl]. Qed.
Lemma is_kwonly_false s p : wf_sig s -> In p (posonly s ++ poskw s) -> is_kwonly s p = false.
Proof.
  intros Hw Hp. destruct (is_kwonly s p) eqn:E; [|reflexivity]. exfalso.
  apply existsb_exists in E. destruct E as (q & Hq & En). apply String.eqb_eq in En.
  unfold wf_sig, params in Hw. rewrite app_assoc, map_app in Hw.
  apply (NoDup_app_disj _ _ Hw (pname p)); [apply in_map; exact Hp|].
  rewrite <- En. rewrite map_app. apply in_or_app. right. rewrite map_app. apply in_or_app. left.
  apply in_map. exact Hq.
Qed.

Lemma args_of_app s b1 b2 : args_of s (b1 ++ b2) = args_of s b1 ++ args_of s b2.
Proof. unfold args_of. rewrite flat_map_app. reflexivity. Qed.
Lemma kwargs_of_app s b1 b2 : kwargs_of s (b1 ++ b2) = kwargs_of s b1 ++ kwargs_of s b2.
Proof. unfold kwargs_of. rewrite flat_map_app. reflexivity. Qed.

Lemma args_of_pos s ps : (forall p, In p ps -> is_kwonly s p = false) -> forall a, List.length ps <= List.length a ->
  args_of s (a1map ps a) = firstn (List.length ps) a /\ kwargs_of s (a1map ps a) = [].
Proof.
  induction ps as [|p ps IH]; intros Hk a H; [split; reflexivity|].
  destruct a as [|e a]; [cbn in H; lia|]. cbn [List.length] in H.
  unfold a1map, args_of, kwargs_of. cbn [combine map flat_map fst snd firstn List.length].
  rewrite (Hk p (or_introl eq_refl)).
  destruct (IH (fun q Hq => Hk q (or_intror Hq)) a ltac:(lia)) as [H1 H2].
  unfold a1map, args_of, kwargs_of in H1, H2. rewrite H1, H2. split; reflexivity.
Qed.

Lemma args_of_kw s ps : (forall p, In p ps -> is_kwonly s p = true) -> forall vals, List.length ps <= List.length vals ->
  args_of s (a1map ps vals) = [] /\ kwargs_of s (a1map ps vals) = combine (map pname ps) vals.
Proof.
  induction ps as [|p ps IH]; intros Hk a H; [split; reflexivity|].
  destruct a as [|e a]; [cbn in H; lia|]. cbn [List.length] in H.
  unfold a1map, args_of, kwargs_of. cbn [combine map flat_map fst snd].
  rewrite (Hk p (or_introl eq_refl)).
  destruct (IH (fun q Hq => Hk q (or_intror Hq)) a ltac:(lia)) as [H1 H2].
  unfold a1map, args_of, kwargs_of in H1, H2. rewrite H1, H2. split; reflexivity.
Qed.

(** Result of a successful bind: normal, and binding the stored arguments again
    gives the same. *)
Lemma bind_result s a k b : wf_sig s -> NoDup (map fst k) -> bind s a k = Ok b ->
  normal s (List.length (args_of s b)) (map fst (kwargs_of s b)) /\ b = fill s (args_of s b) (kwargs_of s b).
Proof.
  intros Hw Hnd H. unfold bind in H.
  destruct (bind_posonly (posonly s) a) as [[b1 a1]|] eqn:E1; [|discriminate H].
  destruct (bind_poskw (poskw s) a1 k) as [[[b2 a2] k2]|] eqn:E2; [|discriminate H].
  destruct (bind_posonly_inv _ _ E1) as (v1 & Hl1 & ->).
  destruct (bind_poskw_inv _ _ _ Hnd E2) as ((v2 & Hl2 & ->) & Hd2 & Hi2 & Hn2).
  assert (exists b3 k3, bind_kwonly (kwonly s) k2 = Ok (b3, k3) /\
    (varpos s = None -> a2 = []) /\ (varkw s = None -> k3 = []) /\
    b = a1map (posonly s) v1 ++ a1map (poskw s) v2 ++ map (fun p => (p, APos a2)) (opt_list (varpos s))
        ++ b3 ++ map (fun p => (p, AKw k3)) (opt_list (varkw s))) as (b3 & k3 & E3 & Hvp & Hvk & Hb).
  { destruct (varpos s) as [vp|].
    - destruct (bind_kwonly (kwonly s) k2) as [[b3 k3]|] eqn:E3; [|discriminate H].
      exists b3, k3. split; [reflexivity|]. split; [discriminate|].
      destruct (varkw s) as [vk|]; [|destruct k3; [|discriminate H]]; inversion H; subst;
        (split; [congruence|reflexivity]).
    - destruct a2; [|discriminate H].
      destruct (bind_kwonly (kwonly s) k2) as [[b3 k3]|] eqn:E3; [|discriminate H].
      exists b3, k3. split; [reflexivity|]. split; [reflexivity|].
      destruct (varkw s) as [vk|]; [|destruct k3; [|discriminate H]]; inversion H; subst;
        (split; [congruence|reflexivity]). }
  clear H. destruct (bind_kwonly_inv _ _ Hd2 E3) as ((v3 & Hl3 & ->) & Hd3 & Hi3 & Hn3).
  assert (Hpo : forall p, In p (posonly s) -> is_kwonly s p = false)
    by (intros p Hp; apply is_kwonly_false; [exact Hw|apply in_or_app; left; exact Hp]).
  assert (Hpk : forall p, In p (poskw s) -> is_kwonly s p = false)
    by (intros p Hp; apply is_kwonly_false; [exact Hw|apply in_or_app; right; exact Hp]).
  assert (Hko : forall p, In p (kwonly s) -> is_kwonly s p = true) by (intros p Hp; apply is_kwonly_true; exact Hp).
  destruct (@args_of_pos s _ Hpo v1 ltac:(lia)) as [A1 K1].
  destruct (@args_of_pos s _ Hpk v2 ltac:(lia)) as [A2 K2].
  destruct (@args_of_kw s _ Hko v3 ltac:(lia)) as [A3 K3].
  assert (AP : args_of s (map (fun p => (p, APos a2)) (opt_list (varpos s))) = a2 /\
               kwargs_of s (map (fun p => (p, APos a2)) (opt_list (varpos s))) = []).
  { destruct (varpos s) as [vp|]; cbn; [rewrite app_nil_r; split; reflexivity|rewrite (Hvp eq_refl); split; reflexivity]. }
  assert (KP : args_of s (map (fun p => (p, AKw k3)) (opt_list (varkw s))) = [] /\
               kwargs_of s (map (fun p => (p, AKw k3)) (opt_list (varkw s))) = k3).
  { destruct (varkw s) as [vk|]; cbn; [rewrite app_nil_r; split; reflexivity|rewrite (Hvk eq_refl); split; reflexivity]. }
  destruct AP as [AP1 AP2]. destruct KP as [KP1 KP2].
  assert (EA : args_of s b = v1 ++ v2 ++ a2).
  { rewrite Hb, !args_of_app, A1, A2, AP1, A3, KP1, !app_nil_r.
    rewrite !firstn_all2 by lia. reflexivity. }
  assert (EK : kwargs_of s b = combine (map pname (kwonly s)) v3 ++ k3).
  { rewrite Hb, !kwargs_of_app, K1, K2, AP2, K3, KP2. reflexivity. }
  assert (Efst : map fst (combine (map pname (kwonly s)) v3) = map pname (kwonly s)).
  { clear -Hl3. revert v3 Hl3. induction (kwonly s) as [|p l IH]; intros v3 H; [reflexivity|].
    destruct v3 as [|e v3]; [discriminate H|]. cbn. f_equal. apply IH. cbn in H. lia. }
  assert (Esnd : map snd (combine (map pname (kwonly s)) v3) = v3).
  { clear -Hl3. revert v3 Hl3. induction (kwonly s) as [|p l IH]; intros v3 H; [destruct v3; [reflexivity|discriminate H]|].
    destruct v3 as [|e v3]; [discriminate H|]. cbn. f_equal. apply IH. cbn in H. lia. }
  assert (Elen : List.length (combine (map pname (kwonly s)) v3) = List.length (kwonly s))
    by (rewrite combine_length, map_length; lia).
  rewrite EA, EK. split.
  - unfold normal. rewrite !app_length. split; [lia|]. split.
    + intros Hn. rewrite (Hvp Hn). cbn. lia.
    + exists (map fst k3). rewrite map_app, Efst. split; [reflexivity|]. split; [intros Hn; rewrite (Hvk Hn); reflexivity|].
      split; [exact Hd3|]. intros x Hx Hi. rewrite map_app in Hi. apply in_app_or in Hi. destruct Hi as [Hi|Hi].
      * apply in_map_iff in Hi. destruct Hi as (p & <- & Hp). apply (Hn2 p Hp). apply Hi3. exact Hx.
      * apply in_map_iff in Hi. destruct Hi as (p & <- & Hp). apply (Hn3 p Hp). exact Hx.
  - rewrite Hb. unfold fill.
    assert (G1 : a1map (posonly s) (v1 ++ v2 ++ a2) = a1map (posonly s) v1).
    { clear -Hl1. revert v1 Hl1. induction (posonly s) as [|p l IH]; intros v1 H; [reflexivity|].
      destruct v1 as [|e v1]; [discriminate H|]. unfold a1map. cbn. f_equal. apply IH. cbn in H. lia. }
    assert (G2 : skipn (List.length (posonly s)) (v1 ++ v2 ++ a2) = v2 ++ a2).
    { rewrite <- Hl1. rewrite skipn_app, skipn_all, Nat.sub_diag. reflexivity. }
    assert (G3 : a1map (poskw s) (v2 ++ a2) = a1map (poskw s) v2).
    { clear -Hl2. revert v2 Hl2. induction (poskw s) as [|p l IH]; intros v2 H; [reflexivity|].
      destruct v2 as [|e v2]; [discriminate H|]. unfold a1map. cbn. f_equal. apply IH. cbn in H. lia. }
    assert (G4 : skipn (List.length (posonly s ++ poskw s)) (v1 ++ v2 ++ a2) = a2).
    { rewrite app_length. rewrite <- skipn_add. rewrite G2, <- Hl2. rewrite skipn_app, skipn_all, Nat.sub_diag. reflexivity. }
    assert (G5 : a1map (kwonly s) (map snd (combine (map pname (kwonly s)) v3 ++ k3)) = a1map (kwonly s) v3).
    { rewrite map_app, Esnd. clear -Hl3. revert v3 Hl3. induction (kwonly s) as [|p l IH]; intros v3 H; [reflexivity|].
      destruct v3 as [|e v3]; [discriminate H|]. unfold a1map. cbn. f_equal. apply IH. cbn in H. lia. }
    assert (G6 : skipn (List.length (kwonly s)) (combine (map pname (kwonly s)) v3 ++ k3) = k3).
    { rewrite <- Elen. rewrite skipn_app, skipn_all, Nat.sub_diag. reflexivity. }
    rewrite G1, G2, G3, G4, G5, G6. reflexivity.
Qed.

(** On normal arguments, [.args] and [.kwargs] give them back. *)
Lemma args_of_fill s a k : wf_sig s -> normal s (List.length a) (map fst k) ->
  args_of s (fill s a k) = a /\ kwargs_of s (fill s a k) = k.
Proof.
  intros Hw (Hl & Hvp & extra & Hn & Hvk & _ & _). unfold fill.
  rewrite app_length in Hl.
  assert (Hpo : forall p, In p (posonly s) -> is_kwonly s p = false)
    by (intros p Hp; apply is_kwonly_false; [exact Hw|apply in_or_app; left; exact Hp]).
  assert (Hpk : forall p, In p (poskw s) -> is_kwonly s p = false)
    by (intros p Hp; apply is_kwonly_false; [exact Hw|apply in_or_app; right; exact Hp]).
  assert (Hko : forall p, In p (kwonly s) -> is_kwonly s p = true) by (intros p Hp; apply is_kwonly_true; exact Hp).
  assert (Hlk : List.length (kwonly s) <= List.length k)
    by (rewrite <- (map_length fst k), Hn, app_length, map_length; lia).
  destruct (@args_of_pos s _ Hpo a ltac:(lia)) as [A1 K1].
  destruct (@args_of_pos s _ Hpk (skipn (List.length (posonly s)) a) ltac:(rewrite skipn_length; lia)) as [A2 K2].
  destruct (@args_of_kw s _ Hko (map snd k) ltac:(rewrite map_length; exact Hlk)) as [A3 K3].
  rewrite !args_of_app, !kwargs_of_app, A1, A2, A3, K1, K2, K3.
  set (a2 := skipn (List.length (posonly s ++ poskw s)) a). set (k3 := skipn (List.length (kwonly s)) k).
  assert (AP : args_of s (map (fun p => (p, APos a2)) (opt_list (varpos s))) = a2 /\
               kwargs_of s (map (fun p => (p, APos a2)) (opt_list (varpos s))) = []).
  { destruct (varpos s) as [vp|]; cbn; [rewrite app_nil_r; split; reflexivity|].
    unfold a2. rewrite skipn_all2 by (rewrite (Hvp eq_refl); lia). split; reflexivity. }
  assert (KP : args_of s (map (fun p => (p, AKw k3)) (opt_list (varkw s))) = [] /\
               kwargs_of s (map (fun p => (p, AKw k3)) (opt_list (varkw s))) = k3).
  { destruct (varkw s) as [vk|]; cbn; [rewrite app_nil_r; split; reflexivity|].
    unfold k3. rewrite skipn_all2; [split; reflexivity|].
    rewrite <- (map_length fst k), Hn, (Hvk eq_refl), app_nil_r, map_length. lia. }
  destruct AP as [-> ->]. destruct KP as [-> ->]. split.
  - rewrite !app_nil_r. unfold a2. rewrite app_length.
    rewrite <- skipn_add. rewrite firstn_skipn. apply firstn_skipn.
  - cbn [app]. unfold k3. clear -Hn.
    revert k Hn. induction (kwonly s) as [|p l IH]; intros k Hn; [reflexivity|].
    destruct k as [|[n e] k]; [discriminate Hn|]. cbn [map app fst] in Hn. inversion Hn as [[Hn1 Hn2]].
    cbn [List.length skipn map snd combine app]. rewrite (IH _ Hn2). reflexivity.
Qed.
