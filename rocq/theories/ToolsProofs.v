(** Proofs about tool collection. *)
From Coq Require Import String Ascii List Bool Arith NArith Lia Sorting.Sorted.
From Verif Require Import ToolsModel ToolsSpec.
Import ListNotations.

(** * The order of names *)
Lemma ascii_compare_lt_trans : forall a b c, Ascii.compare a b = Lt -> Ascii.compare b c = Lt -> Ascii.compare a c = Lt.
Proof. intros a b c. unfold Ascii.compare. rewrite !N.compare_lt_iff. lia. Qed.
Lemma le_trans : forall a b c, le a b -> le b c -> le a c.
Proof.
  unfold le, String.leb.
  induction a as [|x a IH]; intros [|y b] [|z c] H1 H2; cbn [String.compare] in *; try reflexivity; try discriminate.
  destruct (Ascii.compare x y) eqn:E1; [| |discriminate H1].
  - apply Ascii.compare_eq_iff in E1. subst y.
    destruct (Ascii.compare x z); [exact (IH _ _ H1 H2)|reflexivity|discriminate H2].
  - destruct (Ascii.compare y z) eqn:E2; [| |discriminate H2].
    + apply Ascii.compare_eq_iff in E2. subst z. rewrite E1. reflexivity.
    + rewrite (ascii_compare_lt_trans _ _ _ E1 E2). reflexivity.
Qed.
Lemma le_refl : forall a, le a a.
Proof. intro a. unfold le. destruct (String.leb_total a a) as [H|H]; exact H. Qed.

(** * Dictionaries *)
Section Dict.
Context {K A : Type} (eqb : K -> K -> bool) (eqb_spec : forall x y, eqb x y = true <-> x = y).
Lemma eqb_refl' : forall x, eqb x x = true.
Proof. intro x. apply eqb_spec. reflexivity. Qed.
Lemma dget_dput : forall k v (d : list (K * A)) k', dget eqb k' (dput eqb k v d) = if eqb k k' then Some v else dget eqb k' d.
Proof.
  intros k v d k'. induction d as [|[x y] d IH]; cbn [dput dget]; [reflexivity|].
  destruct (eqb x k) eqn:E; cbn [dget].
  - apply eqb_spec in E. subst x. destruct (eqb k k'); reflexivity.
  - rewrite IH. destruct (eqb x k') eqn:E1; [|reflexivity].
    apply eqb_spec in E1. subst k'. destruct (eqb k x) eqn:E2; [|reflexivity].
    apply eqb_spec in E2. subst k. rewrite eqb_refl' in E. discriminate E.
Qed.
Lemma dput_keys : forall k v (d : list (K * A)), NoDup (map fst d) -> NoDup (map fst (dput eqb k v d)).
Proof.
  intros k v d. induction d as [|[x y] d IH]; intro N; cbn [dput map fst].
  - constructor; [intros []|constructor].
  - inversion N as [|? ? NI N']. subst. destruct (eqb x k) eqn:E; cbn [map fst].
    + apply eqb_spec in E. subst x. exact N.
    + constructor; [|exact (IH N')]. intro I. apply NI.
      clear - I E eqb_spec. induction d as [|[a b] d IH]; cbn [dput map fst In] in *.
      * destruct I as [->|[]]. rewrite eqb_refl' in E. discriminate E.
      * destruct (eqb a k) eqn:E1; cbn [map fst In] in I.
        -- destruct I as [->|I]; [rewrite eqb_refl' in E; discriminate E|right; exact I].
        -- destruct I as [->|I]; [left; reflexivity|right; exact (IH I)].
Qed.
Lemma dget_in : forall (d : list (K * A)) k v, NoDup (map fst d) -> (dget eqb k d = Some v <-> In (k, v) d).
Proof.
  induction d as [|[x y] d IH]; intros k v N; cbn [dget]; [split; [discriminate|intros []]|].
  inversion N as [|? ? NI N']. subst. destruct (eqb x k) eqn:E.
  - apply eqb_spec in E. subst x. split.
    + intros [= ->]. left. reflexivity.
    + intros [[= ->]|I]; [reflexivity|]. exfalso. apply NI. exact (in_map fst _ _ I).
  - rewrite (IH k v N'). split; [right; assumption|].
    intros [[= -> ->]|I]; [rewrite eqb_refl' in E; discriminate E|exact I].
Qed.
Lemma dget_none : forall (d : list (K * A)) k, dget eqb k d = None <-> ~ In k (map fst d).
Proof.
  induction d as [|[x y] d IH]; intro k; cbn [dget map fst In]; [tauto|].
  destruct (eqb x k) eqn:E.
  - apply eqb_spec in E. split; [discriminate|]. intro H. exfalso. apply H. left. exact E.
  - rewrite IH. split; [|tauto]. intros H [->|I]; [rewrite eqb_refl' in E; discriminate E|exact (H I)].
Qed.
End Dict.

(** * Gathering *)
(** [d'] comes from [d] by writes satisfying [P], all of which occurred. *)
Definition wrote (P : string -> nat -> Prop) (d d' : list (string * nat)) : Prop :=
  (NoDup (map fst d) -> NoDup (map fst d')) /\
  (forall n t, dget String.eqb n d' = Some t -> P n t \/ dget String.eqb n d = Some t) /\
  (forall n t, P n t -> exists u, P n u /\ dget String.eqb n d' = Some u) /\
  (forall n, (forall t, ~ P n t) -> dget String.eqb n d' = dget String.eqb n d).
Lemma wrote_none : forall (P : string -> nat -> Prop) d, (forall n t, ~ P n t) -> wrote P d d.
Proof.
  intros P d H. split; [tauto|]. split; [intros n t E; right; exact E|].
  split; [intros n t X; contradiction (H n t X)|reflexivity].
Qed.
Lemma wrote_put : forall k v d, wrote (fun n t => n = k /\ t = v) d (dput String.eqb k v d).
Proof.
  intros k v d. split; [apply dput_keys; exact String.eqb_eq|].
  assert (G : forall n, dget String.eqb n (dput String.eqb k v d) = if String.eqb k n then Some v else dget String.eqb n d)
    by (intro n; apply dget_dput; exact String.eqb_eq).
  split; [|split].
  - intros n t E. rewrite G in E. destruct (String.eqb k n) eqn:Q; [|right; exact E].
    apply String.eqb_eq in Q. injection E as <-. left. split; [symmetry; exact Q|reflexivity].
  - intros n t [-> ->]. exists v. rewrite G, String.eqb_refl. repeat split.
  - intros n H. rewrite G. destruct (String.eqb k n) eqn:Q; [|reflexivity].
    apply String.eqb_eq in Q. contradiction (H v). split; [symmetry; exact Q|reflexivity].
Qed.
Lemma wrote_trans : forall (P Q : string -> nat -> Prop) a b c,
  (forall n, (exists t, Q n t) \/ forall t, ~ Q n t) ->
  wrote P a b -> wrote Q b c -> wrote (fun n t => P n t \/ Q n t) a c.
Proof.
  intros P Q a b c D (N1 & S1 & C1 & U1) (N2 & S2 & C2 & U2). split; [|split; [|split]].
  - tauto.
  - intros n t E. destruct (S2 n t E) as [H|H]; [left; right; exact H|].
    destruct (S1 n t H) as [H1|H1]; [left; left; exact H1|right; exact H1].
  - intros n t H. destruct (D n) as [[u HQ]|NQ].
    + destruct (C2 n u HQ) as (x & X & E). exists x. split; [right; exact X|exact E].
    + destruct H as [H|H]; [|contradiction (NQ t H)].
      destruct (C1 n t H) as (x & X & E). exists x. split; [left; exact X|]. rewrite (U2 n NQ). exact E.
  - intros n H. rewrite U2, U1; [reflexivity| |]; intros t X; apply (H t); [left|right]; exact X.
Qed.
Lemma wrote_ext : forall (P Q : string -> nat -> Prop) a b, (forall n t, P n t <-> Q n t) -> wrote P a b -> wrote Q a b.
Proof.
  intros P Q a b E (N1 & S1 & C1 & U1). split; [exact N1|]. split; [|split].
  - intros n t H. rewrite <- E. exact (S1 n t H).
  - intros n t H. apply E in H. destruct (C1 n t H) as (u & X & G). exists u. rewrite <- E. split; assumption.
  - intros n H. apply U1. intros t X. apply (H t). apply E. exact X.
Qed.

(** Whether a name is written is decidable, as there are finitely many writes. *)
Definition decidable (P : string -> nat -> Prop) : Prop := forall n, (exists t, P n t) \/ forall t, ~ P n t.
Lemma dec_or : forall P Q, decidable P -> decidable Q -> decidable (fun n t => P n t \/ Q n t).
Proof.
  intros P Q DP DQ n. destruct (DP n) as [[t H]|H]; [left; exists t; left; exact H|].
  destruct (DQ n) as [[t H1]|H1]; [left; exists t; right; exact H1|].
  right. intros t [X|X]; [exact (H t X)|exact (H1 t X)].
Qed.
Lemma dec_ext : forall (P Q : string -> nat -> Prop), (forall n t, P n t <-> Q n t) -> decidable P -> decidable Q.
Proof.
  intros P Q E D n. destruct (D n) as [[t H]|H]; [left; exists t; apply E; exact H|].
  right. intros t X. apply (H t). apply E. exact X.
Qed.
Lemma dec_one : forall k v, decidable (fun n t => n = k /\ t = v).
Proof.
  intros k v n. destruct (string_dec n k) as [->|N]; [left; exists v; split; reflexivity|].
  right. intros t [E _]. exact (N E).
Qed.

Definition scanned (name : string) (a : agent) (names : list string) (n : string) (t : nat) : Prop :=
  exists x, In x names /\ getattr a x = ATool t /\ n = (name ++ "__" ++ x)%string.
Lemma scan_spec : forall name a names d,
  decidable (scanned name a names) /\
  match scan name a names d with
  | Some d' => wrote (scanned name a names) d d' /\ forall x, In x names -> getattr a x <> ARaises
  | None => exists x, In x names /\ getattr a x = ARaises
  end.
Proof.
  intros name a. induction names as [|x names IH]; intro d; cbn [scan].
  - split; [intro n; right; intros t (x & [] & _)|].
    split; [apply wrote_none; intros n t (x & [] & _)|intros x []].
  - assert (SKIP : (forall t, getattr a x <> ATool t) ->
      forall n t, scanned name a names n t <-> scanned name a (x :: names) n t).
    { intros NT n t. split.
      - intros (y & I & G & E). exists y. split; [right; exact I|split; assumption].
      - intros (y & [<-|I] & G & E); [contradiction (NT t G)|]. exists y. repeat split; assumption. }
    destruct (getattr a x) as [t| |] eqn:G.
    + destruct (IH (dput String.eqb (name ++ "__" ++ x)%string t d)) as [D W].
      assert (X : forall n u, ((n = name ++ "__" ++ x)%string /\ u = t) \/ scanned name a names n u <-> scanned name a (x :: names) n u).
      { intros n u. split.
        - intros [[-> ->]|(y & I & H & E)]; [exists x|exists y]; repeat split; try assumption; [left; reflexivity|right; exact I].
        - intros (y & [<-|I] & H & E); [left; split; congruence|right; exists y; repeat split; assumption]. }
      split; [exact (dec_ext _ _ X (dec_or _ _ (dec_one _ _) D))|].
      destruct (scan name a names (dput String.eqb (name ++ "__" ++ x)%string t d)) as [d'|].
      * destruct W as [W R]. split.
        -- exact (wrote_ext _ _ _ _ X (wrote_trans _ _ _ _ _ D (wrote_put _ _ _) W)).
        -- intros y [<-|I]; [congruence|exact (R y I)].
      * destruct W as (y & I & R). exists y. split; [right; exact I|exact R].
    + assert (NT : forall t, AOther <> ATool t) by discriminate.
      destruct (IH d) as [D W]. split; [exact (dec_ext _ _ (SKIP NT) D)|].
      destruct (scan name a names d) as [d'|].
      * destruct W as [W R]. split; [exact (wrote_ext _ _ _ _ (SKIP NT) W)|].
        intros y [<-|I]; [congruence|exact (R y I)].
      * destruct W as (y & I & R). exists y. split; [right; exact I|exact R].
    + assert (NT : forall t, ARaises <> ATool t) by discriminate.
      split; [exact (dec_ext _ _ (SKIP NT) (proj1 (IH d)))|].
      exists x. split; [left; reflexivity|exact G].
Qed.

Definition scanned_mro (name : string) (a : agent) (l : list (list string)) (n : string) (t : nat) : Prop :=
  exists names, In names l /\ scanned name a names n t.
Lemma scan_mro_spec : forall name a l d,
  decidable (scanned_mro name a l) /\
  match scan_mro name a l d with
  | Some d' => wrote (scanned_mro name a l) d d' /\ forall names x, In names l -> In x names -> getattr a x <> ARaises
  | None => exists names x, In names l /\ In x names /\ getattr a x = ARaises
  end.
Proof.
  intros name a. induction l as [|names l IH]; intro d; cbn [scan_mro].
  - split; [intro n; right; intros t (x & [] & _)|].
    split; [apply wrote_none; intros n t (x & [] & _)|intros x y []].
  - destruct (scan_spec name a names d) as [D1 W1].
    assert (X : forall n t, scanned name a names n t \/ scanned_mro name a l n t <-> scanned_mro name a (names :: l) n t).
    { intros n t. split.
      - intros [H|(m & I & H)]; [exists names; split; [left; reflexivity|exact H]|exists m; split; [right; exact I|exact H]].
      - intros (m & [<-|I] & H); [left; exact H|right; exists m; split; assumption]. }
    split; [exact (dec_ext _ _ X (dec_or _ _ D1 (proj1 (IH d))))|].
    destruct (scan name a names d) as [d1|].
    + destruct W1 as [W1 R1]. destruct (IH d1) as [D2 W2]. destruct (scan_mro name a l d1) as [d2|].
      * destruct W2 as [W2 R2]. split; [exact (wrote_ext _ _ _ _ X (wrote_trans _ _ _ _ _ D2 W1 W2))|].
        intros m x [<-|I] J; [exact (R1 x J)|exact (R2 m x I J)].
      * destruct W2 as (m & x & I & J & R). exists m, x. split; [right; exact I|split; assumption].
    + destruct W1 as (x & I & R). exists names, x. split; [left; reflexivity|split; assumption].
Qed.

Lemma gather_spec : forall e d,
  decidable (visible e) /\
  match gather e d with
  | Some d' => wrote (visible e) d d' /\ ~ raising e
  | None => raising e
  end.
Proof.
  induction e as [|[name v] e IH]; intro d; cbn [gather].
  - assert (NV : forall n t, ~ visible [] n t) by (intros n t H; destruct H as [n t []|n a b x t []]).
    split; [intro n; right; exact (NV n)|].
    split; [exact (wrote_none _ _ NV)|intros (n & a & b & x & [] & _)].
  - assert (MORE : forall n t, visible e n t -> visible ((name, v) :: e) n t).
    { intros n t H. destruct H as [n t H|n a b x t H R G]; [apply vis_direct; right; exact H|].
      apply (vis_agent _ n a b x t); [right; exact H|exact R|exact G]. }
    assert (RMORE : raising e -> raising ((name, v) :: e)).
    { intros (n & a & b & x & I & R). exists n, a, b, x. split; [right; exact I|exact R]. }
    destruct v as [t|a b|b].
    + assert (X : forall n u, (n = name /\ u = t) \/ visible e n u <-> visible ((name, VTool t) :: e) n u).
      { intros n u. split.
        - intros [[-> ->]|H]; [apply vis_direct; left; reflexivity|exact (MORE n u H)].
        - intros H. destruct H as [n u [[= -> ->]|H]|n a b x u [H|H] R G].
          + left. split; reflexivity.
          + right. apply vis_direct. exact H.
          + discriminate H.
          + right. exact (vis_agent _ n a b x u H R G). }
      destruct (IH (dput String.eqb name t d)) as [D W].
      split; [exact (dec_ext _ _ X (dec_or _ _ (dec_one _ _) D))|].
      destruct (gather e (dput String.eqb name t d)) as [d'|]; [|exact (RMORE W)].
      destruct W as [W NR]. split; [exact (wrote_ext _ _ _ _ X (wrote_trans _ _ _ _ _ D (wrote_put _ _ _) W))|].
      intros (n & a & b & x & [I|I] & R); [discriminate I|]. apply NR. exists n, a, b, x. split; assumption.
    + assert (X : forall n u, scanned_mro name a (mro a) n u \/ visible e n u <-> visible ((name, VAgent a b) :: e) n u).
      { intros n u. split.
        - intros [(names & I & x & J & G & ->)|H]; [|exact (MORE n u H)].
          apply (vis_agent _ name a b x u); [left; reflexivity|exists names; split; assumption|exact G].
        - intros H. destruct H as [n u [H|H]|n a' b' x u [H|H] R G].
          + discriminate H.
          + right. apply vis_direct. exact H.
          + injection H as -> -> ->. left. destruct R as (names & I & J). exists names. split; [exact I|].
            exists x. repeat split; assumption.
          + right. exact (vis_agent _ n a' b' x u H R G). }
      destruct (scan_mro_spec name a (mro a) d) as [D1 W1].
      split; [exact (dec_ext _ _ X (dec_or _ _ D1 (proj1 (IH d))))|].
      destruct (scan_mro name a (mro a) d) as [d1|].
      * destruct W1 as [W1 R1]. destruct (IH d1) as [D2 W2]. destruct (gather e d1) as [d2|]; [|exact (RMORE W2)].
        destruct W2 as [W2 NR]. split; [exact (wrote_ext _ _ _ _ X (wrote_trans _ _ _ _ _ D2 W1 W2))|].
        intros (n & a' & b' & x & [I|I] & (names & J & K) & R).
        -- injection I as -> -> ->. exact (R1 names x J K R).
        -- apply NR. exists n, a', b', x. split; [exact I|]. split; [exists names; split; assumption|exact R].
      * destruct W1 as (names & x & I & J & R). exists name, a, b, x. split; [left; reflexivity|].
        split; [exists names; split; assumption|exact R].
    + assert (X : forall n u, visible e n u <-> visible ((name, VOther b) :: e) n u).
      { intros n u. split; [exact (MORE n u)|].
        intros H. destruct H as [n u [H|H]|n a' b' x u [H|H] R G]; try discriminate H.
        - apply vis_direct. exact H.
        - exact (vis_agent _ n a' b' x u H R G). }
      destruct (IH d) as [D W]. split; [exact (dec_ext _ _ X D)|].
      destruct (gather e d) as [d'|]; [|exact (RMORE W)].
      destruct W as [W NR]. split; [exact (wrote_ext _ _ _ _ X W)|].
      intros (n & a & b' & x & [I|I] & R); [discriminate I|]. apply NR. exists n, a, b', x. split; assumption.
Qed.

(** * Removing duplicates *)
Definition le1 (x y : string * nat) : Prop := le (fst x) (fst y).
Lemma insert_in : forall x l y, In y (insert x l) <-> y = x \/ In y l.
Proof.
  intros x l y. induction l as [|z l IH]; cbn [insert].
  - cbn [In]. intuition congruence.
  - destruct (String.leb (fst x) (fst z)); cbn [In]; [|rewrite IH]; intuition congruence.
Qed.
Lemma sort_in : forall l y, In y (sort l) <-> In y l.
Proof.
  induction l as [|x l IH]; intro y; cbn [sort In]; [reflexivity|]. rewrite insert_in, IH. intuition congruence.
Qed.
Lemma insert_sorted : forall x l, StronglySorted le1 l -> StronglySorted le1 (insert x l).
Proof.
  intros x l S. induction S as [|z l S IH F]; cbn [insert]; [repeat constructor|].
  destruct (String.leb (fst x) (fst z)) eqn:E.
  - constructor; [constructor; assumption|]. constructor; [exact E|].
    apply Forall_forall. intros y I. rewrite Forall_forall in F. exact (le_trans _ _ _ E (F y I)).
  - constructor; [exact IH|]. apply Forall_forall. intros y I. apply insert_in in I.
    destruct I as [->|I]; [|rewrite Forall_forall in F; exact (F y I)].
    unfold le1, le. destruct (String.leb_total (fst z) (fst x)) as [H|H]; [exact H|congruence].
Qed.
Lemma sort_sorted : forall l, StronglySorted le1 (sort l).
Proof. induction l as [|x l IH]; cbn [sort]; [constructor|apply insert_sorted; exact IH]. Qed.

Lemma last_write : forall l t d, StronglySorted le1 l ->
  let d' := fold_left (fun d x => dput Nat.eqb (snd x) (fst x) d) l d in
  match dget Nat.eqb t d' with
  | Some n => (In (n, t) l /\ forall m, In (m, t) l -> le m n) \/ (dget Nat.eqb t d = Some n /\ forall m, ~ In (m, t) l)
  | None => dget Nat.eqb t d = None /\ forall m, ~ In (m, t) l
  end.
Proof.
  induction l as [|[n0 t0] l IH]; intros t d S; cbn [fold_left].
  - destruct (dget Nat.eqb t d) as [n|]; [right|]; split; try reflexivity; intros m [].
  - apply StronglySorted_inv in S. destruct S as [S F].
    specialize (IH t (dput Nat.eqb t0 n0 d) S). cbv zeta in IH |- *. cbn [fst snd].
    rewrite (dget_dput Nat.eqb Nat.eqb_eq) in IH.
    destruct (dget Nat.eqb t (fold_left (fun d x => dput Nat.eqb (snd x) (fst x) d) l (dput Nat.eqb t0 n0 d))) as [n|].
    + destruct IH as [[I M]|[G N]].
      * left. split; [right; exact I|]. intros m [[= -> ->]|J]; [|exact (M m J)].
        rewrite Forall_forall in F. exact (F _ I).
      * destruct (Nat.eqb t0 t) eqn:E.
        -- apply Nat.eqb_eq in E. subst t0. injection G as <-. left. split; [left; reflexivity|].
           intros m [[= ->]|J]; [apply le_refl|contradiction (N m J)].
        -- right. split; [exact G|]. intros m [[= _ ->]|J]; [rewrite Nat.eqb_refl in E; discriminate E|exact (N m J)].
    + destruct IH as [G N]. destruct (Nat.eqb t0 t) eqn:E; [discriminate G|].
      split; [exact G|]. intros m [[= _ ->]|J]; [rewrite Nat.eqb_refl in E; discriminate E|exact (N m J)].
Qed.
Lemma dedupe_in : forall l n t, In (n, t) (dedupe l) <-> In (n, t) l /\ forall m, In (m, t) l -> le m n.
Proof.
  intros l n t. unfold dedupe. rewrite filter_In. cbn [fst snd].
  pose proof (last_write (sort l) t [] (sort_sorted l)) as L. fold (tool2name l) in L. cbv zeta in L.
  split.
  - intros [I E]. split; [exact I|]. destruct (dget Nat.eqb t (tool2name l)) as [k|]; [|discriminate E].
    apply String.eqb_eq in E. subst k. destruct L as [[_ M]|[G _]]; [|discriminate G].
    intros m J. apply M. apply sort_in. exact J.
  - intros [I M]. split; [exact I|].
    destruct (dget Nat.eqb t (tool2name l)) as [k|].
    + destruct L as [[J MK]|[G _]]; [|discriminate G]. apply String.eqb_eq.
      apply String.leb_antisym; [apply M; apply sort_in; exact J|apply MK; apply sort_in; exact I].
    + destruct L as [_ N]. contradiction (N n). apply sort_in. exact I.
Qed.
Lemma NoDup_map_filter : forall (f : string * nat -> bool) l, NoDup (map fst l) -> NoDup (map fst (filter f l)).
Proof.
  intros f. induction l as [|x l IH]; intro N; cbn [filter map]; [constructor|].
  cbn [map] in N. inversion N as [|? ? NI N']. subst. destruct (f x); [|exact (IH N')].
  cbn [map]. constructor; [|exact (IH N')]. intro I. apply NI.
  apply in_map_iff in I. destruct I as (y & E & I). rewrite <- E. apply in_map. apply filter_In in I. exact (proj1 I).
Qed.
(** Every tool of a finite dictionary has a greatest name. *)
Lemma greatest : forall (l : list (string * nat)) n t, In (n, t) l -> exists m, In (m, t) l /\ forall k, In (k, t) l -> le k m.
Proof.
  intros l n t I.
  pose proof (last_write (sort l) t [] (sort_sorted l)) as L. cbv zeta in L.
  destruct (dget Nat.eqb t (fold_left (fun d x => dput Nat.eqb (snd x) (fst x) d) (sort l) [])) as [m|].
  - destruct L as [[J M]|[G _]]; [|discriminate G]. exists m. split; [apply sort_in; exact J|].
    intros k K. apply M. apply sort_in. exact K.
  - destruct L as [_ N]. contradiction (N n). apply sort_in. exact I.
Qed.

(** * Collecting *)
Lemma collect_cases : forall e,
  match collect_tools e with
  | None => raising e
  | Some d => ~ raising e /\ exists g, NoDup (map fst g) /\ d = dedupe g /\
      (forall n t, In (n, t) g -> visible e n t) /\
      (forall n t, visible e n t -> exists u, visible e n u /\ In (n, u) g)
  end.
Proof.
  intro e. unfold collect_tools. destruct (gather_spec e []) as [_ W].
  destruct (gather e []) as [g|]; [|exact W]. destruct W as [(N & S & C & _) NR].
  split; [exact NR|]. specialize (N (NoDup_nil _)). exists g. split; [exact N|]. split; [reflexivity|].
  split.
  - intros n t I. apply (dget_in String.eqb String.eqb_eq _ _ _ N) in I.
    destruct (S n t I) as [H|H]; [exact H|discriminate H].
  - intros n t H. destruct (C n t H) as (u & U & G). exists u. split; [exact U|].
    apply (dget_in String.eqb String.eqb_eq _ _ _ N). exact G.
Qed.
Lemma collect_raises : forall e, collect_tools e = None <-> raising e.
Proof.
  intro e. pose proof (collect_cases e) as C. destruct (collect_tools e) as [d|].
  - split; [discriminate|]. intro R. contradiction (proj1 C R).
  - split; [intros _; exact C|reflexivity].
Qed.
Lemma collect_distinct : forall e d, collect_tools e = Some d ->
  NoDup (map fst d) /\ NoDup (map snd d) /\ (forall n t, In (n, t) d -> visible e n t).
Proof.
  intros e d H. pose proof (collect_cases e) as C. rewrite H in C.
  destruct C as (_ & g & N & -> & S & _).
  assert (ND : NoDup (map fst (dedupe g))) by (apply NoDup_map_filter; exact N).
  split; [exact ND|]. split.
  - assert (U : forall n m t, In (n, t) (dedupe g) -> In (m, t) (dedupe g) -> n = m).
    { intros n m t A B. apply dedupe_in in A. apply dedupe_in in B.
      apply String.leb_antisym; [exact (proj2 B n (proj1 A))|exact (proj2 A m (proj1 B))]. }
    revert ND U. generalize (dedupe g). induction l as [|[n t] l IH]; intros ND U; cbn [map]; [constructor|].
    inversion ND as [|? ? NI ND']. subst. constructor.
    + intro I. apply in_map_iff in I. destruct I as ([m u] & E & I). cbn [snd] in E. subst u.
      pose proof (U n m t (or_introl eq_refl) (or_intror I)) as <-. apply NI. exact (in_map fst _ _ I).
    + apply IH; [exact ND'|]. intros a b u A B. exact (U a b u (or_intror A) (or_intror B)).
  - intros n t I. apply dedupe_in in I. exact (S n t (proj1 I)).
Qed.
Lemma collect_exact : forall e d, unambiguous e -> collect_tools e = Some d ->
  (forall n t, In (n, t) d <-> visible e n t /\ forall m, visible e m t -> le m n) /\
  (forall n t, visible e n t -> exists m, In (m, t) d).
Proof.
  intros e d U H. pose proof (collect_cases e) as C. rewrite H in C.
  destruct C as (_ & g & N & -> & S & CO).
  assert (X : forall n t, In (n, t) g <-> visible e n t).
  { intros n t. split; [exact (S n t)|]. intro V. destruct (CO n t V) as (u & VU & I).
    rewrite (U n t u V VU). exact I. }
  split.
  - intros n t. rewrite dedupe_in, X. split; intros [A B]; (split; [exact A|]); intros m M; apply B; apply X; exact M.
  - intros n t V. apply X in V. destruct (greatest g n t V) as (m & I & M).
    exists m. apply dedupe_in. split; assumption.
Qed.

(** * The template itself *)
Lemma template_tools_self : forall t e d, template_tools false t e = Some d -> forall n, ~ In (n, t) d.
Proof.
  intros t e d H n I. unfold template_tools in H. destruct (collect_tools e) as [d0|]; [|discriminate H].
  injection H as <-. apply filter_In in I. destruct I as [_ I]. cbn [snd] in I.
  rewrite Nat.eqb_refl in I. discriminate I.
Qed.
Lemma call_env_self : forall t e d,
  (forall n a b x, In (n, VAgent a b) e -> reaches a x -> getattr a x <> ATool t) ->
  collect_tools (call_env false t e) = Some d -> forall n, ~ In (n, t) d.
Proof.
  intros t e d A H n I. apply (proj2 (proj2 (collect_distinct _ _ H))) in I. unfold call_env in I.
  inversion I as [n' t' J E1 E2|n' a b x t' J R G E1 E2]; subst.
  - apply in_map_iff in J. destruct J as ([m v] & E & J). cbn [fst snd] in E.
    destruct v as [u|a b|b]; [|discriminate E|discriminate E].
    destruct (Nat.eqb u t) eqn:Q; [discriminate E|]. injection E as _ ->. rewrite Nat.eqb_refl in Q. discriminate Q.
  - apply in_map_iff in J. destruct J as ([m v] & E & J). cbn [fst snd] in E.
    destruct v as [u|a' b'|b'].
    + destruct (Nat.eqb u t); discriminate E.
    + injection E as -> -> ->. exact (A n' a b x J R G).
    + discriminate E.
Qed.

(** * Readers *)
Section Readers.
Variable isidentifier : string -> bool.
Notation get := (dget String.eqb).
Lemma read_all_spec : forall e (d : list (string * offer)), NoDup (map fst e) ->
  match read_all isidentifier e d with
  | Some d' =>
      (forall n o, get n d' = Some o <->
         get n d = Some o \/ (get n d = None /\ o = OReader /\ isidentifier n = true /\ readable e n)) /\
      (NoDup (map fst d) -> NoDup (map fst d')) /\
      (forall n t, In (n, VTool t) e -> isidentifier n = true -> get n d <> None)
  | None => exists n t, In (n, VTool t) e /\ isidentifier n = true /\ get n d = None
  end.
Proof.
  induction e as [|[name v] e IH]; intros d ND; cbn [read_all].
  - split; [|split; [tauto|intros n t []]]. intros n o. split; [left; assumption|].
    intros [H|(_ & _ & _ & [[a []]|[]])]. exact H.
  - cbn [map fst] in ND. inversion ND as [|? ? NI ND']. subst.
    assert (NR : ~ readable e name).
    { intros [[a H]|H]; apply NI; exact (in_map fst _ _ H). }
    (* nothing done for this name *)
    assert (SKIP : (get name d <> None \/ isidentifier name = false \/
                     (forall t, v <> VTool t) /\ ~ readable [(name, v)] name) ->
      match read_all isidentifier e d with
      | Some d' =>
          (forall n o, get n d' = Some o <->
             get n d = Some o \/ (get n d = None /\ o = OReader /\ isidentifier n = true /\ readable ((name, v) :: e) n)) /\
          (NoDup (map fst d) -> NoDup (map fst d')) /\
          (forall n t, In (n, VTool t) ((name, v) :: e) -> isidentifier n = true -> get n d <> None)
      | None => exists n t, In (n, VTool t) ((name, v) :: e) /\ isidentifier n = true /\ get n d = None
      end).
    { intro W. specialize (IH d ND'). destruct (read_all isidentifier e d) as [d'|].
      - destruct IH as (G & N & T). split; [|split; [exact N|]].
        + intros n o. rewrite G. split; intros [H|(A & B & C & R)]; try (left; exact H); right; (split; [exact A|]); (split; [exact B|]); (split; [exact C|]).
          * destruct R as [[a R]|R]; [left; exists a; right; exact R|right; right; exact R].
          * destruct R as [[a [R|R]]|[R|R]]; [|left; exists a; exact R| |right; exact R].
            -- injection R as -> ->. exfalso. destruct W as [W|[W|[_ W]]]; [congruence|congruence|].
               apply W. left. exists a. left. reflexivity.
            -- injection R as -> ->. exfalso. destruct W as [W|[W|[_ W]]]; [congruence|congruence|].
               apply W. right. left. reflexivity.
        + intros n t [H|H] I; [|exact (T n t H I)]. injection H as -> ->.
          destruct W as [W|[W|[W _]]]; [exact W|congruence|contradiction (W t eq_refl)].
      - destruct IH as (n & t & I & R). exists n, t. split; [right; exact I|exact R]. }
    (* a reader is made *)
    assert (MAKE : get name d = None -> isidentifier name = true -> (forall t, v <> VTool t) -> readable [(name, v)] name ->
      match read_all isidentifier e (dput String.eqb name OReader d) with
      | Some d' =>
          (forall n o, get n d' = Some o <->
             get n d = Some o \/ (get n d = None /\ o = OReader /\ isidentifier n = true /\ readable ((name, v) :: e) n)) /\
          (NoDup (map fst d) -> NoDup (map fst d')) /\
          (forall n t, In (n, VTool t) ((name, v) :: e) -> isidentifier n = true -> get n d <> None)
      | None => exists n t, In (n, VTool t) ((name, v) :: e) /\ isidentifier n = true /\ get n d = None
      end).
    { intros GN IDN NT RD. specialize (IH (dput String.eqb name OReader d) ND').
      assert (GP : forall n, get n (dput String.eqb name OReader d) = if String.eqb name n then Some OReader else get n d)
        by (intro n; apply dget_dput; exact String.eqb_eq).
      assert (RN : readable ((name, v) :: e) name).
      { destruct RD as [[a [R|[]]]|[R|[]]]; [left; exists a; left; exact R|right; left; exact R]. }
      destruct (read_all isidentifier e (dput String.eqb name OReader d)) as [d'|].
      - destruct IH as (G & N & T). split; [|split].
        + intros n o. rewrite G, GP. destruct (String.eqb name n) eqn:Q.
          * apply String.eqb_eq in Q. subst n. rewrite GN. split.
            -- intros [[= <-]|(A & _)]; [|discriminate A]. right. repeat split; assumption.
            -- intros [A|(_ & -> & _)]; [discriminate A|left; reflexivity].
          * split; intros [H|(A & B & C & R)]; try (left; exact H); right; (split; [exact A|]); (split; [exact B|]); (split; [exact C|]).
            -- destruct R as [[a R]|R]; [left; exists a; right; exact R|right; right; exact R].
            -- destruct R as [[a [R|R]]|[R|R]]; [|left; exists a; exact R| |right; exact R];
                 injection R as -> ->; rewrite String.eqb_refl in Q; discriminate Q.
        + intro X. apply N. apply dput_keys; [exact String.eqb_eq|exact X].
        + intros n t [H|H] I; [injection H as _ H; contradiction (NT t H)|].
          specialize (T n t H I). rewrite GP in T. destruct (String.eqb name n) eqn:Q; [|exact T].
          apply String.eqb_eq in Q. subst n. exfalso. apply NI. exact (in_map fst _ _ H).
      - destruct IH as (n & t & I & C & GG). exists n, t. split; [right; exact I|]. split; [exact C|].
        rewrite GP in GG. destruct (String.eqb name n); [discriminate GG|exact GG]. }
    destruct (get name d) as [o|] eqn:GN; [apply SKIP; left; discriminate|].
    destruct (isidentifier name) eqn:IDN; [|apply SKIP; right; left; reflexivity].
    destruct v as [t|a [|]|[|]].
    + exists name, t. split; [left; reflexivity|]. split; assumption.
    + apply MAKE; try assumption; try reflexivity; [discriminate|left; exists a; left; reflexivity].
    + apply SKIP. right. right. split; [discriminate|].
      intros [[a' [R|[]]]|[R|[]]]; discriminate R.
    + apply MAKE; try assumption; try reflexivity; [discriminate|right; left; reflexivity].
    + apply SKIP. right. right. split; [discriminate|].
      intros [[a' [R|[]]]|[R|[]]]; discriminate R.
Qed.

Lemma map_offer_fst : forall d : list (string * nat), map fst (map (fun x => (fst x, OTool (snd x))) d) = map fst d.
Proof. intro d. rewrite map_map. reflexivity. Qed.
Lemma get_offer : forall (d : list (string * nat)) n,
  get n (map (fun x => (fst x, OTool (snd x))) d) = match get n d with Some t => Some (OTool t) | None => None end.
Proof.
  induction d as [|[x t] d IH]; intro n; cbn [map dget fst snd]; [reflexivity|].
  destruct (String.eqb x n); [reflexivity|exact (IH n)].
Qed.
Lemma readers_exact : forall e, NoDup (map fst e) ->
  match collect_with_readers isidentifier e with
  | Some r => exists d, collect_tools e = Some d /\ NoDup (map fst r) /\
      forall n o, In (n, o) r <->
        (exists t, o = OTool t /\ In (n, t) d) \/
        (o = OReader /\ isidentifier n = true /\ readable e n /\ forall t, ~ In (n, t) d)
  | None => raising e \/ exists n t d, In (n, VTool t) e /\ isidentifier n = true /\ collect_tools e = Some d /\
      forall u, ~ In (n, u) d
  end.
Proof.
  intros e ND. unfold collect_with_readers. destruct (collect_tools e) as [d|] eqn:C.
  - pose proof (collect_distinct _ _ C) as (N & _ & _).
    assert (GD : forall n t, get n d = Some t <-> In (n, t) d)
      by (intros n t; apply dget_in; [exact String.eqb_eq|exact N]).
    assert (GN : forall n, get n d = None <-> forall t, ~ In (n, t) d).
    { intro n. split.
      - intros H t I. apply GD in I. congruence.
      - intro H. destruct (get n d) as [t|] eqn:G; [|reflexivity]. apply GD in G. contradiction (H t G). }
    pose proof (read_all_spec e (map (fun x => (fst x, OTool (snd x))) d) ND) as R.
    destruct (read_all isidentifier e (map (fun x => (fst x, OTool (snd x))) d)) as [r|].
    + destruct R as (G & NR & _). rewrite map_offer_fst in NR. specialize (NR N).
      exists d. split; [reflexivity|]. split; [exact NR|]. intros n o.
      rewrite <- (dget_in String.eqb String.eqb_eq _ _ _ NR), G, get_offer. split.
      * intros [H|(A & B & I & RD)].
        -- destruct (get n d) as [t|] eqn:E; [|discriminate H]. injection H as <-. left. exists t.
           split; [reflexivity|apply GD; exact E].
        -- right. destruct (get n d) as [t|] eqn:E; [discriminate A|]. repeat split; try assumption. apply GN. exact E.
      * intros [(t & -> & I)|(-> & I & RD & NI)].
        -- left. apply GD in I. rewrite I. reflexivity.
        -- right. apply GN in NI. rewrite NI. repeat split; assumption.
    + destruct R as (n & t & I & ID & G). right. exists n, t, d. split; [exact I|]. split; [exact ID|]. split; [reflexivity|].
      apply GN. rewrite get_offer in G. destruct (get n d); [discriminate G|reflexivity].
  - left. apply collect_raises. exact C.
Qed.
Lemma readers_all : forall e, NoDup (map fst e) -> ~ raising e -> unambiguous e -> one_name e ->
  exists r, collect_with_readers isidentifier e = Some r /\ NoDup (map fst r) /\
    forall n o, In (n, o) r <->
      (exists t, o = OTool t /\ visible e n t) \/
      (o = OReader /\ isidentifier n = true /\ readable e n /\ forall t, ~ visible e n t).
Proof.
  intros e ND NR U ON. pose proof (readers_exact e ND) as X.
  assert (V : forall d, collect_tools e = Some d -> forall n t, In (n, t) d <-> visible e n t).
  { intros d C n t. rewrite (proj1 (collect_exact e d U C)). split; [tauto|]. intro H. split; [exact H|].
    intros m M. rewrite (ON m n t M H). apply le_refl. }
  destruct (collect_with_readers isidentifier e) as [r|].
  - destruct X as (d & C & NDR & I). exists r. split; [reflexivity|]. split; [exact NDR|].
    intros n o. rewrite I. pose proof (V d C) as VD. split.
    + intros [(t & E & A)|(E & A & B & D)]; [left; exists t; split; [exact E|apply VD; exact A]|].
      right. repeat split; try assumption. intros t T. apply (D t). apply VD. exact T.
    + intros [(t & E & A)|(E & A & B & D)]; [left; exists t; split; [exact E|apply VD; exact A]|].
      right. repeat split; try assumption. intros t T. apply (D t). apply VD. exact T.
  - exfalso. destruct X as [X|(n & t & d & I & _ & C & NI)]; [exact (NR X)|].
    apply (NI t). apply (V d C). apply vis_direct. exact I.
Qed.
End Readers.
