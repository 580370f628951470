(** Proofs about [ObjectInterpretation]. *)
From Coq Require Import List Arith Bool Lia.
From Verif Require Import ObjModel ObjSpec.
Import ListNotations.

Lemma dget_dset d o i o' : dget (dset d o i) o' = if o =? o' then Some i else dget d o'.
Proof.
  induction d as [|[x j] d IH]; cbn [dset dget]; [reflexivity|]. destruct (x =? o) eqn:E; cbn [dget].
  - apply Nat.eqb_eq in E. subst x. destruct (o =? o'); reflexivity.
  - rewrite IH. destruct (x =? o') eqn:E2; [|reflexivity]. apply Nat.eqb_eq in E2. subst x. rewrite Nat.eqb_sym, E. reflexivity.
Qed.

Lemma dget_update e : forall d o, dget (update d e) o = match last_mark e o with Some i => Some i | None => dget d o end.
Proof.
  unfold update. induction e as [|[x i] e IH]; intros d o; cbn [fold_left last_mark fst snd]; [reflexivity|].
  rewrite IH, dget_dset. destruct (last_mark e o); [reflexivity|]. destruct (x =? o); reflexivity.
Qed.

Definition keyed (d : dict) : Prop := NoDup (map fst d).

Lemma keyed_dset d o i : keyed d -> keyed (dset d o i).
Proof.
  unfold keyed. intros H. induction d as [|[x j] d IH]; cbn [dset map fst] in *; [constructor; [intros []|constructor]|].
  inversion H; subst. destruct (x =? o) eqn:E; cbn [map fst]; [exact H|]. constructor; [|apply IH; assumption].
  intros Hi. apply H2. clear -Hi E. induction d as [|[y k] d IH]; cbn [dset map fst] in *.
  - destruct Hi as [Hi|[]]. subst. rewrite Nat.eqb_refl in E. discriminate E.
  - destruct (y =? o) eqn:E2; cbn [map fst] in Hi; [exact Hi|]. destruct Hi as [Hi|Hi]; [left; exact Hi|right; apply IH; exact Hi].
Qed.

Lemma keyed_update e : forall d, keyed d -> keyed (update d e).
Proof. unfold update. induction e as [|p e IH]; intros d H; cbn [fold_left]; [exact H|]. apply IH, keyed_dset, H. Qed.

Lemma last_mark_keyed d o : keyed d -> last_mark d o = dget d o.
Proof.
  unfold keyed. intros H. induction d as [|[x i] d IH]; [reflexivity|]. cbn [last_mark dget map fst] in *. inversion H; subst.
  rewrite IH by assumption. destruct (x =? o) eqn:E; [|destruct (dget d o); reflexivity].
  apply Nat.eqb_eq in E. subst x. assert (dget d o = None) as ->; [|reflexivity].
  clear -H2. induction d as [|[y k] d IH]; [reflexivity|]. cbn [dget map fst] in *. destruct (y =? o) eqn:E.
  - apply Nat.eqb_eq in E. subst. exfalso. apply H2. left. reflexivity.
  - apply IH. intros Hi. apply H2. right. exact Hi.
Qed.

Lemma keyed_nil : keyed []. Proof. constructor. Qed.

Lemma keyed_merge d e : keyed (merge d e).
Proof. apply keyed_update, keyed_update, keyed_nil. Qed.

Lemma dget_merge d e o : keyed d -> keyed e -> dget (merge d e) o = match dget e o with Some i => Some i | None => dget d o end.
Proof.
  intros Hd He. unfold merge. rewrite !dget_update, !last_mark_keyed by assumption. cbn [dget].
  destruct (dget e o); [reflexivity|]. destruct (dget d o); reflexivity.
Qed.

(** Worlds in which all tables have distinct keys. *)
Definition good (w : world) : Prop := forall c d, impls w c = Some d -> keyed d.

Lemma gather_spec w c m : good w -> ~ In c m -> forall acc o, keyed acc ->
  keyed (gather w c m acc) /\
  dget (gather w c m acc) o = match dget acc o with Some i => Some i | None => first_known w m o end.
Proof.
  intros Hw. induction m as [|s m IH]; intros Hc acc o Ha; cbn [gather first_known].
  - split; [exact Ha|]. destruct (dget acc o); reflexivity.
  - assert (Hm : ~ In c m) by (intros H; apply Hc; right; exact H).
    destruct (s =? c) eqn:E; [apply Nat.eqb_eq in E; exfalso; apply Hc; left; exact E|].
    unfold getitem. destruct (impls w s) as [d|] eqn:Es.
    + destruct (IH Hm (merge d acc) o (keyed_merge _ _)) as [H1 H2]. split; [exact H1|]. rewrite H2.
      rewrite dget_merge by (try exact Ha; exact (Hw _ _ Es)). destruct (dget acc o); reflexivity.
    + apply IH; assumption.
Qed.

Section Run.
Variable mro : nat -> list nat.

Lemma run_stmt_ok w s m o : good w -> temp w = [] -> ok s = true -> mro (cls s) = cls s :: m -> ~ In (cls s) m ->
  let w' := run_stmt mro w s in
  good w' /\ temp w' = [] /\
  getitem w' (cls s) o = match last_mark (own s) o with Some i => Some i | None => first_known w m o end /\
  (forall c, c <> cls s -> getitem w' c o = getitem w c o).
Proof.
  intros Hw Ht Hok Hm Hn. unfold run_stmt. rewrite Hok. unfold init_subclass, set_names. cbn [impls temp].
  rewrite Ht, Hm. set (d0 := update [] (own s)).
  assert (K0 : keyed d0) by apply keyed_update, keyed_nil.
  set (w1 := mkworld (impls w) d0). assert (Hw1 : good w1) by exact Hw.
  cbn [gather]. rewrite Nat.eqb_refl.
  destruct (gather_spec w1 (cls s) m Hw1 Hn (merge d0 d0) o (keyed_merge _ _)) as [G1 G2].
  cbv zeta. split; [|split; [reflexivity|split]].
  - intros c d E. cbn [impls] in E. destruct (c =? cls s); [inversion E; subst; exact G1|exact (Hw c d E)].
  - unfold getitem. cbn [impls]. rewrite Nat.eqb_refl, G2, dget_merge by exact K0.
    unfold d0. rewrite dget_update. cbn [dget]. assert (first_known w1 m o = first_known w m o) as -> by (clear; induction m as [|c m IH]; [reflexivity|]; cbn [first_known]; rewrite IH; reflexivity).
    destruct (last_mark (own s) o); reflexivity.
  - intros c Hc. unfold getitem. cbn [impls]. destruct (c =? cls s) eqn:E; [apply Nat.eqb_eq in E; contradiction|reflexivity].
Qed.

Lemma first_known_ext w w' m o : (forall c, In c m -> getitem w' c o = getitem w c o) -> first_known w' m o = first_known w m o.
Proof.
  induction m as [|c m IH]; intros H; [reflexivity|]. cbn [first_known]. rewrite H by (left; reflexivity).
  rewrite IH; [reflexivity|]. intros x Hx. apply H. right. exact Hx.
Qed.

(** State of the classes after a program. *)
Lemma run_spec l o : forall seen w, well_ordered mro l seen -> good w -> temp w = [] ->
  let w' := fold_left (run_stmt mro) l w in
  temp w' = [] /\
  (forall c, In c seen -> getitem w' c o = getitem w c o /\ marks l c o = None) /\
  (forall s, In s l -> exists m, mro (cls s) = cls s :: m /\
     getitem w' (cls s) o = match marks l (cls s) o with Some i => Some i | None => first_known w' m o end) /\
  (forall c, ~ In c seen -> (forall s, In s l -> cls s <> c) -> getitem w' c o = getitem w c o /\ marks l c o = None).
Proof.
  induction l as [|s l IH]; intros seen w Ho Hw Ht; cbn [fold_left].
  - cbv zeta. split; [exact Ht|]. split; [intros; split; reflexivity|]. split; [intros s []|intros; split; reflexivity].
  - inversion Ho as [|? ? ? m Hok Hnew Hm Hnd Hseen Hrest]; subst.
    assert (Hn : ~ In (cls s) m) by (rewrite Hm in Hnd; inversion Hnd; assumption).
    destruct (run_stmt_ok w s m o Hw Ht Hok Hm Hn) as (G1 & G2 & G3 & G4).
    destruct (IH _ _ Hrest G1 G2) as (I1 & I2 & I3 & I4). cbv zeta in *. cbn [marks].
    split; [exact I1|]. split; [|split].
    + intros c Hc. destruct (I2 c (or_intror Hc)) as [A B]. assert (E : cls s <> c) by (intros <-; contradiction).
      rewrite A, G4 by congruence. split; [reflexivity|]. rewrite (proj2 (Nat.eqb_neq _ _) E). exact B.
    + intros s' [<-|Hs'].
      * exists m. split; [exact Hm|]. rewrite Nat.eqb_refl. destruct (I2 (cls s) (or_introl eq_refl)) as [A _]. rewrite A, G3.
        destruct (last_mark (own s) o); [reflexivity|]. apply first_known_ext. intros c Hc. symmetry.
        destruct (I2 c (or_intror (Hseen c Hc))) as [A' _]. rewrite A'. apply G4. intros ->. contradiction.
      * assert (E : cls s <> cls s').
        { intros E. clear -Hrest Hs' E. assert (G : forall l seen, well_ordered mro l seen -> In s' l -> ~ In (cls s') seen).
          { intros l0. induction l0 as [|s0 l0 IH]; intros sn Ho Hi; [destruct Hi|]. inversion Ho; subst. destruct Hi as [<-|Hi]; [assumption|].
            intros Hin. eapply IH; [eassumption|exact Hi|]. right. exact Hin. }
          apply (G _ _ Hrest Hs'). left. exact E. }
        destruct (I3 s' Hs') as (m' & A & B). exists m'. split; [exact A|]. rewrite (proj2 (Nat.eqb_neq _ _) E). exact B.
    + intros c Hc Hl. assert (E : cls s <> c) by (apply Hl; left; reflexivity).
      destruct (I4 c) as [A B]; [intros [H|H]; [contradiction|contradiction]|intros s' Hs'; apply Hl; right; exact Hs'|].
      rewrite A, G4 by congruence. split; [reflexivity|]. rewrite (proj2 (Nat.eqb_neq _ _) E). exact B.
Qed.

Lemma start_good : good start.
Proof. intros c d H. cbn in H. destruct (c =? 0); inversion H. apply keyed_nil. Qed.

Lemma start_none c o : getitem start c o = None.
Proof. unfold getitem. cbn. destruct (c =? 0); reflexivity. Qed.

Variable l : list stmt.
Variable builtins : list nat.
Hypothesis Hl : well_ordered mro l builtins.
Hypothesis Hb : forall b, In b builtins -> incl (mro b) builtins.

Lemma run_facts o :
  (forall c, In c builtins -> getitem (run mro l) c o = None /\ marks l c o = None) /\
  (forall c, ~ In c builtins -> (forall s, In s l -> cls s <> c) -> getitem (run mro l) c o = None /\ marks l c o = None) /\
  (forall s, In s l -> exists m, mro (cls s) = cls s :: m /\
     getitem (run mro l) (cls s) o = match marks l (cls s) o with Some i => Some i | None => first_known (run mro l) m o end).
Proof.
  destruct (run_spec l o builtins start Hl start_good eq_refl) as (_ & H2 & H3 & H4). fold (run mro l) in *.
  split; [|split]; [| |exact H3].
  - intros c Hc. destruct (H2 c Hc) as [A B]. rewrite A, start_none. auto.
  - intros c Hc Hn. destruct (H4 c Hc Hn) as [A B]. rewrite A, start_none. auto.
Qed.

Lemma made_or_not c : (exists s, In s l /\ cls s = c) \/ (forall s, In s l -> cls s <> c).
Proof.
  clear. induction l as [|s l' IH]; [right; intros s []|]. destruct (Nat.eq_dec (cls s) c) as [E|E].
  - left. exists s. split; [left; reflexivity|exact E].
  - destruct IH as [(s' & Hi & E')|IH]; [left; exists s'; split; [right; exact Hi|exact E']|right].
    intros s' [<-|Hi]; [exact E|apply IH; exact Hi].
Qed.

(** Exact: own marks, else the first ancestor in resolution order that has any
    implementation, its own or inherited. *)
Theorem lookup_exact s m o : In s l -> mro (cls s) = cls s :: m ->
  getitem (run mro l) (cls s) o = match marks l (cls s) o with Some i => Some i | None => first_known (run mro l) m o end.
Proof.
  intros Hs Hm. destruct (proj2 (proj2 (run_facts o)) s Hs) as (m' & A & B). rewrite Hm in A. inversion A; subst. exact B.
Qed.

Hypothesis Hmono : monotone mro.

Lemma subseq_incl a b : subseq a b -> incl a b.
Proof.
  intros H. induction H as [b|x a b _ IH|x a b _ IH]; intros y Hy; [destruct Hy|..].
  - destruct Hy as [<-|Hy]; [left; reflexivity|right; apply IH; exact Hy].
  - right. apply IH. exact Hy.
Qed.

Lemma subseq_length a b : subseq a b -> List.length a <= List.length b.
Proof. intros H. induction H; cbn; lia. Qed.

Lemma resolve_none m o : (forall c, In c m -> marks l c o = None) -> resolve l m o = None.
Proof.
  induction m as [|c m IH]; intros H; [reflexivity|]. cbn [resolve]. rewrite H by (left; reflexivity).
  apply IH. intros x Hx. apply H. right. exact Hx.
Qed.

Lemma resolve_sub a l1 d l2 o : NoDup (l1 ++ d :: l2) -> subseq a (l1 ++ d :: l2) -> In d a ->
  (forall c, In c l1 -> marks l c o = None) -> marks l d o <> None -> resolve l a o = marks l d o.
Proof.
  revert a. induction l1 as [|x l1 IH]; intros a Hn Hs Hd H1 H2; cbn [app] in *.
  - inversion Hs; subst.
    + destruct Hd.
    + cbn [resolve]. destruct (marks l d o); [reflexivity|contradiction].
    + exfalso. inversion Hn as [|? ? Hnot _]; subst. apply Hnot. match goal with S : subseq a l2 |- _ => apply (subseq_incl _ _ S) end. exact Hd.
  - inversion Hn; subst. inversion Hs; subst.
    + destruct Hd.
    + cbn [resolve]. rewrite (H1 x (or_introl eq_refl)). apply IH; try assumption.
      * destruct Hd as [<-|Hd]; [exfalso; apply H2, H1; left; reflexivity|exact Hd].
      * intros c Hc. apply H1. right. exact Hc.
    + apply IH; try assumption. intros c Hc. apply H1. right. exact Hc.
Qed.

Lemma first_marked m o : (forall c, In c m -> marks l c o = None) \/
  exists l1 d l2, m = l1 ++ d :: l2 /\ (forall c, In c l1 -> marks l c o = None) /\ marks l d o <> None.
Proof.
  induction m as [|c m IH]; [left; intros c []|]. destruct (marks l c o) eqn:E.
  - right. exists [], c, m. split; [reflexivity|]. split; [intros x []|congruence].
  - destruct IH as [IH|(l1 & d & l2 & -> & H1 & H2)].
    + left. intros x [<-|Hx]; [exact E|apply IH; exact Hx].
    + right. exists (c :: l1), d, l2. split; [reflexivity|]. split; [|exact H2]. intros x [<-|Hx]; [exact E|apply H1; exact Hx].
Qed.

Theorem lookup_resolve c o : no_diamond mro l c o -> getitem (run mro l) c o = resolve l (mro c) o \/ ~ exists s, In s l /\ cls s = c.
Proof.
  remember (List.length (mro c)) as n eqn:En. revert c En. induction n as [n IHn] using lt_wf_ind. intros c En Hd.
  destruct (made_or_not c) as [(s & Hs & Ec)|Hno]; [|right; intros (s & Hs & E); exact (Hno s Hs E)].
  left. subst c. destruct (proj2 (proj2 (run_facts o)) s Hs) as (m & Hm & ->). rewrite Hm. cbn [resolve].
  destruct (marks l (cls s) o) as [i|] eqn:Ei; [reflexivity|].
  assert (Hnd : NoDup (mro (cls s))).
  { clear -Hl Hs. revert Hl Hs. generalize builtins. induction l as [|s0 l0 IH]; intros sn Ho Hi; [destruct Hi|]. inversion Ho; subst.
    destruct Hi as [<-|Hi]; [assumption|]. eapply IH; eassumption. }
  (* value found in each ancestor *)
  assert (G : forall t, In t m -> getitem (run mro l) t o = resolve l (mro t) o).
  { intros t Ht. assert (Hin : In t (mro (cls s))) by (rewrite Hm; right; exact Ht).
    destruct (made_or_not t) as [(s' & Hs' & Et)|Hno].
    - assert (Hlt : List.length (mro t) < n).
      { subst t. destruct (proj2 (proj2 (run_facts o)) s' Hs') as (m' & Hm' & _). pose proof (Hmono _ _ Hin) as Sub.
        rewrite Hm', Hm in Sub. rewrite Hm', En, Hm. inversion Sub; subst.
        - exfalso. rewrite Hm in Hnd. inversion Hnd; subst. congruence.
        - cbn [List.length]. match goal with S : subseq _ m |- _ => apply subseq_length in S; cbn [List.length] in S; lia end. }
      destruct (IHn _ Hlt t eq_refl) as [E|E].
      + intros s0 l1 d l2 H0. apply Hd. apply (subseq_incl _ _ (Hmono _ _ Hin)). exact H0.
      + exact E.
      + exfalso. apply E. exists s'. split; assumption.
    - destruct (in_dec Nat.eq_dec t builtins) as [Htb|Htb].
      + rewrite (proj1 (proj1 (run_facts o) t Htb)). symmetry. apply resolve_none. intros x Hx.
        apply (proj1 (run_facts o)). apply (Hb t Htb). exact Hx.
      + exfalso. clear -Hl Hs Ht Hm Hno Htb. assert (K : forall l0 sn, (forall x, In x l0 -> In x l) -> (forall x, In x sn -> In x builtins \/ exists s, In s l /\ cls s = x) ->
          well_ordered mro l0 sn -> In s l0 -> In t builtins \/ exists s, In s l /\ cls s = t).
        { intros l0. induction l0 as [|s0 l0 IH]; intros sn Hi Hsn Ho Hin; [destruct Hin|].
          inversion Ho as [|? ? ? m0 H1 H2 H3 H4 H5 H6]; subst. destruct Hin as [->|Hin].
          - rewrite Hm in H3. inversion H3; subst. apply Hsn, H5, Ht.
          - apply (IH (cls s0 :: sn)); [intros x Hx; apply Hi; right; exact Hx| |exact H6|exact Hin].
            intros x [<-|Hx]; [right; exists s0; split; [apply Hi; left; reflexivity|reflexivity]|apply Hsn; exact Hx]. }
        destruct (K l builtins (fun x H => H) (fun x H => or_introl H) Hl Hs) as [H|(s1 & H1 & H2)]; [exact (Htb H)|exact (Hno s1 H1 H2)]. }
  destruct (first_marked m o) as [Hnone|(l1 & d & l2 & Em & H1 & H2)].
  - rewrite resolve_none by exact Hnone.
    assert (K : forall t, In t m -> getitem (run mro l) t o = None).
    { intros t Ht. rewrite G by exact Ht. apply resolve_none. intros x Hx.
      assert (Hx' : In x (mro (cls s))). { assert (Hin : In t (mro (cls s))) by (rewrite Hm; right; exact Ht). apply (subseq_incl _ _ (Hmono _ _ Hin)). exact Hx. }
      rewrite Hm in Hx'. destruct Hx' as [<-|Hx']; [exact Ei|apply Hnone; exact Hx']. }
    clear -K. induction m as [|t m IH]; [reflexivity|]. cbn [first_known]. rewrite K by (left; reflexivity).
    apply IH. intros x Hx. apply K. right. exact Hx.
  - assert (Hres : resolve l m o = marks l d o).
    { rewrite Em. clear -H1 H2. induction l1 as [|x l1 IH]; cbn [app resolve].
      - destruct (marks l d o); [reflexivity|contradiction].
      - rewrite (H1 x (or_introl eq_refl)). apply IH. intros c Hc. apply H1. right. exact Hc. }
    rewrite Hres.
    assert (Hndm : NoDup ((cls s :: l1) ++ d :: l2)) by (cbn [app]; rewrite <- Em, <- Hm; exact Hnd).
    assert (K : forall t, In t l1 -> getitem (run mro l) t o = None \/ getitem (run mro l) t o = marks l d o).
    { intros t Ht. assert (Htm : In t m) by (rewrite Em; apply in_or_app; left; exact Ht). rewrite G by exact Htm.
      assert (Hin : In t (mro (cls s))) by (rewrite Hm; right; exact Htm).
      destruct (first_marked (mro t) o) as [N|(a1 & e & a2 & Ee & N1 & N2)].
      - left. apply resolve_none. exact N.
      - right. apply (resolve_sub (mro t) (cls s :: l1) d l2).
        + exact Hndm.
        + cbn [app]. rewrite <- Em, <- Hm. apply Hmono. exact Hin.
        + apply (Hd (cls s) (cls s :: l1) d l2) with (e := e).
          * rewrite Hm. left. reflexivity.
          * rewrite Hm, Em. reflexivity.
          * intros x [<-|Hx]; [exact Ei|apply H1; exact Hx].
          * exact H2.
          * right. exact Ht.
          * rewrite Ee. apply in_or_app. right. left. reflexivity.
          * exact N2.
        + intros x [<-|Hx]; [exact Ei|apply H1; exact Hx].
        + exact H2. }
    assert (KD : getitem (run mro l) d o = marks l d o).
    { assert (Hdm : In d m) by (rewrite Em; apply in_or_app; right; left; reflexivity). rewrite G by exact Hdm.
      destruct (made_or_not d) as [(s' & Hs' & Et)|Hno].
      - destruct (proj2 (proj2 (run_facts o)) s' Hs') as (m' & Hm' & _). rewrite <- Et, Hm'. cbn [resolve]. rewrite Et.
        destruct (marks l d o); [reflexivity|contradiction].
      - exfalso. apply H2. destruct (in_dec Nat.eq_dec d builtins) as [H|H]; [apply (proj1 (run_facts o) d H)|apply (proj1 (proj2 (run_facts o)) d H Hno)]. }
    rewrite Em. clear -K KD H2. induction l1 as [|t l1 IH]; cbn [app first_known].
    + rewrite KD. destruct (marks l d o); [reflexivity|contradiction].
    + assert (E : first_known (run mro l) (l1 ++ d :: l2) o = marks l d o) by (apply IH; intros x Hx; apply K; right; exact Hx).
      destruct (K t (or_introl eq_refl)) as [->| ->]; [exact E|]. destruct (marks l d o); [reflexivity|contradiction].
Qed.

Lemma single_no_diamond c o : single mro c -> no_diamond mro l c o.
Proof.
  intros Hs s l1 d l2 Hin Hm H1 H2 t e Ht He Hme.
  assert (Hpre : forall l1 s, In s (mro c) -> mro s = l1 ++ d :: l2 -> In t l1 -> exists x y, mro t = x ++ d :: y).
  { clear -Hs Hmono. intros l1. induction l1 as [|x l1 IH]; intros s Hin Hm Ht; [destruct Ht|]. cbn [app] in Hm.
    destruct (Hs s Hin) as (m & E & P). rewrite Hm in E. inversion E; subst s m.
    destruct Ht as [<-|Ht]; [exists (x :: l1), l2; exact Hm|].
    destruct (l1 ++ d :: l2) as [|p r] eqn:E2; [destruct l1; discriminate E2|].
    assert (Hp : In p (mro c)). { apply (subseq_incl _ _ (Hmono _ _ Hin)). rewrite Hm. right. left. reflexivity. }
    apply (IH p Hp); [exact P|exact Ht]. }
  destruct (Hpre l1 s Hin Hm Ht) as (x & y & E). rewrite E. apply in_or_app. right. left. reflexivity.
Qed.
End Run.

Lemma lookup_made mro l builtins : well_ordered mro l builtins -> (forall b, In b builtins -> incl (mro b) builtins) ->
  monotone mro -> forall s o, In s l -> no_diamond mro l (cls s) o ->
  getitem (run mro l) (cls s) o = resolve l (mro (cls s)) o.
Proof.
  intros Hl Hb Hm s o Hs Hd. destruct (lookup_resolve mro l builtins Hl Hb Hm (cls s) o Hd) as [E|E]; [exact E|].
  exfalso. apply E. exists s. split; [exact Hs|reflexivity].
Qed.

Lemma lookup_single mro l builtins : well_ordered mro l builtins -> (forall b, In b builtins -> incl (mro b) builtins) ->
  monotone mro -> forall s o, In s l -> single mro (cls s) ->
  getitem (run mro l) (cls s) o = resolve l (mro (cls s)) o.
Proof. intros Hl Hb Hm s o Hs H1. apply (lookup_made mro l builtins); try assumption. apply single_no_diamond; assumption. Qed.
