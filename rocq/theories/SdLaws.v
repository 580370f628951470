From Coq Require Import List Arith Bool Lia.
From Verif Require Import SdModel SdSpec SdProofs.
Import ListNotations.

(** * The classes asked for *)
Lemma virtual_in : forall w c ks t, In t (virtual w c ks) ->
  In t ks /\ issub w c t = true /\ ~ In t (mro w c).
Proof.
  intros w c ks t H. unfold virtual in H. apply filter_In in H. destruct H as [H _].
  apply filter_In in H. destruct H as [H E]. apply andb_true_iff in E. destruct E as [E1 E2].
  apply negb_true_iff in E1. apply mem_out in E1. auto.
Qed.

Lemma insert_in : forall s l q, In q (insert s l) <-> q = s \/ In q l.
Proof.
  induction l as [|x l IH]; intros q; cbn [insert]; [cbn; intuition|].
  destruct (Nat.ltb (length x) (length s)); cbn [In]; [intuition|]. rewrite IH. intuition.
Qed.

Lemma by_length_in : forall l q, In q (by_length l) <-> In q l.
Proof.
  intros l q. unfold by_length.
  assert (K : forall l acc, In q (fold_left (fun acc s => insert s acc) l acc) <-> In q l \/ In q acc).
  { clear l. induction l as [|s l IH]; intros acc; cbn; [intuition|].
    rewrite IH, insert_in. intuition. }
  rewrite K. cbn. intuition.
Qed.

Lemma add_new_in : forall acc x y, In y (add_new acc x) <-> y = x \/ In y acc.
Proof.
  intros acc x y. unfold add_new. destruct (mem x acc) eqn:E.
  - apply mem_In in E. split; [auto|]. intros [->|H]; assumption.
  - rewrite in_app_iff. cbn. intuition.
Qed.

Lemma add_all_in : forall xs acc y, In y (fold_left add_new xs acc) <-> In y xs \/ In y acc.
Proof.
  induction xs as [|x xs IH]; intros acc y; cbn; [intuition|].
  rewrite IH, add_new_in. intuition.
Qed.

Lemma found_in : forall w c types t s x, In s (found w c types t) -> In x s -> In x types.
Proof.
  intros w c types t s x Hs Hx. unfold found in Hs. apply in_map_iff in Hs.
  destruct Hs as [sub [<- _]]. apply filter_In in Hx. now apply mem_In.
Qed.

Lemma found_own : forall w, sound w -> forall c types t s,
  In t types -> In s (found w c types t) -> In t s.
Proof.
  intros w So c types t s Ht Hs. unfold found in Hs. apply in_map_iff in Hs.
  destruct Hs as [sub [<- Hsub]]. apply filter_In in Hsub. destruct Hsub as [Hsub _].
  apply filter_In. split; [|now apply mem_In]. apply (listed w So). now apply (children w So).
Qed.

(** a step of [arrange] *)
Definition arrange_step w c types acc t :=
  match found w c types t with
  | [] => acc ++ [t]
  | f => fold_left add_new (concat (by_length f)) acc
  end.

Lemma arrange_step_in : forall w c types acc t x, In t types ->
  In x (arrange_step w c types acc t) -> In x acc \/ In x types.
Proof.
  intros w c types acc t x Ht H. unfold arrange_step in H.
  destruct (found w c types t) as [|s f] eqn:E.
  - apply in_app_or in H. destruct H as [H|[<-|[]]]; auto.
  - apply add_all_in in H. destruct H as [H|H]; [|auto]. right.
    apply in_concat in H. destruct H as [q [Hq Hx]]. apply (proj1 (by_length_in (s :: f) q)) in Hq. apply (found_in w c types t q); [|exact Hx].
    rewrite E. exact Hq.
Qed.

Lemma arrange_step_own : forall w, sound w -> forall c types acc t, In t types ->
  In t (arrange_step w c types acc t) /\ forall x, In x acc -> In x (arrange_step w c types acc t).
Proof.
  intros w So c types acc t Ht. unfold arrange_step.
  destruct (found w c types t) as [|s f] eqn:E.
  - split; [apply in_or_app; right; now left | intros x Hx; apply in_or_app; now left].
  - split; [|intros x Hx; apply add_all_in; now right].
    apply add_all_in. left. apply in_concat. exists s. split; [apply (proj2 (by_length_in (s :: f) s)); now left|].
    apply (found_own w So c types); [exact Ht | rewrite E; now left].
Qed.

Lemma arrange_fold : forall w, sound w -> forall c types l acc,
  (forall x, In x l -> In x types) ->
  (forall x, In x (fold_left (arrange_step w c types) l acc) -> In x acc \/ In x types) /\
  (forall x, In x l \/ In x acc -> In x (fold_left (arrange_step w c types) l acc)).
Proof.
  intros w So c types l; induction l as [|t l IH]; intros acc Hl; cbn.
  - split; [auto | intros x [[]|H]; exact H].
  - destruct (IH (arrange_step w c types acc t)) as [A B]; [intros x Hx; apply Hl; now right|].
    assert (Ht : In t types) by (apply Hl; now left).
    destruct (arrange_step_own w So c types acc t Ht) as [O P].
    split.
    + intros x Hx. apply A in Hx. destruct Hx as [Hx|Hx]; [|auto].
      now apply arrange_step_in in Hx.
    + intros x [[<-|Hx]|Hx]; apply B; auto.
Qed.

Lemma arrange_in : forall w, sound w -> forall c types x, In x (arrange w c types) <-> In x types.
Proof.
  intros w So c types x.
  destruct (arrange_fold w So c types types []) as [A B]; [auto|].
  change (arrange w c types) with (fold_left (arrange_step w c types) types []).
  split; intros H; [destruct (A x H) as [[]|K]; exact K | apply B; now left].
Qed.

Lemma nominal_old : forall w, sound w -> forall c t, nominal w c t -> t <= c.
Proof.
  intros w So c t H; induction H as [c|c b t Hb _ IH]; [lia|].
  pose proof (older w So _ _ Hb). lia.
Qed.

Lemma nominal_trans : forall w a b c, nominal w a b -> nominal w b c -> nominal w a c.
Proof.
  intros w a b c H; induction H as [|a d b Hb _ IH]; intros K; [exact K|].
  apply nominal_base with d; [exact Hb | now apply IH].
Qed.

(** a registered superclass is asked for, or a class below it is *)
Lemma virtual_covers : forall w, sound w -> forall c ks u, In u ks -> issub w c u = true ->
  ~ In u (mro w c) -> exists v, In v (virtual w c ks) /\ nominal w v u.
Proof.
  intros w So c ks u Hu Hs Hm.
  set (types := filter (related w c) ks).
  assert (T : In u types).
  { apply filter_In. split; [exact Hu|]. unfold related. apply mem_out in Hm. now rewrite Hm, Hs. }
  assert (G : forall n u, In u types -> list_max types < u + n ->
              exists v, In v (virtual w c ks) /\ nominal w v u).
  { clear u Hu Hs Hm T. induction n as [|n IH]; intros u T L.
    - pose proof (list_max_le types (list_max types)) as K. destruct K as [K _].
      specialize (K (le_n _)). rewrite Forall_forall in K. specialize (K u T). cbn in K. lia.
    - destruct (strict_base w types u) eqn:E.
      + unfold strict_base in E. apply existsb_exists in E. destruct E as [o [Ho E]].
        apply andb_true_iff in E. destruct E as [E1 E2]. apply negb_true_iff in E1.
        apply Nat.eqb_neq in E1. apply mem_In in E2. apply (listed w So) in E2.
        pose proof (nominal_old w So _ _ E2).
        destruct (IH o Ho) as [v [Hv Nv]]; [unfold cls in *; lia|].
        exists v. split; [exact Hv | now apply nominal_trans with o].
      + exists u. split; [|constructor]. unfold virtual. fold types. apply filter_In.
        split; [exact T|]. now rewrite E. }
  apply (G (S (list_max types)) u T). lia.
Qed.

(** * The order composed *)
Section Composed.
Variable w : world.
Variable c : cls.
Variable ks : list cls.
Variable r : list cls.
Hypothesis So : sound w.
Hypothesis Er : compose_mro w c ks = Ok r.

Lemma composed_nodup : NoDup r.
Proof. apply (c3_nodup _ _ _ _ _ Er). Qed.

Lemma composed_closed : closed w r.
Proof. apply (c3_closed _ _ _ _ _ Er). Qed.

Lemma composed_self : In c r.
Proof. apply (c3_self _ _ _ _ _ Er). Qed.

Lemma composed_source : forall t, In t r ->
  nominal w c t \/ exists a, In a ks /\ issub w c a = true /\ In a r /\ nominal w a t.
Proof.
  intros t Ht. destruct (c3_source _ _ _ _ _ Er t Ht) as [N|[a [Ha [Har N]]]]; [now left|right].
  apply (arrange_in w So) in Ha. apply virtual_in in Ha. exists a. tauto.
Qed.

Lemma composed_has : forall u, In u ks -> issub w c u = true -> In u r.
Proof.
  intros u Hu Hs. destruct (in_dec Nat.eq_dec u (mro w c)) as [Hm|Hm].
  - apply (listed w So) in Hm. apply (closed_in w r c); [exact composed_closed | exact Hm | exact composed_self].
  - destruct (virtual_covers w So c ks u Hu Hs Hm) as [v [Hv Nv]].
    apply (closed_in w r v); [exact composed_closed | exact Nv|].
    apply (c3_asked _ _ _ _ _ Er); [now apply (arrange_in w So)|]. now apply virtual_in in Hv.
Qed.

Lemma first_best : forall l1 m l2, r = l1 ++ m :: l2 -> (forall x, In x l1 -> ~ In x ks) ->
  In m ks -> best w ks c m.
Proof.
  intros l1 m l2 E H1 Hm.
  assert (Hr : In m r) by (rewrite E; apply in_or_app; right; now left).
  assert (U : forall u, In u ks -> In u r -> nominal w u m -> u = m).
  { intros u Hu Hur Nu.
    destruct (closed_prior w r u m composed_closed composed_nodup Nu Hur) as [->|P]; [reflexivity|].
    exfalso. pose proof composed_nodup as N. rewrite E in P, N.
    assert (K : forall l1, prior (l1 ++ m :: l2) u m -> NoDup (l1 ++ m :: l2) -> In u l1).
    { clear. induction l1 as [|a l1 IH]; cbn; intros P N; inversion N as [|? ? Na Nl]; subst;
      destruct (prior_inv _ _ _ _ P) as [[-> Hx]|Q].
      - contradiction.
      - apply prior_in in Q. destruct Q as [_ Q]. contradiction.
      - now left.
      - right. now apply IH. }
    apply (H1 u); [now apply K | exact Hu]. }
  split; [exact Hm|]. split.
  - destruct (composed_source m Hr) as [N|[a [Ha [Hs [Har N]]]]]; [now apply (inherited w So)|].
    now rewrite <- (U a Ha Har N).
  - intros u Hu Hs Nu. apply U; [exact Hu | now apply composed_has | exact Nu].
Qed.
End Composed.

(** * The scan *)
Lemma scan_some : forall w c ks l m, scan w c ks l = Ok (Some m) ->
  exists l1 l2, l = l1 ++ m :: l2 /\ (forall x, In x l1 -> ~ In x ks) /\ In m ks.
Proof.
  intros w c ks l m; induction l as [|x l IH]; cbn; intros H; [discriminate|].
  destruct (mem x ks) eqn:E.
  - apply mem_In in E.
    assert (x = m).
    { destruct l as [|t l]; [now injection H|].
      destruct (mem t ks && _ && _ && _); [discriminate | now injection H]. }
    subst x. exists [], l. split; [reflexivity|]. split; [intros ? [] | exact E].
  - apply mem_out in E. destruct (IH H) as [l1 [l2 [-> [N Hm]]]].
    exists (x :: l1), l2. split; [reflexivity|]. split; [|exact Hm].
    intros y [<-|Hy]; [exact E | now apply N].
Qed.

Lemma scan_none : forall w c ks l, scan w c ks l = Ok None -> forall x, In x l -> ~ In x ks.
Proof.
  intros w c ks l; induction l as [|x l IH]; cbn; intros H y Hy; [destruct Hy|].
  destruct (mem x ks) eqn:E.
  - destruct l as [|t l]; [discriminate|]. destruct (mem t ks && _ && _ && _); discriminate.
  - apply mem_out in E. destruct Hy as [<-|Hy]; [exact E | now apply IH].
Qed.

Lemma scan_err : forall w c ks l e, scan w c ks l = Err e ->
  exists l1 m t l2, e = Ambiguous m t /\ l = l1 ++ m :: t :: l2 /\ (forall x, In x l1 -> ~ In x ks) /\
    In m ks /\ In t ks /\ ~ In m (mro w c) /\ ~ In t (mro w c) /\ issub w m t = false.
Proof.
  intros w c ks l e; induction l as [|x l IH]; cbn; intros H; [discriminate|].
  destruct (mem x ks) eqn:E.
  - destruct l as [|t l]; [discriminate|].
    destruct (mem t ks && negb (mem t (mro w c)) && negb (mem x (mro w c)) && negb (issub w x t)) eqn:K;
      [|discriminate]. injection H as <-.
    apply andb_true_iff in K. destruct K as [K K4]. apply andb_true_iff in K. destruct K as [K K3].
    apply andb_true_iff in K. destruct K as [K1 K2]. apply negb_true_iff in K2, K3, K4.
    apply mem_In in E, K1. apply mem_out in K2, K3.
    exists [], x, t, l. repeat split; auto.
  - apply mem_out in E. destruct (IH H) as [l1 [m [t [l2 [-> [-> [N R]]]]]]].
    exists (x :: l1), m, t, l2. split; [reflexivity|]. split; [reflexivity|]. split; [|exact R].
    intros y [<-|Hy]; [exact E | now apply N].
Qed.

(** * What is found *)
Lemma find_best : forall w c ks, sound w -> In 0 ks ->
  forall r, find_class w c ks = Ok r -> exists t, r = Some t /\ best w ks c t.
Proof.
  intros w c ks So H0 r H. unfold find_class in H.
  destruct (compose_mro w c ks) as [l|e] eqn:E; [|discriminate]. cbn [bind] in H.
  destruct r as [t|].
  - exists t. split; [reflexivity|]. destruct (scan_some _ _ _ _ _ H) as [l1 [l2 [El [N Ht]]]].
    now apply (first_best w c ks l So E l1 t l2).
  - exfalso. apply (scan_none _ _ _ _ H 0); [|exact H0].
    apply (closed_in w l c); [apply (composed_closed w c ks l E) | apply (rooted w So) | apply (composed_self w c ks l E)].
Qed.

Lemma list_max_in : forall l x, In x l -> x <= list_max l.
Proof.
  intros l x H. pose proof (list_max_le l (list_max l)) as [K _].
  specialize (K (le_n _)). rewrite Forall_forall in K. now apply K.
Qed.

Lemma compose_errors : forall w c ks e, sound w -> compose_mro w c ks = Err e -> e = Inconsistent.
Proof.
  intros w c ks e So H. destruct (c3_errors _ _ _ _ _ H) as [->| ->]; [reflexivity|].
  exfalso. revert H. unfold compose_mro. set (abcs := arrange w c (virtual w c ks)).
  apply (c3_fuel w (list_max (c :: abcs)) (older w So)).
  - apply list_max_in. now left.
  - intros a Ha. apply list_max_in. now right.
  - unfold enough. assert (c <= list_max (c :: abcs)) by (apply list_max_in; now left).
    cbn [Nat.mul]. unfold cls in *. lia.
Qed.

Lemma find_errors : forall w c ks e, sound w -> find_class w c ks = Err e ->
  e = Inconsistent \/
  exists m t, e = Ambiguous m t /\ best w ks c m /\ m <> t /\ In t ks /\ issub w c t = true /\
    ~ nominal w c m /\ ~ nominal w c t /\ issub w m t = false /\ ~ nominal w t m.
Proof.
  intros w c ks e So H. unfold find_class in H.
  destruct (compose_mro w c ks) as [l|e'] eqn:E; cbn [bind] in H.
  2: { injection H as <-. left. now apply (compose_errors w c ks). }
  right. destruct (scan_err _ _ _ _ _ H) as [l1 [m [t [l2 [-> [El [N [Hm [Ht [Nm [Nt Hs]]]]]]]]]]].
  assert (B : best w ks c m) by now apply (first_best w c ks l So E l1 m (t :: l2)).
  pose proof (composed_nodup w c ks l E) as D.
  assert (Dmt : m <> t).
  { intros ->. rewrite (inherited w So t t) in Hs; [discriminate | constructor]. }
  assert (A : issub w c t = true).
  { destruct (composed_source w c ks l So E t) as [K|[a [Ha [Hsa [Har K]]]]].
    - rewrite El. apply in_or_app. right. right. now left.
    - exfalso. apply Nt. now apply (listed w So).
    - destruct (closed_prior w l a t (composed_closed w c ks l E) D K Har) as [->|P]; [exact Hsa|].
      assert (X : In a (l1 ++ [m])).
      { assert (G : forall l1 l3, prior (l1 ++ t :: l3) a t -> NoDup (l1 ++ t :: l3) -> In a l1).
        { clear. induction l1 as [|b l1 IH]; cbn; intros l3 P N; inversion N as [|? ? Na Nl]; subst;
          destruct (prior_inv _ _ _ _ P) as [[-> Hx]|Q].
          - contradiction.
          - apply prior_in in Q. destruct Q as [_ Q]. contradiction.
          - now left.
          - right. now apply (IH l3). }
        apply (G (l1 ++ [m]) l2); rewrite <- app_assoc; cbn; rewrite <- El; assumption. }
      apply in_app_or in X. destruct X as [X|[<-|[]]]; [now elim (N a X)|].
      rewrite (inherited w So m t K) in Hs. discriminate. }
  exists m, t. split; [reflexivity|]. split; [exact B|]. split; [exact Dmt|]. split; [exact Ht|].
  split; [exact A|]. rewrite <- !(listed w So). split; [exact Nm|]. split; [exact Nt|].
  split; [exact Hs|]. intros K. apply (listed w So) in K. destruct B as [_ [_ B]].
  apply Dmt. symmetry. now apply B.
Qed.

(** one registered class below all others that apply *)
Lemma find_least : forall w c ks t, sound w -> In 0 ks -> In t ks -> issub w c t = true ->
  (forall u, In u ks -> issub w c u = true -> nominal w t u) ->
  find_class w c ks = Ok (Some t) \/ find_class w c ks = Err Inconsistent.
Proof.
  intros w c ks t So H0 Ht Hs L. destruct (find_class w c ks) as [r|e] eqn:E.
  - left. destruct (find_best w c ks So H0 r E) as [m [-> [Hm [Hsm B]]]].
    now rewrite (B t Ht Hs (L m Hm Hsm)).
  - right. destruct (find_errors w c ks e So E) as [->|[m [u [-> [[Hm [Hsm B]] [D [Hu [Hsu [_ [_ [X _]]]]]]]]]]]; [reflexivity|].
    exfalso. assert (K : t = m) by (apply B; [exact Ht | exact Hs | now apply L]).
    subst m. rewrite (inherited w So t u (L u Hu Hsu)) in X. discriminate.
Qed.
