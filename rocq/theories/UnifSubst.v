(** Proofs about equality of types, free variables and substitution. *)
From Coq Require Import List Bool Arith Lia.
From Verif Require Import UnifModel UnifSpec.
Import ListNotations.

Section Ind.
Variable P : ty -> Prop.
Hypothesis Hvar : forall v, P (TVar v).
Hypothesis Hany : P TAny.
Hypothesis Hell : P TEll.
Hypothesis Hcon : forall c, P (TCon c).
Hypothesis Happ : forall c l, Forall P l -> P (TApp c l).
Hypothesis Hunion : forall l, Forall P l -> P (TUnion l).
Hypothesis Hlist : forall l, Forall P l -> P (TList l).
Fixpoint ty_ind2 (t : ty) : P t :=
  let go := fix go (l : list ty) : Forall P l :=
    match l with [] => Forall_nil P | a :: r => Forall_cons a (ty_ind2 a) (go r) end in
  match t with
  | TVar v => Hvar v | TAny => Hany | TEll => Hell | TCon c => Hcon c
  | TApp c l => Happ c l (go l) | TUnion l => Hunion l (go l) | TList l => Hlist l (go l)
  end.
End Ind.

(** * Equality *)
Definition list_eqb : list ty -> list ty -> bool :=
  fix go (l l' : list ty) : bool :=
    match l, l' with [], [] => true | a :: r, b :: r' => ty_eqb a b && go r r' | _, _ => false end.
Definition each_in (l' : list ty) : list ty -> bool :=
  fix each (l : list ty) : bool := match l with [] => true | a :: r => existsb (ty_eqb a) l' && each r end.
Definition some_eq (b : ty) : list ty -> bool :=
  fix some (l : list ty) : bool := match l with [] => false | a :: r => ty_eqb a b || some r end.
Lemma ty_eqb_app : forall c l d l', ty_eqb (TApp c l) (TApp d l') = cls_eqb c d && list_eqb l l'.
Proof. reflexivity. Qed.
Lemma ty_eqb_list : forall l l', ty_eqb (TList l) (TList l') = list_eqb l l'.
Proof. reflexivity. Qed.
Lemma ty_eqb_union : forall l l', ty_eqb (TUnion l) (TUnion l') = each_in l' l && forallb (fun b => some_eq b l) l'.
Proof. reflexivity. Qed.
Lemma cls_eqb_eq : forall c d, cls_eqb c d = true <-> c = d.
Proof.
  intros c d. split.
  - destruct c, d; cbn; intros H; try discriminate; try reflexivity. apply Nat.eqb_eq in H. now subst.
  - intros <-. destruct c; cbn; try reflexivity. apply Nat.eqb_refl.
Qed.
Lemma some_eq_spec : forall b l, some_eq b l = true <-> exists a, In a l /\ ty_eqb a b = true.
Proof.
  intros b l. induction l as [|a l IH]; cbn.
  - split; [discriminate|intros [a [[] _]]].
  - fold (some_eq b). rewrite orb_true_iff, IH. split.
    + intros [H|[a' [I E]]]; [exists a; auto|exists a'; auto].
    + intros [a' [[->|I] E]]; [now left|right; eauto].
Qed.
Lemma each_in_spec : forall l' l, each_in l' l = true <-> forall a, In a l -> exists b, In b l' /\ ty_eqb a b = true.
Proof.
  intros l' l. induction l as [|a l IH]; cbn.
  - split; [intros _ a []|auto].
  - fold (each_in l'). rewrite andb_true_iff, IH, existsb_exists. split.
    + intros [H K] a' [<-|I]; auto.
    + intros H. split; [apply H; now left|intros a' I; apply H; now right].
Qed.
Lemma ty_eqb_refl : forall t, ty_eqb t t = true.
Proof.
  induction t as [v| | |c|c l IH|l IH|l IH] using ty_ind2.
  - apply Nat.eqb_refl.
  - reflexivity.
  - reflexivity.
  - now apply cls_eqb_eq.
  - rewrite ty_eqb_app. apply andb_true_iff. split; [now apply cls_eqb_eq|]. induction IH as [|a l H _ IH2]; [reflexivity|].
    cbn. now rewrite H.
  - rewrite ty_eqb_union. apply andb_true_iff. rewrite Forall_forall in IH. split.
    + apply each_in_spec. intros a I. exists a. auto.
    + apply forallb_forall. intros b I. apply some_eq_spec. exists b. auto.
  - rewrite ty_eqb_list. induction IH as [|a l H _ IH2]; [reflexivity|]. cbn. now rewrite H.
Qed.

(** * Free variables *)
Definition same_vars (t x : ty) : Prop := forall v, In v (fvs t) <-> In v (fvs x).
Lemma list_eqb_vars : forall l, Forall (fun t => forall x, ty_eqb t x = true -> same_vars t x) l ->
  forall l', list_eqb l l' = true -> forall v, In v (flat_map fvs l) <-> In v (flat_map fvs l').
Proof.
  intros l F. induction F as [|a l H _ IH]; intros [|b l'] E v; cbn in E; try discriminate; [tauto|].
  fold list_eqb in E. apply andb_true_iff in E. destruct E as [E1 E2]. cbn. rewrite !in_app_iff, (H b E1 v), (IH l' E2 v). tauto.
Qed.
Lemma ty_eqb_vars : forall t x, ty_eqb t x = true -> same_vars t x.
Proof.
  induction t as [v| | |c|c l IH|l IH|l IH] using ty_ind2; intros x E w.
  - destruct x; try discriminate. apply Nat.eqb_eq in E. subst. tauto.
  - destruct x; try discriminate. tauto.
  - destruct x; try discriminate. tauto.
  - destruct x; try discriminate. tauto.
  - destruct x; try discriminate. rewrite ty_eqb_app in E. apply andb_true_iff in E. now apply list_eqb_vars.
  - destruct x as [| | | | |l'|]; try discriminate. rewrite ty_eqb_union in E. apply andb_true_iff in E. destruct E as [E1 E2].
    rewrite each_in_spec in E1. rewrite forallb_forall in E2. rewrite Forall_forall in IH. cbn. rewrite !in_flat_map. split.
    + intros [a [I V]]. destruct (E1 a I) as [b [Ib Eb]]. exists b. split; [exact Ib|]. now apply (IH a I b Eb).
    + intros [b [I V]]. specialize (E2 b I). apply some_eq_spec in E2. destruct E2 as [a [Ia Ea]].
      exists a. split; [exact Ia|]. now apply (IH a Ia b Ea).
  - destruct x; try discriminate. rewrite ty_eqb_list in E. now apply list_eqb_vars.
Qed.
Lemma dedupe_vars : forall l seen v, In v (flat_map fvs (dedupe seen l)) \/ In v (flat_map fvs seen) <->
  In v (flat_map fvs l) \/ In v (flat_map fvs seen).
Proof.
  induction l as [|t l IH]; intros seen v; cbn; [tauto|].
  destruct (existsb (fun u => ty_eqb u t) seen) eqn:E.
  - rewrite IH, in_app_iff. apply existsb_exists in E. destruct E as [u [I Eu]].
    assert (In v (fvs t) -> In v (flat_map fvs seen)).
    { intros V. apply in_flat_map. exists u. split; [exact I|]. now apply (ty_eqb_vars u t Eu). }
    tauto.
  - cbn. rewrite !in_app_iff. specialize (IH (seen ++ [t]) v). rewrite flat_map_app, in_app_iff in IH. cbn in IH.
    rewrite app_nil_r in IH. tauto.
Qed.
Lemma members_vars : forall t, flat_map fvs (members t) = fvs t.
Proof. intros [v| | |c|c l|l|l]; cbn; rewrite ?app_nil_r; reflexivity. Qed.
Lemma mk_union_vars : forall l v, In v (fvs (mk_union l)) <-> In v (flat_map fvs l).
Proof.
  intros l v. assert (A : In v (flat_map fvs (dedupe [] (flat_map members l))) <-> In v (flat_map fvs l)).
  { pose proof (dedupe_vars (flat_map members l) [] v) as D. cbn in D.
    assert (B : In v (flat_map fvs (flat_map members l)) <-> In v (flat_map fvs l)).
    { clear. induction l as [|t l IH]; cbn; [tauto|]. rewrite flat_map_app, members_vars, !in_app_iff. tauto. }
    tauto. }
  unfold mk_union. destruct (dedupe [] (flat_map members l)) as [|t [|t' r]]; cbn in *; rewrite ?app_nil_r in *; exact A.
Qed.
Lemma replace_vars : forall f t v, In v (fvs (replace f t)) <-> exists w, In w (fvs t) /\ In v (fvs (f w)).
Proof.
  intros f t v.
  assert (G : forall l, Forall (fun t => In v (fvs (replace f t)) <-> exists w, In w (fvs t) /\ In v (fvs (f w))) l ->
    (In v (flat_map fvs (map (replace f) l)) <-> exists w, In w (flat_map fvs l) /\ In v (fvs (f w)))).
  { intros l F. induction F as [|a l H _ IH]; cbn; [split; [tauto|intros [w [[] _]]]|].
    rewrite in_app_iff, H, IH. split.
    - intros [[w [A B]]|[w [A B]]]; exists w; rewrite in_app_iff; tauto.
    - intros [w [A B]]. apply in_app_iff in A. destruct A; [left|right]; eauto. }
  induction t as [x| | |c|c l IH|l IH|l IH] using ty_ind2; cbn [replace].
  - cbn. split; [intros H; exists x; auto|intros [w [[<-|[]] H]]; exact H].
  - cbn. split; [tauto|intros [w [[] _]]].
  - cbn. split; [tauto|intros [w [[] _]]].
  - cbn. split; [tauto|intros [w [[] _]]].
  - cbn [fvs]. now apply G.
  - rewrite mk_union_vars. now apply G.
  - cbn [fvs]. now apply G.
Qed.

(** * Substitution *)
Definition once (s : subst) (v : nat) : ty := match get s v with Some t' => t' | None => TVar v end.
Lemma substitute_eq : forall n t s, substitute (S n) t s =
  match t with
  | TVar v => match get s v with Some t' => substitute n t' s | None => Ok t end
  | TList l => bind (map_res (fun x => substitute n x s) l) (fun l' => Ok (TList l'))
  | _ => if existsb (bound s) (fvs t) then substitute n (replace (once s) t) s else Ok t
  end.
Proof. intros n t s. destruct t; reflexivity. Qed.
Lemma bound_spec : forall s v, bound s v = true <-> get s v <> None.
Proof. intros s v. unfold bound. destruct (get s v); split; congruence. Qed.
Lemma unbound_all : forall s t, existsb (bound s) (fvs t) = false -> forall v, In v (fvs t) -> get s v = None.
Proof.
  intros s t E v I. destruct (get s v) eqn:G; [|reflexivity]. exfalso.
  assert (existsb (bound s) (fvs t) = true); [|congruence]. apply existsb_exists. exists v. split; [exact I|].
  apply bound_spec. congruence.
Qed.
Lemma reaches_unbound : forall s t v, (forall w, In w (fvs t) -> get s w = None) -> (reaches s t v <-> In v (fvs t)).
Proof.
  intros s t v H. split; [|apply rc_here]. intros R. destruct R as [t v I|t w t' v I G R]; [exact I|]. rewrite (H w I) in G. discriminate.
Qed.
Lemma reaches_iff : forall s t v, reaches s t v <-> exists w, In w (fvs t) /\ (v = w \/ exists t', get s w = Some t' /\ reaches s t' v).
Proof.
  intros s t v. split.
  - intros R. destruct R as [t v I|t w t' v I G R]; [exists v; auto|exists w; eauto].
  - intros [w [I [->|[t' [G R]]]]]; [now apply rc_here|eapply rc_step; eauto].
Qed.
Lemma reaches_once : forall s t v, get s v = None -> (reaches s (replace (once s) t) v <-> reaches s t v).
Proof.
  intros s t v Gv. rewrite (reaches_iff s (replace (once s) t)), (reaches_iff s t). split.
  - intros [w [I R]]. apply replace_vars in I. destruct I as [u [Iu Iw]]. exists u. split; [exact Iu|].
    unfold once in Iw. destruct (get s u) as [t'|] eqn:Gu.
    + right. exists t'. split; [reflexivity|]. apply reaches_iff. exists w. auto.
    + destruct Iw as [<-|[]]. destruct R as [->|[t' [G R]]]; [now left|congruence].
  - intros [w [I R]]. destruct R as [->|[t' [G R]]].
    + exists w. split; [|now left]. apply replace_vars. exists w. split; [exact I|]. unfold once. rewrite Gv. now left.
    + apply reaches_iff in R. destruct R as [u [Iu R]]. exists u. split; [|exact R].
      apply replace_vars. exists w. split; [exact I|]. unfold once. rewrite G. exact Iu.
Qed.
Lemma map_res_forall2 : forall A B (f : A -> res B) l l', map_res f l = Ok l' -> Forall2 (fun a b => f a = Ok b) l l'.
Proof.
  intros A B f l. induction l as [|a l IH]; intros l' H; cbn in H; [injection H as <-; constructor|].
  destruct (f a) as [b| |] eqn:E; try discriminate. cbn in H. destruct (map_res f l) as [r| |] eqn:R; try discriminate.
  injection H as <-. constructor; [exact E|now apply IH].
Qed.
Lemma forall2_map_res : forall A B (f : A -> res B) l l', Forall2 (fun a b => f a = Ok b) l l' -> map_res f l = Ok l'.
Proof.
  intros A B f l l' H. induction H as [|a b l l' E _ IH]; [reflexivity|]. cbn. now rewrite E, IH.
Qed.
Theorem substitute_vars : forall s n t r, substitute n t s = Ok r ->
  forall v, In v (fvs r) <-> get s v = None /\ reaches s t v.
Proof.
  intros s. induction n as [|n IH]; intros t r H v; [discriminate|]. rewrite substitute_eq in H.
  assert (General : (if existsb (bound s) (fvs t) then substitute n (replace (once s) t) s else Ok t) = Ok r ->
                    (In v (fvs r) <-> get s v = None /\ reaches s t v)).
  { intros K. destruct (existsb (bound s) (fvs t)) eqn:E.
    - rewrite (IH _ _ K v). split; intros [A B]; (split; [exact A|]); now apply (reaches_once s t v A).
    - injection K as <-. pose proof (unbound_all s t E) as U. rewrite (reaches_unbound s t v U).
      split; [intros I; split; [now apply U|exact I]|tauto]. }
  destruct t as [x| | |c|c l|l|l]; try (apply General; exact H); clear General.
  - destruct (get s x) as [t'|] eqn:G.
    + rewrite (IH _ _ H v), (reaches_iff s (TVar x)). cbn. split.
      * intros [A B]. split; [exact A|]. exists x. split; [now left|]. right. exists t'. auto.
      * intros [A [w [[<-|[]] [->|[t2 [G2 B]]]]]]; [congruence|]. rewrite G in G2. injection G2 as <-. auto.
    + injection H as <-. rewrite reaches_unbound; [|intros w [<-|[]]; exact G]. cbn. split; [|tauto]. intros [<-|[]]. auto.
  - destruct (map_res (fun x => substitute n x s) l) as [l'| |] eqn:M; try discriminate. injection H as <-.
    apply map_res_forall2 in M. cbn [fvs].
    assert (G : In v (flat_map fvs l') <-> get s v = None /\ exists t, In t l /\ reaches s t v).
    { induction M as [|a b l l' E M IHM]; cbn; [split; [tauto|intros [_ [t [[] _]]]]|].
      rewrite in_app_iff, (IH _ _ E v), IHM. split.
      - intros [[A B]|[A [t [I B]]]]; (split; [exact A|]); [exists a|exists t]; auto.
      - intros [A [t [[->|I] B]]]; [left; auto|right; split; [exact A|exists t; auto]]. }
    rewrite G. split; intros [A B]; (split; [exact A|]).
    + destruct B as [t [I R]]. apply reaches_iff in R. destruct R as [w [Iw R]]. apply reaches_iff. exists w. split; [|exact R].
      cbn. apply in_flat_map. eauto.
    + apply reaches_iff in B. destruct B as [w [Iw R]]. cbn in Iw. apply in_flat_map in Iw. destruct Iw as [t [It Iw]].
      exists t. split; [exact It|]. apply reaches_iff. eauto.
Qed.

(** More fuel changes nothing. *)
Lemma substitute_mono : forall s n t r, substitute n t s = Ok r -> forall m, n <= m -> substitute m t s = Ok r.
Proof.
  intros s. induction n as [|n IH]; intros t r H m L; [discriminate|]. destruct m as [|m]; [lia|].
  rewrite substitute_eq in *. destruct t as [x| | |c|c l|l|l]; try exact H.
  - destruct (get s x); [|exact H]. apply (IH _ _ H). lia.
  - destruct (existsb (bound s) (fvs (TApp c l))); [|exact H]. apply (IH _ _ H). lia.
  - destruct (existsb (bound s) (fvs (TUnion l))); [|exact H]. apply (IH _ _ H). lia.
  - destruct (map_res (fun x => substitute n x s) l) as [l'| |] eqn:M; try discriminate. apply map_res_forall2 in M.
    rewrite (forall2_map_res _ _ (fun x => substitute m x s) l l'); [exact H|]. clear H.
    induction M as [|a b l l' E M IHM]; constructor; [apply (IH _ _ E); lia|exact IHM].
Qed.

Lemma map_res_mono : forall s n l r, map_res (fun x => substitute n x s) l = Ok r -> forall m, n <= m ->
  map_res (fun x => substitute m x s) l = Ok r.
Proof.
  intros s n l r E m L. apply map_res_forall2 in E. apply forall2_map_res.
  induction E as [|a b l r H _ IH]; [apply Forall2_nil|]. apply Forall2_cons; [now apply (substitute_mono _ _ _ _ H)|exact IH].
Qed.
Theorem substitute_terminates : forall s t, acyclic s -> exists n r, substitute n t s = Ok r.
Proof.
  intros s t [rank A].
  assert (G : forall m t, (forall w, In w (fvs t) -> get s w <> None -> rank w < m) -> exists n r, substitute n t s = Ok r).
  { induction m as [|m IHm]; intros u.
    - induction u as [x| | |c|c l IHl|l IHl|l IHl] using ty_ind2; intros B;
        try (exists 1; eexists; rewrite substitute_eq; cbn [fvs existsb]; reflexivity).
      + exists 1, (TVar x). rewrite substitute_eq. destruct (get s x) eqn:G; [|reflexivity].
        specialize (B x (or_introl eq_refl)). rewrite G in B. assert (rank x < 0) by (apply B; discriminate). lia.
      + exists 1, (TApp c l). rewrite substitute_eq. destruct (existsb (bound s) (fvs (TApp c l))) eqn:E; [|reflexivity].
        apply existsb_exists in E. destruct E as [w [I W]]. apply bound_spec in W. specialize (B w I W). lia.
      + exists 1, (TUnion l). rewrite substitute_eq. destruct (existsb (bound s) (fvs (TUnion l))) eqn:E; [|reflexivity].
        apply existsb_exists in E. destruct E as [w [I W]]. apply bound_spec in W. specialize (B w I W). lia.
      + assert (L : exists n l', map_res (fun x => substitute n x s) l = Ok l').
        { clear - IHl B. induction IHl as [|a l H _ IH]; [exists 0, []; reflexivity|].
          destruct H as [n1 [r1 E1]]; [intros w I; apply B; cbn; rewrite in_app_iff; now left|].
          destruct IH as [n2 [r2 E2]]; [intros w I; apply B; cbn; rewrite in_app_iff; now right|].
          exists (n1 + n2), (r1 :: r2). cbn. rewrite (substitute_mono _ _ _ _ E1) by lia. cbn.
          rewrite (map_res_mono _ _ _ _ E2) by lia. reflexivity. }
        destruct L as [n [l' E]]. exists (S n), (TList l'). now rewrite substitute_eq, E.
    - assert (Step : forall u, (forall w, In w (fvs u) -> get s w <> None -> rank w < S m) ->
                     forall w, In w (fvs (replace (once s) u)) -> get s w <> None -> rank w < m).
      { intros u' B w I W. apply replace_vars in I. destruct I as [x [Ix Iw]]. unfold once in Iw.
        destruct (get s x) as [t'|] eqn:Gx; [|destruct Iw as [<-|[]]; congruence].
        pose proof (A x t' w Gx Iw W). assert (rank x < S m) by (apply B; [exact Ix|congruence]). lia. }
      induction u as [x| | |c|c l IHl|l IHl|l IHl] using ty_ind2; intros B;
        try (exists 1; eexists; rewrite substitute_eq; cbn [fvs existsb]; reflexivity).
      + destruct (get s x) as [t'|] eqn:G.
        * destruct (IHm t') as [n [r E]].
          { intros w I W. pose proof (A x t' w G I W). assert (rank x < S m) by (apply B; [now left|congruence]). lia. }
          exists (S n), r. now rewrite substitute_eq, G.
        * exists 1, (TVar x). now rewrite substitute_eq, G.
      + destruct (existsb (bound s) (fvs (TApp c l))) eqn:E.
        * destruct (IHm _ (Step _ B)) as [n [r R]]. exists (S n), r. now rewrite substitute_eq, E.
        * exists 1, (TApp c l). now rewrite substitute_eq, E.
      + destruct (existsb (bound s) (fvs (TUnion l))) eqn:E.
        * destruct (IHm _ (Step _ B)) as [n [r R]]. exists (S n), r. now rewrite substitute_eq, E.
        * exists 1, (TUnion l). now rewrite substitute_eq, E.
      + assert (L : exists n l', map_res (fun x => substitute n x s) l = Ok l').
        { clear - IHl B. induction IHl as [|a l H _ IH]; [exists 0, []; reflexivity|].
          destruct H as [n1 [r1 E1]]; [intros w I; apply B; cbn; rewrite in_app_iff; now left|].
          destruct IH as [n2 [r2 E2]]; [intros w I; apply B; cbn; rewrite in_app_iff; now right|].
          exists (n1 + n2), (r1 :: r2). cbn. rewrite (substitute_mono _ _ _ _ E1) by lia. cbn.
          rewrite (map_res_mono _ _ _ _ E2) by lia. reflexivity. }
        destruct L as [n [l' E]]. exists (S n), (TList l'). now rewrite substitute_eq, E. }
  apply (G (S (list_max (map rank (fvs t)))) t). intros w I _.
  assert (rank w <= list_max (map rank (fvs t))); [|lia].
  pose proof (proj1 (list_max_le (map rank (fvs t)) _) (le_n _)) as F. rewrite Forall_forall in F. apply F. now apply in_map.
Qed.

(** On types without unions: part by part. *)
Lemma resolves_once : forall s t r, plain t -> resolves s (replace (once s) t) r -> resolves s t r.
Proof.
  intros s t.
  assert (G : forall l, Forall (fun t => forall r, plain t -> resolves s (replace (once s) t) r -> resolves s t r) l ->
              Forall plain l -> forall l', Forall2 (resolves s) (map (replace (once s)) l) l' -> Forall2 (resolves s) l l').
  { intros l F. induction F as [|a l H _ IH]; intros P l' R; cbn in R.
    - remember [] as e eqn:E. destruct R; [constructor|discriminate].
    - remember (replace (once s) a :: map (replace (once s)) l) as e eqn:E. destruct R as [|x y l1 l2 R1 R2]; [discriminate|].
      injection E as -> ->. constructor; [apply H; [now apply Forall_inv in P|exact R1]|].
      apply IH; [now apply Forall_inv_tail in P|exact R2]. }
  induction t as [x| | |c|c l IH|l IH|l IH] using ty_ind2; intros r P R; cbn [replace] in R; try exact R.
  - unfold once in R. destruct (get s x) as [t'|] eqn:E; [now apply rs_bound with t'|exact R].
  - remember (TApp c (map (replace (once s)) l)) as e eqn:E. destruct R; try discriminate. injection E as -> ->.
    apply rs_app. apply G; [exact IH| |assumption].
    remember (TApp c l) as e eqn:E. destruct P; try discriminate. now injection E as -> ->.
  - remember (TUnion l) as e eqn:E. destruct P; discriminate.
  - remember (TList (map (replace (once s)) l)) as e eqn:E. destruct R; try discriminate. injection E as ->.
    apply rs_list. apply G; [exact IH| |assumption].
    remember (TList l) as e eqn:E. destruct P; try discriminate. now injection E as ->.
Qed.
Lemma resolves_unbound : forall s t, plain t -> (forall v, In v (fvs t) -> get s v = None) -> resolves s t t.
Proof.
  intros s t.
  assert (G : forall l, Forall (fun t => plain t -> (forall v, In v (fvs t) -> get s v = None) -> resolves s t t) l ->
              Forall plain l -> (forall v, In v (flat_map fvs l) -> get s v = None) -> Forall2 (resolves s) l l).
  { intros l F. induction F as [|a l H _ IH]; intros P U; constructor.
    - apply H; [now apply Forall_inv in P|]. intros v I. apply U. cbn. rewrite in_app_iff. now left.
    - apply IH; [now apply Forall_inv_tail in P|]. intros v I. apply U. cbn. rewrite in_app_iff. now right. }
  induction t as [x| | |c|c l IH|l IH|l IH] using ty_ind2; intros P U.
  - apply rs_free. apply U. now left.
  - constructor.
  - constructor.
  - constructor.
  - apply rs_app. apply G; [exact IH| |exact U]. remember (TApp c l) as e eqn:E. destruct P; try discriminate. now injection E as -> ->.
  - remember (TUnion l) as e eqn:E. destruct P; discriminate.
  - apply rs_list. apply G; [exact IH| |exact U]. remember (TList l) as e eqn:E. destruct P; try discriminate. now injection E as ->.
Qed.
Lemma plain_replace : forall f t, (forall v, plain (f v)) -> plain t -> plain (replace f t).
Proof.
  intros f t F. induction t as [x| | |c|c l IH|l IH|l IH] using ty_ind2; intros P; cbn [replace]; try exact P.
  - apply F.
  - apply pl_app. assert (Q : Forall plain l) by (remember (TApp c l) as e eqn:E; destruct P; try discriminate; now injection E as -> ->).
    clear P. induction IH as [|a l H _ IH2]; cbn; constructor; [apply H; now apply Forall_inv in Q|apply IH2; now apply Forall_inv_tail in Q].
  - remember (TUnion l) as e eqn:E. destruct P; discriminate.
  - apply pl_list. assert (Q : Forall plain l) by (remember (TList l) as e eqn:E; destruct P; try discriminate; now injection E as ->).
    clear P. induction IH as [|a l H _ IH2]; cbn; constructor; [apply H; now apply Forall_inv in Q|apply IH2; now apply Forall_inv_tail in Q].
Qed.
Theorem substitute_resolves : forall s, (forall v t, get s v = Some t -> plain t) ->
  forall n t r, plain t -> substitute n t s = Ok r -> resolves s t r.
Proof.
  intros s Ps. assert (Po : forall v, plain (once s v)).
  { intros v. unfold once. destruct (get s v) eqn:E; [now apply Ps with v|constructor]. }
  induction n as [|n IH]; intros t r P H; [discriminate|]. rewrite substitute_eq in H.
  assert (General : (if existsb (bound s) (fvs t) then substitute n (replace (once s) t) s else Ok t) = Ok r -> resolves s t r).
  { intros K. destruct (existsb (bound s) (fvs t)) eqn:E.
    - apply resolves_once; [exact P|]. apply IH; [now apply plain_replace|exact K].
    - injection K as <-. apply resolves_unbound; [exact P|]. now apply unbound_all. }
  destruct t as [x| | |c|c l|l|l]; try (apply General; exact H); clear General.
  - destruct (get s x) as [t'|] eqn:E.
    + apply rs_bound with t'; [exact E|]. apply IH; [now apply Ps with x|exact H].
    + injection H as <-. now apply rs_free.
  - destruct (map_res (fun x => substitute n x s) l) as [l'| |] eqn:M; try discriminate. injection H as <-. apply rs_list.
    apply map_res_forall2 in M. assert (Q : Forall plain l) by (remember (TList l) as e eqn:E; destruct P; try discriminate; now injection E as ->).
    clear P. induction M as [|a b l l' E M IHM]; constructor; [apply IH; [now apply Forall_inv in Q|exact E]|apply IHM; now apply Forall_inv_tail in Q].
Qed.
