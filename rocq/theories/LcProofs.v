(** Proofs on additions: sums of variables in one order. *)
From Coq Require Import List Arith ZArith Bool Lia Permutation.
From Verif Require Import LcModel LcSpec.
Import ListNotations.
Open Scope Z_scope.

Definition ev {A} (f : nat -> out A) (r : A) : Prop :=
  exists N, forall n, (N <= n)%nat -> f n = Ok r.

Lemma ev_const : forall A (r : A), ev (fun _ => Ok r) r.
Proof. intros A r. exists 0%nat. reflexivity. Qed.

Lemma ev_ext : forall A (f g : nat -> out A) r,
  (forall n, f n = g n) -> ev f r -> ev g r.
Proof. intros A f g r E [N H]. exists N. intros n L. rewrite <- E. auto. Qed.

Lemma ev_S : forall A (f : nat -> out A) g r,
  (forall n, f (S n) = g n) -> ev g r -> ev f r.
Proof.
  intros A f g r E [N H]. exists (S N). intros n L. destruct n as [|n]; [lia|].
  rewrite E. apply H. lia.
Qed.

Lemma ev_bind : forall A B (f : nat -> out A) (g : nat -> A -> out B) a r,
  ev f a -> ev (fun n => g n a) r -> ev (fun n => bind (f n) (g n)) r.
Proof.
  intros A B f g a r [N1 H1] [N2 H2]. exists (Nat.max N1 N2). intros n L.
  rewrite H1 by lia. cbn [bind]. apply H2. lia.
Qed.

Lemma ev_det : forall A (f : nat -> out A) a b, ev f a -> ev f b -> a = b.
Proof.
  intros A f a b [N1 H1] [N2 H2].
  specialize (H1 (Nat.max N1 N2)). specialize (H2 (Nat.max N1 N2)).
  rewrite H1 in H2 by lia. assert (X : Ok a = Ok b) by (apply H2; lia).
  injection X as X. exact X.
Qed.

(** A constant and a list of variables, the last of which comes first. *)
Fixpoint build (c : Z) (l : list nat) : tm :=
  match l with
  | [] => TInt c
  | v :: r =>
      match r, c with
      | [], 0 => TVar v
      | _, _ => TAdd (build c r) (TVar v)
      end
  end.

Lemma build_cons : forall c v r,
  (c = 0 /\ r = [] /\ build c (v :: r) = TVar v) \/
  (build c (v :: r) = TAdd (build c r) (TVar v) /\ ~ (c = 0 /\ r = [])).
Proof.
  intros c v r. cbn [build]. destruct r as [|w r].
  - destruct (Z.eq_dec c 0) as [-> | N]; [left; auto|]. right. split; [|tauto].
    destruct c; [congruence| |]; reflexivity.
  - right. split; [reflexivity|]. intros [_ X]. discriminate.
Qed.

Lemma build_not_lam : forall c l, is_lam (build c l) = false.
Proof.
  intros c [|v r]; [reflexivity|].
  destruct (build_cons c v r) as [(_ & _ & ->)|(-> & _)]; reflexivity.
Qed.

Lemma build_zero : forall c l, is_zero (build c l) = true -> c = 0 /\ l = [].
Proof.
  intros c [|v r]; [|destruct (build_cons c v r) as [(_ & _ & ->)|(-> & _)]; discriminate].
  cbn. destruct c; try discriminate. auto.
Qed.

Section K.
Variable key : nat -> Z.

Fixpoint desc (l : list nat) : Prop :=
  match l with
  | [] => True
  | v :: r => (forall u, In u r -> key u <= key v) /\ desc r
  end.

Definition off (e : env) (l : list nat) : Prop := forall v, In v l -> find e v = None.

Lemma off_cons : forall e v l, off e (v :: l) -> find e v = None /\ off e l.
Proof. intros e v l H. split; [apply H; left; reflexivity|]. intros u I. apply H. right. exact I. Qed.

Lemma off_perm : forall e l m, Permutation l m -> off e l -> off e m.
Proof.
  intros e l m P H v I. apply H. apply Permutation_in with m; [|exact I].
  apply Permutation_sym. exact P.
Qed.

Lemma plus_build : forall add c l c' l',
  (l = [] -> l' <> []) ->
  plus add (build c l) (build c' l') = add (build c l) (build c' l').
Proof.
  intros add c l c' l' H. unfold plus. rewrite !build_not_lam. cbn [orb].
  destruct l as [|v r].
  - destruct l' as [|w s]; [destruct H; reflexivity|]. cbn [build].
    destruct (build_cons c' w s) as [(_ & _ & E)|(E & _)]; cbn [build] in E; rewrite E; reflexivity.
  - destruct (build_cons c v r) as [(_ & _ & E)|(E & _)]; rewrite E; reflexivity.
Qed.

Lemma plus_var : forall add c l v,
  plus add (build c l) (TVar v) = add (build c l) (TVar v).
Proof.
  intros add c l v. unfold plus. rewrite build_not_lam.
  destruct (build c l); reflexivity.
Qed.

(** The variable belongs at the end. *)
Lemma add_last : forall e n c l v,
  (forall u, In u l -> key u <= key v) ->
  addF key (S n) e (build c l) (TVar v) = Ok (build c (v :: l)).
Proof.
  intros e n c l v H. destruct l as [|u r].
  - cbn. destruct c; reflexivity.
  - assert (K : key v <? key u = false).
    { apply Z.ltb_ge. apply H. left. reflexivity. }
    assert (B : build c (v :: u :: r) = TAdd (build c (u :: r)) (TVar v)) by reflexivity.
    rewrite B. destruct (build_cons c u r) as [(_ & _ & E)|(E & _)]; rewrite E;
      cbn [addF sort_add is_lam orb is_zero]; rewrite K; reflexivity.
Qed.

Lemma plus_last : forall e n c l v,
  (forall u, In u l -> key u <= key v) ->
  plus (addF key (S n) e) (build c l) (TVar v) = Ok (build c (v :: l)).
Proof. intros e n c l v H. rewrite plus_var. apply add_last. exact H. Qed.

Lemma call_off : forall e v, find e v = None -> call e v = TVar v.
Proof. intros e v H. unfold call. rewrite H. reflexivity. Qed.

(** Adding one variable. *)
Lemma add_var : forall e c l w,
  desc l -> off e (w :: l) ->
  exists l', ev (fun n => addF key n e (build c l) (TVar w)) (build c l') /\
    Permutation l' (w :: l) /\ desc l'.
Proof.
  intros e c. induction l as [|v r IH]; intros w D O.
  - exists [w]. split; [|split; [apply Permutation_refl|split; [intros u []|exact Logic.I]]].
    apply ev_S with (g := fun _ => Ok (build c [w])); [|apply ev_const].
    intros n. apply add_last. intros u [].
  - destruct D as [Dv Dr]. apply off_cons in O. destruct O as [Ow O].
    destruct (off_cons _ _ _ O) as [Ov Or].
    destruct (Z.ltb_spec (key w) (key v)) as [L|G].
    + destruct (build_cons c v r) as [(-> & -> & E)|(E & NB)].
      * exists [v; w]. split; [|split].
        -- rewrite E. apply ev_S with (g := fun n => plus (addF key n e) (TVar w) (TVar v)).
           { intros n. cbn [addF sort_add is_lam orb]. apply Z.ltb_lt in L. rewrite L. reflexivity. }
           apply ev_S with (g := fun _ => Ok (build 0 [v; w])); [|apply ev_const].
           intros n. change (TVar w) with (build 0 [w]) at 1.
           rewrite plus_last; [reflexivity|]. intros u [<-|[]]. lia.
        -- apply perm_swap.
        -- split; [|split; [intros u []|exact Logic.I]]. intros u [<-|[]]. lia.
      * destruct (IH w Dr) as (r' & Er & Pr & Dr').
        { intros u [<-|I]; [exact Ow|apply Or; exact I]. }
        exists (v :: r'). split; [|split].
        -- rewrite E.
           apply ev_S with (g := fun n => bind (plus (addF key n e) (build c r) (TVar w))
              (fun s => plus (addF key n e) s (TVar v))).
           { intros n. cbn [addF sort_add is_lam orb]. apply Z.ltb_lt in L. rewrite L.
             rewrite (call_off _ _ Ow), (call_off _ _ Ov). reflexivity. }
           apply ev_bind with (build c r').
           { apply ev_ext with (f := fun n => addF key n e (build c r) (TVar w)); [|exact Er].
             intros n. rewrite plus_var. reflexivity. }
           apply ev_S with (g := fun _ => Ok (build c (v :: r'))); [|apply ev_const].
           intros n. apply plus_last. intros u I.
           apply (Permutation_in _ Pr) in I. destruct I as [<-|I]; [lia|apply Dv; exact I].
        -- apply perm_trans with (v :: w :: r); [apply perm_skip; exact Pr|apply perm_swap].
        -- split; [|exact Dr']. intros u I.
           apply (Permutation_in _ Pr) in I. destruct I as [<-|I]; [lia|apply Dv; exact I].
    + exists (w :: v :: r). split; [|split].
      * apply ev_S with (g := fun _ => Ok (build c (w :: v :: r))); [|apply ev_const].
        intros n. apply add_last. intros u [<-|I]; [lia|]. specialize (Dv u I). lia.
      * apply Permutation_refl.
      * split; [|split; [exact Dv|exact Dr]].
        intros u [<-|I]; [lia|]. specialize (Dv u I). lia.
Qed.

(** An integer on the left. *)
Lemma add_int_l : forall e d c l,
  desc l -> ev (fun n => addF key n e (TInt d) (build c l)) (build (d + c) l).
Proof.
  intros e d c. induction l as [|v r IH]; intros D.
  - cbn [build]. apply ev_S with (g := fun _ => Ok (TInt (d + c))); [|apply ev_const].
    intros n. cbn. destruct c as [|c|c]; [rewrite Z.add_0_r; reflexivity| |];
      destruct d; reflexivity.
  - destruct D as [Dv Dr].
    destruct (Z.eq_dec d 0) as [-> | ND].
    { rewrite Z.add_0_l.
      apply ev_S with (g := fun _ => Ok (build c (v :: r))); [|apply ev_const].
      intros n. destruct (build_cons c v r) as [(_ & _ & E)|(E & _)]; rewrite E; reflexivity. }
    assert (ZD : is_zero (TInt d) = false) by (destruct d; [congruence| |]; reflexivity).
    destruct (build_cons c v r) as [(-> & -> & E)|(E & NB)].
    + rewrite Z.add_0_r, E.
      apply ev_S with (g := fun _ => Ok (build d [v])); [|apply ev_const].
      intros n. change (TInt d) with (build d []). apply add_last. intros u [].
    + rewrite E.
      apply ev_S with (g := fun n => bind (plus (addF key n e) (TInt d) (build c r))
              (fun s => plus (addF key n e) s (TVar v))).
      { intros n. cbn [addF sort_add is_lam orb]. unfold unit_add. rewrite ZD. reflexivity. }
      apply ev_bind with (build (d + c) r).
      { destruct r as [|w r']; [cbn; apply ev_const|].
        apply ev_ext with (f := fun n => addF key n e (TInt d) (build c (w :: r'))); [|apply IH; exact Dr].
        intros n. change (TInt d) with (build d []). rewrite plus_build; [reflexivity|].
        intros _. discriminate. }
      apply ev_S with (g := fun _ => Ok (build (d + c) (v :: r))); [|apply ev_const].
      intros n. apply plus_last. exact Dv.
Qed.

(** An integer on the right. *)
Lemma add_int_r : forall e c l d,
  desc l -> ev (fun n => addF key n e (build c l) (TInt d)) (build (c + d) l).
Proof.
  intros e c l d D. destruct (Z.eq_dec d 0) as [-> | ND].
  - rewrite Z.add_0_r. apply ev_S with (g := fun _ => Ok (build c l)); [|apply ev_const].
    intros n. pose proof (build_not_lam c l) as L.
    cbn [addF]. rewrite L. cbn [is_lam orb]. unfold sort_add, unit_add. cbn [is_zero].
    destruct (build c l) as [| | a b| | |]; try reflexivity. destruct b; reflexivity.
  - assert (ZD : is_zero (TInt d) = false) by (destruct d; [congruence| |]; reflexivity).
    destruct l as [|v r].
    + cbn [build]. apply add_int_l with (l := []). exact Logic.I.
    + apply ev_S with (g := fun n => plus (addF key n e) (TInt d) (build c (v :: r))).
      { intros n. destruct (build_cons c v r) as [(_ & _ & E)|(E & _)]; rewrite E;
          cbn [addF sort_add is_lam orb]; unfold unit_add; rewrite ZD; reflexivity. }
      rewrite Z.add_comm.
      apply ev_ext with (f := fun n => addF key n e (TInt d) (build c (v :: r)));
        [|apply add_int_l; exact D].
      intros n. change (TInt d) with (build d []). rewrite plus_build; [reflexivity|].
      intros _. discriminate.
Qed.

(** Two sums. *)
Lemma add_build : forall e c l d m,
  desc l -> desc m -> off e (l ++ m) ->
  exists l', ev (fun n => addF key n e (build c l) (build d m)) (build (c + d) l') /\
    Permutation l' (l ++ m) /\ desc l'.
Proof.
  intros e c l d. induction m as [|v r IH]; intros Dl Dm O.
  - exists l. rewrite app_nil_r. split; [apply add_int_r; exact Dl|].
    split; [apply Permutation_refl|exact Dl].
  - destruct Dm as [Dv Dr].
    destruct (build_cons d v r) as [(-> & -> & E)|(E & NB)].
    + rewrite E, Z.add_0_r. destruct (add_var e c l v Dl) as (l' & H1 & H2 & H3).
      { apply off_perm with (l ++ [v]); [|exact O]. apply Permutation_sym.
        apply Permutation_cons_append. }
      exists l'. split; [exact H1|]. split; [|exact H3].
      apply perm_trans with (v :: l); [exact H2|apply Permutation_cons_append].
    + destruct (is_zero (build c l)) eqn:Z0.
      * apply build_zero in Z0. destruct Z0 as [-> ->]. exists (v :: r).
        split; [|split; [apply Permutation_refl|split; [exact Dv|exact Dr]]].
        rewrite Z.add_0_l.
        apply ev_S with (g := fun _ => Ok (build d (v :: r))); [|apply ev_const].
        intros n. rewrite E. reflexivity.
      * destruct (IH Dl Dr) as (l1 & H1 & H2 & H3).
        { intros u I. apply O. apply in_app_iff in I. apply in_app_iff.
          destruct I; [left|right; right]; assumption. }
        destruct (add_var e (c + d) l1 v H3) as (l2 & G1 & G2 & G3).
        { apply off_perm with (l ++ v :: r); [|exact O].
          apply Permutation_sym. apply perm_trans with (v :: l ++ r).
          - apply perm_skip. exact H2.
          - apply Permutation_middle. }
        exists l2. split; [|split; [|exact G3]].
        -- rewrite E.
           apply ev_S with (g := fun n => bind (plus (addF key n e) (build c l) (build d r))
              (fun s => plus (addF key n e) s (TVar v))).
           { intros n. pose proof (build_not_lam c l) as L. cbn [addF]. rewrite L.
             cbn [is_lam orb]. unfold sort_add, unit_add, assoc_add.
             change (is_zero (TAdd (build d r) (TVar v))) with false. rewrite Z0.
             destruct (build c l) as [| | a b| | |]; try reflexivity. destruct b; reflexivity. }
           apply ev_bind with (build (c + d) l1).
           { destruct l as [|a l]; [destruct r as [|b r]|].
             - cbn in H2. apply Permutation_sym, Permutation_nil in H2. subst l1. cbn. apply ev_const.
             - apply ev_ext with (2 := H1). intros n. rewrite plus_build; [reflexivity|].
               intros _. discriminate.
             - apply ev_ext with (2 := H1). intros n. rewrite plus_build; [reflexivity|].
               discriminate. }
           apply ev_ext with (2 := G1). intros n. rewrite plus_var. reflexivity.
        -- apply perm_trans with (v :: l1); [exact G2|].
           apply perm_trans with (v :: l ++ r); [apply perm_skip; exact H2|apply Permutation_middle].
Qed.

(** One order only. *)
Lemma desc_unique : distinct key -> forall l m,
  desc l -> desc m -> Permutation l m -> l = m.
Proof.
  intros DK. induction l as [|v r IH]; intros m Dl Dm P.
  - apply Permutation_nil in P. symmetry. exact P.
  - destruct m as [|w s].
    { apply Permutation_sym, Permutation_nil in P. discriminate. }
    destruct Dl as [Dv Dr]. destruct Dm as [Dw Ds].
    assert (E : v = w).
    { assert (I1 : In v (w :: s)) by (apply (Permutation_in _ P); left; reflexivity).
      assert (I2 : In w (v :: r)).
      { apply (Permutation_in _ (Permutation_sym P)). left. reflexivity. }
      destruct I1 as [I1|I1]; [symmetry; exact I1|].
      destruct I2 as [I2|I2]; [exact I2|].
      apply DK. specialize (Dv w I2). specialize (Dw v I1). lia. }
    subst w. f_equal. apply IH; [exact Dr|exact Ds|].
    apply Permutation_cons_inv with v. exact P.
Qed.

End K.

(** More fuel changes nothing once there is a result, be it that the program is stuck. *)
Definition more {A} (o o' : out A) : Prop := o = NoFuel \/ o' = o.
Lemma more_bind : forall A B (o o' : out A) (f f' : A -> out B), more o o' -> (forall a, more (f a) (f' a)) -> more (bind o f) (bind o' f').
Proof.
  intros A B o o' f f' [-> | ->] H; [left; reflexivity|]. destruct o as [a| |]; cbn; [apply H|right; reflexivity|left; reflexivity].
Qed.
Lemma more_refl : forall A (o : out A), more o o.
Proof. intros. right. reflexivity. Qed.
Section More.
Variable key : nat -> Z.
Definition more2 (p p' : tm -> tm -> out tm) : Prop := forall a b, more (p a b) (p' a b).
Lemma more_plus : forall p p', more2 p p' -> more2 (plus p) (plus p').
Proof.
  intros p p' H a b. unfold plus. destruct a, b; try apply more_refl; destruct (is_lam _ || is_lam _); try apply more_refl; apply H.
Qed.
Lemma more_assoc : forall p p', more2 p p' -> more2 (assoc_add p) (assoc_add p').
Proof.
  intros p p' H a b. unfold assoc_add, commute_add. destruct b; try (destruct (negb (is_int a) && is_int _); [apply H|apply more_refl]).
  apply more_bind; [apply H|]. intros s. apply H.
Qed.
Lemma more_unit : forall p p', more2 p p' -> more2 (unit_add p) (unit_add p').
Proof.
  intros p p' H a b. unfold unit_add. destruct (is_zero b); [apply more_refl|]. destruct (is_zero a); [apply more_refl|].
  apply more_assoc. exact H.
Qed.
Lemma more_sort : forall p p' e, more2 p p' -> more2 (sort_add key p e) (sort_add key p' e).
Proof.
  intros p p' e H a b. unfold sort_add.
  destruct a; try (apply more_unit; exact H); destruct b; try (apply more_unit; exact H).
  - destruct (key _ <? key _); [apply H|apply more_unit; exact H].
  - destruct a2; apply more_unit; exact H.
  - destruct a2; try (apply more_unit; exact H). destruct (key _ <? key _); [|apply more_unit; exact H].
    apply more_bind; [apply H|]. intros s. apply H.
  - destruct a2; apply more_unit; exact H.
  - destruct a2; apply more_unit; exact H.
  - destruct a2; apply more_unit; exact H.
  - destruct a2; apply more_unit; exact H.
Qed.
Lemma more_add : forall n e, more2 (addF key n e) (addF key (S n) e).
Proof.
  intros n e. induction n as [|n IH]; intros a b; [left; reflexivity|].
  change (more (if is_lam a || is_lam b then Stuck else sort_add key (plus (addF key n e)) e a b)
               (if is_lam a || is_lam b then Stuck else sort_add key (plus (addF key (S n) e)) e a b)).
  destruct (is_lam a || is_lam b); [apply more_refl|]. apply more_sort. apply more_plus. exact IH.
Qed.
Lemma more_eval : forall n e k t, more (eval key n e k t) (eval key (S n) e k t).
Proof.
  intros n. induction n as [|n IH]; intros e k t; [left; reflexivity|].
  remember (S n) as m eqn:Em. cbn [eval]. rewrite Em at 1. cbn [eval]. subst m.
  destruct t as [z|v|a b|f a|x b|x v b].
  - apply more_refl.
  - apply more_refl.
  - apply more_bind; [apply IH|]. intros [a' k1]. apply more_bind; [apply IH|]. intros [b' k2].
    apply more_bind; [apply more_add|]. intros s. apply more_refl.
  - apply more_bind; [apply IH|]. intros [f' k1]. apply more_bind; [apply IH|]. intros [a' k2]. destruct f'; try apply more_refl. apply IH.
  - apply more_bind; [apply IH|]. intros [b' k1]. apply more_refl.
  - apply more_bind; [apply IH|]. intros [v' k1]. apply more_bind; [apply IH|]. intros [b' k2]. apply IH.
Qed.
Lemma run_more : forall n m k t, (n <= m)%nat -> run key n k t <> NoFuel -> run key m k t = run key n k t.
Proof.
  intros n m k t H HN. induction H as [|m H IH]; [reflexivity|]. unfold run in *. destruct (more_eval m [] k t) as [E|E].
  - exfalso. apply HN. rewrite <- IH. exact E.
  - rewrite E. exact IH.
Qed.
End More.
