(** Proofs on programs: functions, lets and whole runs. *)
From Coq Require Import List Arith ZArith Bool Lia Permutation.
From Verif Require Import LcModel LcSpec LcProofs.
Import ListNotations.
Open Scope Z_scope.

Lemma same_refl : forall v, same v v.
Proof. induction v; constructor; auto. Qed.

Lemma same_sym : forall v w, same v w -> same w v.
Proof. induction 1; constructor; auto. Qed.

Lemma same_trans : forall u v w, same u v -> same v w -> same u w.
Proof.
  intros u v w H. revert w. induction H as [z|f g _ IH|]; intros w G;
    remember (match w with _ => w end) as w' eqn:Ew; inversion G; subst; constructor; auto.
Qed.

Lemma same_int_eq : forall z v, same (VInt z) v -> v = VInt z.
Proof. intros z v H. inversion H. reflexivity. Qed.

Lemma den_ext : forall t r r',
  (forall v, free v t -> r v = r' v) -> same (den r t) (den r' t).
Proof.
  induction t as [z|v|a IHa b IHb|f IHf a IHa|x b IHb|x v IHv b IHb]; intros r r' H; cbn [den].
  - constructor.
  - rewrite H by constructor. constructor.
  - assert (Ha : same (den r a) (den r' a)).
    { apply IHa. intros v F. apply H. apply free_add1. exact F. }
    assert (Hb : same (den r b) (den r' b)).
    { apply IHb. intros v F. apply H. apply free_add2. exact F. }
    destruct Ha; try constructor. destruct Hb; constructor.
  - assert (Hf : same (den r f) (den r' f)).
    { apply IHf. intros v F. apply H. apply free_app1. exact F. }
    assert (Ha : same (den r a) (den r' a)).
    { apply IHa. intros v F. apply H. apply free_app2. exact F. }
    destruct Hf as [z|f1 g1 S|]; try constructor. destruct Ha; try constructor. apply S.
  - constructor. intros z. apply IHb. intros v F. unfold upd.
    destruct (Nat.eqb_spec v x) as [|N]; [reflexivity|]. apply H. apply free_lam; assumption.
  - assert (Hv : same (den r v) (den r' v)).
    { apply IHv. intros w F. apply H. apply free_let1. exact F. }
    destruct Hv as [z| |]; try constructor.
    apply IHb. intros w F. unfold upd.
    destruct (Nat.eqb_spec w x) as [|N]; [reflexivity|]. apply H. apply free_let2; assumption.
Qed.

Fixpoint binders (t : tm) : list nat :=
  match t with
  | TInt _ | TVar _ => []
  | TAdd a b | TApp a b => binders a ++ binders b
  | TLam x b => x :: binders b
  | TLet x v b => x :: binders v ++ binders b
  end.

Lemma den_rename : forall y k t r1 r2,
  below k t -> ~ In y (binders t) ->
  r1 k = r2 y -> (forall v, v <> y -> v <> k -> r1 v = r2 v) ->
  same (den r1 (rename y k t)) (den r2 t).
Proof.
  intros y k.
  induction t as [z|v|a IHa b IHb|f IHf a IHa|x b IHb|x v IHv b IHb];
    intros r1 r2 B N E H; cbn [den rename].
  - constructor.
  - cbn [below] in B. destruct (Nat.eqb_spec v y) as [->|D].
    + rewrite E. constructor.
    + rewrite H; [constructor|exact D|lia].
  - cbn [binders below] in *. rewrite in_app_iff in N. destruct B as [Ba Bb].
    assert (Ha : same (den r1 (rename y k a)) (den r2 a)) by (apply IHa; tauto).
    assert (Hb : same (den r1 (rename y k b)) (den r2 b)) by (apply IHb; tauto).
    destruct Ha; try constructor. destruct Hb; constructor.
  - cbn [binders below] in *. rewrite in_app_iff in N. destruct B as [Ba Bb].
    assert (Hf : same (den r1 (rename y k f)) (den r2 f)) by (apply IHf; tauto).
    assert (Ha : same (den r1 (rename y k a)) (den r2 a)) by (apply IHa; tauto).
    destruct Hf as [z|f1 g1 S|]; try constructor. destruct Ha; try constructor. apply S.
  - cbn [binders below] in *. destruct B as [Bx Bb].
    assert (X : x <> y) by (intros ->; apply N; left; reflexivity).
    destruct (Nat.eqb_spec x y) as [|_]; [contradiction|].
    constructor. intros z. apply IHb; [exact Bb|intros I; apply N; right; exact I| |].
    + unfold upd. destruct (Nat.eqb_spec k x) as [|_]; [lia|].
      destruct (Nat.eqb_spec y x) as [|_]; [congruence|]. exact E.
    + intros v V1 V2. unfold upd. destruct (Nat.eqb_spec v x); [reflexivity|]. apply H; assumption.
  - cbn [binders below] in *. destruct B as (Bx & Bv & Bb).
    assert (X : x <> y) by (intros ->; apply N; left; reflexivity).
    destruct (Nat.eqb_spec x y) as [|_]; [contradiction|].
    assert (Hv : same (den r1 (rename y k v)) (den r2 v)).
    { apply IHv; try assumption. intros I. apply N. right. apply in_app_iff. left. exact I. }
    destruct Hv as [z| |]; try constructor.
    apply IHb; [exact Bb|intros I; apply N; right; apply in_app_iff; right; exact I| |].
    + unfold upd. destruct (Nat.eqb_spec k x) as [|_]; [lia|].
      destruct (Nat.eqb_spec y x) as [|_]; [congruence|]. exact E.
    + intros w V1 V2. unfold upd. destruct (Nat.eqb_spec w x); [reflexivity|]. apply H; assumption.
Qed.

Lemma below_mono : forall t k k', (k <= k')%nat -> below k t -> below k' t.
Proof.
  induction t; intros k k' L B; cbn [below] in *; intuition (try lia; eauto).
Qed.

Lemma below_free : forall x t k, free x t -> below k t -> (x < k)%nat.
Proof. intros x t k F. induction F; cbn [below]; intuition. Qed.

Lemma below_binders : forall t k y, In y (binders t) -> below k t -> (y < k)%nat.
Proof.
  induction t; intros k y I B; cbn [below binders In] in *; try contradiction;
    rewrite ?in_app_iff in I; intuition (subst; eauto).
Qed.

(** ** Sums *)

Definition lin (c : Z) (l : list nat) (r : nat -> Z) : Z :=
  fold_right (fun v s => s + r v) c l.

Lemma den_build : forall r c l, den r (build c l) = VInt (lin c l r).
Proof.
  intros r c. induction l as [|v l IH]; [reflexivity|].
  destruct (build_cons c v l) as [(-> & -> & E)|(E & _)]; rewrite E; cbn [den].
  - reflexivity.
  - rewrite IH. reflexivity.
Qed.

Lemma lin_app : forall c d l m r, lin (c + d) (l ++ m) r = lin c l r + lin d m r.
Proof.
  intros c d l m r. induction l as [|v l IH]; cbn [app].
  - unfold lin at 2. cbn [fold_right].
    induction m as [|w m IH]; cbn [lin fold_right]; [reflexivity|].
    unfold lin in *. cbn [fold_right]. lia.
  - unfold lin in *. cbn [fold_right]. lia.
Qed.

Lemma lin_perm : forall c l m r, Permutation l m -> lin c l r = lin c m r.
Proof. intros c l m r P. induction P; unfold lin in *; cbn [fold_right]; lia. Qed.

Lemma lin_zero : forall c l, lin c l (fun _ => 0) = c.
Proof. intros c. induction l; unfold lin in *; cbn [fold_right]; lia. Qed.

Lemma lin_one : forall c l v,
  lin c l (fun w => if Nat.eqb w v then 1 else 0) = c + Z.of_nat (count_occ Nat.eq_dec l v).
Proof.
  intros c l v. induction l as [|w l IH]; unfold lin in *; cbn [fold_right count_occ]; [lia|].
  destruct (Nat.eq_dec w v) as [->|N].
  - rewrite Nat.eqb_refl. lia.
  - apply Nat.eqb_neq in N. rewrite N. lia.
Qed.

Lemma lin_inj : forall c l d m,
  (forall r, lin c l r = lin d m r) -> c = d /\ Permutation l m.
Proof.
  intros c l d m H. assert (E : c = d).
  { specialize (H (fun _ => 0)). rewrite !lin_zero in H. exact H. }
  split; [exact E|]. subst d. apply (Permutation_count_occ Nat.eq_dec). intros v.
  specialize (H (fun w => if Nat.eqb w v then 1 else 0)). rewrite !lin_one in H. lia.
Qed.

Lemma free_build : forall x c l, free x (build c l) <-> In x l.
Proof.
  intros x c. induction l as [|v l IH].
  - split; [intros F; inversion F|intros []].
  - destruct (build_cons c v l) as [(-> & -> & E)|(E & _)]; rewrite E; split; intros F.
    + inversion F. left. reflexivity.
    + destruct F as [->|[]]. constructor.
    + inversion F as [|a b F1|a b F1| | | | |]; subst.
      * right. apply IH. exact F1.
      * inversion F1. left. reflexivity.
    + destruct F as [->|F]; [apply free_add2; constructor|]. apply free_add1. apply IH. exact F.
Qed.

Lemma below_build : forall k c l, (forall v, In v l -> (v < k)%nat) -> below k (build c l).
Proof.
  intros k c. induction l as [|v l IH]; intros H; [exact Logic.I|].
  destruct (build_cons c v l) as [(_ & _ & E)|(E & _)]; rewrite E; cbn [below].
  - apply H. left. reflexivity.
  - split; [apply IH; intros u I; apply H; right; exact I|apply H; left; reflexivity].
Qed.

Lemma binders_build : forall c l, binders (build c l) = [].
Proof.
  intros c. induction l as [|v l IH]; [reflexivity|].
  destruct (build_cons c v l) as [(_ & _ & E)|(E & _)]; rewrite E; cbn [binders]; [reflexivity|].
  rewrite IH. reflexivity.
Qed.

(** ** Functions ready to be applied *)

Inductive body : nat -> tm -> Prop :=
| body_int : forall z, body 0 (TInt z)
| body_var : forall v, body 0 (TVar v)
| body_add : forall a b, body 0 a -> body 0 b -> body 0 (TAdd a b)
| body_lam : forall n y b, body n b -> free y b -> ~ In y (binders b) ->
    body (S n) (TLam y b).

Lemma body_build : forall c l, body 0 (build c l).
Proof.
  intros c. induction l as [|v l IH]; [constructor|].
  destruct (build_cons c v l) as [(_ & _ & E)|(E & _)]; rewrite E; repeat constructor. exact IH.
Qed.

Lemma body_free_dec : forall n t, body n t -> forall x acc,
  In x (fvs t acc) <-> free x t \/ (In x acc /\ ~ In x (binders t)).
Proof.
  intros n t B. induction B as [z|v|a b Ba IHa Bb IHb|n y b B IH F N]; intros x acc; cbn [fvs binders].
  - split; [intros I; right; auto|intros [F|[I _]]; [inversion F|exact I]].
  - split.
    + intros [->|I]; [left; constructor|right; auto].
    + intros [F|[I _]]; [inversion F; left; reflexivity|right; exact I].
  - rewrite IHb, IHa. rewrite in_app_iff. split.
    + intros [F|[[F|[I N1]] N2]].
      * left. apply free_add2. exact F.
      * left. apply free_add1. exact F.
      * right. tauto.
    + assert (B0 : forall t, body 0 t -> binders t = []).
      { intros t Bt. remember 0%nat as n eqn:En. induction Bt; try reflexivity; [|discriminate].
        cbn [binders]. rewrite IHBt1, IHBt2 by assumption. reflexivity. }
      rewrite (B0 a Ba), (B0 b Bb) in *.
      intros [F|[I N]].
      * inversion F as [|? ? F1|? ? F1| | | | |]; subst; [right; split; [left; exact F1|intros []]|left; exact F1].
      * right. split; [right; tauto|intros []].
  - split.
    + intros I. apply in_remove in I. destruct I as [I NE]. apply IH in I.
      destruct I as [Fx|[I NI]]; [left; constructor; assumption|].
      right. split; [exact I|]. intros [->|J]; [congruence|contradiction].
    + intros [Fx|[I NI]].
      * inversion Fx as [| | | | |? ? Fb NE| |]; subst. apply in_in_remove; [exact NE|].
        apply IH. left. exact Fb.
      * apply in_in_remove; [intros ->; apply NI; left; reflexivity|].
        apply IH. right. split; [exact I|]. intros J. apply NI. right. exact J.
Qed.

Lemma occurs_free : forall n t x, body n t -> occurs x t = true <-> free x t.
Proof.
  intros n t x B. unfold occurs.
  destruct (in_dec Nat.eq_dec x (fvs t [])) as [I|I]; rewrite (body_free_dec n t B x []) in I.
  - split; [intros _|reflexivity]. destruct I as [F|[[] _]]. exact F.
  - split; [discriminate|]. intros F. destruct I. left. exact F.
Qed.

(** Renaming. *)

Lemma binders_rename : forall y k t, ~ In y (binders t) -> binders (rename y k t) = binders t.
Proof.
  intros y k. induction t; intros N; cbn [binders rename] in *; try reflexivity;
    rewrite ?in_app_iff in N; cbn [In] in N; rewrite ?in_app_iff in N.
  - rewrite IHt1, IHt2 by tauto. reflexivity.
  - rewrite IHt1, IHt2 by tauto. reflexivity.
  - destruct (Nat.eqb_spec x y) as [->|_]; [destruct N; left; reflexivity|].
    rewrite IHt by tauto. reflexivity.
  - destruct (Nat.eqb_spec x y) as [->|_]; [destruct N; left; reflexivity|].
    rewrite IHt1, IHt2 by tauto. reflexivity.
Qed.

Lemma free_rename_to : forall y k t, ~ In y (binders t) -> below k t ->
  free y t -> free k (rename y k t).
Proof.
  intros y k t N B F. revert N B. induction F; intros N B; cbn [binders rename below] in *;
    rewrite ?in_app_iff in N; cbn [In] in N; rewrite ?in_app_iff in N.
  - rewrite Nat.eqb_refl. constructor.
  - apply free_add1. tauto.
  - apply free_add2. tauto.
  - apply free_app1. tauto.
  - apply free_app2. tauto.
  - destruct (Nat.eqb_spec y0 y) as [->|_]; [congruence|]. apply free_lam; [tauto|lia].
  - apply free_let1. tauto.
  - destruct (Nat.eqb_spec y0 y) as [->|_]; [congruence|]. apply free_let2; [tauto|lia].
Qed.

Lemma free_rename_keep : forall x y k t, ~ In y (binders t) ->
  free x t -> x <> y -> free x (rename y k t).
Proof.
  intros x y k t N F NE. revert N. induction F; intros N; cbn [binders rename] in *;
    rewrite ?in_app_iff in N; cbn [In] in N; rewrite ?in_app_iff in N.
  - destruct (Nat.eqb_spec x y) as [|_]; [contradiction|]. constructor.
  - apply free_add1. tauto.
  - apply free_add2. tauto.
  - apply free_app1. tauto.
  - apply free_app2. tauto.
  - destruct (Nat.eqb_spec y0 y) as [->|_]; [tauto|]. apply free_lam; tauto.
  - apply free_let1. tauto.
  - destruct (Nat.eqb_spec y0 y) as [->|_]; [tauto|]. apply free_let2; tauto.
Qed.

Lemma free_rename_inv : forall x y k t, ~ In y (binders t) ->
  free x (rename y k t) -> x = k \/ (free x t /\ x <> y).
Proof.
  intros x y k. induction t as [z|v|a IHa b IHb|f IHf a IHa|w b IHb|w v IHv b IHb];
    intros N F; cbn [rename binders] in *.
  - inversion F.
  - destruct (Nat.eqb_spec v y) as [->|D]; inversion F; [left; reflexivity|right].
    split; [constructor|congruence].
  - rewrite in_app_iff in N. inversion F as [|? ? F1|? ? F1| | | | |]; subst.
    + destruct (IHa ltac:(tauto) F1) as [|[? ?]]; [tauto|]. right. split; [apply free_add1|]; assumption.
    + destruct (IHb ltac:(tauto) F1) as [|[? ?]]; [tauto|]. right. split; [apply free_add2|]; assumption.
  - rewrite in_app_iff in N. inversion F as [| | |? ? F1|? ? F1| | |]; subst.
    + destruct (IHf ltac:(tauto) F1) as [|[? ?]]; [tauto|]. right. split; [apply free_app1|]; assumption.
    + destruct (IHa ltac:(tauto) F1) as [|[? ?]]; [tauto|]. right. split; [apply free_app2|]; assumption.
  - cbn [In] in N. destruct (Nat.eqb_spec w y) as [->|_]; [tauto|].
    inversion F as [| | | | |? ? F1 NE| |]; subst.
    destruct (IHb ltac:(tauto) F1) as [|[? ?]]; [tauto|]. right. split; [apply free_lam|]; assumption.
  - cbn [In] in N. rewrite in_app_iff in N. destruct (Nat.eqb_spec w y) as [->|_]; [tauto|].
    inversion F as [| | | | | |? ? ? F1|? ? ? F1 NE]; subst.
    + destruct (IHv ltac:(tauto) F1) as [|[? ?]]; [tauto|]. right. split; [apply free_let1|]; assumption.
    + destruct (IHb ltac:(tauto) F1) as [|[? ?]]; [tauto|]. right. split; [apply free_let2|]; assumption.
Qed.

Lemma below_rename : forall y k t, below k t -> below (S k) (rename y k t).
Proof.
  intros y k. induction t; intros B; cbn [below rename] in *; intuition;
    destruct (Nat.eqb _ _); lia.
Qed.

Lemma body_rename : forall n t y k, body n t -> ~ In y (binders t) -> below k t ->
  body n (rename y k t).
Proof.
  intros n t y k B. induction B as [z|v|a b Ba IHa Bb IHb|n x b B IH F N]; intros NY L;
    cbn [rename binders below In] in *.
  - constructor.
  - constructor.
  - rewrite in_app_iff in NY. constructor; tauto.
  - destruct (Nat.eqb_spec x y) as [->|D]; [tauto|]. constructor.
    + apply IH; tauto.
    + apply free_rename_keep; tauto.
    + rewrite binders_rename by tauto. exact N.
Qed.

(** ** Evaluation of bodies *)

Section K.
Variable key : nat -> Z.

Definition env_ok (e : env) : Prop := forall x a, find e x = Some a ->
  exists c l, a = build c l /\ desc key l /\ off e l.

Definition env_below (k : nat) (e : env) : Prop :=
  forall x a, find e x = Some a -> (x < k)%nat /\ below k a.

Definition apart (e : env) (l : list nat) : Prop := forall y, In y l ->
  find e y = None /\ forall x a, find e x = Some a -> ~ free y a.

Definition under (e : env) (r : nat -> Z) : nat -> Z :=
  fun v => match find e v with
    | Some a => match den r a with VInt z => z | _ => 0 end
    | None => r v
    end.

Definition normal (n : nat) (t : tm) : Prop :=
  body n t /\ (n = 0%nat -> exists c l, t = build c l /\ desc key l).

(** What a run gives, from [t] under [e]. *)
Record gives (e : env) (k : nat) (n : nat) (t t' : tm) (k' : nat) : Prop := {
  g_more : (k <= k')%nat;
  g_normal : normal n t';
  g_below : below k' t';
  g_fresh : forall y, In y (binders t') -> (k <= y)%nat;
  g_den : forall r, same (den r t') (den (under e r) t);
  g_inv : forall x, free x t' ->
    (free x t /\ find e x = None) \/ exists y a, find e y = Some a /\ free x a
}.

Lemma gives_off : forall e k t c l k', env_ok e ->
  gives e k 0 t (build c l) k' -> off e l.
Proof.
  intros e k t c l k' EO G v I. destruct (g_inv _ _ _ _ _ _ G v) as [[_ X]|(y & a & Fy & Fa)].
  - apply free_build. exact I.
  - exact X.
  - destruct (EO _ _ Fy) as (d & m & -> & _ & O). apply O. apply free_build in Fa. exact Fa.
Qed.

(** Building a function. *)
Lemma lam_gives : forall e k n y b b' k',
  gives e k n b b' k' -> free y b' -> ~ In y (binders b') ->
  find e y = None -> (forall x a, find e x = Some a -> ~ free y a) -> (y < k)%nat ->
  env_below k e ->
  gives e k (S n) (TLam y b) (TLam k' (rename y k' b')) (S k').
Proof.
  intros e k n y b b' k' [M [Nb _] B FR DE F2] Fy Ny Fe Fv Ly EB.
  constructor.
  - lia.
  - split; [|discriminate]. constructor.
    + apply body_rename; assumption.
    + apply free_rename_to; assumption.
    + rewrite binders_rename by exact Ny. intros I. pose proof (below_binders _ _ _ I B). lia.
  - split; [lia|]. apply below_rename. exact B.
  - cbn [binders]. intros v [<-|I]; [exact M|].
    rewrite binders_rename in I by exact Ny. apply FR. exact I.
  - intros r. cbn [den]. constructor. intros z.
    apply same_trans with (den (upd r y z) b').
    { apply den_rename; [exact B|exact Ny| |].
      - unfold upd. rewrite !Nat.eqb_refl. reflexivity.
      - intros v V1 V2. unfold upd. apply Nat.eqb_neq in V1, V2. rewrite V1, V2. reflexivity. }
    apply same_trans with (1 := DE (upd r y z)).
    apply den_ext. intros v _. unfold under, upd.
    destruct (Nat.eqb_spec v y) as [->|N].
    + rewrite Fe. reflexivity.
    + destruct (find e v) as [a|] eqn:Ea.
      * pose proof (den_ext a (upd r y z) r) as X. unfold upd in X.
        assert (Y : same (den (fun v0 => if (v0 =? y)%nat then z else r v0) a) (den r a)).
        { apply X. intros w Fw. destruct (Nat.eqb_spec w y) as [->|_]; [|reflexivity].
          destruct (Fv _ _ Ea Fw). }
        destruct Y; reflexivity.
      * reflexivity.
  - intros x F. inversion F as [| | | | |? ? Fb NE| |]; subst.
    destruct (free_rename_inv _ _ _ _ Ny Fb) as [->|[Fx Nx]]; [congruence|].
    destruct (F2 _ Fx) as [[Fx' E]|X]; [|right; exact X].
    left. split; [|exact E]. apply free_lam; assumption.
Qed.

Lemma body_eval : forall n t, body n t -> forall e k,
  env_ok e -> env_below k e -> below k t -> apart e (binders t) ->
  exists t' k', ev (fun m => eval key m e k t) (t', k') /\ gives e k n t t' k' /\
    (forall x, free x t -> find e x = None -> free x t').
Proof.
  intros n t B. induction B as [z|v|a b Ba IHa Bb IHb|n y b B IH F N]; intros e k EO EB L A.
  - exists (TInt z), k. split.
    + apply ev_S with (g := fun _ => Ok (TInt z, k)); [reflexivity|apply ev_const].
    + split; [|intros x F0; inversion F0]. constructor; try (intros; cbn in *; contradiction); try lia; try exact Logic.I.
      * split; [constructor|]. intros _. exists z, []. split; [reflexivity|exact Logic.I].
      * intros r. constructor.
      * intros x F0. inversion F0.
  - exists (call e v), k. split.
    + apply ev_S with (g := fun _ => Ok (call e v, k)); [reflexivity|apply ev_const].
    + unfold call. destruct (find e v) as [a|] eqn:E.
      * destruct (EO _ _ E) as (c & l & -> & D & O).
        split; [|intros x F; inversion F; subst; congruence]. constructor.
        -- lia.
        -- split; [apply body_build|]. intros _. exists c, l. auto.
        -- apply (EB _ _ E).
        -- rewrite binders_build. intros y [].
        -- intros r. cbn [den]. unfold under. rewrite E, den_build. constructor.
        -- intros x F. right. exists v, (build c l). auto.
      * split; [|intros x F _; exact F]. constructor.
        -- lia.
        -- split; [constructor|]. intros _. exists 0, [v]. split; [reflexivity|].
           split; [intros u []|exact Logic.I].
        -- exact L.
        -- intros y [].
        -- intros r. cbn [den]. unfold under. rewrite E. constructor.
        -- intros x F. left. split; [exact F|]. inversion F; subst. exact E.
  - destruct L as [La Lb]. cbn [binders] in A.
    destruct (IHa e k EO EB La) as (a' & k1 & Ea & Ga & Fa).
    { intros y I. apply A. apply in_app_iff. left. exact I. }
    destruct (IHb e k1 EO) as (b' & k2 & Eb & Gb & Fb).
    { intros x t E. pose proof (EB _ _ E) as [X Y]. pose proof (g_more _ _ _ _ _ _ Ga).
      split; [lia|]. apply below_mono with k; assumption. }
    { apply below_mono with k; [apply (g_more _ _ _ _ _ _ Ga)|exact Lb]. }
    { intros y I. apply A. apply in_app_iff. right. exact I. }
    destruct (g_normal _ _ _ _ _ _ Ga) as [_ Na]. destruct (Na eq_refl) as (c & l & -> & Dl).
    destruct (g_normal _ _ _ _ _ _ Gb) as [_ Nb]. destruct (Nb eq_refl) as (d & m & -> & Dm).
    assert (O : off e (l ++ m)).
    { intros v I. apply in_app_iff in I. destruct I as [I|I].
      - apply (gives_off _ _ _ _ _ _ EO Ga). exact I.
      - apply (gives_off _ _ _ _ _ _ EO Gb). exact I. }
    destruct (add_build key e c l d m Dl Dm O) as (l' & Es & P & D').
    exists (build (c + d) l'), k2. split.
    + apply ev_S with (g := fun n' =>
        bind (eval key n' e k a) (fun '(a', k1) =>
        bind (eval key n' e k1 b) (fun '(b', k2) =>
        bind (addF key n' e a' b') (fun s => Ok (s, k2))))); [reflexivity|].
      apply (ev_bind _ _ _ _ _ _ Ea). apply (ev_bind _ _ _ _ _ _ Eb).
      apply (ev_bind _ _ _ _ _ _ Es). apply ev_const.
    + assert (I' : forall x, In x l' <-> In x l \/ In x m).
      { intros x. split; intros I.
        - apply in_app_iff. apply (Permutation_in _ P). exact I.
        - apply (Permutation_in _ (Permutation_sym P)). apply in_app_iff. exact I. }
      pose proof (g_more _ _ _ _ _ _ Ga) as Ma. pose proof (g_more _ _ _ _ _ _ Gb) as Mb.
      split.
      2:{ intros x Fx E. apply free_build. apply I'.
          inversion Fx as [|? ? F1|? ? F1| | | | |]; subst.
          - left. apply (free_build x c). apply Fa; assumption.
          - right. apply (free_build x d). apply Fb; assumption. }
      constructor.
      * lia.
      * split; [apply body_build|]. intros _. exists (c + d), l'. auto.
      * apply below_build. intros v I. apply I' in I. destruct I as [I|I].
        -- pose proof (below_free _ _ _ (proj2 (free_build v c l) I) (g_below _ _ _ _ _ _ Ga)). lia.
        -- exact (below_free _ _ _ (proj2 (free_build v d m) I) (g_below _ _ _ _ _ _ Gb)).
      * rewrite binders_build. intros y [].
      * intros r. rewrite den_build. cbn [den].
        pose proof (g_den _ _ _ _ _ _ Ga r) as Xa. pose proof (g_den _ _ _ _ _ _ Gb r) as Xb.
        rewrite den_build in Xa, Xb. apply same_int_eq in Xa, Xb. rewrite Xa, Xb.
        rewrite (lin_perm _ _ _ r P), lin_app. constructor.
      * intros x Fx. apply free_build, I' in Fx. destruct Fx as [I|I].
        -- destruct (g_inv _ _ _ _ _ _ Ga x) as [[X Y]|X]; [apply free_build; exact I| |right; exact X].
           left. split; [apply free_add1; exact X|exact Y].
        -- destruct (g_inv _ _ _ _ _ _ Gb x) as [[X Y]|X]; [apply free_build; exact I| |right; exact X].
           left. split; [apply free_add2; exact X|exact Y].
  - destruct L as [Ly Lb]. cbn [binders] in A.
    destruct (IH e k EO EB Lb) as (b' & k' & Eb & Gb & Fb).
    { intros w I. apply A. right. exact I. }
    destruct (A y) as [Ay1 Ay2]; [left; reflexivity|].
    assert (Fy : free y b') by (apply Fb; assumption).
    assert (Nb' : ~ In y (binders b')).
    { intros I. pose proof (g_fresh _ _ _ _ _ _ Gb _ I). lia. }
    exists (TLam k' (rename y k' b')), (S k'). split.
    + apply ev_S with (g := fun n' => bind (eval key n' e k b) (fun '(b', k1) =>
        if occurs y b' then Ok (TLam k1 (rename y k1 b'), S k1) else Ok (b', k1))); [reflexivity|].
      apply (ev_bind _ _ _ _ _ _ Eb).
      apply (occurs_free n b' y (proj1 (g_normal _ _ _ _ _ _ Gb))) in Fy. rewrite Fy. apply ev_const.
    + split; [apply lam_gives; assumption|].
      intros x Fx E. inversion Fx as [| | | | |? ? Fxb NE| |]; subst. apply free_lam.
      * apply free_rename_keep; [exact Nb'|apply Fb; assumption|exact NE].
      * pose proof (below_free _ _ _ (Fb _ Fxb E) (g_below _ _ _ _ _ _ Gb)). lia.
Qed.

Lemma under_nil : forall r v, under [] r v = r v.
Proof. reflexivity. Qed.

(** One variable handled, by the value of an argument. *)
Lemma body_subst : forall n k x c l b,
  body n b -> below k b -> (x < k)%nat -> below k (build c l) -> desc key l ->
  ~ In x l -> ~ In x (binders b) -> (forall y, In y (binders b) -> ~ In y l) ->
  exists t' k', ev (fun m => eval key m [(x, build c l)] k b) (t', k') /\
    gives [(x, build c l)] k n b t' k'.
Proof.
  intros n k x c l b B L Lx La D Nx Nb Ny.
  assert (FE : forall v, find [(x, build c l)] v = if Nat.eqb v x then Some (build c l) else None)
    by reflexivity.
  destruct (body_eval n b B [(x, build c l)] k) as (t' & k' & E1 & E2 & _);
    [| |exact L| |exists t', k'; auto].
  - intros v a E. rewrite FE in E. destruct (Nat.eqb_spec v x) as [->|]; [|discriminate].
    injection E as E. exists c, l. split; [symmetry; exact E|]. split; [exact D|].
    intros w I. rewrite FE. destruct (Nat.eqb_spec w x) as [->|]; [contradiction|reflexivity].
  - intros v a E. rewrite FE in E. destruct (Nat.eqb_spec v x) as [->|]; [|discriminate].
    injection E as E. subst a. auto.
  - intros y I. rewrite FE. destruct (Nat.eqb_spec y x) as [->|]; [contradiction|].
    split; [reflexivity|]. intros v a E. rewrite FE in E.
    destruct (Nat.eqb_spec v x) as [->|]; [|discriminate]. injection E as E. subst a.
    rewrite free_build. apply Ny. exact I.
Qed.

(** ** Programs *)

Lemma prog_eval : forall n t, prog n t -> live t -> forall k, below k t ->
  exists t' k', ev (fun m => eval key m [] k t) (t', k') /\ gives [] k n t t' k'.
Proof.
  intros n t P. induction P as [z|v|a b Pa IHa Pb IHb|n f a Pf IHf Pa IHa|n x b Pb IHb|n x v b Pv IHv Pb IHb NF];
    intros LV k L.
  - destruct (body_eval 0 (TInt z) (body_int z) [] k) as (t' & k' & E1 & E2 & _);
      [intros ? ? E; discriminate E|intros ? ? E; discriminate E|exact L|intros ? []|].
    exists t', k'. auto.
  - destruct (body_eval 0 (TVar v) (body_var v) [] k) as (t' & k' & E1 & E2 & _);
      [intros ? ? E; discriminate E|intros ? ? E; discriminate E|exact L|intros ? []|].
    exists t', k'. auto.
  - destruct LV as [LVa LVb]. destruct L as [La Lb].
    destruct (IHa LVa k La) as (a' & k1 & Ea & Ga).
    destruct (IHb LVb k1) as (b' & k2 & Eb & Gb).
    { apply below_mono with k; [apply (g_more _ _ _ _ _ _ Ga)|exact Lb]. }
    destruct (g_normal _ _ _ _ _ _ Ga) as [_ Na]. destruct (Na eq_refl) as (c & l & -> & Dl).
    destruct (g_normal _ _ _ _ _ _ Gb) as [_ Nb]. destruct (Nb eq_refl) as (d & m & -> & Dm).
    destruct (add_build key [] c l d m Dl Dm) as (l' & Es & Pm & D'); [intros v _; reflexivity|].
    assert (I' : forall x, In x l' <-> In x l \/ In x m).
    { intros x. split; intros I.
      - apply in_app_iff. apply (Permutation_in _ Pm). exact I.
      - apply (Permutation_in _ (Permutation_sym Pm)). apply in_app_iff. exact I. }
    pose proof (g_more _ _ _ _ _ _ Ga) as Ma. pose proof (g_more _ _ _ _ _ _ Gb) as Mb.
    exists (build (c + d) l'), k2. split.
    + apply ev_S with (g := fun n' =>
        bind (eval key n' [] k a) (fun '(a', k1) =>
        bind (eval key n' [] k1 b) (fun '(b', k2) =>
        bind (addF key n' [] a' b') (fun s => Ok (s, k2))))); [reflexivity|].
      apply (ev_bind _ _ _ _ _ _ Ea). apply (ev_bind _ _ _ _ _ _ Eb).
      apply (ev_bind _ _ _ _ _ _ Es). apply ev_const.
    + constructor.
      * lia.
      * split; [apply body_build|]. intros _. exists (c + d), l'. auto.
      * apply below_build. intros v I. apply I' in I. destruct I as [I|I].
        -- pose proof (below_free _ _ _ (proj2 (free_build v c l) I) (g_below _ _ _ _ _ _ Ga)). lia.
        -- exact (below_free _ _ _ (proj2 (free_build v d m) I) (g_below _ _ _ _ _ _ Gb)).
      * rewrite binders_build. intros y [].
      * intros r. rewrite den_build. cbn [den].
        pose proof (g_den _ _ _ _ _ _ Ga r) as Xa. pose proof (g_den _ _ _ _ _ _ Gb r) as Xb.
        rewrite den_build in Xa, Xb. apply same_int_eq in Xa, Xb. rewrite Xa, Xb.
        rewrite (lin_perm _ _ _ r Pm), lin_app. constructor.
      * intros x Fx. apply free_build, I' in Fx. left. split; [|reflexivity]. destruct Fx as [I|I].
        -- destruct (g_inv _ _ _ _ _ _ Ga x) as [[X _]|(y & t & E & _)];
             [apply free_build; exact I|apply free_add1; exact X|discriminate].
        -- destruct (g_inv _ _ _ _ _ _ Gb x) as [[X _]|(y & t & E & _)];
             [apply free_build; exact I|apply free_add2; exact X|discriminate].
  - destruct LV as [LVf LVa]. destruct L as [Lf La].
    destruct (IHf LVf k Lf) as (f' & k1 & Ef & Gf).
    pose proof (g_more _ _ _ _ _ _ Gf) as Mf.
    destruct (IHa LVa k1) as (a' & k2 & Ea & Ga).
    { apply below_mono with k; [exact Mf|exact La]. }
    pose proof (g_more _ _ _ _ _ _ Ga) as Ma.
    destruct (g_normal _ _ _ _ _ _ Ga) as [_ Na]. destruct (Na eq_refl) as (c & l & -> & Dl).
    destruct (g_normal _ _ _ _ _ _ Gf) as [Bf _].
    remember (S n) as sn eqn:En. destruct Bf as [| | |n0 y b Bb Fy Ny]; try discriminate.
    injection En as ->. pose proof (g_below _ _ _ _ _ _ Gf) as [By Bl].
    assert (Ol : forall v, In v l -> (v < k)%nat).
    { intros v I. apply (free_build v c) in I.
      destruct (g_inv _ _ _ _ _ _ Ga v I) as [[X _]|(w & t & E & _)]; [|discriminate].
      exact (below_free _ _ _ X La). }
    assert (Yk : (k <= y)%nat) by (apply (g_fresh _ _ _ _ _ _ Gf); left; reflexivity).
    destruct (body_subst n k2 y c l b) as (t' & k' & Et & Gt).
    { exact Bb. }
    { apply below_mono with k1; assumption. }
    { lia. }
    { exact (g_below _ _ _ _ _ _ Ga). }
    { exact Dl. }
    { intros I. specialize (Ol _ I). lia. }
    { exact Ny. }
    { intros w I J. specialize (Ol _ J).
      assert ((k <= w)%nat) by (apply (g_fresh _ _ _ _ _ _ Gf); right; exact I). lia. }
    exists t', k'. split.
    + apply ev_S with (g := fun n' =>
        bind (eval key n' [] k f) (fun '(f', k1) =>
        bind (eval key n' [] k1 a) (fun '(a', k2) =>
        match f' with
        | TLam x b => eval key n' ((x, a') :: []) k2 b
        | _ => Ok (TApp f' a', k2)
        end))); [reflexivity|].
      apply (ev_bind _ _ _ _ _ _ Ef). apply (ev_bind _ _ _ _ _ _ Ea). exact Et.
    + pose proof (g_more _ _ _ _ _ _ Gt) as Mt. constructor.
      * lia.
      * exact (g_normal _ _ _ _ _ _ Gt).
      * exact (g_below _ _ _ _ _ _ Gt).
      * intros w I. pose proof (g_fresh _ _ _ _ _ _ Gt _ I). lia.
      * intros r. cbn [den].
        pose proof (g_den _ _ _ _ _ _ Gf r) as Xf. pose proof (g_den _ _ _ _ _ _ Ga r) as Xa.
        rewrite den_build in Xa. apply same_int_eq in Xa.
        cbn [den] in Xf.
        assert (UN : forall t, same (den (under [] r) t) (den r t)).
        { intros t. apply den_ext. intros v _. reflexivity. }
        change (den (under [] r) f) with (den r f) in *.
        change (den (under [] r) a) with (den r a) in *.
        rewrite Xa. destruct (den r f) as [|g|] eqn:Ed; try (inversion Xf; fail).
        apply same_trans with (den (upd r y (lin c l r)) b).
        -- apply same_trans with (1 := g_den _ _ _ _ _ _ Gt r). apply den_ext.
           intros v _. unfold under, upd. cbn [find].
           destruct (Nat.eqb v y); [rewrite den_build; reflexivity|reflexivity].
        -- inversion Xf as [|? ? X|]; subst. apply X.
      * intros x Fx. left. split; [|reflexivity].
        destruct (g_inv _ _ _ _ _ _ Gt x Fx) as [[X E]|(w & t & E & X)].
        -- cbn [find] in E. destruct (Nat.eqb_spec x y) as [|NE]; [discriminate|].
           destruct (g_inv _ _ _ _ _ _ Gf x) as [[Y _]|(w & t & E' & _)];
             [apply free_lam; assumption|apply free_app1; exact Y|discriminate].
        -- cbn [find] in E. destruct (Nat.eqb w y); [|discriminate]. injection E as E. subst t.
           destruct (g_inv _ _ _ _ _ _ Ga x X) as [[Y _]|(w' & t & E' & _)];
             [apply free_app2; exact Y|discriminate].
  - destruct LV as [LVb (r & z1 & z2 & ND)]. destruct L as [Lx Lb].
    destruct (IHb LVb k Lb) as (b' & k' & Eb & Gb).
    assert (Nb' : ~ In x (binders b')).
    { intros I. pose proof (g_fresh _ _ _ _ _ _ Gb _ I). lia. }
    pose proof (proj1 (g_normal _ _ _ _ _ _ Gb)) as Bb.
    assert (Fx : free x b').
    { destruct (occurs x b') eqn:O; [apply (occurs_free n b' x Bb); exact O|].
      destruct ND. apply same_trans with (den (upd r x z1) b').
      { apply same_sym. exact (g_den _ _ _ _ _ _ Gb (upd r x z1)). }
      apply same_trans with (den (upd r x z2) b'); [|exact (g_den _ _ _ _ _ _ Gb (upd r x z2))].
      apply den_ext. intros v F. unfold upd. destruct (Nat.eqb_spec v x) as [->|_]; [|reflexivity].
      apply (occurs_free n b' x Bb) in F. congruence. }
    exists (TLam k' (rename x k' b')), (S k'). split.
    + apply ev_S with (g := fun n' => bind (eval key n' [] k b) (fun '(b', k1) =>
        if occurs x b' then Ok (TLam k1 (rename x k1 b'), S k1) else Ok (b', k1))); [reflexivity|].
      apply (ev_bind _ _ _ _ _ _ Eb).
      apply (occurs_free n b' x Bb) in Fx. rewrite Fx. apply ev_const.
    + apply lam_gives; try assumption; [reflexivity|intros ? ? E; discriminate E|intros ? ? E; discriminate E].
  - destruct LV as [LVv LVb]. destruct L as (Lx & Lv & Lb).
    destruct (IHv LVv k Lv) as (v' & k1 & Ev & Gv).
    pose proof (g_more _ _ _ _ _ _ Gv) as Mv.
    destruct (IHb LVb k1) as (b' & k2 & Eb & Gb).
    { apply below_mono with k; assumption. }
    pose proof (g_more _ _ _ _ _ _ Gb) as Mb.
    destruct (g_normal _ _ _ _ _ _ Gv) as [_ Nv]. destruct (Nv eq_refl) as (c & l & -> & Dl).
    assert (Fl : forall w, In w l -> free w v).
    { intros w I. apply (free_build w c) in I.
      destruct (g_inv _ _ _ _ _ _ Gv w I) as [[X _]|(u & t & E & _)]; [exact X|discriminate]. }
    destruct (body_subst n k2 x c l b') as (t' & k' & Et & Gt).
    { exact (proj1 (g_normal _ _ _ _ _ _ Gb)). }
    { exact (g_below _ _ _ _ _ _ Gb). }
    { lia. }
    { apply below_mono with k1; [exact Mb|exact (g_below _ _ _ _ _ _ Gv)]. }
    { exact Dl. }
    { intros I. apply NF. apply Fl. exact I. }
    { intros I. pose proof (g_fresh _ _ _ _ _ _ Gb _ I). lia. }
    { intros w I J. pose proof (g_fresh _ _ _ _ _ _ Gb _ I).
      pose proof (below_free _ _ _ (Fl _ J) Lv). lia. }
    pose proof (g_more _ _ _ _ _ _ Gt) as Mt.
    exists t', k'. split.
    + apply ev_S with (g := fun n' =>
        bind (eval key n' [] k v) (fun '(v', k1) =>
        bind (eval key n' [] k1 b) (fun '(b', k2) =>
        eval key n' ((x, v') :: []) k2 b'))); [reflexivity|].
      apply (ev_bind _ _ _ _ _ _ Ev). apply (ev_bind _ _ _ _ _ _ Eb). exact Et.
    + constructor.
      * lia.
      * exact (g_normal _ _ _ _ _ _ Gt).
      * exact (g_below _ _ _ _ _ _ Gt).
      * intros w I. pose proof (g_fresh _ _ _ _ _ _ Gt _ I). lia.
      * intros r. cbn [den]. pose proof (g_den _ _ _ _ _ _ Gv r) as Xv.
        rewrite den_build in Xv. apply same_int_eq in Xv.
        change (den (under [] r) v) with (den r v) in *. rewrite Xv.
        apply same_trans with (1 := g_den _ _ _ _ _ _ Gt r).
        apply same_trans with (den (upd r x (lin c l r)) b').
        -- apply den_ext. intros w _. unfold under, upd. cbn [find].
           destruct (Nat.eqb w x); [rewrite den_build; reflexivity|reflexivity].
        -- exact (g_den _ _ _ _ _ _ Gb (upd r x (lin c l r))).
      * intros w Fw. left. split; [|reflexivity].
        destruct (g_inv _ _ _ _ _ _ Gt w Fw) as [[X E]|(u & t & E & X)].
        -- cbn [find] in E. destruct (Nat.eqb_spec w x) as [|NE]; [discriminate|].
           destruct (g_inv _ _ _ _ _ _ Gb w X) as [[Y _]|(u & t & E' & _)];
             [apply free_let2; assumption|discriminate].
        -- cbn [find] in E. destruct (Nat.eqb u x); [|discriminate]. injection E as E. subst t.
           apply free_let1. apply Fl. apply (free_build w c). exact X.
Qed.

(** ** The theorems *)

Theorem sound : forall n t k, prog n t -> live t -> below k t ->
  exists t', evaluates key k t t' /\ (forall r, same (den r t') (den r t)) /\
    (forall x, free x t' -> free x t).
Proof.
  intros n t k P L B. destruct (prog_eval n t P L k B) as (t' & k' & [N E] & G).
  exists t'. split; [|split].
  - exists k', N. intros m Lm. apply E. exact Lm.
  - exact (g_den _ _ _ _ _ _ G).
  - intros x F. destruct (g_inv _ _ _ _ _ _ G x F) as [[X _]|(y & a & E' & _)]; [exact X|discriminate].
Qed.

Lemma evaluates_det : forall k t a b, evaluates key k t a -> evaluates key k t b -> a = b.
Proof.
  intros k t a b (k1 & N1 & H1) (k2 & N2 & H2).
  specialize (H1 (Nat.max N1 N2) ltac:(lia)). specialize (H2 (Nat.max N1 N2) ltac:(lia)).
  rewrite H1 in H2. injection H2 as H _. exact H.
Qed.

Lemma prog_normal : forall t k r, prog 0 t -> live t -> below k t -> evaluates key k t r ->
  exists c l, r = build c l /\ desc key l /\ (forall p, den p t = VInt (lin c l p)) /\
    (forall x, In x l -> free x t).
Proof.
  intros t k r P L B E. destruct (prog_eval 0 t P L k B) as (t' & k' & [N E'] & G).
  assert (X : r = t').
  { apply (evaluates_det k t); [exact E|]. exists k', N. intros m Lm. apply E'. exact Lm. }
  subst t'. destruct (g_normal _ _ _ _ _ _ G) as [_ Nm]. destruct (Nm eq_refl) as (c & l & -> & D).
  exists c, l. split; [reflexivity|]. split; [exact D|]. split.
  - intros p. pose proof (g_den _ _ _ _ _ _ G p) as Y. rewrite den_build in Y.
    apply same_int_eq in Y. exact Y.
  - intros x I. apply (free_build x c) in I.
    destruct (g_inv _ _ _ _ _ _ G x I) as [[Z _]|(y & a & E2 & _)]; [exact Z|discriminate].
Qed.

Theorem decides : distinct key -> forall t1 t2 k1 k2 r1 r2,
  prog 0 t1 -> live t1 -> below k1 t1 -> evaluates key k1 t1 r1 ->
  prog 0 t2 -> live t2 -> below k2 t2 -> evaluates key k2 t2 r2 ->
  (r1 = r2 <-> forall p, den p t1 = den p t2).
Proof.
  intros DK t1 t2 k1 k2 r1 r2 P1 L1 B1 E1 P2 L2 B2 E2.
  destruct (prog_normal _ _ _ P1 L1 B1 E1) as (c & l & -> & Dl & H1 & _).
  destruct (prog_normal _ _ _ P2 L2 B2 E2) as (d & m & -> & Dm & H2 & _).
  split.
  - intros E p. rewrite H1, H2. pose proof (den_build p c l) as X. rewrite E, den_build in X.
    symmetry. exact X.
  - intros H. destruct (lin_inj c l d m) as [-> Pm].
    { intros p. specialize (H p). rewrite H1, H2 in H. injection H as H. exact H. }
    rewrite (desc_unique key DK l m Dl Dm Pm). reflexivity.
Qed.

Theorem closed : forall t k, prog 0 t -> live t -> below k t -> (forall x, ~ free x t) ->
  exists z, evaluates key k t (TInt z) /\ forall p, den p t = VInt z.
Proof.
  intros t k P L B C. destruct (sound 0 t k P L B) as (r & E & _ & _).
  destruct (prog_normal _ _ _ P L B E) as (c & l & -> & _ & H & F).
  destruct l as [|v l]; [|destruct (C v); apply F; left; reflexivity].
  exists c. split; [exact E|]. exact H.
Qed.

Theorem again : forall t k r k', prog 0 t -> live t -> below k t -> evaluates key k t r ->
  distinct key -> below k' r -> evaluates key k' r r.
Proof.
  intros t k r k' P L B E DK B'.
  destruct (prog_normal _ _ _ P L B E) as (c & l & -> & D & _ & _).
  assert (PB : forall l, prog 0 (build c l) /\ live (build c l)).
  { clear. induction l as [|v l [IH1 IH2]]; [split; constructor|].
    destruct (build_cons c v l) as [(_ & _ & ->)|(-> & _)]; split; repeat constructor; assumption. }
  destruct (sound 0 (build c l) k' (proj1 (PB l)) (proj2 (PB l)) B') as (r & E' & _ & _).
  destruct (prog_normal _ _ _ (proj1 (PB l)) (proj2 (PB l)) B' E') as (d & m & -> & Dm & H & _).
  destruct (lin_inj c l d m) as [-> Pm].
  { intros p. specialize (H p). rewrite den_build in H. injection H as H. exact H. }
  rewrite (desc_unique key DK l m D Dm Pm). rewrite <- (desc_unique key DK l m D Dm Pm) at 1. exact E'.
Qed.

End K.
