(** More fuel changes nothing; and what goes wrong. *)
From Coq Require Import List Arith ZArith Bool Lia.
From Verif Require Import LcModel LcSpec LcProofs LcLaws.
Import ListNotations.
Open Scope Z_scope.

Lemma bind_ok : forall A B (o : out A) (f : A -> out B) r,
  bind o f = Ok r -> exists a, o = Ok a /\ f a = Ok r.
Proof. intros A B [a| |] f r H; try discriminate. exists a. auto. Qed.

Section K.
Variable key : nat -> Z.

Lemma plus_mono : forall f g a b r,
  (forall x y s, f x y = Ok s -> g x y = Ok s) -> plus f a b = Ok r -> plus g a b = Ok r.
Proof.
  intros f g a b r H P. unfold plus in *.
  destruct a, b; try exact P; destruct (is_lam _ || is_lam _); try discriminate; auto.
Qed.

Section Rules.
Variables p q : tm -> tm -> out tm.
Hypothesis PQ : forall x y s, p x y = Ok s -> q x y = Ok s.

Lemma commute_mono : forall x y r, commute_add p x y = Ok r -> commute_add q x y = Ok r.
Proof. intros x y r H. unfold commute_add in *. destruct (negb (is_int x) && is_int y); auto. Qed.

Lemma two_mono : forall a b c r,
  bind (p a b) (fun s => p s c) = Ok r -> bind (q a b) (fun s => q s c) = Ok r.
Proof.
  intros a b c r H. apply bind_ok in H. destruct H as (s & H1 & H2).
  rewrite (PQ _ _ _ H1). cbn [bind]. auto.
Qed.

Lemma assoc_mono : forall x y r, assoc_add p x y = Ok r -> assoc_add q x y = Ok r.
Proof.
  intros x y r H. unfold assoc_add in *. destruct y; try (apply commute_mono; exact H).
  apply two_mono. exact H.
Qed.

Lemma unit_mono : forall x y r, unit_add p x y = Ok r -> unit_add q x y = Ok r.
Proof.
  intros x y r H. unfold unit_add in *. destruct (is_zero y); [exact H|].
  destruct (is_zero x); [exact H|]. apply assoc_mono. exact H.
Qed.

Lemma sort_mono : forall e x y r, sort_add key p e x y = Ok r -> sort_add key q e x y = Ok r.
Proof.
  intros e x y r H. unfold sort_add in *.
  destruct x as [i|vx|a b|f a|x b|x v b]; try (apply unit_mono; exact H).
  - destruct y as [j|vy| | | |]; try (apply unit_mono; exact H).
    destruct (key vy <? key vx); [apply PQ; exact H|apply unit_mono; exact H].
  - destruct b as [j|vx| | | |]; try (apply unit_mono; exact H).
    destruct y as [j|vy| | | |]; try (apply unit_mono; exact H).
    destruct (key vy <? key vx); [|apply unit_mono; exact H].
    apply two_mono. exact H.
Qed.
End Rules.

Lemma addF_mono : forall n e x y r, addF key n e x y = Ok r -> addF key (S n) e x y = Ok r.
Proof.
  induction n as [|n IH]; intros e x y r H; [discriminate|].
  remember (S n) as m eqn:Em. cbn [addF]. rewrite Em in H. cbn [addF] in H.
  assert (PM : forall a b s, plus (addF key n e) a b = Ok s -> plus (addF key m e) a b = Ok s).
  { intros a b s. apply plus_mono. apply IH. }
  destruct (is_lam x || is_lam y); [discriminate|].
  apply (sort_mono _ _ PM). exact H.
Qed.

Lemma eval_mono : forall n e k t r, eval key n e k t = Ok r -> eval key (S n) e k t = Ok r.
Proof.
  induction n as [|n IH]; intros e k t r H; [discriminate|].
  remember (S n) as m eqn:Em. cbn [eval]. rewrite Em in H. cbn [eval] in H.
  assert (EM : forall e k t r, eval key n e k t = Ok r -> eval key m e k t = Ok r)
    by (intros; apply IH; assumption).
  assert (AM : forall e x y r, addF key n e x y = Ok r -> addF key m e x y = Ok r)
    by (intros; rewrite Em; apply addF_mono; assumption).
  clear IH Em.
  destruct t as [z|v|a b|f a|x b|x v b]; try exact H.
  - apply bind_ok in H. destruct H as ([a' k1] & H1 & H). rewrite (EM _ _ _ _ H1). cbn [bind].
    apply bind_ok in H. destruct H as ([b' k2] & H2 & H). rewrite (EM _ _ _ _ H2). cbn [bind].
    apply bind_ok in H. destruct H as (s & H3 & H). rewrite (AM _ _ _ _ H3). exact H.
  - apply bind_ok in H. destruct H as ([a' k1] & H1 & H). rewrite (EM _ _ _ _ H1). cbn [bind].
    apply bind_ok in H. destruct H as ([b' k2] & H2 & H). rewrite (EM _ _ _ _ H2). cbn [bind].
    destruct a'; try exact H. apply EM. exact H.
  - apply bind_ok in H. destruct H as ([a' k1] & H1 & H). rewrite (EM _ _ _ _ H1). exact H.
  - apply bind_ok in H. destruct H as ([a' k1] & H1 & H). rewrite (EM _ _ _ _ H1). cbn [bind].
    apply bind_ok in H. destruct H as ([b' k2] & H2 & H). rewrite (EM _ _ _ _ H2). cbn [bind].
    apply EM. exact H.
Qed.

Lemma evaluates_at : forall n k t r k', run key n k t = Ok (r, k') -> evaluates key k t r.
Proof.
  intros n k t r k' H. exists k', n. intros m L.
  induction L as [|m L IH]; [exact H|]. apply eval_mono. exact IH.
Qed.
End K.

(** A result, whenever there is one, does not depend on how long one waits. *)
Theorem one_result : forall key k t n m r s,
  run key n k t = Ok r -> run key m k t = Ok s -> r = s.
Proof.
  intros key k t n m [r k1] [s k2] H1 H2.
  assert (X : forall b, (n <= b)%nat -> run key b k t = Ok (r, k1)).
  { intros b L. induction L as [|b L IH]; [exact H1|]. apply eval_mono. exact IH. }
  assert (Y : forall b, (m <= b)%nat -> run key b k t = Ok (s, k2)).
  { intros b L. induction L as [|b L IH]; [exact H2|]. apply eval_mono. exact IH. }
  specialize (X (Nat.max n m) ltac:(lia)). specialize (Y (Nat.max n m) ltac:(lia)).
  rewrite X in Y. injection Y as -> ->. reflexivity.
Qed.

(** ** A let whose value mentions the variable *)

Definition own_let : tm :=
  TLet 0 (TAdd (TVar 0) (TVar 1)) (TAdd (TVar 0) (TVar 0)).

Lemma step_assoc : forall key n e x a b,
  is_lam x = false -> is_zero x = false ->
  addF key (S n) e x (TAdd a b) =
  bind (plus (addF key n e) x a) (fun s => plus (addF key n e) s b).
Proof.
  intros key n e x a b L Z. cbn [addF]. rewrite L. cbn [is_lam orb]. unfold sort_add, unit_add.
  rewrite Z. cbn [is_zero].
  destruct x as [| |? []| | |]; reflexivity.
Qed.

Lemma step_swap : forall key n e a vx vy, key vy <? key vx = true ->
  addF key (S n) e (TAdd a (TVar vx)) (TVar vy) =
  bind (plus (addF key n e) a (call e vy)) (fun s => plus (addF key n e) s (call e vx)).
Proof. intros key n e a vx vy H. cbn [addF sort_add is_lam orb]. rewrite H. reflexivity. Qed.

Lemma step_order : forall key n e vx vy, key vy <? key vx = true ->
  addF key (S n) e (TVar vx) (TVar vy) = plus (addF key n e) (TVar vy) (TVar vx).
Proof. intros key n e vx vy H. cbn [addF sort_add is_lam orb]. rewrite H. reflexivity. Qed.

Lemma eval_add : forall key n e k a b,
  eval key (S n) e k (TAdd a b) =
  bind (eval key n e k a) (fun '(a', k1) =>
  bind (eval key n e k1 b) (fun '(b', k2) =>
  bind (addF key n e a' b') (fun s => Ok (s, k2)))).
Proof. reflexivity. Qed.

Lemma eval_let : forall key n e k x v b,
  eval key (S n) e k (TLet x v b) =
  bind (eval key n e k v) (fun '(v', k1) =>
  bind (eval key n e k1 b) (fun '(b', k2) => eval key n ((x, v') :: e) k2 b')).
Proof. reflexivity. Qed.

Lemma eval_app : forall key n e k f a,
  eval key (S n) e k (TApp f a) =
  bind (eval key n e k f) (fun '(f', k1) =>
  bind (eval key n e k1 a) (fun '(a', k2) =>
  match f' with
  | TLam x b => eval key n ((x, a') :: e) k2 b
  | _ => Ok (TApp f' a', k2)
  end)).
Proof. reflexivity. Qed.

Lemma eval_sum : forall key n e k a b,
  eval key (S (S n)) e k (TAdd (TVar a) (TVar b)) =
  bind (addF key (S n) e (call e a) (call e b)) (fun s => Ok (s, k)).
Proof. reflexivity. Qed.

Local Opaque addF eval.

Lemma own_let_wrong : forall key, distinct key ->
  exists r, evaluates key 2 own_let r /\ forall p, p 1%nat <> 0 -> ~ same (den p r) (den p own_let).
Proof.
  intros key DK.
  assert (LAST : forall n e l v, (forall u, In u l -> key u <= key v) ->
    addF key (S n) e (build 0 l) (TVar v) = Ok (build 0 (v :: l))).
  { intros n e l v H. apply add_last. exact H. }
  assert (PLAST : forall n e l v, (forall u, In u l -> key u <= key v) ->
    plus (addF key (S n) e) (build 0 l) (TVar v) = Ok (build 0 (v :: l))).
  { intros n e l v H. apply plus_last. exact H. }
  destruct (Z.lt_trichotomy (key 0%nat) (key 1%nat)) as [L|[E|L]].
  - pose proof (proj2 (Z.ltb_lt _ _) L) as H1.
    exists (build 0 [1; 1; 1; 0; 0]%nat). split.
    + apply (evaluates_at key 12 2 own_let _ 2). unfold run, own_let.
      rewrite eval_let, eval_sum.
      change (call [] 0) with (build 0 [0%nat]). change (call [] 1) with (TVar 1).
      rewrite (LAST 9%nat [] [0%nat] 1%nat) by (intros u [<-|[]]; lia). cbn [bind].
      rewrite eval_sum. change (call [] 0) with (TVar 0).
      change (addF key 10 [] (TVar 0) (TVar 0)) with (addF key 10 [] (build 0 [0%nat]) (TVar 0)).
      rewrite (LAST 9%nat [] [0%nat] 0%nat) by (intros u [<-|[]]; lia). cbn [bind].
      change (build 0 [0; 0]%nat) with (TAdd (TVar 0) (TVar 0)).
      rewrite eval_sum.
      change (call [(0%nat, build 0 [1; 0]%nat)] 0) with (TAdd (TVar 0) (TVar 1)).
      remember [(0%nat, build 0 [1; 0]%nat)] as e eqn:Ee.
      rewrite step_assoc by reflexivity.
      assert (P1 : plus (addF key 9 e) (TAdd (TVar 0) (TVar 1)) (TVar 0) =
        Ok (build 0 [1; 1; 0; 0]%nat)).
      { unfold plus. cbn [is_lam orb]. rewrite step_swap by exact H1.
        replace (call e 0) with (TAdd (TVar 0) (TVar 1)) by (subst e; reflexivity).
        replace (call e 1) with (TVar 1) by (subst e; reflexivity).
        assert (P2 : plus (addF key 8 e) (TVar 0) (TAdd (TVar 0) (TVar 1)) =
          Ok (build 0 [1; 0; 0]%nat)).
        { unfold plus. cbn [is_lam orb]. rewrite step_assoc by reflexivity.
          change (TVar 0) with (build 0 [0%nat]) at 1.
          rewrite (PLAST 6%nat e [0%nat] 0%nat) by (intros u [<-|[]]; lia). cbn [bind].
          apply PLAST. intros u [<-|[<-|[]]]; lia. }
        rewrite P2. cbn [bind]. apply PLAST. intros u [<-|[<-|[<-|[]]]]; lia. }
      rewrite P1. cbn [bind].
      rewrite (PLAST 8%nat e) by (intros u [<-|[<-|[<-|[<-|[]]]]]; lia). reflexivity.
    + intros p N S. rewrite den_build in S. apply same_int_eq in S.
      cbn in S. unfold lin, upd in S. cbn in S. injection S as S. lia.
  - apply DK in E. discriminate.
  - pose proof (proj2 (Z.ltb_lt _ _) L) as H1.
    exists (build 0 [0; 0; 1; 1; 1]%nat). split.
    + apply (evaluates_at key 12 2 own_let _ 2). unfold run, own_let.
      rewrite eval_let, eval_sum.
      change (call [] 0) with (TVar 0). change (call [] 1) with (TVar 1).
      rewrite step_order by exact H1.
      change (plus (addF key 9 []) (TVar 1) (TVar 0))
        with (plus (addF key 9 []) (build 0 [1%nat]) (TVar 0)).
      rewrite (PLAST 8%nat [] [1%nat] 0%nat) by (intros u [<-|[]]; lia). cbn [bind].
      rewrite eval_sum. change (call [] 0) with (TVar 0).
      change (addF key 10 [] (TVar 0) (TVar 0)) with (addF key 10 [] (build 0 [0%nat]) (TVar 0)).
      rewrite (LAST 9%nat [] [0%nat] 0%nat) by (intros u [<-|[]]; lia). cbn [bind].
      change (build 0 [0; 0]%nat) with (TAdd (TVar 0) (TVar 0)).
      rewrite eval_sum.
      change (call [(0%nat, build 0 [0; 1]%nat)] 0) with (TAdd (TVar 1) (TVar 0)).
      remember [(0%nat, build 0 [0; 1]%nat)] as e eqn:Ee.
      rewrite step_assoc by reflexivity.
      assert (P1 : plus (addF key 9 e) (TAdd (TVar 1) (TVar 0)) (TVar 1) =
        Ok (build 0 [0; 1; 1; 1]%nat)).
      { unfold plus. cbn [is_lam orb]. rewrite step_swap by exact H1.
        replace (call e 0) with (TAdd (TVar 1) (TVar 0)) by (subst e; reflexivity).
        replace (call e 1) with (TVar 1) by (subst e; reflexivity).
        change (plus (addF key 8 e) (TVar 1) (TVar 1))
          with (plus (addF key 8 e) (build 0 [1%nat]) (TVar 1)).
        rewrite (PLAST 7%nat e [1%nat] 1%nat) by (intros u [<-|[]]; lia). cbn [bind].
        change (build 0 [1; 1]%nat) with (TAdd (TVar 1) (TVar 1)).
        unfold plus at 1. cbn [is_lam orb]. rewrite step_assoc by reflexivity.
        change (TAdd (TVar 1) (TVar 1)) with (build 0 [1; 1]%nat).
        rewrite (PLAST 6%nat e [1; 1]%nat 1%nat) by (intros u [<-|[<-|[]]]; lia). cbn [bind].
        apply PLAST. intros u [<-|[<-|[<-|[]]]]; lia. }
      rewrite P1. cbn [bind].
      rewrite (PLAST 8%nat e) by (intros u [<-|[<-|[<-|[<-|[]]]]]; lia). reflexivity.
    + intros p N S. rewrite den_build in S. apply same_int_eq in S.
      cbn in S. unfold lin, upd in S. cbn in S. injection S as S. lia.
Qed.

Local Transparent addF eval.

(** ** A function used twice *)

Definition by_id (v : nat) : Z := Z.of_nat v.

Lemma by_id_distinct : distinct by_id.
Proof. intros v w H. apply Nat2Z.inj. exact H. Qed.

Definition twice : tm :=
  TLam 1 (TLam 2 (TApp (TVar 1) (TApp (TVar 1) (TVar 2)))).

(** [twice(twice)(f)(x)], written out and with a shared [twice]. *)
Definition written_out : tm :=
  TApp (TApp (TApp twice twice) (TVar 3)) (TVar 4).
Definition shared : tm :=
  TLet 0 twice (TApp (TApp (TApp (TVar 0) (TVar 0)) (TVar 3)) (TVar 4)).

Lemma shared_wrong :
  evaluates by_id 5 written_out
    (TApp (TVar 3) (TApp (TVar 3) (TApp (TVar 3) (TApp (TVar 3) (TVar 4))))) /\
  exists r, evaluates by_id 5 shared r /\
    r <> TApp (TVar 3) (TApp (TVar 3) (TApp (TVar 3) (TApp (TVar 3) (TVar 4)))).
Proof.
  split.
  - apply (evaluates_at by_id 20 5 written_out _ 13). vm_compute. reflexivity.
  - eexists. split; [|].
    + apply (evaluates_at by_id 20 5 shared _ 9). vm_compute. reflexivity.
    + discriminate.
Qed.

(** [e = Lam(y, App(y(), 1))] applied to a function that mentions [e]. *)
Definition asks (y : nat) : tm := TLam y (TApp (TVar y) (TInt 1)).
Definition loops : tm :=
  TLet 0 (asks 1) (TApp (TVar 0) (TLam 2 (TAdd (TApp (TVar 3) (TVar 0)) (TVar 2)))).
Definition ends : tm :=
  TApp (asks 1) (TLam 2 (TAdd (TApp (TVar 3) (asks 1)) (TVar 2))).

Definition arg_loop (y q : nat) : tm := TLam q (TAdd (TApp (TVar 3) (asks y)) (TVar q)).

Lemma loop : forall key y q n e k, y <> q ->
  find e y = Some (arg_loop y q) ->
  eval key n e k (TApp (TVar y) (TInt 1)) = NoFuel.
Proof.
  intros key y q n. induction n as [n IH] using lt_wf_ind. intros e k NE F.
  destruct n as [|[|n]]; [reflexivity|reflexivity|].
  cbn [eval bind]. unfold call. rewrite F. unfold arg_loop at 1.
  destruct n as [|n]; [reflexivity|]. cbn [bind].
  change (eval key (S (S n)) ((q, TInt 1) :: e) k (TAdd (TApp (TVar 3) (asks y)) (TVar q)) = NoFuel).
  rewrite eval_add.
  assert (X : eval key (S n) ((q, TInt 1) :: e) k (TApp (TVar 3) (asks y)) = NoFuel).
  { destruct n as [|n]; [reflexivity|]. cbn [eval bind asks]. unfold asks.
    assert (Y : forall k, eval key n ((q, TInt 1) :: e) k (TApp (TVar y) (TInt 1)) = NoFuel).
    { intros k'. apply IH; [lia|exact NE|].
      cbn [find]. apply Nat.eqb_neq in NE. rewrite NE. exact F. }
    rewrite Y. reflexivity. }
  rewrite X. reflexivity.
Qed.

Lemma loops_forever : forall key, runs_forever key 4 loops.
Proof.
  intros key n.
  do 10 (destruct n as [|n]; [vm_compute; reflexivity|]).
  unfold run, loops. rewrite eval_let.
  remember (S (S (S (S (S (S (S (S n)))))))) as m eqn:Em.
  assert (H1 : eval key (S m) [] 4 (asks 1) = Ok (asks 4, 5%nat)) by (subst m; vm_compute; reflexivity).
  assert (H2 : eval key (S m) [] 5 (TApp (TVar 0) (TLam 2 (TAdd (TApp (TVar 3) (TVar 0)) (TVar 2)))) =
    Ok (TApp (TVar 0) (TLam 5 (TAdd (TApp (TVar 3) (TVar 0)) (TVar 5))), 6%nat))
    by (subst m; vm_compute; reflexivity).
  rewrite H1. cbn [bind]. rewrite H2. cbn [bind].
  assert (H3 : eval key m [(0%nat, asks 4)] 6 (TLam 5 (TAdd (TApp (TVar 3) (TVar 0)) (TVar 5))) =
    Ok (arg_loop 4 6, 7%nat)) by (subst m; vm_compute; reflexivity).
  assert (H4 : eval key m [(0%nat, asks 4)] 6 (TVar 0) = Ok (asks 4, 6%nat)) by (subst m; vm_compute; reflexivity).
  rewrite eval_app, H4. cbn [bind]. rewrite H3. cbn [bind]. unfold asks at 1.
  apply loop with (q := 6%nat); [discriminate|reflexivity].
Qed.

Lemma ends_ends : exists r, evaluates by_id 4 ends r.
Proof.
  eexists. apply (evaluates_at by_id 20 4 ends _ 8). vm_compute. reflexivity.
Qed.

(** ** A function that ignores its argument *)

Lemma constant_wrong : forall key,
  evaluates key 1 (TLam 0 (TInt 5)) (TInt 5) /\
  (forall p, ~ same (den p (TInt 5)) (den p (TLam 0 (TInt 5)))) /\
  evaluates key 1 (TApp (TLam 0 (TInt 5)) (TInt 1)) (TApp (TInt 5) (TInt 1)) /\
  (forall p, den p (TApp (TLam 0 (TInt 5)) (TInt 1)) = VInt 5).
Proof.
  intros key. split; [|split; [|split]].
  - apply (evaluates_at key 5 1 _ _ 1). vm_compute. reflexivity.
  - intros p S. inversion S.
  - apply (evaluates_at key 5 1 _ _ 1). vm_compute. reflexivity.
  - reflexivity.
Qed.

(** ** The same function built twice *)

Lemma functions_differ : forall key,
  evaluates key 1 (TLam 0 (TAdd (TVar 0) (TInt 1))) (TLam 1 (TAdd (TInt 1) (TVar 1))) /\
  evaluates key 2 (TLam 0 (TAdd (TVar 0) (TInt 1))) (TLam 2 (TAdd (TInt 1) (TVar 2))).
Proof.
  intros key. split.
  - apply (evaluates_at key 9 1 _ _ 2). vm_compute. reflexivity.
  - apply (evaluates_at key 9 2 _ _ 3). vm_compute. reflexivity.
Qed.

(** ** Calls of unknown functions *)

Lemma atoms_differ : forall key,
  evaluates key 2 (TAdd (TVar 0) (TApp (TVar 1) (TInt 1)))
    (TAdd (TVar 0) (TApp (TVar 1) (TInt 1))) /\
  evaluates key 2 (TAdd (TApp (TVar 1) (TInt 1)) (TVar 0))
    (TAdd (TApp (TVar 1) (TInt 1)) (TVar 0)).
Proof.
  intros key. split; apply (evaluates_at key 9 2 _ _ 2); vm_compute; reflexivity.
Qed.

(** ** A program for the examples: [(Lam x. Lam y. x + (y + x))(z + 1)(2) + x] *)

Definition sample : tm :=
  TAdd (TApp (TApp (TLam 0 (TLam 1 (TAdd (TVar 0) (TAdd (TVar 1) (TVar 0)))))
                   (TAdd (TVar 2) (TInt 1))) (TInt 2))
       (TLet 1 (TAdd (TVar 0) (TInt 3)) (TVar 1)).

Lemma sample_prog : prog 0 sample.
Proof.
  repeat constructor. intros F. inversion F as [|? ? G|? ? G| | | | |]; inversion G.
Qed.

Lemma sample_live : live sample.
Proof.
  cbn. intuition.
  - exists (fun _ => 0), 0, 1. cbn. intros S. inversion S.
  - exists (fun _ => 0), 0, 1. cbn. intros S. inversion S as [|f g H|]; subst.
    specialize (H 0). cbn in H. inversion H.
Qed.

Lemma sample_below : below 3 sample.
Proof. cbn. lia. Qed.
