(** Proofs about operators on array terms. *)
From Coq Require Import List Bool ZArith Lia.
Import ListNotations.
From Verif Require Import AopModel AopSpec.

Section Proofs.
Variable V : Type.
Variable is_num : V -> bool.
Variable prim : bop -> V -> V -> out V.
Variable primc : cop -> V -> V -> out V.
Variable primu : uop -> V -> out V.
Variable sem2 : fn2 -> V -> V -> out V.
Variable sem1 : fn1 -> V -> out V.
Variable truth : V -> out bool.
Hypothesis Harr : gives_arrays V is_num sem2 sem1.
Hypothesis Hmir : mirrors V sem2.

Notation Val := (Val V).
Notation Term := (Term V).
Notation eval := (eval V sem2 sem1).
Notation call2 := (call2 V sem2).
Notation call1 := (call1 V sem1).
Notation plain_bin := (plain_bin V is_num prim sem2).
Notation plain_cmp := (plain_cmp V is_num primc sem2).
Notation plain_un := (plain_un V is_num primu sem1).
Notation build := (build V is_num prim primc primu sem2 sem1 truth).
Notation direct := (direct V is_num prim primc primu sem2 sem1 truth).
Notation same := (same V).

Lemma swap_mirror : forall c v w, sem2 (array_cmp (swap c)) w v = sem2 (array_cmp c) v w.
Proof.
  intros c v w. destruct (Hmir v w) as (A & B & C & D). destruct (Hmir w v) as (A' & B' & C' & D').
  destruct c; cbn [swap array_cmp]; congruence.
Qed.
Lemma term_cmp_array : forall l c, term_cmp l c = array_cmp c.
Proof. intros l c. destruct c; reflexivity. Qed.
Lemma term_un_array : forall l u, term_un l u = array_un u.
Proof. intros l u. destruct u; reflexivity. Qed.
Lemma term_bin_array : forall l o, (l = Torch -> o <> Mod) -> term_bin l o = array_bin o.
Proof. intros l o H. destruct l, o; try reflexivity. exfalso; apply H; reflexivity. Qed.

(** A term evaluates to an array. *)
Section Env.
Variable env : nat -> V.
Hypothesis Henv : forall x, is_num (env x) = false.
Notation E := (with_arrays V env).

Lemma call2_eval : forall f a b, (exists t, a = Term t) \/ (exists t, b = Term t) ->
  exists t, call2 f a b = Ok (Term t) /\
    eval E (Term t) = bind (eval E a) (fun a' => bind (eval E b) (fun b' => call2 f a' b')).
Proof.
  intros f a b [[t ->] | [t ->]].
  - exists (TFn2 V f (Term t) b). split; reflexivity.
  - exists (TFn2 V f a (Term t)). split; [destruct a; reflexivity | reflexivity].
Qed.

(** What is known of a built operand: it evaluates to what running directly gives, and a term to an array. *)
Definition good (r : out V) (a : operand V) : Prop :=
  same r (eval E a) /\ forall t v, a = Term t -> r = Ok v -> is_num v = false.

Lemma good_val : forall v, good (Ok v) (Val v).
Proof. intros v. split; [reflexivity | intros t w H; discriminate H]. Qed.
Lemma good_inv_val : forall r v, good r (Val v) -> r = Ok v.
Proof. intros r v [H _]. destruct r as [w|e]; cbn in H; [subst; reflexivity | contradiction]. Qed.

Lemma good_call2 : forall f ra rb a b r,
  good ra a -> good rb b -> (exists t, a = Term t) \/ (exists t, b = Term t) ->
  (forall v w, ra = Ok v -> rb = Ok w -> r = sem2 f v w) ->
  (forall e, ra = Exc e \/ (rb = Exc e) -> exists e', r = Exc e') ->
  exists o, call2 f a b = Ok o /\ good r o.
Proof.
  intros f ra rb a b r Ga Gb HT Hok Hex.
  destruct (call2_eval f a b HT) as [t [-> Et]]. exists (Term t). split; [reflexivity|].
  destruct Ga as [Sa _], Gb as [Sb _].
  destruct ra as [v|e].
  2:{ destruct (Hex e (or_introl eq_refl)) as [e' ->].
      split; [|intros t0 v _ H; discriminate H].
      rewrite Et. destruct (eval E a) as [o|e1]; cbn in Sa |- *; [contradiction | exact Logic.I]. }
  destruct (eval E a) as [[va|ta]|e1]; cbn in Sa; try contradiction. subst va.
  destruct rb as [w|e].
  2:{ destruct (Hex e (or_intror eq_refl)) as [e' ->].
      split; [|intros t0 u _ H; discriminate H].
      rewrite Et. destruct (eval E b) as [o|e1]; cbn in Sb |- *; [contradiction | exact Logic.I]. }
  destruct (eval E b) as [[vb|tb]|e1]; cbn in Sb; try contradiction. subst vb.
  rewrite (Hok v w eq_refl eq_refl). split.
  - rewrite Et. cbn. destruct (sem2 f v w); cbn; [reflexivity | exact Logic.I].
  - intros t0 u _ H. exact (proj1 Harr f v w u H).
Qed.

Definition built (r : out V) (b : out (operand V)) : Prop :=
  match b with Ok a => good r a | Exc _ => exists e, r = Exc e end.

Lemma built_val : forall (r : out V), built r (bind r (fun v => Ok (Val v))).
Proof. intros [v|e]; cbn; [apply good_val | exists e; reflexivity]. Qed.

Lemma plain_bin_array : forall o v w, is_num v = false \/ is_num w = false ->
  plain_bin o v w = sem2 (array_bin o) v w.
Proof. intros o v w [H|H]; unfold AopModel.plain_bin; rewrite H; [reflexivity | rewrite andb_false_r; reflexivity]. Qed.
Lemma plain_cmp_array : forall c v w, is_num v = false \/ is_num w = false ->
  plain_cmp c v w = sem2 (array_cmp c) v w.
Proof.
  intros c v w H. unfold AopModel.plain_cmp. destruct (is_num v) eqn:Ev; [|reflexivity].
  destruct H as [H|H]; [discriminate H|]. rewrite H. apply swap_mirror.
Qed.

Lemma binary_built : forall l o ra rb a b, (l = Torch -> o <> Mod) -> good ra a -> good rb b ->
  built (bind ra (fun v => bind rb (fun w => plain_bin o v w)))
        (binary V is_num prim sem2 l o a b).
Proof.
  intros l o ra rb a b Hm Ga Gb.
  set (r := bind ra (fun v => bind rb (fun w => plain_bin o v w))).
  assert (HexR : forall e, ra = Exc e \/ rb = Exc e -> exists e', r = Exc e').
  { intros e [H|H]; unfold r; rewrite H; cbn; [exists e; reflexivity|].
    destruct ra as [v|e0]; cbn; eexists; reflexivity. }
  assert (Hterm : forall f, f = array_bin o -> (exists t, a = Term t) \/ (exists t, b = Term t) ->
            built r (call2 f a b)).
  { intros f -> HT. destruct (good_call2 (array_bin o) ra rb a b r Ga Gb HT) as [x [-> G]].
    - intros v w Hv Hw. unfold r. rewrite Hv, Hw. cbn. apply plain_bin_array.
      destruct HT as [[t Ht]|[t Ht]]; [left; exact (proj2 Ga t v Ht Hv) | right; exact (proj2 Gb t w Ht Hw)].
    - exact HexR.
    - exact G. }
  pose proof (term_bin_array l o Hm) as Tb.
  destruct a as [v|ta].
  - destruct b as [w|tb].
    + unfold r. rewrite (good_inv_val _ _ Ga), (good_inv_val _ _ Gb). cbn. apply built_val.
    + assert (HT : (exists t, Val v = Term t) \/ (exists t, Term tb = Term t)) by (right; eexists; reflexivity).
      unfold AopModel.binary. destruct l; [exact (Hterm _ Tb HT)|].
      destruct (is_num v); [exact (Hterm _ Tb HT) | exact (Hterm _ eq_refl HT)].
  - apply (Hterm _ Tb). left; eexists; reflexivity.
Qed.

Lemma compare_built : forall l c ra rb a b, good ra a -> good rb b ->
  built (bind ra (fun v => bind rb (fun w => plain_cmp c v w)))
        (compare V is_num primc sem2 l c a b).
Proof.
  intros l c ra rb a b Ga Gb.
  set (r := bind ra (fun v => bind rb (fun w => plain_cmp c v w))).
  assert (HexR : forall e, ra = Exc e \/ rb = Exc e -> exists e', r = Exc e').
  { intros e [H|H]; unfold r; rewrite H; cbn; [exists e; reflexivity|].
    destruct ra as [v|e0]; cbn; eexists; reflexivity. }
  assert (Hterm : (exists t, a = Term t) \/ (exists t, b = Term t) -> built r (call2 (array_cmp c) a b)).
  { intros HT. destruct (good_call2 (array_cmp c) ra rb a b r Ga Gb HT) as [x [-> G]].
    - intros v w Hv Hw. unfold r. rewrite Hv, Hw. cbn. apply plain_cmp_array.
      destruct HT as [[t Ht]|[t Ht]]; [left; exact (proj2 Ga t v Ht Hv) | right; exact (proj2 Gb t w Ht Hw)].
    - exact HexR.
    - exact G. }
  assert (Hswap : (exists t, b = Term t) -> built r (call2 (array_cmp (swap c)) b a)).
  { intros HT. destruct (good_call2 (array_cmp (swap c)) rb ra b a r Gb Ga (or_introl HT)) as [x [-> G]].
    - intros w v Hw Hv. unfold r. rewrite Hv, Hw. cbn. rewrite swap_mirror. apply plain_cmp_array.
      right. destruct HT as [t Ht]. exact (proj2 Gb t w Ht Hw).
    - intros e [H|H]; apply (HexR e); [right | left]; exact H.
    - exact G. }
  destruct a as [v|ta].
  - destruct b as [w|tb].
    + unfold r. rewrite (good_inv_val _ _ Ga), (good_inv_val _ _ Gb). cbn. apply built_val.
    + assert (HT : exists t, Term tb = Term t) by (eexists; reflexivity).
      unfold AopModel.compare. rewrite !term_cmp_array. destruct l; [exact (Hswap HT)|].
      destruct (is_num v); [exact (Hswap HT) | exact (Hterm (or_intror HT))].
  - unfold AopModel.compare. rewrite term_cmp_array. apply Hterm. left; eexists; reflexivity.
Qed.

Lemma prefix_built : forall l u ra a, good ra a ->
  built (bind ra (plain_un u)) (prefix V is_num primu sem1 l u a).
Proof.
  intros l u ra a Ga. destruct a as [v|t].
  - rewrite (good_inv_val _ _ Ga). cbn. apply built_val.
  - unfold prefix. rewrite term_un_array. cbn [AopModel.call1 built]. destruct Ga as [Sa Na]. split.
    + change (eval E (Term (TFn1 V (array_un u) (Term t)))) with (bind (eval E (Term t)) (call1 (array_un u))).
      destruct ra as [v|e].
      * destruct (eval E (Term t)) as [[w|t']|e1]; cbn in Sa; try contradiction. subst w. cbn [bind].
        unfold AopModel.plain_un. rewrite (Na t v eq_refl eq_refl). cbn.
        destruct (sem1 (array_un u) v); cbn; [reflexivity | exact Logic.I].
      * destruct (eval E (Term t)); cbn in Sa |- *; [contradiction | exact Logic.I].
    + intros t0 v _ H. destruct ra as [w|e]; cbn in H; [|discriminate H].
      unfold AopModel.plain_un in H. rewrite (Na t w eq_refl eq_refl) in H. exact (proj2 Harr _ _ _ H).
Qed.

Lemma build_built : forall l e, supported V l e -> built (direct env e) (build l e).
Proof.
  intros l. induction e as [x|v|o a IHa b IHb|c a IHa b IHb|u a IHa|c IHc a IHa b IHb]; intros [Hb Hm].
  - cbn. split; [reflexivity|]. intros t v _ H. injection H as <-. apply Henv.
  - cbn. apply good_val.
  - cbn [branches] in Hb. apply orb_false_iff in Hb. destruct Hb as [Hba Hbb].
    assert (Hma : l = Torch -> o <> Mod /\ takes_mod V a = false /\ takes_mod V b = false).
    { intros El. specialize (Hm El). cbn [takes_mod] in Hm.
      destruct o; try discriminate Hm; apply orb_false_iff in Hm; (split; [discriminate | exact Hm]). }
    assert (Ba : built (direct env a) (build l a)) by (apply IHa; split; [exact Hba | intros El; apply Hma, El]).
    assert (Bb : built (direct env b) (build l b)) by (apply IHb; split; [exact Hbb | intros El; apply Hma, El]).
    cbn [AopModel.direct AopModel.build].
    destruct (build l a) as [a'|ea]; cbn [built] in Ba.
    2:{ destruct Ba as [e' ->]. cbn. eexists; reflexivity. }
    destruct (build l b) as [b'|eb]; cbn [built] in Bb.
    2:{ destruct Bb as [e' ->]. cbn. destruct (direct env a); cbn; eexists; reflexivity. }
    cbn [bind]. apply binary_built; [intros El; apply Hma, El | exact Ba | exact Bb].
  - cbn [branches] in Hb. apply orb_false_iff in Hb. destruct Hb as [Hba Hbb].
    assert (Hma : l = Torch -> takes_mod V a = false /\ takes_mod V b = false).
    { intros El. specialize (Hm El). cbn [takes_mod] in Hm. apply orb_false_iff in Hm. exact Hm. }
    assert (Ba : built (direct env a) (build l a)) by (apply IHa; split; [exact Hba | intros El; apply Hma, El]).
    assert (Bb : built (direct env b) (build l b)) by (apply IHb; split; [exact Hbb | intros El; apply Hma, El]).
    cbn [AopModel.direct AopModel.build].
    destruct (build l a) as [a'|ea]; cbn [built] in Ba.
    2:{ destruct Ba as [e' ->]. cbn. eexists; reflexivity. }
    destruct (build l b) as [b'|eb]; cbn [built] in Bb.
    2:{ destruct Bb as [e' ->]. cbn. destruct (direct env a); cbn; eexists; reflexivity. }
    cbn [bind]. apply compare_built; [exact Ba | exact Bb].
  - assert (Ba : built (direct env a) (build l a)) by (apply IHa; split; [exact Hb | exact Hm]).
    cbn [AopModel.direct AopModel.build].
    destruct (build l a) as [a'|ea]; cbn [built] in Ba.
    2:{ destruct Ba as [e' ->]. cbn. eexists; reflexivity. }
    cbn [bind]. apply prefix_built. exact Ba.
  - discriminate Hb.
Qed.

Lemma run_same : forall l e, supported V l e ->
  same (direct env e) (bind (build l e) (eval E)).
Proof.
  intros l e S. pose proof (build_built l e S) as B.
  destruct (build l e) as [a|x]; cbn [built bind] in B |- *; [exact (proj1 B)|].
  destruct B as [e' ->]. exact Logic.I.
Qed.
End Env.

(** JAX: an [if] on a free array raises. *)
Lemma jax_if_raises : forall c a b t, build Jax c = Ok (Term t) -> build Jax (If V c a b) = Exc TypeError.
Proof. intros c a b t H. cbn [AopModel.build]. rewrite H. reflexivity. Qed.

(** JAX with [if]: whenever building succeeds, it took the right branches. *)
Lemma jax_built : forall env, (forall x, is_num (env x) = false) -> forall e a,
  build Jax e = Ok a -> good env (direct env e) a.
Proof.
  intros env Henv. induction e as [x|v|o a IHa b IHb|c a IHa b IHb|u a IHa|c IHc a IHa b IHb]; intros r H.
  - injection H as <-. split; [reflexivity|]. intros t v _ Hv. injection Hv as <-. apply Henv.
  - injection H as <-. apply good_val.
  - cbn [AopModel.build] in H. destruct (build Jax a) as [a'|] eqn:Ea; [|discriminate H].
    destruct (build Jax b) as [b'|] eqn:Eb; [|discriminate H]. cbn [bind] in H.
    pose proof (binary_built env Jax o _ _ a' b' ltac:(discriminate) (IHa _ eq_refl) (IHb _ eq_refl)) as B.
    cbn [AopModel.direct]. rewrite H in B. exact B.
  - cbn [AopModel.build] in H. destruct (build Jax a) as [a'|] eqn:Ea; [|discriminate H].
    destruct (build Jax b) as [b'|] eqn:Eb; [|discriminate H]. cbn [bind] in H.
    pose proof (compare_built env Jax c _ _ a' b' (IHa _ eq_refl) (IHb _ eq_refl)) as B.
    cbn [AopModel.direct]. rewrite H in B. exact B.
  - cbn [AopModel.build] in H. destruct (build Jax a) as [a'|] eqn:Ea; [|discriminate H]. cbn [bind] in H.
    pose proof (prefix_built env Jax u _ a' (IHa _ eq_refl)) as B.
    cbn [AopModel.direct]. rewrite H in B. exact B.
  - cbn [AopModel.build] in H. destruct (build Jax c) as [c'|] eqn:Ec; [|discriminate H]. cbn [bind] in H.
    destruct c' as [v|t]; cbn [test bind] in H; [|discriminate H].
    pose proof (good_inv_val env _ _ (IHc _ eq_refl)) as Dc.
    cbn [AopModel.direct]. rewrite Dc. cbn [bind].
    destruct (truth v) as [[|]|]; cbn [bind] in H |- *; [apply IHa, H | apply IHb, H | discriminate H].
Qed.
Lemma jax_if : forall env, (forall x, is_num (env x) = false) -> forall e a,
  build Jax e = Ok a -> same (direct env e) (eval (with_arrays V env) a).
Proof. intros env Henv e a H. exact (proj1 (jax_built env Henv e a H)). Qed.

(** Some variables now, the others later. *)
Notation later := (AopSpec.later V).
Notation values := (AopSpec.values V).
Fixpoint tsize (t : term V) : nat :=
  match t with
  | TVar _ _ => 1
  | TFn2 _ _ a b => 1 + osize a + osize b
  | TFn1 _ _ a => 1 + osize a
  end
with osize (a : operand V) : nat := match a with AopModel.Val _ _ => 1 | AopModel.Term _ t => 1 + tsize t end.

Lemma eval_fn2 : forall E f a b, eval E (Term (TFn2 V f a b)) =
  bind (eval E a) (fun a' => bind (eval E b) (fun b' => call2 f a' b')).
Proof. reflexivity. Qed.
Lemma eval_fn1 : forall E f a, eval E (Term (TFn1 V f a)) = bind (eval E a) (call1 f).
Proof. reflexivity. Qed.
Lemma eval_val : forall E v, eval E (Val v) = Ok (Val v).
Proof. reflexivity. Qed.
Lemma eval_var : forall E x, eval E (Term (TVar V x)) =
  Ok (match E x with Some r => r | None => Term (TVar V x) end).
Proof. reflexivity. Qed.
Lemma both_refl : forall r, both V r r.
Proof. intros [v|e]; [reflexivity | exact Logic.I]. Qed.
Lemma call2_term : forall f a b, (exists t, a = Term t) \/ (exists t, b = Term t) ->
  call2 f a b = Ok (Term (TFn2 V f a b)).
Proof. intros f a b [[t ->] | [t ->]]; [reflexivity | destruct a; reflexivity]. Qed.

Lemma call2_later : forall f E2 a b, both V
  (bind (call2 f a b) (eval E2))
  (bind (eval E2 a) (fun a' => bind (eval E2 b) (fun b' => call2 f a' b'))).
Proof.
  intros f E2 a b. destruct a as [v|ta].
  - destruct b as [w|tb].
    + cbn. destruct (sem2 f v w); cbn; [reflexivity | exact Logic.I].
    + rewrite call2_term by (right; eexists; reflexivity). apply both_refl.
  - rewrite call2_term by (left; eexists; reflexivity). apply both_refl.
Qed.

Lemma two_steps : forall E1 E2, values E1 -> forall n a, osize a <= n ->
  both V (bind (eval E1 a) (eval E2)) (eval (later E1 E2) a).
Proof.
  intros E1 E2 H1. induction n as [|n IH]; intros a Ha; [destruct a; cbn in Ha; lia|].
  destruct a as [v|t]; [reflexivity|]. destruct t as [x|f a b|f a].
  - rewrite !eval_var. unfold AopSpec.later. cbn [bind]. destruct (E1 x) as [r|] eqn:Ex.
    + destruct (H1 x r Ex) as [v ->]. reflexivity.
    + rewrite eval_var. reflexivity.
  - cbn [osize tsize] in Ha.
    assert (Ia := IH a ltac:(lia)). assert (Ib := IH b ltac:(lia)).
    rewrite !eval_fn2.
    destruct (eval E1 a) as [a1|ea]; cbn [bind] in Ia |- *.
    2:{ destruct (eval (later E1 E2) a); cbn [both bind] in Ia |- *; [contradiction | exact Logic.I]. }
    destruct (eval E1 b) as [b1|eb]; cbn [bind] in Ib |- *.
    2:{ destruct (eval (later E1 E2) a); cbn [bind both]; [|exact Logic.I].
        destruct (eval (later E1 E2) b); cbn [both bind] in Ib |- *; [contradiction | exact Logic.I]. }
    pose proof (call2_later f E2 a1 b1) as C.
    destruct (eval E2 a1) as [a2|x2], (eval (later E1 E2) a) as [a3|x3]; cbn [both] in Ia; try contradiction.
    + subst a3. destruct (eval E2 b1) as [b2|y2], (eval (later E1 E2) b) as [b3|y3]; cbn [both] in Ib; try contradiction.
      * subst b3. exact C.
      * cbn [bind] in C |- *. exact C.
    + cbn [bind] in C |- *. destruct (bind (call2 f a1 b1) (eval E2)); [contradiction | exact Logic.I].
  - cbn [osize tsize] in Ha. assert (Ia := IH a ltac:(lia)). rewrite !eval_fn1.
    destruct (eval E1 a) as [a1|ea]; cbn [bind] in Ia |- *.
    2:{ destruct (eval (later E1 E2) a); cbn [both bind] in Ia |- *; [contradiction | exact Logic.I]. }
    destruct a1 as [v|t1].
    + rewrite eval_val in Ia. destruct (eval (later E1 E2) a) as [a3|]; cbn [both] in Ia; [|contradiction].
      subst a3. cbn [bind AopModel.call1]. destruct (sem1 f v); cbn; [reflexivity | exact Logic.I].
    + cbn [AopModel.call1 bind]. rewrite eval_fn1.
      destruct (eval E2 (Term t1)) as [a2|]; destruct (eval (later E1 E2) a) as [a3|];
        cbn [both] in Ia; try contradiction; cbn [bind]; [|exact Logic.I].
      subst a3. apply both_refl.
Qed.
Lemma two_steps_all : forall E1 E2, values E1 -> forall a,
  both V (bind (eval E1 a) (eval E2)) (eval (later E1 E2) a).
Proof. intros E1 E2 H a. exact (two_steps E1 E2 H (osize a) a (le_n _)). Qed.
End Proofs.

(** PyTorch's [%] on a term is the remainder of the other sign. *)
Lemma torch_mod : exists (env : nat -> value) (e : expr value),
  toy_direct env e = Ok (VArr 2) /\ toy_run Torch env e = Ok (Val value (VArr (-1))) /\
  toy_run Jax env e = Ok (Val value (VArr 2)).
Proof. exists (fun _ => VArr (-1)), (Bin value Mod (Var value 0) (Lit value (VNum 3))). repeat split. Qed.
(** For all tensors it is the truncated remainder. *)
Lemma torch_mod_always : forall (V : Type) (is_num : V -> bool) prim primc primu sem2 sem1 truth env x y,
  bind (build V is_num prim primc primu sem2 sem1 truth Torch (Bin V Mod (Var V x) (Var V y))) (eval V sem2 sem1 (with_arrays V env)) =
  bind (sem2 Ffmod (env x) (env y)) (fun v => Ok (Val V v)).
Proof. intros. cbn. destruct (sem2 Ffmod (env x) (env y)); reflexivity. Qed.
Lemma torch_mod_integers : forall a b, b <> 0%Z ->
  toy_run Torch (fun x => match x with O => VArr a | _ => VArr b end) (Bin value Mod (Var value 0) (Var value 1)) = Ok (Val value (VArr (Z.rem a b))) /\
  toy_direct (fun x => match x with O => VArr a | _ => VArr b end) (Bin value Mod (Var value 0) (Var value 1)) = Ok (VArr (Z.modulo a b)).
Proof. intros a b H. apply Z.eqb_neq in H. cbn. unfold toy_fn2. cbn. unfold nonzero. rewrite H. split; reflexivity. Qed.
(** It also depends on which operand is the term. *)
Lemma torch_mod_sides : exists (env : nat -> value) v,
  toy_run Torch env (Bin value Mod (Var value 0) (Var value 1)) <>
  toy_run Torch env (Bin value Mod (Lit value v) (Var value 1)) /\
  env 0 = v.
Proof.
  exists (fun x => match x with O => VArr (-1) | _ => VArr 3 end), (VArr (-1)). split; [discriminate | reflexivity].
Qed.
(** PyTorch: an [if] on a free tensor takes the first branch. *)
Lemma torch_if : exists (env : nat -> value) (e : expr value),
  takes_mod value e = false /\ toy_direct env e = Ok (VArr 5) /\ toy_run Torch env e = Ok (Val value (VArr (-5))).
Proof.
  exists (fun _ => VArr 5),
    (If value (Cmp value Lt (Var value 0) (Lit value (VNum 0))) (Un value Neg (Var value 0)) (Var value 0)).
  repeat split.
Qed.

Lemma toy_arrays : gives_arrays value num_v toy_fn2 toy_fn1.
Proof.
  split.
  - intros f v w r H. unfold toy_fn2, arr_of in H. destruct (int_fn2 f (int_of v) (int_of w)); [|discriminate H].
    injection H as <-. reflexivity.
  - intros f v r H. injection H as <-. reflexivity.
Qed.
Lemma toy_mirrors : mirrors value toy_fn2.
Proof.
  intros v w. unfold toy_fn2. cbn [int_fn2]. rewrite (Z.eqb_sym (int_of w)). repeat split; reflexivity.
Qed.
