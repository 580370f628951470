(** Proofs that programs can be traced. *)
From Coq Require Import List Bool Arith ZArith Lia.
From Verif Require Import ArrModel ArrSpec ArrProofs ArrNames ArrBind NopModel NopSpec NopProofs NopLaws FunModel FunSpec FunProofs FunLaws FunTrans.
Import ListNotations.

Section Expr.
Variable V : Type.
Variable num : nat -> V.
Variable lib : nat -> list (arr V) -> option (list (arr V)).
Hypothesis lawfulness : lawful lib.
Notation none := (fun _ : nat => @None (arr V)).

(** Values alike, and terms of values alike *)
Inductive like : val V -> val V -> Prop :=
| like_arr a b : shape a = shape b -> like (VArr V a) (VArr V b)
| like_get a b dims : shape a = shape b -> like (VGet V a dims) (VGet V b dims)
| like_name n : like (VName V n) (VName V n)
| like_op f i vs ws : likes vs ws -> like (VOp V f i vs) (VOp V f i ws)
| like_idx v w key : like v w -> like (VIdx V v key) (VIdx V w key)
with likes : list (val V) -> list (val V) -> Prop :=
| likes_nil : likes [] []
| likes_cons v w vs ws : like v w -> likes vs ws -> likes (v :: vs) (w :: ws).
Scheme like_mut := Induction for like Sort Prop with likes_mut := Induction for likes Sort Prop.
Combined Scheme like_both from like_mut, likes_mut.

Lemma like_alike v w : like v w -> alike V v w.
Proof. intros H. destruct H; cbn [alike]; auto. Qed.
Lemma likes_alike vs ws : likes vs ws -> Forall2 (alike V) vs ws.
Proof. induction 1; constructor; [apply like_alike; assumption|assumption]. Qed.

Lemma sizes_op f i vs m : sizes_val V (VOp V f i vs) m = sizes_all V vs m.
Proof. cbn [sizes_val]. revert m. induction vs as [|v vs IH]; intros m; [reflexivity|]. cbn [sizes_all]. destruct (sizes_val V v m); [|reflexivity..]. cbn [bindr]. apply IH. Qed.

Lemma like_facts : (forall v w, like v w -> (forall m, sizes_val V v m = sizes_val V w m) /\ fvs V v = fvs V w) /\
  (forall vs ws, likes vs ws -> (forall m, sizes_all V vs m = sizes_all V ws m) /\ flat_map (fvs V) vs = flat_map (fvs V) ws).
Proof.
  apply like_both.
  - intros a b E. split; reflexivity.
  - intros a b dims E. split; [intros m; cbn [sizes_val]; rewrite E; reflexivity|reflexivity].
  - intros n. split; reflexivity.
  - intros f i vs ws H [IH1 IH2]. split; [intros m; rewrite !sizes_op; apply IH1|]. cbn [fvs]. f_equal. exact IH2.
  - intros v w key H [IH1 IH2]. split; [exact IH1|]. cbn [fvs]. rewrite IH2. reflexivity.
  - split; reflexivity.
  - intros v w vs ws H [IH1 IH2] Hs [IH3 IH4]. split; [intros m; cbn [sizes_all]; rewrite IH1; destruct (sizes_val V w m); try reflexivity; cbn [bindr]; apply IH3|]. cbn [flat_map]. rewrite IH2, IH4. reflexivity.
Qed.

Definition one (x y : option (arr V)) : Prop := match x, y with Some a, Some b => shape a = shape b | None, None => True | _, _ => False end.
Lemma index_shape env (a b : arr V) dims : shape a = shape b -> one (index_arr env a dims) (index_arr env b dims).
Proof. intros E. unfold index_arr. rewrite <- E. destruct (index_axes env (shape a) dims) as [[s g]|]; cbn [one]; reflexivity. Qed.
Lemma single_like env v w : like v w -> one (single V num v env) (single V num w env).
Proof. intros H. destruct H; cbn [single]; try exact Logic.I; try reflexivity; [assumption|apply index_shape; assumption]. Qed.
Lemma traverse_one (f g : val V -> option (arr V)) vs ws : (forall v w, like v w -> one (f v) (g w)) -> likes vs ws -> related same_shape (traverse f vs) (traverse g ws).
Proof.
  intros H L. induction L as [|v w vs ws Hv L IH]; cbn [traverse]; [constructor|]. specialize (H v w Hv). destruct (f v), (g w); cbn [one] in H; try contradiction; [|exact Logic.I].
  destruct (traverse f vs), (traverse g ws); cbn [related] in *; try contradiction; [constructor; assumption|exact Logic.I].
Qed.
Lemma plain_like v w : like v w -> one (plain_array V v) (plain_array V w).
Proof. intros H. destruct H; cbn [plain_array]; try exact Logic.I. assumption. Qed.
Lemma eager_like sized vs ws : likes vs ws -> forallb (eager V sized) vs = forallb (eager V sized) ws.
Proof. induction 1 as [|v w vs ws H L IH]; [reflexivity|]. cbn [forallb]. rewrite IH. f_equal. destruct H; reflexivity. Qed.

Lemma vmapped_like sized run run' : (forall env, related same_shape (run env) (run' env)) -> both likes (vmapped V sized run) (vmapped V sized run').
Proof.
  intros H. unfold vmapped. specialize (H (assign (fun _ => 0) (map fst sized) (unravel (map snd sized) 0))). destruct (run _) as [us|], (run' _) as [vs|]; cbn [related] in H; try contradiction; [|exact Logic.I].
  cbn [both]. rewrite (Forall2_len _ _ _ H). generalize (seq 0 (length vs)). induction H as [|u v us vs E H IH]; intros [|j l]; cbn [combine map]; try constructor; [|apply IH].
  unfold same_shape in E. cbn [fst snd]. rewrite E. apply like_get. reflexivity.
Qed.

Definition some (R : list (val V) -> list (val V) -> Prop) (x y : option (list (val V))) : Prop := match x, y with Some a, Some b => R a b | None, None => True | _, _ => False end.
Lemma run_like f vs ws : likes vs ws -> both (some likes) (run_op V num lib f vs) (run_op V num lib f ws).
Proof.
  intros L. destruct (proj2 like_facts vs ws L) as [F1 F2]. unfold run_op. rewrite <- F1, <- F2. destruct (sizes_all V vs []) as [sized| | | | |]; try exact Logic.I. cbn [bindr].
  match goal with |- context [if ?c then _ else _] => destruct c end.
  - unfold partial_op. rewrite <- (eager_like sized vs ws L). destruct (forallb (eager V sized) vs); [|exact Logic.I].
    match goal with |- both _ (bindr (vmapped V sized ?r) _) (bindr (vmapped V sized ?r') _) => assert (Q : both likes (vmapped V sized r) (vmapped V sized r')) end.
    { apply vmapped_like. intros env. pose proof (traverse_one _ _ vs ws (single_like env) L) as T. destruct (traverse (fun v => single V num v env) vs), (traverse (fun v => single V num v env) ws); try contradiction; [|exact Logic.I]. apply (proj2 lawfulness). exact T. }
    match goal with |- both _ (bindr ?x _) (bindr ?y _) => destruct x, y; cbn [both bindr] in *; try contradiction; try exact Logic.I end. exact Q.
  - pose proof (traverse_one _ _ vs ws plain_like L) as T. destruct (traverse (plain_array V) vs) as [l|], (traverse (plain_array V) ws) as [l'|]; cbn [related] in T; try contradiction; [|exact Logic.I].
    pose proof (proj2 lawfulness f l l' T) as Q. destruct (lib f l) as [us|], (lib f l') as [us'|]; cbn [related] in Q; try contradiction; [|exact Logic.I].
    cbn [both some]. clear -Q. induction Q as [|u v us us' E Q IH]; cbn [map]; constructor; [apply like_arr; exact E|exact IH].
Qed.
Lemma likes_nth vs ws i : likes vs ws -> match nth_error vs i, nth_error ws i with Some v, Some w => like v w | None, None => True | _, _ => False end.
Proof. intros L. revert i. induction L as [|v w vs ws H L IH]; intros [|i]; cbn [nth_error]; auto. apply IH. Qed.
Lemma apply_like f i vs ws : likes vs ws -> both like (apply_op V num lib f i vs) (apply_op V num lib f i ws).
Proof.
  intros L. unfold apply_op. pose proof (run_like f vs ws L) as H. destruct (run_op V num lib f vs) as [[l|]| | | | |], (run_op V num lib f ws) as [[l'|]| | | | |]; cbn [both some bindr] in *; try contradiction; try exact Logic.I.
  - pose proof (likes_nth l l' i H) as N. destruct (nth_error l i), (nth_error l' i); try contradiction; [exact N|exact Logic.I].
  - constructor. exact L.
Qed.

Lemma partial_eval_like (a b : arr V) dims : shape a = shape b -> both (fun x y => match x, y with TArr c, TArr d => shape c = shape d | TGet c ds, TGet d ds' => ds = ds' /\ shape c = shape d | TLazy, TLazy => True | _, _ => False end) (partial_eval a dims) (partial_eval b dims).
Proof.
  intros E. unfold partial_eval. rewrite <- E. destruct (add_names (shape a) dims []) as [[|p m]| | | | |]; try exact Logic.I; [cbn; auto|].
  match goal with |- context [index_axes ?e (shape a) dims] => destruct (index_axes e (shape a) dims) as [[rest g]|]; [|exact Logic.I] end. cbn [both]. split; reflexivity.
Qed.
Lemma getitem_like (a b : arr V) key : shape a = shape b -> both (fun x y => match x, y with TArr c, TArr d => shape c = shape d | TGet c ds, TGet d ds' => ds = ds' /\ shape c = shape d | TLazy, TLazy => True | _, _ => False end) (getitem a key) (getitem b key).
Proof.
  intros E. unfold getitem. destruct key as [|k key]; [exact E|]. rewrite <- E. destruct (desugar (shape a) (k :: key)) as [[nsh nkey]| | | | |]; try exact Logic.I.
  destruct (existsb is_name (k :: key)).
  - destruct (forallb is_name (k :: key)); [destruct (add_names nsh nkey []); try exact Logic.I; cbn; auto|]. apply partial_eval_like. reflexivity.
  - pose proof (index_shape (fun _ => 0) (reshape a nsh) (reshape b nsh) nkey eq_refl) as Q. destruct (index_arr (fun _ => 0) (reshape a nsh) nkey), (index_arr (fun _ => 0) (reshape b nsh) nkey); cbn [one both] in *; try contradiction; auto.
Qed.

Lemma index_like v w key : like v w -> both like (index_val V v key) (index_val V w key).
Proof.
  intros H. destruct H as [a b E|a b dims E|n|f i vs ws L|v w key' L]; cbn [index_val].
  - pose proof (getitem_like a b key E) as G. destruct (getitem a key) as [[c|c ds|]| | | | |], (getitem b key) as [[d|d ds'|]| | | | |]; cbn [both] in *; try contradiction; try exact Logic.I; [constructor; exact G|]. destruct G as [<- G]. constructor. exact G.
  - rewrite <- E. destruct (add_names (shape a) dims []) as [m| | | | |]; try exact Logic.I. cbn [bindr]. destruct (desugar (eager_shape (shape a) dims) key) as [[nsh nkey]| | | | |]; try exact Logic.I. cbn [bindr fst snd].
    destruct (add_names nsh nkey m) as [[|p sized]| | | | |]; try exact Logic.I; cbn [bindr]; [constructor; constructor; exact E|].
    match goal with |- both _ (bindr (vmapped V ?s ?r) _) (bindr (vmapped V ?s ?r') _) => assert (Q : both likes (vmapped V s r) (vmapped V s r')) end.
    { apply vmapped_like. intros env. pose proof (index_shape env a b dims E) as X. destruct (index_arr env a dims) as [c|], (index_arr env b dims) as [d|]; cbn [one] in X; try contradiction; [|exact Logic.I].
      unfold get_one. rewrite <- X. destruct (desugar (shape c) key) as [[nsh' nkey']| | | | |]; try exact Logic.I. pose proof (index_shape env (reshape c nsh') (reshape d nsh') nkey' eq_refl) as Y.
      destruct (index_arr env (reshape c nsh') nkey'), (index_arr env (reshape d nsh') nkey'); cbn [one option_map related] in *; try contradiction; [constructor; [exact Y|constructor]|exact Logic.I]. }
    match goal with |- both _ (bindr ?x _) (bindr ?y _) => destruct x as [l| | | | |], y as [l'| | | | |]; cbn [both bindr] in *; try contradiction; try exact Logic.I end.
    destruct Q as [|u v vs ws Hu [|u' v' vs' ws' Hu' Q]]; try exact Logic.I. exact Hu.
  - constructor. constructor.
  - constructor. constructor. exact L.
  - constructor. constructor. exact L.
Qed.

(** Expressions that differ in arrays *)
Inductive akin (R : arr V -> arr V -> Prop) : expr V -> expr V -> Prop :=
| akin_arr a b : R a b -> akin R (EArr V a) (EArr V b)
| akin_name n : akin R (EName V n) (EName V n)
| akin_get e e' key : akin R e e' -> akin R (EGet V e key) (EGet V e' key)
| akin_op f i es es' : akins R es es' -> akin R (EOp V f i es) (EOp V f i es')
with akins (R : arr V -> arr V -> Prop) : list (expr V) -> list (expr V) -> Prop :=
| akins_nil : akins R [] []
| akins_cons e e' es es' : akin R e e' -> akins R es es' -> akins R (e :: es) (e' :: es').
Scheme akin_mut := Induction for akin Sort Prop with akins_mut := Induction for akins Sort Prop.
Combined Scheme akin_both from akin_mut, akins_mut.

Lemma build_like : (forall e e', akin same_shape e e' -> both like (build V num lib e) (build V num lib e')) /\
  (forall es es', akins same_shape es es' -> both likes (build_all V num lib es) (build_all V num lib es')).
Proof.
  apply (akin_both same_shape (fun e e' _ => both like (build V num lib e) (build V num lib e')) (fun es es' _ => both likes (build_all V num lib es) (build_all V num lib es'))).
  - intros a b E. constructor. exact E.
  - intros n. constructor.
  - intros e e' key H IH. cbn [build]. destruct (build V num lib e), (build V num lib e'); cbn [both bindr] in *; try contradiction; try exact Logic.I; try (match goal with |- match index_val _ _ _ with _ => _ end => idtac end). apply index_like. exact IH.
  - intros f i es es' H IH. rewrite !build_op. destruct (build_all V num lib es), (build_all V num lib es'); cbn [both bindr] in *; try contradiction; try exact Logic.I. apply apply_like. exact IH.
  - constructor.
  - intros e e' es es' H IH Hs IHs. cbn [build_all]. destruct (build V num lib e), (build V num lib e'); cbn [both bindr] in *; try contradiction; try exact Logic.I.
    destruct (build_all V num lib es), (build_all V num lib es'); cbn [both bindr] in *; try contradiction; try exact Logic.I. constructor; assumption.
Qed.

Lemma sem_akin env : (forall e e', akin same_arr e e' -> same (sem V num lib none env e) (sem V num lib none env e')) /\
  (forall es es', akins same_arr es es' -> related same_arr (sems V num lib none env es) (sems V num lib none env es')).
Proof.
  apply (akin_both same_arr (fun e e' _ => same (sem V num lib none env e) (sem V num lib none env e')) (fun es es' _ => related same_arr (sems V num lib none env es) (sems V num lib none env es'))).
  - intros a b E. exact E.
  - intros n. apply same_refl.
  - intros e e' key H IH. cbn [sem]. destruct (sem V num lib none env e), (sem V num lib none env e'); cbn [same] in IH; try contradiction; [apply index_full_same; exact IH|exact Logic.I].
  - intros f i es es' H IH. rewrite !sem_op. apply call_related; assumption.
  - constructor.
  - intros e e' es es' H IH Hs IHs. cbn [sems]. destruct (sem V num lib none env e), (sem V num lib none env e'); cbn [same] in IH; try contradiction; [|exact Logic.I].
    fold (sems V num lib none env). destruct (sems V num lib none env es), (sems V num lib none env es'); cbn [related] in *; try contradiction; [constructor; assumption|exact Logic.I].
Qed.

(** ** Filled programs *)
Definition fills (xs : list (arr V)) : list (prog V) -> option (list (expr V)) :=
  fix all ps := match ps with [] => Some [] | p :: ps' => match fill V xs p, all ps' with Some e, Some es => Some (e :: es) | _, _ => None end end.
Lemma fills_cons xs p ps : fills xs (p :: ps) = match fill V xs p, fills xs ps with Some e, Some es => Some (e :: es) | _, _ => None end.
Proof. reflexivity. Qed.
Lemma fill_op xs f i ps : fill V xs (POp V f i ps) = option_map (EOp V f i) (fills xs ps).
Proof. reflexivity. Qed.
Lemma prog_ind' (P : prog V -> Prop) : (forall k, P (PArg V k)) -> (forall a, P (PArr V a)) -> (forall n, P (PName V n)) -> (forall p key, P p -> P (PGet V p key)) -> (forall f i ps, Forall P ps -> P (POp V f i ps)) -> forall p, P p.
Proof.
  intros H1 H2 H3 H4 H5. fix IH 1. intros [k|a|n|p key|f i ps]; [apply H1|apply H2|apply H3|apply H4, IH|apply H5]. induction ps as [|p ps IHps]; constructor; [apply IH|exact IHps].
Qed.
Definition akin_opt R (x y : option (expr V)) : Prop := match x, y with Some e, Some e' => akin R e e' | None, None => True | _, _ => False end.
Lemma fill_akin (R : arr V -> arr V -> Prop) xs ys : (forall a, R a a) -> Forall2 R xs ys -> forall p, akin_opt R (fill V xs p) (fill V ys p).
Proof.
  intros Rr H. induction p as [k|a|n|p key IH|f i ps IH] using prog_ind'; cbn [fill].
  - destruct (nth_error xs k) as [x|] eqn:E.
    + destruct (Forall2_nth _ _ _ _ _ H E) as (y & -> & Hy). constructor. exact Hy.
    + apply nth_error_None in E. rewrite (Forall2_len _ _ _ H) in E. apply nth_error_None in E. rewrite E. exact Logic.I.
  - constructor. apply Rr.
  - constructor.
  - destruct (fill V xs p), (fill V ys p); cbn [akin_opt option_map] in *; try contradiction; [constructor; exact IH|exact Logic.I].
  - assert (Q : match fills xs ps, fills ys ps with Some es, Some es' => akins R es es' | None, None => True | _, _ => False end).
    { induction IH as [|p ps Hp IH IHs]; [constructor|]. rewrite !fills_cons. destruct (fill V xs p), (fill V ys p); cbn [akin_opt] in Hp; try contradiction; [|exact Logic.I]. destruct (fills xs ps), (fills ys ps); try contradiction; [constructor; assumption|exact Logic.I]. }
    change (akin_opt R (option_map (EOp V f i) (fills xs ps)) (option_map (EOp V f i) (fills ys ps))). destruct (fills xs ps), (fills ys ps); cbn [akin_opt option_map] in *; try contradiction; [constructor; exact Q|exact Logic.I].
Qed.

Lemma built_regular e v : build V num lib e = Ok v -> regular V v.
Proof.
  intros H. destruct (build_law V num lib lawfulness none e v) as [T _]; [|exact H|].
  - clear. induction e as [a|n|e key IH|f i es IH] using expr_ind'; try exact Logic.I; [split; [exact IH|reflexivity]|apply apart_op; exact IH].
  - destruct v as [a|a dims| | |]; try exact Logic.I. apply regular_neat. exact (proj1 T).
Qed.

Theorem program_traceable node ps : traceable V (program V num lib node ps).
Proof.
  assert (Fa : forall (R : arr V -> arr V -> Prop) xs ys, (forall a, R a a) -> Forall2 R xs ys -> match traverse (fill V xs) ps, traverse (fill V ys) ps with Some es, Some es' => Forall2 (akin R) es es' | None, None => True | _, _ => False end).
  { intros R xs ys Rr H. induction ps as [|p ps' IH]; cbn [traverse]; [constructor|]. pose proof (fill_akin R xs ys Rr H p) as Q. destruct (fill V xs p), (fill V ys p); cbn [akin_opt] in Q; try contradiction; [|exact Logic.I].
    destruct (traverse (fill V xs) ps'), (traverse (fill V ys) ps'); try contradiction; [constructor; assumption|exact Logic.I]. }
  assert (Bl : forall es es', Forall2 (akin same_shape) es es' -> both likes (rmap (build V num lib) es) (rmap (build V num lib) es')).
  { induction 1 as [|e e' es es' H Hs IH]; cbn [rmap]; [constructor|]. pose proof (proj1 build_like e e' H) as Q. destruct (build V num lib e), (build V num lib e'); cbn [both bindr] in *; try contradiction; try exact Logic.I.
    destruct (rmap (build V num lib) es), (rmap (build V num lib) es'); cbn [both bindr] in *; try contradiction; try exact Logic.I. constructor; assumption. }
  assert (Ash : forall e e', akin same_arr e e' -> akin same_shape e e').
  { assert (X : (forall e e', akin same_arr e e' -> akin same_shape e e') /\ (forall es es', akins same_arr es es' -> akins same_shape es es')); [|exact (proj1 X)].
    apply (akin_both same_arr (fun e e' _ => akin same_shape e e') (fun es es' _ => akins same_shape es es')); intros; constructor; auto. match goal with H : same_arr _ _ |- _ => exact (proj1 H) end. }
  assert (Ra : forall a : arr V, same_arr a a) by (intros a; split; reflexivity).
  split; [|split].
  - intros xs ys H. unfold program. pose proof (Fa same_shape xs ys (fun a => eq_refl) H) as Q. destruct (traverse (fill V xs) ps) as [es|], (traverse (fill V ys) ps) as [es'|]; try contradiction; [|exact Logic.I].
    pose proof (Bl es es' Q) as B. destruct (rmap (build V num lib) es), (rmap (build V num lib) es'); cbn [both bindr is_node leaves] in *; try contradiction; try exact Logic.I. split; [reflexivity|apply likes_alike; exact B].
  - intros xs ys H. unfold program. pose proof (Fa same_arr xs ys Ra H) as Q. destruct (traverse (fill V xs) ps) as [es|], (traverse (fill V ys) ps) as [es'|]; try contradiction; [|exact Logic.I].
    assert (G : both (Forall2 (fun v w => forall env, same (leaf_at V env v) (leaf_at V env w))) (rmap (build V num lib) es) (rmap (build V num lib) es')).
    { clear Fa Bl. induction Q as [|e e' es es' He Q IH]; cbn [rmap]; [constructor|]. pose proof (proj1 build_like e e' (Ash _ _ He)) as B. destruct (build V num lib e) as [v| | | | |] eqn:Ev, (build V num lib e') as [w| | | | |] eqn:Ew; cbn [both bindr] in *; try contradiction; try exact Logic.I.
      destruct (rmap (build V num lib) es), (rmap (build V num lib) es'); cbn [both bindr] in *; try contradiction; try exact Logic.I. constructor; [|exact IH]. intros env.
      pose proof (pointwise V num lib lawfulness e v Ev env) as P. pose proof (pointwise V num lib lawfulness e' w Ew env) as P'. pose proof (proj1 (sem_akin env) e e' He) as S.
      assert (X : same (value_at V num lib none env v) (value_at V num lib none env w)) by (eapply same_trans; [exact P|]; eapply same_trans; [exact S|]; apply same_sym; exact P').
      destruct B; try exact Logic.I; exact X. }
    destruct (rmap (build V num lib) es), (rmap (build V num lib) es'); cbn [both bindr leaves] in *; try contradiction; try exact Logic.I. exact G.
  - intros xs t H. unfold program in H. destruct (traverse (fill V xs) ps) as [es|]; [|discriminate H]. destruct (rmap (build V num lib) es) as [vs| | | | |] eqn:E; try discriminate H. injection H as <-. cbn [leaves]. apply rmap_spec in E.
    clear -E lawfulness. induction E as [|e v es vs H E IH]; constructor; [eapply built_regular; exact H|exact IH].
Qed.
End Expr.
