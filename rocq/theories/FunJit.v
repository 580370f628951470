(** Proofs that [jit] has a result. *)
From Coq Require Import List Bool Arith ZArith Lia.
From Verif Require Import ArrModel ArrSpec ArrProofs ArrNames ArrBind ArrUnbind NopModel NopSpec NopProofs FunModel FunSpec FunProofs FunLaws.
Import ListNotations.

Section Jit.
Variable V : Type.
Variable num : nat -> V.
Notation bindj := (@bind_dims_jax V).

Lemma bind_core_arr (a : arr V) dims names r : (forall n, In (KName n) dims -> In n names) -> bind_core a dims names = Ok r -> exists b, r = TArr b.
Proof.
  intros Hn H. unfold bind_core in H. match type of H with (if ?c then _ else _) = _ => destruct c; [|discriminate H] end. match type of H with match ?x with _ => _ end = _ => destruct x as [t| | | | |]; try discriminate H end.
  assert (E : existsb is_name (repeat KAll (length names) ++ map (fun i => nth i dims KAll) (reindex 0 names dims)) = false).
  { apply not_true_is_false. intros X. apply existsb_exists in X. destruct X as (k & Hk & Ek). destruct k; try discriminate Ek. apply in_app_or in Hk. destruct Hk as [Hk|Hk]; [apply repeat_spec in Hk; discriminate Hk|].
    apply in_map_iff in Hk. destruct Hk as (i & Hi & Hr). apply reindex_spec in Hr. destruct Hr as (m & k & Em & Hk & Hb). cbn in Em. subst m. rewrite (nth_error_nth _ _ _ Hk) in Hi. subst k. cbn [bound] in Hb.
    assert (mem n names = true) by (apply mem_In, Hn; eapply nth_error_In; exact Hk). congruence. }
  unfold getitem in H. destruct (repeat KAll (length names) ++ map (fun i => nth i dims KAll) (reindex 0 names dims)) as [|k key]; [injection H as <-; eauto|].
  destruct (desugar (shape t) (k :: key)) as [[nsh nkey]| | | | |]; try discriminate H. rewrite E in H. destruct (index_arr (fun _ => 0) (reshape t nsh) nkey); [|discriminate H]. injection H as <-. eauto.
Qed.

Notation sound_leaf := (sound_leaf V).

Lemma deindex_total v env : sound_leaf v -> leaf_at V env v <> None -> exists m a, stripped V bindj v m a.
Proof.
  intros (C & R & K) He. destruct v as [a|a dims| | |]; try contradiction.
  - exists [], a. split; reflexivity.
  - apply regular_neat in R. pose proof (add_names_spec (shape a) dims []) as S. destruct (add_names (shape a) dims []) as [m| | | | |] eqn:Em; try contradiction.
    2:{ exfalso. destruct S as (n & d & d' & Hd & [H1|H1] & H2); [discriminate H1|]. exact (Hd (K n d d' H1 H2)). }
    destruct (sizes_forall2 V a dims m Em) as (N & _ & F). destruct S as [S _].
    destruct (bind_jax_meaning V a dims (map fst m) (map snd m) env (proj1 R) N K F He) as (r & Hr & St). unfold bind_dims_jax in Hr.
    assert (Hb : exists b, r = TArr b).
    { destruct m as [|p m0] eqn:Emm.
      - exfalso. destruct C as [n Hn]. destruct (name_indexed V a dims n (proj1 R) Hn) as (d & Hd). assert (X : lookup [] n = Some d) by (apply S; right; exact Hd). discriminate X.
      - rewrite <- Emm in *. unfold partial_eval in Hr. rewrite Em in Hr. rewrite Emm in Hr at 1. match type of Hr with context [index_axes ?e ?s dims] => destruct (index_axes e s dims) as [[rest g]|]; [|discriminate Hr] end.
        assert (Hr' : bind_core (reshape (Arr (prod (map snd m) :: rest) (fun idx => match index_axes (assign (fun _ => 0) (map fst m) (unravel (map snd m) (hd 0 idx))) (shape a) dims with Some (_, g) => at_ a (g (tl idx)) | None => at_ a [] end)) (map snd m ++ rest)) (map KName (map fst m) ++ repeat KAll (length rest)) (map fst m) = Ok r).
        { rewrite Emm in Hr |- *. exact Hr. }
        eapply bind_core_arr; [|exact Hr']. intros n Hn. apply in_app_or in Hn. destruct Hn as [Hn|Hn]; [|apply repeat_spec in Hn; discriminate Hn]. apply in_map_iff in Hn. destruct Hn as (n' & E & Hn). injection E as <-. exact Hn. }
    destruct Hb as [b ->]. exists m, b. split; [exact Em|]. unfold deindex. cbn [to_tval]. unfold bind_dims_jax. rewrite Hr.
    assert (Ve : valid env m).
    { intros n d Hl. apply S in Hl. destruct Hl as [Hl|Hl]; [discriminate Hl|]. destruct (Nat.lt_ge_cases (env n) d) as [X|X]; [exact X|exfalso]. apply He. cbn [leaf_at]. unfold index_arr. rewrite (index_axes_out env _ _ _ _ Hl X). reflexivity. }
    pose proof (St env (map env (map fst m)) (sized_within env m N Ve)) as Q. cbn [den] in Q.
    match type of Q with match ?x with _ => _ end => destruct x as [c|]; [|contradiction] end. destruct Q as [Q _].
    rewrite Q, firstn_app, map_length. replace (length m - length m) with 0 by lia. cbn [firstn]. rewrite app_nil_r, firstn_all2 by (rewrite map_length; lia). unfold eq_list. destruct (list_eq_dec Nat.eq_dec (map snd m) (map snd m)); [reflexivity|congruence].
Qed.

Lemma strip_total vs env : Forall sound_leaf vs -> leaves_at V env vs <> None -> exists ms outs, strip V bindj vs ms outs.
Proof.
  induction vs as [|v vs IH]; intros F He; [exists [], []; constructor|]. apply Forall_cons_iff in F. destruct F as [F F']. unfold leaves_at in *. cbn [traverse] in He.
  destruct (leaf_at V env v) as [b|] eqn:E; [|congruence]. destruct (deindex_total v env F ltac:(congruence)) as (m & a & Sv). destruct IH as (ms & outs & Ss); [exact F'|destruct (traverse (leaf_at V env) vs); congruence|].
  exists (m :: ms), (a :: outs). constructor; assumption.
Qed.

Lemma back_total m (a : arr V) : NoDup (map fst m) -> prefixed V 0 (map snd m) a -> exists w, index_val V (VArr V a) (index_expr 0 (map fst m)) = Ok w.
Proof.
  intros N [_ (rest & P)]. cbn [skipn] in P. cbn [index_val index_expr repeat app]. pose proof (unbind_ok V a (map fst m) N) as U. unfold unbind_dims in U. rewrite U; [destruct (map fst m); eauto|]. rewrite P, app_length, !map_length. lia.
Qed.

Theorem jit_total func history args ret env : (forall xs r, func xs = Ok r -> Forall (regular V) (leaves r)) -> settled V func history args ->
  func args = Ok ret -> Forall sound_leaf (leaves ret) -> leaves_at V env (leaves ret) <> None ->
  exists t, fst (jit_arrays V bindj func (jit_calls V bindj func history) args) = Ok t /\ agree V t ret.
Proof.
  intros R St E F He. destruct (strip_total (leaves ret) env F He) as (ms & outs & S). destruct (jit_step V bindj func history args St) as [(ret' & ms' & outs' & E' & S' & J)|[_ J]]; [|destruct (J ret ms outs E S)].
  rewrite E in E'. injection E' as <-. assert (X : exists t, fst (jit_arrays V bindj func (jit_calls V bindj func history) args) = Ok t).
  { rewrite J. cbn [reindex_tree]. unfold tmap2. cbn [is_node leaves]. rewrite Bool.eqb_reflx. specialize (R args ret E).
    assert (G : exists ws, rmap (fun p : val V * list nat => index_val V (fst p) (index_expr 0 (snd p))) (combine (map (VArr V) outs') (map (map fst) ms')) = Ok ws /\ length (map (VArr V) outs') = length (map (map fst) ms')).
    { clear -R S'. induction S' as [|v m a vs ms outs [Em D] S IH]; [exists []; split; reflexivity|]. apply Forall_cons_iff in R. destruct R as [Rv R]. destruct (IH R) as (ws & Ew & Lw).
      destruct (deindex_law V bindj (jax_binds V) v m a Rv Em D) as (_ & N & P & _). destruct (back_total m a N P) as (w & Hw). exists (w :: ws). split; [|cbn; congruence].
      cbn [map combine rmap fst snd]. rewrite Hw. cbn [bindr]. rewrite Ew. reflexivity. }
    destruct G as (ws & -> & ->). rewrite Nat.eqb_refl. cbn. eauto. }
  destruct X as [t Ht]. exists t. split; [exact Ht|]. destruct (jit_sound V num bindj (jax_binds V) func history args t R St Ht) as (ret' & E' & A). rewrite E in E'. injection E' as <-. exact A.
Qed.
End Jit.
