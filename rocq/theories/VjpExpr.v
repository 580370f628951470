(** Programs on arrays with named dimensions are functions that [vjp] is right about. *)
From Coq Require Import List Bool Arith ZArith Lia.
From Verif Require Import ArrModel ArrSpec ArrProofs ArrNames ArrBind ArrUnbind NopModel NopSpec NopProofs NopLaws FunModel FunSpec FunProofs FunLaws FunTrans FunExpr VjpModel VjpSpec VjpProofs.
Import ListNotations.

Section Expr.
Variable V : Type.
Variable num : nat -> V.
Variable lib : nat -> list (arr V) -> option (list (arr V)).
Hypothesis lawfulness : lawful lib.
Notation none := (fun _ : nat => @None (arr V)).

Lemma good_named v : good V v -> named V v.
Proof.
  intros [C R]. destruct v as [a|a dims| | |]; try exact Logic.I. destruct C as [n Hn]. apply regular_neat in R. destruct (name_indexed V a dims n (proj1 R) Hn) as (d & Hd). exists n, d. exact Hd.
Qed.
Lemma named_good v : evaluated v -> regular V v -> named V v -> good V v.
Proof.
  intros E R Nv. split; [|exact R]. destruct v as [a|a dims| | |]; try contradiction; [exact Logic.I|]. destruct Nv as (n & d & i & Hi & _). exists n. eapply nth_error_In. exact Hi.
Qed.
Lemma good_tidy v : good V v -> tidy V none v.
Proof. intros G. apply regular_tidy; [apply good_evaluated; exact G|apply G]. Qed.

Lemma index_goods v key w : good V v -> index_val V v key = Ok w -> good V w.
Proof.
  intros G H. destruct (index_leaf V num v key w (good_evaluated V v G) (proj2 G) (good_named v G) H) as (Ew & Rw & _). split; [|exact Rw].
  destruct v as [a|a dims| | |]; try (destruct (proj1 G)); cbn [index_val] in H.
  - unfold getitem in H. destruct key as [|k key]; [injection H as <-; exact Logic.I|]. set (ks := k :: key) in *. destruct (desugar (shape a) ks) as [[nsh nkey]| | | | |] eqn:Ed; try discriminate H.
    destruct (existsb is_name ks) eqn:En.
    + assert (Nk : exists n, In (KName n) nkey).
      { apply existsb_exists in En. destruct En as (q & Hq & Hn). destruct q as [| | | |n]; try discriminate Hn. destruct (desugar_counts _ _ _ Ed) as [C1 C2]. exists n. apply (desugar_names _ _ _ _ Ed C1 C2). exact Hq. }
      destruct (forallb is_name ks).
      * destruct (add_names nsh nkey []); try discriminate H. injection H as <-. exact Nk.
      * unfold partial_eval in H. cbn [reshape shape] in H. destruct (add_names nsh nkey []) as [[|p sized]| | | | |]; try discriminate H; [injection H as <-; exact Nk|].
        match type of H with context [index_axes ?x ?y ?z] => destruct (index_axes x y z) as [[s g]|]; [|discriminate H] end. injection H as <-. exists (fst p). left. reflexivity.
    + destruct (index_arr (fun _ => 0) (reshape a nsh) nkey); [|discriminate H]. injection H as <-. exact Logic.I.
  - destruct (add_names (shape a) dims []) as [m| | | | |]; try discriminate H. cbn [bindr] in H. destruct (desugar (eager_shape (shape a) dims) key) as [[nsh nkey]| | | | |]; try discriminate H. cbn [bindr fst snd] in H.
    destruct (add_names nsh nkey m) as [[|p sized]| | | | |]; try discriminate H; cbn [bindr] in H; [injection H as <-; contradiction|].
    match type of H with bindr ?x _ = _ => destruct x as [[|y [|z l]]| | | | |] eqn:E end; try discriminate H. cbn [bindr] in H. injection H as <-.
    unfold vmapped in E. match type of E with match ?x with _ => _ end = _ => destruct x as [outs|]; [|discriminate E] end. injection E as E.
    destruct (combine (seq 0 (length outs)) outs) as [|q l0]; [discriminate E|]. cbn [map] in E. injection E as <- _. exists (fst p). left. reflexivity.
Qed.

Lemma run_same f args : Forall (good V) args -> run_op V num lib f args = run_op V num (fun _ => lib f) 0 args.
Proof.
  intros G. unfold run_op. destruct (sizes_all V args []) as [sized| | | | |]; try reflexivity. cbn [bindr].
  assert (E : forall h, filter (fun x => negb (fv_eqb x (Fn h))) (flat_map (fvs V) args) = flat_map (fvs V) args).
  { intros h. assert (A : forall x, In x (flat_map (fvs V) args) -> fv_eqb x (Fn h) = false).
    { intros x Hx. apply in_flat_map in Hx. destruct Hx as (v & Hv & Hx). rewrite Forall_forall in G. destruct (G v Hv) as [C _]. destruct v as [a|a dims| | |]; try contradiction. cbn [fvs] in Hx. apply in_map_iff in Hx. destruct Hx as (n & <- & _). reflexivity. }
    revert A. generalize (flat_map (fvs V) args). induction l as [|x l IH]; intros A; [reflexivity|]. cbn [filter]. rewrite (A x (or_introl eq_refl)). cbn [negb]. rewrite IH; [reflexivity|]. intros y Hy. apply A. right. exact Hy. }
  rewrite !E. reflexivity.
Qed.
Lemma apply_good f i args w : Forall (good V) args -> apply_op V num lib f i args = Ok w -> good V w.
Proof.
  intros G H. unfold apply_op in H. rewrite (run_same f args G) in H.
  assert (Cs : Forall (concrete V) args) by (eapply Forall_impl; [|exact G]; intros v Hv; apply Hv). pose proof (goods_regular V args G) as Rg.
  pose proof (run_concrete V num (lib f) args Cs Rg) as Nn. destruct (run_op V num (fun _ => lib f) 0 args) as [[outs|]| | | | |] eqn:E; try discriminate H; [|congruence]. cbn [bindr] in H.
  destruct (nth_error outs i) as [v|] eqn:Hi; [|discriminate H]. injection H as <-.
  assert (Ev : Forall evaluated args) by (eapply Forall_impl; [|exact G]; apply good_evaluated).
  destruct (run_law V num (lib f) args outs (proj1 lawfulness f) (proj2 lawfulness f) Ev Rg E) as [F _]. rewrite Forall_forall in F. destruct (F v (nth_error_In _ _ Hi)) as (A & B & C). apply named_good; assumption.
Qed.
Lemma values_at rho vs ws : Forall (good V) vs -> Forall (good V) ws -> Forall2 (fun v w => same (leaf_at V rho v) (leaf_at V rho w)) vs ws ->
  related same_arr (values V num lib none rho vs) (values V num lib none rho ws).
Proof.
  intros Gv Gw F. induction F as [|v w vs ws H F IH]; [constructor|]. apply Forall_cons_iff in Gv. apply Forall_cons_iff in Gw. destruct Gv as [Gv Gvs], Gw as [Gw Gws]. cbn [values].
  assert (Q : forall u, good V u -> value_at V num lib none rho u = leaf_at V rho u) by (intros u [C _]; destruct u; try contradiction; reflexivity). rewrite (Q v Gv), (Q w Gw).
  specialize (IH Gvs Gws). destruct (leaf_at V rho v), (leaf_at V rho w); try contradiction; [|exact Logic.I]. destruct (values V num lib none rho vs), (values V num lib none rho ws); cbn [related] in *; try contradiction; [constructor; assumption|exact Logic.I].
Qed.
Lemma apply_at f i vs ws v w rho : Forall (good V) vs -> Forall (good V) ws -> Forall2 (fun v w => same (leaf_at V rho v) (leaf_at V rho w)) vs ws ->
  apply_op V num lib f i vs = Ok v -> apply_op V num lib f i ws = Ok w -> same (leaf_at V rho v) (leaf_at V rho w).
Proof.
  intros Gv Gw F Ev Ew. assert (T : forall us, Forall (good V) us -> Forall (tidy V none) us) by (intros us; apply Forall_impl; apply good_tidy).
  destruct (apply_op_law V num lib none lawfulness f i vs v (T vs Gv) Ev) as [_ M1]. destruct (apply_op_law V num lib none lawfulness f i ws w (T ws Gw) Ew) as [_ M2].
  specialize (M1 rho). specialize (M2 rho). assert (Q : forall u, good V u -> value_at V num lib none rho u = leaf_at V rho u) by (intros u [C _]; destruct u; try contradiction; reflexivity).
  rewrite (Q v (apply_good f i vs v Gv Ev)) in M1. rewrite (Q w (apply_good f i ws w Gw Ew)) in M2. eapply same_trans; [exact M1|]. eapply same_trans; [|apply same_sym; exact M2].
  apply call_related; [exact lawfulness|]. apply values_at; assumption.
Qed.

Lemma nprog_ind' (P : nprog V -> Prop) : (forall k, P (NArg V k)) -> (forall a, P (NArr V a)) -> (forall p key, P p -> P (NGet V p key)) -> (forall f i ps, Forall P ps -> P (NOp V f i ps)) -> forall p, P p.
Proof. intros H1 H2 H3 H4. fix IH 1. intros [k|a|p key|f i ps]; [apply H1|apply H2|apply H3, IH|apply H4]. induction ps as [|p ps IHs]; constructor; [apply IH|exact IHs]. Qed.
Lemma run_op_eq vs f i ps : run V num lib vs (NOp V f i ps) = bindr (rmap (run V num lib vs) ps) (apply_op V num lib f i).
Proof. cbn [run]. f_equal. induction ps as [|p ps IH]; [reflexivity|]. cbn [rmap]. rewrite <- IH. reflexivity. Qed.

Lemma run_good vs : Forall (good V) vs -> forall p v, run V num lib vs p = Ok v -> good V v.
Proof.
  intros G. induction p as [k|a|p key IH|f i ps IH] using nprog_ind'; intros v H.
  - cbn [run] in H. destruct (nth_error vs k) as [u|] eqn:E; [|discriminate H]. injection H as <-. rewrite Forall_forall in G. apply G. eapply nth_error_In. exact E.
  - injection H as <-. split; exact Logic.I.
  - cbn [run] in H. destruct (run V num lib vs p) as [u| | | | |]; try discriminate H. cbn [bindr] in H. eapply index_goods; [apply IH; reflexivity|exact H].
  - rewrite run_op_eq in H. destruct (rmap (run V num lib vs) ps) as [us| | | | |] eqn:E; try discriminate H. cbn [bindr] in H. eapply apply_good; [|exact H]. apply rmap_spec in E. clear -E IH.
    induction E as [|p u ps us Hp E IHE]; constructor; apply Forall_cons_iff in IH; [apply IH; exact Hp|apply IHE, IH].
Qed.
Lemma runs_good vs ps us : Forall (good V) vs -> rmap (run V num lib vs) ps = Ok us -> Forall (good V) us.
Proof. intros G H. apply rmap_spec in H. induction H as [|p u ps us Hp H IH]; constructor; [exact (run_good vs G p u Hp)|exact IH]. Qed.
Lemma rmap_both {A B} (R : B -> B -> Prop) (f g : A -> res B) ps : Forall (fun p => both R (f p) (g p)) ps -> both (Forall2 R) (rmap f ps) (rmap g ps).
Proof.
  induction 1 as [|p ps H F IH]; cbn [rmap]; [constructor|]. destruct (f p), (g p); cbn [both bindr] in *; try contradiction; try exact Logic.I.
  destruct (rmap f ps), (rmap g ps); cbn [both bindr] in *; try contradiction; try exact Logic.I. constructor; assumption.
Qed.
Lemma likes_of vs ws : Forall2 (like V) vs ws -> likes V vs ws.
Proof. induction 1; constructor; assumption. Qed.
Lemma run_shape vs ws : Forall2 (like V) vs ws -> forall p, both (like V) (run V num lib vs p) (run V num lib ws p).
Proof.
  intros L. induction p as [k|a|p key IH|f i ps IH] using nprog_ind'.
  - cbn [run]. revert k. induction L as [|v w vs ws H L IHL]; intros [|k]; cbn [nth_error]; try exact Logic.I; [exact H|apply IHL].
  - cbn [run both]. constructor. reflexivity.
  - cbn [run]. destruct (run V num lib vs p), (run V num lib ws p); cbn [both bindr] in *; try contradiction; try exact Logic.I. apply index_like. exact IH.
  - rewrite !run_op_eq. pose proof (rmap_both (like V) _ _ ps IH) as Q. destruct (rmap (run V num lib vs) ps), (rmap (run V num lib ws) ps); cbn [both bindr] in *; try contradiction; try exact Logic.I. apply apply_like; [exact lawfulness|apply likes_of; exact Q].
Qed.
Lemma run_at vs ws rho : Forall (good V) vs -> Forall (good V) ws -> Forall2 (fun v w => same (leaf_at V rho v) (leaf_at V rho w)) vs ws ->
  forall p v w, run V num lib vs p = Ok v -> run V num lib ws p = Ok w -> same (leaf_at V rho v) (leaf_at V rho w).
Proof.
  intros Gv Gw F. induction p as [k|a|p key IH|f i ps IH] using nprog_ind'; intros v w Hv Hw.
  - cbn [run] in *. revert k Hv Hw. clear Gv Gw. induction F as [|x y vs ws H F IHF]; intros [|k] Hv Hw; cbn [nth_error] in *; try discriminate Hv; [injection Hv as <-; injection Hw as <-; exact H|]. eapply IHF; eassumption.
  - injection Hv as <-. injection Hw as <-. apply same_refl.
  - cbn [run] in *. destruct (run V num lib vs p) as [u| | | | |] eqn:Eu; try discriminate Hv. destruct (run V num lib ws p) as [u'| | | | |] eqn:Eu'; try discriminate Hw. cbn [bindr] in Hv, Hw.
    pose proof (run_good vs Gv p u Eu) as Gu. pose proof (run_good ws Gw p u' Eu') as Gu'. specialize (IH u u' eq_refl eq_refl).
    destruct (index_leaf V num u key v (good_evaluated V u Gu) (proj2 Gu) (good_named u Gu) Hv) as (_ & _ & M1). destruct (index_leaf V num u' key w (good_evaluated V u' Gu') (proj2 Gu') (good_named u' Gu') Hw) as (_ & _ & M2).
    eapply same_trans; [apply M1|]. eapply same_trans; [|apply same_sym, M2]. destruct (leaf_at V rho u), (leaf_at V rho u'); try contradiction; [apply index_full_same; exact IH|exact Logic.I].
  - rewrite run_op_eq in Hv, Hw. destruct (rmap (run V num lib vs) ps) as [us| | | | |] eqn:Eu; try discriminate Hv. destruct (rmap (run V num lib ws) ps) as [us'| | | | |] eqn:Eu'; try discriminate Hw. cbn [bindr] in Hv, Hw.
    eapply apply_at; [eapply runs_good; [exact Gv|exact Eu]|eapply runs_good; [exact Gw|exact Eu']| |exact Hv|exact Hw]. apply rmap_spec in Eu. apply rmap_spec in Eu'. clear -IH Eu Eu'. revert us' Eu'.
    induction Eu as [|p u ps us Hp Eu IHE]; intros us' Eu'; inversion Eu' as [|? u' ? us'' Hp' Eu'']; subst; constructor; apply Forall_cons_iff in IH; [apply IH; assumption|apply IHE; [apply IH|exact Eu'']].
Qed.

Theorem nprogram_nice node ps : nice V (nprogram V num lib node ps).
Proof.
  constructor.
  - intros vs ws Gv Gw A. assert (L : Forall2 (like V) vs ws) by (clear -Gv A; induction A as [|v w vs ws H A IH]; constructor; apply Forall_cons_iff in Gv; [apply alike_like; [apply Gv|exact H]|apply IH, Gv]).
    unfold nprogram. pose proof (rmap_both (like V) (run V num lib vs) (run V num lib ws) ps ltac:(apply Forall_forall; intros p _; apply run_shape; exact L)) as Q.
    destruct (rmap (run V num lib vs) ps), (rmap (run V num lib ws) ps); cbn [both bindr is_node leaves] in *; try contradiction; try exact Logic.I. split; [reflexivity|]. apply likes_alike, likes_of. exact Q.
  - intros vs ws t u rho Gv Gw F Et Eu. unfold nprogram in *. destruct (rmap (run V num lib vs) ps) as [l| | | | |] eqn:E1; try discriminate Et. destruct (rmap (run V num lib ws) ps) as [l'| | | | |] eqn:E2; try discriminate Eu.
    cbn [bindr] in Et, Eu. injection Et as <-. injection Eu as <-. cbn [is_node leaves]. split; [reflexivity|]. apply rmap_spec in E1. apply rmap_spec in E2. revert l' E2. clear -lawfulness Gv Gw F E1.
    induction E1 as [|p v ps l Hp E1 IH]; intros l' E2; inversion E2 as [|? w ? l'' Hp' E2']; subst; constructor; [exact (run_at vs ws rho Gv Gw F p v w Hp Hp')|apply IH; exact E2'].
  - intros vs t G E. unfold nprogram in E. destruct (rmap (run V num lib vs) ps) as [l| | | | |] eqn:E1; try discriminate E. injection E as <-. cbn [leaves]. exact (runs_good vs ps l G E1).
Qed.
End Expr.
