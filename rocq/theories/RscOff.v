(** Calls without [PythonRepl], and with it when it is not used. *)
From Coq Require Import String List Bool Arith Lia.
From Verif Require Import RscModel RscSpec RscProofs.
Import ListNotations.

Section Off.
Variable V : Type.
Variable ctx : nat -> list nat.
Notation ns := (ns V).
Notation world := (world V).
Notation means := (means V ctx).
Notation means_all := (means_all V ctx).
Notation eqn := (eqn V).
Notation keeps := (keeps V).

Lemma means_app es es' c outer : means_all (es ++ es') c outer =
  let '(o, c1, o1) := means_all es c outer in let '(os, c2, o2) := means_all es' c1 o1 in (o ++ os, c2, o2).
Proof.
  revert c outer. induction es as [|e es IH]; intros c outer.
  - cbn [app]. change (means_all [] c outer) with (@nil (obs V), c, outer). cbv beta iota. destruct (means_all es' c outer) as [[a b] d]. reflexivity.
  - cbn [app]. rewrite !means_cons. destruct (means e c outer) as [[o1 c1] u1]. rewrite IH. destruct (means_all es c1 u1) as [[o2 c2] u2].
    destruct (means_all es' c2 u2) as [[o3 c3] u3]. now rewrite app_assoc.
Qed.
Lemma means_one e c outer : means_all [e] c outer = means e c outer.
Proof. rewrite means_cons. destruct (means e c outer) as [[o c1] u1]. change (means_all [] c1 u1) with (@nil (obs V), c1, u1). cbv beta iota. now rewrite app_nil_r. Qed.

Definition inv (n m l1 l2 : nat) (fr : frame) (w : world) (c : option (call V)) (outer : nat -> ns) : Prop :=
  ready V ctx n m w /\ n <= l1 <= nns V w /\ m <= l2 <= nch V w /\ (forall i, i < n -> eqn (spaces V w i) (outer i)) /\ ftool fr = None /\
  match c with
  | None => fenv fr = None
  | Some c => exists e a, fenv fr = Some e /\ l2 <= e < nch V w /\ l1 <= a < nns V w /\ ctempl V c < m /\ eqn (spaces V w a) (cargs V c) /\
      csess V c = None /\ chains V w e = a :: ctx (ctempl V c)
  end.
Fixpoint exists_all (n m : nat) (e : ev V) : Prop :=
  match e with
  | Assign _ i _ _ => i < n
  | Call _ t _ es => t < m /\ (fix all es := match es with [] => True | e :: es' => exists_all n m e /\ all es' end) es
  | _ => True
  end.
Definition good (n m : nat) (e : ev V) : Prop := forall l1 l2 fr w c outer, inv n m l1 l2 fr w c outer ->
  exists w' c' o', step V Off e fr w = (fst (fst (means_all (erase V e) c outer)), fr, w') /\ snd (fst (means_all (erase V e) c outer)) = c' /\
    snd (means_all (erase V e) c outer) = o' /\ inv n m l1 l2 fr w' c' o' /\ keeps n l1 l2 0 w w' /\ c' = c.
Definition good_all (n m : nat) (es : list (ev V)) : Prop := forall l1 l2 fr w c outer, inv n m l1 l2 fr w c outer ->
  exists w' c' o', steps V Off es fr w = (fst (fst (means_all (flat_map (erase V) es) c outer)), fr, w') /\ snd (fst (means_all (flat_map (erase V) es) c outer)) = c' /\
    snd (means_all (flat_map (erase V) es) c outer) = o' /\ inv n m l1 l2 fr w' c' o' /\ keeps n l1 l2 0 w w' /\ c' = c.
Lemma good_list n m es : Forall (good n m) es -> good_all n m es.
Proof.
  induction 1 as [|e es He _ IH]; intros l1 l2 fr w c outer I.
  - exists w, c, outer. repeat (split; [reflexivity || assumption || apply keeps_refl|]). reflexivity.
  - destruct (He l1 l2 fr w c outer I) as [w1 [c1 [o1 [H1 [H2 [H3 [H4 [H5 H6]]]]]]]]. destruct (IH l1 l2 fr w1 c1 o1 H4) as [w2 [c2 [o2 [K1 [K2 [K3 [K4 [K5 K6]]]]]]]].
    cbn [flat_map]. rewrite steps_cons, means_app, H1. destruct (means_all (erase V e) c outer) as [[ob cc] oo]. cbn [fst snd] in *. subst cc oo. rewrite K1.
    destruct (means_all (flat_map (erase V) es) c1 o1) as [[ob2 cc] oo]. cbn [fst snd] in *. subst cc oo. exists w2, c2, o2.
    repeat (split; [reflexivity || assumption || exact (keeps_trans _ _ _ _ _ _ _ _ H5 K5)|]). congruence.
Qed.
Lemma keeps_off n m l1 l2 fr w w' c outer outer' : inv n m l1 l2 fr w c outer -> keeps n (nns V w) (nch V w) 0 w w' ->
  (forall i, i < n -> eqn (spaces V w' i) (outer' i)) -> inv n m l1 l2 fr w' c outer' /\ keeps n l1 l2 0 w w'.
Proof.
  intros [R [L1 [L2 [O [T C]]]]] [K1 [K2 [K3 [K4 [K5 K6]]]]] O'. destruct R as [R1 [R2 [R3 R4]]]. split.
  - split; [|split; [lia|split; [lia|split; [assumption|split; [assumption|]]]]].
    + split; [lia|]. split; [lia|]. split; [intros t Ht; rewrite K5 by lia; now apply R3|assumption].
    + destruct c as [c|]; [|assumption]. destruct C as [e [a [E1 [E2 [E3 [E4 [E5 [E6 E7]]]]]]]]. exists e, a.
      split; [assumption|]. split; [lia|]. split; [lia|]. split; [assumption|]. split; [rewrite K4 by lia; assumption|]. split; [assumption|]. rewrite K5 by lia. assumption.
  - split; [lia|]. split; [lia|]. split; [lia|]. split; [intros i Hi; apply K4; lia|]. split; intros; [apply K5|apply K6]; lia.
Qed.
Lemma good_call n m t args es : t < m -> good_all n m es -> good n m (Call V t args es).
Proof.
  intros Ht H l1 l2 fr w c outer I. cbn [erase]. rewrite means_one, step_call, means_call. assert (I' := I). destruct I' as [R [L1 [L2 [O [T C]]]]]. destruct R as [R1 [R2 [R3 R4]]].
  unfold enter, new_space, new_chain. cbn [nns nch ncell spaces chains cells].
  match goal with |- context [steps V Off es ?f ?w0] => set (fr1 := f); set (w1 := w0) end.
  assert (I1 : inv n m (nns V w) (nch V w) fr1 w1 (Some (InCall V t args None)) outer).
  { split; [|split; [cbn; lia|split; [cbn; lia|split; [|split; [reflexivity|]]]]].
    - split; [cbn; lia|]. split; [cbn; lia|]. split; [|assumption]. intros u Hu. cbn [chains w1]. rewrite put_ne by lia. now apply R3.
    - intros i Hi. cbn [spaces w1]. rewrite put_ne by lia. now apply O.
    - exists (nch V w), (nns V w). cbn [fr1 w1 fenv nns nch spaces chains ctempl cargs csess]. split; [reflexivity|]. split; [lia|]. split; [lia|]. split; [assumption|].
      rewrite !put_eq. split; [intros k; reflexivity|]. split; [reflexivity|]. f_equal. now apply R3. }
  assert (K1 : keeps n (nns V w) (nch V w) 0 w w1).
  { unfold RscProofs.keeps, w1. cbn [nns nch ncell spaces chains cells]. split; [lia|]. split; [lia|]. split; [lia|]. split; [intros i Hi; apply put_ne; lia|]. split; [intros u Hu; apply put_ne; lia|reflexivity]. }
  destruct (H _ _ fr1 w1 _ outer I1) as [w2 [c2 [o2 [S1 [S2 [S3 [S4 [S5 S6]]]]]]]]. rewrite S1.
  destruct (means_all (flat_map (erase V) es) (Some (InCall V t args None)) outer) as [[ob cc] oo]. cbn [fst snd] in *. subst cc oo.
  destruct (keeps_off n m l1 l2 fr w w2 c outer o2 I (keeps_trans _ _ _ _ _ _ _ _ K1 S5)) as [J1 J2]; [apply S4|].
  exists w2, c, o2. repeat (split; [reflexivity || assumption|]). reflexivity.
Qed.
Lemma good_leaf n m e : (forall t args es, e <> Call V t args es) -> exists_all n m e -> good n m e.
Proof.
  intros NC W l1 l2 fr w c outer I. assert (I' := I). destruct I' as [R [L1 [L2 [O [T C]]]]]. destruct e as [|f|k|i k v|t fs|t args es]; [| | | | |exfalso; eapply NC; reflexivity]; cbn [erase].
  - cbn [step]. unfold round_, collect. exists w, c, outer. change (means_all [] c outer) with (@nil (obs V), c, outer). cbn [fst snd].
    destruct (fenv fr) eqn:E; [|repeat (split; [reflexivity || assumption || apply keeps_refl|]); reflexivity].
    split; [destruct fr as [f1 f2 f3]; cbn [fenv fcell ftool] in *; subst; reflexivity|]. repeat (split; [reflexivity || assumption || apply keeps_refl|]). reflexivity.
  - cbn [step]. unfold run_tool. rewrite T. exists w, c, outer. repeat (split; [reflexivity || assumption || apply keeps_refl|]). reflexivity.
  - cbn [step]. unfold look. rewrite means_one. exists w, c, outer. destruct c as [c|].
    + destruct C as [e [a [E1 [E2 [E3 [E4 [E5 [E6 E7]]]]]]]]. rewrite E1. cbn [RscSpec.means fst snd].
      split; [|repeat (split; [reflexivity || assumption || apply keeps_refl|]); reflexivity]. do 4 f_equal. unfold sees. rewrite E6, E7. cbn [chain_get].
      unfold lexical, over. rewrite (E5 k). destruct (cargs V c k); [reflexivity|]. apply (chain_layers _ _ _ n); [assumption|]. intros i Hi.
      destruct R as [_ [_ [_ R4]]]. exact (R4 _ _ E4 Hi).
    + rewrite C. repeat (split; [reflexivity || assumption || apply keeps_refl|]). reflexivity.
  - cbn [exists_all] in W. rewrite means_one. assert (X : means (Assign V i k v) c outer = ([], c, put outer i (bind V (outer i) k v))) by (destruct c; reflexivity).
    rewrite X. cbn [step fst snd].
    assert (K : keeps n (nns V w) (nch V w) 0 w (set_space V i (bind V (spaces V w i) k v) w)).
    { unfold RscProofs.keeps. cbn [nns nch ncell spaces chains cells set_space]. split; [lia|]. split; [lia|]. split; [lia|]. split; [intros j Hj; apply put_ne; lia|]. split; reflexivity. }
    destruct (keeps_off n m l1 l2 fr w _ c outer (put outer i (bind V (outer i) k v)) I K) as [J1 J2].
    { intros j Hj k'. cbn [spaces set_space]. destruct (Nat.eq_dec j i) as [->|Ne]; [rewrite !put_eq; unfold bind; destruct (String.eqb k' k); [reflexivity|now apply O]|].
      rewrite !put_ne by assumption. now apply O. }
    eexists _, _, _. repeat (split; [reflexivity || eassumption|]). reflexivity.
  - cbn [step]. unfold tools, collect. exists w, c, outer. repeat (split; [reflexivity || assumption || apply keeps_refl|]). reflexivity.
Qed.
Lemma good_any n m : forall e, exists_all n m e -> good n m e.
Proof.
  fix IH 1. intros e W. destruct e as [|f|k|i k v|t fs|t args es]; try (apply good_leaf; [discriminate|exact W]). destruct W as [W1 W2].
  apply good_call; [exact W1|]. apply good_list. revert W2. induction es as [|e es IHes]; intros W2; constructor; [apply IH, W2|apply IHes, W2].
Qed.

Lemma wf_exists n m : forall e a, wf V n m a e -> exists_all n m e.
Proof.
  fix IH 1. intros e a W. destruct e as [|f|k|i k v|t fs|t args es]; try exact Logic.I; [exact W|]. change (t < m /\ wf_all V n m (Some false) es) in W.
  destruct W as [W1 W2]. split; [exact W1|]. revert W2. generalize (Some false). induction es as [|e es IHes]; intros b W2; [exact Logic.I|].
  change (wf V n m b e /\ wf_all V n m (after_ev V e b) es) in W2. destruct W2 as [W3 W4]. split; [exact (IH e b W3)|exact (IHes _ W4)].
Qed.

(** Without [PythonRepl] *)
Theorem off_law n m es w : ready V ctx n m w -> wf_all V n m None es ->
  exists w', steps V Off es outside w = (fst (fst (means_all (flat_map (erase V) es) None (spaces V w))), outside, w').
Proof.
  intros R W. assert (G : Forall (good n m) es).
  { revert W. generalize (@None bool). induction es as [|e es IH]; intros a W; constructor.
    - apply good_any. exact (wf_exists n m e a (proj1 W)).
    - apply (IH (after_ev V e a)). exact (proj2 W). }
  destruct (good_list n m es G n m outside w None (spaces V w)) as [w' [c [o [H _]]]]; [|eauto].
  assert (R' := R). destruct R' as [R1 [R2 R3]]. split; [assumption|]. split; [lia|]. split; [lia|]. split; [intros i _ k; reflexivity|]. split; reflexivity.
Qed.

(** A session that is not used *)
Definition unused (outer : nat -> ns) (c : option (call V)) : Prop := match c with Some c => match csess V c with Some s => eqn s (lexical V ctx outer c) | None => True end | None => True end.
Definition forget (c : option (call V)) : option (call V) := match c with Some c => Some (InCall V (ctempl V c) (cargs V c) None) | None => None end.
Definition same (es es' : list (ev V)) : Prop := forall c outer, unused outer c ->
  exists c1, means_all es c outer = (fst (fst (means_all es' (forget c) outer)), c1, outer) /\ unused outer c1 /\ means_all es' (forget c) outer = (fst (fst (means_all es' (forget c) outer)), forget c1, outer).
Lemma same_nil : same [] [].
Proof. intros c outer U. exists c. split; [reflexivity|]. split; [assumption|reflexivity]. Qed.
Lemma same_app a b a' b' : same a a' -> same b b' -> same (a ++ b) (a' ++ b').
Proof.
  intros A B c outer U. destruct (A c outer U) as [c1 [A1 [A2 A3]]]. destruct (B c1 outer A2) as [c2 [B1 [B2 B3]]].
  exists c2. rewrite !means_app, A1, A3. cbv beta iota. rewrite B1, B3. cbn [fst snd]. auto.
Qed.
Lemma quiet_one : forall e, quiet V e -> same [e] (erase V e).
Proof.
  fix IH 1. intros e Q. destruct e as [|f|k|i k v|t fs|t args es]; try contradiction; cbn [erase]; intros c outer U.
  - rewrite means_one. destruct c as [c|]; cbn [RscSpec.means]; [|exists None; auto].
    exists (Some (with_session V c (started V ctx outer c))). split; [reflexivity|]. split; [|reflexivity]. cbn [unused with_session csess].
    unfold started. cbn [unused] in U. destruct (csess V c) as [s|]; [exact U|intros k; reflexivity].
  - rewrite !means_one. destruct c as [c|]; cbn [RscSpec.means forget]; [|exists None; auto].
    exists (Some c). split; [|split; [exact U|reflexivity]]. cbn [fst]. do 3 f_equal. unfold sees. cbn [csess]. cbn [unused] in U. unfold lexical in *. cbn [cargs ctempl].
    destruct (csess V c) as [s|]; [|reflexivity]. f_equal. unfold over at 1. rewrite (U k). destruct (over V (cargs V c) (layers V outer (ctx (ctempl V c))) k); reflexivity.
  - rewrite !means_one, !means_call. assert (S : same es (flat_map (erase V) es)).
    { cbn [quiet] in Q. revert Q. clear -IH. induction es as [|e es IHes]; intros Q; [apply same_nil|]. destruct Q as [Q1 Q2]. change (e :: es) with ([e] ++ es). cbn [app flat_map].
      change (e :: es) with ([e] ++ es). apply same_app; [exact (IH e Q1)|exact (IHes Q2)]. }
    destruct (S (Some (InCall V t args None)) outer Logic.I) as [c1 [S1 [S2 S3]]]. cbn [forget ctempl cargs] in *. rewrite S1, S3. cbv beta iota. cbn [fst snd]. exists c. auto.
Qed.
Theorem unused_law n m es w : ready V ctx n m w -> wf_all V n m None es -> Forall (quiet V) es ->
  fst (fst (steps V Above es outside w)) = fst (fst (steps V Off es outside w)).
Proof.
  intros R W Q. destruct (scoped V ctx n m es w R W) as [w1 [H1 _]]. destruct (off_law n m es w R W) as [w2 H2]. rewrite H1, H2. cbn [fst].
  assert (S : same es (flat_map (erase V) es)).
  { clear -Q. induction Q as [|e es Qe _ IH]; [apply same_nil|]. cbn [flat_map]. change (e :: es) with ([e] ++ es). apply same_app; [now apply quiet_one|exact IH]. }
  destruct (S None (spaces V w) Logic.I) as [c1 [S1 _]]. rewrite S1. reflexivity.
Qed.

(** Nothing but [Assign] changes namespaces outside of sessions. *)
Definition leaves (i : nat) (k : string) (es : list (ev V)) : Prop := forall c outer, snd (means_all es c outer) i k = outer i k.
Lemma leaves_cons i k e es : leaves i k [e] -> leaves i k es -> leaves i k (e :: es).
Proof.
  intros A B c outer. specialize (A c outer). rewrite means_one in A. rewrite means_cons. destruct (means e c outer) as [[o1 c1] u1]. cbn [snd] in A.
  specialize (B c1 u1). destruct (means_all es c1 u1) as [[o2 c2] u2]. cbn [snd] in *. congruence.
Qed.
Lemma leaves_call i k t args es : leaves i k es -> leaves i k [Call V t args es].
Proof.
  intros S c outer. rewrite means_one, means_call. specialize (S (Some (InCall V t args None)) outer).
  destruct (means_all es (Some (InCall V t args None)) outer) as [[o1 c1] u1]. exact S.
Qed.
Lemma leaves_leaf i k e : (forall t args es, e <> Call V t args es) -> ~ assigns V i k e -> leaves i k [e].
Proof.
  intros NC A c outer. rewrite means_one. destruct e as [|f|k'|j k' v|t fs|t args es]; [| | | | |exfalso; eapply NC; reflexivity].
  - destruct c; reflexivity.
  - destruct c as [c|]; cbn [RscSpec.means]; [|reflexivity]. destruct (csess V c) as [s|]; [|reflexivity]. destruct (in_session V [f] s) as [os s']. reflexivity.
  - destruct c; reflexivity.
  - assert (X : means (Assign V j k' v) c outer = ([], c, put outer j (bind V (outer j) k' v))) by (destruct c; reflexivity). rewrite X. cbn [snd].
    destruct (Nat.eq_dec i j) as [->|N]; [|now rewrite put_ne]. rewrite put_eq. unfold bind. destruct (String.eqb_spec k k') as [->|]; [|reflexivity].
    exfalso. apply A. cbn [assigns]. auto.
  - destruct c as [c|]; cbn [RscSpec.means]; [|reflexivity]. destruct (csess V c) as [s|]; [|reflexivity]. destruct (in_session V fs s) as [os s']. reflexivity.
Qed.
Lemma leaves_one i k : forall e, ~ assigns V i k e -> leaves i k [e].
Proof.
  fix IH 1. intros e A. destruct e as [|f|k'|j k' v|t fs|t args es]; try (apply leaves_leaf; [discriminate|exact A]). apply leaves_call.
  revert A. induction es as [|e es IHes]; intros A; [intros c outer; reflexivity|]. apply leaves_cons.
  - apply IH. intros K. apply A. left. exact K.
  - apply IHes. intros K. apply A. right. exact K.
Qed.
Theorem untouched n m es w w' obs fr i k : ready V ctx n m w -> wf_all V n m None es -> i < n -> Forall (fun e => ~ assigns V i k e) es ->
  steps V Above es outside w = (obs, fr, w') -> spaces V w' i k = spaces V w i k.
Proof.
  intros R W Hi A E. destruct (scoped V ctx n m es w R W) as [w1 [H1 [H2 _]]]. rewrite H1 in E. injection E as _ _ <-. rewrite (H2 i k Hi).
  assert (L : leaves i k es). { clear -A. induction A as [|e es He _ IH]; [intros c outer; reflexivity|]. apply leaves_cons; [now apply leaves_one|exact IH]. }
  apply L.
Qed.
End Off.
