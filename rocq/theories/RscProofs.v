(** Proofs that a call's session is its own. *)
From Coq Require Import String List Bool Arith Lia.
From Verif Require Import RscModel RscSpec.
Import ListNotations.

Section Proofs.
Variable V : Type.
Variable ctx : nat -> list nat.
Notation ns := (ns V).
Notation world := (world V).
Notation means := (means V ctx).
Notation means_all := (means_all V ctx).
Definition eqn (a b : ns) : Prop := forall k, a k = b k.
Lemma put_eq {A} (f : nat -> A) i a : put f i a i = a.
Proof. unfold put. now rewrite Nat.eqb_refl. Qed.
Lemma put_ne {A} (f : nat -> A) i j a : j <> i -> put f i a j = f j.
Proof. intros H. unfold put. destruct (Nat.eqb_spec j i); [contradiction|reflexivity]. Qed.

(** The events of a call *)
Lemma step_call md t args es fr w : step V md (Call V t args es) fr w =
  let (fr1, w1) := enter V md fr t args w in let '(os, _, w2) := steps V md es fr1 w1 in (os, fr, w2).
Proof. reflexivity. Qed.
Lemma means_call t args es c outer : means (Call V t args es) c outer =
  let '(os, _, outer') := means_all es (Some (InCall V t args None)) outer in (os, c, outer').
Proof. destruct c; reflexivity. Qed.
Lemma wf_call n m a t args es : wf V n m a (Call V t args es) <-> t < m /\ wf_all V n m (Some false) es.
Proof. reflexivity. Qed.
Lemma steps_cons md e es fr w : steps V md (e :: es) fr w =
  let '(o, fr1, w1) := step V md e fr w in let '(os, fr2, w2) := steps V md es fr1 w1 in (o ++ os, fr2, w2).
Proof. reflexivity. Qed.
Lemma means_cons e es c outer : means_all (e :: es) c outer =
  let '(o, c1, o1) := means e c outer in let '(os, c2, o2) := means_all es c1 o1 in (o ++ os, c2, o2).
Proof. reflexivity. Qed.

Definition keeps (n l1 l2 l3 : nat) (w w' : world) : Prop :=
  nns V w <= nns V w' /\ nch V w <= nch V w' /\ ncell V w <= ncell V w' /\
  (forall i, n <= i < l1 -> spaces V w' i = spaces V w i) /\ (forall c, c < l2 -> chains V w' c = chains V w c) /\ (forall x, x < l3 -> cells V w' x = cells V w x).
Lemma keeps_refl n l1 l2 l3 w : keeps n l1 l2 l3 w w.
Proof. repeat split; auto. Qed.
Lemma keeps_trans n l1 l2 l3 a b c : keeps n l1 l2 l3 a b -> keeps n l1 l2 l3 b c -> keeps n l1 l2 l3 a c.
Proof.
  intros [A1 [A2 [A3 [A4 [A5 A6]]]]] [B1 [B2 [B3 [B4 [B5 B6]]]]]. split; [lia|]. split; [lia|]. split; [lia|].
  split; [intros; rewrite B4, A4 by assumption; reflexivity|]. split; intros; [rewrite B5, A5 by assumption|rewrite B6, A6 by assumption]; reflexivity.
Qed.

Definition in_call (n m l1 l2 l3 : nat) (fr : frame) (w : world) (c : call V) : Prop :=
  exists e x a, fenv fr = Some e /\ fcell fr = Some x /\ l2 <= e < nch V w /\ l3 <= x < ncell V w /\ l1 <= a < nns V w /\ ctempl V c < m /\
    eqn (spaces V w a) (cargs V c) /\
    match csess V c with
    | None => cells V w x = None /\ ftool fr = None /\ chains V w e = a :: ctx (ctempl V c)
    | Some s => exists i, cells V w x = Some i /\ ftool fr = Some i /\ l1 <= i < nns V w /\ i <> a /\ chains V w e = i :: a :: ctx (ctempl V c) /\ eqn (spaces V w i) s
    end.
Definition inv (n m l1 l2 l3 : nat) (fr : frame) (w : world) (c : option (call V)) (outer : nat -> ns) : Prop :=
  ready V ctx n m w /\ n <= l1 <= nns V w /\ m <= l2 <= nch V w /\ l3 <= ncell V w /\
  (forall i, i < n -> eqn (spaces V w i) (outer i)) /\
  match c with None => fr = outside | Some c => in_call n m l1 l2 l3 fr w c end.
(** Whether [a] describes the call *)
Definition stage (c : option (call V)) (a : option bool) : Prop :=
  match c, a with None, None => True | Some c, Some true => csess V c <> None | Some c, Some false => True | _, _ => False end.

Lemma chain_layers sp outer n l : (forall i, i < n -> eqn (sp i) (outer i)) -> (forall i, In i l -> i < n) -> eqn (chain_get V sp l) (layers V outer l).
Proof.
  intros H L k. induction l as [|i l IH]; [reflexivity|]. cbn [chain_get layers]. unfold over. rewrite (H i (L i (or_introl eq_refl)) k), IH; [reflexivity|].
  intros j Hj. apply L. now right.
Qed.
Lemma run_all_in s fs : forall w ss, eqn (spaces V w s) ss -> Forall (respects V) fs ->
  exists w', run_all V s fs w = (fst (in_session V fs ss), w') /\ eqn (spaces V w' s) (snd (in_session V fs ss)) /\
    nns V w' = nns V w /\ nch V w' = nch V w /\ ncell V w' = ncell V w /\ (forall i, i <> s -> spaces V w' i = spaces V w i) /\
    (forall c, chains V w' c = chains V w c) /\ (forall x, cells V w' x = cells V w x).
Proof.
  induction fs as [|f fs IH]; intros w ss E H; [exists w; repeat split; auto|]. inversion H as [|? ? Hf Hfs]; subst. cbn [run_all in_session]. unfold run_in.
  destruct (Hf _ _ E) as [F1 F2]. destruct (f (spaces V w s)) as [n1 o1]. destruct (f ss) as [n2 o2]. cbn [fst snd] in F1, F2. subst o2.
  destruct (IH (set_space V s n1 w) n2) as [w' [K1 [K2 [K3 [K4 [K5 [K6 [K7 K8]]]]]]]]; [cbn [spaces set_space]; rewrite put_eq; exact F2|assumption|].
  rewrite K1. destruct (in_session V fs n2) as [os s2]. exists w'. cbn [fst snd] in *. split; [reflexivity|]. split; [assumption|].
  cbn [nns nch ncell spaces chains cells set_space] in *. repeat split; auto. intros i Hi. rewrite K6 by assumption. now apply put_ne.
Qed.
Lemma run_all_call n m l1 l2 l3 fr w c s fs outer : inv n m l1 l2 l3 fr w (Some c) outer -> csess V c = Some s -> Forall (respects V) fs ->
  exists i w', ftool fr = Some i /\ (forall x, fcell fr = Some x -> cells V w x = Some i) /\
    run_all V i fs w = (fst (in_session V fs s), w') /\ inv n m l1 l2 l3 fr w' (Some (with_session V c (snd (in_session V fs s)))) outer /\ keeps n l1 l2 l3 w w'.
Proof.
  intros [R [L1 [L2 [L3 [O C]]]]] Hs Hf. destruct C as [e [x [a [E1 [E2 [E3 [E4 [E5 [E6 [E7 E8]]]]]]]]]]. rewrite Hs in E8.
  destruct E8 as [i [I1 [I2 [I3 [I4 [I5 I6]]]]]]. destruct (run_all_in i fs w s I6 Hf) as [w' [K1 [K2 [K3 [K4 [K5 [K6 [K7 K8]]]]]]]].
  exists i, w'. split; [assumption|]. split; [intros y Hy; congruence|]. split; [assumption|]. split.
  - split; [|split; [lia|split; [lia|split; [lia|split]]]].
    + destruct R as [R1 [R2 [R3 R4]]]. split; [lia|]. split; [lia|]. split; [intros t Ht; rewrite K7; auto|assumption].
    + intros j Hj. rewrite K6 by lia. now apply O.
    + exists e, x, a. rewrite K4, K5, K3. split; [assumption|]. split; [assumption|]. split; [assumption|]. split; [assumption|]. split; [assumption|].
      split; [assumption|]. split; [rewrite K6 by auto; assumption|]. cbn [with_session csess ctempl]. exists i. rewrite K8, K7. auto 10.
  - split; [lia|]. split; [lia|]. split; [lia|]. split; [intros j Hj; apply K6; lia|]. split; intros; [apply K7|apply K8].
Qed.

Lemma round_law n m l1 l2 l3 fr w c outer : inv n m l1 l2 l3 fr w (Some c) outer -> exists fr' w', round_ V Above fr w = ([], fr', w') /\
  inv n m l1 l2 l3 fr' w' (Some (with_session V c (started V ctx outer c))) outer /\ keeps n l1 l2 l3 w w'.
Proof.
  intros [R [L1 [L2 [L3 [O C]]]]]. destruct C as [e [x [a [E1 [E2 [E3 [E4 [E5 [E6 [E7 E8]]]]]]]]]].
  unfold round_, collect, repl_session, started. rewrite E1, E2. destruct (csess V c) as [s|] eqn:Hs.
  - destruct E8 as [i [I1 [I2 [I3 [I4 [I5 I6]]]]]]. rewrite I1. eexists _, w. split; [reflexivity|]. split; [|apply keeps_refl].
    split; [assumption|]. split; [assumption|]. split; [assumption|]. split; [assumption|]. split; [assumption|]. exists e, x, a. cbn [fenv fcell ftool with_session csess ctempl cargs].
    repeat (split; [assumption || reflexivity|]). exists i. auto 10.
  - destruct E8 as [I1 [I2 I3]]. rewrite I1. unfold create, new_space. eexists _, _. split; [reflexivity|].
    destruct R as [R1 [R2 [R3 R4]]]. assert (Ha : a <> nns V w) by lia.
    split; [split; [|split; [|split; [|split; [|split]]]]|].
    + split; [cbn; lia|]. split; [cbn; lia|]. split; [|assumption]. intros t Ht. cbn [chains set_cell set_chain]. rewrite put_ne by lia. now apply R3.
    + cbn. lia.
    + cbn. lia.
    + cbn. lia.
    + intros j Hj. cbn [spaces set_cell set_chain]. rewrite put_ne by lia. now apply O.
    + exists e, x, a. cbn [fenv fcell ftool with_session csess ctempl cargs nns nch ncell spaces chains cells set_cell set_chain].
      split; [reflexivity|]. split; [reflexivity|]. split; [lia|]. split; [lia|]. split; [lia|]. split; [assumption|].
      split; [rewrite put_ne by assumption; assumption|]. exists (nns V w). rewrite !put_eq. split; [reflexivity|]. split; [reflexivity|]. split; [lia|]. split; [auto|].
      rewrite I3. split; [reflexivity|]. intros k. cbn [chain_get]. unfold lexical, over. rewrite (E7 k). destruct (cargs V c k); [reflexivity|].
      apply (chain_layers _ _ n); [assumption|]. intros i Hi. exact (R4 _ _ E6 Hi).
    + split; [cbn; lia|]. split; [cbn; lia|]. split; [cbn; lia|]. cbn [spaces chains cells set_cell set_chain].
      split; [intros i Hi; apply put_ne; lia|]. split; intros; apply put_ne; lia.
Qed.

Lemma look_law n m l1 l2 l3 fr w c outer k : inv n m l1 l2 l3 fr w (Some c) outer -> look V fr k w = ([Saw V (sees V ctx outer c k)], fr, w).
Proof.
  intros [R [L1 [L2 [L3 [O C]]]]]. destruct C as [e [x [a [E1 [E2 [E3 [E4 [E5 [E6 [E7 E8]]]]]]]]]].
  assert (X : eqn (chain_get V (spaces V w) (a :: ctx (ctempl V c))) (lexical V ctx outer c)).
  { intros k'. cbn [chain_get]. unfold lexical, over. rewrite (E7 k'). destruct (cargs V c k'); [reflexivity|]. apply (chain_layers _ _ n); [assumption|].
    intros i Hi. destruct R as [_ [_ [_ R4]]]. exact (R4 _ _ E6 Hi). }
  unfold look. rewrite E1. unfold sees. destruct (csess V c) as [s|].
  - destruct E8 as [i [I1 [I2 [I3 [I4 [I5 I6]]]]]]. rewrite I5. do 4 f_equal. change (chain_get V (spaces V w) (i :: a :: ctx (ctempl V c)) k) with
      (match spaces V w i k with Some v => Some v | None => chain_get V (spaces V w) (a :: ctx (ctempl V c)) k end). unfold over at 1. rewrite (I6 k), (X k). reflexivity.
  - destruct E8 as [I1 [I2 I3]]. rewrite I3. now rewrite (X k).
Qed.

Lemma keeps_inv n m l1 l2 l3 fr w w' c outer outer' : inv n m l1 l2 l3 fr w c outer -> keeps n (nns V w) (nch V w) (ncell V w) w w' ->
  (forall i, i < n -> eqn (spaces V w' i) (outer' i)) -> inv n m l1 l2 l3 fr w' c outer' /\ keeps n l1 l2 l3 w w'.
Proof.
  intros [R [L1 [L2 [L3 [O C]]]]] [K1 [K2 [K3 [K4 [K5 K6]]]]] O'. destruct R as [R1 [R2 [R3 R4]]]. split.
  - split; [|split; [lia|split; [lia|split; [lia|split; [assumption|]]]]].
    + split; [lia|]. split; [lia|]. split; [intros t Ht; rewrite K5 by lia; now apply R3|assumption].
    + destruct c as [c|]; [|assumption]. destruct C as [e [x [a [E1 [E2 [E3 [E4 [E5 [E6 [E7 E8]]]]]]]]]]. exists e, x, a.
      split; [assumption|]. split; [assumption|]. split; [lia|]. split; [lia|]. split; [lia|]. split; [assumption|]. split; [rewrite K4 by lia; assumption|].
      rewrite K5, K6 by lia. destruct (csess V c) as [s|]; [|assumption]. destruct E8 as [i [I1 [I2 [I3 [I4 [I5 I6]]]]]]. exists i.
      split; [assumption|]. split; [assumption|]. split; [lia|]. split; [assumption|]. split; [assumption|]. rewrite K4 by lia. assumption.
  - split; [lia|]. split; [lia|]. split; [lia|]. split; [intros i Hi; apply K4; lia|]. split; intros; [apply K5|apply K6]; lia.
Qed.

Lemma enter_law n m l1 l2 l3 fr w c outer t args : inv n m l1 l2 l3 fr w c outer -> t < m -> exists fr1 w1, enter V Above fr t args w = (fr1, w1) /\
  inv n m (nns V w) (nch V w) (ncell V w) fr1 w1 (Some (InCall V t args None)) outer /\ keeps n (nns V w) (nch V w) (ncell V w) w w1.
Proof.
  intros [R [L1 [L2 [L3 [O C]]]]] Ht. destruct R as [R1 [R2 [R3 R4]]]. unfold enter, new_cell, new_space, new_chain. eexists _, _. split; [reflexivity|].
  cbn [nns nch ncell spaces chains cells]. split.
  - split; [|split; [cbn; lia|split; [cbn; lia|split; [cbn; lia|split]]]].
    + split; [cbn; lia|]. split; [cbn; lia|]. split; [|assumption]. intros u Hu. cbn [chains]. rewrite put_ne by lia. now apply R3.
    + intros i Hi. cbn [spaces]. rewrite put_ne by lia. now apply O.
    + exists (nch V w), (ncell V w), (nns V w). cbn [fenv fcell ftool nns nch ncell spaces chains cells ctempl cargs csess].
      split; [reflexivity|]. split; [reflexivity|]. split; [lia|]. split; [lia|]. split; [lia|]. split; [assumption|]. rewrite !put_eq.
      split; [intros k; reflexivity|]. split; [reflexivity|]. split; [reflexivity|]. f_equal. now apply R3.
  - split; [cbn; lia|]. split; [cbn; lia|]. split; [cbn; lia|]. cbn [spaces chains cells].
    split; [intros i Hi; apply put_ne; lia|]. split; intros; apply put_ne; lia.
Qed.

Definition ok (n m : nat) (e : ev V) : Prop := forall l1 l2 l3 a fr w c outer, wf V n m a e -> stage c a -> inv n m l1 l2 l3 fr w c outer ->
  exists fr' w' c' outer', step V Above e fr w = (fst (fst (means e c outer)), fr', w') /\ snd (fst (means e c outer)) = c' /\ snd (means e c outer) = outer' /\
    inv n m l1 l2 l3 fr' w' c' outer' /\ keeps n l1 l2 l3 w w' /\ stage c' (after_ev V e a).
Definition ok_all (n m : nat) (es : list (ev V)) : Prop := forall l1 l2 l3 a fr w c outer, wf_all V n m a es -> stage c a -> inv n m l1 l2 l3 fr w c outer ->
  exists fr' w' c' outer', steps V Above es fr w = (fst (fst (means_all es c outer)), fr', w') /\ snd (fst (means_all es c outer)) = c' /\ snd (means_all es c outer) = outer' /\
    inv n m l1 l2 l3 fr' w' c' outer' /\ keeps n l1 l2 l3 w w'.
Lemma ok_list n m es : Forall (ok n m) es -> ok_all n m es.
Proof.
  induction 1 as [|e es He _ IH]; intros l1 l2 l3 a fr w c outer W S I.
  - exists fr, w, c, outer. split; [reflexivity|]. split; [reflexivity|]. split; [reflexivity|]. split; [assumption|apply keeps_refl].
  - change (wf V n m a e /\ wf_all V n m (after_ev V e a) es) in W. destruct W as [W1 W2]. destruct (He l1 l2 l3 a fr w c outer W1 S I) as [fr1 [w1 [c1 [o1 [H1 [H2 [H3 [H4 [H5 H6]]]]]]]]].
    destruct (IH l1 l2 l3 (after_ev V e a) fr1 w1 c1 o1 W2 H6 H4) as [fr2 [w2 [c2 [o2 [K1 [K2 [K3 [K4 K5]]]]]]]].
    exists fr2, w2, c2, o2. rewrite steps_cons, means_cons, H1. destruct (means e c outer) as [[ob cc] oo]. cbn [fst snd] in *. subst cc oo.
    rewrite K1. destruct (means_all es c1 o1) as [[ob2 cc] oo]. cbn [fst snd] in *. subst cc oo. split; [reflexivity|]. split; [reflexivity|]. split; [reflexivity|].
    split; [assumption|]. exact (keeps_trans _ _ _ _ _ _ _ H5 K5).
Qed.
Lemma ok_call n m t args es : ok_all n m es -> ok n m (Call V t args es).
Proof.
  intros H l1 l2 l3 a fr w c outer W S I. change (t < m /\ wf_all V n m (Some false) es) in W. destruct W as [W1 W2]. rewrite step_call, means_call.
  destruct (enter_law n m l1 l2 l3 fr w c outer t args I W1) as [fr1 [w1 [E1 [E2 E3]]]]. rewrite E1.
  destruct (H (nns V w) (nch V w) (ncell V w) (Some false) fr1 w1 (Some (InCall V t args None)) outer W2 Logic.I E2) as [fr2 [w2 [c2 [o2 [K1 [K2 [K3 [K4 K5]]]]]]]].
  rewrite K1. destruct (means_all es (Some (InCall V t args None)) outer) as [[ob cc] oo]. cbn [fst snd] in *. subst cc oo.
  assert (K := keeps_trans _ _ _ _ _ _ _ E3 K5). destruct (keeps_inv n m l1 l2 l3 fr w w2 c outer o2 I K) as [J1 J2]; [apply K4|].
  exists fr, w2, c, o2. split; [reflexivity|]. split; [reflexivity|]. split; [reflexivity|]. split; [assumption|]. split; [assumption|].
  cbn [after_ev]. destruct a as [[|]|]; assumption.
Qed.
Lemma ok_leaf n m e : (forall t args es, e <> Call V t args es) -> ok n m e.
Proof.
  intros NC l1 l2 l3 a fr w c outer W S I. destruct e as [|f|k|i k v|t fs|t args es]; [| | | | |exfalso; eapply NC; reflexivity].
  - destruct c as [c|].
    + destruct (round_law n m l1 l2 l3 fr w c outer I) as [fr' [w' [H1 [H2 H3]]]]. cbn [step RscSpec.means fst snd]. eexists fr', w', _, _.
      repeat (split; [eassumption || reflexivity|]). destruct a as [[|]|]; cbn [after_ev stage with_session csess] in *; try contradiction; discriminate.
    + destruct I as [R [L1 [L2 [L3 [O ->]]]]]. cbn [step RscSpec.means fst snd round_ outside fenv]. eexists _, _, _, _. repeat (split; [reflexivity|]).
      split; [repeat (split; [assumption|]); reflexivity|]. split; [apply keeps_refl|]. destruct a; [contradiction|exact Logic.I].
  - cbn [step RscSpec.means]. unfold run_tool. destruct c as [c|].
    + destruct (csess V c) as [s|] eqn:Hs.
      * destruct (run_all_call n m l1 l2 l3 fr w c s [f] outer I Hs (Forall_cons f (W : respects V f) (Forall_nil (respects V)))) as [i [w' [H1 [H2 [H3 [H4 H5]]]]]].
        rewrite H1. cbn [run_all] in H3. destruct (run_in V i f w) as [o w1]. destruct (in_session V [f] s) as [os s']. cbn [fst snd] in *. injection H3 as H3 ->.
        rewrite H3. eexists fr, w', _, _. repeat (split; [eassumption || reflexivity|]). destruct a as [[|]|]; cbn [after_ev stage with_session csess] in *; try contradiction; try exact Logic.I; discriminate.
      * assert (HT : ftool fr = None).
        { destruct I as [_ [_ [_ [_ [_ [e [x [y [_ [_ [_ [_ [_ [_ [_ E]]]]]]]]]]]]]]]. rewrite Hs in E. apply E. }
        rewrite HT. cbn [fst snd]. eexists fr, w, _, _. repeat (split; [eassumption || reflexivity|]). split; [apply keeps_refl|]. destruct a as [[|]|]; assumption.
    + destruct I as [R [L1 [L2 [L3 [O ->]]]]]. cbn [ftool outside fst snd]. eexists _, _, _, _. repeat (split; [reflexivity|]).
      split; [repeat (split; [assumption|]); reflexivity|]. split; [apply keeps_refl|]. destruct a; [contradiction|exact Logic.I].
  - cbn [step RscSpec.means]. destruct c as [c|].
    + rewrite (look_law n m l1 l2 l3 fr w c outer k I). cbn [fst snd]. eexists fr, w, _, _. repeat (split; [eassumption || reflexivity|]). split; [apply keeps_refl|].
      destruct a as [[|]|]; assumption.
    + destruct I as [R [L1 [L2 [L3 [O ->]]]]]. cbn [look fenv outside fst snd]. eexists _, _, _, _. repeat (split; [reflexivity|]).
      split; [repeat (split; [assumption|]); reflexivity|]. split; [apply keeps_refl|]. destruct a; [contradiction|exact Logic.I].
  - cbn [wf] in W. assert (X : means (Assign V i k v) c outer = ([], c, put outer i (bind V (outer i) k v))) by (destruct c; reflexivity).
    rewrite X. cbn [step fst snd]. assert (I' := I). destruct I' as [R [L1 [L2 [L3 [O C]]]]].
    assert (K : keeps n (nns V w) (nch V w) (ncell V w) w (set_space V i (bind V (spaces V w i) k v) w)).
    { unfold keeps. cbn [nns nch ncell spaces chains cells set_space]. split; [lia|]. split; [lia|]. split; [lia|]. split; [intros j Hj; apply put_ne; lia|]. split; reflexivity. }
    destruct (keeps_inv n m l1 l2 l3 fr w _ c outer (put outer i (bind V (outer i) k v)) I K) as [J1 J2].
    { intros j Hj k'. cbn [spaces set_space]. destruct (Nat.eq_dec j i) as [->|Ne]; [rewrite !put_eq; unfold bind; destruct (String.eqb k' k); [reflexivity|now apply O]|].
      rewrite !put_ne by assumption. now apply O. }
    eexists fr, _, _, _. repeat (split; [eassumption || reflexivity|]). destruct a as [[|]|]; destruct c; assumption.
  - destruct W as [W1 [-> W3]]. destruct c as [c|]; [|contradiction]. cbn [stage] in S. destruct (csess V c) as [s|] eqn:Hs; [|congruence].
    destruct (run_all_call n m l1 l2 l3 fr w c s fs outer I Hs W3) as [i [w' [H1 [H2 [H3 [H4 H5]]]]]].
    cbn [step RscSpec.means]. unfold tools, collect, repl_session. rewrite Hs.
    assert (HC : exists x, fcell fr = Some x) by (destruct I as [_ [_ [_ [_ [_ [e [x [y [_ [E _]]]]]]]]]]; eauto). destruct HC as [x HC].
    rewrite HC, (H2 x HC), H3. destruct (in_session V fs s) as [os s']. cbn [fst snd] in *. eexists fr, w', _, _. repeat (split; [eassumption || reflexivity|]). discriminate.
Qed.
Lemma ok_any n m : forall e, ok n m e.
Proof.
  fix IH 1. intros e. destruct e as [|f|k|i k v|t fs|t args es]; try (apply ok_leaf; discriminate). apply ok_call, ok_list. induction es as [|e es IHes]; constructor; [apply IH|exact IHes].
Qed.

Theorem scoped n m es w : ready V ctx n m w -> wf_all V n m None es ->
  exists w', steps V Above es outside w = (fst (fst (means_all es None (spaces V w))), outside, w') /\
    (forall i k, i < n -> spaces V w' i k = snd (means_all es None (spaces V w)) i k) /\ (forall t, t < m -> chains V w' t = ctx t).
Proof.
  intros R W. destruct (ok_list n m es (proj2 (Forall_forall _ _) (fun e _ => ok_any n m e)) n m 0 None outside w None (spaces V w) W Logic.I) as [fr [w' [c [o [H1 [H2 [H3 [H4 _]]]]]]]].
  { destruct R as [R1 [R2 R3]]. split; [split; auto|]. split; [lia|]. split; [lia|]. split; [lia|]. split; [intros i _ k; reflexivity|reflexivity]. }
  assert (c = None).
  { subst c. clear. enough (forall o, snd (fst (means_all es None o)) = None) by auto. induction es as [|e es IH]; intros o; [reflexivity|]. rewrite means_cons.
    destruct (means e None o) as [[a c] o1] eqn:E. assert (c = None).
    { destruct e; try (cbn in E; injection E; auto; fail). rewrite means_call in E. destruct (means_all _ _ _) as [[? ?] ?]. injection E; auto. }
    subst c. specialize (IH o1). destruct (means_all es None o1) as [[? ?] ?]. exact IH. }
  rewrite H in *. destruct H4 as [Rd [_ [_ [_ [O ->]]]]]. exists w'. rewrite H1, H3. split; [reflexivity|]. split; [intros i k Hi; now apply O|apply Rd].
Qed.
End Proofs.
