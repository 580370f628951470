From Coq Require Import String List Bool Arith Lia.
Import ListNotations.
From Verif Require Import StrModel TupModel TupSpec TupProofs CallModel CallSpec.
Local Arguments String.eqb : simpl never.
Local Arguments item : simpl never.

(** ** Runtime types *)
Lemma nty_ind2 (P : nty -> Prop) :
  (forall k, P (NAtom k)) -> P NComplex -> (forall l, Forall P l -> P (NTuple l)) -> P NBareTuple ->
  (forall t, P t -> P (NSeq t)) -> P NBareSeq -> P NMap -> forall t, P t.
Proof.
  intros H1 H2 H3 H4 H5 H6 H7. fix IH 1. intros [k| |l| |t| |]; [apply H1|exact H2| |exact H4|apply H5; apply IH|exact H6|exact H7].
  apply H3. induction l as [|t l IHl]; constructor; [apply IH|exact IHl].
Qed.
Lemma nty_eqb_refl : forall a, nty_eqb a a = true.
Proof.
  induction a as [k| |l IH| |t IH| |] using nty_ind2; cbn [nty_eqb]; auto; [apply Nat.eqb_refl|].
  induction IH as [|x l Hx _ IHl]; auto. rewrite Hx. exact IHl.
Qed.
Lemma nty_eqb_eq : forall a b, nty_eqb a b = true -> a = b.
Proof.
  induction a as [k| |l IH| |t IH| |] using nty_ind2; intros [k'| |l'| |t'| |]; cbn [nty_eqb]; try discriminate; auto.
  - intros E. apply Nat.eqb_eq in E. congruence.
  - intros E. f_equal. revert l' E. induction IH as [|x l Hx _ IHl]; intros [|y l']; try discriminate; auto.
    intros E. apply andb_true_iff in E as [E1 E2]. f_equal; auto.
  - intros E. f_equal. auto.
Qed.
Lemma joined_some : forall ts t, joined ts = Some t -> Forall (eq t) ts.
Proof.
  intros [|x ts] t; cbn [joined]; [discriminate|]. destruct (forallb (nty_eqb x) ts) eqn:E; [|discriminate].
  intros [= <-]. constructor; auto. apply Forall_forall. intros y Hy. rewrite forallb_forall in E. apply nty_eqb_eq. auto.
Qed.
Lemma joined_none : forall ts t, Forall (eq t) ts -> joined ts = None -> ts = [].
Proof.
  intros [|x ts] t F; cbn [joined]; auto. inversion F as [|? ? -> F']; subst.
  replace (forallb (nty_eqb x) ts) with true; [discriminate|]. symmetry. apply forallb_forall. intros y Hy.
  rewrite Forall_forall in F'. rewrite <- (F' _ Hy). apply nty_eqb_refl.
Qed.

Section Values.
Variable atom_has : nat -> pyv -> Prop.
Variable atom_dec : nat -> pyv -> res pyv.
Variable atom_enc : nat -> pyv -> res pyv.
Variable float : nat.
Variable class : nat -> nat.
Variable typed : nat -> bool.
Variable any_atom : nat -> res pyv.
Variable any_complex : nat -> nat -> res pyv.
Notation dec := (dec atom_dec float).
Notation has := (has atom_has float).
Notation nested := (nested class typed).
Notation any_enc := (any_enc any_atom any_complex).
Notation nenc := (nenc atom_enc any_atom any_complex).
Notation dump := (dump atom_enc class typed any_atom any_complex).
Notation uniform := (uniform atom_has class).
Notation steady := (steady atom_has class).
Hypothesis scalars : scalars_round_trip atom_has atom_dec atom_enc float class any_atom.

(** Items decoded one by one. *)
Lemma dec_items : forall ts js l, Forall2 (fun t jv => dec t (fst jv) = Ok (snd jv)) ts (combine js l) ->
  length js = length ts -> length l = length ts ->
  dec (TTuple ts) (PDict (combine (map item (seq 0 (length ts))) js)) = Ok (PTuple l).
Proof.
  intros ts js l F L1 L2. apply dec_tuple_iff. exists l. split; auto. split; auto. intros i t N.
  assert (I : i < length ts) by (apply nth_error_Some; congruence).
  destruct (nth_error js i) as [j|] eqn:Nj; [|apply nth_error_None in Nj; lia].
  destruct (nth_error l i) as [v|] eqn:Nv; [|apply nth_error_None in Nv; lia].
  exists j, v. split; [|split]; auto.
  - apply pget_combine with (i := i); auto; [apply items_nodup|]. rewrite nth_error_map, (nth_error_nth' _ 0) by (rewrite seq_length; auto).
    rewrite seq_nth by auto. reflexivity.
  - clear - F N Nj Nv. revert i js l F N Nj Nv. induction ts as [|t0 ts IH]; intros [|i] [|j0 js] [|v0 l] F N Nj Nv; try discriminate; cbn [combine] in F; inversion F; subst; cbn in N, Nj, Nv.
    + injection N as ->. injection Nj as ->. injection Nv as ->. assumption.
    + eapply IH; eauto.
Qed.

Fixpoint goNE' (i : nat) (ts : list nty) (l : list pyv) : res (list (string * pyv)) :=
  match l, ts with
  | [], _ => Ok []
  | _ :: _, [] => Err EIndex
  | x :: l', t :: ts' =>
      match nenc t x with
      | Ok y => match goNE' (S i) ts' l' with Ok d => Ok ((item i, y) :: d) | Err e => Err e end
      | Err e => Err e
      end
  end.
Lemma nenc_tuple : forall ts l, nenc (NTuple ts) (PTuple l) = match goNE' 0 ts l with Ok d => Ok (PDict d) | Err e => Err e end.
Proof. reflexivity. Qed.

Lemma any_trip : forall t v, steady t -> plain t -> has v t -> exists j, any_enc v = Ok j /\ dec t j = Ok v.
Proof.
  destruct scalars as [A1 A2]. induction t as [k| |ts IH|t IH|t IH|c fs IH] using ty_ind2; intros v ST PL H.
  - inversion H as [? ? HA| | | | |]; subst. destruct (A1 _ _ HA) as (n & -> & _ & j & E & D). exists j. split; auto.
  - inversion PL.
  - inversion H as [| |l ts' F| | |]; subst. inversion ST as [| |? Sf|]; subst. inversion PL as [|? Pf| | |]; subst.
    assert (exists js, Forall2 (fun v j => any_enc v = Ok j) l js /\ Forall2 (fun t jv => dec t (fst jv) = Ok (snd jv)) ts (combine js l)) as (js & E & D).
    { clear H ST PL. induction F as [|v t l ts Hv F IHF]; [exists []; split; constructor|].
      inversion IH as [|? ? I1 I2]; subst. inversion Sf as [|? ? S1 S2]; subst. inversion Pf as [|? ? P1 P2]; subst.
      destruct (I1 _ S1 P1 Hv) as (j & E & D). destruct (IHF I2 S2 P2) as (js & E2 & D2).
      exists (j :: js). split; [constructor; auto|]. cbn [combine]. constructor; auto. }
    assert (L1 : length l = length ts) by (clear - F; induction F; cbn; congruence).
    assert (L2 : length l = length js) by (clear - E; induction E; cbn; congruence).
    exists (PList js). split.
    + cbn [CallModel.any_enc]. rewrite (mapM_ok _ _ _ _ js E). reflexivity.
    + rewrite dec_tuple_list. unfold enumerated. replace (length js) with (length ts) by congruence.
      apply dec_items; auto; congruence.
  - inversion ST.
  - inversion H as [| | | |l t' F|]; subst. inversion ST as [| | |? St _]; subst. inversion PL as [| | |? Pt|]; subst.
    assert (exists js, Forall2 (fun v j => any_enc v = Ok j /\ dec t j = Ok v) l js) as [js T].
    { clear H ST PL. induction F as [|v l Hv F IHF]; [exists []; constructor|]. destruct (IH _ St Pt Hv) as [j Tj].
      destruct IHF as [js Tjs]. exists (j :: js). constructor; auto. }
    exists (PList js). split.
    + cbn [CallModel.any_enc]. rewrite (mapM_ok _ _ _ _ js); [reflexivity|]. clear - T. induction T as [|? ? ? ? [? _]]; constructor; auto.
    + cbn [TupModel.dec as_list]. rewrite (mapM_ok _ _ _ _ l); [reflexivity|]. clear - T. induction T as [|? ? ? ? [_ ?]]; constructor; auto.
  - inversion ST.
Qed.

Lemma nested_tuple : forall l ts, Forall2 (fun v t => nested v = Ok t) l ts ->
  nested (PTuple l) = Ok (match l with [] => NBareTuple | _ => NTuple ts end).
Proof.
  intros [|x l] ts F; [reflexivity|]. cbn [CallModel.nested]. change (mapM nested (x :: l)) with (mapM nested (x :: l)).
  rewrite (mapM_ok _ _ _ _ ts F). reflexivity.
Qed.

Lemma uniform_nested : forall t v w, uniform t -> has v t -> has w t -> nested v = nested w.
Proof.
  destruct scalars as [A1 A2]. induction t as [k| |ts IH|t IH|t IH|c fs IH] using ty_ind2; intros v w U Hv Hw; inversion U as [? One| |? Uf]; subst.
  - inversion Hv as [? ? HA| | | | |]; subst. inversion Hw as [? ? HB| | | | |]; subst.
    destruct (A1 _ _ HA) as (n & -> & _). destruct (A1 _ _ HB) as (m & -> & _). cbn [CallModel.nested]. rewrite (One n m); auto.
  - inversion Hv; subst. inversion Hw; subst. reflexivity.
  - inversion Hv as [| |l ts' F| | |]; subst. inversion Hw as [| |l' ts' F'| | |]; subst.
    assert (E : mapM nested l = mapM nested l').
    { clear Hv Hw U. revert l' F'. induction F as [|v t l ts Hv F IHF]; intros l' F'; inversion F' as [|v' ? l2 ? Hv' F2]; subst; auto.
      inversion IH as [|? ? I1 I2]; subst. inversion Uf as [|? ? U1 U2]; subst. cbn [mapM].
      rewrite (I1 v v' U1 Hv Hv'). destruct (nested v'); auto.
      specialize (IHF I2 U2 _ F2). cbn [mapM] in IHF. rewrite IHF. reflexivity. }
    destruct F; inversion F'; subst; auto. cbn [CallModel.nested]. rewrite E. reflexivity.
Qed.

Lemma value_round_trip : forall t v, steady t -> has v t -> exists nt j, nested v = Ok nt /\ nenc nt v = Ok j /\ dec t j = Ok v.
Proof.
  destruct scalars as [A1 A2]. induction t as [k| |ts IH|t IH|t IH|c fs IH] using ty_ind2; intros v ST H.
  - inversion H as [? ? HA| | | | |]; subst. destruct (A1 _ _ HA) as (n & -> & (j & E & D) & _).
    exists (NAtom (class n)), j. split; [reflexivity|]. split; auto.
  - inversion H as [|a b Ha Hb| | | |]; subst. exists NComplex. eexists. split; [reflexivity|]. split; [reflexivity|].
    cbn [TupModel.dec dec_complex pget]. change (String.eqb "real" "real") with true. change (String.eqb "real" "imag") with false.
    change (String.eqb "imag" "imag") with true. cbv iota. rewrite (A2 a), (A2 b); auto.
  - inversion H as [| |l ts' F| | |]; subst. inversion ST as [| |? Sf|]; subst.
    assert (forall s, exists nts js, Forall2 (fun v t => nested v = Ok t) l nts /\ length js = length ts /\
       goNE' s nts l = Ok (combine (map item (seq s (length ts))) js) /\ Forall2 (fun t jv => dec t (fst jv) = Ok (snd jv)) ts (combine js l)) as X.
    { clear H ST. induction F as [|v t l ts Hv F IHF]; intros s; [exists [], []; repeat split; constructor|].
      inversion IH as [|? ? I1 I2]; subst. inversion Sf as [|? ? S1 S2]; subst.
      destruct (I1 _ S1 Hv) as (nt & j & N & E & D). destruct (IHF I2 S2 (S s)) as (nts & js & N2 & L & E2 & D2).
      exists (nt :: nts), (j :: js). split; [constructor; auto|]. split; [cbn [length]; congruence|]. split.
      - cbn [goNE']. rewrite E, E2. reflexivity.
      - cbn [combine]. constructor; auto. }
    destruct (X 0) as (nts & js & N & L & E & D). clear X.
    assert (L1 : length l = length ts) by (clear - F; induction F; cbn; congruence).
    destruct l as [|x l].
    + destruct ts; [|discriminate]. exists NBareTuple, (PList []). repeat split; reflexivity.
    + exists (NTuple nts). eexists. split; [rewrite (nested_tuple _ nts N); reflexivity|].
      split; [rewrite nenc_tuple, E; reflexivity|]. apply dec_items; auto.
  - inversion ST.
  - inversion H as [| | | |l t' F|]; subst. inversion ST as [| | |? St PU]; subst.
    assert (exists nts js, Forall2 (fun v nt => nested v = Ok nt) l nts /\ Forall2 (fun vn j => nenc (snd vn) (fst vn) = Ok j) (combine l nts) js /\
       Forall2 (fun j v => dec t j = Ok v) js l) as (nts & js & N & E & D).
    { clear H ST. induction F as [|v l Hv F IHF]; [exists [], []; repeat split; constructor|]. destruct (IH _ St Hv) as (nt & j & N & E & D).
      destruct IHF as (nts & js & N2 & E2 & D2). exists (nt :: nts), (j :: js). cbn [combine]. repeat split; constructor; auto. }
    assert (NL : nested (PList l) = Ok (match joined nts with Some t => NSeq t | None => NBareSeq end)).
    { cbn [CallModel.nested]. rewrite (mapM_ok _ _ _ _ nts N). reflexivity. }
    destruct (joined nts) as [t0|] eqn:J.
    + apply joined_some in J. exists (NSeq t0), (PList js). split; auto. split.
      * cbn [CallModel.nenc]. rewrite (mapM_ok _ _ _ _ js); [reflexivity|]. clear - E J N. revert js E. induction N as [|v nt l nts N1 N2 IH]; intros js E.
        -- cbn [combine] in E. inversion E; subst. constructor.
        -- cbn [combine] in E. inversion E as [|? j ? js' E1 E2]; subst.
           inversion J as [|? ? J1 J2]; subst. cbn [fst snd] in E1. constructor; auto.
      * cbn [TupModel.dec as_list]. rewrite (mapM_ok _ _ _ _ l D). reflexivity.
    + exists NBareSeq.
      assert (exists js', Forall2 (fun v j => any_enc v = Ok j) l js' /\ Forall2 (fun j v => dec t j = Ok v) js' l) as (js' & E' & D').
      { destruct PU as [P|U].
        - clear - scalars P St F. induction F as [|v l Hv F IHF]; [exists []; split; constructor|]. destruct (any_trip _ _ St P Hv) as (j & E & D).
          destruct IHF as (js & E2 & D2). exists (j :: js). split; constructor; auto.
        - destruct l as [|v l]; [exists []; split; constructor|]. exfalso. inversion N as [|? nt ? nts' N1 N2]; subst.
          inversion F as [|? ? Hv F2]; subst.
          assert (A : Forall (eq nt) (nt :: nts')).
          { constructor; auto. clear - N1 N2 F2 Hv U scalars. induction N2 as [|w nw l nts Nw N2 IH]; constructor.
            - inversion F2; subst. rewrite (uniform_nested t v w) in N1; auto. congruence.
            - inversion F2; subst. auto. }
          pose proof (joined_none _ _ A J). discriminate. }
      exists (PList js'). split; auto. split.
      * cbn [CallModel.nenc]. rewrite (mapM_ok _ _ _ _ js' E'). reflexivity.
      * cbn [TupModel.dec as_list]. rewrite (mapM_ok _ _ _ _ l D'). reflexivity.
  - inversion ST.
Qed.

Lemma dump_round_trip : forall t v, steady t -> has v t -> exists j, dump v = Ok j /\ dec t j = Ok v.
Proof.
  intros t v ST H. destruct (value_round_trip t v ST H) as (nt & j & N & E & D). exists j. unfold CallModel.dump. rewrite N. auto.
Qed.
End Values.

(** ** Binding *)
Lemma pget_remove : forall kw k n, pget (premove kw k) n = if String.eqb n k then pget (premove kw k) k else pget kw n.
Proof.
  induction kw as [|[x v] kw IH]; intros k n; cbn [premove pget].
  - destruct (String.eqb n k); reflexivity.
  - destruct (String.eqb_spec n k) as [->|NE]; auto. destruct (String.eqb_spec x k) as [->|NX].
    + destruct (String.eqb_spec k n); [congruence|reflexivity].
    + cbn [pget]. destruct (String.eqb_spec x n); auto. rewrite IH. destruct (String.eqb_spec n k); [congruence|reflexivity].
Qed.
Lemma pget_remove_other : forall kw k n, n <> k -> pget (premove kw k) n = pget kw n.
Proof. intros kw k n NE. rewrite pget_remove. destruct (String.eqb_spec n k); [contradiction|reflexivity]. Qed.
Lemma keys_remove : forall kw k n, NoDup (map fst kw) -> In n (map fst (premove kw k)) -> In n (map fst kw) /\ n <> k.
Proof.
  induction kw as [|[x v] kw IH]; intros k n ND H; cbn [premove] in H; [contradiction|]. cbn [map fst] in *.
  inversion ND as [|? ? NI ND']; subst. destruct (String.eqb_spec x k) as [->|NX].
  - split; [right; auto|]. intros ->. auto.
  - cbn [map fst] in H. destruct H as [->|H]; [split; auto; left; auto|]. destruct (IH _ _ ND' H). split; auto. right; auto.
Qed.
Lemma nodup_remove : forall kw k, NoDup (map fst kw) -> NoDup (map fst (premove kw k)).
Proof.
  induction kw as [|[x v] kw IH]; intros k ND; cbn [premove]; auto. cbn [map fst] in ND. inversion ND as [|? ? NI ND']; subst.
  destruct (String.eqb_spec x k); auto. cbn [map fst]. constructor; auto. intros H. apply keys_remove in H; auto. tauto.
Qed.

(** The arguments given, in the order of the parameters. *)
Definition picked (ps : list param) (kw : list (string * pyv)) : list (string * pyv) :=
  flat_map (fun p => match pget kw (p_name p) with Some v => [(p_name p, v)] | None => [] end) ps.
(** A parameter can take what is given by name. *)
Definition takes (kw : list (string * pyv)) (p : param) : Prop :=
  if is_star p then pget kw (p_name p) = None
  else match pget kw (p_name p) with Some _ => p_kind p <> PosOnly | None => p_default p = true end.

Lemma picked_ext : forall ps kw kw', (forall p, In p ps -> pget kw (p_name p) = pget kw' (p_name p)) -> picked ps kw = picked ps kw'.
Proof.
  induction ps as [|p ps IH]; intros kw kw' E; cbn [picked flat_map]; auto. rewrite (E p) by (left; auto). f_equal.
  apply IH. intros q Hq. apply E. right; auto.
Qed.
Lemma takes_ext : forall ps kw kw', (forall p, In p ps -> pget kw (p_name p) = pget kw' (p_name p)) -> Forall (takes kw) ps -> Forall (takes kw') ps.
Proof.
  intros ps kw kw' E F. apply Forall_forall. intros p Hp. rewrite Forall_forall in F. specialize (F p Hp). unfold takes in *.
  rewrite <- (E p Hp). exact F.
Qed.

Lemma bind_keywords_ok : forall ps kw acc kwp, distinct_names ps -> NoDup (map fst kw) ->
  (forall n, In n (map fst kw) -> exists p, In p ps /\ p_name p = n) -> Forall (takes kw) ps ->
  bind_keywords ps kw acc kwp = Ok (acc ++ picked ps kw).
Proof.
  induction ps as [|p ps IH]; intros kw acc kwp DN ND KN T.
  - destruct kw as [|[k v] kw]; [cbn; rewrite app_nil_r; reflexivity|]. destruct (KN k) as (q & [] & _). left; auto.
  - inversion DN as [|? ? NI DN']; subst. inversion T as [|? ? T1 T2]; subst. cbn [bind_keywords picked flat_map].
    assert (KN' : pget kw (p_name p) = None -> forall n, In n (map fst kw) -> exists q, In q ps /\ p_name q = n).
    { intros G n Hn. destruct (KN n Hn) as (q & [<-|Hq] & <-); eauto.
      exfalso. clear - G Hn. induction kw as [|[x v] kw IH]; cbn in *; [contradiction|]. destruct (String.eqb_spec x (p_name p)); [discriminate|]. destruct Hn; auto. }
    assert (SAME : forall q, In q ps -> pget kw (p_name q) = pget (premove kw (p_name p)) (p_name q)).
    { intros q Hq. rewrite pget_remove_other; auto. intros E. apply NI. rewrite <- E. apply in_map. auto. }
    unfold takes, is_star in T1. destruct (p_kind p) eqn:K; try (rewrite T1; apply IH; auto; fail).
    all: destruct (pget kw (p_name p)) as [v|] eqn:G; [|rewrite T1; cbn [app]; apply IH; auto].
    1: congruence.
    all: rewrite IH; auto; [rewrite <- app_assoc; cbn [app]; do 2 f_equal; f_equal; symmetry; apply picked_ext; auto|apply nodup_remove; auto| |eapply takes_ext; eauto].
    all: intros n Hn; apply keys_remove in Hn as [Hn NE]; auto; destruct (KN n Hn) as (q & [<-|Hq] & <-); [congruence|eauto].
Qed.
Lemma bind_ok : forall ps kw, distinct_names ps -> NoDup (map fst kw) ->
  (forall n, In n (map fst kw) -> exists p, In p ps /\ p_name p = n) -> Forall (takes kw) ps -> bind ps kw = Ok (picked ps kw).
Proof.
  intros ps kw DN ND KN T. pose proof (bind_keywords_ok ps kw [] None DN ND KN T) as B. cbn [app] in B.
  destruct ps as [|p ps]; [exact B|]. unfold bind. inversion T as [|? ? T1 T2]; subst. unfold takes, is_star in T1.
  destruct (p_kind p) eqn:K.
  - destruct (pget kw (p_name p)); [congruence|]. rewrite T1. exact B.
  - destruct (pget kw (p_name p)) eqn:G; [exact B|]. rewrite T1. exact B.
  - rewrite <- B. cbn [bind_keywords]. rewrite K. reflexivity.
  - destruct (pget kw (p_name p)) eqn:G; [exact B|]. rewrite T1. exact B.
  - rewrite T1. exact B.
Qed.

Lemma bind_keywords_inv : forall ps kw acc kwp r, distinct_names ps -> bind_keywords ps kw acc kwp = Ok r ->
  (forall p, In p ps -> is_star p = true -> pget kw (p_name p) = None) -> Forall (takes kw) ps.
Proof.
  induction ps as [|p ps IH]; intros kw acc kwp r DN B NS; [constructor|].
  inversion DN as [|? ? NI DN']; subst. cbn [bind_keywords] in B.
  assert (SAME : forall q, In q ps -> pget (premove kw (p_name p)) (p_name q) = pget kw (p_name q)).
  { intros q Hq. rewrite pget_remove_other; auto. intros E. apply NI. rewrite <- E. apply in_map. auto. }
  assert (NS' : forall q, In q ps -> is_star q = true -> pget kw (p_name q) = None) by (intros; apply NS; auto; right; auto).
  assert (NS1 := NS p (or_introl eq_refl)).
  constructor; unfold takes, is_star in *; destruct (p_kind p) eqn:K; auto.
  all: try (destruct (pget kw (p_name p)) eqn:G; [try discriminate; try congruence|destruct (p_default p); [reflexivity|discriminate]]; fail).
  all: try (eapply IH; eauto; fail).
  all: destruct (pget kw (p_name p)) eqn:G; [try discriminate|destruct (p_default p); [|discriminate]; eapply IH; eauto].
  all: eapply takes_ext; [exact SAME|]; eapply IH; eauto; intros q Hq Sq; rewrite SAME; auto.
Qed.
Lemma bind_inv : forall ps kw r, distinct_names ps -> bind ps kw = Ok r ->
  (forall p, In p ps -> is_star p = true -> pget kw (p_name p) = None) -> Forall (takes kw) ps.
Proof.
  intros ps kw r DN B NS. assert (X : exists kwp, bind_keywords ps kw [] kwp = Ok r).
  { destruct ps as [|p ps]; [exists None; exact B|]. unfold bind in B. exists None. destruct (p_kind p) eqn:K.
    3: cbn [bind_keywords]; rewrite K; exact B.
    all: destruct (pget kw (p_name p)) eqn:G; try discriminate B; try exact B; destruct (p_default p); try discriminate B; exact B. }
  destruct X as [kwp X]. eapply bind_keywords_inv; eauto.
Qed.

(** The arguments of a bound call. *)
Lemma pget_picked : forall ps kw p, distinct_names ps -> In p ps -> pget (picked ps kw) (p_name p) = pget kw (p_name p).
Proof.
  induction ps as [|q ps IH]; intros kw p DN HP; [destruct HP|]. inversion DN as [|? ? NI DN']; subst.
  cbn [picked flat_map]. fold (picked ps kw). destruct HP as [->|HP].
  - destruct (pget kw (p_name p)) as [v|] eqn:G; cbn [app pget]; [rewrite String.eqb_refl; reflexivity|].
    apply pget_none. intros H. apply in_map_iff in H as ([n v] & E & H). cbn [fst] in E. subst n. unfold picked in H.
    apply in_flat_map in H as (q & Hq & H). destruct (pget kw (p_name q)); [|contradiction]. destruct H as [[= E _]|[]].
    apply NI. rewrite <- E. apply in_map. auto.
  - assert (NE : p_name q <> p_name p) by (intros E; apply NI; rewrite E; apply in_map; auto).
    destruct (pget kw (p_name q)) as [v|]; cbn [app pget]; auto.
    destruct (String.eqb_spec (p_name q) (p_name p)); [contradiction|]. auto.
Qed.
Lemma picked_keys : forall ps kw n, In n (map fst (picked ps kw)) -> exists p v, In p ps /\ p_name p = n /\ pget kw n = Some v.
Proof.
  intros ps kw n H. apply in_map_iff in H as ([k v] & <- & H). unfold picked in H. apply in_flat_map in H as (p & Hp & H).
  destruct (pget kw (p_name p)) as [w|] eqn:G; [|contradiction]. destruct H as [[= <- <-]|[]]. eauto.
Qed.
Lemma picked_nodup : forall ps kw, distinct_names ps -> NoDup (map fst (picked ps kw)).
Proof.
  induction ps as [|p ps IH]; intros kw DN; [constructor|]. inversion DN as [|? ? NI DN']; subst.
  cbn [picked flat_map]. fold (picked ps kw). destruct (pget kw (p_name p)); cbn [app map fst]; auto. constructor; auto.
  intros H. apply picked_keys in H as (q & v & Hq & E & _). apply NI. rewrite <- E. apply in_map. auto.
Qed.
Lemma picked_twice : forall ps kw, distinct_names ps -> picked ps (picked ps kw) = picked ps kw.
Proof. intros ps kw DN. apply picked_ext. intros p Hp. apply pget_picked; auto. Qed.

(** What the tool receives. *)
Definition gets (a : list (string * pyv)) (p : param) : received :=
  match p_kind p with
  | VarPos => RStar []
  | VarKw => RKw []
  | _ => match pget a (p_name p) with Some v => RVal v | None => RDefault end
  end.

Lemma pput_new : forall l k v, ~ In k (map fst l) -> pput l k v = l ++ [(k, v)].
Proof.
  induction l as [|[x y] l IH]; intros k v H; cbn [pput app]; auto. cbn [map fst] in H. destruct (String.eqb_spec x k); [destruct H; left; auto|].
  rewrite IH; auto. intros Hk. apply H. right; auto.
Qed.
Lemma kwargs_started : forall ps a acc, distinct_names ps -> Forall (takes a) ps ->
  (forall p, In p ps -> ~ In (p_name p) (map fst acc)) -> kwargs_of ps a true acc = acc ++ picked ps a.
Proof.
  induction ps as [|p ps IH]; intros a acc DN T D; [cbn; rewrite app_nil_r; reflexivity|].
  inversion DN as [|? ? NI DN']; subst. inversion T as [|? ? T1 T2]; subst. cbn [kwargs_of picked flat_map]. fold (picked ps a).
  destruct (pget a (p_name p)) as [v|] eqn:G; cbn [orb app].
  - assert (X : (match p_kind p, v with VarKw, PDict d => pupdate acc d | _, _ => pput acc (p_name p) v end) = acc ++ [(p_name p, v)]).
    { unfold takes, is_star in T1. destruct (p_kind p); rewrite ?G in T1; try discriminate; apply pput_new; apply D; left; auto. }
    rewrite X. rewrite IH; auto; [rewrite <- app_assoc; reflexivity|].
    intros q Hq H. rewrite map_app, in_app_iff in H. cbn [map fst] in H. destruct H as [H|[H|[]]]; [eapply D; eauto; right; auto|].
    apply NI. rewrite H. apply in_map. auto.
  - apply IH; auto. intros q Hq. apply D. right; auto.
Qed.
Lemma picked_none : forall p ps a, pget a (p_name p) = None -> picked (p :: ps) a = picked ps a.
Proof. intros p ps a G. cbn [picked flat_map]. rewrite G. reflexivity. Qed.
Lemma picked_some : forall p ps a v, pget a (p_name p) = Some v -> picked (p :: ps) a = (p_name p, v) :: picked ps a.
Proof. intros p ps a v G. cbn [picked flat_map]. rewrite G. reflexivity. Qed.
Lemma picked_other : forall ps a n, ~ In n (names ps) -> pget (picked ps a) n = None.
Proof.
  intros ps a n H. apply pget_none. intros H1. apply picked_keys in H1 as (p & v & Hp & <- & _). apply H. apply in_map. auto.
Qed.

Lemma keywords_last_tail : forall p ps, keywords_last (p :: ps) -> keywords_last ps.
Proof. intros p ps H l q r -> K. apply (H (p :: l) q r); auto. Qed.

Lemma receive_keywords : forall ps a, distinct_names ps -> keywords_last ps -> Forall (takes a) ps ->
  receive ps [] (picked ps a) = Some (map (gets a) ps).
Proof.
  induction ps as [|p ps IH]; intros a DN KL T; [reflexivity|].
  inversion DN as [|? ? NI DN']; subst. inversion T as [|? ? T1 T2]; subst.
  specialize (IH a DN' (keywords_last_tail _ _ KL) T2). cbn [receive map].
  unfold takes, is_star in T1. unfold gets at 1, keyword_or_default. destruct (p_kind p) eqn:K.
  - destruct (pget a (p_name p)) eqn:G; [congruence|]. rewrite picked_none by auto. rewrite T1, IH. reflexivity.
  - destruct (pget a (p_name p)) eqn:G.
    + rewrite (picked_some _ _ _ _ G). cbn [pget premove]. rewrite String.eqb_refl, IH. reflexivity.
    + rewrite picked_none by auto. rewrite picked_other by auto. rewrite T1, IH. reflexivity.
  - rewrite picked_none by auto. rewrite IH. reflexivity.
  - destruct (pget a (p_name p)) eqn:G.
    + rewrite (picked_some _ _ _ _ G). cbn [pget premove]. rewrite String.eqb_refl, IH. reflexivity.
    + rewrite picked_none by auto. rewrite picked_other by auto. rewrite T1, IH. reflexivity.
  - rewrite (KL [] p ps eq_refl K) in *. cbn [picked flat_map]. rewrite T1. reflexivity.
Qed.

Lemma receive_call : forall ps a, distinct_names ps -> keywords_last ps -> Forall (takes a) ps ->
  receive ps (args_of ps a) (kwargs_of ps a false []) = Some (map (gets a) ps) /\
  (forall n, ~ In n (names ps) -> pget (kwargs_of ps a false []) n = None).
Proof.
  induction ps as [|p ps IH]; intros a DN KL T; [split; auto|].
  pose proof (receive_keywords _ a DN KL T) as RK.
  inversion DN as [|? ? NI DN']; subst. inversion T as [|? ? T1 T2]; subst.
  specialize (IH a DN' (keywords_last_tail _ _ KL) T2). destruct IH as [IH1 IH2].
  assert (KS : kwargs_of ps a true [] = picked ps a) by (apply kwargs_started; auto).
  cbn [args_of kwargs_of]. destruct (pget a (p_name p)) as [v|] eqn:G.
  - destruct (p_kind p) eqn:K; cbn [orb].
    + unfold takes, is_star in T1. rewrite K, G in T1. congruence.
    + split.
      * cbn [receive map]. rewrite K. unfold gets at 1. rewrite K, G. rewrite (IH2 (p_name p)) by auto. rewrite IH1. reflexivity.
      * intros n Hn. apply IH2. intros H. apply Hn. right; auto.
    + unfold takes, is_star in T1. rewrite K in T1. congruence.
    + assert (X : kwargs_of ps a true (pput [] (p_name p) v) = picked (p :: ps) a).
      { rewrite kwargs_started; auto. - rewrite (picked_some _ _ _ _ G). reflexivity.
        - intros q Hq [H|[]]. cbn [fst] in H. apply NI. rewrite H. apply in_map. auto. }
      rewrite X. split; auto. intros n Hn. apply picked_other. auto.
    + unfold takes, is_star in T1. rewrite K in T1. congruence.
  - rewrite KS, <- (picked_none p ps a G). replace (match p_kind p with PosOnly | PosKw | VarPos | _ => [] end) with (@nil pyv) by (destruct (p_kind p); reflexivity).
    split; auto. intros n Hn. apply picked_other. auto.
Qed.
