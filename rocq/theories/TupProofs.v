From Coq Require Import FinFun String List Bool Arith Lia.
Import ListNotations.
From Verif Require Import StrModel StrProofs TupModel TupSpec.

Lemma ty_ind2 (P : ty -> Prop) :
  (forall k, P (TAtom k)) -> P TComplex -> (forall ts, Forall P ts -> P (TTuple ts)) -> (forall t, P t -> P (TVariadic t)) ->
  (forall t, P t -> P (TList t)) -> (forall c fs, Forall (fun ft => P (snd ft)) fs -> P (TNamed c fs)) -> forall t, P t.
Proof.
  intros H1 H2 H3 H4 H5 H6. fix IH 1. intros [k| |ts|t|t|c fs]; [apply H1|exact H2| |apply H4; apply IH|apply H5; apply IH|].
  - apply H3. induction ts as [|t ts IHl]; constructor; [apply IH|exact IHl].
  - apply H6. induction fs as [|[f t] fs IHl]; constructor; [apply IH|exact IHl].
Qed.

Lemma item_inj : forall i j, item i = item j -> i = j.
Proof. unfold item. intros i j H. apply show_inj. cbn in H. congruence. Qed.

Lemma pget_combine : forall names l i k v, NoDup names -> nth_error names i = Some k -> nth_error l i = Some v ->
  pget (combine names l) k = Some v.
Proof.
  induction names as [|n names IH]; intros l i k v ND N L; [destruct i; discriminate|].
  destruct l as [|x l]; [destruct i; discriminate|]. inversion ND as [|? ? NI ND']; subst. cbn [combine pget].
  destruct i as [|i]; cbn in N, L.
  - injection N as ->. injection L as ->. rewrite String.eqb_refl. reflexivity.
  - destruct (String.eqb_spec n k) as [->|_]; [destruct NI; eapply nth_error_In; eauto|]. eapply IH; eauto.
Qed.
Lemma items_nodup : forall n s, NoDup (map item (seq s n)).
Proof.
  intros n s. apply Injective_map_NoDup; [|apply seq_NoDup]. intros i j. apply item_inj.
Qed.
Lemma pget_none : forall d k, ~ In k (map fst d) -> pget d k = None.
Proof.
  induction d as [|[x v] d IH]; intros k N; cbn [pget]; auto. cbn in N.
  destruct (String.eqb_spec x k); [tauto|]. apply IH. tauto.
Qed.
Lemma pget_in : forall d k v, pget d k = Some v -> In k (map fst d).
Proof.
  induction d as [|[x v'] d IH]; intros k v; cbn [pget]; [discriminate|].
  destruct (String.eqb_spec x k) as [->|]; [left; auto|right; eauto].
Qed.

Section Proofs.
Variable atom_has : nat -> pyv -> Prop.
Variable atom_dec : nat -> pyv -> res pyv.
Variable atom_enc : nat -> pyv -> res pyv.
Variable float : nat.
Notation dec := (dec atom_dec float).
Notation enc := (enc atom_enc).
Notation has := (has atom_has float).
Notation valid := (valid atom_dec float).

Section Go.
Variable decf : ty -> pyv -> res pyv.
Variable v : pyv.
Fixpoint goT (i : nat) (ts : list ty) : res (list pyv) :=
  match ts with
  | [] => Ok []
  | t :: ts' =>
      match subscript v (item i) with
      | Ok x => match decf t x with
                | Ok y => match goT (S i) ts' with Ok ys => Ok (y :: ys) | Err e => Err e end
                | Err e => Err e
                end
      | Err e => Err e
      end
  end.
Fixpoint goN (fs : list (string * ty)) : res (list pyv) :=
  match fs with
  | [] => Ok []
  | (f, t) :: fs' =>
      match subscript v f with
      | Ok x => match decf t x with
                | Ok y => match goN fs' with Ok ys => Ok (y :: ys) | Err e => Err e end
                | Err e => Err e
                end
      | Err e => Err e
      end
  end.
End Go.
Section GoE.
Variable encf : ty -> pyv -> res pyv.
Fixpoint goTE (i : nat) (ts : list ty) (l : list pyv) : res (list (string * pyv)) :=
  match l, ts with
  | [], _ => Ok []
  | _ :: _, [] => Err EIndex
  | x :: l', t :: ts' =>
      match encf t x with
      | Ok y => match goTE (S i) ts' l' with Ok d => Ok ((item i, y) :: d) | Err e => Err e end
      | Err e => Err e
      end
  end.
Fixpoint goNE (fs : list (string * ty)) (l : list pyv) : res (list (string * pyv)) :=
  match fs, l with
  | [], _ => Ok []
  | _ :: _, [] => Err EAttr
  | (f, t) :: fs', x :: l' =>
      match encf t x with
      | Ok y => match goNE fs' l' with Ok d => Ok ((f, y) :: d) | Err e => Err e end
      | Err e => Err e
      end
  end.
End GoE.

Definition view_tuple (v : pyv) : pyv := match v with PTuple l | PList l => enumerated l | PNamed _ l => enumerated l | _ => v end.
Definition view_named (fs : list (string * ty)) (v : pyv) : pyv :=
  match v with PTuple l | PList l | PNamed _ l => PDict (combine (map fst fs) l) | _ => v end.
Lemma dec_tuple : forall ts v, dec (TTuple ts) v = match goT dec (view_tuple v) 0 ts with Ok l => Ok (PTuple l) | Err e => Err e end.
Proof. reflexivity. Qed.
Lemma dec_named : forall c fs v, dec (TNamed c fs) v = match goN dec (view_named fs v) fs with Ok l => Ok (PNamed c l) | Err e => Err e end.
Proof. reflexivity. Qed.
Lemma enc_tuple : forall ts l, enc (TTuple ts) (PTuple l) = match goTE enc 0 ts l with Ok d => Ok (PDict d) | Err e => Err e end.
Proof. reflexivity. Qed.
Lemma enc_named : forall c fs l, enc (TNamed c fs) (PNamed c l) = match goNE enc fs l with Ok d => Ok (PDict d) | Err e => Err e end.
Proof. intros. cbn [TupModel.enc]. rewrite Nat.eqb_refl. reflexivity. Qed.

(** Reading the fields one by one. *)
Lemma goT_ok : forall v ts i l, goT dec v i ts = Ok l <->
  (length l = length ts /\ forall j t, nth_error ts j = Some t ->
     exists x y, subscript v (item (i + j)) = Ok x /\ dec t x = Ok y /\ nth_error l j = Some y).
Proof.
  intros v ts. induction ts as [|t ts IH]; intros i l; cbn [goT].
  - split.
    + intros [= <-]. split; auto. intros [|j] t; discriminate.
    + intros [H _]. destruct l; [auto|discriminate].
  - split.
    + destruct (subscript v (item i)) as [x|] eqn:S1; [|discriminate].
      destruct (dec t x) as [y|] eqn:D; [|discriminate]. destruct (goT dec v (S i) ts) as [ys|] eqn:G; [|discriminate].
      intros [= <-]. apply IH in G. destruct G as [L G]. split; [cbn; congruence|].
      intros [|j] t'; cbn [nth_error].
      * intros [= <-]. rewrite Nat.add_0_r. eauto.
      * intros N. destruct (G _ _ N) as (x' & y' & ? & ? & ?). exists x', y'. replace (i + S j) with (S i + j) by lia. auto.
    + intros [L H]. destruct l as [|y l]; [discriminate|].
      destruct (H 0 t eq_refl) as (x & y' & S1 & D & N). rewrite Nat.add_0_r in S1. injection N as ->.
      rewrite S1, D. assert (G : goT dec v (S i) ts = Ok l).
      { apply IH. split; [cbn in L; congruence|]. intros j t' N'. destruct (H (S j) t' N') as (x1 & y1 & ? & ? & ?).
        exists x1, y1. replace (S i + j) with (i + S j) by lia. auto. }
      rewrite G. reflexivity.
Qed.
Lemma goN_ok : forall v fs l, goN dec v fs = Ok l <->
  Forall2 (fun ft y => exists x, subscript v (fst ft) = Ok x /\ dec (snd ft) x = Ok y) fs l.
Proof.
  intros v fs. induction fs as [|[f t] fs IH]; intros l; cbn [goN].
  - split; [intros [= <-]; constructor|intros H; inversion H; auto].
  - split.
    + destruct (subscript v f) as [x|] eqn:S1; [|discriminate].
      destruct (dec t x) as [y|] eqn:D; [|discriminate]. destruct (goN dec v fs) as [ys|] eqn:G; [|discriminate].
      intros [= <-]. constructor; [cbn; eauto|]. apply IH. auto.
    + intros H. inversion H as [|? y ? l' (x & S1 & D) F]; subst. cbn in S1, D. rewrite S1, D.
      apply IH in F. rewrite F. reflexivity.
Qed.

(** Decoding a tuple. *)
Lemma dec_tuple_iff : forall ts d v, dec (TTuple ts) (PDict d) = Ok v <->
  exists l, v = PTuple l /\ length l = length ts /\
    forall i t, nth_error ts i = Some t -> exists x y, pget d (item i) = Some x /\ dec t x = Ok y /\ nth_error l i = Some y.
Proof.
  intros ts d v. rewrite dec_tuple. cbn [view_tuple]. split.
  - destruct (goT dec (PDict d) 0 ts) as [l|] eqn:G; [|discriminate]. intros [= <-]. exists l. split; auto.
    apply goT_ok in G. destruct G as [L G]. split; auto. intros i t N. destruct (G _ _ N) as (x & y & S1 & D & E).
    exists x, y. cbn [Nat.add subscript] in S1. destruct (pget d (item i)); [|discriminate]. injection S1 as ->. auto.
  - intros (l & -> & L & H). assert (G : goT dec (PDict d) 0 ts = Ok l).
    { apply goT_ok. split; auto. intros i t N. destruct (H _ _ N) as (x & y & S1 & D & E). exists x, y.
      cbn [Nat.add subscript]. rewrite S1. auto. }
    rewrite G. reflexivity.
Qed.
Lemma dec_named_iff : forall c fs d v, dec (TNamed c fs) (PDict d) = Ok v <->
  exists l, v = PNamed c l /\ Forall2 (fun ft y => exists x, pget d (fst ft) = Some x /\ dec (snd ft) x = Ok y) fs l.
Proof.
  intros c fs d v. rewrite dec_named. cbn [view_named]. split.
  - destruct (goN dec (PDict d) fs) as [l|] eqn:G; [|discriminate]. intros [= <-]. exists l. split; auto.
    apply goN_ok in G. induction G as [|[f t] y fs l (x & S1 & D) F IH]; constructor; auto.
    exists x. cbn [fst snd subscript] in *. destruct (pget d f); [|discriminate]. injection S1 as ->. auto.
  - intros (l & -> & H). assert (G : goN dec (PDict d) fs = Ok l).
    { apply goN_ok. induction H as [|[f t] y fs l (x & S1 & D) F IH]; constructor; auto.
      exists x. cbn [fst snd subscript] in *. rewrite S1. auto. }
    rewrite G. reflexivity.
Qed.
Lemma dec_tuple_list : forall ts l, dec (TTuple ts) (PList l) = dec (TTuple ts) (enumerated l).
Proof. reflexivity. Qed.

(** Round trip. *)
Lemma mapM_ok : forall A B (f : A -> res B) l l', Forall2 (fun a b => f a = Ok b) l l' -> mapM f l = Ok l'.
Proof. induction 1 as [|a b l l' H F IH]; cbn [mapM]; auto. rewrite H. cbn. rewrite IH. reflexivity. Qed.
Lemma mapM_inv : forall A B (f : A -> res B) l l', mapM f l = Ok l' -> Forall2 (fun a b => f a = Ok b) l l'.
Proof.
  induction l as [|a l IH]; intros l' H; cbn [mapM] in H.
  - injection H as <-. constructor.
  - destruct (f a) as [b|] eqn:E; [|discriminate].
    match type of H with match ?x with _ => _ end = _ => destruct x as [ys|] eqn:G; [|discriminate] end.
    injection H as <-. constructor; auto.
Qed.

Definition trip (v : pyv) (t : ty) (j : pyv) : Prop := enc t v = Ok j /\ is_json j /\ dec t j = Ok v.

Lemma round_trip : atoms_round_trip atom_has atom_dec atom_enc float ->
  forall t v, wf t -> has v t -> exists j, trip v t j.
Proof.
  intros [A1 A2] t. induction t as [k| |ts IH|t IH|t IH|c fs IH] using ty_ind2; intros v W H.
  - inversion H as [? ? HA| | | | |]; subst. destruct (A1 _ _ HA) as (j & E & J & D). exists j. split; [|split]; auto.
  - inversion H; subst. eexists. split; [reflexivity|]. split; [repeat constructor|].
    cbn [TupModel.dec dec_complex pget String.eqb]. cbn. rewrite (A2 a), (A2 b); auto.
  - inversion H as [| |l ts' F| | |]; subst. inversion W as [| |? Wf| | |]; subst.
    assert (exists js, length js = length ts /\ length l = length ts /\ goTE enc 0 ts l = Ok (combine (map item (seq 0 (length ts))) js) /\
      Forall is_json js /\ forall i t, nth_error ts i = Some t -> exists j v, nth_error js i = Some j /\ nth_error l i = Some v /\ dec t j = Ok v) as (js & L1 & L2 & E & J & N).
    { clear W H. generalize 0. induction F as [|v t l ts Hv F IHF]; intros s.
      - exists []. repeat split; auto. intros [|i] t; discriminate.
      - inversion IH as [|? ? I1 I2]; subst. inversion Wf as [|? ? W1 W2]; subst.
        destruct (I1 _ W1 Hv) as (j & E & Jj & D). destruct (IHF I2 W2 (S s)) as (js & L1 & L2 & E2 & J2 & N).
        exists (j :: js). cbn [length]. repeat split; try congruence.
        + cbn [goTE]. rewrite E, E2. reflexivity.
        + constructor; auto.
        + intros [|i] t'; cbn [nth_error]; [intros [= <-]; eauto|apply N]. }
    exists (PDict (combine (map item (seq 0 (length ts))) js)). split; [|split].
    + rewrite enc_tuple, E. reflexivity.
    + constructor. clear - J. generalize (map item (seq 0 (length ts))). induction J as [|j js Hj J IHJ]; intros [|n names]; cbn; constructor; auto.
    + apply dec_tuple_iff. exists l. split; auto. split; auto. intros i t Ni. destruct (N _ _ Ni) as (j & v & Nj & Nv & D).
      exists j, v. split; auto. apply pget_combine with (i := i); auto; [apply items_nodup|].
      rewrite nth_error_map. assert (i < length ts) by (apply nth_error_Some; congruence).
      rewrite (nth_error_nth' _ 0) by (rewrite seq_length; auto). rewrite seq_nth by auto. reflexivity.
  - inversion H as [| | |l t' F| |]; subst. inversion W as [| | |? Wt| |]; subst.
    assert (exists js, Forall2 (fun v j => trip v t j) l js) as [js T].
    { clear H W. induction F as [|v l Hv F IHF]; [exists []; constructor|]. destruct (IH _ Wt Hv) as [j Tj]. destruct (IHF) as [js Tjs]. exists (j :: js). constructor; auto. }
    exists (PList js). split; [|split].
    + cbn [TupModel.enc]. rewrite (mapM_ok _ _ _ _ js); [reflexivity|]. clear - T. induction T as [|? ? ? ? [? _]]; constructor; auto.
    + constructor. clear - T. induction T as [|? ? ? ? (_ & ? & _)]; constructor; auto.
    + cbn [TupModel.dec as_list]. rewrite (mapM_ok _ _ _ _ l); [reflexivity|]. clear - T. induction T as [|? ? ? ? (_ & _ & ?)]; constructor; auto.
  - inversion H as [| | | |l t' F|]; subst. inversion W as [| | | |? Wt|]; subst.
    assert (exists js, Forall2 (fun v j => trip v t j) l js) as [js T].
    { clear H W. induction F as [|v l Hv F IHF]; [exists []; constructor|]. destruct (IH _ Wt Hv) as [j Tj]. destruct (IHF) as [js Tjs]. exists (j :: js). constructor; auto. }
    exists (PList js). split; [|split].
    + cbn [TupModel.enc]. rewrite (mapM_ok _ _ _ _ js); [reflexivity|]. clear - T. induction T as [|? ? ? ? [? _]]; constructor; auto.
    + constructor. clear - T. induction T as [|? ? ? ? (_ & ? & _)]; constructor; auto.
    + cbn [TupModel.dec as_list]. rewrite (mapM_ok _ _ _ _ l); [reflexivity|]. clear - T. induction T as [|? ? ? ? (_ & _ & ?)]; constructor; auto.
  - inversion H as [| | | | |c' l fs' F]; subst. inversion W as [| | | | |? ? ND Wf]; subst.
    assert (exists js, length js = length fs /\ goNE enc fs l = Ok (combine (map fst fs) js) /\ Forall is_json js /\
       Forall2 (fun ftj v => dec (snd (fst ftj)) (snd ftj) = Ok v) (combine fs js) l) as (js & L & E & J & D).
    { clear W H ND. induction F as [|v [f t] l fs Hv F IHF].
      - exists []. repeat split; constructor.
      - inversion IH as [|? ? I1 I2]; subst. inversion Wf as [|? ? W1 W2]; subst. cbn [snd] in *.
        destruct (I1 _ W1 Hv) as (j & E & Jj & D). destruct (IHF I2 W2) as (js & L & E2 & J2 & D2).
        exists (j :: js). cbn [length]. repeat split; try congruence.
        + cbn [goNE]. rewrite E, E2. reflexivity.
        + constructor; auto.
        + cbn [combine]. constructor; auto. }
    exists (PDict (combine (map fst fs) js)). split; [|split].
    + rewrite enc_named, E. reflexivity.
    + constructor. clear - J. generalize (map fst fs). induction J as [|j js Hj J IHJ]; intros [|n names]; cbn; constructor; auto.
    + apply dec_named_iff. exists l. split; auto.
      assert (X : forall k fs' js' l', fs' = skipn k fs -> js' = skipn k js -> length js' = length fs' ->
         Forall2 (fun ftj v => dec (snd (fst ftj)) (snd ftj) = Ok v) (combine fs' js') l' ->
         Forall2 (fun ft y => exists x, pget (combine (map fst fs) js) (fst ft) = Some x /\ dec (snd ft) x = Ok y) fs' l').
      { intros k fs'. revert k. induction fs' as [|[f t] fs' IHs]; intros k js' l' E1 E2 L' F'.
        - destruct js'; inversion F'; constructor.
        - destruct js' as [|j js']; [discriminate|]. cbn [combine] in F'. inversion F' as [|? v ? l2 Dv F2]; subst. cbn [fst snd] in Dv.
          assert (N1 : nth_error fs k = Some (f, t)).
          { rewrite <- (firstn_skipn k fs), <- E1. rewrite nth_error_app2; rewrite firstn_length;
              (assert (k < length fs) by (assert (Hl : length (skipn k fs) = length fs - k) by apply skipn_length; rewrite <- E1 in Hl; cbn in Hl; lia)); [|lia].
            replace (k - Nat.min k (length fs)) with 0 by lia. reflexivity. }
          assert (N2 : nth_error js k = Some j).
          { rewrite <- (firstn_skipn k js), <- E2. rewrite nth_error_app2; rewrite firstn_length;
              (assert (k < length js) by (assert (Hl : length (skipn k js) = length js - k) by apply skipn_length; rewrite <- E2 in Hl; cbn in Hl; lia)); [|lia].
            replace (k - Nat.min k (length js)) with 0 by lia. reflexivity. }
          constructor.
          + exists j. split; auto. cbn [fst]. apply pget_combine with (i := k); auto. rewrite nth_error_map, N1. reflexivity.
          + apply (IHs (S k) js').
            *
              assert (Y : forall A (l : list A) x r, skipn k l = x :: r -> skipn (S k) l = r).
              { clear. induction k as [|k IH]; intros A l x r H; [cbn in H; subst; reflexivity|]. destruct l; [discriminate|]. cbn in *. eapply IH; eauto. }
              symmetry. eapply Y. symmetry. exact E1.
            * assert (Y : forall A (l : list A) x r, skipn k l = x :: r -> skipn (S k) l = r).
              { clear. induction k as [|k IH]; intros A l x r H; [cbn in H; subst; reflexivity|]. destruct l; [discriminate|]. cbn in *. eapply IH; eauto. }
              symmetry. eapply Y. symmetry. exact E2.
            * cbn in L'. lia.
            * exact F2. }
      apply (X 0 fs js l); auto.
Qed.

(** Results have the type. *)
Lemma dec_sound : atoms_sound atom_has atom_dec -> forall t v x, dec t v = Ok x -> has x t.
Proof.
  intros AS t. induction t as [k| |ts IH|t IH|t IH|c fs IH] using ty_ind2; intros v x H.
  - constructor. eapply AS; eauto.
  - cbn [TupModel.dec] in H. unfold dec_complex in H. destruct v; try discriminate.
    destruct (pget l "real") as [r|]; [|discriminate]. destruct (pget l "imag") as [i|]; [|discriminate].
    destruct (atom_dec float r) as [[]|] eqn:E1; try discriminate. destruct (atom_dec float i) as [[]|] eqn:E2; try discriminate.
    injection H as <-. constructor; eapply AS; eauto.
  - rewrite dec_tuple in H. destruct (goT dec (view_tuple v) 0 ts) as [l|] eqn:G; [|discriminate]. injection H as <-.
    constructor. revert l G. generalize 0. induction IH as [|t ts I1 I2 IHl]; intros i l G; cbn [goT] in G.
    + injection G as <-. constructor.
    + destruct (subscript _ _) as [y|]; [|discriminate]. destruct (dec t y) as [z|] eqn:D; [|discriminate].
      destruct (goT _ _ _ ts) as [ys|] eqn:G'; [|discriminate]. injection G as <-. constructor; eauto.
  - cbn [TupModel.dec] in H. destruct (as_list v) as [l|]; [|discriminate]. destruct (mapM (dec t) l) as [l'|] eqn:M; [|discriminate].
    injection H as <-. constructor. apply mapM_inv in M. induction M; constructor; eauto.
  - cbn [TupModel.dec] in H. destruct (as_list v) as [l|]; [|discriminate]. destruct (mapM (dec t) l) as [l'|] eqn:M; [|discriminate].
    injection H as <-. constructor. apply mapM_inv in M. induction M; constructor; eauto.
  - rewrite dec_named in H. destruct (goN dec (view_named fs v) fs) as [l|] eqn:G; [|discriminate]. injection H as <-.
    constructor. apply goN_ok in G. revert G. generalize (view_named fs v). intros w G. induction G as [|[f t] y fs l (z & S1 & D) F IHF]; constructor.
    + inversion IH; subst. eauto.
    + inversion IH; subst. auto.
Qed.

(** What the schema admits is accepted. *)
Lemma dec_complete : forall t v, wf t -> valid t v -> exists x, dec t v = Ok x.
Proof.
  intros t. induction t as [k| |ts IH|t IH|t IH|c fs IH] using ty_ind2; intros v W H.
  - inversion H; subst. eauto.
  - inversion H as [|d r i a b O P1 P2 D1 D2| | | |]; subst. exists (PComplex a b). cbn [TupModel.dec dec_complex]. rewrite P1, P2, D1, D2. reflexivity.
  - inversion H as [| |ts' d O F| | |]; subst. inversion W as [| |? Wf| | |]; subst.
    assert (exists l, goT dec (PDict d) 0 ts = Ok l) as [l G].
    { assert (F' : forall i t, nth_error ts i = Some t -> exists v, pget d (item (0 + i)) = Some v /\ valid t v) by exact F.
      clear O F H W. revert F'. generalize 0. induction IH as [|t ts I1 I2 IHl]; intros i F; cbn [goT]; [eauto|].
      inversion Wf as [|? ? W1 W2]; subst. destruct (F 0 t eq_refl) as (v & P & V). rewrite Nat.add_0_r in P.
      cbn [subscript]. rewrite P. destruct (I1 _ W1 V) as [y ->].
      destruct (IHl W2 (S i)) as [ys ->]; [|eauto]. intros j t' N. destruct (F (S j) t' N) as (v' & P' & V').
      exists v'. replace (S i + j) with (i + S j) by lia. auto. }
    exists (PTuple l). rewrite dec_tuple. cbn [view_tuple]. rewrite G. reflexivity.
  - inversion H as [| | |t' l F| |]; subst. inversion W as [| | |? Wt| |]; subst. cbn [TupModel.dec as_list].
    assert (exists l', mapM (dec t) l = Ok l') as [l' ->]; [|eauto].
    clear H. induction F as [|v l V F [l' IHF]]; [exists []; reflexivity|]. destruct (IH _ Wt V) as [y Dy]. exists (y :: l'). cbn [mapM]. rewrite Dy. cbn in IHF. rewrite IHF. reflexivity.
  - inversion H as [| | | |t' l F|]; subst. inversion W as [| | | |? Wt|]; subst. cbn [TupModel.dec as_list].
    assert (exists l', mapM (dec t) l = Ok l') as [l' ->]; [|eauto].
    clear H. induction F as [|v l V F [l' IHF]]; [exists []; reflexivity|]. destruct (IH _ Wt V) as [y Dy]. exists (y :: l'). cbn [mapM]. rewrite Dy. cbn in IHF. rewrite IHF. reflexivity.
  - inversion H as [| | | | |c' fs' d O F]; subst. inversion W as [| | | | |? ? ND Wf]; subst.
    assert (exists l, goN dec (PDict d) fs = Ok l) as [l G].
    { clear O H W ND. induction IH as [|[f t] fs I1 I2 IHl]; cbn [goN]; [eauto|].
      inversion Wf as [|? ? W1 W2]; subst. destruct (F f t) as (v & P & V); [left; auto|]. cbn [snd] in *.
      cbn [subscript]. rewrite P. destruct (I1 _ W1 V) as [y ->].
      destruct (IHl (fun f' t' N => F f' t' (or_intror N)) W2) as [ys ->]. eauto. }
    exists (PNamed c l). rewrite dec_named. cbn [view_named]. rewrite G. reflexivity.
Qed.

(** Too much is accepted. *)
Lemma surplus : forall x, atom_dec 0 (PAtom 1) = Ok x ->
  (exists v, dec (TTuple [TAtom 0]) (PDict [(item 0, PAtom 1); (item 1, PAtom 1)]) = Ok v) /\
  ~ valid (TTuple [TAtom 0]) (PDict [(item 0, PAtom 1); (item 1, PAtom 1)]) /\
  (exists v, dec (TTuple [TAtom 0]) (PList [PAtom 1; PAtom 1]) = Ok v) /\
  ~ valid (TTuple [TAtom 0]) (PList [PAtom 1; PAtom 1]) /\
  (forall j, dec (TTuple []) j = Ok (PTuple [])).
Proof.
  intros x Hx.
  split; [exists (PTuple [x]); rewrite dec_tuple; cbn [view_tuple goT subscript pget]; rewrite String.eqb_refl; cbn [TupModel.dec]; rewrite Hx; reflexivity|].
  split. { intros V. inversion V as [| |ts d O F| | |]; subst. specialize (O (item 1)). destruct O as [_ O].
    destruct O as [O|[]]; [right; left; reflexivity|]. apply item_inj in O. discriminate. }
  split; [exists (PTuple [x]); rewrite dec_tuple_list, dec_tuple; cbn [view_tuple enumerated length seq map combine goT subscript pget]; rewrite String.eqb_refl; cbn [TupModel.dec]; rewrite Hx; reflexivity|].
  split; [intros V; inversion V|]. reflexivity.
Qed.
End Proofs.
