(** Tools and tool calls: what is decoded, received and encoded. *)
From Coq Require Import String List Bool Arith Lia.
Import ListNotations.
From Verif Require Import StrModel TupModel TupSpec TupProofs CallModel CallSpec CallProofs.
Local Arguments String.eqb : simpl never.

Lemma cget_in : forall c k v, cget c k = Some v -> In (k, v) c.
Proof.
  induction c as [|[x w] c IH]; intros k v; cbn [cget]; [discriminate|]. destruct (String.eqb_spec x k) as [->|].
  - intros [= ->]. left; auto.
  - intros H. right; auto.
Qed.
Lemma cget_nodup : forall c k v, NoDup (map fst c) -> In (k, v) c -> cget c k = Some v.
Proof.
  induction c as [|[x w] c IH]; intros k v ND H; [destruct H|]. cbn [map fst] in ND. inversion ND as [|? ? NI ND']; subst. cbn [cget].
  destruct H as [[= -> ->]|H]; [rewrite String.eqb_refl; reflexivity|].
  destruct (String.eqb_spec x k) as [->|]; auto. destruct NI. change k with (fst (k, v)). apply in_map. auto.
Qed.

(** An advertised name is that of the tool. *)
Lemma key_of_in : forall c t key, In (key, CTool t) c -> exists u, In (key_of c t, CTool u) c /\ t_id u = t_id t.
Proof.
  induction c as [|[k [u|n]] c IH]; intros t key H; [destruct H| |]; cbn [key_of].
  - destruct (Nat.eqb_spec (t_id u) (t_id t)) as [E|NE]; [exists u; split; auto; left; auto|].
    destruct H as [[= -> ->]|H]; [congruence|]. destruct (IH _ _ H) as (w & Hw & E). exists w. split; auto. right; auto.
  - destruct H as [H|H]; [discriminate|]. destruct (IH _ _ H) as (w & Hw & E). exists w. split; auto. right; auto.
Qed.
Lemma advertised : forall c t key, NoDup (map fst c) -> In (key, CTool t) c ->
  exists u, validate_tool c (serialize_tool c t) = Some (CTool u) /\ t_id u = t_id t.
Proof.
  intros c t key ND H. destruct (key_of_in c t key H) as (u & Hu & E). exists u. split; auto. apply cget_nodup; auto.
Qed.

Lemma find_param_in : forall ps n p, find_param ps n = Some p -> In p ps /\ p_name p = n.
Proof.
  induction ps as [|q ps IH]; intros n p; cbn [find_param]; [discriminate|]. destruct (String.eqb_spec (p_name q) n).
  - intros [= ->]. split; auto. left; auto.
  - intros H. destruct (IH _ _ H). split; auto. right; auto.
Qed.
Lemma find_param_name : forall ps p, distinct_names ps -> In p ps -> find_param ps (p_name p) = Some p.
Proof.
  induction ps as [|q ps IH]; intros p DN H; [destruct H|]. inversion DN as [|? ? NI DN']; subst. cbn [find_param].
  destruct H as [->|H]; [rewrite String.eqb_refl; reflexivity|].
  destruct (String.eqb_spec (p_name q) (p_name p)) as [E|]; auto. destruct NI. rewrite E. apply in_map. auto.
Qed.

Section Laws.
Variable atom_has : nat -> pyv -> Prop.
Variable atom_dec : nat -> pyv -> res pyv.
Variable atom_enc : nat -> pyv -> res pyv.
Variable float : nat.
Variable class : nat -> nat.
Variable typed : nat -> bool.
Variable any_atom : nat -> res pyv.
Variable any_complex : nat -> nat -> res pyv.
Notation dec := (dec atom_dec float).
Notation has := (has atom_has float).
Notation dump := (dump atom_enc class typed any_atom any_complex).
Notation decode_args := (decode_args atom_dec float).
Notation decode_call := (decode_call atom_dec float).
Notation encode_call := (encode_call atom_enc class typed any_atom any_complex).

Lemma decode_args_keys : forall ps d a, decode_args ps d = Ok a -> map fst a = map fst d.
Proof.
  induction d as [|[n j] d IH]; intros a; cbn [CallModel.decode_args]; [intros [= <-]; reflexivity|].
  destruct (find_param ps n); [|discriminate]. destruct (dec (p_ann p) j); [|discriminate].
  destruct (decode_args ps d) as [a'|]; [|discriminate]. intros [= <-]. cbn [map fst]. f_equal. auto.
Qed.
Lemma decode_args_known : forall ps d a n, decode_args ps d = Ok a -> In n (map fst d) -> exists p, In p ps /\ p_name p = n.
Proof.
  induction d as [|[m j] d IH]; intros a n; cbn [CallModel.decode_args]; [intros _ []|].
  destruct (find_param ps m) as [p|] eqn:F; [|discriminate]. destruct (dec (p_ann p) j); [|discriminate].
  destruct (decode_args ps d) as [a'|]; [|discriminate]. intros _ [<-|H]; [|eauto]. cbn [fst]. exists p. apply find_param_in. auto.
Qed.
Lemma decode_args_get : forall ps d a p, distinct_names ps -> decode_args ps d = Ok a -> In p ps ->
  match pget d (p_name p) with
  | None => pget a (p_name p) = None
  | Some j => exists v, dec (p_ann p) j = Ok v /\ pget a (p_name p) = Some v
  end.
Proof.
  induction d as [|[n j] d IH]; intros a p DN; cbn [CallModel.decode_args]; [intros [= <-] _; reflexivity|].
  destruct (find_param ps n) as [q|] eqn:F; [|discriminate]. destruct (dec (p_ann q) j) as [v|] eqn:D; [|discriminate].
  destruct (decode_args ps d) as [a'|] eqn:A; [|discriminate]. intros [= <-] Hp. cbn [pget]. destruct (String.eqb_spec n (p_name p)) as [->|NE].
  - rewrite (find_param_name ps p DN Hp) in F. injection F as ->. eauto.
  - apply IH; auto.
Qed.
Lemma decode_args_ok : forall ps d, distinct_names ps ->
  (forall n j, In (n, j) d -> exists p v, In p ps /\ p_name p = n /\ dec (p_ann p) j = Ok v) -> exists a, decode_args ps d = Ok a.
Proof.
  intros ps d DN. induction d as [|[n j] d IH]; intros H; cbn [CallModel.decode_args]; [eauto|].
  destruct (H n j (or_introl eq_refl)) as (p & v & Hp & <- & D). rewrite (find_param_name ps p DN Hp), D.
  destruct IH as [a ->]; eauto. intros m i Hm. apply H. right; auto.
Qed.

Lemma pget_nodup : forall d k v, NoDup (map fst d) -> In (k, v) d -> pget d k = Some v.
Proof.
  induction d as [|[x w] d IH]; intros k v ND H; [destruct H|]. cbn [map fst] in ND. inversion ND as [|? ? NI ND']; subst. cbn [pget].
  destruct H as [[= -> ->]|H]; [rewrite String.eqb_refl; reflexivity|].
  destruct (String.eqb_spec x k) as [->|]; auto. destruct NI. change k with (fst (k, v)). apply in_map. auto.
Qed.
Lemma pget_In : forall d k v, pget d k = Some v -> In (k, v) d.
Proof.
  induction d as [|[x w] d IH]; intros k v; cbn [pget]; [discriminate|]. destruct (String.eqb_spec x k) as [->|].
  - intros [= ->]. left; auto.
  - intros H. right; auto.
Qed.
Lemma pget_key : forall d k, In k (map fst d) -> exists v, pget d k = Some v.
Proof.
  induction d as [|[x w] d IH]; intros k H; [destruct H|]. cbn [pget]. destruct (String.eqb_spec x k); eauto. destruct H; [contradiction|auto].
Qed.

(** What a decoded call is. *)
Lemma decode_call_inv : forall c m k, decode_call c m = Ok k -> exists d a,
  cget c (m_name m) = Some (CTool (c_tool k)) /\ m_args m = PDict d /\ decode_args (t_params (c_tool k)) d = Ok a /\
  bind (t_params (c_tool k)) a = Ok (c_args k) /\ c_id k = m_id m /\ c_name k = m_name m.
Proof.
  intros c m k. unfold CallModel.decode_call. destruct (cget c (m_name m)) as [[t|]|]; try discriminate.
  destruct (m_args m) as [| | | | |d]; try discriminate. destruct (decode_args (t_params t) d) as [a|] eqn:A; [|discriminate].
  destruct (bind (t_params t) a) as [b|] eqn:B; [|discriminate]. intros [= <-]. exists d, a. cbn. auto 10.
Qed.

Lemma no_star : forall ps (d a : list (string * pyv)), distinct_names ps -> decode_args ps d = Ok a ->
  (forall p, In p ps -> is_star p = true -> ~ In (p_name p) (map fst d)) ->
  forall p, In p ps -> is_star p = true -> pget a (p_name p) = None.
Proof.
  intros ps d a DN A NS p Hp S. apply pget_none. rewrite (decode_args_keys _ _ _ A). auto.
Qed.

(** Each parameter receives what was sent for it. *)
Lemma received_right : forall c m k d, decode_call c m = Ok k -> m_args m = PDict d -> NoDup (map fst d) ->
  distinct_names (t_params (c_tool k)) -> keywords_last (t_params (c_tool k)) ->
  (forall p, In p (t_params (c_tool k)) -> is_star p = true -> ~ In (p_name p) (map fst d)) ->
  cget c (m_name m) = Some (CTool (c_tool k)) /\ c_id k = m_id m /\
  exists env, receive (t_params (c_tool k)) (fst (called_with k)) (snd (called_with k)) = Some env /\
    Forall2 (should_receive atom_dec float d) (t_params (c_tool k)) env.
Proof.
  intros c m k d H MA ND DN KL NS. destruct (decode_call_inv _ _ _ H) as (d' & a & G & MA' & A & B & I & _).
  rewrite MA in MA'. injection MA' as <-. split; auto. split; auto. set (ps := t_params (c_tool k)) in *.
  assert (T : Forall (takes a) ps) by (apply (bind_inv ps a (c_args k)); auto; eapply no_star; eauto).
  assert (ND' : NoDup (map fst a)) by (rewrite (decode_args_keys _ _ _ A); auto).
  assert (KN : forall n, In n (map fst a) -> exists p, In p ps /\ p_name p = n).
  { intros n. rewrite (decode_args_keys _ _ _ A). eapply decode_args_known; eauto. }
  rewrite (bind_ok ps a DN ND' KN T) in B. injection B as B.
  assert (T' : Forall (takes (c_args k)) ps).
  { rewrite <- B. eapply takes_ext; [|exact T]. intros p Hp. symmetry. apply pget_picked; auto. }
  destruct (receive_call ps (c_args k) DN KL T') as [R _]. exists (map (gets (c_args k)) ps). split; [exact R|].
  assert (X : forall p, In p ps -> should_receive atom_dec float d p (gets (c_args k) p)).
  { intros p Hp. rewrite Forall_forall in T. specialize (T p Hp). unfold takes, is_star in T. unfold gets. rewrite <- B, pget_picked by auto.
    pose proof (decode_args_get ps d a p DN A Hp) as DG.
    destruct (p_kind p); cbn [should_receive]; auto.
    all: destruct (pget d (p_name p)) as [j|] eqn:GD; [destruct DG as (v & D & GA); rewrite GA in *; cbn [should_receive]; eauto|].
    all: rewrite DG in *; cbn [should_receive]; auto. }
  clear - X. induction ps as [|p ps IH]; cbn [map]; constructor; [apply X; left; auto|]. apply IH. intros q Hq. apply X. right; auto.
Qed.

(** Which calls are accepted. *)
Lemma accepted_iff : forall c m t d, cget c (m_name m) = Some (CTool t) -> m_args m = PDict d -> NoDup (map fst d) ->
  distinct_names (t_params t) -> Forall (fun p => by_name p = true) (t_params t) ->
  (exists k, decode_call c m = Ok k) <->
  (forall n j, pget d n = Some j -> exists p v, In p (t_params t) /\ p_name p = n /\ dec (p_ann p) j = Ok v) /\
  (forall p, In p (t_params t) -> p_default p = false -> In (p_name p) (map fst d)).
Proof.
  intros c m t d G MA ND DN BN. split.
  - intros [k H]. destruct (decode_call_inv _ _ _ H) as (d' & a & G' & MA' & A & B & _). rewrite G in G'. injection G' as ->.
    rewrite MA in MA'. injection MA' as <-. split.
    + intros n j GD. assert (In n (map fst d)) by (eapply pget_in; eauto). destruct (decode_args_known _ _ _ n A H0) as (p & Hp & <-).
      pose proof (decode_args_get _ _ _ p DN A Hp) as DG. rewrite GD in DG. destruct DG as (v & D & _). eauto.
    + intros p Hp DF. rewrite Forall_forall in BN. pose proof BN as BA. specialize (BN p Hp).
      assert (T : Forall (takes a) (t_params (c_tool k))).
      { apply (bind_inv _ a (c_args k)); auto. intros q Hq S. exfalso. pose proof (BA q Hq) as X.
        unfold is_star in S. unfold by_name in X. destruct (p_kind q); discriminate. }
      rewrite Forall_forall in T. specialize (T p Hp). unfold takes, is_star in T. rewrite <- (decode_args_keys _ _ _ A).
      unfold by_name in BN. destruct (p_kind p); try discriminate; (destruct (pget a (p_name p)) eqn:GA; [eapply pget_in; eauto|congruence]).
  - intros [H1 H2].
    destruct (decode_args_ok (t_params t) d DN) as [a A]. { intros n j Hn. apply H1. apply pget_nodup; auto. }
    assert (ND' : NoDup (map fst a)) by (rewrite (decode_args_keys _ _ _ A); auto).
    unfold CallModel.decode_call. rewrite G, MA, A. rewrite bind_ok; eauto.
    + intros n. rewrite (decode_args_keys _ _ _ A). eapply decode_args_known; eauto.
    + apply Forall_forall. intros p Hp. rewrite Forall_forall in BN. specialize (BN p Hp). unfold takes, is_star. unfold by_name in BN.
      assert (X : pget a (p_name p) = None -> p_default p = true).
      { intros N. destruct (p_default p) eqn:DF; auto. specialize (H2 p Hp DF). rewrite <- (decode_args_keys _ _ _ A) in H2.
        destruct (pget_key _ _ H2). congruence. }
      destruct (p_kind p); try discriminate; destruct (pget a (p_name p)); auto; discriminate.
Qed.

Lemma encode_keys : forall (b d : list (string * pyv)),
  mapM (fun kv : string * pyv => match dump (snd kv) with Ok y => Ok (fst kv, y) | Err e => Err e end) b = Ok d -> map fst d = map fst b.
Proof.
  intros b d H. apply mapM_inv in H. induction H as [|[n v] [n' j] b d E F IH]; auto. cbn [fst snd] in E.
  destruct (dump v); [|discriminate]. injection E as <- <-. cbn [map fst]. f_equal. auto.
Qed.

(** A call comes back from its encoding. *)
Lemma call_round_trip : scalars_round_trip atom_has atom_dec atom_enc float class any_atom -> atoms_sound atom_has atom_dec ->
  forall c m k d, decode_call c m = Ok k -> m_args m = PDict d -> NoDup (map fst d) ->
  distinct_names (t_params (c_tool k)) ->
  (forall p, In p (t_params (c_tool k)) -> is_star p = true -> ~ In (p_name p) (map fst d)) ->
  (forall p, In p (t_params (c_tool k)) -> In (p_name p) (map fst d) -> steady atom_has class (p_ann p)) ->
  t_name (c_tool k) = m_name m ->
  exists m', encode_call k = Ok m' /\ decode_call c m' = Ok k.
Proof.
  intros SC AS c m k d H MA ND DN NS ST NM. destruct (decode_call_inv _ _ _ H) as (d' & a & G & MA' & A & B & I & N).
  rewrite MA in MA'. injection MA' as <-. set (ps := t_params (c_tool k)) in *.
  assert (T : Forall (takes a) ps) by (apply (bind_inv ps a (c_args k)); auto; eapply no_star; eauto).
  assert (ND' : NoDup (map fst a)) by (rewrite (decode_args_keys _ _ _ A); auto).
  assert (KN : forall n, In n (map fst a) -> exists p, In p ps /\ p_name p = n).
  { intros n. rewrite (decode_args_keys _ _ _ A). eapply decode_args_known; eauto. }
  rewrite (bind_ok ps a DN ND' KN T) in B. injection B as B.
  assert (X : forall l, (forall x, In x l -> In x (c_args k)) -> exists e,
     mapM (fun kv : string * pyv => match dump (snd kv) with Ok y => Ok (fst kv, y) | Err e => Err e end) l = Ok e /\
     decode_args ps e = Ok l).
  { induction l as [|[n v] l IH]; intros IN; [exists []; split; reflexivity|].
    destruct IH as (e & E & D). { intros x Hx. apply IN. right; auto. }
    assert (Hn : In (n, v) (c_args k)) by (apply IN; left; auto).
    assert (exists p, In p ps /\ p_name p = n /\ pget a n = Some v) as (p & Hp & PN & GA).
    { rewrite <- B in Hn. unfold picked in Hn. apply in_flat_map in Hn as (p & Hp & Hn). destruct (pget a (p_name p)) as [w|] eqn:GA; [|contradiction].
      destruct Hn as [[= <- <-]|[]]. eauto. }
    subst n. pose proof (decode_args_get ps d a p DN A Hp) as DG. destruct (pget d (p_name p)) as [j0|] eqn:GD; [|congruence].
    destruct DG as (v' & D0 & GA'). rewrite GA in GA'. injection GA' as <-.
    assert (S1 : steady atom_has class (p_ann p)) by (apply ST; auto; eapply pget_in; eauto).
    destruct (dump_round_trip atom_has atom_dec atom_enc float class typed any_atom any_complex SC (p_ann p) v S1) as (j & DU & DE).
    { eapply dec_sound; eauto. }
    exists ((p_name p, j) :: e). split.
    - cbn [mapM fst snd]. rewrite DU. cbn [mapM] in E. rewrite E. reflexivity.
    - cbn [CallModel.decode_args]. rewrite (find_param_name ps p DN Hp), DE, D. reflexivity. }
  destruct (X (c_args k) (fun x h => h)) as (e & E & D).
  eexists. split; [unfold CallModel.encode_call; rewrite E; reflexivity|].
  unfold CallModel.decode_call. cbn [m_name m_args m_id]. rewrite NM, G. fold ps. rewrite D.
  rewrite bind_ok; auto.
  - rewrite <- B, picked_twice by auto. rewrite B. destruct k as [t b i n]. cbn in *. congruence.
  - rewrite <- B. apply picked_nodup. auto.
  - intros n. rewrite <- B. intros Hn. apply picked_keys in Hn as (p & v & Hp & E' & _). eauto.
  - eapply takes_ext; [|exact T]. intros p Hp. rewrite <- B, pget_picked by auto. reflexivity.
Qed.

(** A call as the schema says. *)
Lemma schema_accepted : forall c t key m d, NoDup (map fst c) -> In (key, CTool t) c ->
  (forall k u, In (k, CTool u) c -> t_id u = t_id t -> u = t) ->
  m_name m = a_name (serialize_tool c t) -> m_args m = PDict d -> admits atom_dec float (serialize_tool c t) d ->
  distinct_names (t_params t) -> Forall (fun p => by_name p = true) (t_params t) -> Forall (fun p => wf (p_ann p)) (t_params t) ->
  exists k, decode_call c m = Ok k /\ c_tool k = t.
Proof.
  intros c t key m d NC HC SAME MN MA (ND & OB & AD) DN BN W.
  destruct (advertised c t key NC HC) as (u & V & E). unfold validate_tool in V. rewrite <- MN in V.
  assert (u = t) by (eapply SAME; eauto; eapply cget_in; eauto). subst u.
  destruct (proj2 (accepted_iff c m t d V MA ND DN BN)) as [k Hk].
  - cbn [serialize_tool a_params] in OB, AD. rewrite map_map in OB. cbn [fst] in OB. split.
    + intros n j GD. assert (Hn : In n (map fst d)) by (eapply pget_in; eauto). apply OB in Hn. apply in_map_iff in Hn as (p & <- & Hp).
      destruct (AD (p_name p) (p_ann p)) as (j' & GD' & VA). { apply in_map_iff. exists p. auto. }
      rewrite GD in GD'. injection GD' as <-. rewrite Forall_forall in W.
      destruct (dec_complete atom_dec float (p_ann p) j (W p Hp) VA) as [v D]. eauto.
    + intros p Hp _. apply OB. apply in_map. auto.
  - exists k. split; auto. destruct (decode_call_inv _ _ _ Hk) as (? & ? & G & _). congruence.
Qed.

(** Parameters that cannot be given by name. *)
Lemma bind_positional : forall ps kw acc kwp r p, distinct_names ps -> In p ps -> p_kind p = PosOnly ->
  p_default p = false \/ pget kw (p_name p) <> None -> bind_keywords ps kw acc kwp <> Ok r.
Proof.
  induction ps as [|q ps IH]; intros kw acc kwp r p DN Hp K D; [destruct Hp|].
  inversion DN as [|? ? NI DN']; subst. cbn [bind_keywords]. destruct Hp as [->|Hp].
  - rewrite K. destruct (pget kw (p_name p)); [discriminate|]. destruct D as [->|D]; [discriminate|congruence].
  - assert (NE : p_name p <> p_name q) by (intros E; apply NI; rewrite <- E; apply in_map; auto).
    assert (D' : p_default p = false \/ pget (premove kw (p_name q)) (p_name p) <> None) by (rewrite pget_remove_other; auto).
    destruct (p_kind q); try (eapply IH; eauto; fail); destruct (pget kw (p_name q)); try discriminate; try (eapply IH; eauto; fail);
      destruct (p_default q); try discriminate; eapply IH; eauto.
Qed.
Lemma bind_star : forall ps kw acc r n, distinct_names ps -> In n (map fst kw) ->
  (forall p, In p ps -> p_kind p <> VarKw) -> (forall p, In p ps -> p_name p = n -> p_kind p = VarPos) ->
  NoDup (map fst kw) -> bind_keywords ps kw acc None <> Ok r.
Proof.
  induction ps as [|q ps IH]; intros kw acc r n DN Hn NK V ND; cbn [bind_keywords].
  - destruct kw; [destruct Hn|discriminate].
  - inversion DN as [|? ? NI DN']; subst.
    assert (NK' : forall p, In p ps -> p_kind p <> VarKw) by (intros; apply NK; right; auto).
    assert (V' : forall p, In p ps -> p_name p = n -> p_kind p = VarPos) by (intros; apply V; auto; right; auto).
    assert (R : p_name q <> n -> In n (map fst (premove kw (p_name q)))).
    { intros NE. clear - NE Hn. induction kw as [|[x v] kw IH]; [destruct Hn|]. cbn [premove]. destruct (String.eqb_spec x (p_name q)) as [->|].
      - destruct Hn as [E|Hn]; [cbn in E; contradiction|exact Hn].
      - destruct Hn as [E|Hn]; [left; exact E|right; auto]. }
    destruct (p_kind q) eqn:K.
    3: eapply IH; eauto.
    4: exfalso; eapply NK; [left; reflexivity|exact K].
    all: destruct (pget kw (p_name q)) eqn:G; try discriminate.
    all: try (destruct (p_default q); [|discriminate]; eapply IH; eauto; fail).
    all: apply (IH _ _ _ n); auto; [|apply nodup_remove; auto].
    all: apply R; intros E; specialize (V q (or_introl eq_refl) E); congruence.
Qed.
Lemma bind_keywords_of : forall ps kw r, bind ps kw = Ok r -> exists ps', (ps' = ps \/ exists p, ps = p :: ps' /\ p_kind p = VarPos) /\ bind_keywords ps' kw [] None = Ok r.
Proof.
  intros [|p ps] kw r; [exists []; split; auto|]. unfold bind. destruct (p_kind p) eqn:K.
  3: intros B; exists ps; split; [right; eauto|exact B].
  all: intros B; exists (p :: ps); split; auto.
  all: destruct (pget kw (p_name p)) eqn:G; try discriminate B; try exact B; destruct (p_default p); try discriminate B; exact B.
Qed.

(** A required positional-only parameter: no call is accepted. *)
Lemma positional_refused : forall c m t p, cget c (m_name m) = Some (CTool t) -> distinct_names (t_params t) ->
  In p (t_params t) -> p_kind p = PosOnly -> p_default p = false -> forall k, decode_call c m <> Ok k.
Proof.
  intros c m t p G DN Hp K D k H. destruct (decode_call_inv _ _ _ H) as (d & a & G' & _ & _ & B & _). rewrite G in G'. injection G' as E. rewrite <- E in B.
  apply bind_keywords_of in B as (ps' & [->|(q & EQ & KQ)] & B).
  - eapply bind_positional; eauto.
  - rewrite EQ in *. inversion DN as [|? ? NI DN']; subst. destruct Hp as [->|Hp]; [congruence|]. eapply bind_positional with (p := p); eauto.
Qed.
(** A schema with a parameter [*args] and none for keywords: no call it admits is accepted. *)
Lemma star_refused : forall c m t p d, cget c (m_name m) = Some (CTool t) -> distinct_names (t_params t) ->
  In p (t_params t) -> p_kind p = VarPos -> (forall q, In q (t_params t) -> p_kind q <> VarKw) ->
  m_args m = PDict d -> admits atom_dec float (serialize_tool c t) d -> forall k, decode_call c m <> Ok k.
Proof.
  intros c m t p d G DN Hp K NK MA (ND & OB & _) k H. destruct (decode_call_inv _ _ _ H) as (d' & a & G' & MA' & A & B & _).
  rewrite G in G'. injection G' as E. rewrite <- E in A, B. rewrite MA in MA'. injection MA' as <-.
  assert (Hn : In (p_name p) (map fst a)).
  { rewrite (decode_args_keys _ _ _ A). apply OB. cbn. rewrite map_map. cbn. apply in_map. auto. }
  assert (ND' : NoDup (map fst a)) by (rewrite (decode_args_keys _ _ _ A); auto).
  assert (V : forall q, In q (t_params t) -> p_name q = p_name p -> p_kind q = VarPos).
  { intros q Hq EN. pose proof (find_param_name _ _ DN Hp) as F1. pose proof (find_param_name _ _ DN Hq) as F2. rewrite EN in F2. congruence. }
  apply bind_keywords_of in B as (ps' & [->|(q & EQ & KQ)] & B).
  - eapply (bind_star (t_params t) a [] (c_args k) (p_name p)); eauto.
  - rewrite EQ in *. inversion DN as [|? ? NI DN']; subst.
    eapply (bind_star ps' a [] (c_args k) (p_name p)); eauto; intros; [apply NK|apply V; auto]; right; auto.
Qed.
(** What a parameter for further keywords is sent reaches the tool under its own name. *)
Lemma keywords_nested : forall c m t n ty j v, cget c (m_name m) = Some (CTool t) ->
  t_params t = [{| p_name := n; p_kind := VarKw; p_ann := ty; p_default := false |}] ->
  m_args m = PDict [(n, j)] -> dec ty j = Ok v ->
  exists k, decode_call c m = Ok k /\ receive (t_params t) (fst (called_with k)) (snd (called_with k)) = Some [RKw [(n, v)]].
Proof.
  intros c m t n ty j v G P MA D. eexists. split.
  - unfold CallModel.decode_call. rewrite G, MA, P. cbn [CallModel.decode_args find_param p_name p_ann]. rewrite String.eqb_refl. cbn [p_ann]. rewrite D.
    cbn [bind p_kind p_name pget]. rewrite String.eqb_refl. cbn [bind_keywords p_kind p_name]. reflexivity.
  - unfold called_with. cbn [c_tool c_args]. rewrite P. cbn [args_of p_kind p_name fst snd kwargs_of app pget]. rewrite String.eqb_refl.
    cbn [orb kwargs_of p_kind pupdate fold_left pput fst snd receive option_map]. reflexivity.
Qed.

(** A variadic tuple does not come back. *)
Lemma variadic_lost : forall t x l j, dump (PTuple (x :: l)) = Ok j -> dec (TVariadic t) j = Err EValidation.
Proof.
  intros t x l j. unfold CallModel.dump. cbn [nested]. destruct (mapM (nested class typed) (x :: l)) as [ts|]; [|discriminate].
  rewrite nenc_tuple. destruct (goNE' atom_enc any_atom any_complex 0 ts (x :: l)); [|discriminate]. intros [= <-]. reflexivity.
Qed.
(** A named tuple cannot be encoded: neither as an argument nor as a result. *)
Lemma named_refused : forall cl l k caught feedback, typed cl = true -> dump (PNamed cl l) = Err EType /\
  retry_call_tool atom_enc class typed any_atom any_complex caught feedback k (Ok (PNamed cl l)) = Raised EType.
Proof.
  intros cl l k caught feedback T. unfold retry_call_tool, call_tool. unfold CallModel.dump. cbn [nested]. rewrite T. auto.
Qed.
Lemma namedtuple_refused : forall cl n m k caught feedback j, typed cl = false -> class n = class m -> atom_enc (class n) (PAtom n) = Ok j ->
  retry_call_tool atom_enc class typed any_atom any_complex caught feedback k (Ok (PNamed cl [PAtom n; PAtom m])) = Raised EIndex.
Proof.
  intros cl n m k caught feedback j T C E. unfold retry_call_tool, call_tool, CallModel.dump. cbn [nested mapM]. rewrite T, C. cbn [joined forallb].
  rewrite nty_eqb_refl. cbn [andb nenc]. rewrite <- C, E. reflexivity.
Qed.
(** Nor complex numbers in lists of different types. *)
Lemma complex_lost : forall a b, (forall d, any_complex a b <> Ok (PDict d)) ->
  ~ exists j v, dump (PList [PList [PComplex a b]; PList []]) = Ok j /\ dec (TList (TList TComplex)) j = Ok v.
Proof.
  intros a b N (j & v & D & E). cbv [CallModel.dump] in D. cbn in D. destruct (any_complex a b) as [y|] eqn:A; [|discriminate].
  injection D as <-. cbn in E. destruct y; try discriminate. eapply N; eauto.
Qed.
(** Results. *)
Lemma result_round_trip : scalars_round_trip atom_has atom_dec atom_enc float class any_atom ->
  forall k t v, steady atom_has class t -> has v t ->
  exists j, call_tool atom_enc class typed any_atom any_complex k (Ok v) = Answered (c_id k) j /\ dec t j = Ok v.
Proof.
  intros SC k t v ST H. destruct (dump_round_trip atom_has atom_dec atom_enc float class typed any_atom any_complex SC t v ST H) as (j & D & E).
  exists j. unfold call_tool. rewrite D. auto.
Qed.
End Laws.
