(** Proofs about terms whose type is a dataclass. *)
From Coq Require Import List Bool Arith Lia.
From Verif Require Import DcModel DcSpec.
Import ListNotations.

Scheme conforms_ind2 := Minimality for conforms Sort Prop with conform_all_ind2 := Minimality for conform_all Sort Prop.
Combined Scheme conforms_both from conforms_ind2, conform_all_ind2.

Lemma mem_In x l : mem x l = true <-> In x l.
Proof.
  unfold mem. rewrite existsb_exists. split.
  - intros (y & H & E). apply Nat.eqb_eq in E. subst. exact H.
  - intros H. exists x. split; [exact H|apply Nat.eqb_refl].
Qed.

Section Proofs.
Variable T : table.
Variable declared : nat -> fty.
Variable globals : nat -> option fty.
Variable used : nat -> Prop.
Hypothesis Fit : fits T declared globals used.

Notation kindf := (kind_for T globals).
Notation reb := (rebuild T declared globals).
Notation saf := (safe T used).

Lemma order_head c : used c -> exists l, dispatch_order T c = KeyCls c :: l.
Proof. intros U. destruct (ord_mro _ _ _ _ (fit_used _ _ _ _ Fit c U)) as [l E]. unfold dispatch_order. rewrite E. cbn [flat_map app]. eexists. reflexivity. Qed.

Lemma dispatch_self S c : used c -> In c S -> dispatch T S c = Some (KeyCls c).
Proof. intros U H. destruct (order_head c U) as [l E]. unfold dispatch. rewrite E. cbn [find registered]. apply mem_In in H. rewrite H. reflexivity. Qed.

Lemma dispatch_none S c : used c -> ~ In c S -> (forall k, In k (tl (dispatch_order T c)) -> exists d, k = KeyCls d /\ ~ In d S /\ ~ used d) -> dispatch T S c = None.
Proof.
  intros U N H. destruct (order_head c U) as [l E]. unfold dispatch. rewrite E in *. cbn [tl] in H. cbn [find registered].
  destruct (mem c S) eqn:M; [apply mem_In in M; contradiction|]. clear E. induction l as [|k l IH]; [reflexivity|]. cbn [find].
  destruct (H k (or_introl eq_refl)) as (d & -> & Nd & _). cbn [registered]. destruct (mem d S) eqn:Md; [apply mem_In in Md; contradiction|]. apply IH. intros k' H'. apply H. right. exact H'.
Qed.

Lemma instantiate_ok c : used c -> instantiate T c = Ok (KData c).
Proof.
  intros U. pose proof (fit_used _ _ _ _ Fit c U) as O. unfold instantiate. rewrite (ord_concrete _ _ _ _ O).
  destruct (existsb private (map fst (fields (T c)))) eqn:E; [|reflexivity]. apply existsb_exists in E. destruct E as (f & Hf & P). apply in_map_iff in Hf. destruct Hf as ([f' ty] & <- & H). cbn [fst] in P. destruct (ord_names _ _ _ _ O f' ty H) as [_ N]. congruence.
Qed.
Lemma no_reserved c : used c -> existsb reserved (map fst (fields (T c))) = false.
Proof.
  intros U. pose proof (fit_used _ _ _ _ Fit c U) as O. destruct (existsb reserved (map fst (fields (T c)))) eqn:E; [|reflexivity]. apply existsb_exists in E. destruct E as (f & Hf & P). apply in_map_iff in Hf. destruct Hf as ([f' ty] & <- & H). cbn [fst] in P. destruct (ord_names _ _ _ _ O f' ty H) as [N _]. congruence.
Qed.

Lemma dec_in (c : nat) S : In c S \/ ~ In c S.
Proof. destruct (in_dec Nat.eq_dec c S); auto. Qed.

Lemma safe_add S c : saf S -> used c -> saf (c :: S).
Proof.
  intros H U d Ud. destruct (H d Ud) as [I|I]; [left; right; exact I|]. right. intros k Hk. destruct (I k Hk) as (e & -> & N & Nu). exists e. split; [reflexivity|]. split; [|exact Nu]. intros [->|Q]; contradiction.
Qed.

(** A term of class [c] *)
Lemma make_class_ok S c : saf S -> used c -> exists S', make_class T S c = (Ok (KData c), S') /\ incl S S' /\ saf S' /\ In c S'.
Proof.
  intros Sf U. unfold make_class. destruct (dec_in c S) as [I|N].
  - rewrite (dispatch_self S c U I), (instantiate_ok c U). exists S. split; [reflexivity|]. split; [apply incl_refl|]. split; assumption.
  - destruct (Sf c U) as [I|H]; [contradiction|]. rewrite (dispatch_none S c U N H), (ord_data _ _ _ _ (fit_used _ _ _ _ Fit c U)), (no_reserved c U), (instantiate_ok c U).
    exists (c :: S). split; [reflexivity|]. split; [apply incl_tl, incl_refl|]. split; [apply safe_add; assumption|left; reflexivity].
Qed.
Lemma make_class_again S c : used c -> In c S -> make_class T S c = (Ok (KData c), S).
Proof. intros U I. unfold make_class. rewrite (dispatch_self S c U I), (instantiate_ok c U). reflexivity. Qed.

Definition kind_of (ty : fty) (k : kind) : Prop := (resolve globals ty = Some FNum /\ k = KNum) \/ exists c, resolve globals ty = Some (FCls c) /\ used c /\ k = KData c.
Lemma kind_ok ty S : saf S -> plain globals used ty -> exists k S', kindf ty S = (Ok k, S') /\ incl S S' /\ saf S' /\ kind_of ty k /\ forall S'', incl S' S'' -> kindf ty S'' = (Ok k, S'').
Proof.
  intros Sf [E|(c & E & U)]; unfold kind_for, make_kind.
  - rewrite E. exists KNum, S. split; [reflexivity|]. split; [apply incl_refl|]. split; [exact Sf|]. split; [left; auto|reflexivity].
  - rewrite E. destruct (make_class_ok S c Sf U) as (S' & H & I & Sf' & In'). exists (KData c), S'. split; [exact H|]. split; [exact I|]. split; [exact Sf'|]. split; [right; eauto|]. intros S'' I'. apply make_class_again; [exact U|apply I'; exact In'].
Qed.

(** ** Values of the program on terms and on objects *)
Variable env : nat -> val.
Hypothesis Env : forall o, conforms T globals (env o) (declared o).
Notation eval := (evaluate T declared globals (everything env)).
Definition good (S : state) (w : val) : Prop := forall S', incl S S' -> reb w S' = (Ok w, S').
Definition evaluates (w v : val) : Prop := forall S, eval w S = (Ok v, S).

Inductive rel (S : state) : val -> val -> Prop :=
| rel_num n : rel S (VNum n) (VNum n)
| rel_obj c fs gs : rel_all S fs gs -> rel S (VObj c fs) (VObj c gs)
| rel_tnum w n : good S w -> is_term w = Some KNum -> evaluates w (VNum n) -> rel S w (VNum n)
| rel_tobj w c gs : good S w -> is_term w = Some (KData c) -> used c -> evaluates w (VObj c gs) -> conform_all T globals gs (fields (T c)) -> rel S w (VObj c gs)
with rel_all (S : state) : list (nat * val) -> list (nat * val) -> Prop :=
| rel_nil : rel_all S [] []
| rel_cons f w v fs gs : rel S w v -> rel_all S fs gs -> rel_all S ((f, w) :: fs) ((f, v) :: gs).
Scheme rel_ind2 := Minimality for rel Sort Prop with rel_all_ind2 := Minimality for rel_all Sort Prop.
Combined Scheme rel_both from rel_ind2, rel_all_ind2.

Lemma good_mono S S' w : incl S S' -> good S w -> good S' w.
Proof. intros I G S'' I'. apply G. intros x Hx. apply I', I, Hx. Qed.
Lemma rel_mono S S' : incl S S' -> (forall w v, rel S w v -> rel S' w v) /\ (forall fs gs, rel_all S fs gs -> rel_all S' fs gs).
Proof.
  intros I. apply rel_both.
  - intros n. constructor.
  - intros c fs gs _ H. constructor. exact H.
  - intros w n G K E. apply rel_tnum; [eapply good_mono; eassumption|exact K|exact E].
  - intros w c gs G K U E C. eapply rel_tobj; [eapply good_mono; eassumption|exact K|exact U|exact E|exact C].
  - constructor.
  - intros f w v fs gs _ H _ Hs. constructor; assumption.
Qed.
Lemma rel_evaluates S : (forall w v, rel S w v -> evaluates w v) /\ (forall fs gs, rel_all S fs gs -> forall S', each eval fs S' = (Ok gs, S')).
Proof.
  apply rel_both.
  - intros n S'. reflexivity.
  - intros c fs gs _ H S'. cbn [evaluate]. unfold bind. rewrite H. unfold replaced. rewrite (fit_init _ _ _ _ Fit c). reflexivity.
  - intros w n _ _ E. exact E.
  - intros w c gs _ _ _ E _. exact E.
  - intros S'. reflexivity.
  - intros f w v fs gs _ H _ Hs S'. cbn [each]. unfold bind. rewrite H, Hs. reflexivity.
Qed.
Lemma rel_good S : (forall w v, rel S w v -> good S w) /\ (forall fs gs, rel_all S fs gs -> forall S', incl S S' -> each reb fs S' = (Ok fs, S')).
Proof.
  apply rel_both.
  - intros n S' _. reflexivity.
  - intros c fs gs _ H S' I. cbn [rebuild]. unfold bind. rewrite (H S' I). unfold replaced. rewrite (fit_init _ _ _ _ Fit c). reflexivity.
  - intros w n G _ _. exact G.
  - intros w c gs G _ _ _ _. exact G.
  - intros S' _. reflexivity.
  - intros f w v fs gs _ H _ Hs S' I. cbn [each]. unfold bind. rewrite (H S' I), (Hs S' I). reflexivity.
Qed.
Lemma rel_direct S w v : rel S w v -> is_term v = None.
Proof. intros H. destruct H; reflexivity. Qed.
Lemma rel_class S w v : rel S w v -> class_of w = class_of v.
Proof. intros H. destruct H as [n|c fs gs _|w n _ K _|w c gs _ K _ _ _]; try reflexivity; destruct w; try discriminate K; cbn in K |- *; first [reflexivity|injection K as ->; reflexivity]. Qed.
Lemma rel_lookup S fs gs f v : rel_all S fs gs -> lookup f gs = Some v -> exists w, lookup f fs = Some w /\ rel S w v.
Proof.
  intros H. induction H as [|g w x fs gs Hx H IH]; cbn [lookup]; [discriminate|]. destruct (Nat.eqb f g); [|exact IH]. intros E. injection E as <-. exists w. split; [reflexivity|exact Hx].
Qed.
Lemma conform_lookup gs tys f v : conform_all T globals gs tys -> lookup f gs = Some v -> exists ty, lookup f tys = Some ty /\ conforms T globals v ty.
Proof.
  intros H. induction H as [|g x gs ty tys Hx H IH]; cbn [lookup]; [discriminate|]. destruct (Nat.eqb f g); [|exact IH]. intros E. injection E as <-. exists ty. split; [reflexivity|exact Hx].
Qed.
Lemma lookup_in {A} f (l : list (nat * A)) x : lookup f l = Some x -> In (f, x) l.
Proof. induction l as [|[g y] l IH]; cbn [lookup]; [discriminate|]. destruct (Nat.eqb f g) eqn:E; [apply Nat.eqb_eq in E; intros H; injection H as <-; subst; left; reflexivity|intros H; right; apply IH; exact H]. Qed.

(** A new term whose value conforms to its type *)
Lemma new_term S ty k v w : kind_of ty k -> conforms T globals v ty -> is_term w = Some k -> good S w -> evaluates w v -> rel S w v.
Proof.
  intros K C Tw G E. destruct K as [[R ->]|(c & R & U & ->)].
  - destruct C as [n ty' R'|c fs ty' R' _]; [|congruence]. apply rel_tnum; assumption.
  - destruct C as [n ty' R'|d fs ty' R' F]; [congruence|]. assert (d = c) by congruence. subst d. eapply rel_tobj; eassumption.
Qed.

Notation sym := (run T declared globals nothing).
Notation dir := (run T declared globals (everything env)).
(** The program on terms keeps up *)
Definition follows (S : state) (m : M val) (v : val) : Prop := exists w S', m S = (Ok w, S') /\ incl S S' /\ saf S' /\ rel S' w v.

Lemma op_follows S o : saf S -> follows S (call_op T declared globals nothing o) (env o).
Proof.
  intros Sf. destruct (kind_ok (declared o) S Sf (fit_ops _ _ _ _ Fit o)) as (k & S' & E & I & Sf' & K & St).
  exists (VOp k o), S'. unfold call_op, nothing, bind. rewrite E. split; [reflexivity|]. split; [exact I|]. split; [exact Sf'|].
  eapply new_term; [exact K|apply Env|reflexivity| |].
  - intros S'' I'. cbn [rebuild]. unfold bind. rewrite (St S'' I'). reflexivity.
  - intros S0. reflexivity.
Qed.

Lemma get_follows S w v f S0 x S0' : saf S -> rel S w v -> get_attr T declared globals v f S0 = (Ok x, S0') -> S0' = S0 /\ follows S (get_attr T declared globals w f) x.
Proof.
  intros Sf R H. destruct R as [n|c fs gs R|w n G K E|w c gs G K U E C].
  - discriminate H.
  - cbn in H |- *. destruct (lookup f gs) as [y|] eqn:L; [|discriminate H]. injection H as <- <-. split; [reflexivity|]. destruct (rel_lookup S fs gs f y R L) as (w & Lw & Rw). exists w, S. unfold get_attr. cbn. rewrite Lw. split; [reflexivity|]. split; [apply incl_refl|]. split; assumption.
  - discriminate H.
  - cbn in H. destruct (lookup f gs) as [y|] eqn:L; [|discriminate H]. injection H as <- <-. split; [reflexivity|].
    destruct (conform_lookup gs _ f y C L) as (ty & Lt & Cy). pose proof (fit_used _ _ _ _ Fit c U) as O.
    destruct (kind_ok ty S Sf (ord_fields _ _ _ _ O f ty (lookup_in _ _ _ Lt))) as (k & S' & Ek & I & Sf' & Kk & St).
    assert (FT : field_type T c f = ty) by (unfold field_type; rewrite Lt; reflexivity).
    exists (VGet k c f w), S'. split; [|split; [exact I|split; [exact Sf'|]]].
    + assert (X : get_attr T declared globals w f = call_get T declared globals c f w) by (clear -K Lt; destruct w; try discriminate K; cbn in K; injection K as ->; unfold get_attr; cbn [is_term]; rewrite Lt; reflexivity).
      rewrite X. unfold call_get. rewrite K. unfold bind. rewrite (G S (incl_refl S)), FT, Ek. reflexivity.
    + eapply new_term; [exact Kk|exact Cy|reflexivity| |].
      * intros S'' I'. cbn [rebuild]. unfold bind. rewrite (G S'') by (intros z Hz; apply I', I, Hz). rewrite FT, (St S'' I'). reflexivity.
      * intros S1. cbn [evaluate]. unfold bind. rewrite (E S1). unfold call_get. cbn [is_term]. rewrite (ord_dict _ _ _ _ O), L. reflexivity.
Qed.

Lemma add_follows S a b va vb S0 x S0' : saf S -> rel S a va -> rel S b vb -> add T declared globals va vb S0 = (Ok x, S0') -> S0' = S0 /\ follows S (add T declared globals a b) x.
Proof.
  intros Sf Ra Rb H. unfold add in H. rewrite (rel_direct _ _ _ Ra), (rel_direct _ _ _ Rb) in H. unfold call_add in H. rewrite (rel_direct _ _ _ Ra), (rel_direct _ _ _ Rb) in H.
  destruct va as [m| | | |]; try discriminate H. destruct vb as [n| | | |]; try discriminate H. injection H as <- <-. split; [reflexivity|].
  pose proof (proj1 (rel_good S) _ _ Ra) as Ga. pose proof (proj1 (rel_good S) _ _ Rb) as Gb. pose proof (proj1 (rel_evaluates S) _ _ Ra) as Ea. pose proof (proj1 (rel_evaluates S) _ _ Rb) as Eb.
  assert (Q : (a = VNum m /\ b = VNum n) \/ add T declared globals a b = (fun S1 => bind (reb a) (fun a' => bind (reb b) (fun b' => ret (VAdd a' b'))) S1)).
  { unfold add, call_add. assert (Ka : a = VNum m \/ is_term a = Some KNum) by (clear -Ra; remember (VNum m) as v eqn:Ev; destruct Ra as [k| |w k _ Kw _|]; auto; discriminate Ev).
    assert (Kb : b = VNum n \/ is_term b = Some KNum) by (clear -Rb; remember (VNum n) as v eqn:Ev; destruct Rb as [k| |w k _ Kw _|]; auto; discriminate Ev).
    destruct Ka as [->|Ka], Kb as [->|Kb]; [left; auto|right..]; rewrite ?Ka, ?Kb; cbn [is_term]; reflexivity. }
  destruct Q as [[-> ->]|Q].
  - exists (VNum (m + n)), S. split; [reflexivity|]. split; [apply incl_refl|]. split; [exact Sf|constructor].
  - exists (VAdd a b), S. rewrite Q. unfold bind. rewrite (Ga S (incl_refl S)), (Gb S (incl_refl S)). split; [reflexivity|]. split; [apply incl_refl|]. split; [exact Sf|]. apply rel_tnum; [|reflexivity|].
    + intros S' I. cbn [rebuild]. unfold bind. rewrite (Ga S' I), (Gb S' I). reflexivity.
    + intros S1. cbn [evaluate]. unfold bind. rewrite (Ea S1), (Eb S1). reflexivity.
Qed.

Definition rel_self (S : state) (w v : option val) : Prop := match w, v with Some x, Some y => rel S x y | None, None => True | _, _ => False end.
Lemma rel_self_mono S S' w v : incl S S' -> rel_self S w v -> rel_self S' w v.
Proof. intros I. destruct w, v; cbn; auto. apply rel_mono. exact I. Qed.

Lemma run_follows fuel : forall self self' e S S0 v S0', saf S -> rel_self S self' self -> dir fuel self e S0 = (Ok v, S0') -> S0' = S0 /\ follows S (sym fuel self' e) v.
Proof.
  induction fuel as [|fuel IH]; intros self self' e S S0 v S0' Sf Rs H; [discriminate H|].
  destruct e as [n|o| |e f|e m|a b|e c a b|c fs]; cbn [run] in H |- *.
  - injection H as <- <-. split; [reflexivity|]. exists (VNum n), S. split; [reflexivity|]. split; [apply incl_refl|]. split; [exact Sf|constructor].
  - unfold call_op at 1 in H. injection H as <- <-. split; [reflexivity|]. apply op_follows. exact Sf.
  - destruct self as [x|]; [|discriminate H]. injection H as <- <-. split; [reflexivity|]. destruct self' as [y|]; [|contradiction Rs]. exists y, S. split; [reflexivity|]. split; [apply incl_refl|]. split; assumption.
  - unfold bind in H at 1. destruct (dir fuel self e S0) as [[x|er] S1] eqn:E; [|discriminate H]. destruct (IH _ _ _ _ _ _ _ Sf Rs E) as (-> & w & S' & Ew & I & Sf' & Rw).
    destruct (get_follows S' w x f S0 v S0' Sf' Rw H) as (-> & w' & S'' & Ew' & I' & Sf'' & Rw'). split; [reflexivity|]. exists w', S''. unfold bind. rewrite Ew, Ew'. split; [reflexivity|]. split; [eapply incl_tran; eassumption|]. split; assumption.
  - unfold bind in H at 1. destruct (dir fuel self e S0) as [[x|er] S1] eqn:E; [|discriminate H]. destruct (IH _ _ _ _ _ _ _ Sf Rs E) as (-> & w & S' & Ew & I & Sf' & Rw).
    unfold bind. rewrite <- (rel_class _ _ _ Rw) in H. destruct (class_of w) as [c|] eqn:Cl; [|discriminate H]. destruct (find_method T m (mro (T c))) as [body|] eqn:Fm; [|discriminate H].
    destruct (IH (Some x) (Some w) body S' S0 v S0' Sf' Rw H) as (-> & w' & S'' & Ew' & I' & Sf'' & Rw'). split; [reflexivity|]. exists w', S''. rewrite Ew, Cl, Fm, Ew'. split; [reflexivity|]. split; [eapply incl_tran; eassumption|]. split; assumption.
  - unfold bind in H at 1. destruct (dir fuel self a S0) as [[x|er] S1] eqn:E; [|discriminate H]. destruct (IH _ _ _ _ _ _ _ Sf Rs E) as (-> & w & S' & Ew & I & Sf' & Rw).
    unfold bind in H. destruct (dir fuel self b S0) as [[y|er] S1] eqn:E2; [|discriminate H]. destruct (IH self self' b S' S0 y S1 Sf' (rel_self_mono _ _ _ _ I Rs) E2) as (-> & w2 & S'' & Ew2 & I2 & Sf2 & Rw2).
    destruct (add_follows S'' w w2 x y S0 v S0' Sf2 (proj1 (rel_mono _ _ I2) _ _ Rw) Rw2 H) as (-> & w3 & S3 & Ew3 & I3 & Sf3 & Rw3). split; [reflexivity|]. exists w3, S3. unfold bind. rewrite Ew, Ew2, Ew3. split; [reflexivity|]. split; [eapply incl_tran; [exact I|]; eapply incl_tran; eassumption|]. split; assumption.
  - unfold bind in H at 1. destruct (dir fuel self e S0) as [[x|er] S1] eqn:E; [|discriminate H]. destruct (IH _ _ _ _ _ _ _ Sf Rs E) as (-> & w & S' & Ew & I & Sf' & Rw).
    assert (Ci : isinstance T w c = isinstance T x c) by (unfold isinstance; rewrite (rel_class _ _ _ Rw); reflexivity).
    unfold bind. destruct (isinstance T x c) eqn:Ei.
    + destruct (IH self self' a S' S0 v S0' Sf' (rel_self_mono _ _ _ _ I Rs) H) as (-> & w' & S'' & Ew' & I' & Sf'' & Rw'). split; [reflexivity|]. exists w', S''. rewrite Ew, Ci, Ew'. split; [reflexivity|]. split; [eapply incl_tran; eassumption|]. split; assumption.
    + destruct (IH self self' b S' S0 v S0' Sf' (rel_self_mono _ _ _ _ I Rs) H) as (-> & w' & S'' & Ew' & I' & Sf'' & Rw'). split; [reflexivity|]. exists w', S''. rewrite Ew, Ci, Ew'. split; [reflexivity|]. split; [eapply incl_tran; eassumption|]. split; assumption.
  - unfold bind in H at 1. destruct (eache (dir fuel self) fs S0) as [[gs|er] S1] eqn:E; [|discriminate H].
    assert (All : S1 = S0 /\ exists ws S', eache (sym fuel self') fs S = (Ok ws, S') /\ incl S S' /\ saf S' /\ rel_all S' ws gs).
    { clear H. revert S S0 S1 gs Sf Rs E. induction fs as [|[f e] fs IHf]; intros S S0 S1 gs Sf Rs E; cbn [eache] in E |- *.
      - injection E as <- <-. split; [reflexivity|]. exists [], S. split; [reflexivity|]. split; [apply incl_refl|]. split; [exact Sf|constructor].
      - unfold bind in E at 1. destruct (dir fuel self e S0) as [[x|er] S2] eqn:E1; [|discriminate E]. destruct (IH _ _ _ _ _ _ _ Sf Rs E1) as (-> & w & S' & Ew & I & Sf' & Rw).
        unfold bind in E. destruct (eache (dir fuel self) fs S0) as [[xs|er] S2] eqn:E2; [|discriminate E]. injection E as <- <-. destruct (IHf S' S0 S2 xs Sf' (rel_self_mono _ _ _ _ I Rs) E2) as (-> & ws & S'' & Ews & I' & Sf'' & Rws).
        split; [reflexivity|]. exists ((f, w) :: ws), S''. unfold bind. rewrite Ew, Ews. split; [reflexivity|]. split; [eapply incl_tran; eassumption|]. split; [exact Sf''|]. constructor; [apply (proj1 (rel_mono _ _ I')); exact Rw|exact Rws]. }
    destruct All as (-> & ws & S' & Ews & I & Sf' & Rws).
    assert (Nm : map fst ws = map fst gs) by (clear -Rws; induction Rws; cbn; congruence).
    destruct (abstract (T c)) eqn:Ab; [discriminate H|]. destruct (same_names (map fst gs) (map fst (fields (T c)))) eqn:Sn; [|discriminate H]. injection H as <- <-. split; [reflexivity|].
    exists (VObj c ws), S'. unfold bind. rewrite Ews. cbv beta iota. rewrite Nm, Sn. split; [destruct (abstract (T c)); [discriminate Ab|reflexivity]|]. split; [exact I|]. split; [exact Sf'|constructor; exact Rws].
Qed.

(** Running on terms and evaluating later is running on the objects. *)
Lemma commutes fuel e v S S0 S0' : saf S -> dir fuel None e S0 = (Ok v, S0') -> exists w S', sym fuel None e S = (Ok w, S') /\ saf S' /\ forall S'', eval w S'' = (Ok v, S'').
Proof.
  intros Sf H. destruct (run_follows fuel None None e S S0 v S0' Sf Logic.I H) as (_ & w & S' & E & _ & Sf' & R). exists w, S'. split; [exact E|]. split; [exact Sf'|]. apply (proj1 (rel_evaluates S') _ _ R).
Qed.
End Proofs.

(** ** Histories *)
Section Histories.
Variable T : table.
Variable declared : nat -> fty.
Variable globals : nat -> option fty.
Variable used : nat -> Prop.
Hypothesis Fit : fits T declared globals used.

Lemma history_safe history : forall S, safe T used S -> safe T used (after_calls T declared globals history S).
Proof.
  induction history as [|o history IH]; intros S Sf; [exact Sf|]. unfold after_calls. cbn [fold_left]. apply IH.
  destruct (kind_ok T declared globals used Fit (declared o) S Sf (fit_ops _ _ _ _ Fit o)) as (k & S' & E & _ & Sf' & _). unfold call_op, bind. rewrite E. exact Sf'.
Qed.

(** The class of a term of type [c], whatever was made before: exactly when it is an instance of [c] *)
Lemma instance_iff S c o : used c -> declared o = FCls c -> (exists k S', call_op T declared globals (fun _ => None) o S = (Ok (VOp k o), S') /\ k = KData c) <->
  In c S \/ forall k, In k (tl (dispatch_order T c)) -> exists d, k = KeyCls d /\ (d = c \/ ~ In d S).
Proof.
  intros U Do. unfold call_op, bind, kind_for, make_kind. rewrite Do. cbn [resolve]. unfold make_class. destruct (dec_in c S) as [I|N].
  - rewrite (dispatch_self T declared globals used Fit S c U I), (instantiate_ok T declared globals used Fit c U). split; [auto|]. intros _. exists (KData c), S. split; reflexivity.
  - destruct (order_head T declared globals used Fit c U) as [l E]. unfold dispatch. rewrite E. cbn [tl find registered]. destruct (mem c S) eqn:Mc; [apply mem_In in Mc; contradiction|].
    destruct (find (registered S) l) as [k|] eqn:Fk.
    + apply find_some in Fk. destruct Fk as [Hk Rk]. split.
      * intros (k' & S' & H & ->). exfalso. destruct k as [d|a]; [|discriminate H]. cbn in Rk. apply mem_In in Rk. unfold instantiate in H. destruct (abstract (T d)); [discriminate H|]. destruct (existsb private (map fst (fields (T d)))); [discriminate H|]. injection H as H _. subst d. contradiction.
      * intros [I|H]; [contradiction|]. destruct (H k Hk) as (d & -> & [->|Nd]); cbn in Rk; apply mem_In in Rk; contradiction.
    + rewrite (ord_data _ _ _ _ (fit_used _ _ _ _ Fit c U)), (no_reserved T declared globals used Fit c U), (instantiate_ok T declared globals used Fit c U). split.
      * intros _. right. intros k Hk. pose proof (find_none _ _ Fk k Hk) as Rk. destruct k as [d|a]; [|discriminate Rk]. exists d. split; [reflexivity|]. right. intros X. apply mem_In in X. cbn in Rk. congruence.
      * intros _. eexists. eexists. split; reflexivity.
Qed.
End Histories.
