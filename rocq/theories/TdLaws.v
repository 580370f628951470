(** Unification of typed dictionaries: the hints are the fields, and what the unifier accepts may be read and written. *)
From Coq Require Import List Bool Arith Lia.
Import ListNotations.
From Verif Require Import TdModel TdSpec TdProofs.

Section Below.
Variable below : nat -> nat -> bool.
Variable formal : nat -> bool.
Notation has := (has below).
Notation good := (good below).
Notation fgood := (fgood below).
Notation proper := (proper formal).
Notation proper_f := (proper_f formal).
Notation plain := (plain formal).
Notation direct := (direct formal).
Notation slots := (slots below).
Notation slots_of := (slots_of below).
Notation nobody := (fun _ : nat => False).
Notation open := (fun x : nat => formal x = false).

(** 1. Fields and hints *)
Definition slot : Type := nat * bool * bool * (val -> Prop).
Definition sees (e : bool) (rho : env) (f : fld) (k : slot) : Prop :=
  let '(n, o, r, P) := k in fname f = n /\ fopt f = o /\ fread f = r /\ forall x, P x <-> has e rho x (ftype f).
Definition slot_good (d : list (nat * val)) (k : slot) : Prop := let '(n, o, _, P) := k in field_good d n o P.
Lemma good_slots c : forall e rho d, good e rho d c <-> all (slot_good d) (slots e rho c).
Proof.
  induction c as [|dc ps b IH ba fs]; intros e rho d; [reflexivity|]. cbn [TdSpec.good TdSpec.slots]. rewrite all_app, <- IH.
  assert (F : all (fgood e rho d) fs <-> all (slot_good d) (map (fun f => (fname f, fopt f, fread f, fun x => has e rho x (ftype f))) fs)).
  { clear. induction fs as [|f fs IH]; [reflexivity|]. cbn [map all]. rewrite IH. destruct f as [n t o r]. cbn [TdSpec.fgood slot_good fname fopt fread ftype]. reflexivity. }
  rewrite F. reflexivity.
Qed.
Lemma has_dict e rho v c a : has e rho v (TDict c a) <->
  exists d, v = VDict d /\ all (slot_good d) (slots_of e rho c a) /\ (e = true -> forall n x, get d n = Some x -> In n (map fname (raw c))).
Proof. unfold TdSpec.slots_of. cbn [TdSpec.has]. split; intros [d [-> [H1 H2]]]; exists d; (split; [reflexivity|]; split; [apply good_slots; exact H1|exact H2]). Qed.
Lemma sees_good e rho d h ks : Forall2 (sees e rho) h ks -> all (slot_good d) ks <-> all (fgood e rho d) h.
Proof.
  induction 1 as [|f [[[n o] r] P] h ks S F IH]; [reflexivity|]. cbn [all]. rewrite IH. destruct f as [m t o' r']. cbn [sees fname fopt fread ftype] in S. destruct S as (-> & -> & -> & S).
  cbn [slot_good TdSpec.fgood]. unfold field_good. destruct (get d n) as [x|]; [rewrite (S x)|]; reflexivity.
Qed.
Definition kept (f : ty -> res ty) (a b : fld) : Prop := fname b = fname a /\ fopt b = fopt a /\ fread b = fread a /\ f (ftype a) = Ok (ftype b).
Lemma each_inv f l : forall q, each_field f l = Ok q -> Forall2 (kept f) l q.
Proof.
  induction l as [|[n t o r] l IH]; intros q H; cbn [each_field] in H; [injection H as <-; constructor|].
  destruct (f t) as [t'| |] eqn:E; try discriminate H. cbn [bind] in H. destruct (each_field f l) as [q'| |]; try discriminate H. cbn [bind] in H. injection H as <-.
  constructor; [|apply IH; reflexivity]. repeat split. exact E.
Qed.
Lemma plain_raw c : plain c -> all (proper_f nobody) (raw c).
Proof. induction c as [|dc ps b IH ba fs]; cbn [TdSpec.plain raw]; [trivial|]. intros (-> & -> & W1 & W2). rewrite all_app. split; [apply IH; exact W1|exact W2]. Qed.
Lemma own_closed e rho rho' fs : all (proper_f nobody) fs -> Forall2 (sees e rho) fs (map (fun f => (fname f, fopt f, fread f, fun x => has e rho' x (ftype f))) fs).
Proof.
  intros W. apply map_f2. intros f I. rewrite all_in in W. specialize (W f I). destruct f as [n t o r]. cbn [sees fname fopt fread ftype TdSpec.proper_f] in *. repeat split;
  apply (has_iff below formal t nobody e rho' rho x W); intros y v [].
Qed.
Lemma slots_plain c : plain c -> forall e rho rho', Forall2 (sees e rho) (raw c) (slots e rho' c).
Proof.
  induction c as [|dc ps b IH ba fs]; cbn [TdSpec.plain raw TdSpec.slots]; [constructor|]. intros (-> & -> & W1 & W2) e rho rho'.
  apply Forall2_app; [apply IH; exact W1|]. apply own_closed; exact W2.
Qed.
Lemma closed_weaken (B' : nat -> Prop) : (forall x, formal x = true -> ~ B' x) -> forall t, proper nobody t -> proper B' t.
Proof. intros NB. apply weaken; [intros x []|exact NB]. Qed.
Lemma substitute_closed n t s t' : proper nobody t -> substitute n t s = Ok t' -> t' = t.
Proof.
  intros W. destruct n as [|n]; cbn [substitute]; [discriminate|]. destruct (existsb (bound s) (fvs t)) eqn:X; [|intros H; injection H as <-; reflexivity].
  apply existsb_exists in X. destruct X as [x [I _]]. destruct (proper_fvs formal t nobody W x I).
Qed.
Section Pieces.
Variable B' : nat -> Prop.
Hypothesis NB : forall x, formal x = true -> ~ B' x.
Definition piece (e : bool) (rho : env) (q : list fld) (ks : list slot) : Prop := Forall2 (sees e rho) q ks.
Lemma piece_closed n s fs q : all (proper_f nobody) fs -> Forall2 (kept (fun t => substitute n t s)) fs q -> q = fs.
Proof.
  intros W F. induction F as [|f g fs q K F IH]; [reflexivity|]. destruct W as [W1 W2]. rewrite (IH W2). f_equal. destruct f as [m t o r], g as [m' t' o' r'].
  destruct K as (K1 & K2 & K3 & K4). cbn [fname fopt fread ftype TdSpec.proper_f] in *. subst. rewrite (substitute_closed _ _ _ _ W1 K4). reflexivity.
Qed.
Lemma closed_all fs : all (proper_f nobody) fs -> all (proper_f B') fs.
Proof. rewrite !all_in. intros W f I. specialize (W f I). destruct f as [m t o r]. apply closed_weaken; assumption. Qed.
Lemma piece_params n ps l fs q : all (proper B') l -> length l = length ps -> (forall x, In x ps -> formal x = true) -> all (proper_f (fun x => In x ps)) fs ->
  Forall2 (kept (fun t => substitute n t (zip ps l))) fs q ->
  all (proper_f B') q /\ (forall e rho, Forall2 (sees e rho) q (map (fun f => (fname f, fopt f, fread f, fun x => has e (over rho ps (map (fun u x => has e rho x u) l)) x (ftype f))) fs)).
Proof.
  intros Wl L FP W F.
  assert (HS : forall x, In x ps -> exists u, get (zip ps l) x = Some u /\ proper B' u).
  { intros x I. destruct (get_some ps l x L I) as [u [G Iu]]. exists u. split; [exact G|]. rewrite all_in in Wl. exact (Wl u Iu). }
  assert (HN : forall x, B' x -> get (zip ps l) x = None).
  { intros x Bx. apply get_not. intros I. exact (NB x (FP x I) Bx). }
  induction F as [|f g fs q K F IH]; [split; [exact Logic.I|constructor]|]. destruct W as [W1 W2]. destruct (IH W2) as [I1 I2]. destruct f as [m t o r], g as [m' t' o' r'].
  destruct K as (K1 & K2 & K3 & K4). cbn [fname fopt fread ftype TdSpec.proper_f] in *. subst m' o' r'.
  pose proof (substitute_ok formal (fun x => In x ps) B' (zip ps l) HS HN NB n t t' W1 K4) as ->. split.
  - cbn [all TdSpec.proper_f]. split; [|exact I1]. exact (replace_proper formal (zip ps l) _ B' HS NB t W1).
  - intros e rho. cbn [map]. constructor; [|apply I2]. cbn [sees fname fopt fread ftype]. repeat split; try reflexivity.
    + intros H. apply (replace_has below formal (zip ps l) e rho t (fun x => In x ps) x W1). revert H. apply (has_iff below formal t (fun x => In x ps) e); [exact W1|].
      intros y v I. unfold after, over. rewrite get_map. destruct (HS y I) as [u [G _]]. unfold zip in *. rewrite G. reflexivity.
    + intros H. apply (replace_has below formal (zip ps l) e rho t (fun x => In x ps) x W1) in H. revert H. apply (has_iff below formal t (fun x => In x ps) e); [exact W1|].
      intros y v I. unfold after, over. rewrite get_map. destruct (HS y I) as [u [G _]]. unfold zip in *. rewrite G. reflexivity.
Qed.
Lemma kept_names f l q : Forall2 (kept f) l q -> map fname q = map fname l.
Proof. induction 1 as [|a b l q K F IH]; [reflexivity|]. cbn [map]. rewrite IH, (proj1 K). reflexivity. Qed.
Lemma hints_ok n c a h : proper B' (TDict c a) -> hints n c a = Ok h ->
  all (proper_f B') h /\ map fname h = map fname (raw c) /\ (forall e rho, Forall2 (sees e rho) h (slots_of e rho c a)).
Proof.
  intros W H. unfold TdSpec.slots_of. cbn [TdSpec.proper] in W. destruct W as [_ [_ W]]. destruct c as [|dc ps b ba fs]; [destruct a; destruct W|]. destruct a as [l|]; cbn [hints] in H.
  - destruct W as (Wl & L & -> & _ & FP & Wb & -> & Wf). cbn [type_params raw params TdSpec.slots] in *. apply each_inv in H. pose proof (kept_names _ _ _ H) as N.
    apply Forall2_app_inv_l in H. destruct H as (q1 & q2 & F1 & F2 & ->). pose proof (piece_closed _ _ _ _ (plain_raw b Wb) F1) as ->.
    destruct (piece_params n ps l fs q2 Wl L (fun x I => proj1 (FP x I)) Wf F2) as [P1 P2]. split; [|split; [exact N|]].
    + rewrite all_app. split; [apply closed_all, plain_raw, Wb|exact P1].
    + intros e rho. apply Forall2_app; [apply slots_plain; exact Wb|apply P2].
  - destruct W as (-> & Wf & Wb). cbn [base_subs raw TdSpec.slots] in *. destruct ba as [l|].
    + destruct Wb as [Wl Wb]. destruct b as [|db psb bb bba fsb]; [destruct Wb|]. cbn [TdSpec.direct params raw TdSpec.slots type_params] in *.
      destruct Wb as (-> & L & NE & _ & FP & -> & Wbb & Wfb). destruct (zip psb l) as [|z zs] eqn:Z; [destruct psb; [contradiction NE; reflexivity|]; destruct l; [discriminate L|discriminate Z]|].
      rewrite <- Z in H. clear z zs Z. apply each_inv in H. pose proof (kept_names _ _ _ H) as N.
      apply Forall2_app_inv_l in H. destruct H as (q12 & q3 & F12 & F3 & ->). apply Forall2_app_inv_l in F12. destruct F12 as (q1 & q2 & F1 & F2 & ->).
      pose proof (piece_closed _ _ _ _ (plain_raw bb Wbb) F1) as ->. pose proof (piece_closed _ _ _ _ Wf F3) as ->.
      assert (WB : all (proper B') l) by (rewrite all_in in *; intros u I; apply closed_weaken; [exact NB|exact (Wl u I)]).
      destruct (piece_params n psb l fsb q2 WB L FP Wfb F2) as [P1 P2]. split; [|split; [exact N|]].
      * rewrite !all_app. split; [split; [apply closed_all, plain_raw, Wbb|exact P1]|apply closed_all, Wf].
      * intros e rho. apply Forall2_app; [apply Forall2_app; [apply slots_plain; exact Wbb|apply P2]|apply own_closed; exact Wf].
    + injection H as <-. split; [|split; [reflexivity|]].
      * rewrite all_app. split; [apply closed_all, plain_raw, Wb|apply closed_all, Wf].
      * intros e rho. apply Forall2_app; [apply slots_plain; exact Wb|apply own_closed; exact Wf].
Qed.
End Pieces.
(** canonical types have the same fields, except that some are no longer read-only *)
Definition loose (k k' : slot) : Prop := let '(n, o, r, P) := k in let '(n', o', r', P') := k' in n = n' /\ o = o' /\ (r = false -> r' = false) /\ forall x, P x <-> P' x.
Lemma sees_loose e rho fs : forall ks ks', Forall2 (sees e rho) fs ks -> Forall2 (sees e rho) fs ks' -> Forall2 loose ks ks'.
Proof.
  induction fs as [|f fs IH]; intros ks ks' F F'.
  - inversion F; subst. inversion F'; subst. constructor.
  - inversion F as [|? [[[n o] r] P] ? ? S1 F1]; subst. inversion F' as [|? [[[n' o'] r'] P'] ? ? S2 F2]; subst. constructor; [|apply IH; assumption].
    cbn [sees loose] in *. destruct S1 as (<- & <- & <- & S1), S2 as (<- & <- & <- & S2). repeat split; try (intros H; exact H); intros H; [apply S2, S1, H|apply S1, S2, H].
Qed.
Definition canon_class (c : tdc) : tdc := if settled_c c then c else Cls false [] Root None (canon_fields c).
Definition canon_args (a : option (list ty)) : option (list ty) := match a with Some l => Some (map canon l) | None => None end.
Lemma slots_canon e rho c a B : proper B (TDict c a) -> Forall2 loose (slots_of e rho c a) (slots_of e rho (canon_class c) (canon_args a)).
Proof.
  intros W. unfold TdSpec.slots_of, canon_class, canon_args. cbn [TdSpec.proper] in W. destruct W as [W0 [_ W]]. destruct (settled_c c) eqn:ST.
  2:{ destruct W0 as [W0 | [-> W0]]; [discriminate W0|]. clear W. cbn [TdSpec.slots app]. rewrite canon_raw, map_map. pose proof (slots_plain c W0 e rho rho) as F. pose proof (plain_raw c W0) as K.
      revert F K. generalize (slots e rho c). generalize (raw c). intros fs ks F. induction F as [|f [[[n o] r] P] fs ks S F IH]; intros K; [constructor|]. destruct K as [K1 K2].
      cbn [map]. constructor; [|exact (IH K2)]. destruct f as [m t o1 r1]. cbn [sees loose canon_f fname fopt fread ftype TdSpec.proper_f] in *. destruct S as (<- & <- & <- & S).
      repeat split; intros H; [apply (canon_has below formal t nobody e rho x K1), S, H|apply S, (canon_has below formal t nobody e rho x K1), H]. }
  clear W0. destruct a as [l|].
  - destruct c as [|dc ps b ba fs]; [destruct W|]. destruct W as (Wl & L & _ & _ & _ & Wb & -> & Wf). cbn [TdSpec.slots params].
    apply Forall2_app; [apply (sees_loose e rho (raw b)); apply slots_plain; exact Wb|].
    assert (O : forall x v, In x ps -> over rho ps (map (fun u x => has e rho x u) l) x v <-> over rho ps (map (fun u x => has e rho x u) (map canon l)) x v).
    { apply (over_iff ps l (map canon l) (fun u x => has e rho x u) (fun u x => has e rho x u)); [|exact L]. apply map_f2. intros u I w.
      rewrite all_in in Wl. exact (canon_has below formal u B e rho w (Wl u I)). }
    clear Wb b ST. induction fs as [|f fs IH]; [constructor|]. destruct Wf as [W1 W2]. cbn [map]. constructor; [|exact (IH W2)]. cbn [loose]. split; [reflexivity|]. split; [reflexivity|]. split; [intros H; exact H|].
    intros x. destruct f as [m t o r]; cbn [TdSpec.proper_f ftype] in *. apply (has_iff below formal t (fun x => In x ps) e); [exact W1|]. exact O.
  - clear. induction (slots e rho c) as [|[[[n o] r] P] ks IH]; constructor; [|exact IH]. repeat split; trivial.
Qed.
Lemma loose_in ks ks' : Forall2 loose ks ks' -> forall n o r P, In (n, o, r, P) ks -> exists r' P', In (n, o, r', P') ks' /\ (r = false -> r' = false) /\ forall x, P x <-> P' x.
Proof.
  induction 1 as [|[[[n1 o1] r1] P1] [[[n2 o2] r2] P2] ks ks' E F IH]; intros n o r P J; [destruct J|]. destruct J as [J | J].
  - injection J as <- <- <- <-. cbn [loose] in E. destruct E as (<- & <- & E1 & E2). exists r2, P2. split; [now left|]. split; assumption.
  - destruct (IH n o r P J) as (r' & P' & J1 & J2). exists r', P'. split; [now right|exact J2].
Qed.

(** 2. Soundness *)
Variable bounded : nat -> bool.
Hypothesis CLS : classes below.
Definition ext (s s' : subst) : Prop := forall x t, get s x = Some t -> get s' x = Some t.
Definition cl (s : subst) : Prop := forall x t, get s x = Some t -> closed formal t.
Definition pair (s : subst) (t t' : ty) : Prop := forall re rh, within re rh -> fits below true re s -> fits below false rh s -> forall v, has true re v t' -> has false rh v t.
Lemma ext_refl s : ext s s. Proof. intros x t H; exact H. Qed.
Lemma ext_trans s1 s2 s3 : ext s1 s2 -> ext s2 s3 -> ext s1 s3. Proof. intros A B x t H. exact (B x t (A x t H)). Qed.
Lemma fits_ext e rho s s' : ext s s' -> fits below e rho s' -> fits below e rho s. Proof. intros E F x t H. exact (F x t (E x t H)). Qed.
Lemma pair_ext s s' t t' : ext s s' -> pair s t t' -> pair s' t t'.
Proof. intros E P re rh W F1 F2. exact (P re rh W (fits_ext _ _ _ _ E F1) (fits_ext _ _ _ _ E F2)). Qed.
Definition writes (s : subst) (c : tdc) (a : option (list ty)) (c' : tdc) (a' : option (list ty)) : Prop :=
  forall re rh, within re rh -> fits below true re s -> fits below false rh s ->
  forall n o P o' r' P', In (n, o, false, P) (slots_of true re c a) -> In (n, o', r', P') (slots_of false rh c' a') -> o = o' /\ forall x : val, P x -> P' x.
Definition writes_map (s : subst) (w : ty) (c' : tdc) (a' : option (list ty)) : Prop :=
  forall re rh, within re rh -> fits below true re s -> fits below false rh s ->
  forall n o' r' P', In (n, o', r', P') (slots_of false rh c' a') -> forall x, has true re x w -> P' x.
Definition outcome (s s' : subst) (t t' : ty) : Prop :=
  ext s s' /\ cl s' /\ pair s' t t' /\
  match t' with TDict c' a' => match t with TDict c a => writes s' c a c' a' | TGen g [_; w] => mutable_map g = true -> writes_map s' w c' a' | _ => True end | _ => True end.
Definition ready (t t' : ty) : Prop := pattern formal t /\ pattern formal t' /\ (closed formal t \/ closed formal t').
Definition sound (rec : ty -> ty -> subst -> res subst) : Prop := forall t t' s s', rec t t' s = Ok s' -> ready t t' -> cl s -> outcome s s' t t'.
Lemma ready_sym t t' : ready t t' -> ready t' t. Proof. intros (A & B & [C | C]); repeat split; auto. Qed.
Lemma refl_pair s t : pattern formal t -> pair s t t.
Proof. intros W re rh I _ _ v H. refine (mono below formal t _ true false re rh v _ W _ H); [discriminate|]. intros x w _. apply I. Qed.
Lemma put_ext x t s : ext s (put x t s).
Proof.
  intros y u H. unfold put. destruct (get s x) as [w|] eqn:G; [exact H|]. cbn [get]. destruct (Nat.eqb_spec x y) as [-> | N]; [rewrite G in H; discriminate H|exact H].
Qed.
Lemma put_cl x t s : closed formal t -> cl s -> cl (put x t s).
Proof.
  intros W C y u H. unfold put in H. destruct (get s x) as [w|]; [exact (C y u H)|]. cbn [get] in H. destruct (x =? y); [injection H as <-; exact W|exact (C y u H)].
Qed.
Lemma put_get x t s : get (put x t s) x = Some (match get s x with Some u => u | None => t end).
Proof. unfold put. destruct (get s x) as [w|] eqn:G; [exact G|]. cbn [get]. rewrite Nat.eqb_refl. reflexivity. Qed.
Section Rec.
Variable rec : ty -> ty -> subst -> res subst.
Hypothesis REC : sound rec.
Lemma list_ok l : forall l' s s', unify_list rec l l' s = Ok s' -> Forall2 ready l l' -> cl s -> ext s s' /\ cl s' /\ Forall2 (pair s') l l'.
Proof.
  induction l as [|t l IH]; intros [|t' l'] s s' H F C; cbn [unify_list] in H; try discriminate H.
  - injection H as <-. split; [apply ext_refl|]. split; [exact C|constructor].
  - destruct (rec t t' s) as [s1| |] eqn:E; try discriminate H. cbn [bind] in H. inversion F as [|? ? ? ? R F']; subst.
    destruct (REC t t' s s1 E R C) as (X1 & C1 & P1 & _). destruct (IH l' s1 s' H F' C1) as (X2 & C2 & P2). split; [exact (ext_trans _ _ _ X1 X2)|]. split; [exact C2|].
    constructor; [exact (pair_ext _ _ _ _ X2 P1)|exact P2].
Qed.
Definition agrees (s : subst) (h' : list fld) (f : fld) : Prop :=
  match field h' (fname f) with
  | None => fopt f = true
  | Some f' => (fopt f = false -> fopt f' = false) /\ pair s (ftype f) (ftype f') /\ (fread f = false -> fopt f = fopt f' /\ pair s (ftype f') (ftype f))
  end.
Lemma agrees_ext s s' h' f : ext s s' -> agrees s h' f -> agrees s' h' f.
Proof.
  intros X. unfold agrees. destruct (field h' (fname f)) as [f'|]; [|trivial]. intros (A & B & D). split; [exact A|]. split; [exact (pair_ext _ _ _ _ X B)|].
  intros Q. destruct (D Q) as [D1 D2]. split; [exact D1|exact (pair_ext _ _ _ _ X D2)].
Qed.
Lemma field_in h n f : field h n = Some f -> In f h /\ fname f = n.
Proof.
  induction h as [|g h IH]; cbn [field]; [discriminate|]. destruct (Nat.eqb_spec (fname g) n) as [E | N]; [intros H; injection H as <-; split; [now left|exact E]|].
  intros H. destruct (IH H). split; [now right|assumption].
Qed.
Lemma fields_ok h' : forall h s s', unify_fields rec h h' s = Ok s' -> (forall f f', In f h -> In f' h' -> ready (ftype f) (ftype f')) -> cl s ->
  ext s s' /\ cl s' /\ forall f, In f h -> agrees s' h' f.
Proof.
  induction h as [|f h IH]; intros s s' H R C; cbn [unify_fields] in H.
  - injection H as <-. split; [apply ext_refl|]. split; [exact C|intros f []].
  - assert (RR : forall f f', In f h -> In f' h' -> ready (ftype f) (ftype f')) by (intros g g' I I'; apply R; [now right|exact I']).
    destruct f as [n t o r] eqn:EF. rewrite <- EF in *. destruct (field h' n) as [[n' t' o' r']|] eqn:FD.
    + destruct (negb o && o') eqn:T1; [discriminate H|]. destruct (o && negb o' && negb r) eqn:T2; [discriminate H|].
      destruct (rec t t' s) as [s1| |] eqn:E1; try discriminate H. cbn [bind] in H. destruct (if r then Ok s1 else rec t' t s1) as [s2| |] eqn:E2; try discriminate H. cbn [bind] in H.
      destruct (field_in _ _ _ FD) as [I' _]. assert (R1 : ready t t') by (specialize (R f _ (or_introl eq_refl) I'); rewrite EF in R; exact R).
      destruct (REC t t' s s1 E1 R1 C) as (X1 & C1 & P1 & _).
      assert (S2 : ext s1 s2 /\ cl s2 /\ (r = false -> pair s2 t' t)).
      { destruct r; [injection E2 as <-; split; [apply ext_refl|]; split; [exact C1|discriminate]|].
        destruct (REC t' t s1 s2 E2 (ready_sym _ _ R1) C1) as (X2 & C2 & P2 & _). split; [exact X2|]. split; [exact C2|intros _; exact P2]. }
      destruct S2 as (X2 & C2 & P2). destruct (IH s2 s' H RR C2) as (X3 & C3 & A). split; [exact (ext_trans _ _ _ X1 (ext_trans _ _ _ X2 X3))|]. split; [exact C3|].
      intros g [<- | I]; [|exact (A g I)]. rewrite EF. unfold agrees. cbn [fname fopt fread ftype]. rewrite FD. cbn [fopt ftype]. split; [|split].
      * intros ->. destruct o'; [discriminate T1|reflexivity].
      * exact (pair_ext _ _ _ _ (ext_trans _ _ _ X2 X3) P1).
      * intros Er. split; [|exact (pair_ext _ _ _ _ X3 (P2 Er))]. rewrite Er in T2. destruct o, o'; try reflexivity; [discriminate T2|discriminate T1].
    + destruct o; [|discriminate H]. destruct (IH s s' H RR C) as (X3 & C3 & A). split; [exact X3|]. split; [exact C3|].
      intros g [<- | I]; [|exact (A g I)]. rewrite EF. unfold agrees. cbn [fname fopt]. rewrite FD. reflexivity.
Qed.
Lemma values_ok m v : forall h' s s', unify_values rec m v h' s = Ok s' -> (forall f', In f' h' -> ready v (ftype f')) -> cl s ->
  ext s s' /\ cl s' /\ forall f', In f' h' -> pair s' v (ftype f') /\ (m = true -> pair s' (ftype f') v).
Proof.
  induction h' as [|f' h' IH]; intros s s' H R C; cbn [unify_values] in H.
  - injection H as <-. split; [apply ext_refl|]. split; [exact C|intros f []].
  - destruct f' as [n' t' o' r'] eqn:EF. rewrite <- EF in *. destruct (rec v t' s) as [s1| |] eqn:E1; try discriminate H. cbn [bind] in H.
    destruct (if m then rec t' v s1 else Ok s1) as [s2| |] eqn:E2; try discriminate H. cbn [bind] in H.
    assert (R1 : ready v t') by (specialize (R f' (or_introl eq_refl)); rewrite EF in R; exact R).
    destruct (REC v t' s s1 E1 R1 C) as (X1 & C1 & P1 & _).
    assert (S2 : ext s1 s2 /\ cl s2 /\ (m = true -> pair s2 t' v)).
    { destruct m; [|injection E2 as <-; split; [apply ext_refl|split; [exact C1|discriminate]]]. destruct (REC t' v s1 s2 E2 (ready_sym _ _ R1) C1) as (X2 & C2 & P2 & _). repeat split; [assumption|assumption|intros _; exact P2]. }
    destruct S2 as (X2 & C2 & P2). destruct (IH s2 s' H (fun g I => R g (or_intror I)) C2) as (X3 & C3 & A). split; [exact (ext_trans _ _ _ X1 (ext_trans _ _ _ X2 X3))|]. split; [exact C3|].
    intros g [<- | I]; [|exact (A g I)]. rewrite EF. split; [exact (pair_ext _ _ _ _ (ext_trans _ _ _ X2 X3) P1)|]. intros Em. exact (pair_ext _ _ _ _ X3 (P2 Em)).
Qed.
Lemma f2_in {X Y} (R : X -> Y -> Prop) l k : Forall2 R l k -> forall y, In y k -> exists x, In x l /\ R x y.
Proof. induction 1 as [|x y l k H F IH]; intros z []; [subst; exists x; split; [now left|assumption]|]. destruct (IH z H0) as [w [I Q]]. exists w; split; [now right|exact Q]. Qed.
Lemma field_name h n : In n (map fname h) -> exists f, field h n = Some f.
Proof.
  induction h as [|g h IH]; cbn [map field]; [intros []|]. intros I. destruct (Nat.eqb_spec (fname g) n) as [E | N]; [exists g; reflexivity|]. destruct I as [E | I]; [contradiction|exact (IH I)].
Qed.
Lemma field_nodup h f : NoDup (map fname h) -> In f h -> field h (fname f) = Some f.
Proof.
  induction h as [|g h IH]; cbn [map field]; [intros _ []|]. intros N I. inversion N as [|? ? N1 N2]; subst. destruct I as [-> | I]; [rewrite Nat.eqb_refl; reflexivity|].
  destruct (Nat.eqb_spec (fname g) (fname f)) as [E | _]; [exfalso; apply N1; rewrite E; apply in_map; exact I|exact (IH N2 I)].
Qed.
Lemma open_ok x : formal x = true -> ~ open x. Proof. intros E F. rewrite E in F; discriminate F. Qed.
Lemma nobody_ok x : formal x = true -> ~ nobody x. Proof. intros _ []. Qed.
Lemma in_proper B h f : all (proper_f B) h -> In f h -> proper B (ftype f).
Proof. rewrite all_in. intros W I. specialize (W f I). destruct f as [n t o r]; exact W. Qed.
Lemma hints_pattern n c a h : pattern formal (TDict c a) -> hints n c a = Ok h -> (forall f, In f h -> pattern formal (ftype f)) /\ (closed formal (TDict c a) -> forall f, In f h -> closed formal (ftype f)).
Proof.
  intros W H. destruct (hints_ok open open_ok n c a h W H) as [A _]. split; [intros f I; exact (in_proper _ h f A I)|].
  intros K f I. destruct (hints_ok nobody nobody_ok n c a h K H) as [A' _]. exact (in_proper _ h f A' I).
Qed.
Lemma dict_dict n c a c' a' h h' s s' : ready (TDict c a) (TDict c' a') -> hints n c a = Ok h -> hints n c' a' = Ok h' -> unify_fields rec h h' s = Ok s' -> cl s -> outcome s s' (TDict c a) (TDict c' a').
Proof.
  intros (W & W' & K) H H' U C. destruct (hints_pattern n c a h W H) as [Pf Kf], (hints_pattern n c' a' h' W' H') as [Pf' Kf'].
  assert (R : forall f f', In f h -> In f' h' -> ready (ftype f) (ftype f')).
  { intros f f' I I'. split; [exact (Pf f I)|]. split; [exact (Pf' f' I')|]. destruct K as [K | K]; [left; exact (Kf K f I)|right; exact (Kf' K f' I')]. }
  destruct (fields_ok h' h s s' U R C) as (X & C' & A). destruct (hints_ok open open_ok n c a h W H) as (_ & _ & SE), (hints_ok open open_ok n c' a' h' W' H') as (_ & NM' & SE').
  split; [exact X|]. split; [exact C'|]. split.
  - intros re rh I F1 F2 v V. apply has_dict in V. destruct V as [d [-> [V1 V2]]]. apply has_dict. exists d. split; [reflexivity|]. split; [|discriminate].
    apply (sees_good _ _ _ _ _ (SE false rh)). apply (sees_good _ _ _ _ _ (SE' true re)) in V1. specialize (V2 eq_refl). rewrite <- NM' in V2. rewrite all_in in V1. apply all_in.
    intros f If. specialize (A f If). unfold agrees in A. destruct f as [m t o r]. cbn [TdSpec.fgood fname fopt fread ftype] in *. unfold field_good.
    destruct (get d m) as [x|] eqn:G.
    + pose proof (V2 m x G) as IN. destruct (field_name h' m IN) as [f' FD]. rewrite FD in A. destruct A as (_ & A & _).
      destruct (field_in _ _ _ FD) as [I' E']. specialize (V1 f' I'). destruct f' as [m' t' o' r']. cbn [TdSpec.fgood fname ftype] in *. subst m'. unfold field_good in V1. rewrite G in V1.
      exact (A re rh I F1 F2 x V1).
    + destruct (field h' m) as [f'|] eqn:FD; [|exact A]. destruct A as (A & _). destruct (field_in _ _ _ FD) as [I' E']. specialize (V1 f' I'). destruct f' as [m' t' o' r'].
      cbn [TdSpec.fgood fname fopt] in *. subst m'. unfold field_good in V1. rewrite G in V1. destruct o; [reflexivity|]. rewrite (A eq_refl) in V1. discriminate V1.
  - intros re rh I F1 F2 m o P o' r' P' IN IN'. destruct (f2_in _ _ _ (SE true re) _ IN) as [f [If (E1 & E2 & E3 & E4)]], (f2_in _ _ _ (SE' false rh) _ IN') as [f' [If' (E1' & E2' & E3' & E4')]].
    specialize (A f If). unfold agrees in A. cbn [TdSpec.pattern TdSpec.proper] in W'. destruct W' as [_ [ND _]]. rewrite <- NM' in ND.
    rewrite E1, <- E1', (field_nodup h' f' ND If') in A. destruct A as (_ & _ & A). destruct (A E3) as [A1 A2]. rewrite <- E2, <- E2'. split; [exact A1|].
    intros x Px. apply E4'. apply (A2 re rh I F1 F2). apply E4. exact Px.
Qed.
Lemma same_eq : forall t t', same t t' = true -> t = t'.
Proof.
  apply (ty_all (fun t => forall t', same t t' = true -> t = t')).
  - intros x [y|d|g l|c a] H; cbn [same] in H; try discriminate H. apply Nat.eqb_eq in H. subst; reflexivity.
  - intros c [y|d|g l|c' a] H; cbn [same] in H; try discriminate H. apply Nat.eqb_eq in H. subst; reflexivity.
  - intros g l F [y|d|g' l'|c a] H; cbn [same] in H; try discriminate H. apply andb_prop in H. destruct H as [G H]. assert (g = g') as -> by (destruct g, g'; try discriminate G; reflexivity).
    f_equal. revert l' H. induction F as [|t l Ht F IH]; intros [|t' l'] H; try discriminate H; [reflexivity|]. apply andb_prop in H. destruct H as [H1 H2]. f_equal; [exact (Ht t' H1)|exact (IH l' H2)].
  - intros c a _ _ t' H. destruct t'; discriminate H.
Qed.
Lemma gen_sub_map g' g : gen_sub g' g = true -> is_map g' = is_map g.
Proof. destruct g', g; try discriminate; reflexivity. Qed.
Lemma f2_ready g l g' l' : ready (TGen g l) (TGen g' l') -> length l = length l' -> Forall2 ready l l'.
Proof.
  intros (W & W' & K) L. unfold pattern, closed in *. cbn [TdSpec.proper] in *. revert l' W' K L. induction l as [|t l IH]; intros [|t' l'] W' K L; try discriminate L; constructor.
  - split; [exact (proj1 W)|]. split; [exact (proj1 W')|]. destruct K as [K | K]; [left|right]; exact (proj1 K).
  - apply (IH (proj2 W) l' (proj2 W')); [destruct K as [K | K]; [left|right]; exact (proj2 K)|exact (f_equal pred L)].
Qed.
Lemma unify_list_len l : forall l' s s', unify_list rec l l' s = Ok s' -> length l = length l'.
Proof.
  induction l as [|t l IH]; intros [|t' l'] s s' H; cbn [unify_list] in H; try discriminate H; [reflexivity|]. destruct (rec t t' s) as [s1| |]; try discriminate H. cbn [bind] in H.
  cbn [length]. rewrite (IH l' s1 s' H). reflexivity.
Qed.
Lemma gen_gen g l g' l' s s' : ready (TGen g l) (TGen g' l') -> gen_sub g' g = true -> unify_list rec l l' s = Ok s' -> cl s -> outcome s s' (TGen g l) (TGen g' l').
Proof.
  intros R G U C. destruct (list_ok l l' s s' U (f2_ready _ _ _ _ R (unify_list_len _ _ _ _ U)) C) as (X & C' & F). split; [exact X|]. split; [exact C'|]. split; [|exact Logic.I].
  intros re rh I F1 F2 v V. destruct l' as [|a' [|b' [|u' l']]]; cbn [TdSpec.has] in V; try destruct V.
  - inversion F as [|a ? q ? Pa Fq]; subst. inversion Fq; subst. cbn [TdSpec.has]. rewrite <- (gen_sub_map _ _ G). split; [assumption|]. destruct H0 as [w [-> V]]. exists w. split; [reflexivity|].
    rewrite all_in in *. intros x Ix. exact (Pa re rh I F1 F2 x (V x Ix)).
  - inversion F as [|a ? q ? Pa Fq]; subst. inversion Fq as [|b ? q' ? Pb Fq']; subst. inversion Fq'; subst. cbn [TdSpec.has]. rewrite <- (gen_sub_map _ _ G). split; [assumption|].
    destruct H0 as [d [-> V]]. exists d. split; [reflexivity|]. intros m x G1. destruct (V m x G1) as [Vk Vx]. split; [exact (Pa re rh I F1 F2 _ Vk)|exact (Pb re rh I F1 F2 _ Vx)].
Qed.
Lemma map_dict n g k w c' a' h' s s1 s' : ready (TGen g [k; w]) (TDict c' a') -> is_map g = true -> hints n c' a' = Ok h' -> rec k (TCon text) s = Ok s1 ->
  unify_values rec (mutable_map g) w h' s1 = Ok s' -> cl s -> outcome s s' (TGen g [k; w]) (TDict c' a').
Proof.
  intros (W & W' & K) G H' E U C. destruct (hints_pattern n c' a' h' W' H') as [Pf' Kf']. unfold pattern, closed in W, K. cbn [TdSpec.proper all] in W, K.
  assert (Rk : ready k (TCon text)) by (split; [exact (proj1 W)|]; split; [exact Logic.I|right; exact Logic.I]).
  destruct (REC _ _ _ _ E Rk C) as (X1 & C1 & P1 & _).
  assert (R : forall f', In f' h' -> ready w (ftype f')).
  { intros f' I'. split; [exact (proj1 (proj2 W))|]. split; [exact (Pf' f' I')|]. destruct K as [K | K]; [left; exact (proj1 (proj2 K))|right; exact (Kf' K f' I')]. }
  destruct (values_ok _ _ h' s1 s' U R C1) as (X2 & C2 & A). destruct (hints_ok open open_ok n c' a' h' W' H') as (_ & NM' & SE').
  split; [exact (ext_trans _ _ _ X1 X2)|]. split; [exact C2|]. split.
  2:{ intros Em re rh I F1 F2 m o' r' P' IN' x Hx. destruct (f2_in _ _ _ (SE' false rh) _ IN') as [f' [If' (E1' & E2' & E3' & E4')]]. apply E4'.
      exact (proj2 (A f' If') Em re rh I F1 F2 x Hx). }
  intros re rh I F1 F2 v V. apply has_dict in V. destruct V as [d [-> [V1 V2]]]. cbn [TdSpec.has]. split; [exact G|]. exists d. split; [reflexivity|].
  apply (sees_good _ _ _ _ _ (SE' true re)) in V1. specialize (V2 eq_refl). rewrite <- NM' in V2. rewrite all_in in V1. intros m x Ix. split.
  - apply (pair_ext _ _ _ _ X2 P1 re rh I F1 F2). cbn [TdSpec.has]. right. exists text. split; [reflexivity|left; reflexivity].
  - destruct (field_name h' m (V2 m x Ix)) as [f' FD]. destruct (field_in _ _ _ FD) as [I' E']. specialize (V1 f' I'). specialize (A f' I'). destruct f' as [m' t' o' r'].
    cbn [TdSpec.fgood fname ftype] in *. subst m'. unfold field_good in V1. rewrite Ix in V1. exact (proj1 A re rh I F1 F2 x V1).
Qed.
Lemma step_ok n t t' s s' : unify_step below bounded rec n t t' s = Ok s' -> ready t t' -> cl s -> outcome s s' t t'.
Proof.
  assert (VAR : forall x t' s s', rec (match get s x with Some u => u | None => t' end) t' (put x t' s) = Ok s' -> ready (TVar x) t' -> cl s -> outcome s s' (TVar x) t').
  { clear t t' s s'. intros x t' s s' H (W & W' & K) C. assert (K' : closed formal t') by (destruct K as [K | K]; [destruct K|exact K]).
    assert (R : ready (match get s x with Some u => u | None => t' end) t').
    { split; [|split; [exact W'|right; exact K']]. destruct (get s x) as [u|] eqn:G; [apply closed_pattern; exact (C x u G)|exact W']. }
    destruct (REC _ _ _ _ H R (put_cl x t' s K' C)) as (X & C' & P & _). split; [exact (ext_trans _ _ _ (put_ext x t' s) X)|]. split; [exact C'|]. split; [|destruct t'; exact Logic.I].
    intros re rh I F1 F2 v V. cbn [TdSpec.has]. apply (F2 x _ (X _ _ (put_get x t' s))). exact (P re rh I F1 F2 v V). }
  assert (VAR' : forall y t s s', (if bounded y then Err else rec t (match get s y with Some u => u | None => t end) (put y t s)) = Ok s' -> ready t (TVar y) -> cl s -> outcome s s' t (TVar y)).
  { clear t t' s s'. intros y t s s' H (W & W' & K) C. destruct (bounded y); [discriminate H|]. assert (K' : closed formal t) by (destruct K as [K | K]; [exact K|destruct K]).
    assert (R : ready t (match get s y with Some u => u | None => t end)).
    { split; [exact W|]. split; [|left; exact K']. destruct (get s y) as [u|] eqn:G; [apply closed_pattern; exact (C y u G)|exact W]. }
    destruct (REC _ _ _ _ H R (put_cl y t s K' C)) as (X & C' & P & _). split; [exact (ext_trans _ _ _ (put_ext y t s) X)|]. split; [exact C'|]. split; [|destruct t; exact Logic.I].
    intros re rh I F1 F2 v V. apply (P re rh I F1 F2 v). apply (F1 y _ (X _ _ (put_get y t s))). exact V. }
  assert (OBJ : forall c t' s s', (if c =? object then Ok s else Err) = Ok s' -> cl s -> outcome s s' (TCon c) t').
  { clear. intros c t' s s' H C. destruct (Nat.eqb_spec c object) as [-> | N]; [|discriminate H]. injection H as <-. split; [apply ext_refl|]. split; [exact C|]. split; [|destruct t'; exact Logic.I].
    intros re rh _ _ _ v _. left; reflexivity. }
  intros H R C. destruct t as [x|c|g l|c a], t' as [y|c'|g' l'|c' a']; cbn [unify_step] in H; try discriminate H.
  - destruct R as (_ & _ & [[] | []]).
  - exact (VAR x _ s s' H R C).
  - exact (VAR x _ s s' H R C).
  - exact (VAR x _ s s' H R C).
  - exact (VAR' y _ s s' H R C).
  - destruct ((c =? c') || below c' c) eqn:E; [|discriminate H]. injection H as <-. split; [apply ext_refl|]. split; [exact C|]. split; [|exact Logic.I].
    intros re rh _ _ _ v V. cbn [TdSpec.has] in *. destruct (Nat.eqb_spec c c') as [-> | N]; [exact V|]. cbn [orb] in E. destruct V as [-> | [k [-> V]]].
    + left. exact (proj2 CLS c E).
    + right. exists k. split; [reflexivity|]. right. destruct V as [-> | V]; [exact E|exact (proj1 CLS k c' c V E)].
  - exact (OBJ c _ s s' H C).
  - exact (OBJ c _ s s' H C).
  - apply (VAR' y (TGen g l) s s'); [|exact R|exact C]. destruct l as [|k [|w [|]]]; exact H.
  - destruct l as [|k [|w [|]]]; discriminate H.
  - assert (H' : (if same (TGen g l) (TGen g' l') then Ok s else if gen_sub g' g then unify_list rec l l' s else Err) = Ok s') by (destruct l as [|k [|w [|]]]; exact H).
    clear H. destruct (same (TGen g l) (TGen g' l')) eqn:E.
    + injection H' as <-. apply same_eq in E. rewrite <- E. split; [apply ext_refl|]. split; [exact C|]. split; [apply refl_pair; exact (proj1 R)|exact Logic.I].
    + destruct (gen_sub g' g) eqn:G; [|discriminate H']. exact (gen_gen g l g' l' s s' R G H' C).
  - destruct l as [|k [|w [|]]]; try discriminate H. destruct (is_map g) eqn:G; [|discriminate H]. destruct (hints n c' a') as [h'| |] eqn:EH; try discriminate H. cbn [bind] in H.
    destruct (rec k (TCon text) s) as [s1| |] eqn:E; try discriminate H. cbn [bind] in H. exact (map_dict n g k w c' a' h' s s1 s' R G EH E H C).
  - exact (VAR' y _ s s' H R C).
  - destruct (hints n c a) as [h| |] eqn:EH; try discriminate H. cbn [bind] in H. destruct (hints n c' a') as [h'| |] eqn:EH'; try discriminate H. cbn [bind] in H.
    exact (dict_dict n c a c' a' h h' s s' R EH EH' H C).
Qed.
End Rec.
Lemma unify_sound n : sound (unify below bounded n).
Proof.
  induction n as [|n IH]; intros t t' s s' H R C; cbn [unify] in H; [discriminate H|]. destruct (settled t && settled t').
  - exact (step_ok _ IH n t t' s s' H R C).
  - assert (R' : ready (canon t) (canon t')).
    { destruct R as (W & W' & K). split; [apply canon_proper; exact W|]. split; [apply canon_proper; exact W'|]. destruct K as [K | K]; [left|right]; apply canon_proper; exact K. }
    destruct (IH _ _ _ _ H R' C) as (X & C' & P & WR). destruct R as (W & W' & K). split; [exact X|]. split; [exact C'|]. split.
    + intros re rh I F1 F2 v V. apply (canon_has below formal t open false rh v W). apply (P re rh I F1 F2 v). apply (canon_has below formal t' open true re v W'). exact V.
    + destruct t as [x|c0|g l|c a], t' as [y|c0'|g' l'|c' a']; try exact Logic.I; try (destruct l as [|k0 [|w0 [|]]]; exact Logic.I).
      * destruct l as [|k0 [|w0 [|]]]; try exact Logic.I. intros Em re rh I F1 F2 m o' r' Q' IN' x Hx. destruct (loose_in _ _ (slots_canon false rh c' a' open W') _ _ _ _ IN') as (r2 & Q2 & J2 & _ & E2).
        apply E2. refine (WR _ re rh I F1 F2 m o' r2 Q2 J2 x _); [destruct g; try discriminate Em; reflexivity|]. apply (canon_has below formal w0 open true re x (proj1 (proj2 W))). exact Hx.
      * intros re rh I F1 F2 m o Q o' r' Q' IN IN'. destruct (loose_in _ _ (slots_canon true re c a open W) _ _ _ _ IN) as (r1 & Q1 & J1 & E0 & E1).
        destruct (loose_in _ _ (slots_canon false rh c' a' open W') _ _ _ _ IN') as (r2 & Q2 & J2 & _ & E2). rewrite (E0 eq_refl) in J1.
        destruct (WR re rh I F1 F2 m o Q1 o' r2 Q2 J1 J2) as [EO EQ]. split; [exact EO|]. intros x Hx. apply E2, EQ, E1, Hx.
Qed.
(** Environments that fit: the variables stand for what is found *)
Definition standing (e : bool) (s : subst) : env := fun x v => match get s x with Some t => has e (fun _ _ => False) v t | None => False end.
Lemma closed_has t e rho rho' v : closed formal t -> has e rho v t <-> has e rho' v t.
Proof. intros K. apply (has_iff below formal t nobody e rho rho' v K). intros x w []. Qed.
Lemma standing_fits e s : cl s -> fits below e (standing e s) s.
Proof. intros C x t G v. unfold standing at 1. rewrite G. apply closed_has. exact (C x t G). Qed.
Lemma standing_within s rh : cl s -> fits below false rh s -> within (standing true s) rh.
Proof.
  intros C F x v. unfold standing. destruct (get s x) as [t|] eqn:G; [|intros []]. intros H. apply (F x t G v).
  refine (mono below formal t nobody true false _ rh v _ (C x t G) _ H); [discriminate|intros y w []].
Qed.
Lemma reads n t t' s : unify below bounded n t t' [] = Ok s -> pattern formal t -> closed formal t' ->
  (exists rho, fits below false rho s) /\ (forall rho v, fits below false rho s -> made below rho v t' -> held below rho v t).
Proof.
  intros U W K. assert (R : ready t t') by (split; [exact W|]; split; [apply closed_pattern; exact K|right; exact K]).
  destruct (unify_sound n t t' [] s U R) as (_ & C & P & _); [intros x u E; discriminate E|]. split; [exists (standing false s); apply standing_fits, C|].
  intros rho v F V. apply (P (standing true s) rho (standing_within s rho C F) (standing_fits true s C) F). apply (closed_has t' true rho _ v K). exact V.
Qed.
Lemma get_write d n x m : get (write d n x) m = if n =? m then Some x else get d m.
Proof.
  induction d as [|[k y] d IH]; cbn [write get]; [reflexivity|]. destruct (Nat.eqb_spec k n) as [-> | N]; cbn [get].
  - destruct (n =? m); reflexivity.
  - rewrite IH. destruct (Nat.eqb_spec k m) as [-> | N']; [|reflexivity]. destruct (Nat.eqb_spec n m) as [-> | _]; [contradiction|reflexivity].
Qed.
Lemma get_drop {A} (d : list (nat * A)) n m : get (filter (fun p => negb (fst p =? n)) d) m = if n =? m then None else get d m.
Proof.
  induction d as [|[k y] d IH]; cbn [filter get]; [destruct (n =? m); reflexivity|]. cbn [fst]. destruct (Nat.eqb_spec k n) as [-> | N]; cbn [negb get].
  - rewrite IH. destruct (n =? m); reflexivity.
  - rewrite IH. destruct (Nat.eqb_spec k m) as [-> | N']; [|reflexivity]. destruct (Nat.eqb_spec n m) as [-> | _]; [contradiction|reflexivity].
Qed.
Lemma writing n c a c' a' s : unify below bounded n (TDict c a) (TDict c' a') [] = Ok s -> pattern formal (TDict c a) -> closed formal (TDict c' a') ->
  forall re rh d, within re rh -> fits below true re s -> fits below false rh s -> made below re (VDict d) (TDict c' a') ->
  (forall k o P x, In (k, o, false, P) (slots_of true re c a) -> P x -> held below rh (VDict (write d k x)) (TDict c' a')) /\
  (forall k P, In (k, true, false, P) (slots_of true re c a) -> held below rh (VDict (drop d k)) (TDict c' a')).
Proof.
  intros U W K re rh d I F1 F2 V. assert (W' : pattern formal (TDict c' a')) by (apply closed_pattern; exact K).
  assert (R : ready (TDict c a) (TDict c' a')) by (split; [exact W|]; split; [exact W'|right; exact K]).
  destruct (unify_sound n _ _ [] s U R) as (_ & _ & _ & WR); [intros x u E; discriminate E|]. specialize (WR re rh I F1 F2).
  assert (V' : held below rh (VDict d) (TDict c' a')) by exact (refl_pair s _ W' re rh I F1 F2 _ V). apply has_dict in V'. destruct V' as [d' [E [V' _]]]. injection E as <-. rewrite all_in in V'.
  split.
  - intros k o P x IN Px. apply has_dict. exists (write d k x). split; [reflexivity|]. split; [|discriminate]. apply all_in. intros [[[m o'] r'] P'] IN'. specialize (V' _ IN').
    cbn [slot_good] in *. unfold field_good in *. rewrite get_write. destruct (Nat.eqb_spec k m) as [-> | N]; [|exact V']. exact (proj2 (WR m o P o' r' P' IN IN') x Px).
  - intros k P IN. apply has_dict. exists (drop d k). split; [reflexivity|]. split; [|discriminate]. apply all_in. intros [[[m o'] r'] P'] IN'. specialize (V' _ IN').
    cbn [slot_good] in *. unfold field_good, drop in *. rewrite get_drop. destruct (Nat.eqb_spec k m) as [-> | N]; [|exact V']. symmetry. exact (proj1 (WR m true P o' r' P' IN IN')).
Qed.
Lemma writing_map n g k w c' a' s : unify below bounded n (TGen g [k; w]) (TDict c' a') [] = Ok s -> mutable_map g = true -> pattern formal (TGen g [k; w]) -> closed formal (TDict c' a') ->
  forall re rh d, within re rh -> fits below true re s -> fits below false rh s -> made below re (VDict d) (TDict c' a') ->
  forall m x, made below re x w -> held below rh (VDict (write d m x)) (TDict c' a').
Proof.
  intros U Em W K re rh d I F1 F2 V m x Hx. assert (W' : pattern formal (TDict c' a')) by (apply closed_pattern; exact K).
  assert (R : ready (TGen g [k; w]) (TDict c' a')) by (split; [exact W|]; split; [exact W'|right; exact K]).
  destruct (unify_sound n _ _ [] s U R) as (_ & _ & _ & WR); [intros y u E; discriminate E|]. specialize (WR Em re rh I F1 F2).
  assert (V' : held below rh (VDict d) (TDict c' a')) by exact (refl_pair s _ W' re rh I F1 F2 _ V). apply has_dict in V'. destruct V' as [d' [E [V' _]]]. injection E as <-. rewrite all_in in V'.
  apply has_dict. exists (write d m x). split; [reflexivity|]. split; [|discriminate]. apply all_in. intros [[[q o'] r'] P'] IN'. specialize (V' _ IN').
  cbn [slot_good] in *. unfold field_good in *. rewrite get_write. destruct (Nat.eqb_spec m q) as [-> | N]; [|exact V']. exact (WR q o' r' P' IN' x Hx).
Qed.
End Below.
