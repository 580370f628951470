(** Proofs about the unification of typed dictionaries. *)
From Coq Require Import List Bool Arith Lia.
Import ListNotations.
From Verif Require Import TdModel TdSpec.

Definition opt_all {A} (P : A -> Prop) (o : option (list A)) : Prop := match o with Some l => Forall P l | None => True end.
Fixpoint inside (P : ty -> Prop) (c : tdc) : Prop :=
  match c with Root => True | Cls _ _ b ba fs => inside P b /\ opt_all P ba /\ Forall (fun f => P (ftype f)) fs end.
Section Induction.
Variable P : ty -> Prop.
Hypothesis HV : forall x, P (TVar x).
Hypothesis HC : forall c, P (TCon c).
Hypothesis HG : forall g l, Forall P l -> P (TGen g l).
Hypothesis HD : forall c a, inside P c -> opt_all P a -> P (TDict c a).
Fixpoint ty_all (t : ty) : P t :=
  match t with
  | TVar x => HV x
  | TCon c => HC c
  | TGen g l => HG g l ((fix go (l : list ty) : Forall P l := match l with [] => Forall_nil _ | a :: r => Forall_cons a (ty_all a) (go r) end) l)
  | TDict c a => HD c a (tdc_all c) (match a as a return opt_all P a with Some l => (fix go (l : list ty) : Forall P l := match l with [] => Forall_nil _ | a :: r => Forall_cons a (ty_all a) (go r) end) l | None => Logic.I end)
  end
with tdc_all (c : tdc) : inside P c :=
  match c with
  | Root => Logic.I
  | Cls d ps b ba fs =>
      conj (tdc_all b) (conj (match ba as a return opt_all P a with Some l => (fix go (l : list ty) : Forall P l := match l with [] => Forall_nil _ | a :: r => Forall_cons a (ty_all a) (go r) end) l | None => Logic.I end)
        ((fix go (l : list fld) : Forall (fun f => P (ftype f)) l := match l with [] => Forall_nil _ | f :: r => Forall_cons f (fld_all f) (go r) end) fs))
  end
with fld_all (f : fld) : P (ftype f) := match f with Fld n t o r => ty_all t end.
End Induction.
Lemma inside_all (P : ty -> Prop) (H : forall t, P t) : forall c, inside P c.
Proof.
  induction c as [|d ps b IH ba fs]; cbn [inside]; [exact Logic.I|]. split; [exact IH|]. split.
  - destruct ba as [l|]; [|exact Logic.I]. apply Forall_forall; intros t _; apply H.
  - apply Forall_forall; intros f _; apply H.
Qed.
Lemma all_in {A} (P : A -> Prop) l : all P l <-> (forall a, In a l -> P a).
Proof.
  induction l as [|a l IH]; cbn [all]; [split; [intros _ ? []|trivial]|]. rewrite IH. split.
  - intros [H1 H2] b [<- | H]; auto.
  - intros H; split; [apply H; now left|intros b I; apply H; now right].
Qed.
Lemma all_forall {A} (P : A -> Prop) l : all P l <-> Forall P l.
Proof. rewrite all_in, Forall_forall. reflexivity. Qed.
Lemma all_app {A} (P : A -> Prop) l l' : all P (l ++ l') <-> all P l /\ all P l'.
Proof. rewrite !all_forall. apply Forall_app. Qed.
Lemma get_map {A B} (f : A -> B) ps l x : get (combine ps (map f l)) x = option_map f (get (combine ps l) x).
Proof.
  revert l; induction ps as [|p ps IH]; intros [|a l]; cbn [combine map get option_map]; try reflexivity.
  destruct (p =? x); [reflexivity|apply IH].
Qed.
Lemma get_some {A} ps (l : list A) x : length l = length ps -> In x ps -> exists a, get (combine ps l) x = Some a /\ In a l.
Proof.
  revert l; induction ps as [|p ps IH]; intros [|a l] L I; try discriminate L; [destruct I|]. cbn [combine get].
  destruct (p =? x) eqn:E; [exists a; split; [reflexivity|now left]|]. destruct I as [-> | I]; [rewrite Nat.eqb_refl in E; discriminate E|].
  destruct (IH l (f_equal pred L) I) as [b [H1 H2]]. exists b; split; [exact H1|now right].
Qed.
Lemma get_not {A} ps (l : list A) x : ~ In x ps -> get (combine ps l) x = None.
Proof.
  revert l; induction ps as [|p ps IH]; intros [|a l] I; cbn [combine get]; try reflexivity.
  destruct (Nat.eqb_spec p x) as [-> | N]; [exfalso; apply I; now left|]. apply IH. intros J; apply I; now right.
Qed.

Section Below.
Variable below : nat -> nat -> bool.
Variable formal : nat -> bool.
Notation has := (has below).
Notation good := (good below).
Notation fgood := (fgood below).
Notation proper := (proper formal).
Notation proper_f := (proper_f formal).
Notation plain := (plain formal).
Notation direct := (direct formal).

(** 1. [has] depends on what the variables of the type stand for, and grows with it. *)
Definition Mono (t : ty) : Prop :=
  forall B e e' (rho rho' : env) v, (e' = true -> e = true) -> proper B t -> (forall x v, B x -> rho x v -> rho' x v) -> has e rho v t -> has e' rho' v t.
Definition args (e : bool) (rho : env) (l : list ty) : list (val -> Prop) := map (fun u x => has e rho x u) l.
Lemma fields_mono fs : Forall (fun f => Mono (ftype f)) fs -> forall B e e' (rho rho' : env) d, (e' = true -> e = true) ->
  all (proper_f B) fs -> (forall x v, B x -> rho x v -> rho' x v) -> all (fgood e rho d) fs -> all (fgood e' rho' d) fs.
Proof.
  intros M B e e' rho rho' d E W R. rewrite !all_in in *. rewrite Forall_forall in M. intros H f I.
  specialize (M f I). specialize (W f I). specialize (H f I). destruct f as [n t o r]. cbn [TdSpec.fgood ftype TdSpec.proper_f] in *.
  unfold field_good in *. destruct (get d n) as [x|]; [|exact H]. exact (M B e e' rho rho' x E W R H).
Qed.
Lemma plain_mono c : inside Mono c -> forall e e' (rho rho' : env) d, (e' = true -> e = true) -> plain c -> good e rho d c -> good e' rho' d c.
Proof.
  induction c as [|dc ps b IH ba fs]; intros M e e' rho rho' d E W H; [exact Logic.I|].
  cbn [inside TdSpec.plain TdSpec.good] in *. destruct M as (M1 & M2 & M3), W as (-> & -> & W1 & W2), H as [H1 H2]. split.
  - apply (IH M1 e e' rho rho' d E W1 H1).
  - apply (fields_mono fs M3 (fun _ => False) e e' rho rho' d E W2); [intros x v []|exact H2].
Qed.
Definition below_pred (P Q : val -> Prop) : Prop := forall v, P v -> Q v.
Lemma over_mono (ps : list nat) (l l' : list (val -> Prop)) (rho rho' : env) : length l = length ps ->
  Forall2 below_pred l l' -> forall x v, In x ps -> over rho ps l x v -> over rho' ps l' x v.
Proof.
  intros L F x v I. unfold over. revert l l' L F I; induction ps as [|p ps IH]; intros l l' L F I; [destruct I|].
  destruct F as [|P Q l l' F1 F2]; [discriminate L|]. cbn [combine get]. destruct (p =? x) eqn:E; [apply F1|].
  destruct I as [-> | I]; [rewrite Nat.eqb_refl in E; discriminate E|]. apply (IH l l' (f_equal pred L) F2 I).
Qed.
Lemma args_mono l : Forall Mono l -> forall B e e' (rho rho' : env), (e' = true -> e = true) -> all (proper B) l -> (forall x v, B x -> rho x v -> rho' x v) ->
  Forall2 below_pred (args e rho l) (args e' rho' l).
Proof.
  induction 1 as [|t l M F IH]; intros B e e' rho rho' E W R; [constructor|]. destruct W as [W1 W2]. cbn [args map]. constructor.
  - intros v H. exact (M B e e' rho rho' v E W1 R H).
  - exact (IH B e e' rho rho' E W2 R).
Qed.
Lemma direct_mono c n : inside Mono c -> direct n c -> forall e e' (rho rho' : env) d, (e' = true -> e = true) -> (forall x v, In x (params c) -> rho x v -> rho' x v) ->
  good e rho d c -> good e' rho' d c.
Proof.
  destruct c as [|dc ps b ba fs]; cbn [TdSpec.direct inside params TdSpec.good]; [intros _ []|].
  intros (M1 & _ & M3) (_ & _ & _ & _ & _ & -> & W1 & W2) e e' rho rho' d E R [H1 H2]. split.
  - exact (plain_mono b M1 e e' rho rho' d E W1 H1).
  - exact (fields_mono fs M3 (fun x => In x ps) e e' rho rho' d E W2 R H2).
Qed.
(** the class of a proper alias, under environments that agree on its parameters *)
Lemma alias_mono dc ps b fs : inside Mono (Cls dc ps b None fs) -> plain b -> all (proper_f (fun x => In x ps)) fs -> forall e e' (rho rho' : env) d,
  (e' = true -> e = true) -> (forall x v, In x ps -> rho x v -> rho' x v) -> good e rho d (Cls dc ps b None fs) -> good e' rho' d (Cls dc ps b None fs).
Proof.
  cbn [inside TdSpec.good]. intros (M1 & _ & M3) W1 W2 e e' rho rho' d E R [H1 H2]. split.
  - exact (plain_mono b M1 e e' rho rho' d E W1 H1).
  - exact (fields_mono fs M3 (fun x => In x ps) e e' rho rho' d E W2 R H2).
Qed.
Lemma args_len e rho l : length (args e rho l) = length l.
Proof. apply map_length. Qed.
Lemma mono : forall t, Mono t.
Proof.
  apply ty_all.
  - intros x B e e' rho rho' v E W R H. exact (R x v W H).
  - intros c B e e' rho rho' v E W R H. exact H.
  - intros g l F B e e' rho rho' v E W R H. cbn [TdSpec.proper] in W. destruct l as [|a [|b [|u l]]]; try exact H.
    + inversion F as [|? ? Ma _]; subst. destruct W as [W _]. cbn [TdSpec.has] in *. destruct H as [G [l [-> H]]]. split; [exact G|]. exists l. split; [reflexivity|].
      rewrite all_in in *. intros x I. exact (Ma B e e' rho rho' x E W R (H x I)).
    + inversion F as [|? ? Ma F2]; subst. inversion F2 as [|? ? Mb _]; subst. destruct W as [Wa [Wb _]]. cbn [TdSpec.has] in *.
      destruct H as [G [d [-> H]]]. split; [exact G|]. exists d. split; [reflexivity|]. intros n x I. destruct (H n x I) as [Hk Hx].
      split; [exact (Ma B e e' rho rho' _ E Wa R Hk)|exact (Mb B e e' rho rho' _ E Wb R Hx)].
  - intros c a M F B e e' rho rho' v E W R H. cbn [TdSpec.has TdSpec.proper] in *. destruct W as [_ [_ W]]. destruct H as [d [-> [H1 H2]]].
    exists d. split; [reflexivity|]. split; [|intros Q; exact (H2 (E Q))]. destruct c as [|dc ps b ba fs]; [destruct a; destruct W|]. destruct a as [l|].
    + destruct W as (W1 & W2 & _ & _ & _ & W3 & -> & W4). refine (alias_mono dc ps b fs M W3 W4 e e' _ _ d E _ H1).
      apply over_mono; [rewrite map_length; exact W2|]. exact (args_mono l F B e e' rho rho' E W1 R).
    + destruct W as (-> & W1 & W2). cbn [inside TdSpec.good] in *. destruct M as (M1 & M2 & M3), H1 as [H1 H3]. split.
      * destruct ba as [l|]; [|exact (plain_mono b M1 e e' rho rho' d E W2 H1)]. destruct W2 as [W2 W3].
        refine (direct_mono b (length l) M1 W3 e e' _ _ d E _ H1). assert (L : length l = length (params b)) by (destruct b; [destruct W3|exact (proj1 (proj2 W3))]).
        apply over_mono; [rewrite map_length; exact L|]. apply (args_mono l M2 (fun _ => False) e e' rho rho' E W2). intros x v [].
      * apply (fields_mono fs M3 (fun _ => False) e e' rho rho' d E W1); [intros x v []|exact H3].
Qed.
Lemma has_iff t B e (rho rho' : env) v : proper B t -> (forall x v, B x -> rho x v <-> rho' x v) -> has e rho v t <-> has e rho' v t.
Proof. intros W R. split; apply (mono t B e e); try exact W; try (intros Q; exact Q); intros x w I; apply R; exact I. Qed.

(** 2. [proper] types: their variables, weakening, canonicalization. *)
Lemma proper_fvs : forall t B, proper B t -> forall x, In x (fvs t) -> B x.
Proof.
  apply (ty_all (fun t => forall B, proper B t -> forall x, In x (fvs t) -> B x)).
  - intros x B W y [<- | []]. exact W.
  - intros c B W x [].
  - intros g l F B W x I. cbn [fvs TdSpec.proper] in *. apply in_flat_map in I. destruct I as [t [I1 I2]]. rewrite Forall_forall in F. rewrite all_in in W.
    exact (F t I1 B (W t I1) x I2).
  - intros c a _ F B W x I. cbn [fvs TdSpec.proper] in *. destruct a as [l|]; [|destruct I]. destruct c as [|d ps b ba fs]; [destruct W as [_ [_ []]]|].
    destruct W as (_ & _ & W & _). apply in_flat_map in I. destruct I as [t [I1 I2]]. cbn [opt_all] in F. rewrite Forall_forall in F. rewrite all_in in W.
    exact (F t I1 B (W t I1) x I2).
Qed.
Lemma weaken (B B' : nat -> Prop) : (forall x, B x -> B' x) -> (forall x, formal x = true -> ~ B' x) -> forall t, proper B t -> proper B' t.
Proof.
  intros BB NB. apply (ty_all (fun t => proper B t -> proper B' t)).
  - intros x. apply BB.
  - intros c _. exact Logic.I.
  - intros g l F W. cbn [TdSpec.proper] in *. rewrite all_in in *. rewrite Forall_forall in F. intros t I. exact (F t I (W t I)).
  - intros c a _ F W. cbn [TdSpec.proper] in *. destruct W as [W0 [Wn W]]. split; [exact W0|]. split; [exact Wn|]. destruct c as [|d ps b ba fs]; [destruct a; exact W|].
    destruct a as [l|]; [|exact W]. clear W0 Wn. destruct W as (W1 & W2 & W3 & W4 & W5 & W6). repeat split; try tauto.
    + cbn [opt_all] in F. rewrite all_in in *. rewrite Forall_forall in F. intros t I. exact (F t I (W1 t I)).
    + apply W5; assumption.
    + apply NB. apply W5; assumption.
Qed.
Lemma closed_pattern t : closed formal t -> pattern formal t.
Proof. apply weaken; [intros x []|]. intros x E E'. rewrite E in E'; discriminate E'. Qed.
Lemma canon_gen_map g : is_map (canon_gen g) = is_map g.
Proof. destruct g; reflexivity. Qed.
Notation nobody := (fun _ : nat => False).
Lemma canon_raw c : canon_fields c = map canon_f (raw c).
Proof. induction c as [|d ps b IH ba fs]; [reflexivity|]. cbn [canon_fields raw]. rewrite map_app, IH. reflexivity. Qed.
Lemma canon_names c : map fname (canon_fields c) = map fname (raw c).
Proof. rewrite canon_raw, map_map. apply map_ext. intros [n t o r]. reflexivity. Qed.
Lemma canon_plain c : inside (fun t => forall B, proper B t -> proper B (canon t)) c -> plain c -> all (proper_f nobody) (canon_fields c).
Proof.
  induction c as [|d ps b IH ba fs]; cbn [inside TdSpec.plain canon_fields]; [trivial|]. intros (M1 & _ & M3) (-> & -> & W1 & W2). rewrite all_app. split; [exact (IH M1 W1)|].
  rewrite all_in in *. rewrite Forall_forall in M3. intros f I. apply in_map_iff in I. destruct I as [g [<- I]]. specialize (M3 g I). specialize (W2 g I). destruct g as [n t o r].
  cbn [canon_f TdSpec.proper_f ftype] in *. exact (M3 _ W2).
Qed.
Lemma canon_proper : forall t B, proper B t -> proper B (canon t).
Proof.
  apply (ty_all (fun t => forall B, proper B t -> proper B (canon t))).
  - intros x B W; exact W.
  - intros c B W; exact W.
  - intros g l F B W. cbn [canon TdSpec.proper] in *. rewrite all_in in *. rewrite Forall_forall in F. intros t I. apply in_map_iff in I. destruct I as [u [<- I]].
    exact (F u I B (W u I)).
  - intros c a M F B W. cbn [canon TdSpec.proper] in *. destruct W as [W0 [Wn W]]. destruct (settled_c c) eqn:ST.
    2:{ destruct W0 as [W0 | [-> W0]]; [discriminate W0|]. assert (Q : all (proper_f nobody) (canon_fields c)) by (apply canon_plain; assumption).
        cbn [raw app]. split; [right; cbn [TdSpec.plain]; tauto|]. split; [rewrite canon_names; exact Wn|]. cbn [TdSpec.plain]. tauto. }
    clear W0 M. split; [left; exact ST|]. split; [exact Wn|].
    destruct c as [|d ps b ba fs]; [destruct a; exact W|]. destruct a as [l|]; [|exact W]. destruct W as (W1 & W2 & W3). rewrite map_length. split; [|tauto].
    cbn [opt_all] in F. rewrite all_in in *. rewrite Forall_forall in F. intros t I. apply in_map_iff in I. destruct I as [u [<- I]]. exact (F u I B (W1 u I)).
Qed.
Lemma over_iff ps (l l' : list ty) (f f' : ty -> val -> Prop) (rho rho' : env) : Forall2 (fun u u' => forall v, f u v <-> f' u' v) l l' -> length l = length ps ->
  forall x v, In x ps -> over rho ps (map f l) x v <-> over rho' ps (map f' l') x v.
Proof.
  intros F L x v I. unfold over. revert l l' L F I; induction ps as [|p ps IH]; intros l l' L F I; [destruct I|].
  destruct F as [|P Q l l' F1 F2]; [discriminate L|]. cbn [combine get map]. destruct (p =? x) eqn:E; [apply F1|].
  destruct I as [-> | I]; [rewrite Nat.eqb_refl in E; discriminate E|]. apply (IH l l' (f_equal pred L) F2 I).
Qed.
Lemma alias_iff dc ps b fs e (rho rho' : env) d : plain b -> all (proper_f (fun x => In x ps)) fs -> (forall x v, In x ps -> rho x v <-> rho' x v) ->
  good e rho d (Cls dc ps b None fs) <-> good e rho' d (Cls dc ps b None fs).
Proof.
  intros W1 W2 R. split; apply (alias_mono dc ps b fs (inside_all _ mono _) W1 W2 e e); try (intros Q; exact Q); intros x v I; apply R; exact I.
Qed.
Lemma map_f2 {A B} (R : A -> B -> Prop) (f : A -> B) l : (forall a, In a l -> R a (f a)) -> Forall2 R l (map f l).
Proof. induction l as [|a l IH]; intros H; [constructor|]. cbn [map]. constructor; [apply H; now left|]. apply IH. intros b I; apply H; now right. Qed.
Lemma canon_good c e rho d : inside (fun t => forall B e rho v, proper B t -> has e rho v t <-> has e rho v (canon t)) c -> plain c -> good e rho d c <-> all (fgood e rho d) (canon_fields c).
Proof.
  induction c as [|dc ps b IH ba fs]; cbn [inside TdSpec.plain canon_fields TdSpec.good]; [reflexivity|]. intros (M1 & _ & M3) (-> & -> & W1 & W2). rewrite all_app, <- (IH M1 W1).
  assert (Q : all (fgood e rho d) fs <-> all (fgood e rho d) (map canon_f fs)); [|rewrite Q; reflexivity].
  clear - M3 W2. induction M3 as [|f fs Mf M3 IH]; [reflexivity|]. destruct W2 as [Wf W2]. cbn [map all]. rewrite (IH W2). destruct f as [n t o r].
  cbn [canon_f TdSpec.fgood TdSpec.proper_f ftype] in *. unfold field_good. destruct (get d n) as [x|]; [rewrite (Mf nobody e rho x Wf)|]; reflexivity.
Qed.
Lemma canon_has : forall t B e rho v, proper B t -> has e rho v t <-> has e rho v (canon t).
Proof.
  apply (ty_all (fun t => forall B e rho v, proper B t -> has e rho v t <-> has e rho v (canon t))).
  - reflexivity.
  - reflexivity.
  - intros g l F B e rho v W. cbn [canon TdSpec.proper] in *. destruct l as [|a [|b [|u l]]]; cbn [map TdSpec.has]; try reflexivity.
    + inversion F as [|? ? Fa _]; subst. rewrite canon_gen_map. destruct W as [Wa _]. split; intros [G [l [-> H]]]; (split; [exact G|]; exists l; split; [reflexivity|]);
        rewrite all_in in *; intros x I; apply (Fa B e rho x Wa), H, I.
    + inversion F as [|? ? Fa F2]; subst. inversion F2 as [|? ? Fb _]; subst. rewrite canon_gen_map. destruct W as [Wa [Wb _]].
      split; intros [G [d [-> H]]]; (split; [exact G|]; exists d; split; [reflexivity|]); intros n x I; (split; [apply (Fa B e rho _ Wa), (H n x I)|apply (Fb B e rho _ Wb), (H n x I)]).
  - intros c a M F B e rho v W. cbn [canon TdSpec.proper] in *. destruct W as [W0 [Wn W]]. destruct (settled_c c) eqn:ST.
    2:{ destruct W0 as [W0 | [-> W0]]; [discriminate W0|]. cbn [TdSpec.has raw app]. rewrite canon_names.
        split; intros [d [-> [H1 H2]]]; exists d; (split; [reflexivity|]; split; [|exact H2]).
        - cbn [TdSpec.good]. split; [exact Logic.I|]. exact (proj1 (canon_good c e rho d M W0) H1).
        - cbn [TdSpec.good] in H1. exact (proj2 (canon_good c e rho d M W0) (proj2 H1)). }
    clear W0 M. destruct a as [l|]; [|reflexivity].
    destruct c as [|dc ps b ba fs]; [destruct W|]. destruct W as (W1 & W2 & _ & _ & _ & W3 & -> & W4). cbn [TdSpec.has opt_all params] in *.
    assert (R : forall d, good e (over rho ps (map (fun u x => has e rho x u) l)) d (Cls dc ps b None fs) <->
                          good e (over rho ps (map (fun u x => has e rho x u) (map canon l))) d (Cls dc ps b None fs)).
    { intros d. apply alias_iff; [exact W3|exact W4|]. apply (over_iff ps l (map canon l) (fun u x => has e rho x u) (fun u x => has e rho x u)); [|exact W2].
      apply map_f2. intros u I w. rewrite Forall_forall in F. rewrite all_in in W1. exact (F u I B e rho w (W1 u I)). }
    split; intros [d [-> [H1 H2]]]; exists d; (split; [reflexivity|]; split; [apply R; exact H1|exact H2]).
Qed.

(** 3. Substituting. *)
Lemma replace_none s : forall t, (forall x, In x (fvs t) -> get s x = None) -> replace s t = t.
Proof.
  assert (L : forall l, Forall (fun t => (forall x, In x (fvs t) -> get s x = None) -> replace s t = t) l -> (forall x, In x (flat_map fvs l) -> get s x = None) -> map (replace s) l = l).
  { induction 1 as [|t l Ht F IH]; intros H; [reflexivity|]. cbn [map flat_map] in *. f_equal; [apply Ht|apply IH]; intros x I; apply H, in_or_app; auto. }
  apply (ty_all (fun t => (forall x, In x (fvs t) -> get s x = None) -> replace s t = t)).
  - intros x H. cbn [replace]. rewrite (H x (or_introl eq_refl)). reflexivity.
  - reflexivity.
  - intros g l F H. cbn [replace fvs] in *. rewrite (L l F H). reflexivity.
  - intros c a _ F H. cbn [replace fvs] in *. destruct a as [l|]; [|reflexivity]. cbn [opt_all] in F. rewrite (L l F H). reflexivity.
Qed.
Lemma replace_proper s (B B' : nat -> Prop) : (forall x, B x -> exists u, get s x = Some u /\ proper B' u) -> (forall x, formal x = true -> ~ B' x) -> forall t, proper B t -> proper B' (replace s t).
Proof.
  intros HS NB. apply (ty_all (fun t => proper B t -> proper B' (replace s t))).
  - intros x W. cbn [replace]. destruct (HS x W) as [u [-> H]]. exact H.
  - intros c _. exact Logic.I.
  - intros g l F W. cbn [TdSpec.proper replace] in *. rewrite all_in in *. rewrite Forall_forall in F. intros t I. apply in_map_iff in I. destruct I as [u [<- I]]. exact (F u I (W u I)).
  - intros c a _ F W. cbn [TdSpec.proper replace] in *. destruct W as [W0 [Wn W]]. split; [destruct W0 as [W0 | [-> W0]]; [left; exact W0|right; split; [reflexivity|exact W0]]|]. split; [exact Wn|]. destruct c as [|d ps b ba fs]; [destruct a; exact W|].
    destruct a as [l|]; [|exact W]. clear W0 Wn. destruct W as (W1 & W2 & W3 & W4 & W5 & W6). rewrite map_length. repeat split; try tauto.
    + cbn [opt_all] in F. rewrite all_in in *. rewrite Forall_forall in F. intros t I. apply in_map_iff in I. destruct I as [u [<- I]]. exact (F u I (W1 u I)).
    + apply W5; assumption.
    + apply NB. apply W5; assumption.
Qed.
Definition after (e : bool) (rho : env) (s : subst) : env := fun x => match get s x with Some u => fun v => has e rho v u | None => rho x end.
Lemma replace_has s e rho : forall t B v, proper B t -> has e rho v (replace s t) <-> has e (after e rho s) v t.
Proof.
  apply (ty_all (fun t => forall B v, proper B t -> has e rho v (replace s t) <-> has e (after e rho s) v t)).
  - intros x B v W. cbn [replace TdSpec.has]. unfold after. destruct (get s x) as [u|]; reflexivity.
  - reflexivity.
  - intros g l F B v W. cbn [replace TdSpec.proper] in *. destruct l as [|a [|b [|u l]]]; cbn [map TdSpec.has]; try reflexivity.
    + inversion F as [|? ? Fa _]; subst. destruct W as [Wa _]. split; intros [G [l [-> H]]]; (split; [exact G|]; exists l; split; [reflexivity|]);
        rewrite all_in in *; intros x I; apply (Fa B x Wa), H, I.
    + inversion F as [|? ? Fa F2]; subst. inversion F2 as [|? ? Fb _]; subst. destruct W as [Wa [Wb _]].
      split; intros [G [d [-> H]]]; (split; [exact G|]; exists d; split; [reflexivity|]); intros n x I; (split; [apply (Fa B _ Wa), (H n x I)|apply (Fb B _ Wb), (H n x I)]).
  - intros c a _ F B v W. cbn [replace]. destruct a as [l|].
    + cbn [TdSpec.proper] in W. destruct W as [W0 [Wn W]]. destruct c as [|dc ps b ba fs]; [destruct W|]. destruct W as (W1 & W2 & _ & _ & _ & W3 & -> & W4).
      cbn [TdSpec.has opt_all params] in *.
      assert (Q : forall d, good e (over rho ps (map (fun u x => has e rho x u) (map (replace s) l))) d (Cls dc ps b None fs) <->
                            good e (over (after e rho s) ps (map (fun u x => has e (after e rho s) x u) l)) d (Cls dc ps b None fs)).
      { intros d. apply alias_iff; [exact W3|exact W4|]. intros x w I. symmetry. revert x w I.
        apply (over_iff ps l (map (replace s) l) (fun u x => has e (after e rho s) x u) (fun u x => has e rho x u)); [|exact W2].
        apply map_f2. intros u I w. rewrite Forall_forall in F. rewrite all_in in W1. symmetry. exact (F u I B w (W1 u I)). }
      split; intros [d [-> [H1 H2]]]; exists d; (split; [reflexivity|]; split; [apply Q; exact H1|exact H2]).
    + apply (has_iff (TDict c None) (fun _ => False)); [|intros x w []]. cbn [TdSpec.proper] in *. destruct W as [W0 [Wn W]]. split; [exact W0|]. split; [exact Wn|]. exact W.
Qed.
Lemma substitute_ok (B B' : nat -> Prop) s : (forall x, B x -> exists u, get s x = Some u /\ proper B' u) -> (forall x, B' x -> get s x = None) -> (forall x, formal x = true -> ~ B' x) ->
  forall n t t', proper B t -> substitute n t s = Ok t' -> t' = replace s t.
Proof.
  intros HS HN NB [|n] t t' W; cbn [substitute]; [discriminate|]. destruct (existsb (bound s) (fvs t)) eqn:X.
  - destruct n as [|n]; cbn [substitute]; [discriminate|]. destruct (existsb (bound s) (fvs (replace s t))) eqn:Y; [|intros H; injection H as <-; reflexivity].
    apply existsb_exists in Y. destruct Y as [x [I Y]]. apply (proper_fvs _ B' (replace_proper s B B' HS NB t W)) in I. unfold bound in Y. rewrite (HN x I) in Y. discriminate Y.
  - intros H; injection H as <-. symmetry. apply replace_none. intros x I. destruct (get s x) as [u|] eqn:G; [|reflexivity].
    assert (Z : existsb (bound s) (fvs t) = true) by (apply existsb_exists; exists x; split; [exact I|unfold bound; rewrite G; reflexivity]). rewrite X in Z; discriminate Z.
Qed.
End Below.
