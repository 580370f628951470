(** Proofs about [syntactic_eq]. *)
From Coq Require Import List ZArith String Ascii Bool Arith Lia.
From Verif Require Import CmpModel CmpSpec.
Import ListNotations.

Section Ind.
Variable P : value -> Prop.
Hypothesis HAtom : forall a, P (VAtom a).
Hypothesis HSet : forall s, P (VSet s).
Hypothesis HSeq : forall c l, (forall v, In v l -> P v) -> P (VSeq c l).
Hypothesis HNT : forall c l, (forall v, In v l -> P v) -> P (VNT c l).
Hypothesis HMap : forall m, (forall v, In v (map snd m) -> P v) -> P (VMap m).
Hypothesis HData : forall c m, (forall v, In v (map snd m) -> P v) -> P (VData c m).
Hypothesis HTerm : forall n o a k, (forall v, In v (a ++ map snd k) -> P v) -> P (VTerm n o a k).

Fixpoint value_ind2 (v : value) : P v.
Proof.
  destruct v as [a|s|c l|c l|m|c m|n o a k].
  - apply HAtom.
  - apply HSet.
  - apply HSeq. induction l as [|v l IH]; intros w Hw; [destruct Hw|]. destruct Hw as [<-|Hw]; [apply value_ind2|apply IH; exact Hw].
  - apply HNT. induction l as [|v l IH]; intros w Hw; [destruct Hw|]. destruct Hw as [<-|Hw]; [apply value_ind2|apply IH; exact Hw].
  - apply HMap. induction m as [|[x v] l IH]; intros w Hw; [destruct Hw|]. destruct Hw as [<-|Hw]; [apply value_ind2|apply IH; exact Hw].
  - apply HData. induction m as [|[x v] l IH]; intros w Hw; [destruct Hw|]. destruct Hw as [<-|Hw]; [apply value_ind2|apply IH; exact Hw].
  - apply HTerm. intros w Hw. apply in_app_or in Hw. destruct Hw as [Hw|Hw].
    + induction a as [|v l IH]; [destruct Hw|]. destruct Hw as [<-|Hw]; [apply value_ind2|apply IH; exact Hw].
    + induction k as [|[x v] l IH]; [destruct Hw|]. destruct Hw as [<-|Hw]; [apply value_ind2|apply IH; exact Hw].
Qed.
End Ind.

Lemma atom_eqb_eq a b : atom_eqb a b = true <-> a = b.
Proof. unfold atom_eqb. destruct (atom_dec a b); split; intros; congruence. Qed.

Section Keys.
Context {K : Type} (eqb : K -> K -> bool).
Hypothesis Heq : forall a b, eqb a b = true <-> a = b.

Lemma get_some {V} k (m : list (K * V)) v : NoDup (keys m) -> (get eqb k m = Some v <-> In (k, v) m).
Proof.
  unfold get, keys. induction m as [|[a x] m IH]; intros Hn; cbn [find fst map] in *.
  - split; [discriminate|intros []].
  - inversion Hn; subst. destruct (eqb a k) eqn:E.
    + apply Heq in E. subst a. split.
      * intros H. inversion H; subst. left. reflexivity.
      * intros [H|H]; [inversion H; subst; reflexivity|]. exfalso. apply H1. apply in_map_iff. exists (k, v). split; [reflexivity|exact H].
    + rewrite IH by assumption. split; intros H; [right; exact H|]. destruct H as [H|H]; [|exact H].
      inversion H; subst. assert (eqb k k = true) by (apply Heq; reflexivity). congruence.
Qed.

Lemma get_none {V} k (m : list (K * V)) : get eqb k m = None <-> ~ In k (keys m).
Proof.
  unfold get, keys. induction m as [|[a x] m IH]; cbn [find fst map].
  - split; [intros _ []|reflexivity].
  - destruct (eqb a k) eqn:E.
    + apply Heq in E. subst a. split; [discriminate|intros H; exfalso; apply H; left; reflexivity].
    + rewrite IH. split; intros H; [intros [->|Hi]|intros Hi; apply H; right; exact Hi].
      * assert (eqb k k = true) by (apply Heq; reflexivity). congruence.
      * exact (H Hi).
Qed.

Lemma has_in {V} (m : list (K * V)) k : has eqb m k = true <-> In k (keys m).
Proof.
  unfold has, keys. rewrite existsb_exists, in_map_iff. split.
  - intros (x & Hx & E). exists x. split; [apply Heq; exact E|exact Hx].
  - intros (x & E & Hx). exists x. split; [exact Hx|apply Heq; exact E].
Qed.

Lemma incl_keys {V W} (m : list (K * V)) (m' : list (K * W)) :
  forallb (fun x => has eqb m' (fst x)) m = true <-> incl (keys m) (keys m').
Proof.
  rewrite forallb_forall. unfold incl, keys. split.
  - intros H k Hk. apply in_map_iff in Hk. destruct Hk as (x & <- & Hx). apply has_in, H, Hx.
  - intros H x Hx. apply has_in, H, in_map, Hx.
Qed.

Lemma same_keys_spec {V W} (m : list (K * V)) (m' : list (K * W)) :
  same_keys eqb m m' = true <-> forall k, In k (keys m) <-> In k (keys m').
Proof.
  unfold same_keys. rewrite andb_true_iff, !incl_keys. split.
  - intros [H1 H2] k. split; [apply H1|apply H2].
  - intros H. split; intros k; apply H.
Qed.
End Keys.

Notation T := (OBool true, @nil (value * value)).

Lemma andthen_T r k : andthen r k = T <-> r = T /\ k tt = T.
Proof.
  destruct r as [o c]. unfold andthen. cbn [fst snd]. destruct o as [[|]| |]; [|split; [discriminate|intros [H _]; discriminate H]..].
  destruct (k tt) as [o2 c2] eqn:E. cbn [fst snd]. split.
  - intros H. inversion H; subst. apply app_eq_nil in H2. destruct H2; subst. split; reflexivity.
  - intros [H1 H2]. inversion H1; inversion H2; subst. reflexivity.
Qed.

Lemma all_zip_T f xs : forall ys, List.length xs = List.length ys ->
  (all_zip f xs ys = T <-> Forall2 (fun x y => f x y = T) xs ys).
Proof.
  induction xs as [|x xs IH]; intros [|y ys] Hl; try discriminate Hl.
  - split; [constructor|reflexivity].
  - cbn [all_zip]. rewrite andthen_T, IH by (inversion Hl; reflexivity). split.
    + intros [H1 H2]. constructor; assumption.
    + intros H. inversion H; subst. split; assumption.
Qed.

Lemma all_get_T {K} (eqb : K -> K -> bool) f other m :
  all_get eqb f other m = T <-> forall k v, In (k, v) m -> exists v', get eqb k other = Some v' /\ f v v' = T.
Proof.
  induction m as [|[k v] m IH]; cbn [all_get fst snd].
  - split; [intros _ k v []|reflexivity].
  - destruct (get eqb k other) as [v'|] eqn:E.
    + rewrite andthen_T, IH. split.
      * intros [H1 H2] k0 v0 [H|H]; [inversion H; subst; exists v'; split; assumption|apply H2; exact H].
      * intros H. split; [|intros k0 v0 Hi; apply H; right; exact Hi].
        destruct (H k v (or_introl eq_refl)) as (v2 & Hg & Hf). congruence.
    + split; [discriminate|]. intros H. destruct (H k v (or_introl eq_refl)) as (v2 & Hg & Hf). congruence.
Qed.

(** What comparing two key-value lists means. *)
Lemma eq_kv_T {K} (eqb : K -> K -> bool) (Heq : forall a b, eqb a b = true <-> a = b) f (m m' : list (K * value)) :
  NoDup (keys m') -> incl (keys m') (keys m) ->
  (all_get eqb f m' m = T <->
   (forall k, In k (keys m) <-> In k (keys m')) /\ forall k v v', In (k, v) m -> In (k, v') m' -> f v v' = T).
Proof.
  intros Hn Hi. rewrite all_get_T. split.
  - intros H. split.
    + intros k. split; [|apply Hi]. intros Hk. apply in_map_iff in Hk. destruct Hk as ([k0 v] & <- & Hk).
      destruct (H _ _ Hk) as (v' & Hg & _). apply (get_some eqb Heq) in Hg; [|exact Hn].
      apply in_map_iff. exists (k0, v'). split; [reflexivity|exact Hg].
    + intros k v v' H1 H2. destruct (H _ _ H1) as (v2 & Hg & Hf). apply (get_some eqb Heq) in H2; [|exact Hn]. congruence.
  - intros [H1 H2] k v Hk. assert (Hk' : In k (keys m')) by (apply H1, in_map_iff; exists (k, v); split; [reflexivity|exact Hk]).
    apply in_map_iff in Hk'. destruct Hk' as ([k0 v'] & E & Hv'). cbn in E. subst k0.
    exists v'. split; [apply (get_some eqb Heq); assumption|]. exact (H2 k v v' Hk Hv').
Qed.

Lemma eq_map_T {K} (eqb : K -> K -> bool) (Heq : forall a b, eqb a b = true <-> a = b) f (m m' : list (K * value)) :
  NoDup (keys m') ->
  (eq_map eqb f m m' = T <->
   (forall k, In k (keys m) <-> In k (keys m')) /\ forall k v v', In (k, v) m -> In (k, v') m' -> f v v' = T).
Proof.
  intros Hn. unfold eq_map. rewrite andthen_T. split.
  - intros [H1 H2]. apply (eq_kv_T eqb Heq); [exact Hn| |exact H1]. inversion H2. apply (incl_keys eqb Heq). assumption.
  - intros [H1 H2]. assert (Hi : incl (keys m') (keys m)) by (intros k; apply H1).
    split; [apply (eq_kv_T eqb Heq); [exact Hn|exact Hi|split; assumption]|]. f_equal. f_equal. apply (incl_keys eqb Heq). exact Hi.
Qed.

Lemma Forall2_iff {A B} (P Q : A -> B -> Prop) l l' :
  (forall x y, In x l -> In y l' -> (P x y <-> Q x y)) -> (Forall2 P l l' <-> Forall2 Q l l').
Proof.
  revert l'. induction l as [|x l IH]; intros [|y l'] H; [split; constructor|split; intros F; inversion F|split; intros F; inversion F|].
  assert (E : Forall2 P l l' <-> Forall2 Q l l') by (apply IH; intros; apply H; right; assumption).
  specialize (H x y (or_introl eq_refl) (or_introl eq_refl)).
  split; intros F; inversion F; subst; constructor; tauto.
Qed.

Lemma Forall2_length {A B} (R : A -> B -> Prop) l l' : Forall2 R l l' -> List.length l = List.length l'.
Proof. intros F. induction F; cbn; congruence. Qed.

Lemma subset_atoms_spec s s' : subset_atoms s s' = true <-> incl s s'.
Proof.
  unfold subset_atoms. rewrite forallb_forall. split; intros H a Ha.
  - apply H in Ha. apply existsb_exists in Ha. destruct Ha as (b & Hb & E). apply atom_eqb_eq in E. subst. exact Hb.
  - apply existsb_exists. exists a. split; [apply H; exact Ha|apply atom_eqb_eq; reflexivity].
Qed.

Section Main.
Variable arity : nat -> nat.
Variable fields : nat -> list string.
Notation wf := (wf arity fields).
Variable eq_op : value -> value -> out.
Notation seq := (syntactic_eq eq_op).

Lemma elements_wf y l : wf y -> elements y = Some l -> forall v, In v l -> wf v.
Proof.
  intros Hy E v Hv. destruct y as [a|s|c l0|c l0|m|c m|n o a k]; cbn [elements] in E; try discriminate E.
  - destruct a as [z|s|b|o]; try discriminate E; inversion E; subst.
    + clear -Hv. induction s as [|c s IH]; [destruct Hv|]. destruct Hv as [<-|Hv]; [constructor|apply IH; exact Hv].
    + apply in_map_iff in Hv. destruct Hv as (z & <- & _). constructor.
  - inversion E; subst. inversion Hy; subst. auto.
  - inversion E; subst. inversion Hy; subst. auto.
Qed.

Lemma py_eq_T x y : (exists a, x = VAtom a) \/ (exists s, x = VSet s) ->
  (py_eq eq_op x y = T <-> same true x y).
Proof.
  intros [[a ->]|[s ->]]; destruct y as [b|s'|c' l'|c' l'|m'|c' m'|[|] o' a' k']; cbn [py_eq];
    (split; [intros H; try discriminate H|intros H; inversion H; subst; try reflexivity]).
  - inversion H. apply atom_eqb_eq in H1. subst. constructor.
  - f_equal. f_equal. apply atom_eqb_eq. reflexivity.
  - inversion H as [E]. apply andb_prop in E. destruct E as [E1 E2]. apply subset_atoms_spec in E1, E2.
    constructor. intros a. split; [apply E1|apply E2].
  - f_equal. f_equal. apply andb_true_intro. split; apply subset_atoms_spec; intros a; match goal with E : forall a, In a s <-> _ |- _ => apply E end.
Qed.

Theorem seq_same x : forall y, wf x -> wf y -> (seq x y = T <-> same true x y).
Proof.
  induction x as [a|s|c l IH|c l IH|m IH|c m IH|n o a k IH] using value_ind2; intros y Hx Hy; cbn [syntactic_eq].
  - apply py_eq_T. left. exists a. reflexivity.
  - apply py_eq_T. right. exists s. reflexivity.
  - inversion Hx as [| |? ? Hl| | | |]; subst.
    assert (G : forall l', elements y = Some l' -> ((if List.length l =? List.length l' then all_zip seq l l' else (OBool false, [])) = T <-> Forall2 (same true) l l')).
    { intros l' E. destruct (List.length l =? List.length l') eqn:El.
      - apply Nat.eqb_eq in El. rewrite all_zip_T by exact El. apply Forall2_iff. intros v v' Hv Hv'.
        apply IH; [exact Hv|apply Hl; exact Hv|]. eapply elements_wf; eassumption.
      - split; [discriminate|]. intros F. apply Forall2_length in F. apply Nat.eqb_neq in El. contradiction. }
    destruct y as [b|s'|c' l'|c' l'|m'|c' m'|n' o' a' k']; cbn [elements] in *;
      try (split; [discriminate|intros H; inversion H; fail]).
    + destruct b as [z|s|bs|o]; try (split; [discriminate|intros H; inversion H; subst; discriminate]).
      * rewrite (G _ eq_refl). split; [intros H; apply SText with (l' := chars s); [reflexivity|reflexivity|exact H]|].
        intros H. inversion H as [| | |? ? ? l2 _ E F| | | |]; subst. inversion E; subst. exact F.
      * rewrite (G _ eq_refl). split; [intros H; eapply SText; [reflexivity|reflexivity|exact H]|].
        intros H. inversion H as [| | |? ? ? l2 _ E F| | | |]; subst. inversion E; subst. exact F.
    + rewrite (G _ eq_refl). split; [intros H; constructor; exact H|intros H; inversion H; subst; assumption].
  - inversion Hx as [| | |? ? Ha Hl| | |]; subst.
    destruct y as [b|s'|c' l'|c' l'|m'|c' m'|n' o' a' k']; try (split; [discriminate|intros H; inversion H]).
    inversion Hy as [| | |? ? Ha' Hl'| | |]; subst.
    destruct (c =? c') eqn:Ec.
    + apply Nat.eqb_eq in Ec. subst c'. rewrite all_zip_T by congruence.
      rewrite (Forall2_iff (fun x y => seq x y = T) (same true)); [|intros v v' Hv Hv'; apply IH; auto].
      split; [intros H; constructor; exact H|intros H; inversion H; subst; assumption].
    + split; [discriminate|]. intros H. inversion H; subst. rewrite Nat.eqb_refl in Ec. discriminate Ec.
  - inversion Hx as [| | | |? Hn Hl| |]; subst.
    destruct y as [b|s'|c' l'|c' l'|m'|c' m'|n' o' a' k']; try (split; [discriminate|intros H; inversion H]).
    inversion Hy as [| | | |? Hn' Hl'| |]; subst. rewrite (eq_map_T _ atom_eqb_eq) by exact Hn'.
    split.
    + intros [H1 H2]. constructor; [exact H1|]. intros k v v' Hv Hv'. apply IH; [apply in_map_iff; exists (k, v); auto|..| exact (H2 k v v' Hv Hv')];
        [apply Hl, in_map_iff; exists (k, v); auto|apply Hl', in_map_iff; exists (k, v'); auto].
    + intros H. inversion H as [| | | | |? ? H1 H2| |]; subst. split; [exact H1|]. intros k v v' Hv Hv'.
      apply IH; [apply in_map_iff; exists (k, v); auto|..|exact (H2 k v v' Hv Hv')];
        [apply Hl, in_map_iff; exists (k, v); auto|apply Hl', in_map_iff; exists (k, v'); auto].
  - inversion Hx as [| | | | |? ? Hn Hf Hl|]; subst.
    destruct y as [b|s'|c' l'|c' l'|m'|c' m'|[|] o' a' k']; try (split; [discriminate|intros H; inversion H]).
    inversion Hy as [| | | | |? ? Hn' Hf' Hl'|]; subst. destruct (c =? c') eqn:Ec.
    + apply Nat.eqb_eq in Ec. subst c'. rewrite (eq_map_T _ String.eqb_eq) by exact Hn'.
      split.
      * intros [H1 H2]. constructor; [exact H1|]. intros k v v' Hv Hv'. apply IH; [apply in_map_iff; exists (k, v); auto|..| exact (H2 k v v' Hv Hv')];
          [apply Hl, in_map_iff; exists (k, v); auto|apply Hl', in_map_iff; exists (k, v'); auto].
      * intros H. inversion H as [| | | | | |? ? ? H1 H2|]; subst. split; [exact H1|]. intros k v v' Hv Hv'.
        apply IH; [apply in_map_iff; exists (k, v); auto|..|exact (H2 k v v' Hv Hv')];
          [apply Hl, in_map_iff; exists (k, v); auto|apply Hl', in_map_iff; exists (k, v'); auto].
    + split; [discriminate|]. intros H. inversion H; subst. rewrite Nat.eqb_refl in Ec. discriminate Ec.
  - inversion Hx as [| | | | | |? ? ? ? Hn Hl]; subst.
    destruct y as [b|s'|c' l'|c' l'|m'|c' m'|n' o' a' k']; try (split; [discriminate|intros H; inversion H]).
    inversion Hy as [| | | | | |? ? ? ? Hn' Hl']; subst.
    destruct (o =? o') eqn:Eo; [|split; [discriminate|intros H; inversion H; subst; rewrite Nat.eqb_refl in Eo; discriminate Eo]].
    apply Nat.eqb_eq in Eo. subst o'.
    destruct (List.length a =? List.length a') eqn:El; [|split; [discriminate|]; intros H; inversion H as [| | | | | | |? ? ? ? ? ? ? F]; subst; apply Forall2_length in F; apply Nat.eqb_neq in El; contradiction].
    apply Nat.eqb_eq in El.
    assert (IHa : forall v v', In v a -> In v' a' -> (seq v v' = T <-> same true v v')).
    { intros v v' Hv Hv'. apply IH; [apply in_or_app; left; exact Hv|apply Hl, in_or_app; left; exact Hv|apply Hl', in_or_app; left; exact Hv']. }
    assert (IHk : forall x v v', In (x, v) k -> In (x, v') k' -> (seq v v' = T <-> same true v v')).
    { intros x v v' Hv Hv'.
      apply IH; [apply in_or_app; right; apply in_map_iff; exists (x, v); auto|apply Hl, in_or_app; right; apply in_map_iff; exists (x, v); auto|apply Hl', in_or_app; right; apply in_map_iff; exists (x, v'); auto]. }
    destruct (same_keys String.eqb k k') eqn:Ek.
    + rewrite andthen_T, all_zip_T by exact El. rewrite (Forall2_iff _ (same true) _ _ IHa).
      pose proof (proj1 (same_keys_spec _ String.eqb_eq _ _) Ek) as Hk.
      rewrite (eq_kv_T _ String.eqb_eq) by (try exact Hn'; intros x; apply Hk). split.
      * intros (H1 & _ & H2). constructor; [exact H1|exact Hk|]. intros x v v' Hv Hv'. apply (IHk x); auto. eapply H2; eassumption.
      * intros H. inversion H as [| | | | | | |? ? ? ? ? ? ? H1 H2 H3]; subst. split; [exact H1|]. split; [exact H2|].
        intros x v v' Hv Hv'. apply (IHk x); auto. eapply H3; eassumption.
    + split; [discriminate|]. intros H. inversion H as [| | | | | | |? ? ? ? ? ? ? H1 H2 H3]; subst.
      apply (same_keys_spec _ String.eqb_eq) in H2. congruence.
Qed.

(** Comparisons that do not meet a number term return a bool without calling anything. *)
Definition quiet (r : out * calls) : Prop := exists b, r = (OBool b, []).

Lemma quiet_and r k : quiet r -> quiet (k tt) -> quiet (andthen r k).
Proof.
  intros [b ->] [b' E]. unfold andthen. cbn [fst snd]. destruct b.
  - rewrite E. exists b'. reflexivity.
  - exists false. reflexivity.
Qed.

Lemma quiet_zip f xs : forall ys,
  (forall i v v', nth_error xs i = Some v -> nth_error ys i = Some v' -> quiet (f v v')) -> quiet (all_zip f xs ys).
Proof.
  induction xs as [|x xs IH]; intros ys H; [exists true; reflexivity|]. destruct ys as [|y ys]; [exists true; reflexivity|].
  cbn [all_zip]. apply quiet_and; [exact (H 0 x y eq_refl eq_refl)|]. apply IH. intros i. exact (H (S i)).
Qed.

Lemma quiet_get {K} (eqb : K -> K -> bool) (Heq : forall a b, eqb a b = true <-> a = b) f (other m : list (K * value)) :
  (forall k v v', In (k, v) m -> In (k, v') other -> quiet (f v v')) -> quiet (all_get eqb f other m).
Proof.
  induction m as [|[k v] m IH]; intros H; [exists true; reflexivity|]. cbn [all_get fst snd].
  destruct (get eqb k other) as [v'|] eqn:E; [|exists false; reflexivity].
  apply quiet_and; [|apply IH; intros k0 v0 v1 H0; apply H; right; exact H0].
  apply (H k); [left; reflexivity|]. unfold get in E. destruct (find _ other) as [[k1 v1]|] eqn:F; [|discriminate E].
  apply find_some in F. cbn in *. destruct F as [F1 F2]. apply Heq in F2. inversion E; subst. exact F1.
Qed.

Lemma quiet_map {K} (eqb : K -> K -> bool) (Heq : forall a b, eqb a b = true <-> a = b) f (m m' : list (K * value)) :
  (forall k v v', In (k, v) m -> In (k, v') m' -> quiet (f v v')) -> quiet (eq_map eqb f m m').
Proof. intros H. unfold eq_map. apply quiet_and; [apply (quiet_get eqb Heq); exact H|eexists; reflexivity]. Qed.

Lemma quiet_py x y : ((exists a, x = VAtom a) \/ (exists s, x = VSet s) \/ (exists c m, x = VData c m)) -> ~ meets x y -> quiet (py_eq eq_op x y).
Proof.
  intros Hx Hm. destruct y as [b|s'|c' l'|c' l'|m'|c' m'|[|] o' a' k'];
    try (destruct Hx as [[a ->]|[[s ->]|(c & m & ->)]]; eexists; reflexivity).
  exfalso. apply Hm. constructor; [reflexivity|exact Hx].
Qed.

Lemma seq_quiet x : forall y, ~ meets x y -> quiet (seq x y).
Proof.
  induction x as [a|s|c l IH|c l IH|m IH|c m IH|n o a k IH] using value_ind2; intros y Hm; cbn [syntactic_eq].
  - apply quiet_py; [left; eexists; reflexivity|exact Hm].
  - apply quiet_py; [right; left; eexists; reflexivity|exact Hm].
  - assert (G : forall l', elements y = Some l' -> quiet (if List.length l =? List.length l' then all_zip seq l l' else (OBool false, []))).
    { intros l' E. destruct (List.length l =? List.length l'); [|exists false; reflexivity].
      apply quiet_zip. intros i v v' H1 H2. apply IH; [apply nth_error_In in H1; exact H1|]. intros M. apply Hm. econstructor; eassumption. }
    destruct y as [b|s'|c' l'|c' l'|m'|c' m'|n' o' a' k']; try (exists false; reflexivity).
    + destruct b; try (exists false; reflexivity); apply G; reflexivity.
    + apply G. reflexivity.
  - destruct y as [b|s'|c' l'|c' l'|m'|c' m'|n' o' a' k']; try (exists false; reflexivity).
    destruct (c =? c'); [|exists false; reflexivity]. apply quiet_zip. intros i v v' H1 H2.
    apply IH; [apply nth_error_In in H1; exact H1|]. intros M. apply Hm. econstructor; eassumption.
  - destruct y as [b|s'|c' l'|c' l'|m'|c' m'|n' o' a' k']; try (exists false; reflexivity).
    apply (quiet_map _ atom_eqb_eq). intros k v v' H1 H2. apply IH; [apply in_map_iff; exists (k, v); auto|].
    intros M. apply Hm. eapply MMap; eassumption.
  - destruct y as [b|s'|c' l'|c' l'|m'|c' m'|n' o' a' k']; try (apply quiet_py; [right; right; do 2 eexists; reflexivity|exact Hm]).
    destruct (c =? c'); [|exists false; reflexivity].
    apply (quiet_map _ String.eqb_eq). intros k v v' H1 H2. apply IH; [apply in_map_iff; exists (k, v); auto|].
    intros M. apply Hm. eapply MData; eassumption.
  - destruct y as [b|s'|c' l'|c' l'|m'|c' m'|n' o' a' k']; try (exists false; reflexivity).
    destruct (o =? o'); [|exists false; reflexivity]. destruct (_ =? _); [|exists false; reflexivity].
    destruct (same_keys _ _ _); [|exists false; reflexivity]. apply quiet_and.
    + apply quiet_zip. intros i v v' H1 H2. apply IH; [apply in_or_app; left; apply nth_error_In in H1; exact H1|].
      intros M. apply Hm. eapply MArg; eassumption.
    + apply (quiet_get _ String.eqb_eq). intros x v v' H1 H2. apply IH; [apply in_or_app; right; apply in_map_iff; exists (x, v); auto|].
      intros M. apply Hm. eapply MKw; eassumption.
Qed.

Theorem seq_total x y : wf x -> wf y -> ~ meets x y ->
  exists b, seq x y = (OBool b, []) /\ (b = true <-> same true x y).
Proof.
  intros Hx Hy Hm. destruct (seq_quiet x y Hm) as [b E]. exists b. split; [exact E|].
  rewrite <- (seq_same x y Hx Hy), E. split; [intros ->; reflexivity|intros H; inversion H; reflexivity].
Qed.
End Main.

(** ** Properties of the relation *)

Lemma same_refl text x arity fields : wf arity fields x -> same text x x.
Proof.
  assert (F : forall P l, (forall v : value, In v l -> P v -> same text v v) -> (forall v, In v l -> P v) -> Forall2 (same text) l l).
  { intros P l. induction l as [|v l IH]; intros H1 H2; constructor; [apply H1; [left; reflexivity|apply H2; left; reflexivity]|].
    apply IH; intros; [apply H1|apply H2]; auto; right; assumption. }
  assert (G : forall K (m : list (K * value)) k v v', NoDup (keys m) -> In (k, v) m -> In (k, v') m -> v = v').
  { intros K m k v v' Hn H1 H2. induction m as [|[k0 v0] m IH]; [destruct H1|]. inversion Hn; subst.
    destruct H1 as [H1|H1], H2 as [H2|H2]; [congruence|..|apply IH; assumption]; exfalso;
      [inversion H1; subst; apply H3, in_map_iff; exists (k, v'); auto|inversion H2; subst; apply H3, in_map_iff; exists (k, v); auto]. }
  induction x as [a|s|c l IH|c l IH|m IH|c m IH|n o a k IH] using value_ind2; intros Hx; inversion Hx; subst.
  - constructor.
  - constructor. reflexivity.
  - constructor. apply (F _ _ IH). assumption.
  - constructor. apply (F _ _ IH). assumption.
  - constructor; [reflexivity|]. intros k v v' J2 J3. rewrite (G _ m k v' v) by assumption.
    apply IH; [apply in_map_iff; exists (k, v); auto|]. match goal with H : forall v, In v (map snd m) -> _ |- _ => apply H, in_map_iff end. exists (k, v). auto.
  - constructor; [reflexivity|]. intros k v v' J2 J3. rewrite (G _ m k v' v) by assumption.
    apply IH; [apply in_map_iff; exists (k, v); auto|]. match goal with H : forall v, In v (map snd m) -> _ |- _ => apply H, in_map_iff end. exists (k, v). auto.
  - constructor; [|reflexivity|].
    + apply (F (wf arity fields)); intros v Hv.
      * apply IH. apply in_or_app. left. exact Hv.
      * match goal with H : forall v, In v (a ++ map snd k) -> _ |- _ => apply H end. apply in_or_app. left. exact Hv.
    + intros x v v' J2 J3. rewrite (G _ k x v' v) by assumption.
      assert (Hv : In v (a ++ map snd k)) by (apply in_or_app; right; apply in_map_iff; exists (x, v); auto).
      apply IH; [exact Hv|]. match goal with H : forall v, In v (a ++ map snd k) -> _ |- _ => apply H end. exact Hv.
Qed.

Lemma Forall2_trans_in {A} (R : A -> A -> Prop) l1 : forall l2 l3,
  (forall x y z, In x l1 -> R x y -> R y z -> R x z) -> Forall2 R l1 l2 -> Forall2 R l2 l3 -> Forall2 R l1 l3.
Proof.
  induction l1 as [|x l1 IH]; intros l2 l3 H F1 F2; inversion F1; subst; inversion F2; subst; constructor.
  - eapply H; [left; reflexivity|eassumption|eassumption].
  - eapply IH; [|eassumption|eassumption]. intros a b c Ha. apply H. right. exact Ha.
Qed.

Lemma keys_some {K V} (m : list (K * V)) k : In k (keys m) -> exists v, In (k, v) m.
Proof. intros H. apply in_map_iff in H. destruct H as ([k0 v] & <- & H). exists v. exact H. Qed.

Lemma in_keys {K V} (m : list (K * V)) k v : In (k, v) m -> In k (keys m).
Proof. intros H. apply in_map_iff. exists (k, v). auto. Qed.

Lemma kv_trans {K} (R : value -> value -> Prop) (m1 m2 m3 : list (K * value)) :
  (forall x y z, In x (map snd m1) -> R x y -> R y z -> R x z) ->
  (forall k, In k (keys m1) <-> In k (keys m2)) -> (forall k v v', In (k, v) m1 -> In (k, v') m2 -> R v v') ->
  (forall k v v', In (k, v) m2 -> In (k, v') m3 -> R v v') ->
  forall k v v', In (k, v) m1 -> In (k, v') m3 -> R v v'.
Proof.
  intros H K1 R1 R2 k v v' H1 H3. destruct (keys_some m2 k) as [w Hw]; [apply K1; eapply in_keys; exact H1|].
  eapply H; [apply in_map_iff; exists (k, v); auto|eapply R1; eassumption|eapply R2; eassumption].
Qed.

Lemma same_trans text x : forall y z, same text x y -> same text y z -> same text x z.
Proof.
  induction x as [a|s|c l IH|c l IH|m IH|c m IH|n o a k IH] using value_ind2; intros y z H1 H2.
  - inversion H1; subst. inversion H2; subst. constructor.
  - inversion H1; subst. inversion H2; subst. constructor. intros a. rewrite <- H3. apply H0.
  - assert (G : forall l2 l3, Forall2 (same text) l l2 -> Forall2 (same text) l2 l3 -> Forall2 (same text) l l3).
    { intros l2 l3. apply Forall2_trans_in. intros v1 v2 v3 Hv. apply IH. exact Hv. }
    inversion H1; subst; inversion H2; subst.
    + constructor. eapply G; eassumption.
    + eapply SText; [reflexivity|eassumption|]. eapply G; eassumption.
    + eapply SText; [reflexivity|eassumption|]. eassumption.
  - inversion H1; subst; inversion H2; subst. constructor. eapply Forall2_trans_in; [|eassumption|eassumption].
    intros v1 v2 v3 Hv. apply IH. exact Hv.
  - inversion H1; subst; inversion H2; subst. constructor.
    + intros k. rewrite H0. apply H4.
    + eapply kv_trans; [|exact H0|exact H3|exact H5]. intros v1 v2 v3 Hv. apply IH. exact Hv.
  - inversion H1 as [| | | | | |? ? ? K1 R1|]; subst; inversion H2 as [| | | | | |? ? ? K2 R2|]; subst. constructor.
    + intros k. rewrite K1. apply K2.
    + eapply kv_trans; [|exact K1|exact R1|exact R2]. intros v1 v2 v3 Hv. apply IH. exact Hv.
  - inversion H1 as [| | | | | | |? ? ? ? ? ? ? F1 K1 R1]; subst; inversion H2 as [| | | | | | |? ? ? ? ? ? ? F2 K2 R2]; subst. constructor.
    + eapply Forall2_trans_in; [|exact F1|exact F2]. intros v1 v2 v3 Hv. apply IH. apply in_or_app. left. exact Hv.
    + intros x. rewrite K1. apply K2.
    + eapply kv_trans; [|exact K1|exact R1|exact R2]. intros v1 v2 v3 Hv. apply IH. apply in_or_app. right. exact Hv.
Qed.

Lemma Forall2_sym_in {A} (R : A -> A -> Prop) l1 : forall l2,
  (forall x y, In x l1 -> R x y -> R y x) -> Forall2 R l1 l2 -> Forall2 R l2 l1.
Proof.
  induction l1 as [|x l1 IH]; intros l2 H F; inversion F; subst; constructor.
  - apply H; [left; reflexivity|assumption].
  - apply IH; [|assumption]. intros a b Ha. apply H. right. exact Ha.
Qed.

(** The documented relation is symmetric. *)
Lemma same_sym x : forall y, same false x y -> same false y x.
Proof.
  induction x as [a|s|c l IH|c l IH|m IH|c m IH|n o a k IH] using value_ind2; intros y H; inversion H; subst; try discriminate.
  - constructor.
  - constructor. intros a. symmetry. apply H1.
  - constructor. apply Forall2_sym_in; [intros v1 v2 Hv; apply IH; exact Hv|assumption].
  - constructor. apply Forall2_sym_in; [intros v1 v2 Hv; apply IH; exact Hv|assumption].
  - constructor; [intros k; symmetry; apply H1|]. intros k v v' Hv Hv'.
    apply IH; [apply in_map_iff; exists (k, v'); auto|eapply H2; eassumption].
  - match goal with A : forall k, In k (keys m) <-> _, B : forall k v v', In (k, v) m -> _ |- _ => rename A into K1; rename B into R1 end.
    constructor; [intros k; symmetry; apply K1|]. intros k v v' Hv Hv'.
    apply IH; [apply in_map_iff; exists (k, v'); auto|eapply R1; eassumption].
  - match goal with A : forall x, In x (keys k) <-> _, B : forall x v v', In (x, v) k -> _ |- _ => rename A into K1; rename B into R1 end.
    constructor; [|intros x; symmetry; apply K1|].
    + apply Forall2_sym_in; [intros v1 v2 Hv; apply IH; apply in_or_app; left; exact Hv|assumption].
    + intros x v v' Hv Hv'. apply IH; [apply in_or_app; right; apply in_map_iff; exists (x, v'); auto|eapply R1; eassumption].
Qed.

Lemma Forall2_impl_in {A B} (R S : A -> B -> Prop) l1 : forall l2,
  (forall x y, In x l1 -> In y l2 -> R x y -> S x y) -> Forall2 R l1 l2 -> Forall2 S l1 l2.
Proof.
  induction l1 as [|x l1 IH]; intros l2 H F; inversion F; subst; constructor.
  - apply H; [left; reflexivity|left; reflexivity|assumption].
  - apply IH; [|assumption]. intros a b Ha Hb. apply H; right; assumption.
Qed.

Lemma in_snd {K} (m : list (K * value)) k v : In (k, v) m -> In v (map snd m).
Proof. intros H. apply in_map_iff. exists (k, v). auto. Qed.

(** The relations differ only where a sequence is compared with a text it spells. *)
Lemma same_documented x : forall y, ~ spells x \/ ~ has_text y -> same true x y -> same false x y.
Proof.
  induction x as [a|s|c l IH|c l IH|m IH|c m IH|n o a k IH] using value_ind2; intros y Hd H; inversion H; subst.
  - constructor.
  - constructor. assumption.
  - constructor. eapply Forall2_impl_in; [|eassumption]. intros v v' Hv Hv' R. apply IH; [exact Hv| |exact R].
    destruct Hd as [Hd|Hd]; [left|right]; intros Hs; apply Hd; econstructor; eassumption.
  - exfalso. destruct Hd as [Hd|Hd]; apply Hd.
    + eapply PHere. eexists. split; eassumption.
    + econstructor; eassumption.
  - constructor. eapply Forall2_impl_in; [|eassumption]. intros v v' Hv Hv' R. apply IH; [exact Hv| |exact R].
    destruct Hd as [Hd|Hd]; [left|right]; intros Hs; apply Hd; econstructor; eassumption.
  - constructor; [assumption|]. intros k v v' Hv Hv'. apply IH; [eapply in_snd; exact Hv| |eauto].
    destruct Hd as [Hd|Hd]; [left|right]; intros Hs; apply Hd; econstructor; try eassumption; eapply in_snd; eassumption.
  - constructor; [assumption|]. intros k v v' Hv Hv'. apply IH; [eapply in_snd; exact Hv| |eauto].
    destruct Hd as [Hd|Hd]; [left|right]; intros Hs; apply Hd; econstructor; try eassumption; eapply in_snd; eassumption.
  - constructor; [|assumption|].
    + eapply Forall2_impl_in; [|eassumption]. intros v v' Hv Hv' R. apply IH; [apply in_or_app; left; exact Hv| |exact R].
      destruct Hd as [Hd|Hd]; [left|right]; intros Hs; apply Hd; econstructor; try eassumption; apply in_or_app; left; eassumption.
    + intros x v v' Hv Hv'. apply IH; [apply in_or_app; right; eapply in_snd; exact Hv| |eauto].
      destruct Hd as [Hd|Hd]; [left|right]; intros Hs; apply Hd; econstructor; try eassumption; apply in_or_app; right; eapply in_snd; eassumption.
Qed.

Lemma same_weaken x : forall y, same false x y -> same true x y.
Proof.
  induction x as [a|s|c l IH|c l IH|m IH|c m IH|n o a k IH] using value_ind2; intros y H; inversion H; subst; try discriminate.
  - constructor.
  - constructor. assumption.
  - constructor. eapply Forall2_impl_in; [|eassumption]. intros v v' Hv Hv' R. apply IH; assumption.
  - constructor. eapply Forall2_impl_in; [|eassumption]. intros v v' Hv Hv' R. apply IH; assumption.
  - constructor; [assumption|]. intros k v v' Hv Hv'. apply IH; [eapply in_snd; exact Hv|eauto].
  - constructor; [assumption|]. intros k v v' Hv Hv'. apply IH; [eapply in_snd; exact Hv|eauto].
  - constructor; [|assumption|].
    + eapply Forall2_impl_in; [|eassumption]. intros v v' Hv Hv' R. apply IH; [apply in_or_app; left; exact Hv|exact R].
    + intros x v v' Hv Hv'. apply IH; [apply in_or_app; right; eapply in_snd; exact Hv|eauto].
Qed.

Lemma meets_number x y : meets x y -> has_number y.
Proof.
  intros H. induction H as [x n o a k Hn _|c l y l' i v v' E _ Hi _ IH|c c' l l' i v v' _ Hi _ IH|m m' k v v' _ Hi _ IH
    |c c' m m' k v v' _ Hi _ IH|n n' o o' a a' k k' i v v' _ Hi _ IH|n n' o o' a a' k k' x v v' _ Hi _ IH].
  - subst. constructor.
  - apply nth_error_In in Hi. destruct y as [b|s'|c' l0|c' l0|m'|c' m'|n' o' a' k']; try discriminate E.
    + exfalso. destruct b as [z|s|bs|o]; try discriminate E; inversion E; subst.
      * revert Hi. clear -IH. induction s as [|ch s IHs]; intros Hi; [destruct Hi|]. destruct Hi as [H|H]; [subst; inversion IH|apply IHs; exact H].
      * apply in_map_iff in Hi. destruct Hi as (z & <- & _). inversion IH.
    + inversion E; subst. econstructor; eassumption.
    + inversion E; subst. econstructor; eassumption.
  - apply nth_error_In in Hi. econstructor; eassumption.
  - apply in_snd in Hi. econstructor; eassumption.
  - apply in_snd in Hi. econstructor; eassumption.
  - apply nth_error_In in Hi. eapply NTerm; [apply in_or_app; left; exact Hi|exact IH].
  - apply in_snd in Hi. eapply NTerm; [apply in_or_app; right; exact Hi|exact IH].
Qed.

(** ** The statements about [syntactic_eq] *)

Section Api.
Variable arity : nat -> nat.
Variable fields : nat -> list string.
Notation wf := (wf arity fields).

Lemma seq_refl eq_op x : wf x -> syntactic_eq eq_op x x = T.
Proof. intros H. apply (seq_same arity fields); [exact H|exact H|]. apply (same_refl true x arity fields H). Qed.

Lemma seq_trans eq_op x y z : wf x -> wf y -> wf z ->
  syntactic_eq eq_op x y = T -> syntactic_eq eq_op y z = T -> syntactic_eq eq_op x z = T.
Proof.
  intros Hx Hy Hz H1 H2. apply (seq_same arity fields) in H1, H2; try assumption.
  apply (seq_same arity fields); [assumption|assumption|]. eapply same_trans; eassumption.
Qed.

Lemma seq_sym eq_op x y : wf x -> wf y -> ~ spells x \/ ~ has_text y ->
  syntactic_eq eq_op x y = T -> syntactic_eq eq_op y x = T.
Proof.
  intros Hx Hy Hd H. apply (seq_same arity fields) in H; try assumption.
  apply (seq_same arity fields); try assumption. apply same_weaken, same_sym, same_documented; assumption.
Qed.

Lemma seq_documented eq_op x y : wf x -> wf y -> ~ spells x \/ ~ has_text y -> ~ meets x y ->
  exists b, syntactic_eq eq_op x y = (OBool b, []) /\ (b = true <-> same false x y).
Proof.
  intros Hx Hy Hd Hm. destruct (seq_total arity fields eq_op x y Hx Hy Hm) as (b & E & Hb). exists b. split; [exact E|].
  rewrite Hb. split; [apply same_documented; exact Hd|apply same_weaken].
Qed.

Lemma seq_no_numbers eq_op x y : ~ has_number y -> exists b, syntactic_eq eq_op x y = (OBool b, []).
Proof. intros H. apply seq_quiet. intros M. apply H, (meets_number _ _ M). Qed.
End Api.
