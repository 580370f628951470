(** Proofs about unification. *)
From Coq Require Import List Bool Arith Lia.
From Verif Require Import UnifModel UnifSpec UnifSubst.
Import ListNotations.

(** * Ground types *)
Lemma ground_list : forall l, flat_map fvs l = [] <-> Forall ground l.
Proof.
  induction l as [|a l IH]; cbn; [split; auto|]. split.
  - intros H. apply app_eq_nil in H. destruct H as [A B]. constructor; [exact A|now apply IH].
  - intros H. rewrite (Forall_inv H : fvs a = []). apply IH. now apply Forall_inv_tail in H.
Qed.
Lemma ground_no : forall t v, ground t -> ~ In v (fvs t).
Proof. intros t v G I. rewrite G in I. exact I. Qed.
Lemma no_ground : forall t, (forall v, ~ In v (fvs t)) -> ground t.
Proof. intros t H. unfold ground. destruct (fvs t) as [|v l]; [reflexivity|]. exfalso. apply (H v). now left. Qed.
Lemma eqb_ground : forall t x, ty_eqb t x = true -> ground x -> ground t.
Proof. intros t x E G. apply no_ground. intros v I. apply (ty_eqb_vars t x E v) in I. now apply (ground_no x v G). Qed.

(** * Applying substitutions *)
Lemma apply_ext : forall f g t, (forall v, In v (fvs t) -> f v = g v) -> apply f t = apply g t.
Proof.
  intros f g t.
  assert (G : forall l, Forall (fun t => (forall v, In v (fvs t) -> f v = g v) -> apply f t = apply g t) l ->
              (forall v, In v (flat_map fvs l) -> f v = g v) -> map (apply f) l = map (apply g) l).
  { intros l F. induction F as [|a l H _ IH]; intros E; [reflexivity|]. cbn. f_equal.
    - apply H. intros v I. apply E. cbn. apply in_or_app. now left.
    - apply IH. intros v I. apply E. cbn. apply in_or_app. now right. }
  induction t as [v| | |c|c l IH|l IH|l IH] using ty_ind2; intros E; cbn [apply]; try reflexivity.
  - apply E. now left.
  - now rewrite (G l IH E).
  - now rewrite (G l IH E).
  - now rewrite (G l IH E).
Qed.
Lemma apply_var : forall t, apply TVar t = t.
Proof.
  assert (G : forall l, Forall (fun t => apply TVar t = t) l -> map (apply TVar) l = l).
  { intros l F. induction F as [|a l H _ IH]; cbn; [reflexivity|]. now rewrite H, IH. }
  induction t as [v| | |c|c l IH|l IH|l IH] using ty_ind2; cbn [apply]; try reflexivity; now rewrite (G l IH).
Qed.
Lemma apply_ground : forall f t, ground t -> apply f t = t.
Proof.
  intros f t G. rewrite (apply_ext f TVar t); [apply apply_var|]. intros v I. destruct (ground_no t v G I).
Qed.
Lemma apply_apply : forall f g t, apply f (apply g t) = apply (fun v => apply f (g v)) t.
Proof.
  intros f g.
  assert (G : forall l, Forall (fun t => apply f (apply g t) = apply (fun v => apply f (g v)) t) l ->
              map (apply f) (map (apply g) l) = map (apply (fun v => apply f (g v))) l).
  { intros l F. induction F as [|a l H _ IH]; cbn; [reflexivity|]. now rewrite H, IH. }
  induction t as [v| | |c|c l IH|l IH|l IH] using ty_ind2; cbn [apply]; try reflexivity; now rewrite (G l IH).
Qed.
Lemma apply_vars : forall f t v, In v (fvs (apply f t)) <-> exists w, In w (fvs t) /\ In v (fvs (f w)).
Proof.
  intros f t v.
  assert (G : forall l, Forall (fun t => In v (fvs (apply f t)) <-> exists w, In w (fvs t) /\ In v (fvs (f w))) l ->
    (In v (flat_map fvs (map (apply f) l)) <-> exists w, In w (flat_map fvs l) /\ In v (fvs (f w)))).
  { intros l F. induction F as [|a l H _ IH]; cbn; [split; [tauto|intros [w [[] _]]]|].
    rewrite in_app_iff, H, IH. split.
    - intros [[w [A B]]|[w [A B]]]; exists w; rewrite in_app_iff; tauto.
    - intros [w [A B]]. apply in_app_iff in A. destruct A; [left|right]; eauto. }
  induction t as [x| | |c|c l IH|l IH|l IH] using ty_ind2; cbn [apply].
  - cbn. split; [intros H; exists x; auto|intros [w [[<-|[]] H]]; exact H].
  - cbn. split; [tauto|intros [w [[] _]]].
  - cbn. split; [tauto|intros [w [[] _]]].
  - cbn. split; [tauto|intros [w [[] _]]].
  - cbn [fvs]. now apply G.
  - cbn [fvs]. now apply G.
  - cbn [fvs]. now apply G.
Qed.

Lemma extends_refl : forall s, extends s s.
Proof. intros s v b H. exact H. Qed.
Lemma extends_trans : forall a b c, extends a b -> extends b c -> extends a c.
Proof. intros a b c H K v x G. apply K. now apply H. Qed.
Lemma get_put : forall v t s w, get (put v t s) w = match get s w with Some b => Some b | None => if Nat.eqb v w then Some t else None end.
Proof.
  intros v t s w. unfold put. destruct (get s v) as [b|] eqn:E.
  - destruct (get s w) eqn:G; [reflexivity|]. destruct (Nat.eqb_spec v w) as [->|]; [congruence|reflexivity].
  - cbn. destruct (Nat.eqb_spec v w) as [->|]; [now rewrite E|]. now destruct (get s w).
Qed.
Lemma extends_put : forall v t s, extends s (put v t s).
Proof. intros v t s w b G. now rewrite get_put, G. Qed.
Lemma grounded_put : forall v t s, grounded s -> ground t -> grounded (put v t s).
Proof.
  intros v t s H G w b E. rewrite get_put in E. destruct (get s w) as [b'|] eqn:F.
  - injection E as <-. now apply H with w.
  - destruct (Nat.eqb v w); [injection E as <-; exact G|discriminate].
Qed.
Lemma apply_extends : forall s s' t, grounded s -> extends s s' -> apply (once s') (apply (once s) t) = apply (once s') t.
Proof.
  intros s s' t G E. rewrite apply_apply. apply apply_ext. intros v _. unfold once at 2. destruct (get s v) as [b|] eqn:F; [|reflexivity].
  rewrite apply_ground by (now apply G with v). unfold once. now rewrite (E v b F).
Qed.

(** * Induction on acceptance *)
Section AcceptsInd.
Variable T : table.
Notation accepts := (accepts T).
Variable P : ty -> ty -> Prop.
Hypothesis H1 : forall v, P (TVar v) (TVar v).
Hypothesis H2 : forall x, P TAny x.
Hypothesis H3 : forall t, P t TAny.
Hypothesis H4 : forall x, P TEll x.
Hypothesis H5 : forall t, P t TEll.
Hypothesis H5' : forall c, P (TCon c) (TCon c).
Hypothesis H6 : forall c d, issub T d c = true -> P (TCon c) (TCon d).
Hypothesis H7 : forall c d ys, accepts (TCon c) (TCon d) -> P (TCon c) (TCon d) -> P (TCon c) (TApp d ys).
Hypothesis H8 : forall c d xs, issub T d c = true -> P (TApp c xs) (TCon d).
Hypothesis H9 : forall c xs ys, Forall2 (fun a b => accepts a b /\ P a b) xs ys -> P (TApp c xs) (TApp c ys).
Hypothesis H10 : forall xs ys, Forall2 (fun a b => accepts a b /\ P a b) xs ys -> P (TList xs) (TList ys).
Hypothesis H11 : forall t l, Forall (fun b => accepts t b /\ P t b) l -> P t (TUnion l).
Hypothesis H12 : forall l a x, In a l -> accepts a x -> P a x -> P (TUnion l) x.
Hypothesis H13 : forall c xs ys, c <> CTuple /\ issub T CTuple c = true ->
  Forall (fun y => accepts (TApp c xs) (TApp CSequence [y]) /\ P (TApp c xs) (TApp CSequence [y])) ys -> P (TApp c xs) (TApp CTuple ys).
Hypothesis H14 : forall c d a xs b ys, (d = CMapping \/ d = CGenerator) -> issub T d c = true /\ issub T c d = false -> accepts a b -> P a b ->
  P (TApp c (a :: xs)) (TApp d (b :: ys)).
Hypothesis H15 : forall c xs ys, issub T COperation c = true /\ issub T c COperation = false -> accepts (TApp c xs) (TApp CCallable ys) ->
  P (TApp c xs) (TApp CCallable ys) -> P (TApp c xs) (TApp COperation ys).
Hypothesis H16 : forall c xs d ys b y n y', In b (bases T d) -> subscript T b ys = Ok y -> canon T n y = Ok y' ->
  accepts (TApp c xs) y' -> P (TApp c xs) y' -> P (TApp c xs) (TApp d ys).
Hypothesis H17 : forall d j a xs, jax_array T = Some j -> issub T d j = true -> accepts a (TCon j) -> P a (TCon j) ->
  P (TApp CIterable (a :: xs)) (TCon d).
Fixpoint accepts_ind2 (t x : ty) (H : accepts t x) {struct H} : P t x.
Proof.
  destruct H as [v|x|t|x|t|c|c d E|c d ys A|c d xs E|c xs ys F|xs ys F|t l F|l a x I A|c xs ys E F|c d a xs b ys D E A
                |c xs ys E A|c xs d ys b y n y' I S C A|d j a xs J E A].
  - apply H1.
  - apply H2.
  - apply H3.
  - apply H4.
  - apply H5.
  - apply H5'.
  - now apply H6.
  - apply H7; [exact A|apply accepts_ind2; exact A].
  - now apply H8.
  - apply H9. induction F as [|a b xs ys A F IH]; constructor; [split; [exact A|apply accepts_ind2; exact A]|exact IH].
  - apply H10. induction F as [|a b xs ys A F IH]; constructor; [split; [exact A|apply accepts_ind2; exact A]|exact IH].
  - apply H11. induction F as [|b l A F IH]; constructor; [split; [exact A|apply accepts_ind2; exact A]|exact IH].
  - apply H12 with a; [exact I|exact A|apply accepts_ind2; exact A].
  - apply H13; [exact E|]. induction F as [|b l A F IH]; constructor; [split; [exact A|apply accepts_ind2; exact A]|exact IH].
  - apply H14; [exact D|exact E|exact A|apply accepts_ind2; exact A].
  - apply H15; [exact E|exact A|apply accepts_ind2; exact A].
  - apply H16 with b y n y'; [exact I|exact S|exact C|exact A|apply accepts_ind2; exact A].
  - apply H17 with j; [exact J|exact E|exact A|apply accepts_ind2; exact A].
Qed.
End AcceptsInd.

(** * Bindings are kept *)
Section Table.
Variable T : table.
Notation unify := (unify T).
Notation accepts := (accepts T).

Lemma seq_extends : forall f, (forall t x s s', f t x s = Ok s' -> extends s s') ->
  forall l l' s s', seq f l l' s = Ok s' -> extends s s'.
Proof.
  intros f F. induction l as [|a l IH]; intros [|b l'] s s' H; cbn in H; try (injection H as <-; apply extends_refl).
  destruct (f a b s) as [s1| |] eqn:E; try discriminate. eapply extends_trans; [apply (F _ _ _ _ E)|apply (IH _ _ _ H)].
Qed.
Lemma each_extends : forall f, (forall t x s s', f t x s = Ok s' -> extends s s') ->
  forall t l s s', each f t l s = Ok s' -> extends s s'.
Proof.
  intros f F t. induction l as [|b l IH]; intros s s' H; cbn in H; [injection H as <-; apply extends_refl|].
  destruct (f t b s) as [s1| |] eqn:E; try discriminate. eapply extends_trans; [apply (F _ _ _ _ E)|apply (IH _ _ H)].
Qed.
Lemma attempts_in : forall f l x s us u, attempts f l x s = Ok us -> In u us -> exists a, In a l /\ f a x s = Ok u.
Proof.
  intros f l x s. induction l as [|a l IH]; intros us u H I; cbn in H.
  - injection H as <-. destruct I.
  - destruct (f a x s) as [u0| |] eqn:E; try discriminate.
    + destruct (attempts f l x s) as [us'| |] eqn:R; try discriminate. injection H as <-. destruct I as [<-|I].
      * exists a. split; [now left|exact E].
      * destruct (IH _ _ eq_refl I) as [a' [I' E']]. exists a'. split; [now right|exact E'].
    + destruct (IH _ _ H I) as [a' [I' E']]. exists a'. split; [now right|exact E'].
Qed.
Lemma attempts_first : forall f l x s s',
  bind (attempts f l x s) (fun us => match us with [] => Err | u :: _ => if forallb (fun u' => subst_eqb u' u) us then Ok u else Err end) = Ok s' ->
  exists a, In a l /\ f a x s = Ok s'.
Proof.
  intros f l x s s' H. destruct (attempts f l x s) as [us| |] eqn:E; try discriminate. cbn [bind] in H.
  destruct us as [|u us]; [discriminate|]. destruct (forallb _ _); [|discriminate]. injection H as <-.
  apply (attempts_in _ _ _ _ _ _ E). now left.
Qed.

Definition base_of (c d : cls) : option ty := find (fun b => match origin b with Some o => issub T o c | None => false end) (bases T d).
(** The steps of [unify], one by one. *)
Inductive steps (n : nat) (s : subst) (s' : subst) : ty -> ty -> Prop :=
| st_eq : forall t x, ty_eqb t x = true -> s' = s -> steps n s s' t x
| st_vars : forall v w, s' = put v (TVar w) s -> steps n s s' (TVar v) (TVar w)
| st_var : forall v x, (forall w, x <> TVar w) ->
    unify n (match get s v with Some b => b | None => x end) x (put v x s) = Ok s' -> steps n s s' (TVar v) x
| st_var_r : forall t w, (forall v, t <> TVar v) ->
    unify n t (match get s w with Some b => b | None => t end) (put w t s) = Ok s' -> steps n s s' t (TVar w)
| st_ell : forall t x, (t = TEll \/ x = TEll) -> s' = s -> steps n s s' t x
| st_any : forall t x, (t = TAny \/ x = TAny) -> s' = s -> steps n s s' t x
| st_list : forall l l', length l = length l' -> seq (unify n) l l' s = Ok s' -> steps n s s' (TList l) (TList l')
| st_union_r : forall t l', each (unify n) t l' s = Ok s' -> steps n s s' t (TUnion l')
| st_union_l : forall l x a, In a l -> unify n a x s = Ok s' -> steps n s s' (TUnion l) x
| st_tuple : forall c xs ys, c <> CTuple /\ issub T CTuple c = true ->
    each (unify n) (TApp c xs) (map (fun y => TApp CSequence [y]) ys) s = Ok s' -> steps n s s' (TApp c xs) (TApp CTuple ys)
| st_first : forall c d a xs b ys, issub T d c = true /\ issub T c d = false -> (d = CMapping \/ d = CGenerator) ->
    unify n a b s = Ok s' -> steps n s s' (TApp c (a :: xs)) (TApp d (b :: ys))
| st_operation : forall c xs ys, issub T COperation c = true /\ issub T c COperation = false -> unify n (TApp c xs) (TApp CCallable ys) s = Ok s' ->
    steps n s s' (TApp c xs) (TApp COperation ys)
| st_same : forall c xs ys, unify n (TList xs) (TList ys) s = Ok s' -> steps n s s' (TApp c xs) (TApp c ys)
| st_base : forall c xs d ys b y y', In b (bases T d) -> subscript T b ys = Ok y -> canon T n y = Ok y' ->
    unify n (TApp c xs) y' s = Ok s' -> steps n s s' (TApp c xs) (TApp d ys)
| st_class_app : forall t d ys, (exists c, t = TCon c) \/ t = TAny -> unify n t (TCon d) s = Ok s' -> steps n s s' t (TApp d ys)
| st_app_class : forall c xs d, issub T d c = true -> s' = s -> steps n s s' (TApp c xs) (TCon d)
| st_jax : forall a xs d j, jax_array T = Some j -> issub T d j = true -> unify n a (TCon j) s = Ok s' ->
    steps n s s' (TApp CIterable (a :: xs)) (TCon d)
| st_class : forall c d, issub T d c = true -> s' = s -> steps n s s' (TCon c) (TCon d).

Lemma unify_generic_steps : forall n c xs d ys s s',
  (if issub T d c then
     if cls_eqb d CTuple && negb (cls_eqb c CTuple) then each (unify n) (TApp c xs) (map (fun y => TApp CSequence [y]) ys) s
     else if cls_eqb d CMapping && negb (issub T c CMapping) || cls_eqb d CGenerator && negb (issub T c CGenerator) then
       match xs, ys with a :: _, b :: _ => unify n a b s | _, _ => Err end
     else if cls_eqb d COperation && negb (issub T c COperation) then unify n (TApp c xs) (TApp CCallable ys) s
     else if cls_eqb c d then unify n (TList xs) (TList ys) s
     else
       match find (fun b => match origin b with Some o => issub T o c | None => false end) (bases T d) with
       | Some b => bind (subscript T b ys) (fun y => bind (canon T n y) (fun y' => unify n (TApp c xs) y' s))
       | None => Err
       end
   else Err) = Ok s' -> steps n s s' (TApp c xs) (TApp d ys).
Proof.
  intros n c xs d ys s s' H. destruct (issub T d c) eqn:Sub; [|discriminate].
  destruct (cls_eqb d CTuple && negb (cls_eqb c CTuple)) eqn:E1.
  { apply andb_true_iff in E1. destruct E1 as [E1 E0]. apply cls_eqb_eq in E1. subst d. apply st_tuple; [|exact H].
    split; [|exact Sub]. intros ->. discriminate E0. }
  destruct (cls_eqb d CMapping && negb (issub T c CMapping) || cls_eqb d CGenerator && negb (issub T c CGenerator)) eqn:E2.
  { destruct xs as [|a xs]; [discriminate|]. destruct ys as [|b ys]; [discriminate|].
    apply orb_true_iff in E2.
    destruct E2 as [E2|E2]; apply andb_true_iff in E2; destruct E2 as [E2 E0]; apply cls_eqb_eq in E2; apply negb_true_iff in E0; subst d; apply st_first; auto. }
  destruct (cls_eqb d COperation && negb (issub T c COperation)) eqn:E3.
  { apply andb_true_iff in E3. destruct E3 as [E3 E0]. apply cls_eqb_eq in E3. apply negb_true_iff in E0. subst d. now apply st_operation. }
  destruct (cls_eqb c d) eqn:E4.
  { apply cls_eqb_eq in E4. subst d. now apply st_same. }
  destruct (find _ (bases T d)) as [b|] eqn:E5; [|discriminate].
  destruct (subscript T b ys) as [y| |] eqn:E6; try discriminate. cbn in H.
  destruct (canon T n y) as [y'| |] eqn:E7; try discriminate. cbn in H.
  apply find_some in E5. destruct E5 as [I _]. now apply st_base with b y y'.
Qed.
Lemma unify_steps : forall n t x s s', unify (S n) t x s = Ok s' -> steps n s s' t x.
Proof.
  intros n t x s s' H. cbn [UnifModel.unify] in H.
  destruct (ty_eqb t x) eqn:E; [injection H as <-; now apply st_eq|].
  destruct t as [v| | |c|c xs|l|l]; destruct x as [w| | |d|d ys|l'|l'];
    try discriminate H;
    try (injection H as <-; apply st_vars; reflexivity);
    try (apply st_var; [discriminate|exact H]);
    try (destruct (bounded T w); [discriminate|]; apply st_var_r; [discriminate|exact H]);
    try (injection H as <-; apply st_ell; auto; reflexivity);
    try (injection H as <-; apply st_any; auto; reflexivity);
    try (apply st_union_r; exact H);
    try (apply attempts_first in H; destruct H as [a [I H]]; now apply st_union_l with a);
    try (apply st_class_app; [eauto|exact H]).
  - destruct (issub T d c) eqn:Sub; [|discriminate]. injection H as <-. now apply st_class.
  - destruct (issub T d c) eqn:Sub; [injection H as <-; now apply st_app_class|].
    destruct (jax_array T) as [j|] eqn:J; [|discriminate]. destruct xs as [|a xs]; [discriminate|].
    destruct (cls_eqb c CIterable && issub T d j) eqn:B; [|discriminate]. apply andb_true_iff in B. destruct B as [B1 B2].
    apply cls_eqb_eq in B1. subst c. now apply st_jax with j.
  - now apply unify_generic_steps.
  - destruct (Nat.eqb_spec (length l) (length l')) as [L|L]; [|discriminate]. now apply st_list.
Qed.

Theorem unify_extends : forall n t x s s', unify n t x s = Ok s' -> extends s s'.
Proof.
  induction n as [|n IH]; intros t x s s' H; [discriminate|]. apply unify_steps in H.
  destruct H as [t x E ->|v w ->|v x N H|t w N H|t x E ->|t x E ->|l l' L H|t l' H|l x a I H|c xs ys Sb H|c d a xs b ys Sb D H
                |c xs ys Sb H|c xs ys H|c xs d ys b y y' I S1 C1 H|t d ys Tt H|c xs d Sb ->|a xs d j J Sb H|c d Sb ->];
    try apply extends_refl; try (now apply (IH _ _ _ _ H)).
  - apply extends_put.
  - eapply extends_trans; [apply extends_put|apply (IH _ _ _ _ H)].
  - eapply extends_trans; [apply extends_put|apply (IH _ _ _ _ H)].
  - apply (seq_extends _ IH _ _ _ _ H).
  - apply (each_extends _ IH _ _ _ _ H).
  - apply (each_extends _ IH _ _ _ _ H).
Qed.

(** * Acceptance *)

Lemma forall2_left : forall A B (Q R : A -> B -> Prop) l l', Forall2 (fun a b => Q a b /\ R a b) l l' -> Forall2 Q l l'.
Proof. intros A B Q R l l' F. induction F as [|a b l l' [H _] _ IH]; constructor; auto. Qed.
Lemma forall_left : forall A (Q R : A -> Prop) l, Forall (fun a => Q a /\ R a) l -> Forall Q l.
Proof. intros A Q R l F. induction F as [|a l [H _] _ IH]; constructor; auto. Qed.

(** Equal types accept each other. *)
Lemma eqb_accepts : forall t x, ty_eqb t x = true -> accepts t x.
Proof.
  assert (G : forall l, Forall (fun t => forall x, ty_eqb t x = true -> accepts t x) l ->
              forall l', list_eqb l l' = true -> Forall2 accepts l l').
  { intros l F. induction F as [|a l H _ IH]; intros [|b l'] E; cbn in E; try discriminate; [constructor|].
    fold list_eqb in E. apply andb_true_iff in E. destruct E as [E1 E2]. constructor; auto. }
  induction t as [v| | |c|c l IH|l IH|l IH] using ty_ind2; intros x E.
  - destruct x; try discriminate. apply Nat.eqb_eq in E. subst. apply ac_var.
  - apply ac_any_l.
  - apply ac_ell_l.
  - destruct x; try discriminate. apply cls_eqb_eq in E. subst. apply ac_same.
  - destruct x; try discriminate. rewrite ty_eqb_app in E. apply andb_true_iff in E. destruct E as [E1 E2].
    apply cls_eqb_eq in E1. subst. apply ac_app. now apply G.
  - destruct x as [| | | | |l'|]; try discriminate. rewrite ty_eqb_union in E. apply andb_true_iff in E. destruct E as [_ E].
    rewrite forallb_forall in E. rewrite Forall_forall in IH. apply ac_union_r. apply Forall_forall. intros b I.
    specialize (E b I). apply some_eq_spec in E. destruct E as [a [Ia Ea]]. apply ac_union_l with a; [exact Ia|]. now apply IH.
  - destruct x; try discriminate. rewrite ty_eqb_list in E. apply ac_list. now apply G.
Qed.

(** What a type accepts, by its parts. *)
Definition sle (t u : ty) : Prop := forall x, accepts t x -> accepts u x.
Lemma sle_forall2 : forall xs us, Forall2 sle xs us -> forall ys, Forall2 accepts xs ys -> Forall2 accepts us ys.
Proof.
  intros xs us F. induction F as [|a u xs us H _ IH]; intros ys A.
  - remember [] as e eqn:E. destruct A; [constructor|discriminate].
  - remember (a :: xs) as e eqn:E. destruct A as [|a' b xs' ys A1 A2]; [discriminate|]. injection E as -> ->.
    constructor; [now apply H|now apply IH].
Qed.
Lemma sle_app : forall c xs us, Forall2 sle xs us -> sle (TApp c xs) (TApp c us).
Proof.
  intros c xs us F x A. remember (TApp c xs) as t eqn:Et. revert xs us F Et.
  induction A as [v|x|t|x|t|c'|c' d E|c' d ys A IH|c' d xs' E|c' xs' ys F'|xs' ys F'|t l F'|l a x I A IH|c' xs' ys E F'
                 |c' d a xs' b ys D E A IH|c' xs' ys E A IH|c' xs' d ys b y n y' I S C A IH|d j a xs' J E A IH] using accepts_ind2;
    intros xs us F Et; try discriminate Et.
  - apply ac_any_r.
  - apply ac_ell_r.
  - injection Et as -> ->. now apply ac_app_class.
  - injection Et as -> ->. apply ac_app. apply forall2_left in F'. now apply sle_forall2 with xs.
  - apply ac_union_r. induction F' as [|b l [_ H] _ IH2]; [apply Forall_nil|]. apply Forall_cons; [now apply H with xs|exact IH2].
  - injection Et as -> ->. apply ac_tuple; [exact E|].
    induction F' as [|b l [_ H] _ IH2]; [apply Forall_nil|]. apply Forall_cons; [now apply H with xs|exact IH2].
  - injection Et as -> <-. remember (a :: xs') as e eqn:Ee. destruct F as [|a1 u1 xs1 us1 F1 F2]; [discriminate|]. injection Ee as -> ->.
    apply ac_first; [exact D|exact E|]. now apply F1.
  - injection Et as -> ->. apply ac_operation; [exact E|]. now apply IH with xs.
  - injection Et as -> ->. apply ac_base with b y n y'; [exact I|exact S|exact C|]. now apply IH with xs.
  - injection Et as <- <-. remember (a :: xs') as e eqn:Ee. destruct F as [|a1 u1 xs1 us1 F1 F2]; [discriminate|]. injection Ee as -> ->.
    apply ac_jax with j; [exact J|exact E|]. now apply F1.
Qed.
Lemma sle_list : forall xs us, Forall2 sle xs us -> sle (TList xs) (TList us).
Proof.
  intros xs us F x A. remember (TList xs) as t eqn:Et. revert xs us F Et.
  induction A as [v|x|t|x|t|c'|c' d E|c' d ys A IH|c' d xs' E|c' xs' ys F'|xs' ys F'|t l F'|l a x I A IH|c' xs' ys E F'
                 |c' d a xs' b ys D E A IH|c' xs' ys E A IH|c' xs' d ys b y n y' I S C A IH|d j a xs' J E A IH] using accepts_ind2;
    intros xs us F Et; try discriminate Et.
  - apply ac_any_r.
  - apply ac_ell_r.
  - injection Et as ->. apply ac_list. apply forall2_left in F'. now apply sle_forall2 with xs.
  - apply ac_union_r. induction F' as [|b l [_ H] _ IH2]; [apply Forall_nil|]. apply Forall_cons; [now apply H with xs|exact IH2].
Qed.
Lemma sle_union : forall l u, (forall a, In a l -> sle a u) -> sle (TUnion l) u.
Proof.
  intros l0 u F x A. remember (TUnion l0) as t eqn:Et. revert Et.
  induction A as [v|x|t|x|t|c'|c' d E|c' d ys A IH|c' d xs' E|c' xs' ys F'|xs' ys F'|t l F'|l a x I A IH|c' xs' ys E F'
                 |c' d a xs' b ys D E A IH|c' xs' ys E A IH|c' xs' d ys b y n y' I S C A IH|d j a xs' J E A IH] using accepts_ind2;
    intros Et; try discriminate Et.
  - apply ac_any_r.
  - apply ac_ell_r.
  - apply ac_union_r. induction F' as [|b l [_ H] _ IH2]; [apply Forall_nil|]. apply Forall_cons; [now apply H|exact IH2].
  - injection Et as ->. now apply (F a I).
Qed.
Lemma eqb_sle : forall t x, ty_eqb t x = true -> sle t x /\ sle x t.
Proof.
  assert (G : forall l, Forall (fun t => forall x, ty_eqb t x = true -> sle t x /\ sle x t) l ->
              forall l', list_eqb l l' = true -> Forall2 sle l l' /\ Forall2 sle l' l).
  { intros l F. induction F as [|a l H _ IH]; intros [|b l'] E; cbn in E; try discriminate; [split; constructor|].
    fold list_eqb in E. apply andb_true_iff in E. destruct E as [E1 E2]. destruct (H _ E1), (IH _ E2). split; constructor; auto. }
  induction t as [v| | |c|c l IH|l IH|l IH] using ty_ind2; intros x E.
  - destruct x; try discriminate. apply Nat.eqb_eq in E. subst. split; intros y; auto.
  - destruct x; try discriminate. split; intros y; auto.
  - destruct x; try discriminate. split; intros y; auto.
  - destruct x; try discriminate. apply cls_eqb_eq in E. subst. split; intros y; auto.
  - destruct x; try discriminate. rewrite ty_eqb_app in E. apply andb_true_iff in E. destruct E as [E1 E2].
    apply cls_eqb_eq in E1. subst. destruct (G l IH _ E2). split; now apply sle_app.
  - destruct x as [| | | | |l'|]; try discriminate. rewrite ty_eqb_union in E. apply andb_true_iff in E. destruct E as [E1 E2].
    rewrite each_in_spec in E1. rewrite forallb_forall in E2. rewrite Forall_forall in IH. split.
    + apply sle_union. intros a I. destruct (E1 a I) as [b [Ib Eb]]. intros y A. apply ac_union_l with b; [exact Ib|].
      now apply (proj1 (IH a I b Eb)).
    + apply sle_union. intros b I. specialize (E2 b I). apply some_eq_spec in E2. destruct E2 as [a [Ia Ea]].
      intros y A. apply ac_union_l with a; [exact Ia|]. now apply (proj2 (IH a Ia b Ea)).
  - destruct x; try discriminate. rewrite ty_eqb_list in E. destruct (G l IH _ E). split; now apply sle_list.
Qed.
Lemma dedupe_in : forall l seen t, In t l -> (exists u, In u (seen ++ dedupe seen l) /\ (u = t \/ ty_eqb u t = true)).
Proof.
  induction l as [|a l IH]; intros seen t I; [destruct I|]. cbn.
  destruct (existsb (fun u => ty_eqb u a) seen) eqn:E.
  - destruct I as [<-|I]; [|now apply IH]. apply existsb_exists in E. destruct E as [u [Iu Eu]]. exists u. split; [apply in_or_app; now left|auto].
  - destruct I as [<-|I].
    + exists a. split; [apply in_or_app; right; now left|now left].
    + destruct (IH (seen ++ [a]) t I) as [u [Iu Eu]]. exists u. split; [|exact Eu]. rewrite <- app_assoc in Iu. exact Iu.
Qed.
Lemma sle_mk_union : forall l a, In a l -> sle a (mk_union l).
Proof.
  intros l a I.
  assert (M : forall m, In m (members a) -> sle m (mk_union l)).
  { intros m Im. assert (K : In m (flat_map members l)) by (apply in_flat_map; eauto).
    destruct (dedupe_in _ [] m K) as [u [Iu Eu]]. cbn in Iu.
    assert (S1 : sle m u) by (destruct Eu as [->|Eu]; [intros y; auto|now apply (proj2 (eqb_sle u m Eu))]).
    intros y A. apply S1 in A. unfold mk_union. destruct (dedupe [] (flat_map members l)) as [|t [|t' r]].
    - destruct Iu.
    - destruct Iu as [->|[]]. exact A.
    - now apply ac_union_l with u. }
  destruct a as [v| | |c|c xs|ms|xs]; try (apply M; now left). now apply sle_union.
Qed.
Lemma sle_replace : forall f t, sle (apply f t) (replace f t).
Proof.
  intros f.
  assert (G : forall l, Forall (fun t => sle (apply f t) (replace f t)) l -> Forall2 sle (map (apply f) l) (map (replace f) l)).
  { intros l F. induction F; cbn; constructor; auto. }
  induction t as [v| | |c|c l IH|l IH|l IH] using ty_ind2; cbn [apply replace]; try (intros y; auto; fail).
  - apply sle_app. now apply G.
  - apply sle_union. intros a I. apply in_map_iff in I. destruct I as [b [<- I]]. rewrite Forall_forall in IH.
    intros y A. apply (IH b I) in A. eapply sle_mk_union; [|exact A]. now apply in_map.
  - apply sle_list. now apply G.
Qed.
Lemma sle_substitute : forall s n t r, grounded s -> substitute n t s = Ok r -> sle (apply (once s) t) r.
Proof.
  intros s. induction n as [|n IH]; intros t r Gs H; [discriminate|]. rewrite substitute_eq in H.
  assert (Fix : forall m u r', (forall v, In v (fvs u) -> get s v = None) -> substitute m u s = Ok r' -> r' = u).
  { clear. induction m as [|m IHm]; intros u r' U H; [discriminate|]. rewrite substitute_eq in H.
    assert (E : existsb (bound s) (fvs u) = false).
    { destruct (existsb (bound s) (fvs u)) eqn:E; [|reflexivity]. apply existsb_exists in E. destruct E as [v [I B]].
      apply bound_spec in B. now rewrite (U v I) in B. }
    destruct u as [x| | |c|c l|l|l]; rewrite ?E in H; try (injection H as <-; reflexivity).
    - rewrite (U x (or_introl eq_refl)) in H. now injection H as <-.
    - destruct (map_res (fun x => substitute m x s) l) as [l'| |] eqn:M; try discriminate. injection H as <-.
      f_equal. apply map_res_forall2 in M. clear E. cbn in U.
      induction M as [|a b l l' H M IHM]; [reflexivity|]. f_equal.
      + apply (IHm a b); [|exact H]. intros v I. apply U. cbn. apply in_or_app. now left.
      + apply IHM. intros v I. apply U. cbn. apply in_or_app. now right. }
  assert (General : (if existsb (bound s) (fvs t) then substitute n (replace (once s) t) s else Ok t) = Ok r ->
                    sle (apply (once s) t) r).
  { intros K. destruct (existsb (bound s) (fvs t)) eqn:E.
    - apply Fix in K; [subst r; apply sle_replace|]. intros v I. apply replace_vars in I. destruct I as [w [Iw Iv]].
      unfold once in Iv. destruct (get s w) as [b|] eqn:W.
      + destruct (ground_no b v (Gs w b W) Iv).
      + destruct Iv as [<-|[]]. exact W.
    - injection K as <-. intros y A. rewrite (apply_ext _ TVar), apply_var in A; [exact A|].
      intros v I. unfold once. now rewrite (unbound_all s t E v I). }
  destruct t as [x| | |c|c l|l|l]; try (apply General; exact H); clear General.
  - cbn [apply]. unfold once. destruct (get s x) as [b|] eqn:E.
    + apply Fix in H; [subst r; intros y; auto|]. intros v I. destruct (ground_no b v (Gs x b E) I).
    + injection H as <-. intros y; auto.
  - destruct (map_res (fun x => substitute n x s) l) as [l'| |] eqn:M; try discriminate. injection H as <-.
    cbn [apply]. apply sle_list. apply map_res_forall2 in M.
    induction M as [|a b l l' H M IHM]; cbn; constructor; [now apply IH|exact IHM].
Qed.

End Table.

(** * Instances are recognised *)
Section Instance.
Variable T : table.
Hypothesis refl : forall c, issub T c c = true.
Variable f : nat -> ty.
Hypothesis Gf : forall v, ground (f v).

Definition agrees (s : subst) : Prop := forall v b, get s v = Some b -> b = f v.
Definition result (t : ty) (s s' : subst) : Prop :=
  agrees s' /\ (forall v, In v (fvs t) -> get s' v = Some (f v)) /\ (forall v, ~ In v (fvs t) -> get s' v = get s v).
Lemma instance_ground : forall t, ground (apply f t).
Proof. intros t. apply no_ground. intros v I. apply apply_vars in I. destruct I as [w [_ I]]. exact (ground_no _ v (Gf w) I). Qed.
Lemma unify_closed : forall n t s, ground t -> unify T (S n) t (apply f t) s = Ok s.
Proof. intros n t s G. cbn [unify]. now rewrite apply_ground, ty_eqb_refl. Qed.
Lemma closed_result : forall t s, ground t -> agrees s -> result t s s.
Proof. intros t s G A. split; [exact A|]. split; [intros v I; destruct (ground_no t v G I)|reflexivity]. Qed.
Lemma open_neq : forall t, ~ ground t -> ty_eqb t (apply f t) = false.
Proof.
  intros t N. destruct (ty_eqb t (apply f t)) eqn:E; [|reflexivity]. destruct N. apply eqb_ground with (apply f t); [exact E|apply instance_ground].
Qed.
Definition works (t : ty) : Prop := exists n0, forall n s, n0 <= n -> agrees s -> exists s', unify T n t (apply f t) s = Ok s' /\ result t s s'.
Lemma seq_works : forall l, Forall works l -> exists n0, forall n s, n0 <= n -> agrees s ->
  exists s', seq (unify T n) l (map (apply f) l) s = Ok s' /\ result (TList l) s s'.
Proof.
  intros l F. induction F as [|a l [n1 H] _ [n2 IH]].
  - exists 0. intros n s _ A. exists s. split; [reflexivity|]. now apply closed_result.
  - exists (n1 + n2). intros n s L A. destruct (H n s ltac:(lia) A) as [s1 [E1 [A1 [B1 C1]]]].
    destruct (IH n s1 ltac:(lia) A1) as [s2 [E2 [A2 [B2 C2]]]]. exists s2. cbn [seq map]. rewrite E1. split; [exact E2|].
    split; [exact A2|]. cbn [fvs flat_map] in *. split.
    + intros v I. destruct (in_dec Nat.eq_dec v (flat_map fvs l)) as [I2|I2]; [now apply B2|].
      rewrite (C2 v I2). apply B1. apply in_app_or in I. tauto.
    + intros v I. rewrite in_app_iff in I. rewrite C2 by tauto. apply C1. tauto.
Qed.
Lemma list_works : forall l, Forall works l -> works (TList l).
Proof.
  intros l F. destruct (seq_works l F) as [n0 H]. exists (S (S n0)). intros [|n] s L A; [lia|].
  destruct (flat_map fvs l) as [|v0 vs] eqn:V.
  - exists s. split; [now apply unify_closed|now apply closed_result].
  - assert (N : ~ ground (TList l)) by (unfold ground; cbn [fvs]; rewrite V; discriminate).
    destruct (H n s ltac:(lia) A) as [s' [E R]]. exists s'. split; [|exact R].
    pose proof (open_neq _ N) as Q. cbn [unify apply] in *. rewrite Q, map_length, Nat.eqb_refl. exact E.
Qed.
Lemma app_works : forall c l, Forall works l -> works (TApp c l).
Proof.
  intros c l F. destruct (list_works l F) as [n0 H]. exists (S n0). intros [|n] s L A; [lia|].
  destruct (flat_map fvs l) as [|v0 vs] eqn:V.
  - exists s. split; [now apply unify_closed|now apply closed_result].
  - assert (N : ~ ground (TApp c l)) by (unfold ground; cbn [fvs]; rewrite V; discriminate).
    destruct (H n s ltac:(lia) A) as [s' [E R]]. exists s'. split; [|exact R].
    pose proof (open_neq _ N) as Q. cbn [unify apply] in *. rewrite Q, refl.
    assert (K1 : cls_eqb c CTuple && negb (cls_eqb c CTuple) = false) by (destruct (cls_eqb c CTuple); reflexivity).
    assert (K2 : forall d, cls_eqb c d && negb (issub T c d) = false).
    { intros d. destruct (cls_eqb c d) eqn:Ed; [|reflexivity]. apply cls_eqb_eq in Ed. subst. now rewrite refl. }
    rewrite K1, !K2. cbn [orb]. rewrite (proj2 (cls_eqb_eq c c) eq_refl). exact E.
Qed.
Theorem instance_works : forall t, closed_unions t -> works t.
Proof.
  induction t as [v| | |c|c l IH|l IH|l IH] using ty_ind2; intros C;
    try (exists 1; intros [|n] s L A; [lia|]; exists s; split; [now apply unify_closed|now apply closed_result]).
  - exists 2. intros [|[|n]] s L A; try lia. clear C.
    assert (Q : ty_eqb (TVar v) (f v) = false) by (apply (open_neq (TVar v)); discriminate).
    exists (put v (f v) s). split.
    + assert (B : match get s v with Some b => b | None => f v end = f v).
      { destruct (get s v) as [b|] eqn:Gv; [now apply A|reflexivity]. }
      change (unify T (S (S n)) (TVar v) (apply f (TVar v)) s) with
        (if ty_eqb (TVar v) (f v) then Ok s else
         match f v with
         | TVar w => Ok (put v (f v) s)
         | _ => unify T (S n) (match get s v with Some b => b | None => f v end) (f v) (put v (f v) s)
         end).
      rewrite Q, B. pose proof (Gf v) as G. destruct (f v) as [w| | |c|c l|l|l] eqn:E; [discriminate G| | | | | |];
        cbn [unify]; now rewrite ty_eqb_refl.
    + split; [|split].
      * intros w b G. rewrite get_put in G. destruct (get s w) as [b'|] eqn:Gw; [injection G as <-; now apply A|].
        destruct (Nat.eqb_spec v w) as [->|]; [now injection G as <-|discriminate].
      * intros w [<-|[]]. rewrite get_put, Nat.eqb_refl. destruct (get s v) as [b|] eqn:Gv; [|reflexivity]. now rewrite (A v b Gv).
      * intros w N. rewrite get_put. destruct (get s w); [reflexivity|]. destruct (Nat.eqb_spec v w) as [->|]; [exfalso; apply N; now left|reflexivity].
  - remember (TApp c l) as t eqn:Et. destruct C as [t G|v|c' l' F|l' F]; try discriminate Et.
    + exists 1. intros [|n] s L A; [lia|]. exists s. split; [now apply unify_closed|now apply closed_result].
    + injection Et as -> ->. apply app_works. clear - IH F. induction F as [|a l H _ IH2]; constructor.
      * now apply (Forall_inv IH).
      * apply IH2. now apply Forall_inv_tail in IH.
  - remember (TUnion l) as t eqn:Et. destruct C as [t G|v|c' l' F|l' F]; try discriminate Et.
    exists 1. intros [|n] s L A; [lia|]. exists s. split; [now apply unify_closed|now apply closed_result].
  - remember (TList l) as t eqn:Et. destruct C as [t G|v|c' l' F|l' F]; try discriminate Et.
    + exists 1. intros [|n] s L A; [lia|]. exists s. split; [now apply unify_closed|now apply closed_result].
    + injection Et as ->. apply list_works. clear - IH F. induction F as [|a l H _ IH2]; constructor.
      * now apply (Forall_inv IH).
      * apply IH2. now apply Forall_inv_tail in IH.
Qed.
End Instance.
