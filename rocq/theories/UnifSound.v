(** Soundness of unification. *)
From Coq Require Import List Bool Arith Lia.
From Verif Require Import UnifModel UnifSpec UnifSubst UnifProofs UnifCanon.
Import ListNotations.

Section Sound.
Variable T : table.
Notation unify := (unify T).
Notation accepts := (accepts T).
Notation tidy := (tidy T).
Hypothesis R : regular T.
Hypothesis GB : tidy_bases T.

(** * Parts of canonical types without variables *)
Lemma tidy_forall : forall l, Forall ground l -> Forall (nf T) l -> Forall ell_ok l -> Forall tidy l.
Proof. intros l A B C. rewrite Forall_forall in *. intros x I. split; [now apply A|split; [now apply B|now apply C]]. Qed.
Lemma tidy_app : forall c l, tidy (TApp c l) -> Forall tidy l /\ fixed T c.
Proof.
  intros c l [G [N E]]. apply ground_list in G.
  remember (TApp c l) as e eqn:Ee. destruct N as [| | | |c' l' F Gc N V| |]; try discriminate. injection Ee as -> ->.
  remember (TApp c l) as e eqn:Ee. destruct E as [| | | |c' l' E K| |]; try discriminate. injection Ee as -> ->.
  split; [now apply tidy_forall|exact F].
Qed.
Lemma tidy_list : forall l, tidy (TList l) -> Forall tidy l.
Proof.
  intros l [G [N E]]. apply ground_list in G.
  remember (TList l) as e eqn:Ee. destruct N as [| | | | | |l' N]; try discriminate. injection Ee as ->.
  remember (TList l) as e eqn:Ee. destruct E as [| | | | | |l' E]; try discriminate. injection Ee as ->.
  now apply tidy_forall.
Qed.
Lemma tidy_union : forall l, tidy (TUnion l) -> Forall tidy l.
Proof.
  intros l [G [N E]]. apply ground_list in G.
  remember (TUnion l) as e eqn:Ee. destruct N as [| | | | |l' N U D L|]; try discriminate. injection Ee as ->.
  remember (TUnion l) as e eqn:Ee. destruct E as [| | | | |l' E K|]; try discriminate. injection Ee as ->.
  now apply tidy_forall.
Qed.
Lemma tidy_con : forall c, fixed T c -> tidy (TCon c).
Proof. intros c F. split; [reflexivity|]. split; [now apply nf_con|constructor]. Qed.
Lemma tidy_make : forall l, Forall tidy l -> ground (TList l) /\ Forall (nf T) l /\ Forall ell_ok l.
Proof.
  intros l F. split; [apply ground_list; eapply Forall_impl; [|exact F]; intros a H; apply H|].
  split; eapply Forall_impl; try exact F; intros a H; apply H.
Qed.
Lemma tidy_args : forall c l, tidy (TApp c l) -> tidy (TList l).
Proof.
  intros c l H. destruct (tidy_app c l H) as [F _]. destruct (tidy_make l F) as [A [B C]]. split; [exact A|]. split; [now apply nf_list|now apply eo_list].
Qed.
Lemma tidy_tuple : forall ys, tidy (TApp CTuple ys) -> Forall (fun y => tidy (TApp CSequence [y])) ys.
Proof.
  intros ys H. assert (H' := H). destruct H' as [G [N E]]. destruct (tidy_app _ _ H) as [F _]. destruct (rg_sequence T R) as [Sq Gq].
  remember (TApp CTuple ys) as e eqn:Ee. destruct N as [| | | |c' l' Fx Gc N V| |]; try discriminate. injection Ee as -> ->.
  remember (TApp CTuple ys) as e eqn:Ee. destruct E as [| | | |c' l' E K| |]; try discriminate. injection Ee as -> ->.
  assert (K' : Forall (fun a => a <> TEll) ys).
  { destruct K as [K|[K|[K|[K|[_ [a [Q _]]]]]]]; [discriminate|discriminate|discriminate|exact K|destruct (V a eq_refl Q)]. }
  rewrite Forall_forall in *. intros y I. destruct (F y I) as [A [B C]]. split.
  - apply ground_list. now repeat constructor.
  - split.
    + apply nf_app; [now left|exact Gq|constructor; [exact B|constructor]|discriminate].
    + apply eo_app; [constructor; [exact C|constructor]|]. right. right. right. left. constructor; [now apply K'|constructor].
Qed.
Lemma tidy_operation : forall ys, tidy (TApp COperation ys) -> tidy (TApp CCallable ys).
Proof.
  intros ys H. destruct (tidy_app _ _ H) as [F _]. destruct (tidy_make ys F) as [A [B C]]. destruct (rg_callable T R) as [Sq Gq].
  split; [exact A|]. split; [apply nf_app; [now left|exact Gq|exact B|discriminate]|apply eo_app; auto].
Qed.
Lemma accepts_apply : forall f t x, accepts t x -> tidy x -> accepts (apply f t) x.
Proof.
  intros f t x A.
  induction A as [v|x|t|x|t|c'|c' d E|c' d ys A IH|c' d xs' E|c' xs' ys F'|xs' ys F'|t l F'|l a x I A IH|c' xs' ys E F'
                 |c' d a xs' b ys D E A IH|c' xs' ys E A IH|c' xs' d ys b y n y' I S C A IH|d j a xs' J E A IH] using accepts_ind2;
    intros G; cbn [apply map].
  - destruct G as [G _]. discriminate G.
  - apply ac_any_l.
  - apply ac_any_r.
  - apply ac_ell_l.
  - apply ac_ell_r.
  - apply ac_same.
  - now apply ac_class.
  - apply ac_class_app. apply IH. apply tidy_con. now apply (tidy_app _ _ G).
  - now apply ac_app_class.
  - apply ac_app. destruct (tidy_app _ _ G) as [G' _]. clear G. rename G' into G. induction F' as [|a b xs ys [_ H] _ IH2]; cbn; constructor.
    + apply H. now apply Forall_inv in G.
    + apply IH2. now apply Forall_inv_tail in G.
  - apply ac_list. apply tidy_list in G. induction F' as [|a b xs ys [_ H] _ IH2]; cbn; constructor.
    + apply H. now apply Forall_inv in G.
    + apply IH2. now apply Forall_inv_tail in G.
  - apply ac_union_r. apply tidy_union in G. induction F' as [|b l [_ H] _ IH2]; [apply Forall_nil|]. apply Forall_cons.
    + apply H. now apply Forall_inv in G.
    + apply IH2. now apply Forall_inv_tail in G.
  - apply ac_union_l with (apply f a); [now apply in_map|now apply IH].
  - apply ac_tuple; [exact E|]. apply tidy_tuple in G. induction F' as [|b l [_ H] _ IH2]; [apply Forall_nil|]. apply Forall_cons.
    + apply H. now apply Forall_inv in G.
    + apply IH2. now apply Forall_inv_tail in G.
  - apply ac_first; [exact D|exact E|]. apply IH. destruct (tidy_app _ _ G) as [G' _]. now apply Forall_inv in G'.
  - apply ac_operation; [exact E|]. apply IH. now apply tidy_operation.
  - apply ac_base with b y n y'; [exact I|exact S|exact C|]. apply IH. now apply (GB d b ys n y y' I).
  - apply ac_jax with j; [exact J|exact E|]. apply IH. apply tidy_con. now apply (rg_jax T R).
Qed.

(** * Soundness *)
Definition sound (f : ty -> ty -> subst -> res subst) : Prop := forall t x s s', f t x s = Ok s' -> tidy x -> grounded s ->
  grounded s' /\ extends s s' /\ accepts (apply (once s') t) x.
Lemma later : forall s1 s' t x, grounded s1 -> extends s1 s' -> tidy x -> accepts (apply (once s1) t) x -> accepts (apply (once s') t) x.
Proof.
  intros s1 s' t x G E Gx A. rewrite <- (apply_extends s1 s' t G E). now apply accepts_apply.
Qed.
Lemma seq_sound : forall f, sound f -> forall l l' s s', seq f l l' s = Ok s' -> length l = length l' -> Forall tidy l' -> grounded s ->
  grounded s' /\ extends s s' /\ Forall2 accepts (map (apply (once s')) l) l'.
Proof.
  intros f F. induction l as [|a l IH]; intros [|b l'] s s' H L G Gs; cbn in H, L; try discriminate L.
  - injection H as <-. split; [exact Gs|]. split; [apply extends_refl|constructor].
  - destruct (f a b s) as [s1| |] eqn:E; try discriminate. cbn [bind] in H. injection L as L.
    pose proof (Forall_inv G) as Gb. apply Forall_inv_tail in G.
    destruct (F _ _ _ _ E Gb Gs) as [G1 [E1 A1]]. destruct (IH _ _ _ H L G G1) as [G2 [E2 A2]].
    split; [exact G2|]. split; [now apply extends_trans with s1|]. cbn. constructor; [now apply later with s1|exact A2].
Qed.
Lemma each_sound : forall f, sound f -> forall t l s s', each f t l s = Ok s' -> Forall tidy l -> grounded s ->
  grounded s' /\ extends s s' /\ Forall (accepts (apply (once s') t)) l.
Proof.
  intros f F t. induction l as [|b l IH]; intros s s' H G Gs; cbn in H.
  - injection H as <-. split; [exact Gs|]. split; [apply extends_refl|constructor].
  - destruct (f t b s) as [s1| |] eqn:E; try discriminate. cbn [bind] in H.
    pose proof (Forall_inv G) as Gb. apply Forall_inv_tail in G.
    destruct (F _ _ _ _ E Gb Gs) as [G1 [E1 A1]]. destruct (IH _ _ H G G1) as [G2 [E2 A2]].
    split; [exact G2|]. split; [now apply extends_trans with s1|]. constructor; [now apply later with s1|exact A2].
Qed.
Theorem unify_sound : forall n, sound (unify n).
Proof.
  induction n as [|n IH]; intros t x s s' H Gx Gs; [discriminate|]. apply unify_steps in H.
  destruct H as [t x E ->|v w ->|v x N H|t w N H|t x E ->|t x E ->|l l' L H|t l' H|l x a I H|c xs ys Sb H|c d a xs b ys Sb D H
                |c xs ys Sb H|c xs ys H|c xs d ys b y y' I S1 C1 H|t d ys Tt H|c xs d Sb ->|a xs d j J Sb H|c d Sb ->].
  - split; [exact Gs|]. split; [apply extends_refl|]. rewrite apply_ground; [now apply eqb_accepts|apply eqb_ground with x; [exact E|apply Gx]].
  - destruct Gx as [Gx _]. discriminate Gx.
  - assert (Gp : grounded (put v x s)) by (apply grounded_put; [exact Gs|apply Gx]).
    destruct (IH _ _ _ _ H Gx Gp) as [G1 [E1 A1]]. split; [exact G1|]. split; [eapply extends_trans; [apply extends_put|exact E1]|].
    cbn [apply]. unfold once. destruct (get s v) as [b|] eqn:Gv.
    + rewrite (E1 v b) by (now rewrite get_put, Gv). rewrite apply_ground in A1; [exact A1|]. now apply Gs with v.
    + rewrite (E1 v x) by (now rewrite get_put, Gv, Nat.eqb_refl). rewrite apply_ground in A1 by (apply Gx). exact A1.
  - destruct Gx as [Gx _]. discriminate Gx.
  - split; [exact Gs|]. split; [apply extends_refl|]. destruct E as [->| ->]; [apply ac_ell_l|apply ac_ell_r].
  - split; [exact Gs|]. split; [apply extends_refl|]. destruct E as [->| ->]; [apply ac_any_l|apply ac_any_r].
  - destruct (seq_sound _ IH _ _ _ _ H L (tidy_list _ Gx) Gs) as [G1 [E1 A1]]. split; [exact G1|]. split; [exact E1|].
    cbn [apply]. now apply ac_list.
  - destruct (each_sound _ IH _ _ _ _ H (tidy_union _ Gx) Gs) as [G1 [E1 A1]]. split; [exact G1|]. split; [exact E1|].
    now apply ac_union_r.
  - destruct (IH _ _ _ _ H Gx Gs) as [G1 [E1 A1]]. split; [exact G1|]. split; [exact E1|].
    cbn [apply]. apply ac_union_l with (apply (once s') a); [now apply in_map|exact A1].
  - assert (Gy : Forall tidy (map (fun y => TApp CSequence [y]) ys)).
    { apply tidy_tuple in Gx. clear - Gx. induction Gx as [|y ys G _ IH]; cbn; constructor; [exact G|exact IH]. }
    destruct (each_sound _ IH _ _ _ _ H Gy Gs) as [G1 [E1 A1]]. split; [exact G1|]. split; [exact E1|].
    cbn [apply]. apply ac_tuple; [exact Sb|]. apply Forall_forall. intros y Iy. rewrite Forall_forall in A1.
    apply (A1 (TApp CSequence [y])). apply in_map_iff. eauto.
  - destruct (tidy_app _ _ Gx) as [Gl _]. destruct (IH _ _ _ _ H (Forall_inv Gl) Gs) as [G1 [E1 A1]]. split; [exact G1|]. split; [exact E1|].
    cbn [apply map]. now apply ac_first.
  - destruct (IH _ _ _ _ H (tidy_operation _ Gx) Gs) as [G1 [E1 A1]]. split; [exact G1|]. split; [exact E1|]. cbn [apply]. now apply ac_operation.
  - destruct (IH _ _ _ _ H (tidy_args _ _ Gx) Gs) as [G1 [E1 A1]]. split; [exact G1|]. split; [exact E1|]. cbn [apply] in *.
    remember (TList (map (apply (once s')) xs)) as t eqn:Et. remember (TList ys) as x eqn:Ex.
    destruct A1; try discriminate Et; try discriminate Ex. injection Et as ->. injection Ex as ->. now apply ac_app.
  - assert (Gy : tidy y') by (apply (GB d b ys n y y' I Gx S1 C1)).
    destruct (IH _ _ _ _ H Gy Gs) as [G1 [E1 A1]]. split; [exact G1|]. split; [exact E1|]. cbn [apply]. now apply ac_base with b y n y'.
  - destruct (IH _ _ _ _ H (tidy_con _ (proj2 (tidy_app _ _ Gx))) Gs) as [G1 [E1 A1]]. split; [exact G1|]. split; [exact E1|].
    destruct Tt as [[c ->]| ->]; [now apply ac_class_app|apply ac_any_l].
  - split; [exact Gs|]. split; [apply extends_refl|]. cbn [apply]. now apply ac_app_class.
  - destruct (IH _ _ _ _ H (tidy_con _ (rg_jax T R j J)) Gs) as [G1 [E1 A1]]. split; [exact G1|]. split; [exact E1|]. cbn [apply map]. now apply ac_jax with j.
  - split; [exact Gs|]. split; [apply extends_refl|]. now apply ac_class.
Qed.
Theorem unify_accepts : forall n t x s s', unify n t x s = Ok s' -> tidy x -> grounded s ->
  grounded s' /\ extends s s' /\ acyclic s' /\ forall m r, substitute m t s' = Ok r -> accepts r x.
Proof.
  intros n t x s s' H Gx Gs. destruct (unify_sound n t x s s' H Gx Gs) as [G [E A]]. split; [exact G|]. split; [exact E|]. split.
  - exists (fun _ => 0). intros v b w Gb I _. destruct (ground_no b w (G v b Gb) I).
  - intros m r Sr. now apply (sle_substitute T s' m t r G Sr).
Qed.
(** Without variables in the pattern nothing is bound. *)
Lemma seq_same : forall f, (forall t x s s', f t x s = Ok s' -> ground t -> tidy x -> s' = s) ->
  forall l l' s s', seq f l l' s = Ok s' -> Forall ground l -> Forall tidy l' -> s' = s.
Proof.
  intros f F. induction l as [|a l IH]; intros [|b l'] s s' H G G'; cbn in H; try (now injection H).
  destruct (f a b s) as [s1| |] eqn:E; try discriminate. cbn [bind] in H.
  rewrite (F _ _ _ _ E (Forall_inv G) (Forall_inv G')) in H. exact (IH _ _ _ H (Forall_inv_tail G) (Forall_inv_tail G')).
Qed.
Lemma each_same : forall f, (forall t x s s', f t x s = Ok s' -> ground t -> tidy x -> s' = s) ->
  forall t l s s', each f t l s = Ok s' -> ground t -> Forall tidy l -> s' = s.
Proof.
  intros f F t. induction l as [|b l IH]; intros s s' H G G'; cbn in H; [now injection H|].
  destruct (f t b s) as [s1| |] eqn:E; try discriminate. cbn [bind] in H.
  rewrite (F _ _ _ _ E G (Forall_inv G')) in H. exact (IH _ _ H G (Forall_inv_tail G')).
Qed.
Theorem unify_same : forall n t x s s', unify n t x s = Ok s' -> ground t -> tidy x -> s' = s.
Proof.
  induction n as [|n IH]; intros t x s s' H Gt Gx; [discriminate|]. apply unify_steps in H.
  destruct H as [t x E ->|v w ->|v x N H|t w N H|t x E ->|t x E ->|l l' L H|t l' H|l x a I H|c xs ys Sb H|c d a xs b ys Sb D H
                |c xs ys Sb H|c xs ys H|c xs d ys b y y' I S1 C1 H|t d ys Tt H|c xs d Sb ->|a xs d j J Sb H|c d Sb ->]; try reflexivity.
  - discriminate Gt.
  - discriminate Gt.
  - destruct Gx as [Gx _]. discriminate Gx.
  - apply (seq_same _ IH _ _ _ _ H); [now apply ground_list in Gt|now apply tidy_list].
  - apply (each_same _ IH _ _ _ _ H Gt). now apply tidy_union.
  - apply (IH _ _ _ _ H); [|exact Gx]. apply ground_list in Gt. rewrite Forall_forall in Gt. now apply Gt.
  - apply (each_same _ IH _ _ _ _ H Gt). apply tidy_tuple in Gx. clear - Gx. induction Gx as [|y ys G _ IH]; cbn; constructor; [exact G|exact IH].
  - apply ground_list in Gt. apply (IH _ _ _ _ H (Forall_inv Gt)). destruct (tidy_app _ _ Gx) as [Gl _]. now apply Forall_inv in Gl.
  - apply (IH _ _ _ _ H Gt). now apply tidy_operation.
  - apply (IH _ _ _ _ H Gt). exact (tidy_args _ _ Gx).
  - apply (IH _ _ _ _ H Gt). exact (GB d b ys n y y' I Gx S1 C1).
  - apply (IH _ _ _ _ H Gt). apply tidy_con. now apply (tidy_app _ _ Gx).
  - apply ground_list in Gt. apply (IH _ _ _ _ H (Forall_inv Gt)). apply tidy_con. now apply (rg_jax T R).
Qed.
Lemma subst_eqb_refl : forall s, subst_eqb s s = true.
Proof.
  intros s. unfold subst_eqb, covers. rewrite andb_diag. apply forallb_forall. intros [v t] I. cbn.
  destruct (get s v) as [b|] eqn:G; [apply ty_eqb_refl|]. exfalso. revert I G. clear. induction s as [|[w u] s IH]; intros I G; [destruct I|].
  cbn in G. destruct (Nat.eqb_spec w v); [discriminate|]. destruct I as [I|I]; [congruence|now apply IH].
Qed.
(** A union of types without variables takes what one of its members takes. *)
Theorem union_takes : forall n l x s, Forall ground l -> tidy x -> is_union x = false -> (forall xs, x <> TList xs) ->
  (forall a, In a l -> unify n a x s <> Out) ->
  (unify (S n) (TUnion l) x s = Ok s <-> exists a, In a l /\ unify n a x s = Ok s).
Proof.
  intros n l x s G X Nu Nl NO.
  assert (E : unify (S n) (TUnion l) x s =
    bind (attempts (unify n) l x s) (fun us => match us with [] => Err | u :: _ => if forallb (fun u' => subst_eqb u' u) us then Ok u else Err end)).
  { destruct x as [w| | |d|d ys|l'|l']; try reflexivity; [destruct X as [X _]; discriminate|discriminate|destruct (Nl l'); reflexivity]. }
  assert (K : exists us, attempts (unify n) l x s = Ok us /\ Forall (fun u => u = s) us /\ (us <> [] <-> exists a, In a l /\ unify n a x s = Ok s)).
  { clear E. induction G as [|a l Ga G IH]; [exists []; repeat split; [constructor|congruence|intros [a [[] _]]]|].
    destruct IH as [us [E [F B]]]; [intros b I; apply NO; now right|]. cbn. destruct (unify n a x s) as [u| |] eqn:Ea.
    - rewrite E. cbn. exists (u :: us). pose proof (unify_same _ _ _ _ _ Ea Ga X) as ->. repeat split; [constructor; auto| |discriminate].
      intros _. exists a. split; [now left|exact Ea].
    - exists us. split; [exact E|]. split; [exact F|]. rewrite B. split; intros [b [I Eb]].
      + exists b. split; [now right|exact Eb].
      + destruct I as [<-|I]; [congruence|]. exists b. auto.
    - destruct (NO a (or_introl eq_refl)). exact Ea. }
  destruct K as [us [Ea [F B]]]. rewrite E, Ea. cbn [bind]. rewrite <- B. destruct us as [|u us]; [split; [discriminate|congruence]|].
  assert (A : forallb (fun u' => subst_eqb u' u) (u :: us) = true).
  { apply forallb_forall. intros u' I. rewrite Forall_forall in F. rewrite (F u (or_introl eq_refl)), (F u' I). apply subst_eqb_refl. }
  rewrite A. pose proof (Forall_inv F) as ->. split; [discriminate|reflexivity].
Qed.
Theorem unify_types_accepts : forall n t x s s' t' x', unify_types T n t x s = Ok s' -> canon T n t = Ok t' -> canon T n x = Ok x' ->
  ell_ok x -> ground x' -> grounded s ->
  grounded s' /\ extends s s' /\ exists m r, substitute m t' s' = Ok r /\ accepts r x'.
Proof.
  intros n t x s s' t' x' H Ct Cx E Gx Gs. unfold unify_types in H. rewrite Ct in H. cbn [bind] in H. rewrite Cx in H. cbn [bind] in H.
  destruct (canon_good T R n x x' Cx E) as [[N K] _].
  destruct (unify_accepts n t' x' s s' H (conj Gx (conj N K)) Gs) as [A [B [C D]]]. split; [exact A|]. split; [exact B|].
  destruct (substitute_terminates s' t' C) as [m [r Q]]. exists m, r. split; [exact Q|now apply D with m].
Qed.
End Sound.
