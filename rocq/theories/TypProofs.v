(** Proofs about type inference. *)
From Coq Require Import List Bool Arith Lia.
From Verif Require Import UnifModel UnifSpec UnifSubst UnifProofs UnifCanon UnifSound TypModel TypSpec.
Import ListNotations.

Section ExprInd.
Variable P : expr -> Prop.
Hypothesis HV : forall c, P (EVal c).
Hypothesis HT : forall l, Forall P l -> P (ETuple l).
Hypothesis HC : forall c l, Forall P l -> P (EColl c l).
Hypothesis HO : forall o l, Forall P l -> P (ECall o l).
Fixpoint expr_ind2 (e : expr) : P e :=
  let go := fix go (l : list expr) : Forall P l := match l with [] => Forall_nil _ | a :: l' => Forall_cons _ (expr_ind2 a) (go l') end in
  match e with EVal c => HV c | ETuple l => HT l (go l) | EColl c l => HC c l (go l) | ECall o l => HO o l (go l) end.
End ExprInd.

Lemma forall2_nil_r : forall A B (Q : A -> B -> Prop) l, Forall2 Q l [] -> l = [].
Proof. intros A B Q l H. remember [] as q eqn:E. now destruct H. Qed.
Lemma forall2_cons_r : forall A B (Q : A -> B -> Prop) l b bs, Forall2 Q l (b :: bs) -> exists a l', l = a :: l' /\ Q a b /\ Forall2 Q l' bs.
Proof. intros A B Q l b bs H. remember (b :: bs) as q eqn:E. destruct H as [|a b' l' bs' X F]; [discriminate|]. injection E as -> ->. eauto. Qed.

Section Proofs.
Variable T : table.
Variable vbound : nat -> cls.
Hypothesis PT : plain_table T vbound.
Let R : regular T := pt_regular T vbound PT.
Let GB : tidy_bases T := pt_tidy T vbound PT.
Notation strict := (strict T).

(** * Bindings of strict types *)
Lemma forallb_Forall : forall A (f : A -> bool) l, forallb f l = true <-> Forall (fun a => f a = true) l.
Proof. intros A f l. rewrite forallb_forall, Forall_forall. reflexivity. Qed.
Definition sbind (s : subst) : Prop := forall v b, get s v = Some b -> strict b = true.
Definition keeps (f : ty -> ty -> subst -> res subst) : Prop := forall t x s s', f t x s = Ok s' -> strict x = true -> tidy T x -> grounded s -> sbind s -> sbind s'.

Lemma strict_app : forall c l, strict (TApp c l) = true -> Forall (fun a => strict a = true) l /\ c <> CCallable /\ c <> COperation.
Proof. intros c l H. destruct c; try discriminate H; (split; [now apply forallb_Forall|repeat split; discriminate]). Qed.
Lemma strict_app_intro : forall c l, Forall (fun a => strict a = true) l -> c <> CCallable -> c <> COperation -> strict (TApp c l) = true.
Proof. intros c l H A B. destruct c; try congruence; cbn; now apply forallb_Forall. Qed.

Lemma seq_keeps : forall n, keeps (unify T n) -> forall l l' s s', seq (unify T n) l l' s = Ok s' ->
  Forall (fun a => strict a = true) l' -> Forall (tidy T) l' -> grounded s -> sbind s -> sbind s'.
Proof.
  intros n F. induction l as [|a l IH]; intros [|b l'] s s' H S X G B; cbn in H; try (injection H as <-; exact B).
  destruct (unify T n a b s) as [s1| |] eqn:E; try discriminate. cbn [bind] in H.
  pose proof (Forall_inv S) as Sb. pose proof (Forall_inv X) as Xb. apply Forall_inv_tail in S. apply Forall_inv_tail in X.
  destruct (unify_sound T R GB n _ _ _ _ E Xb G) as [G1 _].
  apply (IH _ _ _ H S X G1). now apply (F _ _ _ _ E).
Qed.
Lemma each_keeps : forall n, keeps (unify T n) -> forall t l s s', each (unify T n) t l s = Ok s' ->
  Forall (fun a => strict a = true) l -> Forall (tidy T) l -> grounded s -> sbind s -> sbind s'.
Proof.
  intros n F t. induction l as [|b l IH]; intros s s' H S X G B; cbn in H; [injection H as <-; exact B|].
  destruct (unify T n t b s) as [s1| |] eqn:E; try discriminate. cbn [bind] in H.
  pose proof (Forall_inv S) as Sb. pose proof (Forall_inv X) as Xb. apply Forall_inv_tail in S. apply Forall_inv_tail in X.
  destruct (unify_sound T R GB n _ _ _ _ E Xb G) as [G1 _].
  apply (IH _ _ H S X G1). now apply (F _ _ _ _ E).
Qed.
Lemma sbind_put : forall v x s, sbind s -> strict x = true -> sbind (put v x s).
Proof.
  intros v x s B S w b H. rewrite get_put in H. destruct (get s w) as [c|] eqn:E; [injection H as <-; now apply B with w|].
  destruct (Nat.eqb v w); [injection H as <-; exact S|discriminate].
Qed.
Lemma unify_keeps : forall n, keeps (unify T n).
Proof.
  induction n as [n IHn] using (well_founded_induction lt_wf). intros t x s s' H S X G B.
  destruct n as [|n]; [discriminate|]. pose proof (IHn n (Nat.lt_succ_diag_r n)) as IH. apply unify_steps in H.
  destruct H as [t x E ->|v w ->|v x N H|t w N H|t x E ->|t x E ->|l l' L H|t l' H|l x a I H|c xs ys Sb H|c d a xs b ys Sb D H
                |c xs ys Sb H|c xs ys H|c xs d ys b y y' I S1 C1 H|t d ys Tt H|c xs d Sb ->|a xs d j J Sb H|c d Sb ->]; try exact B.
  - destruct X as [X _]. discriminate X.
  - assert (Gp : grounded (put v x s)) by (apply grounded_put; [exact G|apply X]).
    apply (IH _ _ _ _ H S X Gp). now apply sbind_put.
  - destruct X as [X _]. discriminate X.
  - discriminate S.
  - apply (each_keeps n IH _ _ _ _ H); [now apply forallb_Forall|now apply tidy_union|exact G|exact B].
  - now apply (IH _ _ _ _ H S X G B).
  - apply strict_app in S. destruct S as [S _]. apply (each_keeps n IH _ _ _ _ H); [| |exact G|exact B].
    + clear - S. induction S as [|y ys Sy _ IH]; cbn; constructor; [cbn; now rewrite Sy|exact IH].
    + apply (tidy_tuple T R) in X. clear - X. induction X as [|y ys G _ IH]; cbn; constructor; [exact G|exact IH].
  - apply strict_app in S. destruct S as [S _]. destruct (tidy_app _ _ _ X) as [Xl _].
    exact (IH _ _ _ _ H (Forall_inv S) (Forall_inv Xl) G B).
  - apply strict_app in S. destruct S as [_ [_ S]]. congruence.
  - apply strict_app in S. destruct S as [S _]. destruct (tidy_app _ _ _ X) as [Xl _].
    destruct n as [|m]; [discriminate H|]. apply unify_steps in H.
    remember (TList xs) as t eqn:Et. remember (TList ys) as x eqn:Ex.
    destruct H as [t x E ->|v w ->|v x N H|t w N H|t x E ->|t x E ->|l l' L H|t l' H|l x a I H|c' xs' ys' Sb H|c' d a xs' b ys' Sb D H
                  |c' xs' ys' Sb H|c' xs' ys' H|c' xs' d ys' b y y' I S1 C1 H|t d ys' Tt H|c' xs' d Sb ->|a xs' d j J Sb H|c' d Sb ->];
      try discriminate Et; try discriminate Ex; try exact B.
    injection Ex as ->. apply (seq_keeps m (IHn m ltac:(lia)) _ _ _ _ H S Xl G B).
  - apply (IH _ _ _ _ H); [apply (pt_strict T vbound PT d b ys n y y' I X S S1 C1)|apply (GB d b ys n y y' I X S1 C1)|exact G|exact B].
  - assert (Gt : ground t) by (destruct Tt as [[c ->]| ->]; reflexivity).
    rewrite (unify_same T R GB _ _ _ _ _ H Gt (tidy_con _ _ (proj2 (tidy_app _ _ _ X)))). exact B.
  - apply (IH _ _ _ _ H); [cbn; now rewrite (pt_jax T vbound PT j J)|apply tidy_con; now apply (rg_jax T R)|exact G|exact B].
Qed.

(** * Substituting ground bindings *)
Lemma replace_plain : forall f t, plain t -> replace f t = apply f t.
Proof.
  intros f. induction t as [v| | |c|c l IH|l IH|l IH] using ty_ind2; intros P; try reflexivity.
  - remember (TApp c l) as e eqn:E. destruct P as [| | | |c' l' P|l' P]; try discriminate. injection E as -> ->. cbn. f_equal.
    apply map_ext_Forall. rewrite Forall_forall in *. auto.
  - remember (TUnion l) as e eqn:E. destruct P; discriminate.
  - remember (TList l) as e eqn:E. destruct P as [| | | |c' l' P|l' P]; try discriminate. injection E as ->. cbn. f_equal.
    apply map_ext_Forall. rewrite Forall_forall in *. auto.
Qed.
Lemma once_fixed : forall s t, grounded s -> forall v, In v (fvs (apply (once s) t)) -> get s v = None.
Proof.
  intros s t G v I. apply apply_vars in I. destruct I as [w [_ I]]. unfold once in I. destruct (get s w) as [b|] eqn:E.
  - destruct (ground_no b v (G w b E) I).
  - destruct I as [<-|[]]. exact E.
Qed.
Lemma substitute_plain : forall s, grounded s -> forall n t r, plain t -> substitute n t s = Ok r -> r = apply (once s) t.
Proof.
  intros s G. induction n as [|n IH]; intros t r P H; [discriminate|].
  assert (C : (exists v, t = TVar v) \/ (exists l, t = TList l) \/
     substitute (S n) t s = if existsb (bound s) (fvs t) then substitute n (replace (once s) t) s else Ok t).
  { destruct t; try (right; right; reflexivity); eauto. }
  destruct C as [[v ->]|[[l ->]|C]].
  - cbn in H. cbn. unfold once. destruct (get s v) as [b|] eqn:E; [|now injection H as <-].
    apply (substitute_unbound s n b r) in H; [exact H|]. intros w I. destruct (ground_no b w (G v b E) I).
  - cbn in H. destruct (map_res _ l) as [l'| |] eqn:M; try discriminate. injection H as <-. cbn. f_equal.
    remember (TList l) as e eqn:E. destruct P as [| | | |c' l0 P|l0 P]; try discriminate. injection E as ->.
    apply map_res_forall2 in M. induction M as [|a b l l' A M IHM]; [reflexivity|]. cbn. f_equal; [now apply (IH a b (Forall_inv P))|].
    apply IHM. now apply Forall_inv_tail in P.
  - rewrite C in H. rewrite (replace_plain (once s) t P) in H. destruct (existsb (bound s) (fvs t)) eqn:E.
    + apply substitute_unbound in H; [exact H|]. now apply once_fixed.
    + injection H as <-. rewrite <- (apply_var t) at 1. apply apply_ext. intros v I. unfold once.
      now rewrite (unbound_all s t E v I).
Qed.
Lemma freshen_ground : forall f n t r, ground t -> freshen f n t = Ok r -> r = t.
Proof.
  intros f n t r G H. unfold freshen in H. apply substitute_unbound in H; [exact H|]. intros v I. destruct (ground_no t v G I).
Qed.

(** * Parameters *)
Variable V : Type.
Variable inhabits : V -> ty -> Prop.
Variable tuple : list V -> V.
Variable coll : cls -> list V -> V.
Hypothesis U : universe T inhabits tuple coll.
Variable sigs : nat -> tsig.
Variable impl : nat -> list V -> V -> Prop.
Hypothesis RS : respects T V inhabits sigs impl.
Variable fuel : nat.
Notation evals := (evals V inhabits tuple coll impl).
Notation fits := (fits T V inhabits).
Notation tame := (tame T sigs fuel).
Notation infer := (infer T sigs fuel).
Definition sure (g : nat -> ty) : Prop := forall w, ground (g w) /\ strict (g w) = true.
Definition after (s : subst) (g : nat -> ty) (w : nat) : ty := match get s w with Some b => b | None => g w end.
Lemma sure_after : forall s g, grounded s -> sbind s -> sure g -> sure (after s g).
Proof. intros s g G B S w. unfold after. destruct (get s w) as [b|] eqn:E; [|apply S]. split; [now apply G with w|now apply B with w]. Qed.
Lemma apply_after : forall s g t, grounded s -> apply g (apply (once s) t) = apply (after s g) t.
Proof.
  intros s g t G. rewrite apply_apply. apply apply_ext. intros v _. unfold once, after. destruct (get s v) as [b|] eqn:E; [|reflexivity].
  apply apply_ground. now apply G with v.
Qed.
Lemma sure_ground : forall g t, sure g -> ground (apply g t).
Proof. intros g t S. apply no_ground. intros v I. apply apply_vars in I. destruct I as [w [_ I]]. exact (ground_no _ _ (proj1 (S w)) I). Qed.
Lemma sure_strict : forall g t, sure g -> strict t = true -> strict (apply g t) = true.
Proof.
  intros g t S. induction t as [v| | |c|c l IH|l IH|l IH] using ty_ind2; intros H; try exact H.
  - apply S.
  - apply strict_app in H. destruct H as [H [A B]]. cbn [apply]. apply strict_app_intro; auto.
    rewrite Forall_map. rewrite Forall_forall in *. auto.
  - cbn in *. apply forallb_Forall. apply forallb_Forall in H. rewrite Forall_map. rewrite Forall_forall in *. auto.
Qed.

(** An annotation and the inferred type of its argument, at the end of unification. *)
Definition matched (s : subst) (p a : ty) : Prop :=
  exists p' a', canon T fuel p = Ok p' /\ canon T fuel a = Ok a' /\ strict p' = true /\ strict a' = true /\ tidy T a' /\ accepts T (apply (once s) p') a'.
Lemma matched_later : forall s s' p a, grounded s -> extends s s' -> matched s p a -> matched s' p a.
Proof.
  intros s s' p a G E [p' [a' [A [B [C [D [F H]]]]]]]. exists p', a'. repeat (split; [assumption|]). now apply (later T R GB s s').
Qed.
Definition clear_ann (p : ty) : Prop := forall n p', canon T n p = Ok p' -> strict p' = true.
Lemma unify_types_matched : forall p a s s', unify_types T fuel p a s = Ok s' -> clear_ann p -> settled T a -> grounded s -> sbind s ->
  grounded s' /\ sbind s' /\ extends s s' /\ matched s' p a.
Proof.
  intros p a s s' H P [Ga [Ea Ca]] G B. unfold unify_types in H.
  destruct (canon T fuel p) as [p'| |] eqn:Cp; try discriminate. cbn [bind] in H.
  destruct (canon T fuel a) as [a'| |] eqn:Cq; try discriminate. cbn [bind] in H.
  destruct (Ca _ _ Cq) as [Ga' Sa']. destruct (canon_good T R fuel a a' Cq Ea) as [[N K] _].
  assert (X : tidy T a') by (repeat split; assumption).
  destruct (unify_sound T R GB fuel _ _ _ _ H X G) as [G1 [E1 A1]].
  split; [exact G1|]. split; [now apply (unify_keeps fuel _ _ _ _ H Sa' X G)|]. split; [exact E1|].
  exists p', a'. repeat (split; [first [assumption|now apply (P fuel)]|]). exact A1.
Qed.
Lemma unify_params_matched : forall l s n s' n', unify_params T fuel l s n = Ok (s', n') ->
  Forall (fun x => match fst x with Some p => clear_ann p | None => True end) l -> Forall (fun x => settled T (snd x)) l ->
  grounded s -> sbind s ->
  grounded s' /\ sbind s' /\ extends s s' /\ Forall (fun x => match fst x with Some p => matched s' p (snd x) | None => True end) l.
Proof.
  induction l as [|[[p|] a] l IH]; intros s n s' n' H P A G B.
  - injection H as <- <-. repeat (split; [first [assumption|apply extends_refl]|]). constructor.
  - cbn [unify_params] in H. pose proof (Forall_inv A) as Aa. cbn in Aa. pose proof (Forall_inv P) as Pp. cbn in Pp.
    apply Forall_inv_tail in A. apply Forall_inv_tail in P.
    destruct (freshen _ fuel a) as [a0| |] eqn:Fr; try discriminate. cbn [bind] in H.
    apply freshen_ground in Fr; [|apply Aa]. subst a0.
    destruct (unify_types T fuel p a s) as [s1| |] eqn:Un; try discriminate. cbn [bind] in H.
    destruct (unify_types_matched p a s s1 Un Pp Aa G B) as [G1 [B1 [E1 M1]]].
    destruct (IH _ _ _ _ H P A G1 B1) as [G2 [B2 [E2 M2]]].
    split; [exact G2|]. split; [exact B2|]. split; [now apply extends_trans with s1|]. constructor; [|exact M2].
    cbn. now apply matched_later with s1.
  - cbn [unify_params] in H. apply Forall_inv_tail in A. apply Forall_inv_tail in P.
    destruct (IH _ _ _ _ H P A G B) as [G2 [B2 [E2 M2]]]. repeat (split; [assumption|]). constructor; [exact I|exact M2].
Qed.
Lemma unify_each_matched : forall p l s s', each (unify_types T fuel) p l s = Ok s' -> clear_ann p -> Forall (settled T) l ->
  grounded s -> sbind s -> grounded s' /\ sbind s' /\ extends s s' /\ Forall (matched s' p) l.
Proof.
  intros p. induction l as [|a l IH]; intros s s' H P A G B.
  - injection H as <-. repeat (split; [first [assumption|apply extends_refl]|]). constructor.
  - cbn [each] in H. pose proof (Forall_inv A) as Aa. apply Forall_inv_tail in A.
    destruct (unify_types T fuel p a s) as [s1| |] eqn:Un; try discriminate. cbn [bind] in H.
    destruct (unify_types_matched p a s s1 Un P Aa G B) as [G1 [B1 [E1 M1]]].
    destruct (IH _ _ H P A G1 B1) as [G2 [B2 [E2 M2]]].
    split; [exact G2|]. split; [exact B2|]. split; [now apply extends_trans with s1|]. constructor; [|exact M2]. now apply matched_later with s1.
Qed.
Lemma matched_fits : forall s g p a v, grounded s -> sbind s -> sure g -> matched s p a -> settled T a -> inhabits v a -> fits (after s g) v (Some p).
Proof.
  intros s g p a v G B S [p' [a' [Cp [Ca [Sp [Sa [X A]]]]]]] [Ga _] I. exists fuel, p'. split; [exact Cp|].
  rewrite <- apply_after by exact G. apply (un_accepts _ _ _ _ U) with a'.
  - now apply (accepts_apply T R GB).
  - now apply sure_ground.
  - exact X.
  - rewrite apply_after by exact G. apply sure_strict; [now apply sure_after|exact Sp].
  - exact Sa.
  - apply (un_canon _ _ _ _ U v fuel a); [exact Ca|exact Ga|apply X|exact I].
Qed.
Lemma bind_args_in : forall ps l fixed rest, bind_args ps l = Some (fixed, rest) -> map fst fixed = ps /\ l = map snd fixed ++ rest.
Proof.
  induction ps as [|p ps IH]; intros l fixed rest H; cbn in H.
  - injection H as <- <-. auto.
  - destruct l as [|a l]; [discriminate|]. destruct (bind_args ps l) as [[fx rs]|] eqn:E; [|discriminate]. cbn in H. injection H as <- <-.
    destruct (IH _ _ _ E) as [A B]. cbn. now rewrite A, B.
Qed.
Lemma arguments_fixed : forall f rest (fixed : list (option ty * ty)) vs vr,
  Forall2 (fun v x => match fst x with Some p => fits f v (Some p) | None => True end) vs fixed ->
  arguments T V inhabits f rest [] vr -> arguments T V inhabits f rest (map fst fixed) (vs ++ vr).
Proof.
  intros f rest fixed vs vr F A. induction F as [|v [p a] vs fixed H F IH]; cbn; [exact A|]. apply ar_param; [|exact IH].
  destruct p; [exact H|exact I].
Qed.
Lemma signature_fits : forall g ts n s n' vs, unify_signature T fuel g ts n = Ok (s, n') ->
  (forall p, In p (annotations g) -> clear_ann p) -> Forall (settled T) ts -> Forall2 inhabits vs ts ->
  grounded s /\ sbind s /\ forall h, sure h -> arguments T V inhabits (after s h) (varpos g) (params g) vs.
Proof.
  intros g ts n s n' vs H P A I. unfold unify_signature in H.
  destruct (bind_args (params g) ts) as [[fixed rest]|] eqn:Bi; [|discriminate].
  destruct (bind_args_in _ _ _ _ Bi) as [Fx ->]. apply Forall_app in A. destruct A as [Af Ar].
  apply Forall2_app_inv_r in I. destruct I as [v1 [v2 [I1 [I2 ->]]]].
  assert (Pf : Forall (fun x => match fst x with Some p => clear_ann p | None => True end) fixed).
  { apply Forall_forall. intros [p a] Hx. cbn. destruct p as [p|]; [|exact I]. apply P. unfold annotations. apply in_or_app. left.
    apply in_flat_map. exists (Some p). split; [|now left]. rewrite <- Fx. now apply (in_map fst _ (Some p, a)). }
  assert (Af' : Forall (fun x => settled T (snd x)) fixed) by exact (proj1 (Forall_map _ _ _) Af).
  assert (Main : forall s1 n1, unify_params T fuel fixed [] n = Ok (s1, n1) -> grounded s -> sbind s -> extends s1 s ->
            forall h, sure h -> Forall2 (fun v (x : option ty * ty) => match fst x with Some p => fits (after s h) v (Some p) | None => True end) v1 fixed).
  { intros s1 n1 H1 G B E h S.
    assert (G0 : grounded []) by (intros ? ? ?; discriminate). assert (B0 : sbind []) by (intros ? ? ?; discriminate).
    destruct (unify_params_matched _ _ _ _ _ H1 Pf Af' G0 B0) as [G1 [_ [_ M]]].
    clear - U S G1 G B E M I1 Af' GB R. revert v1 I1. induction fixed as [|[p a] fixed IH]; intros v1 I1; cbn in I1;
      [rewrite (forall2_nil_r _ _ _ _ I1); apply Forall2_nil|].
    destruct (forall2_cons_r _ _ _ _ _ _ I1) as [v [vs [-> [I I1']]]]. clear I1. rename I1' into I1. constructor.
    - pose proof (Forall_inv M) as Ma. pose proof (Forall_inv Af') as Aa. cbn in *. destruct p as [p|]; [|exact Logic.I].
      apply matched_fits with a; auto. now apply matched_later with s1.
    - apply IH; [now apply Forall_inv_tail in Af'|now apply Forall_inv_tail in M|exact I1]. }
  assert (Fin : forall s1 n1, unify_params T fuel fixed [] n = Ok (s1, n1) -> grounded s -> sbind s -> extends s1 s ->
            (forall h, sure h -> arguments T V inhabits (after s h) (varpos g) [] v2) ->
            forall h, sure h -> arguments T V inhabits (after s h) (varpos g) (params g) (v1 ++ v2)).
  { intros s1 n1 H1 G B E K h S. rewrite <- Fx. apply arguments_fixed; [now apply (Main s1 n1)|now apply K]. }
  assert (G0 : grounded []) by (intros ? ? ?; discriminate). assert (B0 : sbind []) by (intros ? ? ?; discriminate).
  destruct (varpos g) as [[p|]|] eqn:Vp.
  - destruct (unify_params T fuel fixed [] n) as [[s1 n1]| |] eqn:H1; try discriminate. cbn [bind fst snd] in H. unfold unify_rest in H.
    destruct (unify_params_matched _ _ _ _ _ H1 Pf Af' G0 B0) as [G1 [B1 [_ M]]].
    destruct (freshen _ fuel (TList rest)) as [t| |] eqn:Fr; try discriminate. cbn [bind] in H.
    apply freshen_ground in Fr; [|apply ground_list; revert Ar; apply Forall_impl; intros a; apply proj1]. subst t.
    destruct (each (unify_types T fuel) p rest s1) as [s2| |] eqn:Ea; try discriminate. cbn [bind] in H. injection H as <- <-.
    assert (Pp : clear_ann p) by (apply P; unfold annotations; rewrite Vp; apply in_or_app; right; now left).
    destruct (unify_each_matched p rest s1 s2 Ea Pp Ar G1 B1) as [G2 [B2 [E2 M2]]].
    split; [exact G2|]. split; [exact B2|]. apply (Fin s1 n1 eq_refl G2 B2 E2). intros h S. apply ar_rest with (Some p); [reflexivity|].
    clear - M2 I2 Ar S G2 B2 U R GB. induction I2 as [|v t vs ts I I2 IH]; constructor.
    + apply matched_fits with t; auto; [now apply Forall_inv in M2|now apply Forall_inv in Ar].
    + apply IH; [now apply Forall_inv_tail in Ar|now apply Forall_inv_tail in M2].
  - destruct (unify_params_matched _ _ _ _ _ H Pf Af' G0 B0) as [G1 [B1 [_ M]]]. split; [exact G1|]. split; [exact B1|].
    apply (Fin s n' H G1 B1 (extends_refl s)). intros h S. apply ar_rest with None; [reflexivity|]. apply Forall_forall. intros; exact I.
  - destruct rest as [|? ?]; [|discriminate]. rewrite (forall2_nil_r _ _ _ _ I2) in *.
    destruct (unify_params_matched _ _ _ _ _ H Pf Af' G0 B0) as [G1 [B1 [_ M]]]. split; [exact G1|]. split; [exact B1|].
    apply (Fin s n' H G1 B1 (extends_refl s)). intros h S. apply ar_done.
Qed.

(** * Expressions *)
Definition infer_list : list expr -> nat -> res (list ty * nat) :=
  fix go (l : list expr) (n : nat) : res (list ty * nat) :=
    match l with
    | [] => Ok ([], n)
    | a :: l' => bind (infer a n) (fun x => bind (go l' (snd x)) (fun y => Ok (fst x :: fst y, snd y)))
    end.
Lemma infer_tuple : forall l n, infer (ETuple l) n = bind (infer_list l n) (fun x => bind (tuple_type T fuel (fst x)) (fun t => Ok (t, snd x))).
Proof. reflexivity. Qed.
Lemma infer_coll : forall c l n, infer (EColl c l) n = bind (infer_list l n) (fun x => bind (coll_type T fuel c (fst x)) (fun t => Ok (t, snd x))).
Proof. reflexivity. Qed.
Lemma infer_call : forall o l n, infer (ECall o l) n = bind (infer_list l n) (fun x => type_rule T fuel (sigs o) (fst x) (snd x)).
Proof. reflexivity. Qed.
Lemma dedupe_same : forall k t, ty_eqb t t = true -> dedupe [t] (repeat t k) = [].
Proof. induction k as [|k IH]; intros t Rf; [reflexivity|]. cbn [repeat dedupe existsb]. rewrite Rf. cbn [orb]. apply IH. exact Rf. Qed.
Lemma infer_repeat : forall x k n, infer_list (repeat (EVal x) k) n = Ok (repeat (TCon x) k, n).
Proof. induction k as [|k IH]; intros n; [reflexivity|]. cbn. rewrite (IH n). reflexivity. Qed.
Lemma infer_items : forall c d x k n, canon T fuel (TCon c) = Ok (TCon d) -> generic T d = true ->
  infer (EColl c (repeat (EVal x) (S k))) n = Ok (TApp d [TCon x], n).
Proof.
  intros c d x k n C G. rewrite infer_coll, infer_repeat. cbn [bind fst snd]. unfold coll_type. rewrite C. cbn [bind repeat].
  assert (E : forall k, mk_union (repeat (TCon x) (S k)) = TCon x).
  { intros j. unfold mk_union. replace (flat_map members (repeat (TCon x) (S j))) with (repeat (TCon x) (S j)) by (clear; induction (S j) as [|m IH]; cbn; congruence).
    cbn [repeat dedupe existsb app]. rewrite dedupe_same; [reflexivity|]. apply ty_eqb_refl. }
  destruct k as [|k]; cbn [repeat]; rewrite G; [reflexivity|].
  change (TCon x :: TCon x :: repeat (TCon x) k) with (repeat (TCon x) (S (S k))). rewrite E. reflexivity.
Qed.
Lemma infer_list_in : forall l n ts n', infer_list l n = Ok (ts, n') -> Forall2 (fun e t => exists m m', infer e m = Ok (t, m')) l ts.
Proof.
  induction l as [|e l IH]; intros n ts n' H; cbn in H; [injection H as <- <-; constructor|].
  destruct (infer e n) as [[t m]| |] eqn:E; try discriminate. cbn [bind snd] in H.
  destruct (infer_list l m) as [[ts' m']| |] eqn:F; try discriminate. cbn [bind fst snd] in H. injection H as <- <-.
  constructor; [eauto|now apply IH with m m'].
Qed.
Lemma eqb_apply : forall g t x, ty_eqb t x = true -> ty_eqb (apply g t) (apply g x) = true.
Proof.
  intros g. assert (L : forall l, Forall (fun t => forall x, ty_eqb t x = true -> ty_eqb (apply g t) (apply g x) = true) l ->
    forall l', list_eqb l l' = true -> list_eqb (map (apply g) l) (map (apply g) l') = true).
  { induction 1 as [|a l A _ IH]; intros [|b l'] H; cbn in *; try discriminate; [reflexivity|].
    apply andb_true_iff in H. destruct H as [H1 H2]. apply andb_true_iff. split; [now apply A|now apply IH]. }
  induction t as [v| | |c|c l IH|l IH|l IH] using ty_ind2; intros x H; destruct x as [w| | |d|d l'|l'|l']; try discriminate H; try exact H.
  - cbn in H. apply Nat.eqb_eq in H. subst w. apply ty_eqb_refl.
  - rewrite ty_eqb_app in H. apply andb_true_iff in H. destruct H as [H1 H2]. cbn [apply]. rewrite ty_eqb_app, H1. now apply L.
  - rewrite ty_eqb_union in H. apply andb_true_iff in H. destruct H as [H1 H2]. cbn [apply]. rewrite ty_eqb_union. apply andb_true_iff. split.
    + rewrite each_in_spec in H1 |- *. intros a Ia. apply in_map_iff in Ia. destruct Ia as [a0 [<- Ia]].
      destruct (H1 a0 Ia) as [b [Ib Eb]]. exists (apply g b). split; [now apply in_map|]. rewrite Forall_forall in IH. now apply IH.
    + rewrite forallb_forall in H2 |- *. intros b Ib. apply in_map_iff in Ib. destruct Ib as [b0 [<- Ib]]. specialize (H2 b0 Ib).
      rewrite some_eq_spec in H2 |- *. destruct H2 as [a [Ia Ea]]. exists (apply g a). split; [now apply in_map|]. rewrite Forall_forall in IH. now apply IH.
  - rewrite ty_eqb_list in H. cbn [apply]. rewrite ty_eqb_list. now apply L.
Qed.
Lemma member_inhabits : forall g v t, inhabits v (apply g t) -> exists m, In m (members t) /\ inhabits v (apply g m).
Proof.
  intros g v t H. destruct t as [w| | |c|c l|l|l]; try (eexists; split; [left; reflexivity|exact H]).
  cbn [apply] in H. apply (un_union _ _ _ _ U) in H. destruct H as [m [I H]]. apply in_map_iff in I. destruct I as [m0 [<- I]]. eauto.
Qed.
Lemma union_one : forall g v l u t, mk_union l = u -> is_union u = false -> In t l -> inhabits v (apply g t) -> inhabits v (apply g u).
Proof.
  intros g v l u t M N I H. unfold mk_union in M. destruct (dedupe [] (flat_map members l)) as [|u' [|u2 q]] eqn:D;
    [subst u; discriminate N| |subst u; discriminate N]. subst u'.
  destruct (member_inhabits g v t H) as [m [Im Hm]].
  destruct (dedupe_in (flat_map members l) [] m ltac:(apply in_flat_map; eauto)) as [u' [Iu E]]. rewrite D in Iu. cbn in Iu.
  destruct Iu as [<-|[]]. destruct E as [->|E]; [exact Hm|]. apply (un_equal _ _ _ _ U) with (apply g m); [now apply eqb_apply|exact Hm].
Qed.
Definition typed (g : nat -> ty) (v : V) (t : ty) : Prop := inhabits v (apply g t).
Lemma coll_typed : forall g c ts t vs, coll_type T fuel c ts = Ok t -> (forall n t, canon T n (TCon c) = Ok t -> ground t /\ t <> TCon CTuple) ->
  Forall2 (typed g) vs ts -> inhabits (coll c vs) (apply g t).
Proof.
  intros g c ts t vs H K F. unfold coll_type in H. destruct (canon T fuel (TCon c)) as [t0| |] eqn:C; try discriminate. cbn [bind] in H.
  assert (B : inhabits (coll c vs) (apply g t0)).
  { rewrite apply_ground by apply (K _ _ C). apply (un_canon _ _ _ _ U _ fuel (TCon c)); [exact C|reflexivity|apply (K _ _ C)|apply (un_coll_class _ _ _ _ U)]. }
  destruct t0 as [w| | |d|d l|l|l]; try (injection H as <-; exact B).
  destruct ts as [|a [|b ts]]; [injection H as <-; exact B| |].
  - destruct (generic T d) eqn:Gd; injection H as <-; [|exact B]. cbn [apply map]. apply (un_coll _ _ _ _ U) with fuel; [exact C|exact Gd|intros ->; now apply (K _ _ C)|].
    destruct (forall2_cons_r _ _ _ _ _ _ F) as [v [vs' [-> [Hv F']]]]. rewrite (forall2_nil_r _ _ _ _ F'). constructor; [exact Hv|constructor].
  - destruct (generic T d) eqn:Gd; [|injection H as <-; exact B]. remember (mk_union (a :: b :: ts)) as u eqn:E.
    destruct u as [w| | |e|e l|l|l]; injection H as <-; try exact B;
      (cbn [apply map]; apply (un_coll _ _ _ _ U) with fuel; [exact C|exact Gd|intros ->; now apply (K _ _ C)|]);
      (apply Forall_forall; intros v Iv; 
       assert (Q : exists t, In t (a :: b :: ts) /\ typed g v t) by
         (clear - F Iv; remember (a :: b :: ts) as q eqn:Eq; clear Eq; induction F as [|v0 t0 vs q H F IH]; [destruct Iv|];
          destruct Iv as [<-|Iv]; [exists t0; split; [now left|exact H]|destruct (IH Iv) as [t1 [I1 H1]]; exists t1; split; [now right|exact H1]]);
       destruct Q as [t1 [I1 H1]]; exact (union_one g v _ _ t1 (eq_sym E) eq_refl I1 H1)).
Qed.
Theorem infer_typed : forall e n t n' v g, infer e n = Ok (t, n') -> evals e v -> tame e -> sure g -> inhabits v (apply g t).
Proof.
  assert (L : forall l, Forall (fun e => forall n t n' v g, infer e n = Ok (t, n') -> evals e v -> tame e -> sure g -> inhabits v (apply g t)) l ->
    forall ts vs g, Forall2 (fun e t => exists m m', infer e m = Ok (t, m')) l ts -> Forall2 evals l vs -> Forall tame l -> sure g -> Forall2 (typed g) vs ts).
  { induction 1 as [|e l He _ IH]; intros ts vs g F E M S.
    - remember [] as q eqn:Eq in F. destruct F; [|discriminate]. remember [] as q' eqn:Eq' in E. destruct E; [constructor|discriminate].
    - remember (e :: l) as q eqn:Eq in F. destruct F as [|e' t l' ts [m [m' Hi]] F]; [discriminate|]. injection Eq as -> ->.
      remember (e :: l) as q eqn:Eq in E. destruct E as [|e' v l' vs Hv E]; [discriminate|]. injection Eq as -> ->.
      constructor; [now apply (He m t m' v g Hi Hv (Forall_inv M))|]. apply IH; auto. now apply Forall_inv_tail in M. }
  induction e as [c|l IH|c l IH|o l IH] using expr_ind2; intros n t n' v g H E M S.
  - injection H as <- <-. remember (EVal c) as e eqn:Ee. destruct E as [c' v I| | |]; try discriminate. injection Ee as ->. exact I.
  - rewrite infer_tuple in H. remember (ETuple l) as e eqn:Ee. destruct E as [|l' vs E| |]; try discriminate. injection Ee as ->.
    remember (ETuple l) as e eqn:Ee. destruct M as [|l' M| |]; try discriminate. injection Ee as ->.
    destruct (infer_list l n) as [[ts m]| |] eqn:Li; try discriminate. cbn [bind fst snd] in H.
    destruct (tuple_type T fuel ts) as [t0| |] eqn:Tt; try discriminate. cbn [bind] in H. injection H as <- <-.
    pose proof (L l IH ts vs g (infer_list_in _ _ _ _ Li) E M S) as F.
    destruct ts as [|a ts].
    + unfold tuple_type, coll_type in Tt. destruct (canon T fuel (TCon CTuple)) as [t1| |] eqn:C; try discriminate. cbn in Tt. destruct fuel; [discriminate C|].
      cbn in C. rewrite (rg_tuple T R) in C. injection C as <-. cbn in Tt. injection Tt as <-. apply (un_tuple_class _ _ _ _ U).
    + injection Tt as <-. cbn [apply]. apply (un_tuple _ _ _ _ U). clear - F. remember (a :: ts) as q eqn:Eq. clear Eq.
      induction F as [|v t vs q H F IHF]; cbn; constructor; assumption.
  - rewrite infer_coll in H. remember (EColl c l) as e eqn:Ee. destruct E as [| |c' l' vs E|]; try discriminate. injection Ee as -> ->.
    remember (EColl c l) as e eqn:Ee. destruct M as [| |c' l' M K|]; try discriminate. injection Ee as -> ->.
    destruct (infer_list l n) as [[ts m]| |] eqn:Li; try discriminate. cbn [bind fst snd] in H.
    destruct (coll_type T fuel c ts) as [t0| |] eqn:Tt; try discriminate. cbn [bind] in H. injection H as <- <-.
    apply coll_typed with ts; [exact Tt|exact K|]. exact (L l IH ts vs g (infer_list_in _ _ _ _ Li) E M S).
  - rewrite infer_call in H. remember (ECall o l) as e eqn:Ee. destruct E as [| | |o' l' vs v E Im]; try discriminate. injection Ee as -> ->.
    remember (ECall o l) as e eqn:Ee. destruct M as [| | |o' l' M K]; try discriminate. injection Ee as -> ->.
    destruct (infer_list l n) as [[ts m]| |] eqn:Li; try discriminate. cbn [bind fst snd] in H. unfold type_rule in H.
    pose proof (RS o vs v Im) as Rs. destruct (ret (sigs o)) as [r|] eqn:Rt; [|injection H as <- <-; apply (un_object _ _ _ _ U)].
    destruct Rs as [Rg Rv]. destruct (fvs r) as [|w ws] eqn:Fr.
    + injection H as <- <-. rewrite apply_ground by exact Fr. now apply Rg.
    + destruct (K r eq_refl ltac:(unfold ground; congruence)) as [Pr [Pp Pa]].
      destruct (unify_signature T fuel (sigs o) ts m) as [[s m']| |] eqn:Us; try discriminate. cbn [bind fst snd] in H.
      destruct (substitute fuel r s) as [t0| |] eqn:Su; try discriminate. cbn [bind] in H. injection H as <- <-.
      pose proof (infer_list_in _ _ _ _ Li) as Il.
      assert (At : Forall (settled T) ts).
      { clear - Il Pa. induction Il as [|e t l ts [k [k' Hi]] Il IHl]; constructor; [apply (Pa e k t k'); [now left|exact Hi]|].
        apply IHl. intros e' q t' q' I. apply Pa. now right. }
      pose proof (L l IH ts vs g Il E M S) as F.
      assert (F' : Forall2 inhabits vs ts).
      { clear - F At. induction F as [|v t vs ts H F IHF]; constructor; [|apply IHF; now apply Forall_inv_tail in At].
        unfold typed in H. rewrite apply_ground in H; [exact H|apply (Forall_inv At)]. }
      destruct (signature_fits _ _ _ _ _ _ Us (fun p I k p' => Pp p k p' I) At F') as [G [B A]].
      rewrite (substitute_plain s G fuel r t0 Pr Su), (apply_after s g r G). apply Rv; [now apply sure_after|now apply A].
Qed.
Theorem typeof_sound : forall e n t v, typeof T vbound sigs fuel e n = Ok t -> evals e v -> tame e -> inhabits v t.
Proof.
  intros e n t v H E M. unfold typeof in H. destruct (infer e n) as [[t0 n']| |] eqn:I; try discriminate. cbn [bind fst] in H.
  assert (S : sure (fun w => TCon (vbound w))) by (intros w; split; [reflexivity|cbn; now rewrite (pt_bound T vbound PT w)]).
  pose proof (infer_typed e n t0 n' v _ I E M S) as Q.
  destruct E as [c v Hv|l vs F|c l vs F|o l vs v F Im].
  - injection H as <-. exact Hv.
  - injection H as <-. apply (un_tuple_class _ _ _ _ U).
  - injection H as <-. apply (un_coll_class _ _ _ _ U).
  - destruct t0 as [w| | |c|c k|k|k]; try discriminate H; injection H as <-; try exact Q; cbn [apply] in Q.
    + now apply (un_class _ _ _ _ U) in Q.
    + destruct (un_list _ _ _ _ U _ _ Q).
Qed.
Theorem infer_sound : forall e n t n' v, infer e n = Ok (t, n') -> ground t -> evals e v -> tame e -> inhabits v t.
Proof.
  intros e n t n' v H G E M.
  assert (S : sure (fun w => TCon (vbound w))) by (intros w; split; [reflexivity|cbn; now rewrite (pt_bound T vbound PT w)]).
  pose proof (infer_typed e n t n' v _ H E M S) as Q. now rewrite apply_ground in Q.
Qed.
End Proofs.
