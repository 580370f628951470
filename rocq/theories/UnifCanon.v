(** Proofs about canonical types and cyclic substitutions. *)
From Coq Require Import List Bool Arith Lia.
From Verif Require Import UnifModel UnifSpec UnifSubst UnifProofs.
Import ListNotations.

(** * Substituting along a cycle never ends *)
Theorem substitute_cyclic : forall s D, cyclic_at s D ->
  forall n t r v, In v (fvs t) -> D v -> substitute n t s <> Ok r.
Proof.
  intros s D C. induction n as [|n IH]; intros t r v I Dv H; [discriminate|]. rewrite substitute_eq in H.
  destruct (C v Dv) as [b [w [Gb [Iw Dw]]]].
  assert (General : (if existsb (bound s) (fvs t) then substitute n (replace (once s) t) s else Ok t) <> Ok r).
  { intros K. assert (E : existsb (bound s) (fvs t) = true).
    { apply existsb_exists. exists v. split; [exact I|]. apply bound_spec. congruence. }
    rewrite E in K. apply (IH (replace (once s) t) r w) in K; [exact K| |exact Dw]. apply replace_vars. exists v. split; [exact I|]. unfold once. now rewrite Gb. }
  destruct t as [x| | |c|c l|l|l]; try (apply General; exact H); clear General.
  - destruct I as [<-|[]]. rewrite Gb in H. now apply (IH b r w) in H.
  - destruct (map_res (fun x => substitute n x s) l) as [l'| |] eqn:M; try discriminate. apply map_res_forall2 in M. cbn in I.
    clear H. induction M as [|a a' l l' E M IHM]; [destruct I|]. cbn in I. apply in_app_or in I. destruct I as [I|I]; [|now apply IHM].
    now apply (IH a a' v) in E.
Qed.

(** * Unions *)
Fixpoint distinct (seen l : list ty) : Prop :=
  match l with [] => True | t :: l' => existsb (fun u => ty_eqb u t) seen = false /\ distinct (seen ++ [t]) l' end.
Lemma dedupe_distinct : forall l seen, distinct seen (dedupe seen l).
Proof.
  induction l as [|t l IH]; intros seen; cbn; [exact I|]. destruct (existsb (fun u => ty_eqb u t) seen) eqn:E; [apply IH|].
  cbn. split; [exact E|apply IH].
Qed.
Lemma distinct_dedupe : forall l seen, distinct seen l -> dedupe seen l = l.
Proof. induction l as [|t l IH]; intros seen H; cbn; [reflexivity|]. destruct H as [E H]. rewrite E. f_equal. now apply IH. Qed.
Lemma dedupe_incl : forall l seen t, In t (dedupe seen l) -> In t l.
Proof.
  induction l as [|a l IH]; intros seen t I; cbn in I; [destruct I|]. destruct (existsb _ seen); [right; eauto|].
  destruct I as [->|I]; [now left|right; eauto].
Qed.
Lemma flat_members : forall l, Forall (fun a => is_union a = false) l -> flat_map members l = l.
Proof. intros l F. induction F as [|a l H _ IH]; [reflexivity|]. cbn. rewrite IH. now destruct a. Qed.

Section Canon.
Variable T : table.
Notation nf := (nf T).
Notation canon := (canon T).

Lemma nf_members : forall t, nf t -> Forall (fun a => nf a /\ is_union a = false) (members t).
Proof.
  intros t N. destruct t as [v| | |c|c l|l|l]; try (constructor; [split; [exact N|reflexivity]|constructor]).
  cbn. remember (TUnion l) as e eqn:E. destruct N as [| | | | |l' F U _ _|]; try discriminate. injection E as ->.
  rewrite Forall_forall in *. auto.
Qed.
Lemma nf_mk_union : forall l, Forall nf l -> nf (mk_union l).
Proof.
  intros l F. unfold mk_union. remember (dedupe [] (flat_map members l)) as d eqn:E.
  assert (A : Forall (fun a => nf a /\ is_union a = false) d).
  { apply Forall_forall. intros a I. subst d. apply dedupe_incl in I. apply in_flat_map in I. destruct I as [b [Ib Ia]].
    rewrite Forall_forall in F. pose proof (nf_members b (F b Ib)) as M. rewrite Forall_forall in M. now apply M. }
  assert (D : dedupe [] d = d) by (apply distinct_dedupe; subst d; apply dedupe_distinct).
  assert (B : length d <> 1 -> nf (TUnion d)).
  { intros L. apply nf_union; [| |exact D|exact L]; eapply Forall_impl; try exact A; cbn; tauto. }
  destruct d as [|a [|b d]]; [apply B; discriminate|apply Forall_inv in A; tauto|apply B; discriminate].
Qed.
Lemma mk_union_nf : forall l, nf (TUnion l) -> mk_union l = TUnion l.
Proof.
  intros l N. remember (TUnion l) as e eqn:E. destruct N as [| | | | |l' F U D L|]; try discriminate. injection E as ->.
  unfold mk_union. rewrite (flat_members l U), D. destruct l as [|a [|b l]]; [reflexivity|destruct L; reflexivity|reflexivity].
Qed.
Lemma eo_members : forall t, ell_ok t -> t <> TEll -> Forall (fun a => ell_ok a /\ a <> TEll) (members t).
Proof.
  intros t N Q. destruct t as [v| | |c|c l|l|l]; try (constructor; [split; assumption|constructor]).
  cbn. remember (TUnion l) as e eqn:E. destruct N as [| | | | |l' F U|]; try discriminate. injection E as ->.
  rewrite Forall_forall in *. auto.
Qed.
Lemma eo_mk_union : forall l, Forall ell_ok l -> Forall (fun a => a <> TEll) l -> ell_ok (mk_union l) /\ mk_union l <> TEll.
Proof.
  intros l F U. unfold mk_union. remember (dedupe [] (flat_map members l)) as d eqn:E.
  assert (A : Forall (fun a => ell_ok a /\ a <> TEll) d).
  { apply Forall_forall. intros a I. subst d. apply dedupe_incl in I. apply in_flat_map in I. destruct I as [b [Ib Ia]].
    rewrite Forall_forall in F, U. pose proof (eo_members b (F b Ib) (U b Ib)) as M. rewrite Forall_forall in M. now apply M. }
  assert (B : ell_ok (TUnion d) /\ TUnion d <> TEll).
  { split; [|discriminate]. apply eo_union; eapply Forall_impl; try exact A; cbn; tauto. }
  destruct d as [|a [|b d]]; [exact B|apply Forall_inv in A; exact A|exact B].
Qed.

(** * More fuel *)
Definition step (n : nat) (t : ty) : list ty -> res ty :=
  fix go (bs : list ty) : res ty :=
    match bs with
    | [] => Ok t
    | b :: bs' =>
        if (match b with TApp CGeneric _ => true | _ => false end) then go bs'
        else bind (canon n b) (fun cb => if ty_eqb cb (TCon CObject) then go bs' else Ok cb)
    end.
Definition is_generic (b : ty) : bool := match b with TApp CGeneric _ => true | _ => false end.
Lemma canon_con : forall n c, canon (S n) (TCon c) =
  match special T c with Some t' => Ok t' | None => step n (TCon c) (bases T c) end.
Proof. reflexivity. Qed.
Lemma step_cons : forall n t b bs, step n t (b :: bs) =
  if is_generic b then step n t bs else bind (canon n b) (fun cb => if ty_eqb cb (TCon CObject) then step n t bs else Ok cb).
Proof. reflexivity. Qed.
Definition variadic (c : cls) (l : list ty) : option ty := match c, l with CTuple, [a; TEll] => Some a | _, _ => None end.
Lemma canon_app : forall n c l, canon (S n) (TApp c l) =
  match variadic c l with
  | Some a => bind (canon n a) (fun a' => Ok (TApp CSequence [a']))
  | None => bind (canon n (TCon c)) (fun o => bind (map_res (canon n) l) (fun l' => subscript T o l'))
  end.
Proof.
  intros n c l. unfold variadic. destruct c; try reflexivity. destruct l as [|a [|b [|d l]]]; try reflexivity; destruct b; reflexivity.
Qed.
Lemma variadic_some : forall c l a, variadic c l = Some a <-> c = CTuple /\ l = [a; TEll].
Proof.
  intros c l a. unfold variadic. split.
  - destruct c; try discriminate. destruct l as [|a' [|b [|d l]]]; try discriminate; destruct b; try discriminate. intros E. injection E as ->. auto.
  - intros [-> ->]. reflexivity.
Qed.
Lemma canon_map_mono : forall n, (forall t r, canon n t = Ok r -> forall m, n <= m -> canon m t = Ok r) ->
  forall l r m, n <= m -> map_res (canon n) l = Ok r -> map_res (canon m) l = Ok r.
Proof.
  intros n IH l. induction l as [|a l IHl]; intros r m L H; cbn in *; [exact H|].
  destruct (canon n a) as [b| |] eqn:E; try discriminate. cbn in H. destruct (map_res (canon n) l) as [l'| |] eqn:M; try discriminate.
  cbn in H. rewrite (IH _ _ E m L). cbn. now rewrite (IHl _ m L eq_refl).
Qed.
Lemma canon_mono : forall n t r, canon n t = Ok r -> forall m, n <= m -> canon m t = Ok r.
Proof.
  induction n as [|n IH]; intros t r H m L; [discriminate|]. destruct m as [|m]; [lia|]. apply le_S_n in L.
  destruct t as [v| | |c|c l|l|l]; try exact H.
  - rewrite canon_con in *. destruct (special T c); [exact H|]. revert H. generalize (bases T c) as bs.
    induction bs as [|b bs IHb]; intros H; [exact H|]. rewrite step_cons in *. destruct (is_generic b); [now apply IHb|].
    destruct (canon n b) as [cb| |] eqn:E; try discriminate. cbn [bind] in H. rewrite (IH _ _ E m L). cbn [bind].
    destruct (ty_eqb cb (TCon CObject)); [now apply IHb|exact H].
  - rewrite canon_app in *. destruct (variadic c l) as [a|].
    + destruct (canon n a) as [a'| |] eqn:E; try discriminate. now rewrite (IH _ _ E m L).
    + destruct (canon n (TCon c)) as [o| |] eqn:E; try discriminate. cbn [bind] in H. rewrite (IH _ _ E m L). cbn [bind].
      destruct (map_res (canon n) l) as [l'| |] eqn:M; try discriminate. now rewrite (canon_map_mono n IH _ _ m L M).
  - cbn [UnifModel.canon] in *. destruct (map_res (canon n) l) as [l'| |] eqn:M; try discriminate. now rewrite (canon_map_mono n IH _ _ m L M).
  - cbn [UnifModel.canon] in *. destruct (map_res (canon n) l) as [l'| |] eqn:M; try discriminate. now rewrite (canon_map_mono n IH _ _ m L M).
Qed.

(** * Canonical types stay as they are *)
Lemma eqb_object : forall t, ty_eqb t (TCon CObject) = true -> t = TCon CObject.
Proof. intros t E. destruct t; try discriminate. apply cls_eqb_eq in E. now subst. Qed.
Lemma fixed_canon : forall c, fixed T c -> exists n0, forall n, n0 <= n -> canon n (TCon c) = Ok (TCon c).
Proof.
  intros c [E|[E F]].
  - exists 1. intros [|n] L; [lia|]. now rewrite canon_con, E.
  - assert (G : exists n0, forall n, n0 <= n -> step n (TCon c) (bases T c) = Ok (TCon c)).
    { induction F as [|b bs H _ [n0 IH]]; [exists 0; reflexivity|]. destruct H as [[l ->]|[n1 H]].
      - exists n0. intros n L. rewrite step_cons. cbn [is_generic]. now apply IH.
      - exists (n0 + n1). intros n L. rewrite step_cons. destruct (is_generic b); [apply IH; lia|].
        rewrite (canon_mono _ _ _ H n) by lia. cbn. apply IH. lia. }
    destruct G as [n0 G]. exists (S n0). intros [|n] L; [lia|]. rewrite canon_con, E. apply G. lia.
Qed.
Theorem nf_canon : forall t, nf t -> exists n0, forall n, n0 <= n -> canon n t = Ok t.
Proof.
  assert (G : forall l, Forall (fun t => nf t -> exists n0, forall n, n0 <= n -> canon n t = Ok t) l -> Forall nf l ->
              exists n0, forall n, n0 <= n -> map_res (canon n) l = Ok l).
  { intros l F. induction F as [|a l H _ IH]; intros N; [exists 0; reflexivity|].
    destruct (H (Forall_inv N)) as [n1 H1]. destruct (IH (Forall_inv_tail N)) as [n2 H2]. exists (n1 + n2). intros n L. cbn.
    rewrite H1 by lia. cbn. now rewrite H2 by lia. }
  induction t as [v| | |c|c l IH|l IH|l IH] using ty_ind2; intros N;
    try (exists 1; intros [|n] L; [lia|]; reflexivity).
  - remember (TCon c) as e eqn:E. destruct N; try discriminate. injection E as ->. now apply fixed_canon.
  - remember (TApp c l) as e eqn:E. destruct N as [| | | |c' l' F Gc N V| |]; try discriminate. injection E as -> ->.
    destruct (fixed_canon c F) as [n1 H1]. destruct (G l IH N) as [n2 H2]. exists (S (n1 + n2)). intros [|n] L; [lia|].
    rewrite canon_app. destruct (variadic c l) as [a|] eqn:Va.
    + apply variadic_some in Va. destruct Va as [-> ->]. destruct (V a eq_refl). reflexivity.
    + rewrite H1 by lia. cbn [bind]. rewrite H2 by lia. cbn. now rewrite Gc.
  - assert (N' := N). remember (TUnion l) as e eqn:E. destruct N' as [| | | | |l' F U D L|]; try discriminate. injection E as ->.
    destruct (G l IH F) as [n0 H]. exists (S n0). intros [|n] Ln; [lia|]. cbn [UnifModel.canon]. rewrite H by lia. cbn. now rewrite mk_union_nf.
  - remember (TList l) as e eqn:E. destruct N as [| | | | | |l' F]; try discriminate. injection E as ->.
    destruct (G l IH F) as [n0 H]. exists (S n0). intros [|n] Ln; [lia|]. cbn [UnifModel.canon]. rewrite H by lia. reflexivity.
Qed.

(** * What [canonicalize] returns is canonical *)
Hypothesis R : regular T.
Definition good (t : ty) : Prop := nf t /\ ell_ok t.
Definition solid (t : ty) : Prop := nf t /\ ell_ok t /\ t <> TEll.
Lemma replace_solid : forall f t, (forall v, In v (fvs t) -> solid (f v)) -> good t -> good (replace f t) /\ (t <> TEll -> replace f t <> TEll).
Proof.
  intros f.
  assert (Gl : forall l, Forall (fun t => (forall v, In v (fvs t) -> solid (f v)) -> good t -> good (replace f t) /\ (t <> TEll -> replace f t <> TEll)) l ->
    (forall v, In v (flat_map fvs l) -> solid (f v)) -> Forall nf l -> Forall ell_ok l ->
    Forall nf (map (replace f) l) /\ Forall ell_ok (map (replace f) l) /\ Forall2 (fun a b => a <> TEll -> b <> TEll) l (map (replace f) l)).
  { intros l F. induction F as [|a l H _ IH]; intros S N E; [repeat split; constructor|]. cbn.
    destruct IH as [I1 [I2 I3]]; [|now apply Forall_inv_tail in N|now apply Forall_inv_tail in E|].
    { intros v I. apply S. cbn. apply in_or_app. now right. }
    destruct H as [[H1 H2] H3]; [|split; [now apply Forall_inv in N|now apply Forall_inv in E]|].
    { intros v I. apply S. cbn. apply in_or_app. now left. }
    repeat split; constructor; auto. }
  assert (No : forall l l', Forall2 (fun a b => a <> TEll -> b <> TEll) l l' -> Forall (fun a => a <> TEll) l -> Forall (fun a => a <> TEll) l').
  { intros l l' F. induction F; intros N; constructor; [apply H; now apply Forall_inv in N|apply IHF; now apply Forall_inv_tail in N]. }
  induction t as [v| | |c|c l IH|l IH|l IH] using ty_ind2; intros S [N E]; try (split; [split; assumption|intros Q; exact Q]).
  - cbn. destruct (S v (or_introl eq_refl)) as [A [B C]]. split; [split; assumption|auto].
  - cbn [replace]. split; [|discriminate].
    remember (TApp c l) as e eqn:Ee. destruct N as [| | | |c' l' F Gc N V| |]; try discriminate. injection Ee as -> ->.
    remember (TApp c l) as e eqn:Ee. destruct E as [| | | |c' l' E K| |]; try discriminate. injection Ee as -> ->.
    destruct (Gl l IH S N E) as [A [B C]].
    assert (K' : c = CCallable \/ c = COperation \/ c = CGeneric \/ Forall (fun a => a <> TEll) (map (replace f) l)).
    { destruct K as [K|[K|[K|[K|[K [a [Q _]]]]]]]; [auto|auto|auto|right; right; right; now apply (No l)|destruct (V a K Q)]. }
    split.
    + apply nf_app; [exact F|exact Gc|exact A|]. intros a -> Q. destruct K' as [K'|[K'|[K'|K']]]; [discriminate|discriminate|discriminate|].
      rewrite Q in K'. apply Forall_inv_tail in K'. apply Forall_inv in K'. now apply K'.
    + apply eo_app; [exact B|]. tauto.
  - cbn [replace].
    remember (TUnion l) as e eqn:Ee. destruct N as [| | | | |l' F U D L|]; try discriminate. injection Ee as ->.
    remember (TUnion l) as e eqn:Ee. destruct E as [| | | | |l' E K|]; try discriminate. injection Ee as ->.
    destruct (Gl l IH S F E) as [A [B C]]. destruct (eo_mk_union _ B (No _ _ C K)) as [M1 M2]. split; [split; [now apply nf_mk_union|exact M1]|intros _; exact M2].
  - cbn [replace]. split; [|discriminate].
    remember (TList l) as e eqn:Ee. destruct N as [| | | | | |l' F]; try discriminate. injection Ee as ->.
    remember (TList l) as e eqn:Ee. destruct E as [| | | | | |l' E]; try discriminate. injection Ee as ->.
    destruct (Gl l IH S F E) as [A [B _]]. split; [now apply nf_list|now apply eo_list].
Qed.
Lemma nodup_vars_in : forall l seen v, In v l -> In v (seen ++ nodup_vars seen l).
Proof.
  induction l as [|w l IH]; intros seen v I; [destruct I|]. cbn. destruct (existsb (Nat.eqb w) seen) eqn:E.
  - destruct I as [->|I]; [|now apply IH]. apply existsb_exists in E. destruct E as [u [Iu Eu]]. apply Nat.eqb_eq in Eu. subst u.
    apply in_or_app. now left.
  - destruct I as [->|I]; [apply in_or_app; right; now left|]. specialize (IH (seen ++ [w]) v I). rewrite <- app_assoc in IH. exact IH.
Qed.
Lemma index_of_in : forall l v, In v l -> exists i, index_of v l = Some i /\ i < length l.
Proof.
  induction l as [|w l IH]; intros v I; [destruct I|]. cbn. destruct (Nat.eqb_spec w v) as [->|N]; [exists 0; split; [reflexivity|lia]|].
  destruct I as [->|I]; [congruence|]. destruct (IH v I) as [i [E L]]. exists (S i). rewrite E. split; [reflexivity|lia].
Qed.
Lemma subscript_solid : forall o l r, solid o -> Forall solid l -> subscript T o l = Ok r -> solid r.
Proof.
  intros o l r [N [E Q]] F H.
  assert (Sub : forall vs, vs = nodup_vars [] (fvs o) -> Nat.eqb (length vs) (length l) = true ->
    solid (replace (fun v => match index_of v vs with Some i => nth i l (TVar v) | None => TVar v end) o)).
  { intros vs -> L. apply Nat.eqb_eq in L. destruct (replace_solid (fun v => match index_of v (nodup_vars [] (fvs o)) with Some i => nth i l (TVar v) | None => TVar v end) o) as [[A B] C].
    - intros v I. pose proof (nodup_vars_in _ [] v I) as I'. cbn in I'. destruct (index_of_in _ v I') as [i [Ei Li]]. rewrite Ei.
      rewrite Forall_forall in F. apply F. apply nth_In. lia.
    - split; assumption.
    - split; [exact A|]. split; [exact B|auto]. }
  destruct o as [v| | |c|c xs|xs|xs]; try discriminate H.
  - cbn in H. destruct (generic T c) eqn:G; [|discriminate]. injection H as <-.
    split; [|split; [|discriminate]].
    + apply nf_app; [|exact G| |].
      * remember (TCon c) as e eqn:Ee. destruct N; try discriminate. now injection Ee as ->.
      * eapply Forall_impl; [|exact F]. intros a [A _]. exact A.
      * intros a _ ->. apply Forall_inv_tail in F. apply Forall_inv in F. destruct F as [_ [_ F]]. now apply F.
    + apply eo_app; [eapply Forall_impl; [|exact F]; intros a [_ [A _]]; exact A|]. right. right. right. left.
      eapply Forall_impl; [|exact F]. intros a [_ [_ A]]. exact A.
  - unfold subscript in H. remember (nodup_vars [] (fvs (TApp c xs))) as vs eqn:V. destruct vs as [|v0 vs]; [discriminate|].
    destruct (Nat.eqb (length (v0 :: vs)) (length l)) eqn:L; [|discriminate]. injection H as <-. exact (Sub (v0 :: vs) eq_refl L).
  - unfold subscript in H. remember (nodup_vars [] (fvs (TUnion xs))) as vs eqn:V. destruct vs as [|v0 vs]; [discriminate|].
    destruct (Nat.eqb (length (v0 :: vs)) (length l)) eqn:L; [|discriminate]. injection H as <-. exact (Sub (v0 :: vs) eq_refl L).
Qed.
Theorem canon_good : forall n t t', canon n t = Ok t' -> ell_ok t -> good t' /\ (t <> TEll -> t' <> TEll).
Proof.
  induction n as [|n IH]; intros t t' H E; [discriminate|].
  assert (Ml : forall l l', map_res (canon n) l = Ok l' -> Forall ell_ok l ->
               Forall nf l' /\ Forall ell_ok l' /\ (Forall (fun a => a <> TEll) l -> Forall (fun a => a <> TEll) l')).
  { intros l l' M. apply map_res_forall2 in M. induction M as [|a b l l' Ea M IHM]; intros F; [repeat split; constructor|].
    destruct (IH _ _ Ea (Forall_inv F)) as [[A B] C]. destruct (IHM (Forall_inv_tail F)) as [A' [B' C']].
    repeat split; try (constructor; assumption). intros Q. constructor; [apply C; now apply Forall_inv in Q|apply C'; now apply Forall_inv_tail in Q]. }
  destruct t as [v| | |c|c l|l|l]; try (injection H as <-; split; [split; constructor|auto]).
  - rewrite canon_con in H. destruct (special T c) as [t0|] eqn:Sp.
    + injection H as <-. destruct (rg_special T R c t0 Sp) as [A [B C]]. split; [split; assumption|auto].
    + assert (G : forall bs done, bases T c = done ++ bs ->
        Forall (fun b => (exists l, b = TApp CGeneric l) \/ exists n, canon n b = Ok (TCon CObject)) done ->
        step n (TCon c) bs = Ok t' -> solid t').
      { induction bs as [|b bs IHb]; intros done Eb F K.
        - cbn in K. injection K as <-. rewrite app_nil_r in Eb. split; [apply nf_con; right; rewrite Eb; split; [exact Sp|exact F]|].
          split; [constructor|discriminate].
        - rewrite step_cons in K. destruct (is_generic b) eqn:Gb.
          + apply (IHb (done ++ [b])); [now rewrite <- app_assoc| |exact K]. apply Forall_app. split; [exact F|]. constructor; [|constructor].
            left. destruct b as [| | | |[] l| |]; try discriminate. eauto.
          + destruct (canon n b) as [cb| |] eqn:Cb; try discriminate. cbn [bind] in K.
            destruct (ty_eqb cb (TCon CObject)) eqn:Eo.
            * apply eqb_object in Eo. subst cb. apply (IHb (done ++ [b])); [now rewrite <- app_assoc| |exact K].
              apply Forall_app. split; [exact F|]. constructor; [|constructor]. right. eauto.
            * injection K as <-. pose proof (rg_bases T R c) as Q. rewrite Forall_forall in Q.
              destruct (Q b) as [Q1 Q2]; [rewrite Eb; apply in_or_app; right; now left|].
              destruct (IH _ _ Cb Q1) as [[A B] C]. split; [exact A|]. split; [exact B|now apply C]. }
      destruct (G (bases T c) [] eq_refl (Forall_nil _) H) as [A [B C]]. split; [split; assumption|auto].
  - rewrite canon_app in H. remember (TApp c l) as e eqn:Ee. destruct E as [| | | |c' l' E K| |]; try discriminate. injection Ee as -> ->.
    destruct (variadic c l) as [a|] eqn:Va.
    + apply variadic_some in Va. destruct Va as [-> ->]. destruct (canon n a) as [a'| |] eqn:Ca; try discriminate. injection H as <-.
      destruct (IH _ _ Ca (Forall_inv E)) as [[A B] C]. destruct (rg_sequence T R) as [Sq Gq]. split; [split|discriminate].
      * apply nf_app; [now left|exact Gq|repeat constructor; exact A|discriminate].
      * apply eo_app; [repeat constructor; exact B|]. right. right. right. left. constructor; [|constructor].
        apply C. destruct K as [K|[K|[K|[K|[_ [a0 [K1 K2]]]]]]]; try discriminate.
        -- now apply Forall_inv in K.
        -- injection K1 as <-. exact K2.
    + destruct (canon n (TCon c)) as [o| |] eqn:Co; try discriminate. cbn [bind] in H.
      destruct (map_res (canon n) l) as [l'| |] eqn:M; try discriminate. cbn [bind] in H.
      destruct (Ml _ _ M E) as [A [B C]]. destruct (IH _ _ Co (eo_con c)) as [[Ao Bo] Qo].
      assert (Keep : special T c = Some (TCon c) /\ generic T c = true -> c = CCallable \/ c = COperation \/ c = CGeneric -> good t' /\ (TApp c l <> TEll -> t' <> TEll)).
      { intros [Sp Gc] Kc. destruct n as [|n']; [discriminate|]. rewrite canon_con, Sp in Co. injection Co as <-. cbn in H. rewrite Gc in H.
        injection H as <-. split; [split|discriminate].
        - apply nf_app; [now left|exact Gc|exact A|]. intros a ->. destruct Kc as [Kc|[Kc|Kc]]; discriminate.
        - apply eo_app; [exact B|tauto]. }
      destruct K as [->|[->|[->|[K|[-> [a [-> _]]]]]]].
      * apply Keep; [apply (rg_callable T R)|auto].
      * apply Keep; [apply (rg_operation T R)|auto].
      * apply Keep; [apply (rg_generic T R)|auto].
      * assert (So : solid o) by (split; [exact Ao|split; [exact Bo|now apply Qo]]).
        assert (Sl : Forall solid l').
        { specialize (C K). rewrite Forall_forall in *. intros x I. split; [now apply A|split; [now apply B|now apply C]]. }
        destruct (subscript_solid o l' t' So Sl H) as [X [Y Z]]. split; [split; assumption|auto].
      * discriminate Va.
  - cbn [UnifModel.canon] in H. destruct (map_res (canon n) l) as [l'| |] eqn:M; try discriminate. cbn in H. injection H as <-.
    remember (TUnion l) as e eqn:Ee. destruct E as [| | | | |l0 E K|]; try discriminate. injection Ee as ->.
    destruct (Ml _ _ M E) as [A [B C]]. destruct (eo_mk_union _ B (C K)) as [X Y]. split; [split; [now apply nf_mk_union|exact X]|auto].
  - cbn [UnifModel.canon] in H. destruct (map_res (canon n) l) as [l'| |] eqn:M; try discriminate. cbn in H. injection H as <-.
    remember (TList l) as e eqn:Ee. destruct E as [| | | | | |l0 E]; try discriminate. injection Ee as ->.
    destruct (Ml _ _ M E) as [A [B _]]. split; [split; [now apply nf_list|now apply eo_list]|discriminate].
Qed.
Theorem canon_idempotent : forall n t t', canon n t = Ok t' -> ell_ok t -> exists n0, forall m, n0 <= m -> canon m t' = Ok t'.
Proof. intros n t t' H E. destruct (canon_good n t t' H E) as [[N _] _]. now apply nf_canon. Qed.
End Canon.

(** * [canonicalize] ends *)
Theorem canon_terminates : forall T, founded T -> forall t, exists n0, forall n, n0 <= n -> canon T n t <> Out.
Proof.
  intros T [rank Fo].
  assert (G : forall k t, (forall c, In c (classes t) -> rank c < k) -> exists n0, forall n, n0 <= n -> canon T n t <> Out).
  { induction k as [k IHk] using lt_wf_ind.
    assert (Con : forall c, rank c < k -> exists n0, forall n, n0 <= n -> canon T n (TCon c) <> Out).
    { intros c Lc. destruct (special T c) as [t0|] eqn:Sp.
      - exists 1. intros [|n] L; [lia|]. rewrite canon_con, Sp. discriminate.
      - assert (B : forall bs, incl bs (bases T c) -> exists n0, forall n, n0 <= n -> step T n (TCon c) bs <> Out).
        { induction bs as [|b bs IHb]; intros I; [exists 0; discriminate|].
          destruct IHb as [n1 H1]; [intros x Ix; apply I; now right|].
          destruct (is_generic b) eqn:Gb.
          - exists n1. intros n L. rewrite step_cons, Gb. now apply H1.
          - destruct (IHk (rank c) Lc b) as [n2 H2].
            { intros d Id. apply (Fo c b d); [apply I; now left|exact Id|exact Sp|]. intros l ->. discriminate Gb. }
            exists (n1 + n2). intros n L. rewrite step_cons, Gb. specialize (H2 n ltac:(lia)). specialize (H1 n ltac:(lia)).
            destruct (canon T n b) as [cb| |]; cbn [bind]; [|discriminate|congruence].
            destruct (ty_eqb cb (TCon CObject)); [exact H1|discriminate]. }
        destruct (B (bases T c) (incl_refl _)) as [n0 H]. exists (S n0). intros [|n] L; [lia|]. rewrite canon_con, Sp. apply H. lia. }
    assert (Ml : forall l, Forall (fun t => (forall c, In c (classes t) -> rank c < k) -> exists n0, forall n, n0 <= n -> canon T n t <> Out) l ->
      (forall c, In c (flat_map classes l) -> rank c < k) -> exists n0, forall n, n0 <= n -> map_res (canon T n) l <> Out).
    { intros l F. induction F as [|a l H _ IH]; intros B; [exists 0; discriminate|].
      destruct H as [n1 H1]; [intros c I; apply B; cbn; apply in_or_app; now left|].
      destruct IH as [n2 H2]; [intros c I; apply B; cbn; apply in_or_app; now right|].
      exists (n1 + n2). intros n L. cbn. specialize (H1 n ltac:(lia)). specialize (H2 n ltac:(lia)).
      destruct (canon T n a); cbn; [|discriminate|congruence]. destruct (map_res (canon T n) l); cbn; [discriminate|discriminate|congruence]. }
    induction t as [v| | |c|c l IH|l IH|l IH] using ty_ind2; intros B; try (exists 1; intros [|n] L; [lia|]; discriminate).
    - apply Con. apply B. now left.
    - destruct (Con c) as [n1 H1]; [apply B; now left|].
      destruct (Ml l IH) as [n2 H2]; [intros d I; apply B; now right|].
      exists (S (n1 + n2)). intros [|n] L; [lia|]. rewrite canon_app. destruct (variadic c l) as [a|] eqn:Va.
      + apply variadic_some in Va. destruct Va as [-> ->]. specialize (H2 n ltac:(lia)). cbn in H2.
        destruct (canon T n a); cbn; [discriminate|discriminate|]. intros _. now apply H2.
      + specialize (H1 n ltac:(lia)). specialize (H2 n ltac:(lia)).
        destruct (canon T n (TCon c)) as [o| |]; cbn [bind]; [|discriminate|congruence].
        destruct (map_res (canon T n) l) as [l'| |]; cbn [bind]; [|discriminate|congruence].
        unfold subscript. destruct o as [v| | |c0|c0 xs|xs|xs]; try discriminate.
        * destruct (generic T c0); discriminate.
        * destruct (nodup_vars [] (fvs (TApp c0 xs))) as [|v vs]; [discriminate|]. destruct (Nat.eqb _ _); discriminate.
        * destruct (nodup_vars [] (fvs (TUnion xs))) as [|v vs]; [discriminate|]. destruct (Nat.eqb _ _); discriminate.
    - destruct (Ml l IH B) as [n0 H]. exists (S n0). intros [|n] L; [lia|]. cbn [canon]. specialize (H n ltac:(lia)).
      destruct (map_res (canon T n) l); cbn; [discriminate|discriminate|congruence].
    - destruct (Ml l IH B) as [n0 H]. exists (S n0). intros [|n] L; [lia|]. cbn [canon]. specialize (H n ltac:(lia)).
      destruct (map_res (canon T n) l); cbn; [discriminate|discriminate|congruence]. }
  intros t. apply (G (S (list_max (map rank (classes t)))) t). intros c I.
  pose proof (proj1 (list_max_le (map rank (classes t)) _) (le_n _)) as F. rewrite Forall_forall in F.
  specialize (F (rank c) (in_map rank _ _ I)). lia.
Qed.

(** * Fresh variables *)
Definition renamed (fresh : nat -> nat) (t : ty) : subst := map (fun v => (v, TVar (fresh v))) (nodup_vars [] (fvs t)).
Lemma get_renamed : forall fresh l v, get (map (fun v => (v, TVar (fresh v))) l) v = if in_dec Nat.eq_dec v l then Some (TVar (fresh v)) else None.
Proof.
  intros fresh l v. induction l as [|w l IH]; [reflexivity|]. cbn [map get]. destruct (Nat.eqb_spec w v) as [->|N].
  - destruct (in_dec Nat.eq_dec v (v :: l)) as [_|Q]; [reflexivity|destruct Q; now left].
  - rewrite IH. destruct (in_dec Nat.eq_dec v l) as [I|I], (in_dec Nat.eq_dec v (w :: l)) as [J|J]; try reflexivity.
    + destruct J. now right.
    + destruct J as [->|J]; [congruence|tauto].
Qed.
Lemma nodup_vars_sub : forall l seen v, In v (nodup_vars seen l) -> In v l.
Proof.
  induction l as [|w l IH]; intros seen v I; cbn in I; [destruct I|]. destruct (existsb _ seen); [right; eauto|].
  destruct I as [->|I]; [now left|right; eauto].
Qed.
Lemma get_fresh : forall fresh t v, get (renamed fresh t) v = if in_dec Nat.eq_dec v (fvs t) then Some (TVar (fresh v)) else None.
Proof.
  intros fresh t v. unfold renamed. rewrite get_renamed.
  destruct (in_dec Nat.eq_dec v (nodup_vars [] (fvs t))) as [I|I], (in_dec Nat.eq_dec v (fvs t)) as [J|J]; try reflexivity.
  - destruct J. eapply nodup_vars_sub; eauto.
  - destruct I. pose proof (nodup_vars_in _ [] v J) as K. exact K.
Qed.
Theorem freshen_vars : forall fresh n t r, (forall v w, In v (fvs t) -> In w (fvs t) -> fresh v <> w) ->
  freshen fresh n t = Ok r -> forall v, In v (fvs r) <-> exists w, In w (fvs t) /\ v = fresh w.
Proof.
  intros fresh n t r N H v. unfold freshen in H. fold (renamed fresh t) in H. rewrite (substitute_vars _ _ _ _ H v), get_fresh. split.
  - intros [U Rc]. apply reaches_iff in Rc. destruct Rc as [w [Iw [->|[t' [G Rc]]]]].
    + destruct (in_dec Nat.eq_dec w (fvs t)); [discriminate|tauto].
    + rewrite get_fresh in G. destruct (in_dec Nat.eq_dec w (fvs t)) as [_|]; [|tauto]. injection G as <-.
      apply reaches_iff in Rc. destruct Rc as [x [[<-|[]] [->|[t' [G _]]]]]; [eauto|].
      rewrite get_fresh in G. destruct (in_dec Nat.eq_dec (fresh w) (fvs t)) as [J|]; [|discriminate]. destruct (N w (fresh w) Iw J eq_refl).
  - intros [w [Iw ->]]. destruct (in_dec Nat.eq_dec (fresh w) (fvs t)) as [J|J]; [destruct (N w (fresh w) Iw J eq_refl)|]. split; [reflexivity|].
    apply rc_step with w (TVar (fresh w)); [exact Iw| |apply rc_here; now left].
    rewrite get_fresh. destruct (in_dec Nat.eq_dec w (fvs t)); [reflexivity|tauto].
Qed.
Theorem freshen_terminates : forall fresh t, (forall v w, In v (fvs t) -> In w (fvs t) -> fresh v <> w) ->
  exists n r, freshen fresh n t = Ok r.
Proof.
  intros fresh t N. unfold freshen. fold (renamed fresh t). apply substitute_terminates. exists (fun _ => 0). intros v b w G I W. exfalso.
  rewrite get_fresh in G. destruct (in_dec Nat.eq_dec v (fvs t)) as [Iv|]; [|discriminate]. injection G as <-. destruct I as [<-|[]].
  rewrite get_fresh in W. destruct (in_dec Nat.eq_dec (fresh v) (fvs t)) as [J|J]; [exact (N v _ Iv J eq_refl)|now apply W].
Qed.
Lemma resolves_fresh : forall fresh t0 t r, (forall v w, In v (fvs t0) -> In w (fvs t0) -> fresh v <> w) ->
  (forall v, In v (fvs t) -> In v (fvs t0)) -> resolves (renamed fresh t0) t r -> r = apply (fun v => TVar (fresh v)) t.
Proof.
  intros fresh t0 t r N.
  assert (Gl : forall l, Forall (fun t => forall r, (forall v, In v (fvs t) -> In v (fvs t0)) -> resolves (renamed fresh t0) t r -> r = apply (fun v => TVar (fresh v)) t) l ->
    forall l', (forall v, In v (flat_map fvs l) -> In v (fvs t0)) -> Forall2 (resolves (renamed fresh t0)) l l' -> l' = map (apply (fun v => TVar (fresh v))) l).
  { intros l F l' B M. revert F B. induction M as [|a b l l' H M IH]; intros F B; [reflexivity|]. cbn. f_equal.
    - apply (Forall_inv F); [|exact H]. intros v I. apply B. cbn. apply in_or_app. now left.
    - apply IH; [now apply Forall_inv_tail in F|]. intros v I. apply B. cbn. apply in_or_app. now right. }
  revert r. induction t as [v| | |c|c l IH|l IH|l IH] using ty_ind2; intros r B H.
  - remember (TVar v) as e eqn:E. destruct H as [w G|w t' r G H| | | | |]; try discriminate; injection E as ->.
    + rewrite get_fresh in G. destruct (in_dec Nat.eq_dec v (fvs t0)) as [|J]; [discriminate|]. destruct J. apply B. now left.
    + rewrite get_fresh in G. destruct (in_dec Nat.eq_dec v (fvs t0)) as [Iv|]; [|discriminate]. injection G as <-.
      remember (TVar (fresh v)) as e eqn:E. destruct H as [w G|w t' r G H| | | | |]; try discriminate; injection E as ->; [reflexivity|].
      rewrite get_fresh in G. destruct (in_dec Nat.eq_dec (fresh v) (fvs t0)) as [J|]; [|discriminate]. destruct (N v _ Iv J eq_refl).
  - remember TAny as e eqn:E. destruct H; try discriminate. reflexivity.
  - remember TEll as e eqn:E. destruct H; try discriminate. reflexivity.
  - remember (TCon c) as e eqn:E. destruct H; try discriminate. now injection E as ->.
  - remember (TApp c l) as e eqn:E. destruct H as [| | | | |c' l0 l' M|]; try discriminate. injection E as -> ->. cbn. f_equal. now apply (Gl l IH).
  - remember (TUnion l) as e eqn:E. destruct H; try discriminate.
  - remember (TList l) as e eqn:E. destruct H as [| | | | | |l0 l' M]; try discriminate. injection E as ->. cbn. f_equal. now apply (Gl l IH).
Qed.
Theorem freshen_plain : forall fresh n t r, (forall v w, In v (fvs t) -> In w (fvs t) -> fresh v <> w) -> plain t ->
  freshen fresh n t = Ok r -> r = apply (fun v => TVar (fresh v)) t.
Proof.
  intros fresh n t r N P H. unfold freshen in H. fold (renamed fresh t) in H. apply (resolves_fresh fresh t t r N); [auto|].
  apply substitute_resolves with n; [|exact P|exact H]. intros v b G. rewrite get_fresh in G.
  destruct (in_dec Nat.eq_dec v (fvs t)); [|discriminate]. injection G as <-. constructor.
Qed.

(** Injective renaming keeps equality, so it keeps unions. *)
Section Rename.
Variable D : nat -> Prop.
Variable g : nat -> nat.
Hypothesis inj : forall v w, D v -> D w -> g v = g w -> v = w.
Notation rn := (apply (fun v => TVar (g v))).
Definition within (t : ty) : Prop := forall v, In v (fvs t) -> D v.
Lemma within_list : forall l, (forall v, In v (flat_map fvs l) -> D v) <-> Forall within l.
Proof.
  induction l as [|a l IH]; cbn; [split; [constructor|intros _ v []]|]. split.
  - intros H. constructor; [intros v I; apply H; apply in_or_app; now left|]. apply IH. intros v I. apply H. apply in_or_app. now right.
  - intros H v I. apply in_app_or in I. destruct I as [I|I]; [now apply (Forall_inv H)|]. apply IH; [now apply Forall_inv_tail in H|exact I].
Qed.
Lemma rename_eqb : forall t x, within t -> within x -> ty_eqb (rn t) (rn x) = ty_eqb t x.
Proof.
  assert (Gl : forall l, Forall (fun t => forall x, within t -> within x -> ty_eqb (rn t) (rn x) = ty_eqb t x) l ->
    forall l', Forall within l -> Forall within l' -> list_eqb (map rn l) (map rn l') = list_eqb l l').
  { intros l F. induction F as [|a l H _ IH]; intros [|b l'] W W'; cbn; try reflexivity. fold list_eqb.
    rewrite (H b (Forall_inv W) (Forall_inv W')), (IH l' (Forall_inv_tail W) (Forall_inv_tail W')). reflexivity. }
  induction t as [v| | |c|c l IH|l IH|l IH] using ty_ind2; intros x W W'; destruct x as [w| | |d|d l'|l'|l']; try reflexivity.
  - cbn. destruct (Nat.eqb_spec v w) as [->|N]; [now rewrite Nat.eqb_refl|]. apply Nat.eqb_neq. intros E. apply N.
    apply inj; [apply W; now left|apply W'; now left|exact E].
  - cbn [apply]. rewrite !ty_eqb_app. f_equal. apply (Gl l IH); now apply within_list.
  - cbn [apply]. rewrite !ty_eqb_union. apply (proj1 (within_list l)) in W. apply (proj1 (within_list l')) in W'.
    rewrite Forall_forall in IH, W, W'.
    assert (B : forall a b : bool, (a = true <-> b = true) -> a = b) by (intros [] [] H; try reflexivity; destruct H as [H1 H2]; [symmetry|]; auto).
    f_equal; apply B.
    + rewrite !each_in_spec. split.
      * intros H a I. destruct (H (rn a) (in_map _ _ _ I)) as [b [Ib Eb]]. apply in_map_iff in Ib. destruct Ib as [b' [<- Ib]].
        exists b'. split; [exact Ib|]. rewrite <- Eb. symmetry. apply IH; auto.
      * intros H a I. apply in_map_iff in I. destruct I as [a' [<- I]]. destruct (H a' I) as [b [Ib Eb]]. exists (rn b).
        split; [now apply in_map|]. rewrite <- Eb. apply IH; auto.
    + rewrite !forallb_forall. split.
      * intros H b Ib. specialize (H (rn b) (in_map _ _ _ Ib)). apply some_eq_spec in H. destruct H as [a [Ia Ea]].
        apply in_map_iff in Ia. destruct Ia as [a' [<- Ia]]. apply some_eq_spec. exists a'. split; [exact Ia|]. rewrite <- Ea. symmetry. apply IH; auto.
      * intros H b I. apply in_map_iff in I. destruct I as [b' [<- Ib]]. specialize (H b' Ib). apply some_eq_spec in H. destruct H as [a [Ia Ea]].
        apply some_eq_spec. exists (rn a). split; [now apply in_map|]. rewrite <- Ea. apply IH; auto.
  - cbn [apply]. rewrite !ty_eqb_list. apply (Gl l IH); now apply within_list.
Qed.
Lemma rename_dedupe : forall l seen, Forall within l -> Forall within seen -> dedupe (map rn seen) (map rn l) = map rn (dedupe seen l).
Proof.
  induction l as [|a l IH]; intros seen W S; cbn; [reflexivity|].
  assert (E : existsb (fun u => ty_eqb u (rn a)) (map rn seen) = existsb (fun u => ty_eqb u a) seen).
  { clear IH. induction S as [|b seen Wb S IHs]; cbn; [reflexivity|]. rewrite (rename_eqb b a Wb (Forall_inv W)). now rewrite IHs. }
  rewrite E. destruct (existsb (fun u => ty_eqb u a) seen).
  - apply IH; [now apply Forall_inv_tail in W|exact S].
  - cbn. f_equal. change [rn a] with (map rn [a]). rewrite <- map_app. apply IH; [now apply Forall_inv_tail in W|].
    apply Forall_app. split; [exact S|]. constructor; [now apply Forall_inv in W|constructor].
Qed.
Lemma rename_replace : forall t, neat t -> within t -> replace (fun v => TVar (g v)) t = rn t.
Proof.
  assert (Gl : forall l, Forall (fun t => neat t -> within t -> replace (fun v => TVar (g v)) t = rn t) l -> Forall neat l -> Forall within l ->
    map (replace (fun v => TVar (g v))) l = map rn l).
  { intros l F. induction F as [|a l H _ IH]; intros N W; cbn; [reflexivity|]. rewrite (H (Forall_inv N) (Forall_inv W)).
    now rewrite (IH (Forall_inv_tail N) (Forall_inv_tail W)). }
  induction t as [v| | |c|c l IH|l IH|l IH] using ty_ind2; intros N W; cbn [replace apply]; try reflexivity;
    apply (proj1 (within_list l)) in W.
  - remember (TApp c l) as e eqn:E. destruct N as [| | | |c' l' N| |]; try discriminate. injection E as -> ->. now rewrite (Gl l IH N W).
  - remember (TUnion l) as e eqn:E. destruct N as [| | | | | |l' N U Dd L]; try discriminate. injection E as ->. rewrite (Gl l IH N W).
    unfold mk_union. rewrite flat_members.
    + pose proof (rename_dedupe l [] W (Forall_nil _)) as K. cbn in K. rewrite K, Dd. destruct l as [|a [|b l]]; [reflexivity|destruct L; reflexivity|reflexivity].
    + rewrite Forall_forall in *. intros x I. apply in_map_iff in I. destruct I as [a [<- I]]. specialize (U a I). now destruct a.
  - remember (TList l) as e eqn:E. destruct N as [| | | | |l' N|]; try discriminate. injection E as ->. now rewrite (Gl l IH N W).
Qed.
End Rename.
Lemma replace_ext : forall f h t, (forall v, In v (fvs t) -> f v = h v) -> replace f t = replace h t.
Proof.
  intros f h t.
  assert (G : forall l, Forall (fun t => (forall v, In v (fvs t) -> f v = h v) -> replace f t = replace h t) l ->
              (forall v, In v (flat_map fvs l) -> f v = h v) -> map (replace f) l = map (replace h) l).
  { intros l F. induction F as [|a l H _ IH]; intros E; [reflexivity|]. cbn. f_equal.
    - apply H. intros v I. apply E. cbn. apply in_or_app. now left.
    - apply IH. intros v I. apply E. cbn. apply in_or_app. now right. }
  induction t as [v| | |c|c l IH|l IH|l IH] using ty_ind2; intros E; cbn [replace]; try reflexivity.
  - apply E. now left.
  - now rewrite (G l IH E).
  - now rewrite (G l IH E).
  - now rewrite (G l IH E).
Qed.
Lemma substitute_unbound : forall s n t r, (forall v, In v (fvs t) -> get s v = None) -> substitute n t s = Ok r -> r = t.
Proof.
  intros s. induction n as [|n IHn]; intros u r' U H; [discriminate|]. rewrite substitute_eq in H.
  assert (E : existsb (bound s) (fvs u) = false).
  { destruct (existsb (bound s) (fvs u)) eqn:E; [|reflexivity]. apply existsb_exists in E. destruct E as [v [I B]].
    apply bound_spec in B. now rewrite (U v I) in B. }
  destruct u as [x| | |c|c l|l|l]; rewrite ?E in H; try (injection H as <-; reflexivity).
  - rewrite (U x (or_introl eq_refl)) in H. now injection H as <-.
  - destruct (map_res (fun x => substitute n x s) l) as [l'| |] eqn:M; try discriminate. injection H as <-.
    f_equal. apply map_res_forall2 in M. clear E. cbn in U.
    induction M as [|a b l l' H M IHM]; [reflexivity|]. f_equal.
    + apply (IHn a b); [|exact H]. intros v I. apply U. cbn. apply in_or_app. now left.
    + apply IHM. intros v I. apply U. cbn. apply in_or_app. now right.
Qed.
Theorem freshen_parts : forall fresh n t r, (forall v w, In v (fvs t) -> In w (fvs t) -> fresh v = fresh w -> v = w) ->
  (forall v w, In v (fvs t) -> In w (fvs t) -> fresh v <> w) -> neat t -> freshen fresh n t = Ok r -> r = apply (fun v => TVar (fresh v)) t.
Proof.
  intros fresh n t r J N Ne H. unfold freshen in H. fold (renamed fresh t) in H.
  assert (Once : forall v, In v (fvs t) -> once (renamed fresh t) v = TVar (fresh v)).
  { intros v I. unfold once. rewrite get_fresh. destruct (in_dec Nat.eq_dec v (fvs t)); [reflexivity|tauto]. }
  assert (New : forall u, (forall v, In v (fvs u) -> In v (fvs t)) -> forall v, In v (fvs (apply (fun v => TVar (fresh v)) u)) -> get (renamed fresh t) v = None).
  { intros u W v I. apply apply_vars in I. destruct I as [w [Iw [<-|[]]]]. rewrite get_fresh.
    destruct (in_dec Nat.eq_dec (fresh w) (fvs t)) as [K|]; [destruct (N w _ (W w Iw) K eq_refl)|reflexivity]. }
  assert (G : forall n u r, neat u -> (forall v, In v (fvs u) -> In v (fvs t)) -> substitute n u (renamed fresh t) = Ok r -> r = apply (fun v => TVar (fresh v)) u).
  { clear n r H Ne. induction n as [|n IH]; intros u r Ne W H; [discriminate|]. rewrite substitute_eq in H.
    assert (General : (if existsb (bound (renamed fresh t)) (fvs u) then substitute n (replace (once (renamed fresh t)) u) (renamed fresh t) else Ok u) = Ok r ->
                      r = apply (fun v => TVar (fresh v)) u).
    { intros K. destruct (existsb (bound (renamed fresh t)) (fvs u)) eqn:E.
      - rewrite (replace_ext _ (fun v => TVar (fresh v))) in K by (intros v I; apply Once; auto).
        rewrite (rename_replace (fun v => In v (fvs t)) fresh J u Ne W) in K. apply substitute_unbound in K; [exact K|]. now apply New.
      - injection K as <-. rewrite (apply_ext _ TVar), apply_var; [reflexivity|]. intros v I. pose proof (unbound_all _ _ E v I) as Q.
        rewrite get_fresh in Q. destruct (in_dec Nat.eq_dec v (fvs t)) as [|K]; [discriminate|]. destruct K. auto. }
    destruct u as [x| | |c|c l|l|l]; try (apply General; exact H); clear General.
    - rewrite get_fresh in H. destruct (in_dec Nat.eq_dec x (fvs t)) as [I|K]; [|destruct K; apply W; now left].
      apply substitute_unbound in H; [exact H|]. apply (New (TVar x)). exact W.
    - destruct (map_res (fun x => substitute n x (renamed fresh t)) l) as [l'| |] eqn:M; try discriminate. injection H as <-. cbn [apply]. f_equal.
      apply map_res_forall2 in M. remember (TList l) as e eqn:E. destruct Ne as [| | | | |l0 Nl|]; try discriminate. injection E as ->. cbn [fvs] in W.
      induction M as [|a b l l' Ea M IHM]; [reflexivity|]. cbn. f_equal.
      + apply (IH a b); [now apply Forall_inv in Nl| |exact Ea]. intros v I. apply W. cbn. apply in_or_app. now left.
      + apply IHM; [|now apply Forall_inv_tail in Nl]. intros v I. apply W. cbn. apply in_or_app. now right. }
  apply (G n t r Ne); [auto|exact H].
Qed.
