From Coq Require Import ZArith String List Bool Lia.
From Verif Require Import MemModel MemSpec MemProofs.
Import ListNotations.

Lemma nth_firstn_app : forall (A : Type) (l m : list A) i x, nth_error (l ++ m) i = Some x ->
  (nth_error l i = Some x /\ firstn i (l ++ m) = firstn i l) \/
  (exists j, i = length l + j /\ nth_error m j = Some x /\ firstn i (l ++ m) = l ++ firstn j m).
Proof.
  intros A l m i x H. destruct (Nat.ltb i (length l)) eqn:E.
  - apply Nat.ltb_lt in E. left. rewrite nth_error_app1 in H by exact E. split; [exact H|].
    rewrite firstn_app. replace (i - length l) with 0 by lia. cbn. now rewrite app_nil_r.
  - apply Nat.ltb_ge in E. right. exists (i - length l). rewrite nth_error_app2 in H by exact E.
    split; [lia|]. split; [exact H|]. rewrite firstn_app. f_equal. apply firstn_all2. exact E.
Qed.

(** ** Answers come from runs of the same call *)
Definition justified (past : list event) (c : cache) : Prop :=
  forall k v, lookup k c = Some v ->
  exists e, In e past /\ ran e = true /\ gave e = Returned v /\ key_eq (K e) k = true.

Definition told (past : list event) (e : event) : Prop :=
  ran e = false ->
  (hashes (eargs e) (ekwds e) = false /\ exists x, gave e = Raised x) \/
  (hashes (eargs e) (ekwds e) = true /\ exists v e', gave e = Returned v /\ In e' past /\ ran e' = true /\
     gave e' = Returned v /\ key_eq (K e') (K e) = true).

Definition sound_step (past : list event) (c' : cache) (log : list event) : Prop :=
  justified (past ++ log) c' /\
  forall i e, nth_error log i = Some e -> told (past ++ firstn i log) e.

Lemma justified_more : forall past log c, justified past c -> justified (past ++ log) c.
Proof.
  intros past log c J k v H. destruct (J k v H) as [e [I R]]. exists e. split; [apply in_or_app; now left | exact R].
Qed.

Lemma session_sound : forall l,
  Forall (fun t => forall past c c' log, justified past c -> exec t c = (c', log) -> sound_step past c' log) l ->
  forall past c c' log, justified past c -> session l c = (c', log) -> sound_step past c' log.
Proof.
  intros l H; induction H as [|t l Ht Hl IH]; intros past c c' log J E; cbn in E.
  - injection E as <- <-. split; [now rewrite app_nil_r|]. intros [|i] e Hi; discriminate.
  - destruct (exec t c) as [c1 e1] eqn:E1. destruct (session l c1) as [c2 e2] eqn:E2. injection E as <- <-.
    destruct (Ht _ _ _ _ J E1) as [J1 T1]. destruct (IH _ _ _ _ J1 E2) as [J2 T2].
    split; [now rewrite app_assoc|]. intros i e Hi.
    destruct (nth_firstn_app _ _ _ _ _ Hi) as [[A B]|[j [A [B C]]]].
    + rewrite B. now apply T1.
    + rewrite C, app_assoc. now apply T2.
Qed.

Lemma exec_sound : forall t past c c' log, justified past c -> exec t c = (c', log) -> sound_step past c' log.
Proof.
  induction t as [a k inner ending IH] using call_all. intros past c c' log J E. rewrite exec_eq in E.
  destruct (hashes a k) eqn:Hh.
  - destruct (lookup (make_key a k) c) as [v|] eqn:Hl.
    + injection E as <- <-. split; [now apply justified_more|]. intros [|i] e Hi; [|destruct i; discriminate].
      injection Hi as <-. intros _. right. split; [exact Hh|].
      destruct (J _ _ Hl) as [e' [I [R [G Q]]]]. exists v, e'. cbn. rewrite app_nil_r. auto.
    + destruct (session inner c) as [c1 l1] eqn:E1.
      destruct (session_sound inner IH _ _ _ _ J E1) as [J1 T1].
      assert (T : forall ans, forall i e, nth_error (l1 ++ [Event a k true ans]) i = Some e ->
        told (past ++ firstn i (l1 ++ [Event a k true ans])) e).
      { intros ans i e Hi. destruct (nth_firstn_app _ _ _ _ _ Hi) as [[A B]|[j [A [B C]]]].
        - rewrite B. now apply T1.
        - destruct j as [|j]; [|destruct j; discriminate]. injection B as <-. intros F. discriminate. }
      destruct ending as [v|x]; injection E as <- <-; (split; [|apply T]).
      * intros k' v' H. rewrite lookup_store in H. destruct (key_eq (make_key a k) k') eqn:Q.
        -- injection H as <-. exists (Event a k true (Returned v)). split; [|auto].
           apply in_or_app; right. apply in_or_app; right. now left.
        -- rewrite app_assoc. now apply (justified_more _ _ _ J1).
      * rewrite app_assoc. now apply justified_more.
  - injection E as <- <-. split; [now apply justified_more|]. intros [|i] e Hi; [|destruct i; discriminate].
    injection Hi as <-. intros _. left. split; [exact Hh|]. eexists; reflexivity.
Qed.

Lemma sessions_sound : forall l c log, session l empty = (c, log) ->
  forall i e, nth_error log i = Some e -> told (firstn i log) e.
Proof.
  intros l c log E. apply (session_sound l) with (past := []) in E.
  - exact (proj2 E).
  - apply Forall_forall. intros t _. apply exec_sound.
  - intros k v H. discriminate.
Qed.

(** ** What runs is a call that was made *)
Lemma session_in : forall (Q : event -> Prop) l,
  Forall (fun t => forall c c' log, exec t c = (c', log) -> Forall Q log) l ->
  forall c c' log, session l c = (c', log) -> Forall Q log.
Proof.
  intros Q l H; induction H as [|t l Ht Hl IH]; intros c c' log E; cbn in E.
  - injection E as <- <-. constructor.
  - destruct (exec t c) as [c1 e1] eqn:E1. destruct (session l c1) as [c2 e2] eqn:E2. injection E as <- <-.
    apply Forall_app. eauto.
Qed.

Definition of_call (t : call) (e : event) : Prop :=
  exists w, within w t /\ args_of w = eargs e /\ kwds_of w = ekwds e /\ (ran e = true -> gave e = ending_of w).

Lemma exec_of : forall t c c' log, exec t c = (c', log) -> Forall (of_call t) log.
Proof.
  induction t as [a k inner ending IH] using call_all. intros c c' log E. rewrite exec_eq in E.
  set (t := Call a k inner ending) in *.
  assert (S0 : forall b g, (b = true -> g = ending) -> of_call t (Event a k b g)).
  { intros b g H. exists t. split; [constructor|]. auto. }
  destruct (hashes a k).
  - destruct (lookup (make_key a k) c) as [v|].
    + injection E as <- <-. constructor; [apply S0; discriminate | constructor].
    + destruct (session inner c) as [c1 l1] eqn:E1.
      assert (F : Forall (of_call t) l1).
      { apply (session_in (of_call t) inner) with (c := c) (c' := c1); [|exact E1].
        apply Forall_forall. intros u Hu d d' lg Eu. rewrite Forall_forall in IH.
        pose proof (IH u Hu _ _ _ Eu) as Fu. eapply Forall_impl; [|exact Fu].
        intros e [w [W R]]. exists w. split; [|exact R]. now apply within_inner with u. }
      destruct ending as [v|x]; injection E as <- <-; apply Forall_app; (split; [exact F|]);
        constructor; [apply S0; auto | constructor | apply S0; auto | constructor].
  - injection E as <- <-. constructor; [apply S0; discriminate | constructor].
Qed.

Lemma sessions_of : forall l c c' log, session l c = (c', log) ->
  forall e, In e log -> exists t, In t l /\ of_call t e.
Proof.
  intros l c c' log E. apply Forall_forall.
  apply (session_in _ l) with (c := c) (c' := c'); [|exact E].
  apply Forall_forall. intros t Ht d d' lg Et. pose proof (exec_of t d d' lg Et) as F.
  eapply Forall_impl; [|exact F]. intros e He. now exists t.
Qed.

(** ** Only the keys of calls made change *)
Lemma session_frame : forall k l,
  Forall (fun t => forall c c' log, (forall w, within w t -> key_eq (CK w) k = false) ->
     exec t c = (c', log) -> lookup k c' = lookup k c) l ->
  forall c c' log, (forall t w, In t l -> within w t -> key_eq (CK w) k = false) ->
  session l c = (c', log) -> lookup k c' = lookup k c.
Proof.
  intros k l H; induction H as [|t l Ht Hl IH]; intros c c' log N E; cbn in E.
  - now injection E as <- <-.
  - destruct (exec t c) as [c1 e1] eqn:E1. destruct (session l c1) as [c2 e2] eqn:E2. injection E as <- <-.
    rewrite (IH _ _ _ (fun t' w I => N t' w (or_intror I)) E2).
    apply (Ht _ _ _ (fun w => N t w (or_introl eq_refl)) E1).
Qed.

Lemma exec_frame : forall k t c c' log, (forall w, within w t -> key_eq (CK w) k = false) ->
  exec t c = (c', log) -> lookup k c' = lookup k c.
Proof.
  intros k. induction t as [a kw inner ending IH] using call_all. intros c c' log N E. rewrite exec_eq in E.
  destruct (hashes a kw); [|now injection E as <- <-].
  destruct (lookup (make_key a kw) c) as [v|]; [now injection E as <- <-|].
  destruct (session inner c) as [c1 l1] eqn:E1.
  assert (F : lookup k c1 = lookup k c).
  { apply (session_frame k inner IH c c1 l1); [|exact E1].
    intros t w I W. apply N. now apply within_inner with t. }
  destruct ending as [v|x]; injection E as <- <-; [|exact F].
  rewrite lookup_store. pose proof (N _ (within_self _)) as Ns. unfold CK in Ns. cbn in Ns. now rewrite Ns.
Qed.

(** ** The same call gives the same answer *)
Definition knows (past : list event) (c : cache) : Prop :=
  forall e v, In e past -> gave e = Returned v -> hashes (eargs e) (ekwds e) = true /\ lookup (K e) c = Some v.

Definition once_step (past : list event) (c c' : cache) (log : list event) : Prop :=
  knows (past ++ log) c' /\
  (forall k v, lookup k c = Some v -> lookup k c' = Some v) /\
  forall i e e' v, nth_error log i = Some e -> In e' (past ++ firstn i log) -> key_eq (K e') (K e) = true ->
    gave e' = Returned v -> gave e = Returned v /\ ran e = false.

Lemma session_once : forall l,
  Forall (fun t => not_reentrant t -> forall past c c' log, knows past c -> exec t c = (c', log) -> once_step past c c' log) l ->
  (forall t, In t l -> not_reentrant t) ->
  forall past c c' log, knows past c -> session l c = (c', log) -> once_step past c c' log.
Proof.
  intros l H; induction H as [|t l Ht Hl IH]; intros N past c c' log J E; cbn in E.
  - injection E as <- <-. split; [now rewrite app_nil_r|]. split; [auto|]. intros [|i] e e' v Hi; discriminate.
  - destruct (exec t c) as [c1 e1] eqn:E1. destruct (session l c1) as [c2 e2] eqn:E2. injection E as <- <-.
    destruct (Ht (N t (or_introl eq_refl)) _ _ _ _ J E1) as [J1 [M1 T1]].
    destruct (IH (fun t' I => N t' (or_intror I)) _ _ _ _ J1 E2) as [J2 [M2 T2]].
    split; [now rewrite app_assoc|]. split; [auto|]. intros i e e' v Hi Hp.
    destruct (nth_firstn_app _ _ _ _ _ Hi) as [[A B]|[j [A [B C]]]].
    + rewrite B in Hp. now apply T1 with i.
    + rewrite C, app_assoc in Hp. now apply T2 with j.
Qed.

Lemma within_trans : forall a b c, within a b -> within b c -> within a c.
Proof. intros a b c H K. induction K; [exact H | eapply within_inner; eauto]. Qed.

Lemma exec_once : forall t, not_reentrant t -> forall past c c' log, knows past c -> exec t c = (c', log) ->
  once_step past c c' log.
Proof.
  induction t as [a k inner ending IH] using call_all. intros N past c c' log J E. rewrite exec_eq in E.
  destruct (hashes a k) eqn:Hh.
  - destruct (lookup (make_key a k) c) as [v|] eqn:Hl.
    + injection E as <- <-. split; [|split; [auto|]].
      * intros e w Hi G. apply in_app_or in Hi. destruct Hi as [Hi|[<-|[]]]; [now apply J|].
        cbn in G. injection G as <-. split; [exact Hh | exact Hl].
      * intros [|i] e e' w Hi Hp Q G; [|destruct i; discriminate]. injection Hi as <-. cbn in *.
        rewrite app_nil_r in Hp. destruct (J _ _ Hp G) as [_ L]. unfold K in L, Q. cbn in Q.
        rewrite (lookup_eq c _ _ Q) in L. rewrite L in Hl. injection Hl as ->. auto.
    + destruct (session inner c) as [c1 l1] eqn:E1.
      assert (Ni : forall t, In t inner -> not_reentrant t).
      { intros t I u t' w U I' W. apply (N u t' w); auto. now apply within_inner with t. }
      destruct (session_once inner IH Ni _ _ _ _ J E1) as [J1 [M1 T1]].
      assert (F : lookup (make_key a k) c1 = None).
      { rewrite <- Hl. apply (session_frame (make_key a k) inner) with (c := c) (log := l1); [| |exact E1].
        - apply Forall_forall. intros t _. apply exec_frame.
        - intros t w I W. destruct (key_eq (CK w) (make_key a k)) eqn:Q; [|reflexivity]. exfalso.
          apply (N _ t w (within_self _) I W). cbn. apply key_spec. apply key_sym. exact Q. }
      assert (T : forall ans, forall i e e' v, nth_error (l1 ++ [Event a k true ans]) i = Some e ->
        In e' (past ++ firstn i (l1 ++ [Event a k true ans])) -> key_eq (K e') (K e) = true ->
        gave e' = Returned v -> gave e = Returned v /\ ran e = false).
      { intros ans i e e' v Hi Hp Q G. destruct (nth_firstn_app _ _ _ _ _ Hi) as [[A B]|[j [A [B C]]]].
        - rewrite B in Hp. now apply T1 with i e'.
        - destruct j as [|j]; [|destruct j; discriminate]. injection B as <-. exfalso.
          rewrite C in Hp. cbn [firstn] in Hp. rewrite app_nil_r in Hp.
          destruct (J1 _ _ Hp G) as [_ L]. unfold K in Q at 2. cbn in Q.
          rewrite (lookup_eq c1 _ _ Q), F in L. discriminate. }
      destruct ending as [v|x]; injection E as <- <-.
      * assert (M : forall k' w, lookup k' c1 = Some w -> lookup k' (store (make_key a k) v c1) = Some w).
        { intros k' w L. rewrite lookup_store. destruct (key_eq (make_key a k) k') eqn:Q; [|exact L].
          rewrite <- (lookup_eq c1 _ _ Q), F in L. discriminate. }
        split; [|split; [auto | apply T]].
        intros e w Hi G. rewrite app_assoc in Hi. apply in_app_or in Hi. destruct Hi as [Hi|[<-|[]]].
        -- destruct (J1 _ _ Hi G) as [H1 H2]. auto.
        -- cbn in G. injection G as <-. split; [exact Hh|]. unfold K. cbn. now rewrite lookup_store, key_refl.
      * split; [|split; [auto | apply T]].
        intros e w Hi G. rewrite app_assoc in Hi. apply in_app_or in Hi. destruct Hi as [Hi|[<-|[]]]; [|discriminate].
        now apply J1.
  - injection E as <- <-. split; [|split; [auto|]].
    + intros e w Hi G. apply in_app_or in Hi. destruct Hi as [Hi|[<-|[]]]; [now apply J | discriminate].
    + intros [|i] e e' w Hi Hp Q G; [|destruct i; discriminate]. injection Hi as <-. exfalso.
      cbn in Hp. rewrite app_nil_r in Hp. destruct (J _ _ Hp G) as [H _].
      apply (proj1 (key_spec _ _ _ _)) in Q. rewrite (same_hashes _ _ _ _ Q) in H. cbn in H. congruence.
Qed.

Lemma sessions_once : forall l c log, (forall t, In t l -> not_reentrant t) -> session l empty = (c, log) ->
  forall i j e e' v, i < j -> nth_error log i = Some e -> nth_error log j = Some e' -> same_event e e' ->
  gave e = Returned v -> gave e' = Returned v /\ ran e' = false.
Proof.
  intros l c log N E i j e e' v Lt Hi Hj Sm G.
  assert (Z : knows [] empty) by (intros ? ? []).
  destruct (session_once l (proj2 (Forall_forall _ l) (fun t _ => exec_once t)) N [] empty c log Z E) as [_ [_ T]].
  apply (T j e' e v Hj); [|now apply key_spec | exact G].
  cbn. apply nth_error_In with i.
  rewrite <- Hi. rewrite <- (firstn_skipn j log) at 2. symmetry. apply nth_error_app1.
  rewrite firstn_length. assert (j < length log) by (apply nth_error_Some; congruence). lia.
Qed.

Lemma sessions_answers : forall l c log, session l empty = (c, log) ->
  forall i e, nth_error log i = Some e ->
  (exists t, In t l /\ exists w, within w t /\ args_of w = eargs e /\ kwds_of w = ekwds e /\
     (ran e = true -> gave e = ending_of w)) /\
  (ran e = false ->
   (hashes (eargs e) (ekwds e) = false /\ exists x, gave e = Raised x) \/
   exists v e', gave e = Returned v /\ In e' (firstn i log) /\ ran e' = true /\ gave e' = Returned v /\ same_event e' e).
Proof.
  intros l c log E i e Hi. split.
  - apply (sessions_of _ _ _ _ E). now apply nth_error_In with i.
  - intros R. destruct (sessions_sound _ _ _ E _ _ Hi R) as [H|[_ [v [e' [A [B [C [D F]]]]]]]]; [now left|].
    right. exists v, e'. pose proof (proj1 (key_spec _ _ _ _) F). auto 6.
Qed.

Lemma sessions_runs : forall l c log, session l empty = (c, log) ->
  forall i e, nth_error log i = Some e -> hashes (eargs e) (ekwds e) = true ->
  (forall e' v, In e' (firstn i log) -> same_event e' e -> gave e' <> Returned v) -> ran e = true.
Proof.
  intros l c log E i e Hi Hh N. destruct (ran e) eqn:R; [reflexivity|]. exfalso.
  destruct (sessions_sound _ _ _ E _ _ Hi R) as [[H _]|[_ [v [e' [A [B [C [D F]]]]]]]]; [congruence|].
  apply (N e' v B); [now apply key_spec | exact D].
Qed.

Lemma hashes_refused : forall l c c' log, session l c = (c', log) ->
  forall e, In e log -> hashes (eargs e) (ekwds e) = false -> ran e = false /\ exists x, gave e = Raised x.
Proof.
  assert (X : forall t c c' log, exec t c = (c', log) ->
    Forall (fun e => hashes (eargs e) (ekwds e) = false -> ran e = false /\ exists x, gave e = Raised x) log).
  { induction t as [a k inner ending IH] using call_all. intros c c' log E. rewrite exec_eq in E.
    destruct (hashes a k) eqn:Hh.
    - destruct (lookup (make_key a k) c) as [v|].
      + injection E as <- <-. constructor; [cbn; congruence | constructor].
      + destruct (session inner c) as [c1 l1] eqn:E1. pose proof (session_in _ inner IH _ _ _ E1) as F.
        destruct ending as [v|x]; injection E as <- <-; apply Forall_app; (split; [exact F|]);
          (constructor; [cbn; congruence | constructor]).
    - injection E as <- <-. constructor; [|constructor]. intros _. split; [reflexivity|]. eexists; reflexivity. }
  intros l c c' log E.
  apply (proj1 (Forall_forall (fun e => hashes (eargs e) (ekwds e) = false -> ran e = false /\ exists x, gave e = Raised x) log)).
  apply (session_in _ l) with (c := c) (c' := c'); [|exact E].
  apply Forall_forall. intros t _. apply X.
Qed.

(** ** Names *)
Definition named (all : list string) (c : cache) : Prop :=
  forall s v, lookup (Raw (VStr s)) c = Some v -> exists m, v = VObj m /\ nth_error all m = Some s.

Lemma names_log : forall names pre c c' log, named (pre ++ names) c ->
  session (name_calls (length pre) names) c = (c', log) ->
  Forall2 (fun s e => eargs e = [VStr s] /\ ekwds e = [] /\
     exists m, gave e = Returned (VObj m) /\ nth_error (pre ++ names) m = Some s) names log.
Proof.
  induction names as [|s names IH]; intros pre c c' log Hn E.
  - cbn in E. injection E as <- <-. constructor.
  - cbn [name_calls session] in E. rewrite exec_eq in E. cbn [hashes forallb hashable andb make_key fast session] in E.
    assert (P : nth_error (pre ++ s :: names) (length pre) = Some s).
    { rewrite nth_error_app2 by lia. now rewrite Nat.sub_diag. }
    assert (Q : pre ++ s :: names = (pre ++ [s]) ++ names) by now rewrite <- app_assoc.
    assert (Ln : S (length pre) = length (pre ++ [s])) by (rewrite app_length; cbn; lia).
    destruct (lookup (Raw (VStr s)) c) as [v|] eqn:L.
    + rewrite Ln in E. destruct (session (name_calls (length (pre ++ [s])) names) c) as [c2 e2] eqn:E2.
      injection E as <- <-. destruct (Hn _ _ L) as [m [-> Hm]]. constructor.
      * split; [reflexivity|]. split; [reflexivity|]. exists m. auto.
      * rewrite Q in *. now apply IH with c c2.
    + cbn [app] in E. rewrite Ln in E.
      destruct (session (name_calls (length (pre ++ [s])) names) (store (Raw (VStr s)) (VObj (length pre)) c)) as [c2 e2] eqn:E2.
      injection E as <- <-. constructor.
      * split; [reflexivity|]. split; [reflexivity|]. exists (length pre). auto.
      * rewrite Q. apply IH with (store (Raw (VStr s)) (VObj (length pre)) c) c2; [|exact E2]. rewrite <- Q.
        intros s' v H. rewrite lookup_store in H. cbn [key_eq py_eq] in H.
        destruct (String.eqb_spec s s') as [->|].
        -- injection H as <-. exists (length pre). auto.
        -- now apply Hn.
Qed.

Lemma names_flat : forall names n t, In t (name_calls n names) -> not_reentrant t.
Proof.
  induction names as [|s names IH]; intros n t H; [destruct H|]. destruct H as [<-|H]; [|now apply IH with (S n)].
  intros u t' w U I _. exfalso. inversion U; subst; cbn in I; destruct I || (match goal with H : In _ [] |- _ => destruct H end).
Qed.

Lemma names_same : forall names c log, session (name_calls 0 names) empty = (c, log) ->
  length log = length names /\
  forall i j s s' e e', nth_error names i = Some s -> nth_error names j = Some s' ->
  nth_error log i = Some e -> nth_error log j = Some e' -> (gave e = gave e' <-> s = s').
Proof.
  intros names c log E.
  assert (F : Forall2 (fun s e => eargs e = [VStr s] /\ ekwds e = [] /\
     exists m, gave e = Returned (VObj m) /\ nth_error names m = Some s) names log).
  { apply (names_log names [] empty c log); [intros s v H; discriminate | exact E]. }
  assert (G : forall i s e, nth_error names i = Some s -> nth_error log i = Some e ->
    eargs e = [VStr s] /\ ekwds e = [] /\ exists m, gave e = Returned (VObj m) /\ nth_error names m = Some s).
  { set (R := fun s e => eargs e = [VStr s] /\ ekwds e = [] /\
     exists m, gave e = Returned (VObj m) /\ nth_error names m = Some s) in F.
    assert (X : forall l1 l2, Forall2 R l1 l2 -> forall i s e, nth_error l1 i = Some s -> nth_error l2 i = Some e -> R s e).
    { intros l1 l2 H; induction H as [|x y l m Hxy H IHX]; intros [|i] s e A B; cbn in *; try discriminate.
      - injection A as <-. injection B as <-. exact Hxy.
      - now apply IHX with i. }
    apply (X names log F). }
  split.
  { clear G E. induction F as [|x y l m _ F IHF]; cbn; [reflexivity | now rewrite IHF]. }
  intros i j s s' e e' Hs Hs' He He'.
  destruct (G _ _ _ Hs He) as [A [A' [m [Gm Nm]]]]. destruct (G _ _ _ Hs' He') as [B [B' [n [Gn Nn]]]].
  split.
  - intros Q. rewrite Gm, Gn in Q. injection Q as ->. congruence.
  - intros <-. assert (Sm : same_event e e').
    { unfold same_event. rewrite A, A', B, B'. apply key_spec, key_refl. }
    pose proof (sessions_once _ _ _ (names_flat names 0) E) as O.
    destruct (Nat.lt_trichotomy i j) as [Lt|[->|Lt]].
    + destruct (O i j e e' _ Lt He He' Sm Gm) as [X _]. congruence.
    + congruence.
    + assert (Sm' : same_event e' e) by (unfold same_event; rewrite A, A', B, B'; apply key_spec, key_refl).
      destruct (O j i e' e _ Lt He' He Sm' Gn) as [X _]. congruence.
Qed.
