(** [evaluate] runs operations bottom-up and from left to right. *)
From Coq Require Import List ZArith String Bool Arith Lia.
From Verif Require Import TermModel TermSpec TermProofs.
Import ListNotations.
Set Implicit Arguments.

Section Run.
Variable St : Type.
Variable look : op -> op.
Variable app : op -> args -> kwargs -> St -> res (expr * St).
Notation ev := (evaluate look app).
Notation runs := (runs look app).
Notation runs_seq := (runs_seq look app).

Lemma mapm_seq l : (forall e, In e l -> forall s, runs e s (ev e s)) -> forall s, runs_seq l s (mapm ev l s).
Proof.
  induction l as [|e l IH]; intros H s; [constructor|]. cbn [mapm].
  pose proof (H e (or_introl eq_refl) s) as He. destruct (ev e s) as [[e' s1]|x]; [|apply SeqErr1; exact He].
  assert (Hl : runs_seq l s1 (mapm ev l s1)) by (apply IH; intros y Hy; apply H; right; exact Hy).
  destruct (mapm ev l s1) as [[l' s2]|x]; [eapply SeqCons; eassumption|eapply SeqErr2; eassumption].
Qed.

Lemma mapk_mapm (f : expr -> St -> res (expr * St)) k : forall s, mapk f k s =
  match mapm f (map snd k) s with Ok (l, s') => Ok (combine (map fst k) l, s') | Err x => Err x end.
Proof.
  induction k as [|[n e] k IH]; intros s; [reflexivity|]. cbn [mapk mapm map fst snd].
  destruct (f e s) as [[e' s1]|x]; [|reflexivity]. rewrite IH. destruct (mapm f (map snd k) s1) as [[l s2]|x]; reflexivity.
Qed.

Lemma evaluate_runs t : forall s, runs t s (ev t s).
Proof.
  induction t as [z|o|o a k IHa IHk|c l IHl] using expr_ind2; intros s; cbn [evaluate].
  - constructor.
  - constructor.
  - rewrite Forall_forall in IHa, IHk.
    assert (Ha : runs_seq a s (mapm ev a s)) by (apply mapm_seq; intros e He; apply IHa; exact He).
    destruct (mapm ev a s) as [[a' s1]|x]; [|apply RunTermA; exact Ha].
    rewrite mapk_mapm.
    assert (Hk : runs_seq (map snd k) s1 (mapm ev (map snd k) s1)).
    { apply mapm_seq. intros e He. apply in_map_iff in He. destruct He as (x & <- & Hx). apply IHk. exact Hx. }
    destruct (mapm ev (map snd k) s1) as [[k' s2]|x]; [eapply RunTerm; eassumption|eapply RunTermK; eassumption].
  - rewrite Forall_forall in IHl. destruct (walks c) eqn:Ec; [|apply RunOpaque; exact Ec].
    assert (Hl : runs_seq l s (mapm ev l s)) by (apply mapm_seq; intros e He; apply IHl; exact He).
    destruct (mapm ev l s) as [[l' s1]|x]; [apply RunColl; assumption|apply RunCollE; assumption].
Qed.

Lemma runs_seq_det l : (forall e, In e l -> forall s r1 r2, runs e s r1 -> runs e s r2 -> r1 = r2) ->
  forall s r1 r2, runs_seq l s r1 -> runs_seq l s r2 -> r1 = r2.
Proof.
  induction l as [|e l IH]; intros H s r1 r2 H1 H2.
  - inversion H1; subst; inversion H2; subst. reflexivity.
  - assert (He : forall s r1 r2, runs e s r1 -> runs e s r2 -> r1 = r2) by (apply H; left; reflexivity).
    assert (Hl : forall s r1 r2, runs_seq l s r1 -> runs_seq l s r2 -> r1 = r2) by (apply IH; intros y Hy; apply H; right; exact Hy).
    inversion H1 as [|? ? ? e1 s1 l1 s1' A1 B1|? ? ? x1 A1|? ? ? e1 s1 x1 A1 B1]; subst;
    inversion H2 as [|? ? ? e2 s2 l2 s2' A2 B2|? ? ? x2 A2|? ? ? e2 s2 x2 A2 B2]; subst;
    pose proof (He _ _ _ A1 A2) as E; inversion E; subst; try reflexivity;
    pose proof (Hl _ _ _ B1 B2) as E'; inversion E'; subst; reflexivity.
Qed.

Lemma runs_det t : forall s r1 r2, runs t s r1 -> runs t s r2 -> r1 = r2.
Proof.
  induction t as [z|o|o a k IHa IHk|c l IHl] using expr_ind2; intros s r1 r2 H1 H2.
  - inversion H1; subst; inversion H2; subst; reflexivity.
  - inversion H1; subst; inversion H2; subst; reflexivity.
  - rewrite Forall_forall in IHa, IHk.
    assert (Ha : forall s r1 r2, runs_seq a s r1 -> runs_seq a s r2 -> r1 = r2) by (apply runs_seq_det; exact IHa).
    assert (Hk : forall s r1 r2, runs_seq (map snd k) s r1 -> runs_seq (map snd k) s r2 -> r1 = r2).
    { apply runs_seq_det. intros e He. apply in_map_iff in He. destruct He as (x & <- & Hx). apply IHk. exact Hx. }
    inversion H1 as [| |? ? ? ? a1 s1 k1 s1' A1 B1|? ? ? ? x1 A1|? ? ? ? a1 s1 x1 A1 B1| | |]; subst;
    inversion H2 as [| |? ? ? ? a2 s2 k2 s2' A2 B2|? ? ? ? x2 A2|? ? ? ? a2 s2 x2 A2 B2| | |]; subst;
    pose proof (Ha _ _ _ A1 A2) as E; inversion E; subst; try reflexivity;
    pose proof (Hk _ _ _ B1 B2) as E'; inversion E'; subst; reflexivity.
  - rewrite Forall_forall in IHl. pose proof (runs_seq_det IHl) as Hl.
    inversion H1 as [| | | | |? ? ? l1 s1 W1 A1|? ? ? x1 W1 A1|? ? ? W1]; subst;
    inversion H2 as [| | | | |? ? ? l2 s2 W2 A2|? ? ? x2 W2 A2|? ? ? W2]; subst; try congruence;
    pose proof (Hl _ _ _ A1 A2) as E; inversion E; subst; reflexivity.
Qed.

Lemma evaluate_iff t s r : ev t s = r <-> runs t s r.
Proof. split; [intros <-; apply evaluate_runs|intros H; exact (runs_det (evaluate_runs t s) H)]. Qed.
End Run.

Section Log.
Variable look : op -> op.
Variable F : op -> args -> kwargs -> expr.
Definition logged (o : op) (a : args) (k : kwargs) (l : list (op * args * kwargs)) : res (expr * list (op * args * kwargs)) :=
  Ok (F o a k, l ++ [(o, a, k)]).

Lemma evaluate_log t : forall l, evaluate look logged t l = Ok (hom look F t, l ++ calls look F t).
Proof.
  assert (M : forall es, (forall e, In e es -> forall l, evaluate look logged e l = Ok (hom look F e, l ++ calls look F e)) ->
    forall l, mapm (evaluate look logged) es l = Ok (map (hom look F) es, l ++ flat_map (calls look F) es)).
  { induction es as [|e es IH]; intros H l; cbn [mapm map flat_map]; [rewrite app_nil_r; reflexivity|].
    rewrite H by (left; reflexivity). rewrite IH by (intros y Hy; apply H; right; exact Hy). rewrite app_assoc. reflexivity. }
  induction t as [z|o|o a k IHa IHk|c es IHl] using expr_ind2; intros l; cbn [evaluate hom calls].
  - rewrite app_nil_r. reflexivity.
  - rewrite app_nil_r. reflexivity.
  - rewrite Forall_forall in IHa, IHk. rewrite (M a IHa). rewrite mapk_mapm.
    rewrite (M (map snd k)) by (intros e He; apply in_map_iff in He; destruct He as (x & <- & Hx); apply IHk; exact Hx).
    unfold logged. f_equal. f_equal.
    + f_equal. clear. induction k as [|[n e] k IH]; [reflexivity|]. cbn [map fst snd combine]. rewrite IH. reflexivity.
    + rewrite !app_assoc. f_equal.
      * f_equal. clear. induction k as [|[n e] k IH]; [reflexivity|]. cbn [map flat_map snd]. rewrite IH. reflexivity.
      * do 2 f_equal. clear. induction k as [|[n e] k IH]; [reflexivity|]. cbn [map fst snd combine]. rewrite IH. reflexivity.
  - rewrite Forall_forall in IHl. destruct (walks c); [|rewrite app_nil_r; reflexivity]. rewrite (M es IHl). reflexivity.
Qed.
End Log.
