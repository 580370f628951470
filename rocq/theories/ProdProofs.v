From Coq Require Import List Bool Arith ZArith Lia.
Import ListNotations.
From Verif Require Import ProdModel ProdSpec.

Section Proofs.
Variable defs : nat -> fn.
Variable intps : list (nat * intp).
Notation ops := (result_ops intps).
Notation exec := (exec defs intps).
Notation answer := (answer defs intps).

Ltac dm := match goal with
  | H : context [match ?x with _ => _ end] |- _ => first [is_var x; destruct x | destruct x eqn:?]
  end.

Lemma exec_S : forall n t E r, exec n t E = Some r -> exec (S n) t E = Some r.
Proof.
  induction n as [|n IH]; intros t E r H; [discriminate|].
  assert (IHe : forall t E r, exec n t E = Some r -> exec (S n) t E = Some r) by exact IH.
  change (exec (S n) t E = Some r) in H. revert H.
  remember (S n) as n1. rewrite Heqn1 at 1.
  destruct t as [c|o a|c a|o a|p v|p v|p l acc|b a rest acc]; cbn [ProdModel.exec].
  - destruct c as [v|e|o a k|o a k]; auto;
    (destruct (exec n _ E) as [x|] eqn:He; [|discriminate]; rewrite (IHe _ _ _ He); apply IHe).
  - destruct (get E o); [apply IHe|].
    destruct a as [|v a]; [apply IHe|]. destruct v; try apply IHe. destruct (op_dec _ _); apply IHe.
  - destruct c as [f|p f|o|p [[kd b] l]|b|l]; try apply IHe.
    + destruct a; [|auto]. destruct kd; apply IHe.
    + auto.
  - destruct o as [[m|]|p b|p|]; auto.
    + destruct (exec n _ E) as [x|] eqn:He; [rewrite (IHe _ _ _ He); auto|discriminate].
    + destruct a as [|v a]; auto. destruct v; auto.
      destruct (exec n _ E) as [x|] eqn:He; [rewrite (IHe _ _ _ He); auto|discriminate].
  - destruct v; auto.
  - destruct v; auto.
  - destruct l as [|v l]; auto.
    destruct (exec n _ E) as [x|] eqn:He; [rewrite (IHe _ _ _ He)|discriminate]. destruct x; auto.
  - destruct rest as [|[p d] rest]; auto.
    destruct (exec n _ E) as [x|] eqn:He; [rewrite (IHe _ _ _ He)|discriminate].
    destruct x as [v|]; auto. destruct v; auto.
Qed.

Lemma exec_mono : forall n n' t E r, exec n t E = Some r -> n <= n' -> exec n' t E = Some r.
Proof. intros n n' t E r H L. induction L; auto. apply exec_S. auto. Qed.

Lemma exec_det : forall n n' t E r r', exec n t E = Some r -> exec n' t E = Some r' -> r = r'.
Proof.
  intros n n' t E r r' H H'.
  apply (exec_mono _ (n + n')) in H; [|lia]. apply (exec_mono _ (n + n')) in H'; [|lia]. congruence.
Qed.

(** Terminating execution, without the fuel. *)
Definition runs t E r := exists n, exec n t E = Some r.

Lemma runs_det : forall t E r r', runs t E r -> runs t E r' -> r = r'.
Proof. intros t E r r' [n H] [n' H']. eapply exec_det; eauto. Qed.

Ltac step := match goal with |- runs ?t ?E ?r => idtac end.
Lemma runs_ret : forall v E, runs (TComp (Ret v)) E (Ok v). Proof. intros. exists 1. auto. Qed.
Lemma runs_raise : forall e E, runs (TComp (Raise e)) E (Exn e). Proof. intros. exists 1. auto. Qed.
Lemma runs_call : forall o a k E r r', runs (TOp o a) E r -> runs (TComp (k r)) E r' -> runs (TComp (Call o a k)) E r'.
Proof.
  intros o a k E r r' [n H] [n' H']. exists (S (n + n')). cbn [ProdModel.exec].
  rewrite (exec_mono _ (n + n') _ _ _ H) by lia. apply (exec_mono _ _ _ _ _ H'). lia.
Qed.
Lemma runs_op : forall o a E c r, get E o = Some c -> runs (TClo c a) E r -> runs (TOp o a) E r.
Proof. intros o a E c r G [n H]. exists (S n). cbn [ProdModel.exec]. rewrite G. auto. Qed.
Lemma runs_unhandled : forall o a E r, get E o = None -> o <> OBase BApply ->
  runs (TOp (OBase BApply) (VOp o :: a)) E r -> runs (TOp o a) E r.
Proof.
  intros o a E r G N [n H]. exists (S n). cbn [ProdModel.exec]. rewrite G.
  destruct a as [|v a]; auto. destruct v; auto. destruct (op_dec _ _); [contradiction|auto].
Qed.
Lemma runs_apply_default : forall o a E r, get E (OBase BApply) = None ->
  runs (TDefault o a) E r -> runs (TOp (OBase BApply) (VOp o :: a)) E r.
Proof.
  intros o a E r G [n H]. exists (S n). cbn [ProdModel.exec]. rewrite G.
  destruct (op_dec _ _); [auto|contradiction].
Qed.
Lemma runs_tr : forall p f a E r, runs (TComp (f a)) (translation intps p ++ E) r -> runs (TClo (CTr p f) a) E r.
Proof. intros p f a E r [n H]. exists (S n). auto. Qed.
Lemma runs_alias : forall o a E r, runs (TOp o a) E r -> runs (TClo (COp o) a) E r.
Proof. intros o a E r [n H]. exists (S n). auto. Qed.
Lemma runs_default : forall m a E r, runs (TComp (defs m a)) E r -> runs (TDefault (OBase (BOp m)) a) E (caught m a r).
Proof.
  intros m a E r [n H]. exists (S n). cbn [ProdModel.exec]. rewrite H. destruct r as [v|[]]; auto.
Qed.
Lemma runs_default_apply : forall m a E r, runs (TDefault (OBase (BOp m)) a) E r ->
  runs (TDefault (OBase BApply) (VOp (OBase (BOp m)) :: a)) E r.
Proof.
  intros m a E r [n H]. exists (S n). cbn [ProdModel.exec]. rewrite H.
  destruct r as [v|[]]; auto. exfalso.
  destruct n; [discriminate|]. cbn [ProdModel.exec] in H.
  destruct (exec n _ E) as [[?|[]]|]; discriminate.
Qed.
Lemma runs_unpack_nil : forall p acc E, runs (TUnpackAll p [] acc) E (Ok (VTup acc)).
Proof. intros. exists 1. auto. Qed.
Lemma runs_unpack_cons : forall p v l v' acc E r, runs (TUnpack p v) E (Ok v') ->
  runs (TUnpackAll p l (acc ++ [v'])) E r -> runs (TUnpackAll p (v :: l) acc) E r.
Proof.
  intros p v l v' acc E r [n H] [n' H']. exists (S (n + n')). cbn [ProdModel.exec].
  rewrite (exec_mono _ (n + n') _ _ _ H) by lia. apply (exec_mono _ _ _ _ _ H'). lia.
Qed.
Lemma runs_prods_nil : forall b a acc E, runs (TProds b a [] acc) E (Ok (VProd acc)).
Proof. intros. exists 1. auto. Qed.
Lemma runs_prods_cons : forall b a p d rest a' acc E r, runs (TUnpackAll p a []) E (Ok (VTup a')) ->
  runs (TProds b a rest (acc ++ [(p, (kind_of d b, b, a'))])) E r -> runs (TProds b a ((p, d) :: rest) acc) E r.
Proof.
  intros b a p d rest a' acc E r [n H] [n' H']. exists (S (n + n')). cbn [ProdModel.exec].
  rewrite (exec_mono _ (n + n') _ _ _ H) by lia. apply (exec_mono _ _ _ _ _ H'). lia.
Qed.

(** Environments. *)
Lemma get_app : forall E E' o, get (E ++ E') o = match get E o with Some c => Some c | None => get E' o end.
Proof. induction E as [|[x c] E IH]; intros; cbn [get app]; auto. destruct (op_dec x o); auto. Qed.

Lemma get_none : forall E o, (forall x c, In (x, c) E -> x <> o) -> get E o = None.
Proof.
  induction E as [|[x c] E IH]; intros o H; cbn [get]; auto.
  destruct (op_dec x o) as [->|]. { exfalso. eapply H; [left; reflexivity|reflexivity]. }
  apply IH. intros y c' HI. eapply H. right. eauto.
Qed.
Lemma get_in : forall E o c, get E o = Some c -> In (o, c) E.
Proof.
  induction E as [|[x c'] E IH]; intros o c; cbn [get]; [discriminate|].
  destruct (op_dec x o) as [->|]; [intros [= ->]; left; auto | intros H; right; auto].
Qed.

Lemma get_tr_base : forall p b, get (translation intps p) (OBase b) = if in_dec bop_dec b ops then Some (COp (ORen p b)) else None.
Proof.
  intros p b. unfold translation. induction ops as [|x l IH]; [reflexivity|].
  cbn [map get]. destruct (op_dec (OBase x) (OBase b)) as [E|N].
  - injection E as E. subst x. destruct (in_dec bop_dec b (b :: l)) as [Y|Y]; [reflexivity|exfalso; apply Y; left; reflexivity].
  - rewrite IH. destruct (in_dec bop_dec b l), (in_dec bop_dec b (x :: l)) as [I|I]; auto.
    + exfalso. apply I. right. auto.
    + destruct I; [subst; contradiction|contradiction].
Qed.
Lemma get_tr_other : forall p o, (forall b, o <> OBase b) -> get (translation intps p) o = None.
Proof.
  intros p o N. apply get_none. intros x c H. unfold translation in H. apply in_map_iff in H.
  destruct H as (b & [= <- <-] & _). intros E. apply (N b). auto.
Qed.
Lemma get_iso_ren : forall p d b, get (isolated p d) (ORen p b) = option_map (CTr p) (find d b).
Proof.
  intros p d b. unfold isolated. induction d as [|[x f] d IH]; [reflexivity|]. cbn [map get fst snd find].
  destruct (op_dec (ORen p x) (ORen p b)) as [E|N].
  - injection E as ->. destruct (bop_dec b b); [reflexivity|contradiction].
  - destruct (bop_dec x b); [subst; contradiction|]. auto.
Qed.
Lemma get_iso_other : forall p d o, (forall b, o <> ORen p b) -> get (isolated p d) o = None.
Proof.
  intros p d o N. apply get_none. intros x c H. unfold isolated in H. apply in_map_iff in H.
  destruct H as (b & [= <- <-] & _). intros E. apply (N (fst b)). auto.
Qed.
Lemma get_result_prompt : forall l q, get (result_env l) (OPrompt q) = option_map (CThunk q) (assoc l q).
Proof.
  intros l q. unfold result_env. rewrite get_app.
  induction l as [|[x t] l IH]; [reflexivity|]. cbn [map get fst snd assoc].
  destruct (op_dec (OPrompt x) (OPrompt q)) as [E|N].
  - injection E as ->. rewrite Nat.eqb_refl. reflexivity.
  - destruct (Nat.eqb_spec x q); [subst; contradiction|]. cbn [app] in *. auto.
Qed.
Lemma get_result_argsof : forall l, get (result_env l) OArgsOf = Some (CArgsOf l).
Proof.
  intros l. unfold result_env. rewrite get_app, get_none; [reflexivity|].
  intros x c H. apply in_map_iff in H. destruct H as (b & [= <- <-] & _). discriminate.
Qed.
Lemma get_result_base : forall l o, (forall q, o <> OPrompt q) -> o <> OArgsOf -> get (result_env l) o = None.
Proof.
  intros l o N1 N2. apply get_none. intros x c H. unfold result_env in H. apply in_app_or in H. destruct H as [H|H].
  - apply in_map_iff in H. destruct H as (b & [= <- <-] & _). intros E. eapply N1. eauto.
  - destruct H as [[= <- <-]|[]]. auto.
Qed.
Lemma get_product : forall b, get (product_env intps) (OBase b) = if in_dec bop_dec b ops then Some (CProd b) else None.
Proof.
  intros b. unfold product_env. induction ops as [|x l IH]; [reflexivity|].
  cbn [map get]. destruct (op_dec (OBase x) (OBase b)) as [E|N].
  - injection E as E. subst x. destruct (in_dec bop_dec b (b :: l)) as [Y|Y]; [reflexivity|exfalso; apply Y; left; reflexivity].
  - rewrite IH. destruct (in_dec bop_dec b l), (in_dec bop_dec b (x :: l)) as [I|I]; auto.
    + exfalso. apply I. right. auto.
    + destruct I; [subst; contradiction|contradiction].
Qed.

Lemma find_in : forall d b f, find d b = Some f -> In b (map fst d).
Proof.
  induction d as [|[x g] d IH]; intros b f; cbn [find]; [discriminate|].
  destruct (bop_dec x b) as [->|]; intros H; [left; auto|right; eauto].
Qed.
Lemma assoc_in : forall A (l : list (nat * A)) q a, assoc l q = Some a -> In (q, a) l.
Proof.
  induction l as [|[x y] l IH]; intros q a; cbn [assoc]; [discriminate|].
  destruct (Nat.eqb_spec x q) as [->|]; [intros [= ->]; left; auto | right; auto].
Qed.
Lemma find_ops : forall q d b f, assoc intps q = Some d -> find d b = Some f -> In b ops.
Proof.
  intros q d b f A F. apply in_flat_map. exists (q, d). split; [apply assoc_in; auto|]. eapply find_in; eauto.
Qed.

(** The environments in which requests, and code of [q], run. *)
Record base (l : list (nat * thunk)) (E : env) : Prop := {
  b_none : forall b, ~ In b ops -> get E (OBase b) = None;
  b_ren : forall q b c, get E (ORen q b) = Some c ->
      exists d f, assoc intps q = Some d /\ find d b = Some f /\ c = CTr q f;
  b_prompt : forall q, get E (OPrompt q) = option_map (CThunk q) (assoc l q);
  b_argsof : get E OArgsOf = Some (CArgsOf l) }.
Record isol (l : list (nat * thunk)) (q : nat) (E : env) : Prop := {
  i_base : base l E;
  i_ren : forall d b, assoc intps q = Some d -> get E (ORen q b) = option_map (CTr q) (find d b) }.
Record good (l : list (nat * thunk)) (q : nat) (E : env) : Prop := {
  g_isol : isol l q E;
  g_tr : forall b, In b ops -> get E (OBase b) = Some (COp (ORen q b)) }.

Lemma base_result : forall l, base l (result_env l).
Proof.
  intros l. constructor.
  - intros. apply get_result_base; discriminate.
  - intros q b c H. rewrite get_result_base in H; discriminate.
  - apply get_result_prompt.
  - apply get_result_argsof.
Qed.
Lemma isol_push : forall l q E, base l E -> isol l q (isolated_of intps q ++ E).
Proof.
  intros l q E [B1 B2 B3 B4]. unfold isolated_of. destruct (assoc intps q) as [d|] eqn:A.
  - constructor; [constructor|].
    + intros. rewrite get_app, get_iso_other by discriminate. auto.
    + intros q' b c. rewrite get_app. destruct (Nat.eq_dec q' q) as [->|N].
      * rewrite get_iso_ren. destruct (find d b) as [f|] eqn:F; cbn [option_map]; [intros [= <-]; eauto|auto].
      * rewrite get_iso_other by congruence. auto.
    + intros. rewrite get_app, get_iso_other by discriminate. auto.
    + rewrite get_app, get_iso_other by discriminate. auto.
    + intros d' b A'. assert (d' = d) by congruence. subst d'. rewrite get_app, get_iso_ren. destruct (find d b) as [f|] eqn:F; cbn [option_map]; auto.
      destruct (get E (ORen q b)) eqn:G; auto. destruct (B2 _ _ _ G) as (d' & f' & A2 & F' & _). congruence.
  - constructor; [constructor; auto|]. intros; congruence.
Qed.
Lemma good_push : forall l q E, isol l q E -> good l q (translation intps q ++ E).
Proof.
  intros l q E [[B1 B2 B3 B4] I]. constructor; [constructor; [constructor|]|].
  - intros b N. rewrite get_app, get_tr_base. destruct (in_dec _ _ _); [contradiction|auto].
  - intros q' b c. rewrite get_app, get_tr_other by discriminate. auto.
  - intros. rewrite get_app, get_tr_other by discriminate. auto.
  - rewrite get_app, get_tr_other by discriminate. auto.
  - intros. rewrite get_app, get_tr_other by discriminate. auto.
  - intros b HI. rewrite get_app, get_tr_base. destruct (in_dec _ _ _); [auto|contradiction].
Qed.

(** The specification is deterministic. *)
Lemma answer_det : forall t r, answer t r -> forall r', answer t r' -> r = r'.
Proof.
  induction 1; intros r2 HB; inversion HB; subst; try reflexivity; try congruence.
  - assert (X : Ok (VTup vs) = Ok (VTup vs0)) by auto. injection X as <-. auto.
  - assert (X : Ok v = Ok v0) by auto. injection X as <-.
    assert (X : Ok (VTup vs) = Ok (VTup vs0)) by auto. injection X as <-. auto.
  - assert (d0 = d) by congruence. subst. assert (f0 = f) by congruence. subst. auto.
  - assert (d0 = d) by congruence. subst. assert (f0 = f) by congruence. subst. auto.
  - f_equal. auto.
  - assert (X : r = r0) by auto. subst. auto.
  - assert (X : r = r0) by auto. subst. auto.
  - assert (X : Ok (VTup vs) = Ok (VTup vs0)) by auto. injection X as <-. auto.
Qed.

Lemma expr_ind2 (P : expr -> Prop) : (forall z, P (ELit z)) -> (forall m es, Forall P es -> P (EOp m es)) -> forall e, P e.
Proof.
  intros Hl Ho. fix IH 1. intros [z|m es]; [apply Hl|]. apply Ho.
  induction es as [|e es IHe]; constructor; auto.
Qed.

(** *** The main induction, for a relation between values in the product and alone. *)
Section Rel.
Variable vrel : nat -> value -> value -> Prop.
Hypothesis H_int : forall q z, vrel q (VInt z) (VInt z).
Hypothesis H_op : forall q b, vrel q (VOp (OBase b)) (VOp (OBase b)).
Hypothesis H_ren : forall q d m, assoc intps q = Some d -> In (BOp m) ops -> find d (BOp m) = None ->
  find d BApply <> None -> vrel q (VOp (ORen q (BOp m))) (VOp (OBase (BOp m))).
Hypothesis H_term : forall q b a a', Forall2 (vrel q) a a' -> vrel q (VTerm (OBase b) a) (VTerm (OBase b) a').

Definition orel q (r r' : outcome) : Prop :=
  match r, r' with Ok v, Ok v' => vrel q v v' | Exn e, Exn e' => e = e' | _, _ => False end.

Inductive wb (q : nat) : comp -> comp -> Prop :=
| wb_ret : forall v v', vrel q v v' -> wb q (Ret v) (Ret v')
| wb_raise : forall e, wb q (Raise e) (Raise e)
| wb_call : forall m o a a' k k', supported intps q m ->
    (o = OBase (BOp m) \/ (o = ORen q (BOp m) /\ In (BOp m) ops)) ->
    Forall2 (vrel q) a a' -> (forall r r', orel q r r' -> wb q (k r) (k' r')) ->
    wb q (Call o a k) (Call (OBase (BOp m)) a' k')
| wb_prompt : forall q' k k', (forall r r', orel q' r r' -> wb q (k r) (k' r')) ->
    wb q (Call (OPrompt q') [] k) (Call (OPrompt q') [] k')
| wb_args : forall q' k k', ~ In BApply ops ->
    (forall l l', Forall2 (vrel q') l l' -> wb q (k (Ok (VTup [VTup l; VTup []]))) (k' (Ok (VTup [VTup l'; VTup []])))) ->
    wb q (Call OArgsOf [VOp (OPrompt q')] k) (Call OArgsOf [VOp (OPrompt q')] k').

Hypothesis H_fn : forall q d b f a a', assoc intps q = Some d -> find d b = Some f ->
  Forall2 (vrel q) a a' -> wb q (f a) (f a').
Hypothesis H_def : forall q d m a a', assoc intps q = Some d -> find d (BOp m) = None -> find d BApply = None ->
  Forall2 (vrel q) a a' -> wb q (defs m a) (defs m a').

(** Suspended calls for the node [m es]. *)
Definition thunk_for (m : nat) (q : nat) (d : intp) (l : list value) (t : thunk) : Prop :=
  (In (BOp m) ops /\ t = (kind_of d (BOp m), BOp m, l)) \/
  (~ In (BOp m) ops /\ In BApply ops /\ t = (kind_of d BApply, BApply, VOp (OBase (BOp m)) :: l)).
Definition table (m : nat) (es : list expr) (ts : list (nat * thunk)) : Prop :=
  forall q d, assoc intps q = Some d ->
    exists t l l', assoc ts q = Some t /\ thunk_for m q d l t /\
      Forall2 (vrel q) l l' /\ answer (SArgs q es) (Ok (VTup l')).

Lemma orel_caught : forall q m a a' r r', Forall2 (vrel q) a a' -> orel q r r' -> orel q (caught m a r) (caught m a' r').
Proof.
  intros q m a a' r r' F H. destruct r as [v|e], r' as [v'|e']; cbn in *; try tauto; auto.
  subst. destruct e'; cbn; auto.
Qed.

Lemma node_lemma : forall m es ts, table m es ts ->
  forall t r, answer t r ->
  match t with
  | SRun q m0 es0 c' => m0 = m -> es0 = es -> forall c E, wb q c c' -> good ts q E ->
      exists r', runs (TComp c) E r' /\ orel q r' r
  | SNode q m0 es0 m' vs' => m0 = m -> es0 = es -> forall vs,  Forall2 (vrel q) vs vs' ->
      (forall d f E, assoc intps q = Some d -> find d (BOp m') = Some f -> isol ts q E ->
         exists r', runs (TOp (ORen q (BOp m')) vs) E r' /\ orel q r' r) /\
      (forall d f E v, assoc intps q = Some d -> find d (BOp m') = None -> find d BApply = Some f -> isol ts q E ->
         vrel q v (VOp (OBase (BOp m'))) ->
         exists r', runs (TOp (ORen q BApply) (v :: vs)) E r' /\ orel q r' r) /\
      (forall d E, assoc intps q = Some d -> find d (BOp m') = None -> find d BApply = None -> good ts q E ->
         exists r', runs (TDefault (OBase (BOp m')) vs) E r' /\ orel q r' r)
  | SExpr q e => e = EOp m es -> forall E, base ts E -> exists r', runs (TOp (OPrompt q) []) E r' /\ orel q r' r
  | SArgs _ _ => True
  end.
Proof.
  intros m es ts T t r H. induction H; auto.
  - (* literal *) intros; discriminate.
  - (* node *) intros [= -> ->] E B. specialize (IHanswer2 eq_refl eq_refl).
    assert (exists d, assoc intps q = Some d) as [d D] by (inversion H0; eauto).
    destruct (T _ _ D) as (t & l & l' & At & Tf & F & AA).
    assert (X : Ok (VTup vs) = Ok (VTup l')) by (eapply answer_det; eauto). injection X as ->.
    specialize (IHanswer2 l F). destruct IHanswer2 as (I1 & I2 & I3).
    pose proof (b_prompt _ _ B q) as G. rewrite At in G. cbn [option_map] in G.
    pose proof (isol_push _ q _ B) as Is.
    assert (exists r', runs (TClo (CThunk q t) []) E r' /\ orel q r' r) as (r' & R & O).
    { destruct Tf as [[HI ->]|(HI & HA & ->)]; unfold kind_of.
      - destruct (find d (BOp m)) as [f|] eqn:F1; [|destruct (find d BApply) as [f|] eqn:F2].
        + destruct (I1 _ _ _ D F1 Is) as (r' & [n R] & O). exists r'. split; auto. exists (S n). auto.
        + destruct (I2 _ _ _ (VOp (ORen q (BOp m))) D F1 F2 Is) as (r' & [n R] & O).
          * eapply H_ren; eauto. congruence.
          * exists r'. split; auto. exists (S n). auto.
        + destruct (I3 _ _ D F1 F2 (good_push _ _ _ Is)) as (r' & [n R] & O). exists r'. split; auto. exists (S n). auto.
      - assert (F1 : find d (BOp m) = None).
        { destruct (find d (BOp m)) eqn:F1; auto. destruct HI. eapply find_ops; eauto. }
        destruct (find d BApply) as [f|] eqn:F2.
        + destruct (I2 _ _ _ (VOp (OBase (BOp m))) D F1 F2 Is) as (r' & [n R] & O); [apply H_op|].
          exists r'. split; auto. exists (S n). auto.
        + destruct (I3 _ _ D F1 F2 (good_push _ _ _ Is)) as (r' & R & O). exists r'. split; auto.
          apply runs_default_apply in R. destruct R as [n R]. exists (S n). auto. }
    exists r'. split; auto. eapply runs_op; eauto.
  - (* handled *) intros -> -> vs0 F. specialize (IHanswer eq_refl eq_refl). split; [|split].
    + intros d' f' E D F1 Is. assert (d' = d) by congruence. subst. assert (f' = f) by congruence. subst.
      destruct (IHanswer (f vs0) (translation intps q ++ E)) as (r' & R & O).
      * eapply H_fn; eauto.
      * apply good_push. auto.
      * exists r'. split; auto. eapply runs_op; [rewrite (i_ren _ _ _ Is _ _ D), F1; reflexivity|]. apply runs_tr. auto.
    + intros. congruence.
    + intros. congruence.
  - (* apply *) intros -> -> vs0 F. specialize (IHanswer eq_refl eq_refl). split; [|split].
    + intros. congruence.
    + intros d' f' E v D F1 F2 Is V. assert (d' = d) by congruence. subst. assert (f' = f) by congruence. subst.
      destruct (IHanswer (f (v :: vs0)) (translation intps q ++ E)) as (r' & R & O).
      * eapply H_fn; eauto.
      * apply good_push. auto.
      * exists r'. split; auto. eapply runs_op; [rewrite (i_ren _ _ _ Is _ _ D), F2; reflexivity|]. apply runs_tr. auto.
    + intros. congruence.
  - (* default *) intros -> -> vs0 F. specialize (IHanswer eq_refl eq_refl). split; [|split]; try (intros; congruence).
    intros d' E D F1 F2 G. assert (d' = d) by congruence. subst.
    destruct (IHanswer (defs m' vs0) E) as (r' & R & O); auto.
    { eapply H_def; eauto. }
    exists (caught m' vs0 r'). split; [apply runs_default; auto|]. apply orel_caught; auto.
  - intros -> -> c E W G. inversion W; subst. exists (Ok v0). split; auto. apply runs_ret.
  - intros -> -> c E W G. inversion W; subst. exists (Exn e). split; cbn; auto. apply runs_raise.
  - (* call *) intros -> -> c E W G. inversion W as [| |m1 o a a' k1 k1' Su Ho Fa Hk| |]; subst.
    specialize (IHanswer1 eq_refl eq_refl a Fa). destruct IHanswer1 as (I1 & I2 & I3).
    assert (Is : isol ts q E) by apply G. assert (B : base ts E) by apply Is.
    assert (exists r1, runs (TOp o a) E r1 /\ orel q r1 r) as (r1 & R1 & O1).
    { destruct Su as (d & D & Su).
      (* calls of the copy, when it is handled or there is an apply handler *)
      assert (Cp : In (BOp m') ops -> find d (BOp m') <> None \/ find d BApply <> None -> exists r1, runs (TOp (ORen q (BOp m')) a) E r1 /\ orel q r1 r).
      { intros HI Hs. destruct (find d (BOp m')) as [f|] eqn:F1.
        - exact (I1 _ _ _ D F1 Is).
        - destruct (find d BApply) as [f|] eqn:F2; [|tauto].
          assert (HA : In BApply ops) by (eapply find_ops; eauto).
          destruct (I2 _ _ _ (VOp (ORen q (BOp m'))) D F1 F2 Is) as (r1 & R1 & O1).
          { eapply H_ren; eauto. congruence. }
          exists r1. split; auto. apply runs_unhandled; [rewrite (i_ren _ _ _ Is _ _ D), F1; reflexivity|discriminate|].
          eapply runs_op; [apply (g_tr _ _ _ G); auto|]. apply runs_alias. auto. }
      destruct Ho as [->|[-> HA]].
      - destruct (in_dec bop_dec (BOp m') ops) as [HI|HI].
        + destruct Cp as (r1 & R1 & O1); [auto|tauto|]. exists r1. split; auto.
          eapply runs_op; [apply (g_tr _ _ _ G); auto|]. apply runs_alias. auto.
        + assert (F1 : find d (BOp m') = None).
          { destruct (find d (BOp m')) eqn:F1; auto. destruct HI. eapply find_ops; eauto. }
          destruct (find d BApply) as [f|] eqn:F2.
          * assert (HA : In BApply ops) by (eapply find_ops; eauto).
            destruct (I2 _ _ _ (VOp (OBase (BOp m'))) D F1 F2 Is (H_op _ _)) as (r1 & R1 & O1).
            exists r1. split; auto. apply runs_unhandled; [apply (b_none _ _ B); auto|discriminate|].
            eapply runs_op; [apply (g_tr _ _ _ G); auto|]. apply runs_alias. auto.
          * destruct Su as [Su|[Su|[_ HA]]]; try congruence.
            destruct (I3 _ _ D F1 F2 G) as (r1 & R1 & O1). exists r1. split; auto.
            apply runs_unhandled; [apply (b_none _ _ B); auto|discriminate|].
            apply runs_apply_default; [apply (b_none _ _ B); auto|]. auto.
      - apply Cp; tauto. }
    destruct (IHanswer2 eq_refl eq_refl (k1 r1) E (Hk _ _ O1) G) as (r2 & R2 & O2).
    exists r2. split; auto. eapply runs_call; eauto.
  - (* prompt *) intros -> -> c E W G. inversion W as [| | |q1 k1 k1' Hk|]; subst.
    assert (B : base ts E) by apply G.
    destruct (IHanswer1 eq_refl E B) as (r1 & R1 & O1).
    destruct (IHanswer2 eq_refl eq_refl (k1 r1) E (Hk _ _ O1) G) as (r2 & R2 & O2).
    exists r2. split; auto. eapply runs_call; eauto.
  - (* argsof *) intros -> -> c E W G. inversion W as [| | | |q1 k1 k1' NA Hk]; subst.
    assert (B : base ts E) by apply G.
    rename H into D'.
    destruct (T _ _ D') as (t & l & l' & At & Tf & F & AA).
    assert (X : Ok (VTup vs) = Ok (VTup l')) by (eapply answer_det; eauto). injection X as ->.
    destruct Tf as [[HI ->]|(_ & HA & _)]; [|contradiction].
    assert (Fn : find d' BApply = None).
    { destruct (find d' BApply) eqn:F2; auto. destruct NA. eapply find_ops; eauto. }
    destruct (IHanswer2 eq_refl eq_refl _ E (Hk _ _ F) G) as (r2 & R2 & O2).
    exists r2. split; auto. eapply runs_call; [|exact R2].
    eapply runs_op; [apply (b_argsof _ _ B)|]. exists 1. cbn [ProdModel.exec].
    rewrite At. unfold kind_of. rewrite Fn. destruct (find d' (BOp m)); reflexivity.
Qed.

Lemma eval_mono : forall n n' E e r, eval defs intps n E e = Some r -> n <= n' -> eval defs intps n' E e = Some r.
Proof.
  intros n n' E e. induction e as [z|m es IH] using expr_ind2; intros r H L; [exact H|].
  cbn [eval] in *.
  assert (X : forall es r, Forall (fun e => forall r, eval defs intps n E e = Some r -> n <= n' -> eval defs intps n' E e = Some r) es ->
    (fix all es := match es with
                           | [] => Some (Ok (VTup []))
                           | e :: es' => match eval defs intps n E e with
                                         | Some (Ok v) => match all es' with Some (Ok (VTup vs)) => Some (Ok (VTup (v :: vs))) | r => r end
                                         | r => r
                                         end
                           end) es = Some r ->
    (fix all es := match es with
                           | [] => Some (Ok (VTup []))
                           | e :: es' => match eval defs intps n' E e with
                                         | Some (Ok v) => match all es' with Some (Ok (VTup vs)) => Some (Ok (VTup (v :: vs))) | r => r end
                                         | r => r
                                         end
                           end) es = Some r).
  { clear H IH es r. induction es as [|e es IHe]; intros r F H; [exact H|]. inversion F as [|? ? F1 F2]; subst.
    destruct (eval defs intps n E e) as [r1|] eqn:E1; [|discriminate]. rewrite (F1 _ eq_refl L).
    destruct r1 as [v|]; [|exact H].
    match type of H with match ?x with _ => _ end = _ => destruct x as [r2|] eqn:E2; [|discriminate] end.
    rewrite (IHe _ F2 eq_refl). exact H. }
  match type of H with match ?x with _ => _ end = _ => destruct x as [r2|] eqn:E2; [|discriminate] end.
  rewrite (X _ _ IH E2). destruct r2 as [[]|]; auto. eapply exec_mono; eauto.
Qed.

Lemma eval_op : forall n E m es vs, Forall2 (fun e v => eval defs intps n E e = Some (Ok v)) es vs ->
  eval defs intps n E (EOp m es) = exec n (TOp (OBase (BOp m)) vs) E.
Proof.
  intros n E m es vs F. cbn [eval].
  match goal with |- match ?x with _ => _ end = _ => assert (X : x = Some (Ok (VTup vs))) end.
  { induction F as [|e v es vs H F IH]; [reflexivity|]. rewrite H, IH. reflexivity. }
  rewrite X. reflexivity.
Qed.

Definition valued (e : expr) (v : value) : Prop :=
  (exists n, eval defs intps n (product_env intps) e = Some (Ok v)) /\
  forall q r E, answer (SExpr q e) r -> exists r', runs (TUnpack q v) E r' /\ orel q r' r.

Lemma unpack_args : forall q es vs w acc E, Forall2 valued es vs -> answer (SArgs q es) (Ok (VTup w)) ->
  exists l, runs (TUnpackAll q vs acc) E (Ok (VTup (acc ++ l))) /\ Forall2 (vrel q) l w.
Proof.
  intros q es vs w acc E F. revert w acc. induction F as [|e v es vs [_ V] F IH]; intros w acc A; inversion A as [| | |? ? ? ? ? A1 A2| | | | | | | |]; subst.
  - exists []. rewrite app_nil_r. split; [apply runs_unpack_nil|constructor].
  - destruct (V _ _ E A1) as (r' & R & O). destruct r' as [v1|]; [|contradiction].
    destruct (IH _ (acc ++ [v1]) A2) as (l & R2 & F2). exists (v1 :: l). split; [|constructor; auto].
    eapply runs_unpack_cons; eauto. rewrite <- app_assoc in R2. exact R2.
Qed.

Lemma inside_args : forall es,
  (fix all es := match es with
                 | [] => True
                 | e :: es' => (inside_ok defs intps e /\ forall q d, assoc intps q = Some d -> exists v, answer (SExpr q e) (Ok v)) /\ all es'
                 end) es ->
  Forall (inside_ok defs intps) es /\ forall q d, assoc intps q = Some d -> exists w, answer (SArgs q es) (Ok (VTup w)).
Proof.
  induction es as [|e es IH]; intros H.
  - split; [constructor|]. intros. exists []. constructor.
  - destruct H as [[H1 H2] H3]. destruct (IH H3) as [I1 I2]. split; [constructor; auto|].
    intros q d D. destruct (H2 _ _ D) as [v V]. destruct (I2 _ _ D) as [w W]. exists (v :: w). constructor; auto.
Qed.

Lemma prods_run : forall b vs E rest acc,
  (forall p d, In (p, d) rest -> exists l, runs (TUnpackAll p vs []) E (Ok (VTup l))) ->
  exists ts, runs (TProds b vs rest acc) E (Ok (VProd (acc ++ ts))) /\
    forall q d, assoc rest q = Some d -> exists l, assoc ts q = Some (kind_of d b, b, l) /\ runs (TUnpackAll q vs []) E (Ok (VTup l)).
Proof.
  induction rest as [|[p d] rest IH]; intros acc H.
  - exists []. rewrite app_nil_r. split; [apply runs_prods_nil|]. intros; discriminate.
  - destruct (H p d) as [l R]; [left; auto|].
    destruct (IH (acc ++ [(p, (kind_of d b, b, l))])) as (ts & R2 & A2). { intros. eapply H. right. eauto. }
    exists ((p, (kind_of d b, b, l)) :: ts). split.
    + eapply runs_prods_cons; eauto. rewrite <- app_assoc in R2. exact R2.
    + intros q d' D. cbn [assoc] in *. destruct (Nat.eqb_spec p q) as [->|]; auto.
      injection D as <-. exists l. split; auto.
Qed.

Lemma in_assoc : forall A (l : list (nat * A)) q a, In (q, a) l -> exists a', assoc l q = Some a'.
Proof.
  induction l as [|[x y] l IH]; intros q a; [intros []|]. cbn [assoc].
  intros [[= -> ->]|H]; [rewrite Nat.eqb_refl; eauto|]. destruct (Nat.eqb x q); eauto.
Qed.

Lemma expr_lemma : forall e, covered intps e -> inside_ok defs intps e ->
  exists v, valued e v /\ match e with EOp _ _ => exists ts, v = VProd ts | ELit _ => True end.
Proof.
  intros e. induction e as [z|m es IH] using expr_ind2; intros C I.
  - exists (VInt z). split; auto. split; [exists 0; reflexivity|]. intros q r E A. inversion A; subst.
    exists (Ok (VInt z)). split; [exists 1; reflexivity|apply H_int].
  - cbn [covered] in C. destruct C as [Cm Ce]. cbn [inside_ok] in I. destruct (inside_args _ I) as [I1 I2].
    assert (exists vs, Forall2 valued es vs) as [vs Vs].
    { clear I I2 Cm. induction es as [|e es IHe]; [exists []; constructor|].
      inversion IH as [|? ? X1 X2]; subst. inversion I1 as [|? ? Y1 Y2]; subst. destruct Ce as [Z1 Z2].
      destruct (X1 Z1 Y1) as (v & V & _). destruct (IHe X2 Z2 Y2) as [vs Vs]. exists (v :: vs). constructor; auto. }
    assert (exists n, Forall2 (fun e v => eval defs intps n (product_env intps) e = Some (Ok v)) es vs) as [n Hn].
    { clear - Vs. induction Vs as [|e v es vs [[n H] _] F [n' IH]]; [exists 0; constructor|].
      exists (n + n'). constructor; [eapply eval_mono; eauto; lia|].
      clear - IH. induction IH; constructor; auto. eapply eval_mono; eauto. lia. }
    assert (exists ts, runs (TOp (OBase (BOp m)) vs) (product_env intps) (Ok (VProd ts)) /\ table m es ts) as (ts & R & T).
    { destruct (in_dec bop_dec (BOp m) ops) as [HI|HI].
      - destruct (prods_run (BOp m) vs (product_env intps) intps []) as (ts & R & A).
        { intros p d HP. destruct (in_assoc _ _ _ _ HP) as [d' D']. destruct (I2 _ _ D') as [w W].
          destruct (unpack_args _ _ _ _ [] (product_env intps) Vs W) as (l & R & _). eauto. }
        exists ts. split.
        + eapply runs_op; [rewrite get_product; destruct (in_dec _ _ _); [reflexivity|contradiction]|].
          destruct R as [k R]. exists (S k). exact R.
        + intros q d D. destruct (A _ _ D) as (l & At & Rl). destruct (I2 _ _ D) as [w W].
          destruct (unpack_args _ _ _ _ [] (product_env intps) Vs W) as (l' & Rl' & Fl').
          assert (X : Ok (VTup l) = Ok (VTup ([] ++ l'))) by (eapply runs_det; eauto). injection X as ->.
          eexists _, _, _. split; [exact At|]. split; [left; split; auto|]. split; eauto.
      - destruct Cm as [Cm|HA]; [contradiction|].
        destruct (prods_run BApply (VOp (OBase (BOp m)) :: vs) (product_env intps) intps []) as (ts & R & A).
        { intros p d HP. destruct (in_assoc _ _ _ _ HP) as [d' D']. destruct (I2 _ _ D') as [w W].
          destruct (unpack_args _ _ _ _ ([] ++ [VOp (OBase (BOp m))]) (product_env intps) Vs W) as (l & R & _).
          eexists. eapply runs_unpack_cons; [exists 1; reflexivity|exact R]. }
        exists ts. split.
        + apply runs_unhandled; [rewrite get_product; destruct (in_dec _ _ _); [contradiction|reflexivity]|discriminate|].
          eapply runs_op; [rewrite get_product; destruct (in_dec _ _ _); [reflexivity|contradiction]|].
          destruct R as [k R]. exists (S k). exact R.
        + intros q d D. destruct (A _ _ D) as (l & At & Rl). destruct (I2 _ _ D) as [w W].
          destruct (unpack_args _ _ _ _ ([] ++ [VOp (OBase (BOp m))]) (product_env intps) Vs W) as (l' & Rl' & Fl').
          assert (X : Ok (VTup l) = Ok (VTup (([] ++ [VOp (OBase (BOp m))]) ++ l'))).
          { eapply runs_det; [exact Rl|]. eapply runs_unpack_cons; [exists 1; reflexivity|exact Rl']. }
          injection X as ->.
          eexists _, _, _. split; [exact At|]. split; [right; split; [|split]; auto; reflexivity|]. split; eauto. }
    exists (VProd ts). split; [|eauto]. split.
    + destruct R as [k R]. exists (n + k).
      rewrite (eval_op _ _ _ _ vs); [eapply exec_mono; eauto; lia|].
      clear - Hn. induction Hn; constructor; auto. eapply eval_mono; eauto. lia.
    + intros q r E A. destruct (node_lemma m es ts T _ _ A eq_refl (result_env ts) (base_result ts)) as (r' & [k Rk] & O).
      exists r'. split; auto. exists (S (S k)). exact Rk.
Qed.

Lemma project_lemma : forall m es p r, covered intps (EOp m es) -> inside_ok defs intps (EOp m es) ->
  answer (SExpr p (EOp m es)) r ->
  exists r', (exists n, project defs intps n p (EOp m es) = Some r') /\ orel p r' r.
Proof.
  intros m es p r C I A. destruct (expr_lemma _ C I) as (v & [[n Hn] V] & ts & ->).
  destruct (V p r [] A) as (r' & [k Rk] & O). exists r'. split; auto. exists (n + k).
  unfold project, project_in. rewrite app_nil_r. rewrite (eval_mono _ (n + k) _ _ _ Hn) by lia.
  destruct k; [discriminate|]. cbn [ProdModel.exec] in Rk. eapply exec_mono; eauto. lia.
Qed.
End Rel.

Lemma project_det : forall n n' p e r r', project defs intps n p e = Some r -> project defs intps n' p e = Some r' -> r = r'.
Proof.
  unfold project, project_in. intros n n' p e r r' H H'. rewrite app_nil_r in *.
  destruct (eval defs intps n (product_env intps) e) as [x|] eqn:E1; [|discriminate].
  destruct (eval defs intps n' (product_env intps) e) as [x'|] eqn:E2; [|discriminate].
  assert (x = x') as <-.
  { apply (eval_mono _ (n + n')) in E1; [|lia]. apply (eval_mono _ (n + n')) in E2; [|lia]. congruence. }
  destruct x; [eapply exec_det; eauto|congruence].
Qed.

(** *** Instances *)
Lemma f2_eq : forall A (l l' : list A), Forall2 eq l l' -> l = l'.
Proof. induction 1; congruence. Qed.
Lemma orel_eq : forall q r r', orel (fun _ => eq) q r r' -> r = r'.
Proof. intros q [|] [|]; cbn; try tauto; congruence. Qed.
Lemma tame_wb : forall q c, tame intps q c -> wb (fun _ => eq) q c c.
Proof.
  induction 1.
  - constructor; auto.
  - constructor.
  - constructor; auto. + clear. induction a; constructor; auto. + intros r r' O. apply orel_eq in O. subst. auto.
  - constructor. intros r r' O. apply orel_eq in O. subst. auto.
  - constructor; auto. intros l l' F. apply f2_eq in F. subst. auto.
Qed.

Theorem projection_prompts : all_tame defs intps -> no_copies intps ->
  forall m es p r, covered intps (EOp m es) -> inside_ok defs intps (EOp m es) ->
  answer (SExpr p (EOp m es)) r ->
  (exists n, project defs intps n p (EOp m es) = Some r) /\
  forall n r', project defs intps n p (EOp m es) = Some r' -> r' = r.
Proof.
  intros HT NC m es p r C I A.
  assert (exists n, project defs intps n p (EOp m es) = Some r) as [n Hn].
  { destruct (project_lemma (fun _ => eq)) with (m := m) (es := es) (p := p) (r := r) as (r' & X & O); auto.
    - intros q d m' D HI F FA. destruct FA. eapply NC; eauto.
    - intros q b a a' F. apply f2_eq in F. subst. auto.
    - intros q d b f a a' D F FF. apply f2_eq in FF. subst. apply tame_wb. eapply HT; eauto.
    - intros q d m' a a' D F FA FF. apply f2_eq in FF. subst. apply tame_wb. eapply HT; eauto.
    - apply orel_eq in O. subst. auto. }
  split; [eauto|]. intros n' r' H'. eapply project_det; eauto.
Qed.

Lemma same_outcome_orel : forall q r r', orel (same) q r r' <-> same_outcome q r r'.
Proof. intros q [|] [|]; cbn; tauto. Qed.
Lemma alike_wb : forall q c c', alike intps q c c' -> wb same q c c'.
Proof.
  induction 1.
  - constructor; auto.
  - constructor.
  - econstructor; eauto.
  - constructor. intros r r' O. apply H0. apply same_outcome_orel. auto.
Qed.

Theorem projection_apply : all_alike defs intps ->
  forall m es p r, covered intps (EOp m es) -> inside_ok defs intps (EOp m es) ->
  answer (SExpr p (EOp m es)) r ->
  exists r', same_outcome p r' r /\ (exists n, project defs intps n p (EOp m es) = Some r') /\
  forall n r'', project defs intps n p (EOp m es) = Some r'' -> r'' = r'.
Proof.
  intros HT m es p r C I A.
  destruct (project_lemma same) with (m := m) (es := es) (p := p) (r := r) as (r' & [n Hn] & O); auto.
  - constructor.
  - constructor. constructor.
  - constructor. constructor.
  - constructor; auto. constructor.
  - intros q d b f a a' D F FF. apply alike_wb. eapply HT; eauto.
  - intros q d m' a a' D F FA FF. apply alike_wb. eapply HT; eauto.
  - exists r'. split; [apply same_outcome_orel; auto|]. split; [eauto|]. intros n' r'' H'. eapply project_det; eauto.
Qed.

(** A component without requests, by itself. *)
Lemma get_single : forall d b, get (single_env d) (OBase b) = option_map CFn (find d b).
Proof.
  intros d b. unfold single_env. induction d as [|[x f] d IH]; [reflexivity|]. cbn [map get fst snd find].
  destruct (op_dec (OBase x) (OBase b)) as [E|N].
  - injection E as ->. destruct (bop_dec b b); [reflexivity|contradiction].
  - destruct (bop_dec x b); [subst; contradiction|]. auto.
Qed.

Lemma alone_run : all_no_prompts defs intps -> forall q d, assoc intps q = Some d -> forall m es n,
  (forall c r, exec n (TComp c) (single_env d) = Some r -> no_prompts c -> answer (SRun q m es c) r) /\
  (forall m' vs r, exec n (TOp (OBase (BOp m')) vs) (single_env d) = Some r -> answer (SNode q m es m' vs) r).
Proof.
  intros [NH ND] q d D m es n. induction n as [n IH] using lt_wf_ind. destruct n as [|n]; [split; discriminate|].
  split.
  - intros c r H N. cbn [ProdModel.exec] in H. destruct N as [v|e|m' a k N].
    + injection H as <-. constructor.
    + injection H as <-. constructor.
    + destruct (exec n _ _) as [r1|] eqn:E1; [|discriminate].
      destruct (IH n) as [I1 I2]; [lia|]. econstructor; eauto.
  - intros m' vs r H. cbn [ProdModel.exec] in H. rewrite get_single in H.
    destruct (find d (BOp m')) as [f|] eqn:F1; cbn [option_map] in H.
    + destruct n as [|n]; [discriminate|]. cbn [ProdModel.exec] in H.
      eapply A_handled; eauto. eapply (IH n); [lia|eauto|]. eapply NH; eauto.
    + assert (X : exec n (TOp (OBase BApply) (VOp (OBase (BOp m')) :: vs)) (single_env d) = Some r).
      { destruct vs as [|v vs]; auto. destruct v; auto. }
      clear H. destruct n as [|n]; [discriminate|]. cbn [ProdModel.exec] in X. rewrite get_single in X.
      destruct (find d BApply) as [f|] eqn:F2; cbn [option_map] in X.
      * destruct n as [|n]; [discriminate|]. cbn [ProdModel.exec] in X.
        eapply A_apply; eauto. eapply (IH n); [lia|eauto|]. eapply NH; eauto.
      * destruct (op_dec (OBase BApply) (OBase BApply)) as [_|N]; [|contradiction].
        destruct n as [|n]; [discriminate|]. cbn [ProdModel.exec] in X.
        destruct (exec n _ _) as [r1|] eqn:E1; [|discriminate].
        assert (r = caught m' vs r1) as ->. { destruct r1 as [|[]]; injection X as <-; reflexivity. }
        eapply A_default; eauto. eapply (IH n); [lia|eauto|]. apply ND.
Qed.

Lemma eval_args_inv : forall n E m es r, eval defs intps n E (EOp m es) = Some r ->
  (exists vs, Forall2 (fun e v => eval defs intps n E e = Some (Ok v)) es vs /\ exec n (TOp (OBase (BOp m)) vs) E = Some r) \/
  (exists e x, In e es /\ eval defs intps n E e = Some (Exn x)).
Proof.
  intros n E m es r H. cbn [eval] in H.
  match type of H with match ?x with _ => _ end = _ => destruct x as [r2|] eqn:E2; [|discriminate] end.
  assert (X : (exists vs, r2 = Ok (VTup vs) /\ Forall2 (fun e v => eval defs intps n E e = Some (Ok v)) es vs) \/
    (exists e x, In e es /\ eval defs intps n E e = Some (Exn x))).
  { clear H. revert r2 E2. induction es as [|e es IH]; intros r2 E2.
    - injection E2 as <-. left. exists []. split; auto.
    - destruct (eval defs intps n E e) as [[v|x]|] eqn:E1; [| |discriminate].
      + match type of E2 with match ?x with _ => _ end = _ => destruct x as [r3|] eqn:E3; [|discriminate] end.
        destruct (IH _ eq_refl) as [(vs & -> & F)|(e' & x & HI & Hx)].
        * injection E2 as <-. left. exists (v :: vs). split; auto.
        * right. exists e', x. split; auto. right. auto.
      + right. exists e, x. split; auto. left. auto. }
  destruct X as [(vs & -> & F)|X]; [left; eauto|right; auto].
Qed.

Lemma alone_answer : all_no_prompts defs intps -> forall q d, assoc intps q = Some d -> forall e n r,
  inside_alone defs intps e -> alone defs intps n d e = Some r -> answer (SExpr q e) r.
Proof.
  intros NP q d D e. unfold alone, alone_in. rewrite app_nil_r.
  induction e as [z|m es IH] using expr_ind2; intros n r I H.
  - injection H as <-. constructor.
  - cbn [inside_alone] in I. destruct (eval_args_inv _ _ _ _ _ H) as [(vs & F & R)|(e & x & HI & Hx)].
    + apply A_op with (vs := vs); [|eapply alone_run; eauto].
      clear R H. induction F as [|e v es vs H F IHF]; [constructor|]. destruct I as [[I1 _] I2].
      inversion IH; subst. constructor; eauto.
    + exfalso. clear H IH. induction es as [|e' es IHe]; [destruct HI|]. destruct I as [[_ I1] I2].
      destruct HI as [->|HI]; [|apply IHe; auto].
      destruct (I1 _ _ D) as (n' & v & Hv). unfold alone, alone_in in Hv. rewrite app_nil_r in Hv.
      apply (eval_mono _ (n + n')) in Hv; [|lia]. apply (eval_mono _ (n + n')) in Hx; [|lia]. congruence.
Qed.

Lemma inside_alone_ok : all_no_prompts defs intps -> forall e, inside_alone defs intps e -> inside_ok defs intps e.
Proof.
  intros NP e. induction e as [z|m es IH] using expr_ind2; intros I; [exact Logic.I|].
  cbn [inside_alone inside_ok] in *. induction es as [|e es IHe]; [exact Logic.I|].
  destruct I as [[I1 I2] I3]. inversion IH as [|? ? X1 X2]; subst. split; [split; [apply X1; exact I1|]|exact (IHe X2 I3)].
  intros q d D. destruct (I2 _ _ D) as (n & v & Hv). exists v. eapply alone_answer; eauto.
Qed.

Theorem projection : all_no_prompts defs intps -> all_tame defs intps -> no_copies intps ->
  forall m es p d n r, covered intps (EOp m es) -> inside_alone defs intps (EOp m es) ->
  assoc intps p = Some d -> alone defs intps n d (EOp m es) = Some r ->
  (exists n', project defs intps n' p (EOp m es) = Some r) /\
  forall n' r', project defs intps n' p (EOp m es) = Some r' -> r' = r.
Proof.
  intros NP HT NC m es p d n r C I D H. apply projection_prompts; auto.
  - apply inside_alone_ok; auto.
  - eapply alone_answer; eauto.
Qed.

Theorem argsof_partial : all_tame defs intps -> ~ In BApply ops ->
  forall m es p d q d' vs, covered intps (EOp m es) -> inside_ok defs intps (EOp m es) ->
  assoc intps p = Some d -> find d (BOp m) = Some (fun _ => Call OArgsOf [VOp (OPrompt q)] (fun r => match r with Ok v => Ret v | Exn e => Raise e end)) ->
  assoc intps q = Some d' -> answer (SArgs q es) (Ok (VTup vs)) ->
  (exists n, project defs intps n p (EOp m es) = Some (Ok (VTup [VTup vs; VTup []]))) /\
  forall n r, project defs intps n p (EOp m es) = Some r -> r = Ok (VTup [VTup vs; VTup []]).
Proof.
  intros HT NA m es p d q d' vs C I D F D' A. apply projection_prompts; auto.
  - intros q1 d1 m1 D1 HI F1. destruct (find d1 BApply) eqn:FA; auto. destruct NA. eapply find_ops; eauto.
  - assert (exists w, answer (SArgs p es) (Ok (VTup w))) as [w W].
    { cbn [inside_ok] in I. destruct (inside_args _ I) as [_ I2]. eauto. }
    eapply A_op; eauto. eapply A_handled; eauto. eapply A_argsof; eauto. constructor.
Qed.
End Proofs.
