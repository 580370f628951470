(** Proofs about the effect runtime: restoration of the interpretation, fuel
    monotonicity, and refinement of the reference semantics of EffSpec. *)
From Coq Require Import List Bool Arith Lia String.
From Verif Require Import EffModel EffSpec.
Import ListNotations.
Set Implicit Arguments.

Section Proofs.
Variable W : Type.
Variable defs : cls -> nat -> bool * (args -> comp W).

Notation exec := (@exec W defs).
Notation ref := (@ref W defs).
Notation closure := (closure W).
Notation dict := (dict W).
Notation elem := (elem W).
Notation env := (env W).

(** ** Dictionaries *)

Lemma dget_dset_same (d : dict) o c : dget (dset d o c) o = Some c.
Proof.
  induction d as [|[o' c'] d IH]; cbn [dset dget].
  - destruct (op_eq_dec o o); congruence.
  - destruct (op_eq_dec o' o) as [E|E]; cbn [dget].
    + destruct (op_eq_dec o' o); congruence.
    + destruct (op_eq_dec o' o); [congruence|exact IH].
Qed.

Lemma dget_dset_other (d : dict) o o1 c : o <> o1 -> dget (dset d o c) o1 = dget d o1.
Proof.
  intros Hne; induction d as [|[o' c'] d IH]; cbn [dset dget].
  - destruct (op_eq_dec o o1); congruence.
  - destruct (op_eq_dec o' o) as [E|E]; cbn [dget].
    + subst. destruct (op_eq_dec o o1); congruence.
    + destruct (op_eq_dec o' o1); [reflexivity|exact IH].
Qed.

Lemma dget_notin (d : dict) o : ~ In o (map fst d) -> dget d o = None.
Proof.
  induction d as [|[o' c'] d IH]; cbn [map fst dget In]; intros H; [reflexivity|].
  destruct (op_eq_dec o' o) as [E|E]; [exfalso; apply H; left; exact E|].
  apply IH. intros Hi. apply H. right. exact Hi.
Qed.

Lemma dget_in (d : dict) o c : dget d o = Some c -> In o (map fst d).
Proof.
  induction d as [|[o' c'] d IH]; cbn [map fst dget In]; intros H; [discriminate|].
  destruct (op_eq_dec o' o) as [E|E]; [left; exact E|right; apply IH; exact H].
Qed.

Lemma in_dset (d : dict) o c x : In x (map fst (dset d o c)) <-> x = o \/ In x (map fst d).
Proof.
  induction d as [|[o' c'] d IH]; cbn [dset map fst In].
  - split; intros [H|H]; auto.
  - destruct (op_eq_dec o' o) as [E|E]; cbn [map fst In].
    + subst. split; intros H; [destruct H; auto|]. destruct H as [H|[H|H]]; auto.
    + rewrite IH. split; intros H; [destruct H as [H|[H|H]]; auto|destruct H as [H|[H|H]]; auto].
Qed.

Lemma nodup_dset (d : dict) o c : NoDup (map fst d) -> NoDup (map fst (dset d o c)).
Proof.
  induction d as [|[o' c'] d IH]; cbn [dset map fst]; intros H.
  - constructor; [intros []|constructor].
  - inversion H as [|x l Hn Hd]; subst.
    destruct (op_eq_dec o' o) as [E|E]; cbn [map fst].
    + constructor; assumption.
    + constructor; [|apply IH; exact Hd].
      rewrite in_dset. intros [Ho|Hi]; [congruence|contradiction].
Qed.

Definition cop_val (intp : dict) (o : op) (i2 : closure) : closure :=
  if special o then i2
  else match dget intp o with
       | Some i1 => CPrompt OFwd (restore_args defs (save_args defs i1)) (save_args defs i2)
       | None => save_args defs i2
       end.

Lemma coproduct_loop_get (intp items : dict) : forall res o,
  NoDup (map fst items) ->
  dget (coproduct_loop defs intp items res) o =
  match dget items o with Some i2 => Some (cop_val intp o i2) | None => dget res o end.
Proof.
  induction items as [|[o' i2] items IH]; intros res o Hnd; cbn [coproduct_loop dget]; [reflexivity|].
  cbn [map fst] in Hnd. inversion Hnd as [|x l Hn Hd]; subst.
  rewrite IH by exact Hd.
  destruct (op_eq_dec o' o) as [E|E].
  - subst o'. rewrite (dget_notin _ _ Hn). rewrite dget_dset_same. reflexivity.
  - rewrite dget_dset_other by exact E. reflexivity.
Qed.

Lemma coproduct_get (d d2 : dict) o :
  NoDup (map fst d2) ->
  dget (coproduct defs d d2) o =
  match dget d2 o with Some i2 => Some (cop_val d o i2) | None => dget d o end.
Proof. intros H. unfold coproduct. apply coproduct_loop_get. exact H. Qed.

Lemma nodup_coproduct_loop (intp items : dict) : forall res,
  NoDup (map fst res) -> NoDup (map fst (coproduct_loop defs intp items res)).
Proof.
  induction items as [|[o' i2] items IH]; intros res H; cbn [coproduct_loop]; [exact H|].
  apply IH. apply nodup_dset. exact H.
Qed.

Lemma nodup_lit (d : list (hop * base W)) : forall acc : dict,
  NoDup (map fst acc) ->
  NoDup (map fst (fold_left (fun acc p => dset acc (OH (fst p)) (CBase (snd p))) d acc)).
Proof.
  induction d as [|p d IH]; intros acc H; cbn [fold_left]; [exact H|].
  apply IH. apply nodup_dset. exact H.
Qed.

Lemma nodup_idict (i : iexp W) : NoDup (map fst (idict defs i)).
Proof.
  induction i as [d|i IHi j IHj]; cbn [idict].
  - apply nodup_lit. constructor.
  - unfold coproduct. apply nodup_coproduct_loop. exact IHi.
Qed.

Lemma coproduct_single (d : dict) o c o1 :
  dget (coproduct defs d [(o, c)]) o1 =
  if op_eq_dec o o1 then Some (cop_val d o c) else dget d o1.
Proof.
  rewrite coproduct_get by (constructor; [intros []|constructor]).
  cbn [dget]. destruct (op_eq_dec o o1) as [E|E]; [subst; reflexivity|reflexivity].
Qed.

(** ** C01: the interpretation is restored *)

Lemma with_interpreter_intp run d (s : state W) r s' :
  with_interpreter run d s = Some (r, s') -> intp s' = intp s.
Proof.
  unfold with_interpreter. destruct (run _) as [[r1 s1]|]; [|discriminate].
  intros H; inversion H; reflexivity.
Qed.

Lemma with_handler_intp run d (s : state W) r s' :
  with_handler defs run d s = Some (r, s') -> intp s' = intp s.
Proof. unfold with_handler. apply with_interpreter_intp. Qed.

Lemma exec_restores n : forall t s r s', exec n t s = Some (r, s') -> intp s' = intp s.
Proof.
  induction n as [|n IH]; intros t s r s' H; cbn [EffModel.exec] in H; [discriminate|].
  destruct t as [c|c a|o a|o a].
  - destruct c as [v|e|f k|o a k|m i body k|o k].
    + inversion H; reflexivity.
    + inversion H; reflexivity.
    + destruct (f (world s)) as [r1 w1]. apply IH in H. exact H.
    + destruct (exec n (TOp o a) s) as [[r1 s1]|] eqn:E; [|discriminate].
      apply IH in H. apply IH in E. congruence.
    + destruct m.
      * destruct (with_handler _ _ _ _) as [[r1 s1]|] eqn:E; [|discriminate].
        apply IH in H. apply with_handler_intp in E. congruence.
      * destruct (with_interpreter _ _ _) as [[r1 s1]|] eqn:E; [|discriminate].
        apply IH in H. apply with_interpreter_intp in E. congruence.
    + apply IH in H. exact H.
  - destruct c as [b|c|c|p cont body|i c|o|v].
    + destruct b as [nul f|o].
      * destruct (nul && nonempty a); [inversion H; reflexivity|]. apply IH in H. exact H.
      * apply IH in H. exact H.
    + apply with_handler_intp in H. exact H.
    + destruct (nonempty a); [apply IH in H; exact H|].
      destruct (exec n (TOp OGetArgs noargs) s) as [[[v|e] s1]|] eqn:E; [| |discriminate].
      * apply IH in E. destruct (dec_args v).
        -- apply IH in H. congruence.
        -- inversion H; subst. exact E.
      * apply IH in E. inversion H; subst. exact E.
    + apply with_handler_intp in H. exact H.
    + apply with_handler_intp in H. exact H.
    + destruct (exec n (TDef o a) s) as [[[v|e] s1]|] eqn:E; [| |discriminate].
      * apply IH in E. inversion H; subst. exact E.
      * apply IH in E. destruct e; inversion H; subst; exact E.
    + destruct (nonempty a); inversion H; reflexivity.
  - destruct (dget (intp s) o); [apply with_handler_intp in H; exact H|].
    destruct (pos a) as [|v l]; [apply IH in H; exact H|].
    destruct v; try (apply IH in H; exact H).
    destruct (op_eq_dec o (apply_of o0)); apply IH in H; exact H.
  - destruct o as [[c i|[|x c]]| |].
    + destruct (defs c i) as [nul f].
      destruct (nul && nonempty a); [inversion H; reflexivity|]. apply IH in H. exact H.
    + destruct (pos a) as [|v l]; [inversion H; reflexivity|].
      destruct v; try (inversion H; reflexivity). apply IH in H. exact H.
    + destruct (pos a) as [|v l]; [inversion H; reflexivity|]. apply IH in H. exact H.
    + inversion H; reflexivity.
    + destruct (nonempty a); inversion H; reflexivity.
Qed.

(** ** Fuel monotonicity *)

Lemma with_interpreter_mono (run1 run2 : state W -> option (outcome * state W)) d s x :
  (forall s y, run1 s = Some y -> run2 s = Some y) ->
  with_interpreter run1 d s = Some x -> with_interpreter run2 d s = Some x.
Proof.
  unfold with_interpreter. intros Hm H.
  destruct (run1 (mkst d (world s))) as [[r1 s1]|] eqn:E; [|discriminate].
  rewrite (Hm _ _ E). exact H.
Qed.

Lemma with_handler_mono (run1 run2 : state W -> option (outcome * state W)) d s x :
  (forall s y, run1 s = Some y -> run2 s = Some y) ->
  with_handler defs run1 d s = Some x -> with_handler defs run2 d s = Some x.
Proof. unfold with_handler. apply with_interpreter_mono. Qed.

Lemma exec_mono_S n : forall t s x, exec n t s = Some x -> exec (S n) t s = Some x.
Proof.
  induction n as [|n IH]; intros t s x H; [discriminate|].
  remember (S n) as m eqn:Em.
  rewrite Em in H. cbn [EffModel.exec] in H. cbn [EffModel.exec].
  assert (IH' : forall t s y, exec n t s = Some y -> exec m t s = Some y).
  { intros t0 s0 y Hy. apply IH. exact Hy. }
  clear IH Em.
  destruct t as [c|c a|o a|o a].
  - destruct c as [v|e|f k|o a k|md i body k|o k].
    + exact H.
    + exact H.
    + destruct (f (world s)) as [r1 w1]. apply IH'. exact H.
    + destruct (exec n (TOp o a) s) as [[r1 s1]|] eqn:E; [|discriminate].
      rewrite (IH' _ _ _ E). apply IH'. exact H.
    + destruct md.
      * destruct (with_handler defs (exec n (TComp body)) _ _) as [[r1 s1]|] eqn:E; [|discriminate].
        rewrite (with_handler_mono _ (exec m (TComp body)) _ _ (IH' _) E). apply IH'. exact H.
      * destruct (with_interpreter (exec n (TComp body)) _ _) as [[r1 s1]|] eqn:E; [|discriminate].
        rewrite (with_interpreter_mono _ (exec m (TComp body)) _ _ (IH' _) E). apply IH'. exact H.
    + apply IH'. exact H.
  - destruct c as [b|c|c|p cont body|i c|o|v].
    + destruct b as [nul f|o].
      * destruct (nul && nonempty a); [exact H|]. apply IH'. exact H.
      * apply IH'. exact H.
    + exact (with_handler_mono _ (exec m (TClo c a)) _ _ (IH' _) H).
    + destruct (nonempty a); [apply IH'; exact H|].
      destruct (exec n (TOp OGetArgs noargs) s) as [[[v|e] s1]|] eqn:E; [| |discriminate];
        rewrite (IH' _ _ _ E); [|exact H].
      destruct (dec_args v); [apply IH'; exact H|exact H].
    + exact (with_handler_mono _ (exec m (TClo body a)) _ _ (IH' _) H).
    + exact (with_handler_mono _ (exec m (TClo c a)) _ _ (IH' _) H).
    + destruct (exec n (TDef o a) s) as [[[v|e] s1]|] eqn:E; [| |discriminate];
        rewrite (IH' _ _ _ E); exact H.
    + exact H.
  - destruct (dget (intp s) o) as [h|].
    + exact (with_handler_mono _ (exec m (TClo h a)) _ _ (IH' _) H).
    + destruct (pos a) as [|v l]; [apply IH'; exact H|].
      destruct v; try (apply IH'; exact H).
      destruct (op_eq_dec o (apply_of o0)); apply IH'; exact H.
  - destruct o as [[c i|[|x0 c]]| |].
    + destruct (defs c i) as [nul f].
      destruct (nul && nonempty a); [exact H|]. apply IH'. exact H.
    + destruct (pos a) as [|v l]; [exact H|].
      destruct v; try exact H. apply IH'. exact H.
    + destruct (pos a) as [|v l]; [exact H|]. apply IH'. exact H.
    + exact H.
    + exact H.
Qed.

Lemma exec_mono n m t s x : n <= m -> exec n t s = Some x -> exec m t s = Some x.
Proof.
  induction 1 as [|m Hle IH]; intros H; [exact H|]. apply exec_mono_S. apply IH. exact H.
Qed.

Lemma exec_det n m t s x y : exec n t s = Some x -> exec m t s = Some y -> x = y.
Proof.
  intros Hx Hy. apply (@exec_mono n (max n m)) in Hx; [|lia].
  apply (@exec_mono m (max n m)) in Hy; [|lia]. congruence.
Qed.

(** The same for the reference semantics. *)

Lemma resolve_mono (run1 run2 : env -> rtask W -> W -> step_result W) E a w k1 k2 x :
  (forall E t w y, run1 E t w = Some y -> run2 E t w = Some y) ->
  (forall a w y, k1 a w = Some y -> k2 a w = Some y) ->
  resolve run1 E a w k1 = Some x -> resolve run2 E a w k2 = Some x.
Proof.
  unfold resolve. intros Hr Hk H. destruct (nonempty a); [apply Hk; exact H|].
  destruct (run1 E (ROp _ OGetArgs noargs) w) as [[[v|e] w1]|] eqn:Er; [| |discriminate];
    rewrite (Hr _ _ _ _ Er); [|exact H].
  destruct (dec_args v); [apply Hk; exact H|exact H].
Qed.

Lemma ref_mono_S n : forall E t w x, ref n E t w = Some x -> ref (S n) E t w = Some x.
Proof.
  induction n as [|n IH]; intros E t w x H; [discriminate|].
  remember (S n) as m eqn:Em.
  rewrite Em in H. cbn [EffSpec.ref] in H. cbn [EffSpec.ref].
  assert (IH' : forall E t w y, ref n E t w = Some y -> ref m E t w = Some y).
  { intros E0 t0 s0 y Hy. apply IH. exact Hy. }
  clear IH Em.
  destruct t as [c|e a|o a|o a|o a|o a].
  - destruct c as [v|e|f k|o a k|md i body k|o k].
    + exact H.
    + exact H.
    + destruct (f w) as [r1 w1]. apply IH'. exact H.
    + destruct (ref n E (ROp W o a) w) as [[r1 s1]|] eqn:Er; [|discriminate].
      rewrite (IH' _ _ _ _ Er). apply IH'. exact H.
    + destruct (ref n (enter _ _ _ _) (RComp body) w) as [[r1 s1]|] eqn:Er; [|discriminate].
      rewrite (IH' _ _ _ _ Er). apply IH'. exact H.
    + apply IH'. exact H.
  - destruct (eb e) as [nul f|o].
    + destruct (nul && nonempty a); [exact H|]. apply IH'. exact H.
    + apply IH'. exact H.
  - destruct o as [h| |].
    + destruct (hs E h); apply IH'; exact H.
    + destruct (fw E) as [[o [|e rest]]|].
      * revert H. apply resolve_mono; [exact IH'|]. intros a0 w0 y Hy. apply IH'. exact Hy.
      * destruct (elem_nullary defs e); [apply IH'; exact H|].
        revert H. apply resolve_mono; [exact IH'|]. intros a0 w0 y Hy. apply IH'. exact Hy.
      * apply IH'. exact H.
    + destruct (ca E); [exact H|]. apply IH'. exact H.
  - destruct (pos a) as [|v l]; [apply IH'; exact H|].
    destruct v; try (apply IH'; exact H).
    destruct (op_eq_dec o (apply_of o0)); apply IH'; exact H.
  - destruct (ref n E (RDef W o a) w) as [[[v|e] s1]|] eqn:Er; [| |discriminate];
      rewrite (IH' _ _ _ _ Er); exact H.
  - destruct o as [[c i|[|x0 c]]| |].
    + destruct (defs c i) as [nul f].
      destruct (nul && nonempty a); [exact H|]. apply IH'. exact H.
    + destruct (pos a) as [|v l]; [exact H|].
      destruct v; try exact H. apply IH'. exact H.
    + destruct (pos a) as [|v l]; [exact H|]. apply IH'. exact H.
    + exact H.
    + exact H.
Qed.

Lemma ref_mono n m E t w x : n <= m -> ref n E t w = Some x -> ref m E t w = Some x.
Proof.
  induction 1 as [|m Hle IH]; intros H; [exact H|]. apply ref_mono_S. apply IH. exact H.
Qed.

Lemma ref_det n m E t w x y : ref n E t w = Some x -> ref m E t w = Some y -> x = y.
Proof.
  intros Hx Hy. apply (@ref_mono n (max n m)) in Hx; [|lia].
  apply (@ref_mono m (max n m)) in Hy; [|lia]. congruence.
Qed.

End Proofs.
