(** Proofs about ThreadModel. *)
From Coq Require Import List Arith Bool Lia.
From Verif Require Import ThreadModel.
Import ListNotations.
Set Implicit Arguments.

(** ** Specification: what one thread should see on its own *)
Section SeqSpec.
Variable I : Type.

(** Current interpretation, enclosing ones, and what has been read (newest first). *)
Fixpoint alone (p : list (act I)) (cur : I) (outer : list I) (out : list I) : list I :=
  match p with
  | [] => out
  | AInterp i :: p' => alone p' i (cur :: outer) out
  | AHandler f :: p' => alone p' (f cur) (cur :: outer) out
  | AExit _ :: p' =>
      match outer with
      | [] => alone p' cur [] out
      | o :: outer' => alone p' o outer' out
      end
  | ALook _ :: p' => alone p' cur outer (cur :: out)
  end.
End SeqSpec.

Section Proofs.
Variable I : Type.
Variable empty : I.

Notation run := (@run I).
Notation sstep := (@sstep I).

Definition start (m : mem I) (progs : nat -> list (act I)) : sys I :=
  mksys (fun t => th0 (progs t)) m.

(** ** Warm start: every thread behaves as if alone *)

(** Invariant of thread [t] at runtime object 0, with what remains to be read. *)
Definition winv (p0 : list (act I)) (t : nat) (th : thread I) (m : mem I) : Prop :=
  exists outer,
    Forall2 (fun so o => fst so = 0 /\ snd so = o) (saved th) outer /\
    match pc th with
    | None => alone (todo th) (attr m 0 t) outer (seen th) = alone p0 empty [] []
    | Some (PRead f, g) => g = GStart /\
        alone (todo th) (f (attr m 0 t)) (attr m 0 t :: outer) (seen th) = alone p0 empty [] []
    | Some (PSet i, g) => g = GStart /\
        alone (todo th) i (attr m 0 t :: outer) (seen th) = alone p0 empty [] []
    | Some (PLook _, g) => g = GStart /\
        alone (todo th) (attr m 0 t) outer (attr m 0 t :: seen th) = alone p0 empty [] []
    end.

Lemma winv_frame p0 t th m m' :
  attr m' 0 t = attr m 0 t -> winv p0 t th m -> winv p0 t th m'.
Proof.
  intros Ha (outer & Hs & H). exists outer. split; [exact Hs|].
  destruct (pc th) as [[[f|i|] g]|]; rewrite Ha; exact H.
Qed.

Lemma upd_other (m : mem I) r t i r' t' : t' <> t -> attr (upd m r t i) r' t' = attr m r' t'.
Proof.
  intros H. cbn [upd attr]. destruct (t' =? t) eqn:E; [apply Nat.eqb_eq in E; congruence|].
  rewrite andb_false_r. reflexivity.
Qed.

Lemma upd_same (m : mem I) r t i : attr (upd m r t i) r t = i.
Proof. cbn [upd attr]. rewrite !Nat.eqb_refl. reflexivity. Qed.

Lemma tstep_warm p0 t th m th' m' :
  cache m = Some 0 -> winv p0 t th m -> tstep t th m = (th', m') ->
  cache m' = Some 0 /\ winv p0 t th' m' /\ forall t', t' <> t -> attr m' 0 t' = attr m 0 t'.
Proof.
  intros Hc (outer & Hs & H) Hstep. unfold tstep in Hstep.
  destruct (pc th) as [[ph g]|] eqn:Epc.
  - destruct ph as [f|i|]; destruct H as [-> H]; rewrite Hc in Hstep; inversion Hstep; subst; clear Hstep.
    + split; [exact Hc|split; [|reflexivity]]. exists outer. split; [exact Hs|].
      cbn [pc todo seen]. split; [reflexivity|exact H].
    + split; [exact Hc|split].
      * exists (attr m 0 t :: outer). cbn [saved pc todo seen]. split.
        -- constructor; [split; reflexivity|exact Hs].
        -- rewrite upd_same. exact H.
      * intros t' Hne. apply upd_other. exact Hne.
    + split; [exact Hc|split; [|reflexivity]]. exists outer. cbn [saved pc todo seen]. split; assumption.
  - destruct (todo th) as [|[i|f| |] p] eqn:Et.
    + inversion Hstep; subst. split; [exact Hc|split; [|reflexivity]]. exists outer. split; [exact Hs|].
      rewrite Epc, Et. exact H.
    + inversion Hstep; subst. split; [exact Hc|split; [|reflexivity]]. exists outer.
      cbn [saved pc todo seen]. repeat split; assumption.
    + inversion Hstep; subst. split; [exact Hc|split; [|reflexivity]]. exists outer.
      cbn [saved pc todo seen]. repeat split; assumption.
    + destruct (saved th) as [|[r old] s] eqn:Esv.
      * inversion Hstep; subst. inversion Hs; subst. split; [exact Hc|split; [|reflexivity]].
        exists []. cbn [saved pc todo seen]. split; [constructor|exact H].
      * inversion Hstep; subst. inversion Hs as [|x y s' outer' [Hr Ho] Hs']; subst.
        cbn [fst snd] in *. subst r. split; [exact Hc|split].
        -- exists outer'. cbn [saved pc todo seen]. split; [exact Hs'|].
           rewrite upd_same. exact H.
        -- intros t' Hne. apply upd_other. exact Hne.
    + inversion Hstep; subst. split; [exact Hc|split; [|reflexivity]]. exists outer.
      cbn [saved pc todo seen]. repeat split; assumption.
Qed.

Lemma run_warm progs sched : forall s,
  cache (memory s) = Some 0 -> (forall t, winv (progs t) t (threads s t) (memory s)) ->
  cache (memory (run s sched)) = Some 0 /\
  forall t, winv (progs t) t (threads (run s sched) t) (memory (run s sched)).
Proof.
  induction sched as [|t0 sched IH]; intros s Hc Hw; cbn [run fold_left]; [split; assumption|].
  apply IH; unfold ThreadModel.sstep;
    destruct (tstep t0 (threads s t0) (memory s)) as [th' m'] eqn:E; cbn [memory threads];
    destruct (tstep_warm Hc (Hw t0) E) as (Hc' & Hw' & Hf).
  - exact Hc'.
  - intros t. destruct (t =? t0) eqn:Et.
    + apply Nat.eqb_eq in Et. subst. exact Hw'.
    + apply Nat.eqb_neq in Et. apply (winv_frame (m := memory s)); [apply Hf; exact Et|apply Hw].
Qed.

Lemma warm_as_alone progs sched t :
  let th := threads (run (start (warm empty) progs) sched) t in
  todo th = [] -> pc th = None -> seen th = alone (progs t) empty [] [].
Proof.
  intros th Ht Hp.
  destruct (@run_warm progs sched (start (warm empty) progs) eq_refl) as [_ H].
  { intros t'. exists []. split; [constructor|reflexivity]. }
  specialize (H t). destruct H as (outer & _ & H). fold th in H. rewrite Hp, Ht in H. exact H.
Qed.

Lemma alone_suffix (p : list (act I)) : forall c o out, exists l, alone p c o out = l ++ out.
Proof.
  induction p as [|a p IH]; intros c o out; [exists []; reflexivity|].
  destruct a as [i|f| |]; cbn [alone]; try apply IH.
  - destruct o; apply IH.
  - destruct (IH c o (c :: out)) as [l Hl]. exists (l ++ [c]). rewrite <- app_assoc. exact Hl.
Qed.

(** At every moment, what a thread has read is the beginning of what it would
    read alone. *)
Lemma warm_prefix progs sched t :
  exists l, alone (progs t) empty [] [] = l ++ seen (threads (run (start (warm empty) progs) sched) t).
Proof.
  destruct (@run_warm progs sched (start (warm empty) progs) eq_refl) as [_ H].
  { intros t'. exists []. split; [constructor|reflexivity]. }
  specialize (H t). destruct H as (outer & _ & H).
  destruct (pc (threads (run (start (warm empty) progs) sched) t)) as [[[f|i|] g]|].
  - destruct H as [_ H]. rewrite <- H. apply alone_suffix.
  - destruct H as [_ H]. rewrite <- H. apply alone_suffix.
  - destruct H as [_ H]. rewrite <- H.
    match goal with |- exists l, alone ?p ?c ?o (?x :: ?s) = _ =>
      destruct (alone_suffix p c o (x :: s)) as [l Hl]; exists (l ++ [x]) end.
    rewrite <- app_assoc. exact Hl.
  - rewrite <- H. apply alone_suffix.
Qed.

(** ** Any start: a thread only sees what its own handlers made of [empty] *)

Section Own.
Variable P : I -> Prop.
Definition act_ok (a : act I) : Prop :=
  match a with AInterp i => P i | AHandler f => forall x, P x -> P (f x) | _ => True end.

Definition oinv (t : nat) (th : thread I) (m : mem I) : Prop :=
  Forall act_ok (todo th) /\ Forall P (seen th) /\ Forall (fun so => P (snd so)) (saved th) /\
  (forall r, P (attr m r t)) /\
  match pc th with
  | Some (PRead f, _) => forall x, P x -> P (f x)
  | Some (PSet i, _) => P i
  | _ => True
  end.

Lemma tstep_attr_other t th (m : mem I) th' m' : tstep t th m = (th', m') ->
  forall r t', t' <> t -> attr m' r t' = attr m r t'.
Proof.
  intros Hstep r t' Hne. unfold tstep in Hstep.
  destruct (pc th) as [[ph g]|].
  - destruct g as [| |r0].
    + destruct (cache m); [|inversion Hstep; reflexivity].
      destruct ph; inversion Hstep; subst; try reflexivity. apply upd_other; exact Hne.
    + inversion Hstep; reflexivity.
    + destruct (cache m); destruct ph; inversion Hstep; subst; try reflexivity;
        rewrite upd_other by exact Hne; reflexivity.
  - destruct (todo th) as [|[i|f| |] p]; try (inversion Hstep; reflexivity).
    destruct (saved th) as [|[r1 old] s]; inversion Hstep; subst; try reflexivity.
    apply upd_other; exact Hne.
Qed.

Lemma upd_P (m : mem I) r0 t i : P i -> (forall r, P (attr m r t)) -> forall r, P (attr (upd m r0 t i) r t).
Proof.
  intros Hi Hm r. cbn [upd attr]. rewrite Nat.eqb_refl, andb_true_r.
  destruct (r =? r0); [exact Hi|apply Hm].
Qed.

Lemma tstep_own t th m th' m' : oinv t th m -> tstep t th m = (th', m') -> oinv t th' m'.
Proof.
  intros (Htd & Hsn & Hsv & Hat & Hpc) Hstep. unfold tstep in Hstep.
  assert (Hfin : forall r (m1 : mem I) ph th1 m2,
    match ph with PRead f => forall x, P x -> P (f x) | PSet i => P i | PLook _ => True end ->
    (forall r, P (attr m1 r t)) ->
    match ph with
    | PRead f => (mkth (todo th) (Some (PSet (f (attr m1 r t)), GStart)) (saved th) (seen th), m1)
    | PSet i => (mkth (todo th) None ((r, attr m1 r t) :: saved th) (seen th), upd m1 r t i)
    | PLook _ => (mkth (todo th) None (saved th) (attr m1 r t :: seen th), m1)
    end = (th1, m2) -> oinv t th1 m2).
  { intros r m1 ph th1 m2 Hph Ham Heq. destruct ph as [f|i|]; inversion Heq; subst; clear Heq;
      unfold oinv; cbn [todo seen saved pc].
    - repeat split; try assumption. apply Hph. apply Ham.
    - repeat split; try assumption.
      + constructor; [apply Ham|exact Hsv].
      + apply upd_P; assumption.
    - repeat split; try assumption. constructor; [apply Ham|exact Hsn]. }
  destruct (pc th) as [[ph g]|] eqn:Epc.
  - destruct g as [| |r0].
    + destruct (cache m) as [r|].
      * eapply Hfin; [|exact Hat|exact Hstep]. destruct ph; exact Hpc.
      * inversion Hstep; subst. unfold oinv; cbn [todo seen saved pc]. repeat split; assumption.
    + inversion Hstep; subst. unfold oinv; cbn [todo seen saved pc attr]. repeat split; assumption.
    + destruct (cache m) as [r|].
      * eapply Hfin; [|exact Hat|exact Hstep]. destruct ph; exact Hpc.
      * eapply Hfin; [| |exact Hstep]; [destruct ph; exact Hpc|exact Hat].
  - destruct (todo th) as [|[i|f| |] p] eqn:Et.
    + inversion Hstep; subst. unfold oinv. rewrite Epc, Et. repeat split; assumption.
    + inversion Htd as [|x l Hx Hl]; subst. inversion Hstep; subst. unfold oinv; cbn [todo seen saved pc].
      repeat split; assumption.
    + inversion Htd as [|x l Hx Hl]; subst. inversion Hstep; subst. unfold oinv; cbn [todo seen saved pc].
      repeat split; assumption.
    + inversion Htd as [|x l Hx Hl]; subst.
      destruct (saved th) as [|[r old] s] eqn:Esv; inversion Hstep; subst; unfold oinv; cbn [todo seen saved pc].
      * repeat split; try assumption.
      * inversion Hsv as [|y s' Hy Hs']; subst. repeat split; try assumption.
        apply upd_P; [exact Hy|exact Hat].
    + inversion Htd as [|x l Hx Hl]; subst. inversion Hstep; subst. unfold oinv; cbn [todo seen saved pc].
      repeat split; assumption.
Qed.

Lemma oinv_frame t th m m' : (forall r, attr m' r t = attr m r t) -> oinv t th m -> oinv t th m'.
Proof.
  intros Ha (H1 & H2 & H3 & H4 & H5). repeat split; try assumption. intros r. rewrite Ha. apply H4.
Qed.

Lemma run_own t sched : forall s, oinv t (threads s t) (memory s) ->
  oinv t (threads (run s sched) t) (memory (run s sched)).
Proof.
  induction sched as [|t0 sched IH]; intros s H; cbn [run fold_left]; [exact H|].
  apply IH. unfold ThreadModel.sstep.
  destruct (tstep t0 (threads s t0) (memory s)) as [th' m'] eqn:E; cbn [memory threads].
  destruct (t =? t0) eqn:Et.
  - apply Nat.eqb_eq in Et. subst t0. exact (tstep_own H E).
  - apply Nat.eqb_neq in Et. apply (oinv_frame (m := memory s)); [|exact H].
    intros r. eapply tstep_attr_other; [exact E|exact Et].
Qed.

Lemma sees_only_own m0 progs sched t :
  (m0 = cold empty \/ m0 = warm empty) ->
  P empty -> Forall act_ok (progs t) ->
  Forall P (seen (threads (run (start m0 progs) sched) t)).
Proof.
  intros Hm H0 Hp.
  assert (H : oinv t (threads (start m0 progs) t) (memory (start m0 progs))).
  { unfold oinv; cbn. repeat split; try assumption; try constructor.
    intros r. destruct Hm as [-> | ->]; exact H0. }
  apply (run_own sched) in H. exact (proj1 (proj2 H)).
Qed.

End Own.

(** ** Well nested blocks *)

(** Sequences in which every block is left before the blocks around it, and block
    names are not reused. *)
Inductive nested : list nat -> list (bev I) -> list nat -> Prop :=
| n_nil ids : nested ids [] ids
| n_block ids ids1 ids2 id f body rest :
    ~ In id ids -> nested (id :: ids) body ids1 -> nested ids1 rest ids2 ->
    nested ids (BEnter id f :: body ++ BExit I id :: rest) ids2.

Lemma brun_app l1 : forall l2 (s : bst I), brun s (l1 ++ l2) = brun (brun s l1) l2.
Proof. intros l2 s. unfold brun. apply fold_left_app. Qed.

Lemma nested_mono ids l ids' : nested ids l ids' -> incl ids ids'.
Proof.
  induction 1 as [ids|ids ids1 ids2 id f body rest Hn Hb IHb Hr IHr]; [apply incl_refl|].
  intros x Hx. apply IHr, IHb. right. exact Hx.
Qed.

Lemma filter_notin (l : list (nat * I)) id :
  ~ In id (map fst l) -> filter (fun p => negb (fst p =? id)) l = l.
Proof.
  induction l as [|[k i] l IH]; cbn [filter map fst In]; intros H; [reflexivity|].
  destruct (k =? id) eqn:E.
  - exfalso. apply H. left. apply Nat.eqb_eq. exact E.
  - cbn [negb]. rewrite IH; [reflexivity|]. intros Hi. apply H. right. exact Hi.
Qed.

Lemma nested_restores ids l ids' : nested ids l ids' -> forall s : bst I,
  incl (map fst (olds s)) ids -> brun s l = s.
Proof.
  induction 1 as [ids|ids ids1 ids2 id f body rest Hn Hb IHb Hr IHr]; intros s Hs; [reflexivity|].
  cbn [brun fold_left]. change (fold_left (bstep (I:=I)) ?l ?s) with (brun s l).
  rewrite brun_app. cbn [bstep]. rewrite IHb.
  - cbn [brun fold_left]. change (fold_left (bstep (I:=I)) ?l ?s) with (brun s l).
    cbn [bstep olds blookup]. rewrite Nat.eqb_refl. cbn [filter fst]. rewrite Nat.eqb_refl. cbn [negb].
    rewrite filter_notin by (intros Hi; apply Hn, Hs, Hi).
    destruct s as [c o]. cbn [cur olds] in *. apply IHr.
    intros x Hx. apply (nested_mono Hb). right. apply Hs. exact Hx.
  - cbn [olds map fst]. intros x [Hx|Hx]; [left; exact Hx|right; apply Hs; exact Hx].
Qed.

End Proofs.
