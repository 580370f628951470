(** Proofs about number terms. *)
From Coq Require Import List Bool Arith Lia.
From Verif Require Import NumModel NumSpec.
Import ListNotations.

Section Proofs.
Variable V : Type.
Variable vkind : V -> kind.
Variable prim : bop -> V -> V -> out V.
Variable unary : uop -> V -> option (out V).
Variable meth : cop -> V -> V -> option V.
Variable below : V -> V -> bool.
Variable truth : V -> bool.
Variable same : V -> V -> bool.
Variable of_bool : bool -> V.
Notation operand := (operand V).
Notation term := (term V).
Notation Plain := (Plain V).
Notation Term := (Term V).
Notation NotImpl := (NotImpl V).
Notation kind_of := (kind_of V vkind).
Notation tkind := (tkind V vkind).
Notation call_bin := (call_bin V prim).
Notation call_cmp := (call_cmp V meth).
Notation call_un := (call_un V unary).
Notation binary := (binary V vkind prim).
Notation compare := (compare V vkind meth below).
Notation prefix := (prefix V vkind unary).
Notation build := (build V vkind prim unary meth below truth same of_bool).
Notation direct := (direct V prim unary meth below truth same of_bool).
Notation eval := (eval V prim unary meth).
Notation py_cmp := (py_cmp V meth below).
Notation agree := (agree V).
Notation handled := (handled V).
Local Arguments number : simpl never.
Local Arguments NumModel.kind_of : simpl never.
Local Arguments NumModel.tkind : simpl never.
Local Arguments NumModel.eval : simpl never.
Local Arguments NumModel.eval_term : simpl never.
Ltac ks := repeat match goal with
  | H : context [NumModel.kind_of V vkind (NumModel.Term _ ?t)] |- _ => change (kind_of (Term t)) with (tkind t) in H
  | |- context [NumModel.kind_of V vkind (NumModel.Term _ ?t)] => change (kind_of (Term t)) with (tkind t)
  | H : context [NumModel.kind_of V vkind (NumModel.Plain _ ?v)] |- _ => change (kind_of (Plain v)) with (vkind v) in H
  | |- context [NumModel.kind_of V vkind (NumModel.Plain _ ?v)] => change (kind_of (Plain v)) with (vkind v)
  | H : context [NumModel.eval V prim unary meth ?env (NumModel.Plain _ ?v)] |- _ => change (eval env (Plain v)) with (@Ok operand (Plain v)) in H
  | |- context [NumModel.eval V prim unary meth ?env (NumModel.Plain _ ?v)] => change (eval env (Plain v)) with (@Ok operand (Plain v))
  end.

Scheme operand_term := Induction for NumModel.operand Sort Prop with term_operand := Induction for NumModel.term Sort Prop.
Combined Scheme operand_term_ind from operand_term, term_operand.

(** A number or a number term *)
Definition good (a : operand) : Prop := a <> NotImpl /\ number (kind_of a) = true.
Lemma binary_call : forall o a b, good a -> good b -> binary o a b = call_bin o a b.
Proof.
  intros o a b [Na Ka] [Nb Kb]. destruct a as [v| |t], b as [w| |u]; try congruence; try reflexivity; cbn in Ka, Kb |- *; ks; now rewrite ?Ka, ?Kb.
Qed.
Lemma call_bin_good : forall o a b r, (forall v, number (vkind v) = true) -> good a -> good b -> call_bin o a b = Ok r -> good r.
Proof.
  intros o a b r N [Na Ka] [Nb Kb] H. destruct a as [v| |t], b as [w| |u]; try congruence; cbn in H.
  - destruct (prim o v w) as [x|x]; [|discriminate]. injection H as <-. split; [discriminate|apply N].
  - injection H as <-. split; [discriminate|exact Kb].
  - injection H as <-. split; [discriminate|exact Kb].
  - injection H as <-. split; [discriminate|exact Kb].
Qed.
Lemma compare_good : forall c a b r, (forall v, number (vkind v) = true) -> good a -> good b -> compare c a b = Ok r -> good r.
Proof.
  intros c a b r N [Na Ka] [Nb Kb] H. destruct a as [v| |t], b as [w| |u]; try congruence; cbn in H, Ka, Kb; ks; rewrite ?Ka, ?Kb in H.
  - destruct (py_cmp c v w) as [x|x]; [|discriminate]. injection H as <-. split; [discriminate|apply N].
  - injection H as <-. split; [discriminate|reflexivity].
  - injection H as <-. split; [discriminate|reflexivity].
  - destruct (_ && _); injection H as <-; (split; [discriminate|reflexivity]).
Qed.
Lemma prefix_good : forall u a r, (forall v, number (vkind v) = true) -> good a -> prefix u a = Ok r -> good r.
Proof.
  intros u a r N [Na Ka] H. destruct a as [v| |t]; [|congruence|]; cbn in H, Ka; ks.
  - destruct (unary u v) as [[x|x]|]; try discriminate. injection H as <-. split; [discriminate|apply N].
  - rewrite Ka in H. destruct u; try discriminate; injection H as <-; (split; [discriminate|]); try reflexivity; exact Ka.
Qed.
Lemma build_good : forall e r, (forall v, number (vkind v) = true) -> arith V e -> build e = Ok r -> good r.
Proof.
  induction e as [x k|v|o a IHa b IHb|c a IHa b IHb|u a IHa|a _ b _|c IHc a IHa b IHb]; intros r N A H; cbn in A, H.
  - injection H as <-. split; [discriminate|exact A].
  - injection H as <-. split; [discriminate|apply N].
  - destruct A as [Aa Ab]. destruct (build a) as [a'|x]; [|discriminate]. destruct (build b) as [b'|x]; [|discriminate]. cbn in H.
    rewrite binary_call in H by auto. apply (call_bin_good o a' b'); auto.
  - destruct A as [Aa Ab]. destruct (build a) as [a'|x]; [|discriminate]. destruct (build b) as [b'|x]; [|discriminate]. cbn in H.
    apply (compare_good c a' b'); auto.
  - destruct A as [_ Aa]. destruct (build a) as [a'|x]; [|discriminate]. cbn in H. apply (prefix_good u a'); auto.
  - destruct A.
  - destruct A as [Ac [Aa Ab]]. destruct (build c) as [c'|x]; [|discriminate]. cbn in H. destruct c' as [v| |t].
    + destruct (truth v); auto.
    + discriminate.
    + destruct (IHc _ N Ac eq_refl) as [_ K]. cbn in K; ks. rewrite K in H. discriminate.
Qed.
(** * Evaluation *)
Lemma agree_ok : forall v s, agree (Ok v) s -> s = Ok (Plain v).
Proof. intros v s H. destruct s as [[w| |t]|x]; cbn in H; try destruct H. reflexivity. Qed.
Lemma agree_exc : forall x s, agree (Exc x) s -> exists y, s = Exc y.
Proof. intros x s H. destruct s as [[w| |t]|y]; cbn in H; try destruct H. eauto. Qed.
Lemma eval_call_bin : forall env o a b r, call_bin o a b = Ok r -> eval env r = bind (eval env a) (fun a' => bind (eval env b) (fun b' => call_bin o a' b')).
Proof.
  intros env o a b r H. destruct a as [v| |t], b as [w| |u]; cbn in H; try discriminate; try (injection H as <-; reflexivity).
  ks. cbn. destruct (prim o v w) as [x|x]; [|discriminate]. injection H as <-. reflexivity.
Qed.
Lemma eval_call_cmp : forall env c a b r, call_cmp c a b = Ok r -> eval env r = bind (eval env a) (fun a' => bind (eval env b) (fun b' => call_cmp c a' b')).
Proof.
  intros env c a b r H. destruct a as [v| |t], b as [w| |u]; cbn in H; try (injection H as <-; reflexivity).
  ks. cbn. injection H as <-. destruct (meth c v w); reflexivity.
Qed.
Lemma eval_call_un : forall env u a r, call_un u a = Ok r -> eval env r = bind (eval env a) (call_un u).
Proof.
  intros env u a r H. destruct a as [v| |t]; cbn in H; try discriminate; try (injection H as <-; reflexivity).
  ks. cbn. destruct (unary u v) as [[x|x]|]; try discriminate. injection H as <-. reflexivity.
Qed.
Lemma py_cmp_comparable : forall c v w, comparable V meth -> exists r, meth c v w = Some r /\ py_cmp c v w = Ok r.
Proof.
  intros c v w C. destruct (C c v w) as [N E]. destruct (meth c v w) as [r|] eqn:M; [|congruence]. exists r. split; [reflexivity|].
  unfold NumModel.py_cmp. rewrite E, M. destruct (below v w); reflexivity.
Qed.
(** What [a < b] evaluates to *)
Lemma compare_agree : forall env c a b r, comparable V meth -> good a -> good b -> compare c a b = Ok r ->
  forall ra rb, agree ra (eval env a) -> agree rb (eval env b) ->
  agree (bind ra (fun v => bind rb (fun w => py_cmp c v w))) (eval env r).
Proof.
  intros env c a b r C [Na Ka] [Nb Kb] H ra rb Ga Gb.
  assert (L : forall d a b ra rb, agree ra (eval env a) -> agree rb (eval env b) -> forall r, call_cmp d a b = Ok r ->
            agree (bind ra (fun v => bind rb (fun w => py_cmp d v w))) (eval env r)).
  { clear - C. intros d a b ra rb Ga Gb r H. rewrite (eval_call_cmp env d a b r H). destruct ra as [v|x].
    - rewrite (agree_ok _ _ Ga). cbn [bind]. destruct rb as [w|y].
      + rewrite (agree_ok _ _ Gb). cbn [bind]. destruct (py_cmp_comparable d v w C) as [q [M ->]]. cbn. now rewrite M.
      + destruct (agree_exc _ _ Gb) as [z ->]. exact Logic.I.
    - destruct (agree_exc _ _ Ga) as [z ->]. exact Logic.I. }
  assert (S : forall a b ra rb, agree ra (eval env a) -> agree rb (eval env b) -> forall r, call_cmp (swap c) b a = Ok r ->
            agree (bind ra (fun v => bind rb (fun w => py_cmp c v w))) (eval env r)).
  { intros a0 b0 ra0 rb0 Ga0 Gb0 r0 H0. pose proof (L (swap c) b0 a0 rb0 ra0 Gb0 Ga0 r0 H0) as Q.
    destruct ra0 as [v|x], rb0 as [w|y]; cbn [bind] in Q |- *; try exact Q; try (destruct (agree_exc _ _ Q) as [z ->]; exact Logic.I).
    destruct (py_cmp_comparable c v w C) as [q [M E]]. destruct (py_cmp_comparable (swap c) w v C) as [q' [M' E']].
    rewrite (proj2 (C c v w)) in M'. rewrite E' in Q. rewrite E. congruence. }
  destruct a as [v| |t], b as [w| |u]; try congruence; ks; cbn [NumModel.compare] in H; rewrite ?Ka, ?Kb in H.
  - destruct (py_cmp c v w) as [x|x] eqn:E; [|discriminate]. injection H as <-. ks. destruct ra as [v'|y]; [|destruct Ga]. cbn in Ga. subst v'.
    destruct rb as [w'|y]; [|destruct Gb]. cbn in Gb. subst w'. cbn [bind]. rewrite E. reflexivity.
  - now apply S with (Plain v) (Term u).
  - now apply L with (Term t) (Plain w).
  - destruct (_ && _); [now apply S with (Term t) (Term u)|now apply L with (Term t) (Term u)].
Qed.
Theorem build_agree : forall env e r, (forall v, number (vkind v) = true) -> arith V e -> comparable V meth \/ compares V e = false ->
  build e = Ok r -> agree (direct env e) (eval (handled env) r).
Proof.
  intros env. induction e as [x k|v|o a IHa b IHb|c a IHa b IHb|u a IHa|a _ b _|c IHc a IHa b IHb]; intros r N A C H; cbn in A, H.
  - injection H as <-. reflexivity.
  - injection H as <-. reflexivity.
  - destruct A as [Aa Ab]. destruct (build a) as [a'|x] eqn:Ba; [|discriminate]. destruct (build b) as [b'|x] eqn:Bb; [|discriminate]. cbn in H.
    rewrite binary_call in H by (first [exact (build_good _ _ N Aa Ba)|exact (build_good _ _ N Ab Bb)]). rewrite (eval_call_bin _ _ _ _ _ H). cbn [NumModel.direct].
    assert (Ca : comparable V meth \/ compares V a = false) by (destruct C as [C|C]; [now left|right; cbn in C; now apply orb_false_iff in C]).
    assert (Cb : comparable V meth \/ compares V b = false) by (destruct C as [C|C]; [now left|right; cbn in C; now apply orb_false_iff in C]).
    pose proof (IHa _ N Aa Ca eq_refl) as Ga. pose proof (IHb _ N Ab Cb eq_refl) as Gb.
    destruct (direct env a) as [v|x]; [|destruct (agree_exc _ _ Ga) as [y ->]; exact Logic.I]. rewrite (agree_ok _ _ Ga). cbn [bind].
    destruct (direct env b) as [w|x]; [|destruct (agree_exc _ _ Gb) as [y ->]; exact Logic.I]. rewrite (agree_ok _ _ Gb). cbn.
    destruct (prim o v w); reflexivity.
  - destruct C as [C|C]; [|discriminate]. destruct A as [Aa Ab].
    destruct (build a) as [a'|x] eqn:Ba; [|discriminate]. destruct (build b) as [b'|x] eqn:Bb; [|discriminate]. cbn in H.
    apply (compare_agree _ c a' b'); auto; [exact (build_good _ _ N Aa Ba)|exact (build_good _ _ N Ab Bb)].
  - destruct A as [Nu Aa]. destruct (build a) as [a'|x] eqn:Ba; [|discriminate]. cbn [bind] in H. pose proof (build_good _ _ N Aa Ba) as [Na Ka].
    pose proof (IHa _ N Aa C eq_refl) as Ga. cbn [NumModel.direct]. destruct a' as [v| |t]; [|congruence|].
    + cbn in H. destruct (direct env a) as [w|y]; [|destruct Ga]. ks; cbn in Ga; subst w. cbn.
      destruct (unary u v) as [[x|x]|]; try discriminate. injection H as <-. reflexivity.
    + cbn in H, Ka; ks. rewrite Ka in H. assert (H' : call_un u (Term t) = Ok r) by (destruct u; try congruence; exact H).
      rewrite (eval_call_un _ _ _ _ H'). destruct (direct env a) as [w|y]; [|destruct (agree_exc _ _ Ga) as [z ->]; exact Logic.I].
      rewrite (agree_ok _ _ Ga). cbn. destruct (unary u w) as [[x|x]|]; reflexivity.
  - destruct A.
  - destruct A as [Ac [Aa Ab]]. destruct (build c) as [c'|x] eqn:Bc; [|discriminate]. cbn [bind] in H.
    assert (Cs : (comparable V meth \/ compares V c = false) /\ (comparable V meth \/ compares V a = false) /\ (comparable V meth \/ compares V b = false)).
    { destruct C as [C|C]; [auto|]. cbn in C. apply orb_false_iff in C. destruct C as [C Cb]. apply orb_false_iff in C. destruct C. auto. }
    destruct Cs as [Cc [Ca Cb]]. pose proof (IHc _ N Ac Cc eq_refl) as Gc. destruct c' as [v| |t].
    + cbn [NumModel.direct]. destruct (direct env c) as [w|y]; [|destruct Gc]. ks; cbn in Gc; subst w. cbn [bind]. destruct (truth v); auto.
    + discriminate.
    + destruct (build_good _ _ N Ac Bc) as [_ K]. cbn in K; ks. rewrite K in H. discriminate.
Qed.
(** * Exceptions while building *)
Theorem build_fails : forall env e x, (forall v, number (vkind v) = true) -> arith V e -> comparable V meth \/ compares V e = false -> straight V e ->
  build e = Exc x -> fails (direct env e).
Proof.
  intros env. induction e as [y k|v|o a IHa b IHb|c a IHa b IHb|u a IHa|a _ b _|c IHc a IHa b IHb]; intros x N A C S H; cbn in A, S, H; try discriminate.
  - destruct A as [Aa Ab]. destruct S as [Sa Sb].
    assert (Ca : comparable V meth \/ compares V a = false) by (destruct C as [C|C]; [now left|right; cbn in C; now apply orb_false_iff in C]).
    assert (Cb : comparable V meth \/ compares V b = false) by (destruct C as [C|C]; [now left|right; cbn in C; now apply orb_false_iff in C]).
    destruct (build a) as [a'|z] eqn:Ba; [|destruct (IHa z N Aa Ca Sa eq_refl) as [q Q]; exists q; cbn; now rewrite Q].
    destruct (build b) as [b'|z] eqn:Bb.
    + pose proof (build_good _ _ N Aa Ba) as Ga. pose proof (build_good _ _ N Ab Bb) as Gb. cbn in H. rewrite binary_call in H by assumption.
      pose proof (build_agree env a a' N Aa Ca Ba) as Da. pose proof (build_agree env b b' N Ab Cb Bb) as Db.
      destruct a' as [v| |t], b' as [w| |u]; try (destruct Ga; congruence); try (destruct Gb; congruence); cbn in H; try discriminate.
      ks; cbn in Da, Db. destruct (direct env a) as [v'|q] eqn:Ea; [|destruct Da]. destruct (direct env b) as [w'|q] eqn:Eb; [|destruct Db]. cbn in Da, Db. subst v' w'.
      cbn. rewrite Ea, Eb. cbn. destruct (prim o v w); [discriminate|]. eexists. reflexivity.
    + destruct (IHb z N Ab Cb Sb eq_refl) as [q Q]. cbn. rewrite Q. destruct (direct env a); cbn; eexists; reflexivity.
  - destruct A as [Aa Ab]. destruct S as [Sa Sb]. destruct C as [C|C]; [|discriminate].
    destruct (build a) as [a'|z] eqn:Ba; [|destruct (IHa z N Aa (or_introl C) Sa eq_refl) as [q Q]; exists q; cbn; now rewrite Q].
    destruct (build b) as [b'|z] eqn:Bb.
    + pose proof (build_good _ _ N Aa Ba) as [Na Ka]. pose proof (build_good _ _ N Ab Bb) as [Nb Kb]. cbn [bind] in H. exfalso.
      destruct a' as [v| |t], b' as [w| |u]; try congruence; ks; cbn [NumModel.compare] in H; rewrite ?Ka, ?Kb in H; cbn in H; try discriminate.
      * destruct (py_cmp_comparable c v w C) as [q [_ E]]. rewrite E in H. discriminate.
      * destruct (_ && _); discriminate.
    + destruct (IHb z N Ab (or_introl C) Sb eq_refl) as [q Q]. cbn. rewrite Q. destruct (direct env a); cbn; eexists; reflexivity.
  - destruct A as [Nu Aa]. destruct (build a) as [a'|z] eqn:Ba.
    + pose proof (build_good _ _ N Aa Ba) as [Na Ka]. pose proof (build_agree env a a' N Aa C Ba) as Da. cbn [bind] in H.
      destruct a' as [v| |t]; [|congruence|].
      * ks; cbn in Da. destruct (direct env a) as [v'|q] eqn:Ea; [|destruct Da]. cbn in Da. subst v'. cbn in H |- *. rewrite Ea. cbn.
        destruct (unary u v) as [[y|y]|]; try discriminate; eexists; reflexivity.
      * cbn in H, Ka; ks. rewrite Ka in H. destruct u; try discriminate. congruence.
    + destruct (IHa z N Aa C S eq_refl) as [q Q]. exists q. cbn. now rewrite Q.
  - destruct A.
  - destruct S.
Qed.
(** * The same exception *)
Theorem build_exact : forall env e r, (forall v, number (vkind v) = true) -> binary_only V e ->
  build e = Ok r -> eval (handled env) r = bind (direct env e) (fun v => Ok (Plain v)).
Proof.
  assert (BA : forall e, binary_only V e -> arith V e).
  { induction e as [x k|v|o a IHa b IHb|c a IHa b IHb|u a IHa|a _ b _|c IHc a IHa b IHb]; cbn; try tauto. }
  intros env. induction e as [x k|v|o a IHa b IHb|c a IHa b IHb|u a IHa|a _ b _|c IHc a IHa b IHb]; intros r N A H; cbn in A, H; try (destruct A; fail).
  - injection H as <-. reflexivity.
  - injection H as <-. reflexivity.
  - destruct A as [Aa Ab]. destruct (build a) as [a'|x] eqn:Ba; [|discriminate]. destruct (build b) as [b'|x] eqn:Bb; [|discriminate]. cbn in H.
    rewrite binary_call in H by (first [exact (build_good _ _ N (BA _ Aa) Ba)|exact (build_good _ _ N (BA _ Ab) Bb)]). rewrite (eval_call_bin _ _ _ _ _ H). cbn [NumModel.direct].
    rewrite (IHa _ N Aa eq_refl), (IHb _ N Ab eq_refl). destruct (direct env a) as [v|x]; [|reflexivity].
    destruct (direct env b) as [w|x]; [|reflexivity]. cbn. now destruct (prim o v w).
  - destruct A as [Ac [Aa Ab]]. destruct (build c) as [c'|x] eqn:Bc; [|discriminate]. cbn [bind] in H.
    pose proof (IHc _ N Ac eq_refl) as Gc. destruct c' as [v| |t].
    + cbn [NumModel.direct]. destruct (direct env c) as [w|y]; ks; cbn in Gc; [|discriminate]. injection Gc as <-. cbn [bind]. destruct (truth v); auto.
    + discriminate.
    + destruct (build_good _ _ N (BA _ Ac) Bc) as [_ K]. cbn in K; ks. rewrite K in H. discriminate.
Qed.
(** * In stages *)
Section Stages.
Variable env1 env2 env3 : nat -> option operand.
Hypothesis some : forall x a, env1 x = Some a -> exists a', eval env2 a = Ok a' /\ env3 x = Some a'.
Hypothesis none : forall x, env1 x = None -> env3 x = env2 x.
Lemma stages_both : (forall a r, eval env1 a = Ok r -> eval env3 a = eval env2 r) /\
  (forall t r, eval_term V prim unary meth env1 t = Ok r -> eval_term V prim unary meth env3 t = eval env2 r).
Proof.
  apply (operand_term_ind V (fun a => forall r, eval env1 a = Ok r -> eval env3 a = eval env2 r)
           (fun t => forall r, eval_term V prim unary meth env1 t = Ok r -> eval_term V prim unary meth env3 t = eval env2 r)).
  - intros v r H. injection H as <-. reflexivity.
  - intros r H. injection H as <-. reflexivity.
  - intros t IH r H. now apply IH.
  - intros x k r H. change (Ok match env1 x with Some r => r | None => Term (NVar V x k) end = Ok r) in H. injection H as <-.
    change (Ok match env3 x with Some r => r | None => Term (NVar V x k) end = eval env2 match env1 x with Some r => r | None => Term (NVar V x k) end).
    destruct (env1 x) as [a|] eqn:E.
    + destruct (some x a E) as [a' [-> ->]]. reflexivity.
    + rewrite (none x E). reflexivity.
  - intros o a IHa b IHb r H. change (bind (eval env1 a) (fun a' => bind (eval env1 b) (fun b' => call_bin o a' b')) = Ok r) in H.
    destruct (eval env1 a) as [a'|x]; [|discriminate]. destruct (eval env1 b) as [b'|x]; [|discriminate]. cbn [bind] in H.
    change (bind (eval env3 a) (fun a' => bind (eval env3 b) (fun b' => call_bin o a' b')) = eval env2 r).
    rewrite (IHa _ eq_refl), (IHb _ eq_refl). symmetry. now apply eval_call_bin.
  - intros c a IHa b IHb r H. change (bind (eval env1 a) (fun a' => bind (eval env1 b) (fun b' => call_cmp c a' b')) = Ok r) in H.
    destruct (eval env1 a) as [a'|x]; [|discriminate]. destruct (eval env1 b) as [b'|x]; [|discriminate]. cbn [bind] in H.
    change (bind (eval env3 a) (fun a' => bind (eval env3 b) (fun b' => call_cmp c a' b')) = eval env2 r).
    rewrite (IHa _ eq_refl), (IHb _ eq_refl). symmetry. now apply eval_call_cmp.
  - intros u a IHa r H. change (bind (eval env1 a) (call_un u) = Ok r) in H. destruct (eval env1 a) as [a'|x]; [|discriminate]. cbn [bind] in H.
    change (bind (eval env3 a) (call_un u) = eval env2 r).
    rewrite (IHa _ eq_refl). symmetry. now apply eval_call_un.
Qed.
Theorem stages : forall a r, eval env1 a = Ok r -> eval env2 r = eval env3 a.
Proof. intros a r H. symmetry. now apply (proj1 stages_both). Qed.
Lemma stages_fail_both : (forall a x, eval env1 a = Exc x -> fails (eval env3 a)) /\
  (forall t x, eval_term V prim unary meth env1 t = Exc x -> fails (eval_term V prim unary meth env3 t)).
Proof.
  assert (K : forall a r, eval env1 a = Ok r -> (forall t, r <> Term t) -> eval env3 a = Ok r).
  { intros a r H N. rewrite <- (stages _ _ H). destruct r as [v| |t]; [reflexivity|reflexivity|exfalso; now apply (N t)]. }
  apply (operand_term_ind V (fun a => forall x, eval env1 a = Exc x -> fails (eval env3 a))
           (fun t => forall x, eval_term V prim unary meth env1 t = Exc x -> fails (eval_term V prim unary meth env3 t))).
  - discriminate.
  - discriminate.
  - intros t IH x H. now apply IH with x.
  - intros y k x H. discriminate.
  - intros o a IHa b IHb x H. change (bind (eval env1 a) (fun a' => bind (eval env1 b) (fun b' => call_bin o a' b')) = Exc x) in H.
    change (fails (bind (eval env3 a) (fun a' => bind (eval env3 b) (fun b' => call_bin o a' b')))).
    destruct (eval env1 a) as [a'|y] eqn:Ea; [|destruct (IHa y eq_refl) as [z ->]; now exists z].
    destruct (eval env1 b) as [b'|y] eqn:Eb; [|destruct (IHb y eq_refl) as [z ->]; destruct (eval env3 a); eexists; reflexivity].
    cbn [bind] in H. rewrite (K _ _ Ea), (K _ _ Eb); [exists x; exact H| |]; destruct a' as [v| |t], b' as [w| |u]; try discriminate.
  - intros c a IHa b IHb x H. change (bind (eval env1 a) (fun a' => bind (eval env1 b) (fun b' => call_cmp c a' b')) = Exc x) in H.
    change (fails (bind (eval env3 a) (fun a' => bind (eval env3 b) (fun b' => call_cmp c a' b')))).
    destruct (eval env1 a) as [a'|y] eqn:Ea; [|destruct (IHa y eq_refl) as [z ->]; now exists z].
    destruct (eval env1 b) as [b'|y] eqn:Eb; [|destruct (IHb y eq_refl) as [z ->]; destruct (eval env3 a); eexists; reflexivity].
    cbn [bind] in H. destruct a' as [v| |t], b' as [w| |u]; discriminate.
  - intros u a IHa x H. change (bind (eval env1 a) (call_un u) = Exc x) in H. change (fails (bind (eval env3 a) (call_un u))).
    destruct (eval env1 a) as [a'|y] eqn:Ea; [|destruct (IHa y eq_refl) as [z ->]; now exists z].
    cbn [bind] in H. rewrite (K _ _ Ea); [exists x; exact H|]. destruct a'; discriminate.
Qed.
Theorem stages_fail : forall a x, eval env1 a = Exc x -> fails (eval env3 a).
Proof. exact (proj1 stages_fail_both). Qed.
End Stages.
End Proofs.
