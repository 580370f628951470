(** Proofs about operations as methods. *)
From Coq Require Import String List Bool Arith Lia.
From Verif Require Import MethModel MethSpec.
Import ListNotations.
Open Scope list_scope.

(** ** Small facts *)

Lemma def_eqb_spec a b : reflect (a = b) (def_eqb a b).
Proof.
  destruct a as [a m], b as [b n]. unfold def_eqb. cbn. destruct (Nat.eqb_spec a b), (String.eqb_spec m n); subst; cbn; constructor; congruence.
Qed.
Lemma recv_eqb_spec a b : reflect (a = b) (recv_eqb a b).
Proof. destruct a as [a|a], b as [b|b]; cbn; try (constructor; congruence); destruct (Nat.eqb_spec a b); constructor; congruence. Qed.
Lemma op_eqb_spec a b : reflect (a = b) (op_eqb a b).
Proof.
  destruct a as [a|a], b as [b|b]; cbn; try (constructor; congruence); [destruct (def_eqb_spec a b)|destruct (Nat.eqb_spec a b)]; constructor; congruence.
Qed.
Lemma sop_eqb_spec a b : reflect (a = b) (sop_eqb a b).
Proof.
  destruct a as [a|o a|o a], b as [b|o' b|o' b]; cbn; try (constructor; congruence);
  [destruct (def_eqb_spec a b); constructor; congruence|..]; destruct (Nat.eqb_spec o o'), (def_eqb_spec a b); cbn; constructor; congruence.
Qed.
Lemma append_inj (p a b : string) : (p ++ a)%string = (p ++ b)%string -> a = b.
Proof. induction p as [|c p IH]; cbn; [trivial|]. intros H. injection H as H. now apply IH. Qed.
Section value_ind.
Variable O : Type.
Variable P : value O -> Prop.
Hypothesis H1 : forall n, P (VNum n).
Hypothesis H2 : forall o, P (VObj o).
Hypothesis H3 : forall c, P (VCls c).
Hypothesis H4 : forall p args, Forall P args -> P (VTerm p args).
Fixpoint value_rect' (v : value O) : P v :=
  match v with
  | VNum n => H1 n | VObj o => H2 o | VCls c => H3 c
  | VTerm p args => H4 p args ((fix go l : Forall P l := match l with [] => Forall_nil _ | x :: l' => Forall_cons _ (value_rect' x) (go l') end) args)
  end.
End value_ind.
Lemma resolve_some T l m d k : resolve T l m = Some (d, k) -> In d l /\ defined T k (d, m).
Proof.
  induction l as [|c l IH]; cbn; [discriminate|]. destruct (find_op (ops_of T c) m) as [[k' b]|] eqn:E.
  - intros H. injection H as <- <-. split; [now left|]. exists b. exact E.
  - intros H. destruct (IH H). split; [now right|assumption].
Qed.
Lemma after_in c l x : In x (after c l) -> In x l.
Proof. induction l as [|d l IH]; cbn; [trivial|]. destruct (Nat.eqb c d); intros H; right; auto. Qed.
Lemma find_op_in l m b : find_op l m = Some b -> In (m, b) l.
Proof. induction l as [|[n x] l IH]; cbn; [discriminate|]. destruct (String.eqb_spec n m); intros H; [left; congruence|right; auto]. Qed.
Lemma body_uncopied T d k b : plain T -> body_of T d = Some (k, b) -> uncopied b.
Proof.
  intros P H. unfold body_of, ops_of in H. destruct (nth_error T (fst d)) as [c|] eqn:E; [|discriminate]. apply find_op_in in H.
  exact (proj2 (P _ _ E) _ _ _ H).
Qed.

(** ** Without dataclasses, building a term leaves the arguments *)

Lemma same_or_new_plain T st o : plain T -> same_or_new T st o = (VObj o, st).
Proof.
  intros P. unfold same_or_new. destruct (class_of st o) as [c|]; [|reflexivity]. unfold is_data. destruct (nth_error T c) as [k|] eqn:E; [|reflexivity].
  now rewrite (proj1 (P _ _ E)).
Qed.
Lemma rebuild_plain T st v : plain T -> rebuild T st v = (v, st).
Proof.
  intros P. revert st. induction v as [n|o|c|p args IH] using value_rect'; intros st; cbn [rebuild]; try reflexivity; [now apply same_or_new_plain|].
  match goal with |- (let (_, _) := ?g st args in _) = _ => assert (E : forall l st, Forall (fun v => forall st, rebuild T st v = (v, st)) l -> g st l = (l, st)) end.
  { clear. intros l. induction l as [|x l IH]; intros st F; [reflexivity|]. inversion F; subst. rewrite H1. now rewrite IH. }
  now rewrite E.
Qed.
Lemma rebuild_all_plain T st l : plain T -> rebuild_all T st l = (l, st).
Proof. intros P. revert st. induction l as [|x l IH]; intros st; [reflexivity|]. cbn [rebuild_all]. rewrite rebuild_plain by assumption. now rewrite IH. Qed.
Lemma defdata_plain T st p args : plain T -> defdata T st p args = (Val (VTerm p args), st).
Proof. intros P. unfold defdata. now rewrite rebuild_all_plain. Qed.

(** ** The heap *)

Definition good (T : table) (r : recv) (k : kind) (d : def) : Prop :=
  match r, k with
  | RObj _, Method => defined T Method d
  | RCls c, ClassMethod => defined T ClassMethod d /\ In (fst d) (mro T c)
  | _, _ => False
  end.
Definition ok (T : table) (st : heap) : Prop :=
  (forall r k id, entry (dicts st) r k = Some id -> exists kd d, nth_error (made st) id = Some (r, kd, d) /\ k = key T kd d) /\
  (forall id r kd d, nth_error (made st) id = Some (r, kd, d) -> entry (dicts st) r (key T kd d) = Some id /\ good T r kd d).
Definition ext (st st' : heap) : Prop := exists l, made st' = made st ++ l.
Lemma ext_refl st : ext st st. Proof. exists []. now rewrite app_nil_r. Qed.
Lemma ext_trans a b c : ext a b -> ext b c -> ext a c.
Proof. intros [l E] [l' E']. exists (l ++ l'). now rewrite E', E, app_assoc. Qed.
Definition sop_of (r : recv) (d : def) : sop := match r with RObj o => SObj o d | RCls c => SCls c d end.
Lemma stands_inst st id r k d : nth_error (made st) id = Some (r, k, d) -> stands_for st (OpInst id) = Some (sop_of r d).
Proof. cbn. intros ->. now destruct r. Qed.
Lemma ext_stands st st' p q : ext st st' -> stands_for st p = Some q -> stands_for st' p = Some q.
Proof.
  intros [l E]. destruct p as [d|id]; [trivial|]. cbn. destruct (nth_error (made st) id) as [[[r k] d]|] eqn:Q; [|discriminate].
  rewrite E, nth_error_app1 by (apply nth_error_Some; congruence). now rewrite Q.
Qed.
Lemma ext_same st st' v v' : ext st st' -> same st v v' -> same st' v v'.
Proof.
  intros X. revert v'. induction v as [n|o|c|p args IH] using value_rect'; intros v' H; inversion H; subst; try constructor; [now apply (ext_stands st)|].
  revert args' H H4. induction IH as [|x l Hx _ IHl]; intros args' H F; inversion F; subst; constructor; [auto|]. eapply IHl; [|eassumption]. now constructor.
Qed.
Lemma ext_sames st st' l l' : ext st st' -> Forall2 (same st) l l' -> Forall2 (same st') l l'.
Proof. intros X. induction 1; constructor; [now apply (ext_same st)|assumption]. Qed.
Lemma key_inj T r k d k' d' : apart T -> good T r k d -> good T r k' d' -> key T k d = key T k' d' -> d = d' /\ k = k'.
Proof.
  intros [A1 A2] G G' E. destruct r as [o|c], k, k'; cbn [good] in G, G'; try contradiction; [split; [now apply A1|reflexivity]|].
  destruct G as [G I], G' as [G' I']. destruct d as [a m], d' as [b n]. unfold key in E. cbn [snd fst] in *. apply append_inj in E. subst n. split; [|reflexivity].
  f_equal. exact (A2 c m a b I I' G G').
Qed.
Lemma get_ok T st r k d p st' : apart T -> ok T st -> good T r k d -> get T st r k d = (p, st') ->
  ok T st' /\ ext st st' /\ objs st' = objs st /\ stands_for st' p = Some (sop_of r d).
Proof.
  intros A O G H. unfold get in H. destruct (entry (dicts st) r (key T k d)) as [id|] eqn:E.
  - injection H as <- <-. split; [assumption|]. split; [apply ext_refl|]. split; [reflexivity|]. destruct (proj1 O _ _ _ E) as [kd [d' [M K]]].
    destruct (proj2 O _ _ _ _ M) as [_ G']. destruct (key_inj T r k d kd d' A G G' K) as [-> _]. exact (stands_inst _ _ _ _ _ M).
  - injection H as <- <-. split; [split|split; [|split]].
    + cbn [dicts made entry]. intros r0 k0 id H. destruct (recv_eqb_spec r r0) as [<-|N].
      * destruct (String.eqb_spec (key T k d) k0) as [<-|N]; cbn [andb] in H.
        -- injection H as <-. exists k, d. rewrite nth_error_app2 by lia. rewrite Nat.sub_diag. now split.
        -- destruct (proj1 O _ _ _ H) as [kd [d' [M K]]]. exists kd, d'. split; [|assumption]. rewrite nth_error_app1 by (apply nth_error_Some; congruence). assumption.
      * cbn [andb] in H. destruct (proj1 O _ _ _ H) as [kd [d' [M K]]]. exists kd, d'. split; [|assumption]. rewrite nth_error_app1 by (apply nth_error_Some; congruence). assumption.
    + cbn [dicts made entry]. intros id r0 kd d0 H. destruct (Nat.lt_ge_cases id (length (made st))) as [L|L].
      * rewrite nth_error_app1 in H by assumption. destruct (proj2 O _ _ _ _ H) as [E0 G0]. split; [|assumption].
        destruct (recv_eqb_spec r r0) as [<-|N]; [|exact E0]. destruct (String.eqb_spec (key T k d) (key T kd d0)) as [Q|Q]; [congruence|exact E0].
      * rewrite nth_error_app2 in H by assumption. destruct (id - length (made st)) as [|n] eqn:Q; [|destruct n; discriminate]. cbn in H. injection H as <- <- <-.
        split; [|assumption]. destruct (recv_eqb_spec r r) as [_|N]; [|contradiction]. rewrite String.eqb_refl. cbn [andb]. f_equal. lia.
    + exists [(r, k, d)]. reflexivity.
    + reflexivity.
    + apply (stands_inst _ _ r k d). cbn [made]. rewrite nth_error_app2 by lia. now rewrite Nat.sub_diag.
Qed.
Lemma stands_inj T st p p' q : ok T st -> stands_for st p = Some q -> stands_for st p' = Some q -> p = p'.
Proof.
  intros O H H'. destruct p as [d|id], p' as [d'|id']; cbn in H, H'.
  - congruence.
  - destruct (nth_error (made st) id') as [[[[o|c] k] d0]|]; congruence.
  - destruct (nth_error (made st) id) as [[[[o|c] k] d0]|]; congruence.
  - destruct (nth_error (made st) id) as [[[r k] d]|] eqn:M; [|discriminate]. destruct (nth_error (made st) id') as [[[r' k'] d']|] eqn:M'; [|discriminate].
    assert (E : r = r' /\ d = d') by (destruct r, r'; split; congruence). destruct E as [-> ->]. destruct (proj2 O _ _ _ _ M) as [E1 G1], (proj2 O _ _ _ _ M') as [E2 G2].
    assert (k = k') by (destruct r', k, k'; cbn in G1, G2; try contradiction; reflexivity). subst k'. congruence.
Qed.
Lemma eqb_agree T st p p' q q' : ok T st -> stands_for st p = Some q -> stands_for st p' = Some q' -> op_eqb p p' = sop_eqb q q'.
Proof.
  intros O H H'. destruct (op_eqb_spec p p') as [->|N]; destruct (sop_eqb_spec q q') as [->|N']; try reflexivity; [congruence|]. exfalso. apply N. exact (stands_inj T st p p' q' O H H').
Qed.

(** ** Refinement *)

Definition clo (st : heap) (c : closure) (c' : sclosure) : Prop := Forall2 (same st) (fst c) (fst c') /\ snd c = snd c' /\ uncopied (snd c).
Definition ctxs (st : heap) (x : context) (x' : option (list sclosure * sop * list (value sop))) : Prop :=
  match x, x' with
  | None, None => True
  | Some (ch, p, a), Some (ch', p', a') => Forall2 (clo st) ch ch' /\ stands_for st p = Some p' /\ Forall2 (same st) a a'
  | _, _ => False
  end.
Definition hands (st : heap) (hs : handlers) (hs' : list (sop * sclosure)) : Prop :=
  Forall2 (fun h h' => stands_for st (fst h) = Some (fst h') /\ clo st (snd h) (snd h')) hs hs'.
Definition tasks (st : heap) (t : task) (t' : stask) : Prop :=
  match t, t' with
  | TEval x env e, SEval x' env' e' => ctxs st x x' /\ Forall2 (same st) env env' /\ e = e' /\ uncopied e
  | TCall p a, SCall p' a' => stands_for st p = Some p' /\ Forall2 (same st) a a'
  | TChain ch p a, SChain ch' p' a' => Forall2 (clo st) ch ch' /\ stands_for st p = Some p' /\ Forall2 (same st) a a'
  | TEvaluate v, SEvaluate v' => same st v v'
  | _, _ => False
  end.
Lemma ext_clo st st' c c' : ext st st' -> clo st c c' -> clo st' c c'.
Proof. intros X [H1 H2]. split; [now apply (ext_sames st)|assumption]. Qed.
Lemma ext_clos st st' l l' : ext st st' -> Forall2 (clo st) l l' -> Forall2 (clo st') l l'.
Proof. intros X. induction 1; constructor; [now apply (ext_clo st)|assumption]. Qed.
Lemma ext_ctxs st st' x x' : ext st st' -> ctxs st x x' -> ctxs st' x x'.
Proof.
  intros X. destruct x as [[[ch p] a]|], x' as [[[ch' p'] a']|]; cbn; try trivial. intros [H1 [H2 H3]].
  split; [now apply (ext_clos st)|]. split; [now apply (ext_stands st)|now apply (ext_sames st)].
Qed.
Lemma ext_hands st st' l l' : ext st st' -> hands st l l' -> hands st' l l'.
Proof. intros X. induction 1 as [|h h' l l' [H1 H2] _ IH]; constructor; [|assumption]. split; [now apply (ext_stands st)|now apply (ext_clo st)]. Qed.
Lemma chains T st hs hs' p p' : ok T st -> hands st hs hs' -> stands_for st p = Some p' ->
  Forall2 (clo st) (chain_of hs p) (map snd (filter (fun h : sop * sclosure => sop_eqb (fst h) p') hs')).
Proof.
  intros O H S. unfold chain_of. induction H as [|h h' l l' [H1 H2] _ IH]; [constructor|]. cbn [filter]. rewrite (eqb_agree T st _ _ _ _ O H1 S).
  destruct (sop_eqb (fst h') p'); [constructor; assumption|assumption].
Qed.
(** What relates results *)
Definition fine (T : table) (st : heap) (r : outcome (value op) * heap) (r' : outcome (value sop) * list nat) : Prop :=
  ok T (snd r) /\ ext st (snd r) /\ objs (snd r) = snd r' /\ same_outcome (snd r) (fst r) (fst r').
Definition fines (T : table) (st : heap) (r : outcome (list (value op)) * heap) (r' : outcome (list (value sop)) * list nat) : Prop :=
  ok T (snd r) /\ ext st (snd r) /\ objs (snd r) = snd r' /\
  match fst r, fst r' with Val l, Val l' => Forall2 (same (snd r)) l l' | Exc e, Exc e' => e = e' | _, _ => False end.
Lemma fine_ext T st st1 r r' : ext st st1 -> fine T st1 r r' -> fine T st r r'.
Proof. intros X [H1 [H2 H3]]. split; [assumption|]. split; [now apply (ext_trans st st1)|assumption]. Qed.
Lemma each_ok T A B go sgo (R : heap -> A -> B -> Prop) l l' : (forall st st' a b, ext st st' -> R st a b -> R st' a b) ->
  forall st0, (forall st a b, ext st0 st -> ok T st -> R st a b -> fine T st (go st a) (sgo (objs st) b)) ->
  forall st, ext st0 st -> ok T st -> Forall2 (R st) l l' -> fines T st (each go st l) (s_each sgo (objs st) l').
Proof.
  intros M st0 G. revert l'. induction l as [|a l IH]; intros l' st X O F; inversion F as [|? b ? k Hab Hl]; subst; cbn [each s_each].
  - split; [assumption|]. split; [apply ext_refl|]. split; [reflexivity|constructor].
  - specialize (G st a b X O Hab). destruct (go st a) as [[v|e] st1], (sgo (objs st) b) as [[v'|e'] cs1]; destruct G as [O1 [X1 [E1 S1]]]; cbn in O1, X1, E1, S1; try contradiction.
    + subst cs1. assert (F1 : Forall2 (R st1) l k) by (clear - M X1 Hl; induction Hl; constructor; [now apply (M st)|assumption]).
      assert (X01 := ext_trans _ _ _ X X1). specialize (IH k st1 X01 O1 F1). destruct (each go st1 l) as [[vs|e] st2], (s_each sgo (objs st1) k) as [[vs'|e'] cs2]; destruct IH as [O2 [X2 [E2 S2]]]; cbn in O2, X2, E2, S2; try contradiction.
      * split; [assumption|]. split; [now apply (ext_trans st st1)|]. split; [assumption|]. cbn. constructor; [now apply (ext_same st1)|assumption].
      * split; [assumption|]. split; [now apply (ext_trans st st1)|]. split; [assumption|]. exact S2.
    + split; [assumption|]. split; [assumption|]. split; [assumption|]. exact S1.
Qed.
Lemma attribute_ok T st v v' from m : apart T -> ok T st -> same st v v' -> (forall l x, In x (from l) -> In x l) ->
  let r := attribute T st v from m in let r' := s_attribute T (objs st) v' from m in
  ok T (snd r) /\ ext st (snd r) /\ objs (snd r) = objs st /\
  match fst r, r' with Val p, Val q => stands_for (snd r) p = Some q | Exc e, Exc e' => e = e' | _, _ => False end.
Proof.
  intros A O S F. inversion S as [n|o|c|p q args args' Hp Ha]; subst; cbn [attribute s_attribute].
  - exact (conj O (conj (ext_refl st) (conj eq_refl eq_refl))).
  - unfold class_of. destruct (nth_error (objs st) o) as [c|]; [|exact (conj O (conj (ext_refl st) (conj eq_refl eq_refl)))].
    destruct (resolve T (from (mro T c)) m) as [[d k]|] eqn:E; [|exact (conj O (conj (ext_refl st) (conj eq_refl eq_refl)))].
    destruct (resolve_some _ _ _ _ _ E) as [I D]. destruct k.
    + destruct (get T st (RObj o) Method (d, m)) as [p st'] eqn:Q. cbn. apply (get_ok T st (RObj o) Method (d, m) p st' A O D Q).
    + destruct (get T st (RCls c) ClassMethod (d, m)) as [p st'] eqn:Q. cbn. apply (get_ok T st (RCls c) ClassMethod (d, m) p st' A O (conj D (F _ _ I)) Q).
  - destruct (resolve T (from (mro T c)) m) as [[d k]|] eqn:E; [|exact (conj O (conj (ext_refl st) (conj eq_refl eq_refl)))].
    destruct (resolve_some _ _ _ _ _ E) as [I D]. destruct k.
    + exact (conj O (conj (ext_refl st) (conj eq_refl eq_refl))).
    + destruct (get T st (RCls c) ClassMethod (d, m)) as [p st'] eqn:Q. cbn. apply (get_ok T st (RCls c) ClassMethod (d, m) p st' A O (conj D (F _ _ I)) Q).
  - exact (conj O (conj (ext_refl st) (conj eq_refl eq_refl))).
Qed.
Lemma all_uncopied args : fold_right (fun e P => uncopied e /\ P) True args -> Forall uncopied args.
Proof. induction args; cbn; [constructor|]. intros [H1 H2]. constructor; auto. Qed.
Lemma nth_same st l l' i : Forall2 (same st) l l' -> match nth_error l i, nth_error l' i with Some v, Some v' => same st v v' | None, None => True | _, _ => False end.
Proof. intros F. revert i. induction F as [|x y l l' H F IH]; intros [|i]; cbn; [trivial|trivial|assumption|apply IH]. Qed.
Lemma fine_exc T st e : ok T st -> fine T st (Exc e, st) (Exc e, objs st).
Proof. intros O. split; [assumption|]. split; [apply ext_refl|]. now split. Qed.
Lemma fine_val T st v v' : ok T st -> same st v v' -> fine T st (Val v, st) (Val v', objs st).
Proof. intros O S. split; [assumption|]. split; [apply ext_refl|]. now split. Qed.

Section Run.
Variable T : table.
Hypothesis A : apart T.
Hypothesis P : plain T.
Definition agree (f : nat) : Prop := forall hs hs' st t t', ok T st -> hands st hs hs' -> tasks st t t' -> fine T st (run T f hs st t) (s_run T f hs' (objs st) t').
Section Step.
Variable f : nat.
Hypothesis IH : agree f.
Variables (hs : handlers) (hs' : list (sop * sclosure)).
(** The arguments of a call *)
Lemma args_ok st x x' env env' args : ok T st -> hands st hs hs' -> ctxs st x x' -> Forall2 (same st) env env' -> Forall uncopied args ->
  fines T st (each (fun st e => run T f hs st (TEval x env e)) st args) (s_each (fun cs e => s_run T f hs' cs (SEval x' env' e)) (objs st) args).
Proof.
  intros O H X E U.
  apply (each_ok T expr expr (fun st e => run T f hs st (TEval x env e)) (fun cs e => s_run T f hs' cs (SEval x' env' e)) (fun _ a b => a = b /\ uncopied a)) with (st0 := st).
  - intros s1 s2 a b _ Q. exact Q.
  - intros s1 a b X1 O1 [-> Ub]. apply IH; [assumption|now apply (ext_hands st)|]. cbn. split; [now apply (ext_ctxs st)|]. split; [now apply (ext_sames st)|now split].
  - apply ext_refl.
  - assumption.
  - clear - U. induction U; constructor; auto.
Qed.
Lemma invoke_ok st x x' env env' v v' from m args : ok T st -> hands st hs hs' -> ctxs st x x' -> Forall2 (same st) env env' -> Forall uncopied args ->
  same st v v' -> (forall l y, In y (from l) -> In y l) ->
  fine T st
    (match attribute T st v from m with
     | (Val p, st1) => match each (fun st e => run T f hs st (TEval x env e)) st1 args with
                       | (Val vs, st2) => run T f hs st2 (TCall p vs)
                       | (Exc e, st2) => (Exc e, st2)
                       end
     | (Exc e, st1) => (Exc e, st1)
     end)
    (match s_attribute T (objs st) v' from m with
     | Val p => match s_each (fun cs e => s_run T f hs' cs (SEval x' env' e)) (objs st) args with
                | (Val vs, cs2) => s_run T f hs' cs2 (SCall p vs)
                | (Exc e, cs2) => (Exc e, cs2)
                end
     | Exc e => (Exc e, objs st)
     end).
Proof.
  intros O H X E U S F. assert (Q := attribute_ok T st v v' from m A O S F). cbv zeta in Q.
  destruct (attribute T st v from m) as [[p|e] st1], (s_attribute T (objs st) v' from m) as [q|e']; cbn [fst snd] in Q; destruct Q as [O1 [X1 [E1 Q]]]; try contradiction.
  - apply (fine_ext T st st1); [assumption|]. rewrite <- E1.
    assert (B := args_ok st1 x x' env env' args O1 (ext_hands _ _ _ _ X1 H) (ext_ctxs _ _ _ _ X1 X) (ext_sames _ _ _ _ X1 E) U).
    destruct (each (fun st e => run T f hs st (TEval x env e)) st1 args) as [[vs|e] st2], (s_each (fun cs e => s_run T f hs' cs (SEval x' env' e)) (objs st1) args) as [[vs'|e'] cs2];
      destruct B as [O2 [X2 [E2 B]]]; cbn in O2, X2, E2, B; try contradiction.
    + subst cs2. apply (fine_ext T st1 st2); [assumption|]. apply IH; [assumption|apply (ext_hands st); [now apply (ext_trans st st1)|assumption]|]. split; [now apply (ext_stands st1)|assumption].
    + subst cs2 e'. apply (fine_ext T st1 st2); [assumption|]. now apply fine_exc.
  - subst e'. rewrite <- E1. apply (fine_ext T st st1); [assumption|]. now apply fine_exc.
Qed.
(** The default rule *)
Lemma default_ok st p p' args args' r r' : ok T st -> stands_for st p = Some p' -> Forall2 (same st) args args' -> fine T st r r' ->
  fine T st (match r with (Exc NotHandled, st') => defdata T st' p args | _ => r end)
            (match r' with (Exc NotHandled, cs') => (Val (VTerm p' args'), cs') | _ => r' end).
Proof.
  intros O S E F. destruct r as [[v|e] st1], r' as [[v'|e'] cs1]; destruct F as [O1 [X1 [E1 Q]]]; cbn [fst snd] in O1, X1, E1, Q; cbn [same_outcome] in Q; try contradiction.
  - now split.
  - subst e'. destruct e; try (now split). rewrite defdata_plain by assumption. subst cs1. apply (fine_ext T st st1); [assumption|]. apply fine_val; [assumption|].
    constructor; [now apply (ext_stands st)|now apply (ext_sames st)].
Qed.
End Step.

Ltac sub IH a := match goal with O : ok T ?st, H : hands ?st ?hs ?hs', X : ctxs ?st ?x ?x', E : Forall2 (same ?st) ?env ?env' |- _ =>
  let F := fresh "F" in assert (F : fine T st (run T _ hs st (TEval x env a)) (s_run T _ hs' (objs st) (SEval x' env' a)))
    by (apply IH; [exact O|exact H|cbn; repeat split; assumption]);
  let O1 := fresh "O" in let X1 := fresh "X" in let E1 := fresh "E" in let Q1 := fresh "Q" in
  destruct (run T _ hs st (TEval x env a)) as [[?v|?e] ?st], (s_run T _ hs' (objs st) (SEval x' env' a)) as [[?v|?e] ?cs];
  destruct F as [O1 [X1 [E1 Q1]]]; cbn [fst snd] in O1, X1, E1, Q1; cbn [same_outcome] in Q1; try contradiction; subst
 end.
Theorem run_agree f : agree f.
Proof.
  induction f as [|f IH]; intros hs hs' st t t' O H R; [now apply fine_exc|].
  destruct t as [x env e|p args|chain p args|v], t' as [x' env' e0|p' args'|chain' p' args'|v']; try contradiction.
  - destruct R as [X [E [<- U]]]. destruct e as [n|i|c|a b|a b|c|a|a m args|c m args|a m h b| | |a]; cbn [run s_run]; cbn [uncopied] in U.
    + apply fine_val; [assumption|constructor].
    + assert (N := nth_same st env env' i E). destruct (nth_error env i), (nth_error env' i); try contradiction; [now apply fine_val|now apply fine_exc].
    + apply fine_val; [assumption|constructor].
    + assert (B := args_ok f IH hs hs' st x x' env env' [a; b] O H X E (Forall_cons _ (proj1 U) (Forall_cons _ (proj2 U) (Forall_nil _)))).
      destruct (each (fun st e => run T f hs st (TEval x env e)) st [a; b]) as [[vs|e] st2], (s_each (fun cs e => s_run T f hs' cs (SEval x' env' e)) (objs st) [a; b]) as [[vs'|e'] cs2];
        destruct B as [O2 [X2 [E2 B]]]; cbn [fst snd] in O2, X2, E2, B; try contradiction; subst; [|apply (fine_ext T st st2); [assumption|now apply fine_exc]].
      apply (fine_ext T st st2); [assumption|].
      destruct B as [|v1 w1 l1 k1 S1 B]; [now apply fine_exc|]. destruct B as [|v2 w2 l2 k2 S2 B]; [destruct S1; now apply fine_exc|].
      destruct B as [|v3 w3 l3 k3 S3 B]; [|destruct S1, S2; now apply fine_exc]. destruct S1, S2; try (now apply fine_exc). apply fine_val; [assumption|constructor].
    + destruct U as [U1 U2]. sub IH a.
      * apply (fine_ext T st st0); [assumption|]. apply IH; [assumption|now apply (ext_hands st)|]. split; [now apply (ext_ctxs st)|]. split; [constructor; [assumption|now apply (ext_sames st)]|now split].
      * apply (fine_ext T st st0); [assumption|]. now apply fine_exc.
    + split; [exact O|]. split; [exists []; cbn; now rewrite app_nil_r|]. split; [reflexivity|]. cbn. constructor.
    + destruct U.
    + destruct U as [U1 U2]. apply all_uncopied in U2. sub IH a.
      * apply (fine_ext T st st0); [assumption|]. apply invoke_ok; try assumption; [now apply (ext_hands st)|now apply (ext_ctxs st)|now apply (ext_sames st)|trivial].
      * apply (fine_ext T st st0); [assumption|]. now apply fine_exc.
    + apply all_uncopied in U. assert (N := nth_same st env env' 0 E). destruct (nth_error env 0) as [v|], (nth_error env' 0) as [v'|]; try contradiction; [|now apply fine_exc].
      apply invoke_ok; try assumption. intros l y. apply after_in.
    + destruct U as [U1 [U2 U3]]. sub IH a.
      * apply (fine_ext T st st0); [assumption|]. assert (B := attribute_ok T st0 v v0 (fun l => l) m A O0 Q (fun _ _ q => q)). cbv zeta in B.
        destruct (attribute T st0 v (fun l => l) m) as [[p|e] st1], (s_attribute T (objs st0) v0 (fun l => l) m) as [q|e']; cbn [fst snd] in B; destruct B as [O1 [X1 [E1 B]]]; try contradiction.
        -- apply (fine_ext T st0 st1); [assumption|]. rewrite <- E1. assert (X01 := ext_trans _ _ _ X0 X1). apply IH; [assumption| |].
           ++ constructor; [|now apply (ext_hands st)]. cbn [fst snd]. split; [assumption|]. split; [now apply (ext_sames st)|]. now split.
           ++ split; [now apply (ext_ctxs st)|]. split; [now apply (ext_sames st)|]. now split.
        -- subst e'. rewrite <- E1. apply (fine_ext T st0 st1); [assumption|]. now apply fine_exc.
      * apply (fine_ext T st st0); [assumption|]. now apply fine_exc.
    + destruct x as [[[ch p] a]|], x' as [[[ch' p'] a']|]; try contradiction; [|now apply fine_exc]. apply IH; assumption.
    + now apply fine_exc.
    + sub IH a.
      * apply (fine_ext T st st0); [assumption|]. apply IH; [assumption|now apply (ext_hands st)|assumption].
      * apply (fine_ext T st st0); [assumption|]. now apply fine_exc.
  - destruct R as [S E]. cbn [run s_run]. apply IH; [assumption|assumption|]. split; [now apply (chains T)|]. now split.
  - destruct R as [C [S E]]. destruct C as [|[env h] [env' h'] chain chain' [C1 [C2 C3]] C].
    2:{ cbn [run s_run]. cbn [fst snd] in C1, C2, C3. subst h'. apply IH; [assumption|assumption|]. split; [now repeat split|]. split; [|now split]. now apply Forall2_app. }
    destruct p as [d|id].
    + cbn in S. injection S as <-. cbn [run s_run]. apply (default_ok st (OpDef d) (SDef d) args args'); [assumption|reflexivity|assumption|].
      destruct (body_of T d) as [[k b]|] eqn:D; [|now apply fine_exc]. apply IH; [assumption|assumption|]. split; [exact Logic.I|]. split; [assumption|]. split; [reflexivity|]. exact (body_uncopied T d k b P D).
    + assert (S' := S). cbn in S. destruct (nth_error (made st) id) as [[[r k] d]|] eqn:M; [|discriminate]. assert (G := proj2 (proj2 O _ _ _ _ M)).
      destruct r as [o|c].
      * injection S as <-. destruct k; [|contradiction]. cbn [run s_run]. apply (default_ok st (OpInst id) (SObj o d) args args'); [assumption|assumption|assumption|]. rewrite M.
        assert (F : fine T st (run T f hs st (TCall (OpDef d) (VObj o :: args))) (s_run T f hs' (objs st) (SCall (SDef d) (VObj o :: args')))).
        { apply IH; [assumption|assumption|]. split; [reflexivity|]. constructor; [constructor|assumption]. }
        destruct (run T f hs st (TCall (OpDef d) (VObj o :: args))) as [[v|e] st1], (s_run T f hs' (objs st) (SCall (SDef d) (VObj o :: args'))) as [[v'|e'] cs1];
          destruct F as [O1 [X1 [E1 Q]]]; cbn [fst snd] in O1, X1, E1, Q; cbn [same_outcome] in Q; try contradiction; subst cs1.
        2:{ subst e'. apply (fine_ext T st st1); [assumption|]. now apply fine_exc. }
        apply (fine_ext T st st1); [assumption|].
        destruct Q as [n|o0|c0|q q' l l' Sq Fl]; try (apply fine_val; [assumption|constructor]).
        destruct q as [d'|id'].
        -- cbn in Sq. injection Sq as <-. destruct Fl as [|y y' l l' Sy Fl]; [apply fine_val; [assumption|]; constructor; [reflexivity|constructor]|].
           destruct Sy as [n|o'|c0|q0 q1 l0 l1 Sq0 Fl0];
             try (apply fine_val; [assumption|]; constructor; [reflexivity|]; constructor; [constructor; assumption|assumption]).
           ++ destruct (def_eqb_spec d' d) as [->|N]; [|apply fine_val; [assumption|]; constructor; [reflexivity|]; constructor; [constructor|assumption]].
              destruct (get T st1 (RObj o') Method d) as [p' st2] eqn:Q. destruct (get_ok T st1 (RObj o') Method d p' st2 A O1 G Q) as [O2 [X2 [E2 S2]]].
              rewrite defdata_plain by assumption. rewrite <- E2. apply (fine_ext T st1 st2); [assumption|]. apply fine_val; [assumption|]. constructor; [assumption|now apply (ext_sames st1)].
        -- assert (NS : exists r0 d0, q' = sop_of r0 d0).
           { cbn in Sq. destruct (nth_error (made st1) id') as [[[r0 k0] d0]|]; [|discriminate]. exists r0, d0. destruct r0; injection Sq as <-; reflexivity. }
           destruct NS as [r0 [d0 ->]]. destruct r0; cbn [sop_of] in *; apply fine_val; try assumption; constructor; assumption.
      * injection S as <-. destruct k; [contradiction|]. cbn [run s_run]. apply (default_ok st (OpInst id) (SCls c d) args args'); [assumption|assumption|assumption|]. rewrite M.
        destruct (body_of T d) as [[k b]|] eqn:D; [|now apply fine_exc]. apply IH; [assumption|assumption|]. split; [exact Logic.I|].
        split; [constructor; [constructor|assumption]|]. split; [reflexivity|]. exact (body_uncopied T d k b P D).
  - cbn [tasks] in R. cbn [run s_run]. destruct R as [n|o|c|p q args args' Sp F]; try (apply fine_val; [assumption|constructor]).
    + rewrite same_or_new_plain by assumption. apply fine_val; [assumption|constructor].
    + assert (B := each_ok T (value op) (value sop) (fun st v => run T f hs st (TEvaluate v)) (fun cs v => s_run T f hs' cs (SEvaluate v)) same args args' (fun st st' a b X S => ext_same st st' a b X S) st).
      assert (B' := B (fun s1 a b X1 O1 S1 => IH hs hs' s1 (TEvaluate a) (SEvaluate b) O1 (ext_hands _ _ _ _ X1 H) S1) st (ext_refl st) O F). clear B.
      destruct (each (fun st v => run T f hs st (TEvaluate v)) st args) as [[vs|e] st2], (s_each (fun cs v => s_run T f hs' cs (SEvaluate v)) (objs st) args') as [[vs'|e'] cs2];
        destruct B' as [O2 [X2 [E2 B]]]; cbn [fst snd] in O2, X2, E2, B; try contradiction; subst; apply (fine_ext T st st2); try assumption; [|now apply fine_exc].
      apply IH; [assumption|now apply (ext_hands st)|]. split; [now apply (ext_stands st)|assumption].
Qed.
Lemma start_ok : ok T start.
Proof. split; [discriminate|]. intros [|id]; discriminate. Qed.
Theorem program_meaning fuel e r st : uncopied e -> program T fuel e = (r, st) -> exists r', meaning T fuel e = (r', objs st) /\ same_outcome st r r'.
Proof.
  intros U H. assert (F := run_agree fuel [] [] start (TEval None [] e) (SEval None [] e) start_ok (Forall2_nil _)).
  destruct F as [_ [_ [E S]]]; [repeat split; [constructor|assumption]|]. unfold program in H. rewrite H in E, S. unfold meaning. cbn [objs start] in E, S.
  destruct (s_run T fuel [] [] (SEval None [] e)) as [r' cs]. exists r'. cbn [fst snd] in E, S. now subst cs.
Qed.
End Run.
(** Two lookups give the same operation when they are of the same object and definition. *)
Lemma attribute_obj T st o m p st' : attribute T st (VObj o) (fun l => l) m = (Val p, st') ->
  exists c d k, class_of st o = Some c /\ resolve T (mro T c) m = Some (d, k) /\ get T st (match k with Method => RObj o | ClassMethod => RCls c end) k (d, m) = (p, st').
Proof.
  cbn [attribute]. destruct (class_of st o) as [c|]; [|discriminate]. destruct (resolve T (mro T c) m) as [[d k]|] eqn:E; [|discriminate]. intros H. exists c, d, k. split; [reflexivity|]. split; [assumption|].
  destruct k; destruct (get T st _ _ (d, m)) as [q s]; injection H as <- <-; reflexivity.
Qed.
Theorem own_operations T fuel e r st a b m n p q st1 st2 c d : apart T -> plain T -> uncopied e -> program T fuel e = (r, st) ->
  class_of st a = Some c -> resolve T (mro T c) m = Some (d, Method) ->
  attribute T st (VObj a) (fun l => l) m = (Val p, st1) -> attribute T st1 (VObj b) (fun l => l) n = (Val q, st2) ->
  (p = q <-> a = b /\ m = n) /\ forall x, p <> OpDef x.
Proof.
  intros A P U H C R H1 H2. assert (F := run_agree T A P fuel [] [] start (TEval None [] e) (SEval None [] e) (start_ok T) (Forall2_nil _)).
  destruct F as [O _]; [repeat split; [constructor|assumption]|]. unfold program in H. rewrite H in O. cbn [snd] in O.
  apply attribute_obj in H1. destruct H1 as [c1 [d1 [k1 [C1 [R1 G1]]]]]. rewrite C in C1. injection C1 as <-. rewrite R in R1. injection R1 as <- <-.
  apply attribute_obj in H2. destruct H2 as [c2 [d2 [k2 [C2 [R2 G2]]]]].
  destruct (resolve_some _ _ _ _ _ R) as [I1 D1]. destruct (resolve_some _ _ _ _ _ R2) as [I2 D2].
  destruct (get_ok T st (RObj a) Method (d, m) p st1 A O D1 G1) as [O1 [X1 [E1 S1]]].
  assert (G : good T (match k2 with Method => RObj b | ClassMethod => RCls c2 end) k2 (d2, n)) by (destruct k2; [exact D2|exact (conj D2 I2)]).
  destruct (get_ok T st1 _ k2 (d2, n) q st2 A O1 G G2) as [O2 [X2 [E2 S2]]]. apply (ext_stands st1 st2 p _ X2) in S1.
  split; [split|].
  - intros <-. rewrite S1 in S2. destruct k2; [|discriminate]. cbn in S2. now injection S2 as -> _ ->.
  - intros [<- <-]. unfold class_of in C, C2. rewrite E1, C in C2. injection C2 as <-. rewrite R in R2. injection R2 as <- <-. exact (stands_inj T st2 p q _ O2 S1 S2).
  - intros x ->. discriminate.
Qed.
