From Coq Require Import String List Bool Arith ZArith Lia.
From Verif Require Import RdrModel RdrSpec.
Import ListNotations.
Open Scope list_scope.

Lemma all_some_F2 : forall (A B : Type) (f : A -> option B) l r,
  all_some (map f l) = Some r <-> Forall2 (fun x y => f x = Some y) l r.
Proof.
  intros A B f. induction l as [|x l IH]; intros r; cbn [map all_some].
  - split; intros H; [injection H as <-; constructor | inversion H; reflexivity].
  - split; intros H.
    + destruct (f x) as [y|] eqn:E; [|discriminate].
      destruct (all_some (map f l)) as [q|]; [|discriminate].
      injection H as <-. constructor; [exact E | apply IH; reflexivity].
    + inversion H as [|? y ? q E F]; subst. rewrite E.
      apply IH in F. rewrite F. reflexivity.
Qed.

Lemma F2_impl : forall (A B : Type) (P Q : A -> B -> Prop) l r,
  (forall x y, P x y -> Q x y) -> Forall2 P l r -> Forall2 Q l r.
Proof. intros A B P Q l r H F. induction F; constructor; auto. Qed.

(** trees *)
Fixpoint tree_ind' (P : tree -> Prop) (a : forall z, P (TInt z)) (b : forall s, P (TStr s)) (c : P TOpaque)
  (d : forall l, Forall P l -> P (TList l)) (t : tree) {struct t} : P t :=
  match t with
  | TInt z => a z
  | TStr s => b s
  | TOpaque => c
  | TList l => d l ((fix go (l : list tree) : Forall P l :=
                       match l with
                       | [] => Forall_nil P
                       | t :: l => Forall_cons t (tree_ind' P a b c d t) (go l)
                       end) l)
  end.

Lemma dump_schema : forall t j, dump t = Some j -> schema (nested t) = true.
Proof.
  induction t as [z|s| |l IH] using tree_ind'; intros j H; cbn [dump nested schema] in *; auto; try discriminate.
  destruct (all_some (map dump l)) as [js|] eqn:E; [|discriminate].
  apply all_some_F2 in E. destruct l as [|t l]; cbn [map]; [reflexivity|].
  destruct (forallb (ty_eqb (nested t)) (map nested l)); cbn [schema]; [|reflexivity].
  inversion IH as [|? ? P _]; subst. inversion E as [|? y ? ? Q _]; subst. exact (P _ Q).
Qed.

Lemma deep_S : forall d h v, deep (S d) h v =
  match v with
  | VInt z => Some (TInt z) | VStr s => Some (TStr s) | VOpaque => Some TOpaque
  | VRef r => match nth_error h r with
              | None => None
              | Some vs => match all_some (map (deep d h) vs) with Some ts => Some (TList ts) | None => None end
              end
  end.
Proof. reflexivity. Qed.

Lemma deep_contents : forall d h v t j, deep d h v = Some t -> dump t = Some j -> Contents h d v j.
Proof.
  induction d as [|d IH]; intros h v t j H D; [discriminate|].
  rewrite deep_S in H. destruct v as [z|s| |r].
  - injection H as <-. injection D as <-. constructor.
  - injection H as <-. injection D as <-. constructor.
  - injection H as <-. discriminate.
  - destruct (nth_error h r) as [vs|] eqn:N; [|discriminate].
    destruct (all_some (map (deep d h) vs)) as [ts|] eqn:A; [|discriminate].
    injection H as <-. cbn [dump] in D.
    destruct (all_some (map dump ts)) as [js|] eqn:B; [|discriminate].
    injection D as <-. apply all_some_F2 in A. apply all_some_F2 in B.
    apply c_ref with (vs := vs); [exact N|]. clear N.
    revert js B. induction A as [|v t vs ts E A IA]; intros js B; inversion B; subst; constructor.
    + eapply IH; eassumption.
    + apply IA. assumption.
Qed.

Lemma contents_deep : forall d h v j, Contents h d v j -> exists t, deep d h v = Some t /\ dump t = Some j.
Proof.
  induction d as [|d IH]; intros h v j C; inversion C as [? z|? s|? r vs js N F]; subst; rewrite deep_S.
  - exists (TInt z); auto.
  - exists (TStr s); auto.
  - rewrite N.
    assert (X : exists ts, Forall2 (fun x y => deep d h x = Some y) vs ts /\ Forall2 (fun x y => dump x = Some y) ts js).
    { clear C N. induction F as [|v j vs js P F IF]; [exists []; split; constructor|].
      destruct IF as (ts & X & Y). destruct (IH _ _ _ P) as (t & T & U).
      exists (t :: ts). split; constructor; assumption. }
    destruct X as (ts & X & Y). apply all_some_F2 in X. apply all_some_F2 in Y.
    rewrite X. exists (TList ts). split; [reflexivity|]. cbn [dump]. rewrite Y. reflexivity.
Qed.

Lemma answer_contents : forall limit h v j, answer limit h v = Some j <-> Contents h limit v j.
Proof.
  intros limit h v j. unfold answer. split; intros H.
  - destruct (deep limit h v) as [t|] eqn:E; [|discriminate].
    destruct (schema (nested t)); [|discriminate]. eapply deep_contents; eassumption.
  - destruct (contents_deep _ _ _ _ H) as (t & E & D). rewrite E, (dump_schema _ _ D). exact D.
Qed.

Lemma deep_shallow : forall d h v, (exists t, deep d h v = Some t) <-> Shallow h d v.
Proof.
  induction d as [|d IH]; intros h v.
  - split; [intros (t & E); discriminate | intros H; inversion H].
  - rewrite deep_S. destruct v as [z|s| |r].
    + split; [constructor | eauto].
    + split; [constructor | eauto].
    + split; [constructor | eauto].
    + split.
      * intros (t & E). destruct (nth_error h r) as [vs|] eqn:N; [|discriminate].
        destruct (all_some (map (deep d h) vs)) as [ts|] eqn:A; [|discriminate].
        apply all_some_F2 in A. apply s_ref with (vs := vs); [exact N|].
        clear N E. induction A; constructor; eauto. apply IH. eauto.
      * intros H. inversion H as [| | |? ? vs N F]; subst. rewrite N.
        assert (X : exists ts, Forall2 (fun x y => deep d h x = Some y) vs ts).
        { clear H N. induction F as [|v vs P F IF]; [exists []; constructor|].
          destruct IF as (ts & X). apply IH in P. destruct P as (t & T).
          exists (t :: ts). constructor; assumption. }
        destruct X as (ts & X). apply all_some_F2 in X. rewrite X. eauto.
Qed.

(** offers *)
Lemma offer_none : forall limit h e,
  offer limit h e = None <-> exists n v, In (n, v) e /\ ~ Shallow h limit v.
Proof.
  intros limit h. induction e as [|(n, v) e IH]; cbn [offer].
  - split; [discriminate | intros (n & v & [] & _)].
  - unfold probe. destruct (deep limit h v) as [t|] eqn:E.
    + assert (Sv : Shallow h limit v) by (apply deep_shallow; eauto).
      assert (X : (exists n0 v0, In (n0, v0) ((n, v) :: e) /\ ~ Shallow h limit v0)
                  <-> (exists n0 v0, In (n0, v0) e /\ ~ Shallow h limit v0)).
      { split; intros (m & w & I & N); exists m, w; (split; [|exact N]); [|right; exact I].
        destruct I as [I|I]; [|exact I]. injection I as <- <-. contradiction. }
      rewrite X, <- IH.
      destruct (schema (nested t)); [|tauto].
      destruct (offer limit h e); split; congruence.
    + split; [intros _ | reflexivity]. exists n, v. split; [left; reflexivity|].
      intros Sv. apply deep_shallow in Sv. destruct Sv as (t & T). congruence.
Qed.

Lemma offer_sub : forall limit h e caps n v, offer limit h e = Some caps -> In (n, v) caps -> In (n, v) e.
Proof.
  intros limit h. induction e as [|(m, w) e IH]; intros caps n v O I; cbn [offer] in O.
  - injection O as <-. destruct I.
  - destruct (probe limit h w); [| |discriminate].
    + destruct (offer limit h e) as [r|]; [|discriminate]. injection O as <-.
      destruct I as [I|I]; [left; exact I | right; eapply IH; eauto].
    + right. eapply IH; eauto.
Qed.

Lemma probe_readable : forall limit h v j, Contents h limit v j -> probe limit h v = Offered.
Proof.
  intros limit h v j C. destruct (contents_deep _ _ _ _ C) as (t & T & D).
  unfold probe. rewrite T, (dump_schema _ _ D). reflexivity.
Qed.

Lemma offer_readable : forall limit h e caps n v j, offer limit h e = Some caps ->
  In (n, v) e -> Contents h limit v j -> In (n, v) caps.
Proof.
  intros limit h. induction e as [|(m, w) e IH]; intros caps n v j O I C; [destruct I|].
  cbn [offer] in O. destruct I as [I|I].
  - injection I as -> ->. rewrite (probe_readable _ _ _ _ C) in O.
    destruct (offer limit h e); [|discriminate]. injection O as <-. left; reflexivity.
  - destruct (probe limit h w); [| |discriminate].
    + destruct (offer limit h e) as [r|]; [|discriminate]. injection O as <-. right. eapply IH; eauto.
    + eapply IH; eauto.
Qed.

Lemma lookup_in : forall n v e, lookup n e = Some v -> In (n, v) e.
Proof.
  intros n v. induction e as [|(m, w) e IH]; cbn [lookup]; [discriminate|].
  destruct (String.eqb_spec n m) as [->|]; intros H; [injection H as <-; left; reflexivity | right; auto].
Qed.

Lemma in_lookup : forall n v e, NoDup (map fst e) -> In (n, v) e -> lookup n e = Some v.
Proof.
  intros n v. induction e as [|(m, w) e IH]; intros N I; [destruct I|].
  cbn [map fst] in N. inversion N as [|? ? A B]; subst. cbn [lookup].
  destruct I as [I|I].
  - injection I as -> ->. rewrite String.eqb_refl. reflexivity.
  - destruct (String.eqb_spec n m) as [->|]; [|auto].
    elim A. apply in_map_iff. exists (m, v). auto.
Qed.

Lemma offer_lookup : forall limit h e caps n v, NoDup (map fst e) -> offer limit h e = Some caps ->
  lookup n caps = Some v -> lookup n e = Some v.
Proof. intros. apply in_lookup; auto. eapply offer_sub; eauto using lookup_in. Qed.

(** runs *)
Lemma acts_cons : forall c l s, reached s (c :: l) =
  reached (match c with Exec a => fold_left do_act a s | Read _ => s end) l.
Proof. intros c l s. unfold reached, acts. destruct c; cbn [flat_map]; [reflexivity | apply fold_left_app]. Qed.

Definition ok (x : outcome) : Prop := x <> Broke.

(** the outcome at a position, in terms of the code run before it *)
Lemma run_at : forall limit caps pre s n post o s',
  run limit caps s (pre ++ Read n :: post) = (o, s') -> (length pre < length o)%nat ->
  nth_error o (length pre) = Some
    match lookup n caps with
    | None => Broke
    | Some v => match answer limit (snd (reached s pre)) v with Some j => Said j | None => Broke end
    end.
Proof.
  intros limit caps. induction pre as [|c pre IH]; intros s n post o s' H L; cbn [app run length] in *.
  - unfold reached, acts; cbn [flat_map fold_left].
    destruct (lookup n caps) as [v|]; [|injection H as <- _; reflexivity].
    destruct (answer limit (snd s) v) as [j|]; [|injection H as <- _; reflexivity].
    destruct (run limit caps s post) as [o1 s1]. injection H as <- _. reflexivity.
  - rewrite acts_cons. destruct c as [m|a].
    + destruct (lookup m caps) as [v|]; [|injection H as <- _; cbn [length] in L; lia].
      destruct (answer limit (snd s) v) as [j|]; [|injection H as <- _; cbn [length] in L; lia].
      destruct (run limit caps s (pre ++ Read n :: post)) as [o1 s1] eqn:R.
      injection H as <- <-. cbn [nth_error length] in *. eapply IH; [exact R | lia].
    + destruct (run limit caps (fold_left do_act a s) (pre ++ Read n :: post)) as [o1 s1] eqn:R.
      injection H as <- <-. cbn [nth_error length] in *. eapply IH; [exact R | lia].
Qed.

Lemma run_fine_state : forall limit caps l s o s',
  run limit caps s l = (o, s') -> ~ In Broke o -> s' = reached s l /\ length o = length l.
Proof.
  intros limit caps. induction l as [|c l IH]; intros s o s' H N; cbn [run] in H.
  - injection H as <- <-. split; reflexivity.
  - rewrite acts_cons. destruct c as [n|a].
    + destruct (lookup n caps) as [v|]; [|injection H as <- _; elim N; left; reflexivity].
      destruct (answer limit (snd s) v) as [j|]; [|injection H as <- _; elim N; left; reflexivity].
      destruct (run limit caps s l) as [o1 s1] eqn:R. injection H as <- <-.
      destruct (IH _ _ _ R) as (A & B); [intros X; apply N; right; exact X|].
      split; [exact A | cbn [length]; lia].
    + destruct (run limit caps (fold_left do_act a s) l) as [o1 s1] eqn:R. injection H as <- <-.
      destruct (IH _ _ _ R) as (A & B); [intros X; apply N; right; exact X|].
      split; [exact A | cbn [length]; lia].
Qed.

Lemma run_short : forall limit caps l s o s',
  run limit caps s l = (o, s') -> In Broke o -> exists o', o = o' ++ [Broke] /\ ~ In Broke o'.
Proof.
  intros limit caps. induction l as [|c l IH]; intros s o s' H B; cbn [run] in H.
  - injection H as <- <-. destruct B.
  - destruct c as [n|a].
    + destruct (lookup n caps) as [v|]; [|injection H as <- _; exists []; auto].
      destruct (answer limit (snd s) v) as [j|]; [|injection H as <- _; exists []; auto].
      destruct (run limit caps s l) as [o1 s1] eqn:R. injection H as <- <-.
      destruct B as [B|B]; [discriminate|]. destruct (IH _ _ _ R B) as (o' & -> & N).
      exists (Said j :: o'). split; [reflexivity|]. intros [X|X]; [discriminate | exact (N X)].
    + destruct (run limit caps (fold_left do_act a s) l) as [o1 s1] eqn:R. injection H as <- <-.
      destruct B as [B|B]; [discriminate|]. destruct (IH _ _ _ R B) as (o' & -> & N).
      exists (Did :: o'). split; [reflexivity|]. intros [X|X]; [discriminate | exact (N X)].
Qed.

(** assignments do not reach readers already offered *)
Definition keeps (x : act) : bool := match x with Rebind _ _ => false | _ => true end.
Lemma heap_only : forall a s1 s2, snd s1 = snd s2 ->
  snd (fold_left do_act a s1) = snd (fold_left do_act (filter keeps a) s2).
Proof.
  induction a as [|x a IH]; intros s1 s2 E; [exact E|].
  cbn [fold_left filter]. destruct x as [n v|r vs|vs]; cbn [keeps].
  - apply IH. exact E.
  - cbn [fold_left]. apply IH. cbn. rewrite E. reflexivity.
  - cbn [fold_left]. apply IH. cbn. rewrite E. reflexivity.
Qed.

Lemma run_no_assignments : forall limit caps l s1 s2, snd s1 = snd s2 ->
  fst (run limit caps s1 l) = fst (run limit caps s2 (no_assignments l)).
Proof.
  intros limit caps. induction l as [|c l IH]; intros s1 s2 E; [reflexivity|].
  destruct c as [n|a]; cbn [no_assignments map run].
  - rewrite E. destruct (lookup n caps) as [v|]; [|reflexivity].
    destruct (answer limit (snd s2) v) as [j|]; [|reflexivity].
    specialize (IH s1 s2 E). unfold no_assignments in IH.
    destruct (run limit caps s1 l), (run limit caps s2 (map _ l)). cbn [fst] in *. congruence.
  - specialize (IH _ _ (heap_only a s1 s2 E)). unfold no_assignments, keeps in IH.
    destruct (run limit caps (fold_left do_act a s1) l),
      (run limit caps (fold_left do_act (filter _ a) s2) (map _ l)). cbn [fst] in *. congruence.
Qed.

Lemma reached_only_code : forall l s, reached s (only_code l) = reached s l.
Proof.
  induction l as [|c l IH]; intros s; [reflexivity|].
  rewrite acts_cons. destruct c as [n|a]; cbn [only_code filter].
  - apply IH.
  - rewrite acts_cons. apply IH.
Qed.

Lemma run_only_code : forall limit caps l s, snd (run limit caps s (only_code l)) = reached s l.
Proof.
  intros limit caps l s. rewrite <- reached_only_code.
  revert s. induction l as [|c l IH]; intros s; [reflexivity|].
  destruct c as [n|a]; cbn [only_code filter]; [apply IH|].
  rewrite acts_cons. cbn [run]. specialize (IH (fold_left do_act a s)). unfold only_code in IH.
  destruct (run limit caps (fold_left do_act a s) (filter _ l)). exact IH.
Qed.

(** rounds *)
Lemma round_state : forall limit s l r s', round limit s l = (r, s') -> fine r = true -> s' = reached s l.
Proof.
  intros limit s l r s' H F. unfold round in H.
  destruct (offer limit (snd s) (fst s)) as [caps|]; [|injection H as <- <-; discriminate].
  destruct (forallb (known caps) l); [|injection H as <- <-; discriminate].
  destruct (run limit caps s l) as [o s1] eqn:R. injection H as <- <-. cbn [fine] in F.
  eapply run_fine_state; [exact R|]. intros B.
  rewrite forallb_forall in F. specialize (F _ B). discriminate.
Qed.

Lemma reached_app : forall l1 l2 s, reached s (l1 ++ l2) = reached (reached s l1) l2.
Proof. intros. unfold reached, acts. rewrite flat_map_app. apply fold_left_app. Qed.

Lemma rounds_at : forall limit pre s l r, nth_error (rounds limit s (pre ++ [l])) (length pre) = Some r ->
  r = fst (round limit (reached s (concat pre)) l).
Proof.
  intros limit. induction pre as [|p pre IH]; intros s l r H; cbn [app rounds length concat] in *.
  - destruct (round limit s l) as [r1 s1] eqn:R. cbn [nth_error] in H. injection H as <-.
    unfold reached, acts. cbn [flat_map fold_left]. rewrite R. reflexivity.
  - destruct (round limit s p) as [r1 s1] eqn:R. cbn [nth_error] in H.
    destruct (fine r1) eqn:F; [|destruct (length pre); discriminate].
    rewrite reached_app, <- (round_state _ _ _ _ _ R F). apply IH. exact H.
Qed.

Lemma assign_keys : forall n v e, NoDup (map fst e) -> NoDup (map fst (assign n v e)).
Proof.
  intros n v e. assert (K : forall e m, In m (map fst (assign n v e)) -> m = n \/ In m (map fst e)).
  { clear e. induction e as [|(k, w) e IH]; intros m I; cbn [assign map fst] in *.
    - destruct I as [I|[]]. left; auto.
    - destruct (String.eqb_spec n k) as [->|]; [right; exact I|].
      destruct I as [I|I]; [right; left; exact I|]. destruct (IH _ I); [left|right; right]; auto. }
  induction e as [|(k, w) e IH]; intros N; cbn [assign map fst] in *.
  - constructor; [intros [] | constructor].
  - inversion N as [|? ? A B]; subst. destruct (String.eqb_spec n k) as [->|D]; [exact N|].
    cbn [map fst]. constructor; [|auto]. intros I. destruct (K _ _ I) as [X|X]; [congruence | exact (A X)].
Qed.
Lemma reached_keys : forall l s, NoDup (map fst (fst s)) -> NoDup (map fst (fst (reached s l))).
Proof.
  intros l s. unfold reached. generalize (acts l) as a. intros a. revert s.
  induction a as [|x a IH]; intros s N; [exact N|]. cbn [fold_left]. apply IH.
  destruct x; cbn [do_act fst]; auto using assign_keys.
Qed.

Lemma lookup_assign : forall n v e, lookup n (assign n v e) = Some v.
Proof.
  intros n v. induction e as [|(m, w) e IH]; cbn [assign lookup].
  - rewrite String.eqb_refl. reflexivity.
  - destruct (String.eqb n m) eqn:E; cbn [lookup]; rewrite E; auto.
Qed.

(** an answer anywhere in a template call *)
Lemma said_contents : forall limit s batches pre n post o j, NoDup (map fst (fst s)) ->
  nth_error (rounds limit s (batches ++ [pre ++ Read n :: post])) (length batches) = Some (Ran o) ->
  nth_error o (length pre) = Some (Said j) ->
  exists v, lookup n (fst (reached s (concat batches))) = Some v /\
    Contents (snd (reached s (concat batches ++ pre))) limit v j.
Proof.
  intros limit s batches pre n post o j N H A.
  apply rounds_at in H. rewrite reached_app.
  assert (N' := reached_keys (concat batches) s N).
  set (q := reached s (concat batches)) in *. clearbody q. unfold round in H.
  destruct (offer limit (snd q) (fst q)) as [caps|] eqn:O; [|discriminate].
  destruct (forallb (known caps) (pre ++ Read n :: post)); [|discriminate].
  destruct (run limit caps q (pre ++ Read n :: post)) as [o1 s1] eqn:R. cbn [fst] in H. injection H as ->.
  assert (L : (length pre < length o1)%nat) by (apply nth_error_Some; congruence).
  rewrite (run_at _ _ _ _ _ _ _ _ R L) in A.
  destruct (lookup n caps) as [v|] eqn:E; [|discriminate].
  destruct (answer limit (snd (reached q pre)) v) as [k|] eqn:Q; [|discriminate].
  injection A as ->. exists v. split; [eapply offer_lookup; eassumption | apply answer_contents; exact Q].
Qed.

Lemma contents_said : forall limit s batches pre n post o v j, NoDup (map fst (fst s)) ->
  nth_error (rounds limit s (batches ++ [pre ++ Read n :: post])) (length batches) = Some (Ran o) ->
  (length pre < length o)%nat ->
  lookup n (fst (reached s (concat batches))) = Some v ->
  Contents (snd (reached s (concat batches ++ pre))) limit v j ->
  nth_error o (length pre) = Some (Said j).
Proof.
  intros limit s batches pre n post o v j N H L E C.
  apply rounds_at in H. rewrite reached_app in C.
  assert (N' := reached_keys (concat batches) s N).
  set (q := reached s (concat batches)) in *. clearbody q. unfold round in H.
  destruct (offer limit (snd q) (fst q)) as [caps|] eqn:O; [|discriminate].
  destruct (forallb (known caps) (pre ++ Read n :: post)) eqn:K; [|discriminate].
  destruct (run limit caps q (pre ++ Read n :: post)) as [o1 s1] eqn:R. cbn [fst] in H. injection H as ->.
  rewrite (run_at _ _ _ _ _ _ _ _ R L).
  assert (Kn : known caps (Read n) = true)
    by (rewrite forallb_forall in K; apply K; apply in_or_app; right; left; reflexivity).
  cbn [known] in Kn. destruct (lookup n caps) as [w|] eqn:W; [|discriminate].
  assert (X := offer_lookup _ _ _ _ _ _ N' O W). rewrite E in X. injection X as <-.
  apply answer_contents in C. rewrite C. reflexivity.
Qed.

Lemma cycle_deep : forall limit, deep limit [[VRef 0]] (VRef 0) = None.
Proof.
  induction limit as [|limit IH]; [reflexivity|].
  rewrite deep_S. cbn [nth_error map all_some]. rewrite IH. reflexivity.
Qed.

Lemma cycle_offer : forall n limit others, offer limit [[VRef 0]] (others ++ [(n, VRef 0)]) = None.
Proof.
  intros n limit others. apply offer_none. exists n, (VRef 0).
  split; [apply in_or_app; right; left; reflexivity|].
  intros H. apply deep_shallow in H. destruct H as (t & T). rewrite cycle_deep in T. discriminate.
Qed.

Lemma cycle_round : forall n limit others l,
  rounds limit (others ++ [(n, VRef 0)], [[VRef 0]]) [l] = [NoRequest].
Proof.
  intros n limit others l. cbn [rounds]. unfold round. cbn [fst snd]. rewrite cycle_offer. reflexivity.
Qed.

Lemma lookup_none : forall n e, lookup n e = None <-> ~ In n (map fst e).
Proof.
  intros n. induction e as [|(m, w) e IH]; cbn [lookup map fst In]; [tauto|].
  destruct (String.eqb_spec n m) as [->|D]; [split; [discriminate | tauto]|].
  rewrite IH. intuition congruence.
Qed.

Lemma round_undecodable : forall limit s l caps, offer limit (snd s) (fst s) = Some caps ->
  (fst (round limit s l) = Undecodable <-> exists n, In (Read n) l /\ ~ In n (map fst caps)) /\
  (fst (round limit s l) = Undecodable -> snd (round limit s l) = s).
Proof.
  intros limit s l caps O. unfold round. rewrite O.
  destruct (forallb (known caps) l) eqn:K.
  - destruct (run limit caps s l) as [o s1]. cbn [fst snd]. split; [|discriminate].
    split; [discriminate|]. intros (n & I & N). rewrite forallb_forall in K.
    specialize (K _ I). cbn [known] in K. apply lookup_none in N. rewrite N in K. discriminate.
  - cbn [fst snd]. split; [|reflexivity]. split; [intros _|reflexivity].
    induction l as [|c l IH]; [discriminate|]. cbn [forallb] in K. apply andb_false_iff in K.
    destruct K as [K|K].
    + destruct c as [n|a]; [|discriminate]. exists n. split; [left; reflexivity|].
      apply lookup_none. cbn [known] in K. destruct (lookup n caps); [discriminate | reflexivity].
    + destruct (IH K) as (n & I & N). exists n. split; [right; exact I | exact N].
Qed.

Lemma rounds_stop : forall limit ls s k r, nth_error (rounds limit s ls) k = Some r ->
  r = NoRequest \/ r = Undecodable \/ (exists o, r = Ran o /\ In Broke o) ->
  length (rounds limit s ls) = S k.
Proof.
  intros limit. induction ls as [|l ls IH]; intros s k r H B; [destruct k; discriminate|].
  cbn [rounds] in *. destruct (round limit s l) as [r1 s1]. destruct k as [|k]; cbn [nth_error] in H.
  - injection H as ->. assert (F : fine r = false).
    { destruct B as [->|[->|(o & -> & I)]]; try reflexivity. cbn [fine].
      destruct (forallb _ o) eqn:F; [|reflexivity]. rewrite forallb_forall in F. specialize (F _ I). discriminate. }
    rewrite F. reflexivity.
  - destruct (fine r1); [|destruct k; discriminate]. cbn [length]. f_equal. eapply IH; eassumption.
Qed.

Lemma rounds_go : forall limit ls s, (forall r, In r (rounds limit s ls) -> fine r = true) ->
  length (rounds limit s ls) = length ls.
Proof.
  intros limit. induction ls as [|l ls IH]; intros s H; [reflexivity|].
  cbn [rounds] in *. destruct (round limit s l) as [r1 s1].
  assert (F : fine r1 = true) by (apply H; left; reflexivity).
  rewrite F in *. cbn [length]. f_equal. apply IH.
  intros r I. apply H. right. exact I.
Qed.

Lemma rounds_all : forall limit ls s,
  (forall r, In r (rounds limit s ls) -> exists o, r = Ran o /\ ~ In Broke o) ->
  length (rounds limit s ls) = length ls.
Proof.
  intros limit ls s H. apply rounds_go. intros r I. destruct (H r I) as (o & -> & N).
  cbn [fine]. apply forallb_forall. intros x X. destruct x; auto.
Qed.

(** what code does to variables and lists *)
Lemma nth_put : forall vs h r q, nth_error (put r vs h) q =
  if (q =? r)%nat then (match nth_error h r with Some _ => Some vs | None => None end) else nth_error h q.
Proof.
  intros vs. induction h as [|x h IH]; intros r q.
  - cbn [put]. destruct q, r; cbn; try reflexivity. destruct (q =? r)%nat; reflexivity.
  - destruct r as [|r], q as [|q]; cbn; try reflexivity. apply IH.
Qed.

Lemma lookup_assign_other : forall n m v e, m <> n -> lookup m (assign n v e) = lookup m e.
Proof.
  intros n m v e D. induction e as [|(k, w) e IH]; cbn [assign lookup].
  - destruct (String.eqb_spec m n); [contradiction | reflexivity].
  - destruct (String.eqb_spec n k) as [->|E]; cbn [lookup].
    + destruct (String.eqb_spec m k); [contradiction | reflexivity].
    + destruct (String.eqb m k); [reflexivity | exact IH].
Qed.

Lemma acts_do : forall s,
  (forall n v, let s' := do_act s (Rebind n v) in
     lookup n (fst s') = Some v /\ (forall m, m <> n -> lookup m (fst s') = lookup m (fst s)) /\ snd s' = snd s) /\
  (forall r vs, (r < length (snd s))%nat -> let s' := do_act s (Mutate r vs) in
     nth_error (snd s') r = Some vs /\ (forall q, q <> r -> nth_error (snd s') q = nth_error (snd s) q) /\ fst s' = fst s) /\
  (forall vs, let s' := do_act s (New vs) in
     nth_error (snd s') (length (snd s)) = Some vs /\
     (forall q, q <> length (snd s) -> nth_error (snd s') q = nth_error (snd s) q) /\ fst s' = fst s).
Proof.
  intros (e, h). cbn [fst snd do_act]. split; [|split].
  - intros n v. split; [apply lookup_assign|]. split; [|reflexivity]. intros m D. apply lookup_assign_other, D.
  - intros r vs L. split; [|split; [|reflexivity]].
    + rewrite nth_put, Nat.eqb_refl. apply nth_error_Some in L. destruct (nth_error h r); congruence.
    + intros q D. rewrite nth_put. apply Nat.eqb_neq in D. rewrite D. reflexivity.
  - intros vs. split; [|split; [|reflexivity]].
    + rewrite nth_error_app2, Nat.sub_diag by lia. reflexivity.
    + intros q D. destruct (Nat.lt_ge_cases q (length h)) as [L|L]; [apply nth_error_app1; exact L|].
      rewrite nth_error_app2 by exact L. rewrite (proj2 (nth_error_None h q) L).
      destruct (q - length h)%nat as [|k] eqn:E; [lia|]. destruct k; reflexivity.
Qed.

Lemma ty_eqb_refl : forall a, ty_eqb a a = true.
Proof. fix F 1. intros [| | |[a|]]; cbn; auto. Qed.

Lemma locked_probe : forall limit h v, Locked h v -> probe limit h v <> Offered.
Proof.
  intros limit h v L. unfold probe.
  assert (X : forall d v t, Locked h v -> deep d h v = Some t -> schema (nested t) = false).
  { clear. induction d as [|d IH]; intros v t L E; [discriminate|]. rewrite deep_S in E.
    destruct L as [|r k vs N F].
    - injection E as <-. reflexivity.
    - rewrite N in E. destruct (all_some (map (deep d h) vs)) as [ts|] eqn:A; [|discriminate].
      injection E as <-. apply all_some_F2 in A. destruct k as [|k]; cbn in F; subst vs.
      + inversion A as [|? t ? ? P Q]; subst. inversion Q; subst.
        destruct d; [discriminate|]. rewrite deep_S in P. injection P as <-. reflexivity.
      + destruct d as [|d]; [inversion A; discriminate|].
        assert (B : forall l, Forall2 (fun x y => deep (S d) h x = Some y) (repeat VOpaque l) ts ->
                    ts = repeat TOpaque l).
        { clear. intros l A. remember (repeat VOpaque l) as vs eqn:E. revert l E.
          induction A as [|x y xs ys P A IA]; intros l E; destruct l as [|l]; try discriminate; [reflexivity|].
          injection E as -> E2. rewrite deep_S in P. injection P as <-.
          cbn [repeat]. f_equal. apply IA. exact E2. }
        rewrite (B (S (S k)) A). cbn [repeat nested map ty_eqb forallb].
        assert (Z : forall k, forallb (ty_eqb TyOpaque) (map nested (repeat TOpaque k)) = true)
          by (clear; induction k; cbn; auto).
        rewrite Z. reflexivity. }
  destruct (deep limit h v) as [t|] eqn:E; [|discriminate].
  rewrite (X _ _ _ L E). discriminate.
Qed.

Lemma offer_probe : forall limit h e caps n v, offer limit h e = Some caps -> In (n, v) caps ->
  probe limit h v = Offered.
Proof.
  intros limit h. induction e as [|(m, w) e IH]; intros caps n v O I; cbn [offer] in O.
  - injection O as <-. destruct I.
  - destruct (probe limit h w) eqn:P; [| |discriminate].
    + destruct (offer limit h e) as [r|]; [|discriminate]. injection O as <-.
      destruct I as [I|I]; [injection I as <- <-; exact P | eapply IH; eauto].
    + eapply IH; eauto.
Qed.

Lemma locked_skipped : forall limit h e caps n v, offer limit h e = Some caps -> In (n, v) caps -> ~ Locked h v.
Proof. intros limit h e caps n v O I L. exact (locked_probe limit h v L (offer_probe _ _ _ _ _ _ O I)). Qed.
