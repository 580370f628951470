(** Proofs about the evaluation providers and the session. *)
From Coq Require Import String List Bool Arith Lia.
From Verif Require Import ReplModel ReplSpec.
Import ListNotations.
Local Open Scope string_scope.

Lemma app_assoc_s : forall a b c : string, (a ++ b) ++ c = a ++ b ++ c.
Proof. induction a as [|x a IH]; cbn; intros; [reflexivity|now rewrite IH]. Qed.
Lemma app_nil_s : forall a : string, a ++ "" = a.
Proof. induction a as [|x a IH]; cbn; [reflexivity|now rewrite IH]. Qed.
Lemma length_app_s : forall a b, String.length (a ++ b) = String.length a + String.length b.
Proof. induction a as [|x a IH]; cbn; intros; [reflexivity|now rewrite IH]. Qed.
Lemma substring_full : forall b, substring 0 (String.length b) b = b.
Proof. induction b as [|x b IH]; cbn; [reflexivity|now rewrite IH]. Qed.
Lemma substring_tail : forall a b, substring (String.length a) (String.length (a ++ b) - String.length a) (a ++ b) = b.
Proof.
  intros a b. replace (String.length (a ++ b) - String.length a) with (String.length b) by (rewrite length_app_s; lia).
  induction a as [|x a IH]; cbn; [apply substring_full|exact IH].
Qed.
Lemma concat_cons_s : forall a l, String.concat "" (a :: l) = a ++ String.concat "" l.
Proof. intros a [|b l]; cbn; [now rewrite app_nil_s|reflexivity]. Qed.
Lemma outs_cons : forall ev evs, outs (ev :: evs) = match ev with EOut s => s | EErr _ => "" end ++ outs evs.
Proof. intros ev evs. unfold outs. cbn [map]. apply concat_cons_s. Qed.
Lemma errs_cons : forall ev evs, errs (ev :: evs) = match ev with EErr s => s | EOut _ => "" end ++ errs evs.
Proof. intros ev evs. unfold errs. cbn [map]. apply concat_cons_s. Qed.

(** Running code: what it prints goes to the end of the buffers; only its namespace changes. *)
Lemma run_performs : forall i p s e s', run i p s = (e, s') ->
  exists evs, performs i (space (mem s)) p evs (space (mem s') i) e /\
    out s' = out s ++ outs evs /\ err s' = err s ++ errs evs /\
    (forall j, j <> i -> space (mem s') j = space (mem s) j) /\ next (mem s') = next (mem s).
Proof.
  intros i p. induction p as [|tb| |t p IH|t p IH|k v p IH|k p IH|k x p IH|k f IH|k f IH]; intros s e s' H; cbn [run] in H.
  - injection H as <- <-. exists []. repeat split; cbn; try now rewrite app_nil_s. constructor.
  - injection H as <- <-. exists []. repeat split; cbn; try now rewrite app_nil_s. constructor.
  - injection H as <- <-. exists []. repeat split; cbn; try now rewrite app_nil_s. constructor.
  - destruct (IH _ _ _ H) as [evs [P [O [E [J N]]]]]. exists (EOut t :: evs). cbn in P, O, E, J, N.
    repeat split; [constructor; exact P|rewrite outs_cons, O; apply app_assoc_s|rewrite errs_cons; exact E|exact J|exact N].
  - destruct (IH _ _ _ H) as [evs [P [O [E [J N]]]]]. exists (EErr t :: evs). cbn in P, O, E, J, N.
    repeat split; [constructor; exact P|rewrite outs_cons; exact O|rewrite errs_cons, E; apply app_assoc_s|exact J|exact N].
  - destruct (IH _ _ _ H) as [evs [P [O [E [J N]]]]]. exists evs. cbn in P, O, E, J, N.
    repeat split; [apply pf_set; exact P|exact O|exact E| |exact N].
    intros j Hj. rewrite (J j Hj). apply Nat.eqb_neq in Hj. now rewrite Hj.
  - destruct (IH _ _ _ H) as [evs [P [O [E [J N]]]]]. exists evs. cbn in P, O, E, J, N.
    repeat split; [apply pf_del; exact P|exact O|exact E| |exact N].
    intros j Hj. rewrite (J j Hj). apply Nat.eqb_neq in Hj. now rewrite Hj.
  - destruct (IH _ _ _ H) as [evs [P [O [E [J N]]]]]. exists evs. cbn in P, O, E, J, N.
    repeat split; [apply pf_def; exact P|exact O|exact E| |exact N].
    intros j Hj. rewrite (J j Hj). apply Nat.eqb_neq in Hj. now rewrite Hj.
  - destruct (IH _ _ _ _ H) as [evs [P R]]. exists evs. split; [apply pf_get; exact P|exact R].
  - destruct (IH _ _ _ _ H) as [evs [P R]]. exists evs. split; [apply pf_call; exact P|exact R].
Qed.

(** Code that does not touch a name leaves it. *)
Lemma performs_untouched : forall i k sp p evs s' e, performs i sp p evs s' e -> ~ touches k p -> s' k = sp i k.
Proof.
  intros i k sp p evs s' e P.
  induction P as [sp|sp tb|sp|sp s p evs s' e P IH|sp s p evs s' e P IH|sp k' v p evs s' e P IH|sp k' p evs s' e P IH
                 |sp k' x p evs s' e P IH|sp k' f evs s' e P IH|sp k' f evs s' e P IH]; intros T; try reflexivity.
  - apply IH. intros C. apply T. now constructor.
  - apply IH. intros C. apply T. now constructor.
  - rewrite IH by (intros C; apply T; now apply tc_set'). rewrite Nat.eqb_refl. unfold upd.
    destruct (String.eqb_spec k k') as [->|]; [exfalso; apply T; constructor|reflexivity].
  - rewrite IH by (intros C; apply T; now apply tc_del'). rewrite Nat.eqb_refl. unfold upd.
    destruct (String.eqb_spec k k') as [->|]; [exfalso; apply T; constructor|reflexivity].
  - rewrite IH by (intros C; apply T; now apply tc_def'). rewrite Nat.eqb_refl. unfold upd.
    destruct (String.eqb_spec k k') as [->|]; [exfalso; apply T; constructor|reflexivity].
  - apply IH. intros C. apply T. eapply tc_get. exact C.
  - apply IH. intros C. apply T. eapply tc_call. exact C.
Qed.

(** A call under the unsafe provider. *)
Lemma unsafe_performs : forall i p s e s', exec_unsafe i p s = (e, s') ->
  exists evs,
    performs i (fun x => if Nat.eqb x i then with_builtins (space (mem s) i) else space (mem s) x) p evs (space (mem s') i) e /\
    out s' = out s ++ outs evs /\ err s' = err s ++ errs evs /\
    (forall j, j <> i -> space (mem s') j = space (mem s) j) /\ next (mem s') = next (mem s).
Proof.
  intros i p s e s' H. unfold exec_unsafe in H. destruct (run_performs _ _ _ _ _ H) as [evs [P [O [E [J N]]]]].
  exists evs. cbn in P, O, E, J, N. repeat split; [exact P|exact O|exact E| |exact N].
  intros j Hj. rewrite (J j Hj). apply Nat.eqb_neq in Hj. now rewrite Hj.
Qed.

Lemma value_eqb_refl : forall v, value_eqb v v = true.
Proof. intros [n|h x|s]; cbn; rewrite ?Nat.eqb_refl, ?String.eqb_refl; reflexivity. Qed.
Lemma value_eqb_eq : forall v w, value_eqb v w = true -> v = w.
Proof.
  intros [n|h x|s] [m|h' x'|s'] H; cbn in H; try discriminate.
  - apply Nat.eqb_eq in H. now subst.
  - apply andb_true_iff in H. destruct H as [A B]. apply Nat.eqb_eq in A. apply String.eqb_eq in B. now subst.
  - apply String.eqb_eq in H. now subst.
Qed.

(** A call under the restricted provider: the code runs in a namespace of its own. *)
Lemma restricted_performs : forall i p s e s', exec_restricted i p s = (e, s') -> i < next (mem s) ->
  exists evs after,
    performs (next (mem s))
      (fun x => if Nat.eqb x (next (mem s)) then layered (space (mem s) i) else space (mem s) x) p evs after e /\
    out s' = out s ++ outs evs /\ err s' = err s ++ errs evs /\
    space (mem s') i = (if match e with EndOk => true | _ => false end
                        then copy_back (layered (space (mem s) i)) after (space (mem s) i) else space (mem s) i) /\
    (forall j, j < next (mem s) -> j <> i -> space (mem s') j = space (mem s) j) /\ next (mem s') = S (next (mem s)).
Proof.
  intros i p s e s' H Hi. unfold exec_restricted, alloc in H. cbv zeta in H.
  match type of H with context [run ?a ?b ?c] => destruct (run a b c) as [o t] eqn:R end.
  destruct (run_performs _ _ _ _ _ R) as [evs [P [O [E [J N]]]]]. cbn in P, O, E, J, N.
  assert (K : forall j, j < next (mem s) -> space (mem t) j = space (mem s) j).
  { intros j Hj. rewrite J by lia. replace (Nat.eqb j (next (mem s))) with false by (symmetry; apply Nat.eqb_neq; lia). reflexivity. }
  exists evs, (space (mem t) (next (mem s))).
  destruct o as [|tb|]; injection H as <- <-; cbn.
  - repeat split; [exact P|exact O|exact E| | |exact N].
    + now rewrite Nat.eqb_refl, (K i Hi).
    + intros j Hj Hij. apply Nat.eqb_neq in Hij. rewrite Hij. now apply K.
  - repeat split; [exact P|exact O|exact E|now apply K| |exact N]. intros j Hj _. now apply K.
  - repeat split; [exact P|exact O|exact E|now apply K| |exact N]. intros j Hj _. now apply K.
Qed.

(** The answer of a call. *)
Lemma exec_code_reply : forall r src p s res s' e t evs,
  exec r (scope s) p (st s) = (e, t) -> out t = out (st s) ++ outs evs -> err t = err (st s) ++ errs evs ->
  exec_code r src p s = (res, s') ->
  res = reply evs e /\ scope s' = scope s /\ prior s' = (prior s ++ [src])%list /\ mem (st s') = mem t.
Proof.
  intros r src p s res s' e t evs X O E H. unfold exec_code in H. rewrite X in H. cbv zeta in H.
  destruct e as [|tb|]; injection H as <- <-; cbn.
  - rewrite O, E, !substring_tail. auto.
  - rewrite O, E, app_assoc_s, !substring_tail. auto.
  - auto.
Qed.

Lemma exec_all_cons : forall r src p l s rs s', exec_all r ((src, p) :: l) s = (rs, s') ->
  exists x s1 rs1, exec_code r src p s = (x, s1) /\ exec_all r l s1 = (rs1, s') /\ rs = x :: rs1.
Proof.
  intros r src p l s rs s' H. cbn [exec_all] in H. destruct (exec_code r src p s) as [x s1] eqn:A.
  destruct (exec_all r l s1) as [rs1 s2] eqn:B. injection H as <- <-. exists x, s1, rs1. auto.
Qed.

Theorem session_unsafe : forall l s rs s', exec_all false l s = (rs, s') ->
  scope s' = scope s /\
  dialogue (scope s) (space (mem (st s))) (map snd l) rs (space (mem (st s')) (scope s)).
Proof.
  induction l as [|[src p] l IH]; intros s rs s' H.
  - injection H as <- <-. split; [reflexivity|apply dl_nil].
  - destruct (exec_all_cons _ _ _ _ _ _ _ H) as [x [s1 [rs1 [C [A ->]]]]].
    destruct (exec false (scope s) p (st s)) as [e t] eqn:X.
    destruct (unsafe_performs _ _ _ _ _ X) as [evs [P [O [E [J N]]]]].
    destruct (exec_code_reply _ _ _ _ _ _ _ _ _ X O E C) as [-> [Sc [_ M]]].
    destruct (IH _ _ _ A) as [Sc' D]. rewrite Sc in Sc', D. split; [exact Sc'|].
    cbn [map snd]. eapply dl_cons; [exact P| | |exact D]; rewrite M; [reflexivity|exact J].
Qed.

(** Each call answers what its code prints, under both providers. *)
Theorem call_output : forall r src p s res s', scope s < next (mem (st s)) -> exec_code r src p s = (res, s') ->
  exists i sp evs after e, performs i sp p evs after e /\ res = reply evs e /\
    sp i = (if r then layered else with_builtins) (space (mem (st s)) (scope s)).
Proof.
  intros r src p s res s' Hs C. destruct (exec r (scope s) p (st s)) as [e t] eqn:X. destruct r.
  - destruct (restricted_performs _ _ _ _ _ X Hs) as [evs [after [P [O [E _]]]]].
    destruct (exec_code_reply _ _ _ _ _ _ _ _ _ X O E C) as [-> _].
    exists (next (mem (st s))), (fun x => if Nat.eqb x (next (mem (st s))) then layered (space (mem (st s)) (scope s)) else space (mem (st s)) x), evs, after, e.
    repeat split; [exact P|]. now rewrite Nat.eqb_refl.
  - destruct (unsafe_performs _ _ _ _ _ X) as [evs [P [O [E _]]]].
    destruct (exec_code_reply _ _ _ _ _ _ _ _ _ X O E C) as [-> _].
    do 5 eexists. repeat split; [exact P|]. cbv beta. now rewrite Nat.eqb_refl.
Qed.

Lemma exec_code_frame : forall r src p s res s', scope s < next (mem (st s)) -> exec_code r src p s = (res, s') ->
  scope s' = scope s /\ prior s' = (prior s ++ [src])%list /\ next (mem (st s)) <= next (mem (st s')) /\
  (forall j, j < next (mem (st s)) -> j <> scope s -> space (mem (st s')) j = space (mem (st s)) j).
Proof.
  intros r src p s res s' Hs C. destruct (exec r (scope s) p (st s)) as [e t] eqn:X. destruct r.
  - destruct (restricted_performs _ _ _ _ _ X Hs) as [evs [after [P [O [E [_ [J N]]]]]]].
    destruct (exec_code_reply _ _ _ _ _ _ _ _ _ X O E C) as [_ [A [B M]]]. rewrite M.
    repeat split; [exact A|exact B|lia|exact J].
  - destruct (unsafe_performs _ _ _ _ _ X) as [evs [P [O [E [J N]]]]].
    destruct (exec_code_reply _ _ _ _ _ _ _ _ _ X O E C) as [_ [A [B M]]]. rewrite M.
    repeat split; [exact A|exact B|lia|]. intros j _ Hj. now apply J.
Qed.
Lemma exec_all_frame : forall r l s rs s', scope s < next (mem (st s)) -> exec_all r l s = (rs, s') ->
  scope s' = scope s /\ prior s' = (prior s ++ map fst l)%list /\ next (mem (st s)) <= next (mem (st s')) /\
  (forall j, j < next (mem (st s)) -> j <> scope s -> space (mem (st s')) j = space (mem (st s)) j).
Proof.
  induction l as [|[src p] l IH]; intros s rs s' Hs H.
  - injection H as <- <-. cbn. rewrite app_nil_r. repeat split; auto.
  - destruct (exec_all_cons _ _ _ _ _ _ _ H) as [x [s1 [rs1 [C [A _]]]]].
    destruct (exec_code_frame _ _ _ _ _ _ Hs C) as [C1 [C2 [C3 C4]]].
    destruct (IH s1 rs1 s' ltac:(rewrite C1; lia) A) as [D1 [D2 [D3 D4]]].
    rewrite C1 in *. rewrite D2, C2, <- app_assoc. cbn [map fst app]. repeat split; [exact D1|lia|].
    intros j Hj Hjs. rewrite D4 by (auto; lia). now apply C4.
Qed.

(** Starting a session and running anything in it leaves the surrounding maps alone. *)
Theorem session_frame : forall r maps h s maps' l rs s',
  (forall i, In i maps -> i < next h) -> start maps h = (s, maps') -> exec_all r l s = (rs, s') ->
  maps' = scope s :: maps /\ (forall i, In i maps -> space (mem (st s')) i = space h i) /\
  (forall k, chain_get (mem (st s)) maps' k = chain_get h maps k) /\
  (forall k, space (mem (st s)) (scope s) k = chain_get h maps k).
Proof.
  intros r maps h s maps' l rs s' B S A. unfold start, alloc in S. injection S as <- <-. cbn in *.
  destruct (exec_all_frame r l (Session (next h) [] (State (Heap (S (next h))
     (fun x => if Nat.eqb x (next h) then chain_get h maps else space h x)) "" "")) rs s' ltac:(cbn; lia) A) as [A1 [A2 [A3 A4]]].
  cbn in A1, A2, A3, A4. split; [reflexivity|]. rewrite Nat.eqb_refl.
  assert (G : forall ms k, (forall i, In i ms -> i < next h) ->
    chain_get (Heap (S (next h)) (fun x => if Nat.eqb x (next h) then chain_get h maps else space h x)) ms k = chain_get h ms k).
  { induction ms as [|m ms IHm]; intros k Hm; [reflexivity|]. cbn.
    replace (Nat.eqb m (next h)) with false by (symmetry; apply Nat.eqb_neq; specialize (Hm m (or_introl eq_refl)); lia).
    destruct (space h m k); [reflexivity|]. apply IHm. intros i Hi. apply Hm. now right. }
  repeat split.
  - intros i Hi. specialize (B i Hi). rewrite A4 by lia.
    replace (Nat.eqb i (next h)) with false by (symmetry; apply Nat.eqb_neq; lia). reflexivity.
  - intros k. destruct (chain_get h maps k) eqn:Q; [reflexivity|]. now rewrite (G maps k B).
Qed.

(** Under the unsafe provider a function defined by a snippet reads the session's namespace as it is
    when it is called. *)
Lemma untouched_all : forall f x l s rs s', (forall src p, In (src, p) l -> ~ touches f p) ->
  space (mem (st s)) (scope s) f = Some x -> exec_all false l s = (rs, s') ->
  space (mem (st s')) (scope s) f = Some x.
Proof.
  intros f x. induction l as [|[src p] l IH]; intros s rs s' U F H.
  - injection H as <- <-. exact F.
  - destruct (exec_all_cons _ _ _ _ _ _ _ H) as [r [s1 [rs1 [C [A _]]]]].
    destruct (exec false (scope s) p (st s)) as [e t] eqn:X.
    destruct (unsafe_performs _ _ _ _ _ X) as [evs [P [O [E _]]]].
    destruct (exec_code_reply _ _ _ _ _ _ _ _ _ X O E C) as [_ [Sc [_ M]]].
    pose proof (performs_untouched _ f _ _ _ _ _ P (U src p (or_introl eq_refl))) as Q. cbv beta in Q. rewrite Nat.eqb_refl in Q.
    rewrite <- Sc. apply (IH s1 rs1 s'); [intros; eapply U; right; eassumption| |exact A].
    rewrite Sc, M, Q. unfold with_builtins. destruct (space (mem (st s)) (scope s) "__builtins__") eqn:B; [exact F|].
    unfold upd. destruct (String.eqb_spec f "__builtins__") as [->|]; [congruence|exact F].
Qed.
Lemma performs_call : forall i sp k f evs s e, performs i sp (PCall k f) evs s e ->
  performs i sp (f (match sp i k with Some (VReader home x) => sp home x | _ => None end)) evs s e.
Proof. intros i sp k f evs s e P. remember (PCall k f) as q eqn:Q. destruct P; try discriminate Q. injection Q as -> ->. assumption. Qed.
Lemma performs_out : forall i sp t p evs s e, performs i sp (POut t p) evs s e ->
  exists evs', evs = EOut t :: evs' /\ performs i sp p evs' s e.
Proof.
  intros i sp t p evs s e P. remember (POut t p) as q eqn:Q. destruct P; try discriminate Q. injection Q as -> ->.
  eexists. split; [reflexivity|assumption].
Qed.
Lemma performs_done : forall i sp evs s e, performs i sp PDone evs s e -> evs = [] /\ e = EndOk.
Proof. intros i sp evs s e P. remember PDone as q eqn:Q. destruct P; try discriminate Q. auto. Qed.
Lemma call_prints : forall f x show src s s' res, x <> "__builtins__" ->
  space (mem (st s)) (scope s) f = Some (VReader (scope s) x) ->
  exec_code false src (PCall f (fun o => POut (show o) PDone)) s = (res, s') ->
  res = Some (show (space (mem (st s)) (scope s) x)).
Proof.
  intros f x show src s s' res Hx F C.
  destruct (exec false (scope s) (PCall f (fun o => POut (show o) PDone)) (st s)) as [e t] eqn:X.
  destruct (unsafe_performs _ _ _ _ _ X) as [evs [P [O [E _]]]].
  destruct (exec_code_reply _ _ _ _ _ _ _ _ _ X O E C) as [-> _].
  assert (W : forall k v, space (mem (st s)) (scope s) k = v -> k <> "__builtins__" \/ v <> None -> with_builtins (space (mem (st s)) (scope s)) k = v).
  { intros k v Q K. unfold with_builtins. destruct (space (mem (st s)) (scope s) "__builtins__") eqn:B; [exact Q|].
    unfold upd. destruct (String.eqb_spec k "__builtins__") as [->|]; [destruct K; congruence|exact Q]. }
  apply performs_call in P. cbv beta in P. rewrite Nat.eqb_refl, (W f _ F) in P by (right; discriminate).
  cbv beta iota in P. rewrite Nat.eqb_refl, (W x _ eq_refl) in P by now left.
  apply performs_out in P. destruct P as [evs' [-> P]]. apply performs_done in P. destruct P as [-> ->].
  cbn [reply]. rewrite outs_cons, errs_cons. cbn. now rewrite !app_nil_s.
Qed.
Theorem late_binding : forall f x show src src' l s rs s1 res s2, x <> "__builtins__" ->
  (forall a p, In (a, p) l -> ~ touches f p) ->
  exec_all false ((src, PDef f x PDone) :: l) s = (rs, s1) ->
  exec_code false src' (PCall f (fun o => POut (show o) PDone)) s1 = (res, s2) ->
  res = Some (show (space (mem (st s1)) (scope s1) x)).
Proof.
  intros f x show src src' l s rs s1 res s2 Hx U H C.
  destruct (exec_all_cons _ _ _ _ _ _ _ H) as [r [s0 [rs1 [C0 [A _]]]]].
  assert (F : space (mem (st s0)) (scope s0) f = Some (VReader (scope s0) x)).
  { unfold exec_code, exec, exec_unsafe in C0. cbn in C0. injection C0 as _ <-. cbn.
    rewrite !Nat.eqb_refl. unfold upd at 1. now rewrite String.eqb_refl. }
  destruct (session_unsafe _ _ _ _ A) as [Sc _].
  eapply call_prints; [exact Hx| |exact C]. rewrite Sc. apply (untouched_all _ _ _ _ _ _ U F A).
Qed.

(** What the restricted provider gives back. *)
Lemma layered_free : forall s k, ~ In k reserved -> layered s k = s k.
Proof.
  intros s k H. unfold layered, upd.
  repeat match goal with |- context [String.eqb k ?c] =>
    destruct (String.eqb_spec k c) as [->|]; [exfalso; apply H; unfold reserved; cbn [In]; tauto|] end.
  now destruct (s k).
Qed.
Theorem restricted_exact : forall i p s s', i < next (mem s) -> exec_restricted i p s = (EndOk, s') ->
  exists sp evs after, performs (next (mem s)) sp p evs after EndOk /\
    (forall k, ~ In k reserved -> sp (next (mem s)) k = space (mem s) i k) /\
    (forall k v, ~ In k reserved -> after k = Some v -> space (mem s') i k = Some v) /\
    (forall k, ~ In k reserved -> after k = None -> space (mem s') i k = space (mem s) i k) /\
    (forall k, ~ touches k p -> space (mem s') i k = space (mem s) i k) /\
    (forall j, j < next (mem s) -> j <> i -> space (mem s') j = space (mem s) j).
Proof.
  intros i p s s' Hi H. destruct (restricted_performs _ _ _ _ _ H Hi) as [evs [after [P [_ [_ [S [J _]]]]]]].
  cbv iota in S. do 3 eexists. split; [exact P|]. cbv beta. rewrite Nat.eqb_refl, S.
  split; [intros k Hk; now apply layered_free|]. repeat split.
  - intros k v Hk A. unfold copy_back. rewrite A.
    destruct (String.eqb_spec k "__builtins__") as [->|]; [exfalso; apply Hk; now left|]. cbn [orb].
    rewrite (layered_free _ _ Hk). destruct (space (mem s) i k) as [w|] eqn:W; cbn [same]; [|reflexivity].
    destruct (value_eqb w v) eqn:V; [|reflexivity]. apply value_eqb_eq in V. now subst.
  - intros k Hk A. unfold copy_back. now rewrite A.
  - intros k Hk. pose proof (performs_untouched _ k _ _ _ _ _ P Hk) as Q. cbv beta in Q. rewrite Nat.eqb_refl in Q.
    unfold copy_back. rewrite Q. destruct (layered (space (mem s) i) k) as [v|]; [|reflexivity].
    cbn [same]. now rewrite value_eqb_refl, orb_true_r.
  - exact J.
Qed.
Theorem restricted_failed : forall i p s e s', i < next (mem s) -> exec_restricted i p s = (e, s') -> e <> EndOk ->
  forall j, j < next (mem s) -> space (mem s') j = space (mem s) j.
Proof.
  intros i p s e s' Hi H He j Hj. destruct (restricted_performs _ _ _ _ _ H Hi) as [evs [after [P [_ [_ [S [J _]]]]]]].
  destruct (Nat.eq_dec j i) as [->|Hn]; [|now apply J]. destruct e; [congruence|exact S|exact S].
Qed.

(** The guards of the restricted provider. *)
Lemma layered_guarded : forall s, guarded (layered s).
Proof.
  intros s k g H. cbn [guards In] in H.
  repeat (destruct H as [H|H]; [injection H as <- <-; reflexivity|]). destruct H.
Qed.
Lemma copy_back_builtins : forall b a e, copy_back b a e "__builtins__" = e "__builtins__".
Proof. intros b a e. unfold copy_back. now destruct (a "__builtins__"). Qed.
Theorem restricted_guarded : forall i p s e s', i < next (mem s) -> exec_restricted i p s = (e, s') ->
  exists sp evs after, performs (next (mem s)) sp p evs after e /\ guarded (sp (next (mem s))) /\
    space (mem s') i "__builtins__" = space (mem s) i "__builtins__".
Proof.
  intros i p s e s' Hi H. destruct (restricted_performs _ _ _ _ _ H Hi) as [evs [after [P [_ [_ [S _]]]]]].
  do 3 eexists. split; [exact P|]. cbv beta. rewrite Nat.eqb_refl, S. split; [apply layered_guarded|].
  destruct e; [apply copy_back_builtins|reflexivity|reflexivity].
Qed.
Lemma exec_all_builtins : forall l s rs s', scope s < next (mem (st s)) -> exec_all true l s = (rs, s') ->
  space (mem (st s')) (scope s) "__builtins__" = space (mem (st s)) (scope s) "__builtins__".
Proof.
  induction l as [|[src p] l IH]; intros s rs s' Hs H.
  - now injection H as <- <-.
  - destruct (exec_all_cons _ _ _ _ _ _ _ H) as [x [s1 [rs1 [C [A _]]]]].
    destruct (exec_code_frame _ _ _ _ _ _ Hs C) as [C1 [_ [C3 _]]].
    specialize (IH s1 rs1 s' ltac:(rewrite C1; lia) A). rewrite C1 in IH. rewrite IH.
    destruct (exec true (scope s) p (st s)) as [e t] eqn:X.
    destruct (restricted_performs _ _ _ _ _ X Hs) as [evs [after [P [O [E [S _]]]]]].
    destruct (exec_code_reply _ _ _ _ _ _ _ _ _ X O E C) as [_ [_ [_ M]]]. rewrite M, S.
    destruct e; [apply copy_back_builtins|reflexivity|reflexivity].
Qed.
Theorem session_guarded : forall l s rs s1 src p res s2, scope s < next (mem (st s)) ->
  exec_all true l s = (rs, s1) -> exec_code true src p s1 = (res, s2) ->
  (exists i sp evs after e, performs i sp p evs after e /\ res = reply evs e /\ guarded (sp i)) /\
  space (mem (st s2)) (scope s) "__builtins__" = space (mem (st s)) (scope s) "__builtins__".
Proof.
  intros l s rs s1 src p res s2 Hs A C. destruct (exec_all_frame _ _ _ _ _ Hs A) as [F1 [_ [F3 _]]]. split.
  - destruct (call_output true src p s1 res s2 ltac:(rewrite F1; lia) C) as [i [sp [evs [after [e [P [R S]]]]]]].
    exists i, sp, evs, after, e. rewrite S. repeat split; [exact P|exact R|apply layered_guarded].
  - rewrite <- (exec_all_builtins _ _ _ _ Hs A), <- F1.
    assert (B : exec_all true [(src, p)] s1 = ([res], s2)) by (cbn [exec_all]; now rewrite C).
    apply (exec_all_builtins [(src, p)] s1 [res] s2); [rewrite F1; lia|exact B].
Qed.
