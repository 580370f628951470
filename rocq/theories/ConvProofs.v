(** Proofs about the conversation loop. *)
From Coq Require Import List Bool Arith Lia.
From Verif Require Import ConvModel ConvSpec.
Import ListNotations.

(** * Histories as ordered maps *)
Lemma mident_eqb_spec : forall a b, mident_eqb a b = true <-> a = b.
Proof.
  intros [n|n] [m|m]; cbn [mident_eqb]; split; intro H; try discriminate; try congruence.
  - apply Nat.eqb_eq in H. congruence.
  - injection H as ->. apply Nat.eqb_refl.
  - apply Nat.eqb_eq in H. congruence.
  - injection H as ->. apply Nat.eqb_refl.
Qed.
Lemma mident_eqb_refl : forall a, mident_eqb a a = true.
Proof. intro a. apply mident_eqb_spec. reflexivity. Qed.
Lemma mident_eqb_neq : forall a b, a <> b -> mident_eqb a b = false.
Proof. intros a b N. destruct (mident_eqb a b) eqn:E; [apply mident_eqb_spec in E; contradiction|reflexivity]. Qed.

Lemma set_new : forall h m, (forall x, In x h -> mid x <> mid m) -> set h m = h ++ [m].
Proof.
  induction h as [|x h IH]; intros m N; cbn [set app]; [reflexivity|].
  rewrite (mident_eqb_neq (mid x) (mid m)) by (apply N; left; reflexivity).
  rewrite IH; [reflexivity|]. intros y Y. apply N. right. exact Y.
Qed.
Lemma set_last : forall h m, (forall x, In x h -> mid x <> mid m) -> set (h ++ [m]) m = h ++ [m].
Proof.
  induction h as [|x h IH]; intros m N; cbn [set app].
  - rewrite mident_eqb_refl. reflexivity.
  - rewrite (mident_eqb_neq (mid x) (mid m)) by (apply N; left; reflexivity).
    rewrite IH; [reflexivity|]. intros y Y. apply N. right. exact Y.
Qed.
Lemma filter_none : forall (f : msg -> bool) h, (forall x, In x h -> f x = false) -> filter f h = [].
Proof.
  intros f. induction h as [|x h IH]; intro N; cbn [filter]; [reflexivity|].
  rewrite (N x (or_introl eq_refl)). apply IH. intros y Y. apply N. right. exact Y.
Qed.
Lemma filter_all : forall (f : msg -> bool) h, (forall x, In x h -> f x = true) -> filter f h = h.
Proof.
  intros f. induction h as [|x h IH]; intro N; cbn [filter]; [reflexivity|].
  rewrite (N x (or_introl eq_refl)). f_equal. apply IH. intros y Y. apply N. right. exact Y.
Qed.
Lemma to_front_new : forall h m, (forall x, In x h -> mid x <> mid m) -> to_front (h ++ [m]) (mid m) = m :: h.
Proof.
  intros h m N. unfold to_front. rewrite !filter_app. cbn [filter].
  rewrite mident_eqb_refl. cbn [negb].
  rewrite (filter_none _ h) by (intros x X; apply mident_eqb_neq; apply N; exact X).
  rewrite (filter_all _ h) by (intros x X; rewrite (mident_eqb_neq _ _ (N x X)); reflexivity).
  rewrite app_nil_r. reflexivity.
Qed.

(** * Worlds only move forward *)
Definition later (w w' : world) : Prop :=
  stored w' = stored w /\ drawn w <= drawn w' /\ (exists used, coming w = used ++ coming w') /\
  (exists reqs, sent w' = sent w ++ reqs).
Notation ok := fresh_for (only parsing).

Lemma later_refl : forall w, later w w.
Proof.
  intro w. split; [reflexivity|]. split; [lia|].
  split; [exists []; reflexivity|exists []; rewrite app_nil_r; reflexivity].
Qed.
Lemma later_trans : forall a b c, later a b -> later b c -> later a c.
Proof.
  intros a b c (S1 & D1 & (u1 & U1) & (r1 & R1)) (S2 & D2 & (u2 & U2) & (r2 & R2)).
  split; [congruence|]. split; [lia|]. split.
  - exists (u1 ++ u2). rewrite U1, U2, app_assoc. reflexivity.
  - exists (r1 ++ r2). rewrite R2, R1, app_assoc. reflexivity.
Qed.
Lemma given_app : forall a b, given (a ++ b) = given a ++ given b.
Proof.
  induction a as [|x a IH]; intro b; cbn [app given]; [reflexivity|].
  destruct x as [[[n|] ? ? ?]|]; cbn [app]; rewrite IH; reflexivity.
Qed.
Lemma later_unused : forall w w' i, later w w' -> unused w' i -> unused w i.
Proof.
  intros w w' [n|n] (_ & D & (u & U) & _) H; cbn [unused] in *.
  - rewrite U, given_app. apply in_or_app. right. exact H.
  - lia.
Qed.
Lemma later_ok : forall w w' h, later w w' -> ok w h -> ok w' h.
Proof. intros w w' h L O m M U. exact (O m M (later_unused w w' _ L U)). Qed.
Lemma NoDup_app_r : forall A (a b : list A), NoDup (a ++ b) -> NoDup b.
Proof. induction a as [|x a IH]; intros b H; [exact H|]. inversion H as [|? ? _ H']. apply IH. exact H'. Qed.
Lemma later_nodup : forall w w', later w w' -> NoDup (given (coming w)) -> NoDup (given (coming w')).
Proof.
  intros w w' (_ & _ & (u & U) & _) N. rewrite U, given_app in N. exact (NoDup_app_r _ _ _ N).
Qed.
Lemma ok_app : forall w a b, ok w a -> ok w b -> ok w (a ++ b).
Proof. intros w a b A B m M. apply in_app_or in M. destruct M as [M|M]; [exact (A m M)|exact (B m M)]. Qed.
Lemma ok_distinct : forall w h i, ok w h -> unused w i -> forall x, In x h -> mid x <> i.
Proof. intros w h i O U x X E. apply (O x X). rewrite E. exact U. Qed.

(** * Drawing an id *)
Lemma make_none : forall r t w m w1, make None r t w = (m, w1) ->
  mid m = Drawn (drawn w) /\ mrole m = r /\ mtext m = t /\
  w1 = World (S (drawn w)) (stored w) (coming w) (sent w).
Proof. intros r t w m w1 H. cbn [make] in H. injection H as <- <-. repeat split. Qed.
Lemma make_none_later : forall r t w m w1, make None r t w = (m, w1) ->
  later w w1 /\ coming w1 = coming w /\ sent w1 = sent w.
Proof.
  intros r t w m w1 H. destruct (make_none _ _ _ _ _ H) as (_ & _ & _ & ->). cbn [coming sent].
  split; [|split; reflexivity]. split; [reflexivity|]. cbn [drawn]. split; [lia|].
  split; [exists []; reflexivity|exists []; rewrite app_nil_r; reflexivity].
Qed.
(** A message with a drawn id joins at the end. *)
Lemma draw : forall r t w m w1 h, make None r t w = (m, w1) -> ok w h ->
  set h m = h ++ [m] /\ ok w1 (h ++ [m]) /\ (forall x, In x h -> mid x <> mid m).
Proof.
  intros r t w m w1 h H O.
  destruct (make_none _ _ _ _ _ H) as (I & _ & _ & W).
  assert (D : forall x, In x h -> mid x <> mid m).
  { apply (ok_distinct w); [exact O|]. rewrite I. cbn [unused]. lia. }
  split; [exact (set_new h m D)|]. split; [|exact D].
  apply ok_app.
  - apply (later_ok w w1); [|exact O]. exact (proj1 (make_none_later _ _ _ _ _ H)).
  - intros x [<-|[]]. rewrite I, W. cbn [unused drawn]. lia.
Qed.

(** * One request *)
Lemma decode_spec : forall raw l,
  match decode raw l with
  | Ok ts => first_bad l = None /\ map fst ts = map fst l /\ (ts = [] <-> l = [])
  | Exn e => exists c, e = EDecode raw c /\ first_bad l = Some c
  end.
Proof.
  intros raw. induction l as [|[c [t|]] l IH]; cbn [decode first_bad].
  - repeat split.
  - destruct (decode raw l) as [ts|e].
    + destruct IH as (F & M & _). split; [exact F|]. cbn [map fst]. split; [rewrite M; reflexivity|].
      split; discriminate.
    + exact IH.
  - exists c. split; reflexivity.
Qed.

(** The next response; [None], a failure, when there is none. *)
Definition next (w : world) : completion := nth 0 (coming w) None.

Definition assistant_post (h : hist) (w : world) (o : outcome answer) (h1 : hist) (w1 : world) : Prop :=
  match o with
  | Ok (m, ts, v) =>
      h1 = h ++ [m] /\ unused w (mid m) /\ ~ unused w1 (mid m) /\ answer_of (next w) (m, ts, v)
  | Exn (EDecode raw c) =>
      h1 = h ++ [raw] /\ unused w (mid raw) /\ ~ unused w1 (mid raw) /\ message_of (next w) raw /\
      judge (next w) = VBadCall c
  | Exn (EResult raw) =>
      h1 = h ++ [raw] /\ unused w (mid raw) /\ ~ unused w1 (mid raw) /\ message_of (next w) raw /\
      judge (next w) = VBadValue
  | Exn (EOther _) => judge (next w) = VFails
  | Exn (EExec _ _) => False
  end.

Lemma assistant_later : forall h w o h1 w1, assistant h w = (o, h1, w1) ->
  later w w1 /\ coming w1 = tl (coming w) /\ sent w1 = sent w ++ [h].
Proof.
  intros h w o h1 w1 H. unfold assistant, request in H.
  assert (L : forall d, drawn w <= d ->
    later w (World d (stored w) (tl (coming w)) (sent w ++ [h]))).
  { intros d D. split; [reflexivity|]. cbn [drawn coming sent]. split; [exact D|]. split.
    - exists (match coming w with [] => [] | x :: _ => [x] end). destruct (coming w); reflexivity.
    - exists [h]. reflexivity. }
  assert (K : exists d, drawn w <= d /\ w1 = World d (stored w) (tl (coming w)) (sent w ++ [h])).
  { destruct (coming w) as [|[r|] l].
    - injection H as <- <- <-. exists (drawn w). split; [lia|reflexivity].
    - destruct r as [i calls ct tx]. cbn [rid rcalls rcontent rtext] in H.
      destruct i as [n|]; cbn [make drawn stored coming sent tl fst] in H.
      all: match type of H with context [decode ?m ?l] => destruct (decode m l) as [[|t ts]|e] end.
      all: try (destruct ct).
      all: injection H as _ _ <-; eexists; split; [|reflexivity]; lia.
    - injection H as <- <- <-. exists (drawn w). split; [lia|reflexivity]. }
  destruct K as (d & D & ->). split; [exact (L d D)|]. split; reflexivity.
Qed.

Lemma assistant_spec : forall h w o h1 w1, NoDup (given (coming w)) -> ok w h ->
  assistant h w = (o, h1, w1) -> assistant_post h w o h1 w1.
Proof.
  intros h w o h1 w1 N O H. pose proof (assistant_later _ _ _ _ _ H) as (_ & C & _).
  unfold assistant, request in H. unfold assistant_post, answer_of, next.
  destruct (coming w) as [|[r|] l] eqn:CW.
  - injection H as <- _ _. reflexivity.
  - cbn [tl] in H.
    destruct (make (rid r) (RAssistant (map fst (rcalls r))) (rtext r)
      (World (drawn w) (stored w) l (sent w ++ [h]))) as [raw w2] eqn:MK.
    cbn [tl nth] in *.
    assert (R : mrole raw = RAssistant (map fst (rcalls r)) /\ mtext raw = rtext r).
    { destruct (rid r) as [n|]; cbn [make] in MK; injection MK as <- _; split; reflexivity. }
    assert (U : unused w (mid raw)).
    { destruct r as [[n|] calls ct tx]; cbn [rid make] in MK; injection MK as <- _; cbn [mid unused drawn].
      - rewrite CW. left. reflexivity.
      - apply le_n. }
    assert (V : ~ unused w2 (mid raw)).
    { destruct r as [[n|] calls ct tx]; cbn [rid make] in MK; injection MK as <- <-; cbn [mid unused drawn coming].
      - cbn [given] in N. inversion N as [|? ? I _]. exact I.
      - lia. }
    pose proof (set_new h raw (ok_distinct w h _ O U)) as S1.
    pose proof (decode_spec raw (rcalls r)) as DS.
    assert (MO : message_of (Some r) raw) by (exists r; split; [reflexivity|exact R]).
    cbn [judge].
    destruct (decode raw (rcalls r)) as [[|t ts]|e].
    + destruct DS as (F & _ & E). rewrite F. pose proof (proj1 E eq_refl) as E0.
      destruct (rcontent r) as [v| |]; injection H as <- <- <-; rewrite ?S1; rewrite E0 in *; cbn [map] in *.
      * repeat (split; [first [reflexivity|assumption|exact (proj1 R)]|]). left. split; [reflexivity|].
        exists v. split; reflexivity.
      * repeat (split; [first [reflexivity|assumption]|]). reflexivity.
      * reflexivity.
    + destruct DS as (F & M & E). injection H as <- <- <-. rewrite S1, F.
      split; [reflexivity|]. split; [exact U|]. split; [exact V|]. split; [exact MO|].
      split; [rewrite M; exact (proj1 R)|]. right.
      split; [discriminate|]. split; [reflexivity|].
      destruct (rcalls r) as [|c cs]; [discriminate (proj2 E eq_refl)|reflexivity].
    + destruct DS as (c & -> & F). injection H as <- <- <-. rewrite S1, F.
      repeat (split; [first [reflexivity|assumption]|]). reflexivity.
  - injection H as <- _ _. reflexivity.
Qed.

(** * Retrying *)
Lemma feedback_later : forall e h w h1 w1, feedback e h w = (h1, w1) ->
  later w w1 /\ coming w1 = coming w /\ sent w1 = sent w.
Proof.
  intros e h w h1 w1 H.
  destruct e as [n|raw c|raw|c e]; unfold feedback in H;
    try (injection H as _ <-; split; [apply later_refl|split; reflexivity]).
  - destruct (make None (RTool c) 0 w) as [m w2] eqn:M. injection H as _ <-. exact (make_none_later _ _ _ _ _ M).
  - destruct (make None RUser 0 w) as [m w2] eqn:M. injection H as _ <-. exact (make_none_later _ _ _ _ _ M).
Qed.
Lemma attempts_later : forall more h w o w', attempts more h w = (o, w') -> later w w'.
Proof.
  induction more as [|more IH]; intros h w o w' H; cbn [attempts] in H;
    destruct (assistant h w) as [[[a|e] h1] w1] eqn:A;
    pose proof (proj1 (assistant_later _ _ _ _ _ A)) as L.
  - injection H as _ <-. exact L.
  - destruct (retryable e); injection H as _ <-; exact L.
  - injection H as _ <-. exact L.
  - destruct (retryable e); [|injection H as _ <-; exact L].
    destruct (feedback e h1 w1) as [h2 w2] eqn:F.
    apply (later_trans _ w1); [exact L|]. apply (later_trans _ w2); [exact (proj1 (feedback_later _ _ _ _ _ F))|].
    exact (IH _ _ _ _ H).
Qed.
Lemma nth_tl : forall A (l : list A) i d, nth i (tl l) d = nth (S i) l d.
Proof. intros A [|x l] i d; [destruct i; reflexivity|reflexivity]. Qed.
Lemma skipn_tl : forall A n (l : list A), skipn n (tl l) = skipn (S n) l.
Proof. intros A n [|x l]; [apply skipn_nil|reflexivity]. Qed.

(** What follows a failed attempt. *)
Lemma retry_step : forall h w e h1 w1 h2 w2, NoDup (given (coming w)) -> ok w h ->
  assistant h w = (Exn e, h1, w1) -> retryable e = true -> feedback e h1 w1 = (h2, w2) ->
  malformed (next w) /\ ok w2 h2 /\
  exists raw fb, h2 = h ++ [raw; fb] /\ message_of (next w) raw /\ feedback_role (next w) (mrole fb).
Proof.
  intros h w e h1 w1 h2 w2 N O A R F.
  pose proof (assistant_spec _ _ _ _ _ N O A) as P.
  pose proof (proj1 (assistant_later _ _ _ _ _ A)) as L.
  assert (G : forall raw r,
    h1 = h ++ [raw] -> unused w (mid raw) -> ~ unused w1 (mid raw) ->
    (let (m, w3) := make None r 0 w1 in (set (set h1 raw) m, w3)) = (h2, w2) ->
    ok w2 h2 /\ exists fb, h2 = h ++ [raw; fb] /\ mrole fb = r).
  { intros raw r -> U V E. destruct (make None r 0 w1) as [fb w3] eqn:M.
    rewrite (set_last h raw (ok_distinct w h _ O U)) in E.
    assert (O1 : ok w1 (h ++ [raw])).
    { apply ok_app; [exact (later_ok _ _ _ L O)|]. intros x [<-|[]]. exact V. }
    destruct (draw _ _ _ _ _ _ M O1) as (S1 & O2 & _).
    rewrite S1 in E. injection E as <- <-. split; [exact O2|].
    exists fb. rewrite <- app_assoc. split; [reflexivity|]. exact (proj1 (proj2 (make_none _ _ _ _ _ M))). }
  unfold malformed, feedback_role.
  destruct e as [n|raw c|raw|c e]; try discriminate R; cbn [assistant_post] in P; unfold feedback in F.
  - destruct P as (E & U & V & M & J). rewrite J.
    destruct (G raw (RTool c) E U V F) as (O2 & fb & E2 & R2).
    split; [exact I|]. split; [exact O2|]. exists raw, fb. repeat split; assumption.
  - destruct P as (E & U & V & M & J). rewrite J.
    destruct (G raw RUser E U V F) as (O2 & fb & E2 & R2).
    split; [exact I|]. split; [exact O2|]. exists raw, fb. repeat split; assumption.
Qed.

Definition attempts_post (more k : nat) (w : world) (o : outcome answer) (w' : world) : Prop :=
  match o with
  | Ok a => unused w (mid (fst (fst a))) /\ ~ unused w' (mid (fst (fst a))) /\ answer_of (nth k (coming w) None) a
  | Exn e => (k = more /\ error_of (nth k (coming w) None) e) \/
             (judge (nth k (coming w) None) = VFails /\ exists n, e = EOther n)
  end.
Lemma attempts_spec : forall more h w o w', NoDup (given (coming w)) -> ok w h ->
  attempts more h w = (o, w') ->
  exists k reqs, k <= more /\ requests_of k h (coming w) reqs /\ sent w' = sent w ++ reqs /\
    coming w' = skipn (S k) (coming w) /\ attempts_post more k w o w'.
Proof.
  assert (B0 : forall h w, requests_of 0 h (coming w) [h]).
  { intros h w. split; [reflexivity|]. split; [reflexivity|]. intros i I. inversion I. }
  induction more as [|more IH]; intros h w o w' N O H; cbn [attempts] in H;
    destruct (assistant h w) as [[[a|e] h1] w1] eqn:A;
    pose proof (assistant_spec _ _ _ _ _ N O A) as P;
    pose proof (assistant_later _ _ _ _ _ A) as (L & CM & ST);
    unfold next in P.
  - injection H as <- <-. exists 0, [h]. split; [lia|]. split; [exact (B0 h w)|]. split; [exact ST|].
    split; [rewrite CM; destruct (coming w); reflexivity|].
    destruct a as [[m ts] v]. cbn [assistant_post attempts_post fst] in *. tauto.
  - assert (E : o = Exn e /\ w' = w1) by (destruct (retryable e); injection H as <- <-; split; reflexivity).
    destruct E as [-> ->]. exists 0, [h]. split; [lia|]. split; [exact (B0 h w)|]. split; [exact ST|].
    split; [rewrite CM; destruct (coming w); reflexivity|].
    cbn [attempts_post]. unfold error_of.
    destruct e as [n|raw c|raw|c e]; cbn [assistant_post] in P; unfold next in P.
    + right. split; [exact P|]. exists n. reflexivity.
    + destruct P as (_ & _ & _ & M & J). left. rewrite J. repeat split; exact M.
    + destruct P as (_ & _ & _ & M & J). left. rewrite J. split; [reflexivity|exact M].
    + contradiction.
  - injection H as <- <-. exists 0, [h]. split; [lia|]. split; [exact (B0 h w)|]. split; [exact ST|].
    split; [rewrite CM; destruct (coming w); reflexivity|].
    destruct a as [[m ts] v]. cbn [assistant_post attempts_post fst] in *. tauto.
  - destruct (retryable e) eqn:R.
    + destruct (feedback e h1 w1) as [h2 w2] eqn:F.
      pose proof (feedback_later _ _ _ _ _ F) as (L2 & CM2 & ST2).
      destruct (retry_step _ _ _ _ _ _ _ N O A R F) as (MF & O2 & raw & fb & E2 & M2 & F2).
      pose proof (later_trans _ _ _ L L2) as L3.
      destruct (IH h2 w2 o w' (later_nodup _ _ L3 N) O2 H) as (k & reqs & K & (RL & R0 & RS) & SE & CE & AP).
      exists (S k), (h :: reqs). split; [lia|]. split; [|split; [|split]].
      * split; [cbn [length]; rewrite RL; reflexivity|]. split; [reflexivity|].
        intros [|i] I.
        -- split; [exact MF|]. exists raw, fb. cbn [nth]. rewrite R0. split; [exact E2|].
           split; [exact M2|exact F2].
        -- specialize (RS i ltac:(lia)). rewrite CM2, CM, nth_tl in RS. cbn [nth]. exact RS.
      * rewrite SE, ST2, ST, <- app_assoc. reflexivity.
      * rewrite CE, CM2, CM, skipn_tl. reflexivity.
      * unfold attempts_post in *. rewrite CM2, CM, nth_tl in AP.
        destruct o as [a|e2].
        -- destruct AP as (U & V & W). split; [exact (later_unused _ _ _ L3 U)|]. split; [exact V|exact W].
        -- destruct AP as [[-> X]|X]; [left; split; [reflexivity|exact X]|right; exact X].
    + injection H as <- <-. exists 0, [h]. split; [lia|]. split; [exact (B0 h w)|]. split; [exact ST|].
      split; [rewrite CM; destruct (coming w); reflexivity|].
      destruct e as [n|raw c|raw|c e]; try discriminate R; cbn [assistant_post] in P.
      * right. split; [exact P|]. exists n. reflexivity.
      * contradiction.
Qed.

(** The assistant, with or without retries. *)
Lemma assistant_with_later : forall rt h w o h1 w1, assistant_with rt h w = (o, h1, w1) -> later w w1.
Proof.
  intros [rt|] h w o h1 w1 H; unfold assistant_with in H.
  - destruct (attempts (pred (stop rt)) h w) as [[[[m ts] v]|e] w2] eqn:A; injection H as _ _ <-;
      exact (attempts_later _ _ _ _ _ A).
  - exact (proj1 (assistant_later _ _ _ _ _ H)).
Qed.
Lemma assistant_with_ok : forall rt h w m ts v h1 w1, NoDup (given (coming w)) -> ok w h ->
  assistant_with rt h w = (Ok (m, ts, v), h1, w1) ->
  h1 = h ++ [m] /\ ok w1 h1 /\ mrole m = RAssistant (map fst ts).
Proof.
  intros rt h w m ts v h1 w1 N O H.
  pose proof (assistant_with_later _ _ _ _ _ _ H) as L.
  assert (K : h1 = h ++ [m] /\ ~ unused w1 (mid m) /\ mrole m = RAssistant (map fst ts)).
  { destruct rt as [rt|]; unfold assistant_with in H.
    - destruct (attempts (pred (stop rt)) h w) as [[[[m' ts'] v']|e] w2] eqn:A; [|discriminate H].
      injection H as -> -> -> <- ->.
      destruct (attempts_spec _ _ _ _ _ N O A) as (k & reqs & _ & _ & _ & _ & U & V & W).
      cbn [fst] in U, V. split; [exact (set_new _ _ (ok_distinct _ _ _ O U))|]. split; [exact V|].
      exact (proj1 (proj2 W)).
    - pose proof (assistant_spec _ _ _ _ _ N O H) as (E & _ & V & W).
      split; [exact E|]. split; [exact V|]. exact (proj1 (proj2 W)). }
  destruct K as (-> & V & R). split; [reflexivity|]. split; [|exact R].
  apply ok_app; [exact (later_ok _ _ _ L O)|]. intros x [<-|[]]. exact V.
Qed.

(** * Running *)
Lemma opening_later : forall t w h w1, opening t w = (h, w1) -> later w w1 /\ coming w1 = coming w /\ sent w1 = sent w.
Proof.
  intros t w h w1 H. unfold opening in H.
  destruct (match agent t with Some a => stored w a | None => [] end) as [|[i [| |cs|c] x] h0];
    try (destruct (make None RSystem (sys_prompt t) w) as [s w2] eqn:M; injection H as _ <-;
         exact (make_none_later _ _ _ _ _ M)).
  injection H as _ <-. split; [apply later_refl|split; reflexivity].
Qed.
Lemma opening_spec : forall t w h w1, opening t w = (h, w1) -> ok w (history_of t w) ->
  exists pre, h = pre ++ history_of t w /\ prefix_for (history_of t w) pre /\ ok w1 h.
Proof.
  intros t w h w1 H O. unfold opening in H. fold (history_of t w) in H.
  destruct (make None RSystem (sys_prompt t) w) as [s w2] eqn:M.
  destruct (draw _ _ _ _ _ _ M O) as (S1 & O1 & D).
  pose proof (make_none _ _ _ _ _ M) as (_ & R & _ & _).
  assert (K : ~ system_first (history_of t w) ->
    (to_front (set (history_of t w) s) (mid s), w2) = (h, w1) ->
    exists pre, h = pre ++ history_of t w /\ prefix_for (history_of t w) pre /\ ok w1 h).
  { intros NS E. rewrite S1, to_front_new in E by exact D. injection E as <- <-.
    exists [s]. split; [reflexivity|]. split; [right; split; [exact NS|exists s; split; [reflexivity|exact R]]|].
    intros m [<-|X]; apply O1; apply in_or_app; [right; left; reflexivity|left; exact X]. }
  destruct (history_of t w) as [|[i r x] h0] eqn:E.
  - apply K; [|exact H]. intros (m & h' & Q & _). discriminate Q.
  - destruct r as [| |cs|c].
    + injection H as <- <-. exists []. split; [reflexivity|]. split; [|exact O].
      left. split; [|reflexivity]. exists (Msg i RSystem x), h0. split; reflexivity.
    + apply K; [|exact H]. intros (m & h' & Q & S2). injection Q as <- _. discriminate S2.
    + apply K; [|exact H]. intros (m & h' & Q & S2). injection Q as <- _. discriminate S2.
    + apply K; [|exact H]. intros (m & h' & Q & S2). injection Q as <- _. discriminate S2.
Qed.

Definition writes (j : job) : bool := match j with JCall false _ => true | _ => false end.
Lemma exec_later : forall rt n j w o h' w', exec rt n j w = Some (o, h', w') -> writes j = false -> later w w'.
Proof.
  intros rt. induction n as [|n IH]; intros j w o h' w' H J; [discriminate H|].
  cbn [exec] in H. destruct j as [nested t|h|h [|[c p] ts]|[x|e|t k]].
  - destruct nested; [|discriminate J].
    destruct (opening t w) as [h w1] eqn:OP. pose proof (proj1 (opening_later _ _ _ _ OP)) as L1.
    destruct (user_prompt t) as [u|e]; [|injection H as _ _ <-; exact L1].
    destruct (make None RUser u w1) as [m w2] eqn:M.
    pose proof (later_trans _ _ _ L1 (proj1 (make_none_later _ _ _ _ _ M))) as L2.
    destruct (exec rt n (JLoop (set h m)) w2) as [[[[v|e] h1] w3]|] eqn:X; [| |discriminate H].
    + injection H as _ _ <-. apply (later_trans _ w2); [exact L2|]. exact (IH _ _ _ _ _ X eq_refl).
    + injection H as _ _ <-. apply (later_trans _ w2); [exact L2|]. exact (IH _ _ _ _ _ X eq_refl).
  - destruct (assistant_with rt h w) as [[[[[m ts] v]|e] h1] w1] eqn:A;
      pose proof (assistant_with_later _ _ _ _ _ _ A) as L.
    + destruct ts as [|t ts]; [injection H as _ _ <-; exact L|].
      destruct (exec rt n (JTools h1 (t :: ts)) w1) as [[[[v2|e] h2] w2]|] eqn:X; [| |discriminate H];
        pose proof (IH _ _ _ _ _ X eq_refl) as L2.
      * apply (later_trans _ w2); [exact (later_trans _ _ _ L L2)|]. exact (IH _ _ _ _ _ H eq_refl).
      * injection H as _ _ <-. exact (later_trans _ _ _ L L2).
    + injection H as _ _ <-. exact L.
  - injection H as _ _ <-. apply later_refl.
  - destruct (exec rt n (JTool p) w) as [[[o1 h1] w1]|] eqn:X; [|discriminate H].
    pose proof (IH _ _ _ _ _ X eq_refl) as L1.
    assert (G : forall r y, (let (m, w2) := make None r y w1 in exec rt n (JTools (set h m) ts) w2) = Some (o, h', w') ->
      later w w').
    { intros r y E. destruct (make None r y w1) as [m w2] eqn:M.
      apply (later_trans _ w1); [exact L1|]. apply (later_trans _ w2); [exact (proj1 (make_none_later _ _ _ _ _ M))|].
      exact (IH _ _ _ _ _ E eq_refl). }
    destruct o1 as [[x|]|e].
    + exact (G _ _ H).
    + injection H as _ _ <-. exact L1.
    + destruct (caught rt e); [exact (G _ _ H)|]. injection H as _ _ <-. exact L1.
  - injection H as _ _ <-. apply later_refl.
  - injection H as _ _ <-. apply later_refl.
  - destruct (exec rt n (JCall true t) w) as [[[o1 h1] w1]|] eqn:X; [|discriminate H].
    apply (later_trans _ w1); [exact (IH _ _ _ _ _ X eq_refl)|]. exact (IH _ _ _ _ _ H eq_refl).
Qed.

(** The messages a loop or a list of tool calls adds. *)
Lemma exec_adds : forall rt n j w v h' w', exec rt n j w = Some (Ok v, h', w') -> NoDup (given (coming w)) ->
  match j with
  | JLoop h => ok w h -> exists conv, h' = h ++ conv /\ conversation conv /\ ok w' h'
  | JTools h l => ok w h -> exists ms, h' = h ++ ms /\ answers (map fst l) ms /\ ok w' h'
  | _ => True
  end.
Proof.
  intros rt. induction n as [|n IH]; intros j w v h' w' H N; [discriminate H|].
  destruct j as [nested t|h|h [|[c p] ts]|p]; [exact I| | | |exact I]; cbn [exec] in H; intro O.
  - destruct (assistant_with rt h w) as [[[[[m ts] v1]|e] h1] w1] eqn:A; [|discriminate H].
    pose proof (later_nodup _ _ (assistant_with_later _ _ _ _ _ _ A) N) as N1.
    destruct (assistant_with_ok _ _ _ _ _ _ _ _ N O A) as (-> & O1 & R).
    destruct ts as [|t ts].
    + injection H as _ <- <-. exists [m]. split; [reflexivity|]. split; [exact (conv_end m R)|exact O1].
    + destruct (exec rt n (JTools (h ++ [m]) (t :: ts)) w1) as [[[[v2|e] h2] w2]|] eqn:X; [| discriminate H|discriminate H].
      pose proof (later_nodup _ _ (exec_later _ _ _ _ _ _ _ X eq_refl) N1) as N2.
      destruct (IH _ _ _ _ _ X N1 O1) as (ms & -> & AM & O2).
      destruct (IH _ _ _ _ _ H N2 O2) as (conv & -> & CV & O3).
      exists (m :: ms ++ conv). split; [rewrite <- !app_assoc; reflexivity|].
      split; [|exact O3]. apply (conv_turn m (map fst (t :: ts))); [exact R|discriminate|exact AM|exact CV].
  - injection H as _ <- <-. exists []. rewrite app_nil_r. split; [reflexivity|]. split; [reflexivity|exact O].
  - destruct (exec rt n (JTool p) w) as [[[o1 h1] w1]|] eqn:X; [|discriminate H].
    pose proof (exec_later _ _ _ _ _ _ _ X eq_refl) as L1.
    assert (G : forall y, (let (m, w2) := make None (RTool c) y w1 in exec rt n (JTools (set h m) ts) w2) = Some (Ok v, h', w') ->
      exists ms, h' = h ++ ms /\ answers (map fst ((c, p) :: ts)) ms /\ ok w' h').
    { intros y E. destruct (make None (RTool c) y w1) as [m w2] eqn:M.
      destruct (draw _ _ _ _ _ _ M (later_ok _ _ _ L1 O)) as (S1 & O2 & _). rewrite S1 in E.
      pose proof (later_trans _ _ _ L1 (proj1 (make_none_later _ _ _ _ _ M))) as L2.
      destruct (IH _ _ _ _ _ E (later_nodup _ _ L2 N) O2) as (ms & -> & AM & O3).
      exists (m :: ms). split; [rewrite <- app_assoc; reflexivity|]. split; [|exact O3].
      unfold answers in *. cbn [map fst]. rewrite AM. f_equal.
      exact (proj1 (proj2 (make_none _ _ _ _ _ M))). }
    destruct o1 as [[x|]|e]; [exact (G _ H)|discriminate H|].
    destruct (caught rt e); [exact (G _ H)|discriminate H].
Qed.

(** * The stored histories *)
Lemma call_fails : forall rt n nested t w e h' w',
  exec rt n (JCall nested t) w = Some (Exn e, h', w') -> stored w' = stored w.
Proof.
  intros rt n nested t w e h' w' H. destruct n as [|n]; [discriminate H|]. cbn [exec] in H.
  destruct (opening t w) as [h w1] eqn:OP. pose proof (proj1 (opening_later _ _ _ _ OP)) as L1.
  destruct (user_prompt t) as [u|e1]; [|injection H as _ _ <-; exact (proj1 L1)].
  destruct (make None RUser u w1) as [m w2] eqn:M.
  destruct (exec rt n (JLoop (set h m)) w2) as [[[[v|e1] h1] w3]|] eqn:X; [discriminate H| |discriminate H].
  injection H as _ _ <-.
  rewrite (proj1 (exec_later _ _ _ _ _ _ _ X eq_refl)), (proj1 (proj1 (make_none_later _ _ _ _ _ M))). exact (proj1 L1).
Qed.
Lemma call_nested : forall rt n t w o h' w',
  exec rt n (JCall true t) w = Some (o, h', w') -> stored w' = stored w.
Proof. intros rt n t w o h' w' H. exact (proj1 (exec_later _ _ _ _ _ _ _ H eq_refl)). Qed.

Lemma call_ok : forall rt n t w v h' w', unclashing w ->
  exec rt n (JCall false t) w = Some (Ok v, h', w') ->
  unclashing w' /\
  exists new pre user conv,
    new = pre ++ history_of t w ++ user :: conv /\ prefix_for (history_of t w) pre /\ mrole user = RUser /\
    user_prompt t = Ok (mtext user) /\ conversation conv /\
    forall a, stored w' a = if match agent t with Some b => Nat.eqb a b | None => false end then new else stored w a.
Proof.
  intros rt n t w v h' w' [N O] H. destruct n as [|n]; [discriminate H|]. cbn [exec] in H.
  assert (O0 : ok w (history_of t w)).
  { unfold history_of. destruct (agent t) as [a|]; [exact (O a)|intros m []]. }
  destruct (opening t w) as [h w1] eqn:OP. pose proof (proj1 (opening_later _ _ _ _ OP)) as L1.
  destruct (opening_spec _ _ _ _ OP O0) as (pre & -> & PF & O1).
  destruct (user_prompt t) as [u|e1]; [|discriminate H].
  destruct (make None RUser u w1) as [m w2] eqn:M.
  destruct (draw _ _ _ _ _ _ M O1) as (S1 & O2 & _). rewrite S1 in H.
  pose proof (later_trans _ _ _ L1 (proj1 (make_none_later _ _ _ _ _ M))) as L2.
  destruct (exec rt n (JLoop ((pre ++ history_of t w) ++ [m])) w2) as [[[[v1|e1] h1] w3]|] eqn:X; [|discriminate H|discriminate H].
  destruct (exec_adds _ _ _ _ _ _ _ X (later_nodup _ _ L2 N) O2) as (conv & -> & CV & O3).
  pose proof (later_trans _ _ _ L2 (exec_later _ _ _ _ _ _ _ X eq_refl)) as L3.
  injection H as _ _ <-.
  pose proof (make_none _ _ _ _ _ M) as (_ & R & T & _).
  assert (ST : forall a, stored (store false (agent t) (((pre ++ history_of t w) ++ [m]) ++ conv) w3) a =
    if match agent t with Some b => Nat.eqb a b | None => false end
    then pre ++ history_of t w ++ m :: conv else stored w a).
  { intro a. unfold store. destruct (agent t) as [b|]; [|rewrite (proj1 L3); reflexivity]. cbn [stored].
    destruct (Nat.eqb a b); [rewrite <- !app_assoc; reflexivity|rewrite (proj1 L3); reflexivity]. }
  assert (CM : forall i, unused (store false (agent t) (((pre ++ history_of t w) ++ [m]) ++ conv) w3) i <-> unused w3 i).
  { intro i. unfold store. destruct (agent t); [destruct i|]; reflexivity. }
  split.
  - split.
    + assert (E : coming (store false (agent t) (((pre ++ history_of t w) ++ [m]) ++ conv) w3) = coming w3)
        by (unfold store; destruct (agent t); reflexivity).
      refine (eq_ind_r (fun l => NoDup (given l)) _ E). exact (later_nodup _ _ L3 N).
    + intros a x X1 U. apply CM in U. pose proof (eq_ind _ (fun l => In x l) X1 _ (ST a)) as X2. clear X1. rename X2 into X1.
      cbv beta in X1. destruct (match agent t with Some b => Nat.eqb a b | None => false end).
      * apply (O3 x); [|exact U]. rewrite <- !app_assoc. exact X1.
      * exact (later_ok _ _ _ L3 (O a) x X1 U).
  - exists (pre ++ history_of t w ++ m :: conv), pre, m, conv.
    split; [reflexivity|]. split; [exact PF|]. split; [exact R|]. split; [rewrite T; reflexivity|].
    split; [exact CV|exact ST].
Qed.

(** * Everything is answered *)
Lemma answered_app : forall a b, answered a -> answered b -> answered (a ++ b).
Proof.
  intros a b A B. induction A as [|m rest R A IH|m calls tools rest R AN A IH].
  - exact B.
  - exact (ans_plain m _ R IH).
  - cbn [app]. rewrite <- app_assoc. exact (ans_turn m calls tools _ R AN IH).
Qed.
Lemma conversation_answered : forall h, conversation h -> answered h.
Proof.
  intros h C. induction C as [m R|m calls tools rest R NE AN C IH].
  - exact (ans_turn m [] [] [] R eq_refl ans_nil).
  - exact (ans_turn m calls tools rest R AN IH).
Qed.
Lemma prefix_answered : forall h pre, prefix_for h pre -> answered pre.
Proof.
  intros h pre [[_ ->]|[_ (s & -> & R)]]; [exact ans_nil|].
  exact (ans_plain s [] (or_introl R) ans_nil).
Qed.
Lemma call_answered : forall rt n nested t w o h' w', unclashing w ->
  exec rt n (JCall nested t) w = Some (o, h', w') ->
  forall a, answered (stored w a) -> answered (stored w' a).
Proof.
  intros rt n nested t w o h' w' UC H a A.
  destruct nested; [rewrite (call_nested _ _ _ _ _ _ _ H); exact A|].
  destruct o as [v|e]; [|rewrite (call_fails _ _ _ _ _ _ _ _ H); exact A].
  destruct (call_ok _ _ _ _ _ _ _ UC H) as (_ & new & pre & user & conv & -> & PF & RU & _ & CV & ST).
  rewrite ST. destruct (agent t) as [b|] eqn:AT; [|exact A].
  destruct (Nat.eqb a b) eqn:E; [|exact A]. apply Nat.eqb_eq in E as ->.
  unfold history_of. rewrite AT.
  apply answered_app; [exact (prefix_answered _ _ PF)|]. apply answered_app; [exact A|].
  exact (ans_plain user conv (or_intror RU) (conversation_answered _ CV)).
Qed.

(** * The requests sent *)
Lemma requests_answered : forall k h l reqs, lone_bad_calls l -> answered h -> requests_of k h l reqs -> Forall answered reqs.
Proof.
  intros k h l reqs LB A (LN & Z & ST).
  assert (K : forall i, i <= k -> answered (nth i reqs [])).
  { induction i as [|i IH]; intro I; [rewrite Z; exact A|].
    destruct (ST i ltac:(lia)) as (_ & raw & fb & -> & (r & ER & RR & _) & FB).
    apply answered_app; [apply IH; lia|].
    assert (IR : In (Some r) l).
    { rewrite <- ER. apply nth_In. destruct (Nat.lt_ge_cases i (length l)) as [L|L]; [exact L|].
      rewrite (nth_overflow l None L) in ER. discriminate ER. }
    unfold feedback_role in FB. rewrite ER in FB. cbn [judge] in FB.
    destruct (first_bad (rcalls r)) as [c|] eqn:F.
    - rewrite (LB r c IR F) in RR.
      apply (ans_turn raw [c] [fb] [] RR); [unfold answers; cbn [map]; rewrite FB; reflexivity|exact ans_nil].
    - destruct (rcalls r) as [|x xs]; [|contradiction]. destruct (rcontent r); try contradiction.
      apply (ans_turn raw [] [] [fb] RR eq_refl). exact (ans_plain fb [] (or_intror FB) ans_nil). }
  apply Forall_nth. intros i d I. rewrite (nth_indep reqs d [] I). apply K. lia.
Qed.

Definition tame (rt : option retry) (l : list completion) : Prop := rt = None \/ lone_bad_calls l.
Lemma later_tame : forall rt w w', later w w' -> tame rt (coming w) -> tame rt (coming w').
Proof.
  intros rt w w' (_ & _ & (u & U) & _) [T|T]; [left; exact T|right].
  intros r c I F. apply (T r c); [|exact F]. rewrite U. apply in_or_app. right. exact I.
Qed.
Definition adds (w w' : world) : Prop := exists reqs, sent w' = sent w ++ reqs /\ Forall answered reqs.
Lemma adds_same : forall w w', sent w' = sent w -> adds w w'.
Proof. intros w w' E. exists []. rewrite app_nil_r. split; [exact E|constructor]. Qed.
Lemma adds_trans : forall a b c, adds a b -> adds b c -> adds a c.
Proof.
  intros a b c (r1 & E1 & F1) (r2 & E2 & F2). exists (r1 ++ r2).
  split; [rewrite E2, E1, app_assoc; reflexivity|apply Forall_app; split; assumption].
Qed.
Lemma assistant_with_adds : forall rt h w o h1 w1, NoDup (given (coming w)) -> ok w h -> answered h ->
  tame rt (coming w) -> assistant_with rt h w = (o, h1, w1) -> adds w w1.
Proof.
  intros rt h w o h1 w1 N O A T H. destruct rt as [rt|]; unfold assistant_with in H.
  - destruct T as [T|T]; [discriminate T|].
    destruct (attempts (pred (stop rt)) h w) as [o2 w2] eqn:AT.
    destruct (attempts_spec _ _ _ _ _ N O AT) as (k & reqs & _ & RQ & SE & _).
    assert (E : w1 = w2) by (destruct o2 as [[[m ts] v]|e]; congruence). rewrite E.
    exists reqs. split; [exact SE|exact (requests_answered _ _ _ _ T A RQ)].
  - exists [h]. split; [exact (proj2 (proj2 (assistant_later _ _ _ _ _ H)))|]. constructor; [exact A|constructor].
Qed.

Lemma exec_requests : forall rt n j w o h' w', exec rt n j w = Some (o, h', w') ->
  unclashing w -> tame rt (coming w) -> (forall a, answered (stored w a)) ->
  match j with
  | JLoop h => ok w h /\ answered h
  | JTools h _ => ok w h
  | _ => True
  end -> adds w w'.
Proof.
  intros rt. induction n as [|n IH]; intros j w o h' w' H UC T SA P; [discriminate H|].
  assert (LA : forall w1, later w w1 -> unclashing w1 /\ tame rt (coming w1) /\ forall a, answered (stored w1 a)).
  { intros w1 L. split; [split|split].
    - exact (later_nodup _ _ L (proj1 UC)).
    - intros a m I. rewrite (proj1 L) in I. exact (later_ok _ _ _ L (proj2 UC a) m I).
    - exact (later_tame _ _ _ L T).
    - intro a. rewrite (proj1 L). exact (SA a). }
  destruct j as [nested t|h|h [|[c p] ts]|[x|e|t k]]; cbn [exec] in H.
  - assert (O0 : ok w (history_of t w)).
    { unfold history_of. destruct (agent t) as [a|]; [exact (proj2 UC a)|intros m []]. }
    destruct (opening t w) as [h w1] eqn:OP. pose proof (opening_later _ _ _ _ OP) as (L1 & _ & S1).
    destruct (opening_spec _ _ _ _ OP O0) as (pre & -> & PF & O1).
    destruct (user_prompt t) as [u|e1]; [|injection H as _ _ <-; exact (adds_same _ _ S1)].
    destruct (make None RUser u w1) as [m w2] eqn:M.
    destruct (draw _ _ _ _ _ _ M O1) as (SE & O2 & _). rewrite SE in H.
    pose proof (make_none_later _ _ _ _ _ M) as (L2 & _ & S2).
    destruct (LA w2 (later_trans _ _ _ L1 L2)) as (UC2 & T2 & SA2).
    assert (AH : answered (history_of t w)).
    { unfold history_of. destruct (agent t) as [a|]; [exact (SA a)|exact ans_nil]. }
    assert (A2 : answered ((pre ++ history_of t w) ++ [m])).
    { apply answered_app; [apply answered_app; [exact (prefix_answered _ _ PF)|exact AH]|].
      exact (ans_plain m [] (or_intror (proj1 (proj2 (make_none _ _ _ _ _ M)))) ans_nil). }
    apply (adds_trans _ w2); [apply adds_same; congruence|].
    destruct (exec rt n (JLoop ((pre ++ history_of t w) ++ [m])) w2) as [[[o1 h1] w3]|] eqn:X; [|discriminate H].
    pose proof (IH _ _ _ _ _ X UC2 T2 SA2 (conj O2 A2)) as AD.
    destruct o1 as [v|e]; injection H as _ _ <-; [|exact AD].
    apply (adds_trans _ w3); [exact AD|]. apply adds_same. unfold store.
    destruct nested; [reflexivity|]. destruct (agent t); reflexivity.
  - destruct P as [O A].
    destruct (assistant_with rt h w) as [[o1 h1] w1] eqn:AW.
    pose proof (assistant_with_adds _ _ _ _ _ _ (proj1 UC) O A T AW) as AD.
    pose proof (assistant_with_later _ _ _ _ _ _ AW) as L1.
    destruct o1 as [[[m ts] v]|e]; [|injection H as _ _ <-; exact AD].
    destruct ts as [|t ts]; [injection H as _ _ <-; exact AD|].
    destruct (assistant_with_ok _ _ _ _ _ _ _ _ (proj1 UC) O AW) as (-> & O1 & R).
    destruct (LA w1 L1) as (UC1 & T1 & SA1).
    destruct (exec rt n (JTools (h ++ [m]) (t :: ts)) w1) as [[[o2 h2] w2]|] eqn:X; [|discriminate H].
    pose proof (adds_trans _ _ _ AD (IH _ _ _ _ _ X UC1 T1 SA1 O1)) as AD2.
    destruct o2 as [v2|e]; [|injection H as _ _ <-; exact AD2].
    pose proof (later_trans _ _ _ L1 (exec_later _ _ _ _ _ _ _ X eq_refl)) as L2.
    destruct (exec_adds _ _ _ _ _ _ _ X (proj1 UC1) O1) as (ms & -> & AM & O2).
    destruct (LA w2 L2) as (UC2 & T2 & SA2).
    apply (adds_trans _ w2); [exact AD2|]. apply (IH _ _ _ _ _ H UC2 T2 SA2).
    split; [exact O2|]. rewrite <- app_assoc. apply answered_app; [exact A|].
    pose proof (ans_turn m _ ms [] R AM ans_nil) as Q. rewrite app_nil_r in Q. exact Q.
  - injection H as _ _ <-. apply adds_same. reflexivity.
  - destruct (exec rt n (JTool p) w) as [[[o1 h1] w1]|] eqn:X; [|discriminate H].
    pose proof (IH _ _ _ _ _ X UC T SA I) as AD.
    pose proof (exec_later _ _ _ _ _ _ _ X eq_refl) as L1.
    assert (G : forall y, (let (m, w2) := make None (RTool c) y w1 in exec rt n (JTools (set h m) ts) w2) = Some (o, h', w') ->
      adds w w').
    { intros y E. destruct (make None (RTool c) y w1) as [m w2] eqn:M.
      destruct (draw _ _ _ _ _ _ M (later_ok _ _ _ L1 P)) as (SE & O2 & _). rewrite SE in E.
      pose proof (make_none_later _ _ _ _ _ M) as (L2 & _ & S2).
      destruct (LA w2 (later_trans _ _ _ L1 L2)) as (UC2 & T2 & SA2).
      apply (adds_trans _ w1); [exact AD|]. apply (adds_trans _ w2); [exact (adds_same _ _ S2)|].
      exact (IH _ _ _ _ _ E UC2 T2 SA2 O2). }
    destruct o1 as [[x|]|e]; [exact (G _ H)|injection H as _ _ <-; exact AD|].
    destruct (caught rt e); [exact (G _ H)|injection H as _ _ <-; exact AD].
  - injection H as _ _ <-. apply adds_same. reflexivity.
  - injection H as _ _ <-. apply adds_same. reflexivity.
  - destruct (exec rt n (JCall true t) w) as [[[o1 h1] w1]|] eqn:X; [|discriminate H].
    destruct (LA w1 (exec_later _ _ _ _ _ _ _ X eq_refl)) as (UC1 & T1 & SA1).
    exact (adds_trans _ _ _ (IH _ _ _ _ _ X UC T SA I) (IH _ _ _ _ _ H UC1 T1 SA1 I)).
Qed.

(** * Retrying, seen from outside *)
Lemma retry_spec : forall rt h w o h' w', NoDup (given (coming w)) -> fresh_for w h ->
  assistant_with (Some rt) h w = (o, h', w') ->
  exists k reqs, S k <= max 1 (stop rt) /\ requests_of k h (coming w) reqs /\ sent w' = sent w ++ reqs /\
    coming w' = skipn (S k) (coming w) /\ stored w' = stored w /\
    match o with
    | Ok a => answer_of (nth k (coming w) None) a /\ h' = h ++ [fst (fst a)]
    | Exn e => h' = h /\
        ((S k = max 1 (stop rt) /\ error_of (nth k (coming w) None) e) \/
         (judge (nth k (coming w) None) = VFails /\ exists n, e = EOther n))
    end.
Proof.
  intros rt h w o h' w' N O H. pose proof (assistant_with_later _ _ _ _ _ _ H) as L.
  unfold assistant_with in H.
  destruct (attempts (pred (stop rt)) h w) as [o2 w2] eqn:A.
  destruct (attempts_spec _ _ _ _ _ N O A) as (k & reqs & K & RQ & SE & CE & AP).
  exists k, reqs.
  assert (E : w2 = w') by (destruct o2 as [[[m ts] v]|e]; injection H as _ _ <-; reflexivity). subst w2.
  split; [lia|]. split; [exact RQ|]. split; [exact SE|]. split; [exact CE|]. split; [exact (proj1 L)|].
  destruct o2 as [[[m ts] v]|e]; injection H as <- <-; cbn [attempts_post fst] in *.
  - destruct AP as (U & _ & W). split; [exact W|]. exact (set_new _ _ (ok_distinct _ _ _ O U)).
  - split; [reflexivity|]. destruct AP as [[-> X]|X]; [left; split; [lia|exact X]|right; exact X].
Qed.

(** * Ids that clash *)
Definition tpl : template := {| agent := Some 0; sys_prompt := 1; user_prompt := Ok 2 |}.
Definition value (i : option nat) (x : nat) : completion :=
  Some {| rid := i; rcalls := []; rcontent := CGood x; rtext := x |}.
Definition calls (i : option nat) (l : list (nat * option tool)) (x : nat) : completion :=
  Some {| rid := i; rcalls := l; rcontent := CNone; rtext := x |}.
Definition past : hist := [Msg (Drawn 0) RSystem 1; Msg (Drawn 1) RUser 2; Msg (Given 7) (RAssistant []) 3].
Definition w_clash : world := World 2 (fun a => if Nat.eqb a 0 then past else []) [value (Some 7) 4] [].
Lemma clash_overwrites : exists h' w',
  exec None 9 (JCall false tpl) w_clash = Some (Ok (Some 4), h', w') /\
  ~ exists more, stored w' 0 = stored w_clash 0 ++ more.
Proof.
  eexists. eexists. split; [reflexivity|]. intros (more & E). vm_compute in E. discriminate E.
Qed.

Definition w_orphan : world :=
  World 0 (fun _ => []) [calls (Some 7) [(1, Some (TRet (Some 5)))] 3; value (Some 7) 4] [].
Lemma answered_plain_inv : forall m rest, answered (m :: rest) -> mrole m = RSystem \/ mrole m = RUser -> answered rest.
Proof.
  intros m rest H R. remember (m :: rest) as l eqn:E.
  destruct H as [|m1 r1 _ H1|m1 c1 t1 r1 R1 _ _]; [discriminate E| |].
  - injection E as _ <-. exact H1.
  - injection E as -> _. destruct R; congruence.
Qed.
Lemma answered_turn_inv : forall m l cs, answered (m :: l) -> mrole m = RAssistant cs ->
  exists tools rest, l = tools ++ rest /\ answers cs tools /\ answered rest.
Proof.
  intros m l cs H R. remember (m :: l) as l0 eqn:E.
  destruct H as [|m1 r1 R1 H1|m1 c1 t1 r1 R1 AN H1]; [discriminate E| |].
  - injection E as -> _. destruct R1; congruence.
  - injection E as -> <-. exists t1, r1. split; [reflexivity|]. split; [|exact H1].
    assert (c1 = cs) as <- by congruence. exact AN.
Qed.
Lemma answered_tool_inv : forall m l c, answered (m :: l) -> mrole m = RTool c -> False.
Proof.
  intros m l c H R. remember (m :: l) as l0 eqn:E.
  destruct H as [|m1 r1 R1 H1|m1 c1 t1 r1 R1 AN H1]; [discriminate E| |]; injection E as -> _.
  - destruct R1; congruence.
  - congruence.
Qed.
Lemma not_answered_orphan : forall a b m d rest, mrole a = RSystem -> mrole b = RUser -> mrole m = RAssistant [] ->
  mrole d = RTool 1 -> ~ answered (a :: b :: m :: d :: rest).
Proof.
  intros a b m d rest A B M D H.
  apply answered_plain_inv in H; [|left; exact A]. apply answered_plain_inv in H; [|right; exact B].
  destruct (answered_turn_inv _ _ _ H M) as ([|z t1] & r & E & AN & H1); [|discriminate AN].
  cbn [app] in E. subst r. exact (answered_tool_inv _ _ _ H1 D).
Qed.
Lemma clash_orphans : exists h' w',
  exec None 9 (JCall false tpl) w_orphan = Some (Ok (Some 4), h', w') /\
  (forall a, answered (stored w_orphan a)) /\ ~ answered (stored w' 0).
Proof.
  eexists. eexists. split; [reflexivity|]. split; [intro a; exact ans_nil|].
  cbn. apply not_answered_orphan; reflexivity.
Qed.

(** * A retry that leaves a call unanswered *)
Definition two_tries : retry := {| stop := 2; catches := fun _ => true |}.
Definition w_retry : world :=
  World 0 (fun _ => []) [calls None [(1, Some (TRet (Some 5))); (2, None)] 3; value None 4] [].
Lemma retry_unanswered : exists h' w' req,
  exec (Some two_tries) 9 (JCall false tpl) w_retry = Some (Ok (Some 4), h', w') /\
  unclashing w_retry /\ (forall a, stored w_retry a = []) /\ In req (sent w') /\ ~ answered req.
Proof.
  eexists. eexists.
  exists [Msg (Drawn 0) RSystem 1; Msg (Drawn 1) RUser 2; Msg (Drawn 2) (RAssistant [1; 2]) 3; Msg (Drawn 3) (RTool 2) 0].
  split; [reflexivity|]. split; [split; [constructor|intros a m []]|]. split; [reflexivity|].
  split; [right; left; reflexivity|]. intro H.
  apply answered_plain_inv in H; [|left; reflexivity]. apply answered_plain_inv in H; [|right; reflexivity].
  destruct (answered_turn_inv _ _ [1; 2] H eq_refl) as (t1 & r & E & AN & _). unfold answers in AN.
  destruct t1 as [|z [|y t1]]; try discriminate AN. cbn [app] in E. discriminate E.
Qed.
