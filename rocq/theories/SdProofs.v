From Coq Require Import List Arith Bool Lia.
From Verif Require Import SdModel SdSpec.
Import ListNotations.

(** * Lists *)
Lemma mem_In : forall x l, mem x l = true <-> In x l.
Proof.
  intros x l. unfold mem. rewrite existsb_exists. split.
  - intros [y [H E]]. apply Nat.eqb_eq in E. now subst.
  - intros H. exists x. split; [exact H | apply Nat.eqb_refl].
Qed.

Lemma mem_out : forall x l, mem x l = false <-> ~ In x l.
Proof.
  intros x l. rewrite <- mem_In. destruct (mem x l); split; intro H; try discriminate; auto.
  exfalso; now apply H.
Qed.

Definition prior (l : list cls) (x y : cls) : Prop :=
  exists l1 l2 l3, l = l1 ++ x :: l2 ++ y :: l3.

Lemma prior_head : forall x y l, In y l -> prior (x :: l) x y.
Proof.
  intros x y l H. apply in_split in H. destruct H as [l2 [l3 ->]].
  exists [], l2, l3. reflexivity.
Qed.

Lemma prior_cons : forall a l x y, prior l x y -> prior (a :: l) x y.
Proof. intros a l x y [l1 [l2 [l3 ->]]]. exists (a :: l1), l2, l3. reflexivity. Qed.

Lemma prior_inv : forall a l x y, prior (a :: l) x y -> (a = x /\ In y l) \/ prior l x y.
Proof.
  intros a l x y [l1 [l2 [l3 E]]]. destruct l1 as [|b l1]; cbn in E; injection E as -> E.
  - left. split; [reflexivity|]. rewrite E. apply in_or_app. right. now left.
  - right. exists l1, l2, l3. exact E.
Qed.

Lemma prior_in : forall l x y, prior l x y -> In x l /\ In y l.
Proof.
  intros l x y [l1 [l2 [l3 ->]]]. split; apply in_or_app; right; [now left|].
  right. apply in_or_app. right. now left.
Qed.

Lemma prior_trans : forall l x y z, NoDup l -> prior l x y -> prior l y z -> prior l x z.
Proof.
  induction l as [|a l IH]; intros x y z N H1 H2.
  - destruct H1 as [[|? ?] [l2 [l3 E]]]; discriminate.
  - inversion N as [|? ? Na Nl]; subst.
    destruct (prior_inv _ _ _ _ H1) as [[-> Hy]|H1'];
    destruct (prior_inv _ _ _ _ H2) as [[-> Hz]|H2'].
    + contradiction.
    + apply prior_head. apply (prior_in _ _ _ H2').
    + apply prior_in in H1'. destruct H1' as [_ H1']. contradiction.
    + apply prior_cons. now apply (IH x y z).
Qed.

(** * The merge *)
Lemma pick_in : forall all rest x, pick all rest = Some x ->
  (exists s, In (x :: s) rest) /\ forall q, In q all -> ~ In x (tl q).
Proof.
  intros all rest x; induction rest as [|[|y s] rest IH]; cbn; intros H; [discriminate| |].
  - destruct (IH H) as [[s Hs] K]. split; [exists s; now right | exact K].
  - destruct (existsb (fun s => mem y (tl s)) all) eqn:E.
    + destruct (IH H) as [[s' Hs] K]. split; [exists s'; now right | exact K].
    + injection H as ->. split; [exists s; now left|].
      intros q Hq Hx. assert (T : existsb (fun s => mem x (tl s)) all = true).
      { apply existsb_exists. exists q. split; [exact Hq | now apply mem_In]. }
      rewrite E in T. discriminate.
Qed.

Lemma filter_nonempty : forall seqs s, In s (filter nonempty seqs) <-> In s seqs /\ s <> [].
Proof.
  intros seqs s. rewrite filter_In. destruct s; cbn; split; intros [H1 H2]; split; auto; try discriminate.
Qed.

Lemma drop_in : forall x s y, In y (drop x s) -> In y s.
Proof.
  intros x [|z s] y; cbn; [auto|]. destruct (Nat.eqb z x); cbn; auto.
Qed.

Lemma drop_keeps : forall x s y, y <> x -> In y s -> In y (drop x s).
Proof.
  intros x [|z s] y N H; cbn; [exact H|]. destruct (Nat.eqb_spec z x) as [->|_]; [|exact H].
  destruct H as [->|H]; [now elim N | exact H].
Qed.

Lemma drop_gone : forall x s, ~ In x (tl s) -> ~ In x (drop x s).
Proof.
  intros x [|z s]; cbn; intros H; [auto|].
  destruct (Nat.eqb_spec z x) as [_|N]; [exact H|].
  intros [E|K]; [now apply N | now apply H].
Qed.

Lemma merge_unfold : forall n seqs,
  merge (S n) seqs =
  match filter nonempty seqs with
  | [] => Ok []
  | _ => match pick (filter nonempty seqs) (filter nonempty seqs) with
         | None => Err Inconsistent
         | Some x => bind (merge n (map (drop x) (filter nonempty seqs))) (fun r => Ok (x :: r))
         end
  end.
Proof. reflexivity. Qed.

Lemma merge_cases : forall n seqs r, merge (S n) seqs = Ok r ->
  (r = [] /\ forall s, In s seqs -> s = []) \/
  exists x r', r = x :: r' /\ pick (filter nonempty seqs) (filter nonempty seqs) = Some x /\
    merge n (map (drop x) (filter nonempty seqs)) = Ok r'.
Proof.
  intros n seqs r H. rewrite merge_unfold in H.
  destruct (filter nonempty seqs) as [|q qs] eqn:E.
  - left. injection H as <-. split; [reflexivity|]. intros [|y s] Hs; [reflexivity|].
    assert (T : In (y :: s) (filter nonempty seqs)) by (apply filter_nonempty; split; [exact Hs | discriminate]).
    rewrite E in T. destruct T.
  - right. destruct (pick (q :: qs) (q :: qs)) as [x|] eqn:P; [|discriminate].
    destruct (merge n (map (drop x) (q :: qs))) as [r'|e] eqn:M; [|discriminate].
    injection H as <-. exists x, r'. repeat split; reflexivity || assumption.
Qed.

Lemma merge_mem : forall n seqs r, merge n seqs = Ok r ->
  forall y, In y r <-> exists s, In s seqs /\ In y s.
Proof.
  induction n as [|n IH]; intros seqs r H y; [discriminate|].
  destruct (merge_cases _ _ _ H) as [[-> E]|[x [r' [-> [P M]]]]].
  - split; [intros []|]. intros [s [Hs Hy]]. rewrite (E s Hs) in Hy. destruct Hy.
  - destruct (pick_in _ _ _ P) as [[s0 Hs0] _]. specialize (IH _ _ M).
    split.
    + intros [->|Hy].
      * exists (y :: s0). split; [now apply filter_nonempty in Hs0 | now left].
      * apply IH in Hy. destruct Hy as [s [Hs Hy]]. apply in_map_iff in Hs.
        destruct Hs as [q [<- Hq]]. exists q. split; [now apply filter_nonempty in Hq|].
        now apply drop_in in Hy.
    + intros [s [Hs Hy]]. destruct (Nat.eq_dec y x) as [->|N]; [now left|right].
      apply IH. exists (drop x s). split; [|now apply drop_keeps].
      apply in_map. apply filter_nonempty. split; [exact Hs|]. intros ->. destruct Hy.
Qed.

Lemma merge_nodup : forall n seqs r, merge n seqs = Ok r -> NoDup r.
Proof.
  induction n as [|n IH]; intros seqs r H; [discriminate|].
  destruct (merge_cases _ _ _ H) as [[-> E]|[x [r' [-> [P M]]]]]; constructor.
  - intros Hx. apply (merge_mem _ _ _ M) in Hx. destruct Hx as [s [Hs Hx]].
    apply in_map_iff in Hs. destruct Hs as [q [<- Hq]].
    apply (drop_gone x q); [|exact Hx]. now apply (pick_in _ _ _ P).
  - now apply (IH _ _ M).
Qed.

Lemma merge_prior : forall n seqs r, merge n seqs = Ok r ->
  forall s x y, In s seqs -> prior s x y -> prior r x y.
Proof.
  induction n as [|n IH]; intros seqs r H s x y Hs B; [discriminate|].
  destruct (merge_cases _ _ _ H) as [[-> E]|[k [r' [-> [P M]]]]].
  - rewrite (E s Hs) in B. destruct B as [[|? ?] [l2 [l3 B]]]; discriminate.
  - assert (Hf : In s (filter nonempty seqs)).
    { apply filter_nonempty. split; [exact Hs|]. intros ->.
      destruct B as [[|? ?] [l2 [l3 B]]]; discriminate. }
    assert (Hd : In (drop k s) (map (drop k) (filter nonempty seqs))) by now apply in_map.
    destruct s as [|h s]; [destruct B as [[|? ?] [l2 [l3 B]]]; discriminate|].
    cbn in Hd. destruct (Nat.eqb_spec h k) as [->|N].
    + destruct (prior_inv _ _ _ _ B) as [[-> Hy]|B'].
      * apply prior_head. apply (merge_mem _ _ _ M). exists s. now split.
      * apply prior_cons. now apply (IH _ _ M s).
    + apply prior_cons. now apply (IH _ _ M (h :: s)).
Qed.

(** the first sequence [c] alone: it comes out first unless it is in another *)
Lemma merge_single : forall n c seqs r, merge n ([c] :: seqs) = Ok r ->
  (forall s, In s seqs -> ~ In c s) -> exists r', r = c :: r'.
Proof.
  intros [|n] c seqs r H N; [discriminate|].
  destruct (merge_cases _ _ _ H) as [[-> E]|[k [r' [-> [P M]]]]].
  - specialize (E [c] (or_introl eq_refl)). discriminate.
  - exists r'. f_equal. cbn [filter nonempty pick] in P.
    destruct (existsb (fun s => mem c (tl s)) ([c] :: filter nonempty seqs)) eqn:E.
    + apply existsb_exists in E. destruct E as [s [Hs Hc]]. apply mem_In in Hc.
      destruct Hs as [<-|Hs]; [destruct Hc|]. apply filter_nonempty in Hs.
      destruct Hs as [Hs _]. exfalso. apply (N s Hs).
      destruct s as [|a s]; [destruct Hc | now right].
    + now injection P as <-.
Qed.

Lemma total_cons : forall s seqs, total (s :: seqs) = length s + total seqs.
Proof. reflexivity. Qed.

Lemma total_filter : forall seqs, total (filter nonempty seqs) = total seqs.
Proof.
  induction seqs as [|s seqs IH]; [reflexivity|]. rewrite total_cons, <- IH.
  destruct s as [|a s]; reflexivity.
Qed.

Lemma drop_length : forall x s, length (drop x s) <= length s.
Proof. intros x [|a s]; cbn; [lia|]. destruct (Nat.eqb a x); cbn; lia. Qed.

Lemma total_drop : forall x seqs, total (map (drop x) seqs) <= total seqs.
Proof.
  induction seqs as [|s seqs IH]; [cbn; lia|]. cbn [map]. rewrite !total_cons.
  pose proof (drop_length x s). lia.
Qed.

Lemma total_less : forall x s seqs, In (x :: s) seqs -> total (map (drop x) seqs) < total seqs.
Proof.
  induction seqs as [|q seqs IH]; intros H; [destruct H|].
  cbn [map]. rewrite !total_cons. destruct H as [->|H].
  - cbn [drop length]. rewrite Nat.eqb_refl. pose proof (total_drop x seqs). lia.
  - specialize (IH H). pose proof (drop_length x q). lia.
Qed.

Lemma merge_fuel : forall n seqs, total seqs < n -> merge n seqs <> Err OutOfFuel.
Proof.
  induction n as [|n IH]; intros seqs H; [lia|]. rewrite merge_unfold.
  destruct (filter nonempty seqs) as [|q qs] eqn:E; [discriminate|].
  destruct (pick (q :: qs) (q :: qs)) as [x|] eqn:P; [|discriminate].
  destruct (pick_in _ _ _ P) as [[s Hs] _].
  assert (L : total (map (drop x) (q :: qs)) < n).
  { apply total_less in Hs. rewrite <- E in *. rewrite total_filter in Hs. lia. }
  specialize (IH _ L).
  destruct (merge n (map (drop x) (q :: qs))) as [r|e]; cbn; [discriminate|].
  intros K. injection K as ->. now apply IH.
Qed.

Lemma merge_errors : forall n seqs e, merge n seqs = Err e -> e = Inconsistent \/ e = OutOfFuel.
Proof.
  induction n as [|n IH]; intros seqs e H; [injection H as <-; now right|].
  rewrite merge_unfold in H.
  destruct (filter nonempty seqs) as [|q qs] eqn:E; [discriminate|].
  destruct (pick (q :: qs) (q :: qs)) as [x|] eqn:P; [|injection H as <-; now left].
  destruct (merge n (map (drop x) (q :: qs))) as [r|e'] eqn:M; cbn in H; [discriminate|].
  injection H as <-. now apply (IH _ _ M).
Qed.

(** * Results of mapM *)
Lemma mapM_ok : forall A B (f : A -> res B) l bs, mapM f l = Ok bs ->
  Forall2 (fun a b => f a = Ok b) l bs.
Proof.
  induction l as [|a l IH]; intros bs H; cbn in H.
  - injection H as <-. constructor.
  - destruct (f a) as [b|e] eqn:E; [|discriminate]. cbn in H.
    change ((fix go (l : list A) : res (list B) :=
      match l with [] => Ok [] | a :: l' => bind (f a) (fun b => bind (go l') (fun bs => Ok (b :: bs))) end) l)
      with (mapM f l) in H.
    destruct (mapM f l) as [bs'|e] eqn:M; [|discriminate]. injection H as <-.
    constructor; [exact E | now apply IH].
Qed.

Lemma mapM_in : forall A B (f : A -> res B) l bs, mapM f l = Ok bs ->
  (forall a, In a l -> exists b, In b bs /\ f a = Ok b) /\
  (forall b, In b bs -> exists a, In a l /\ f a = Ok b).
Proof.
  intros A B f l bs H. apply mapM_ok in H.
  induction H as [|a b l bs E F [IH1 IH2]].
  - split; intros ? [].
  - split.
    + intros a' [->|Ha]; [exists b; split; [now left | exact E]|].
      destruct (IH1 _ Ha) as [b' [Hb E']]. exists b'. split; [now right | exact E'].
    + intros b' [->|Hb]; [exists a; split; [now left | exact E]|].
      destruct (IH2 _ Hb) as [a' [Ha E']]. exists a'. split; [now right | exact E'].
Qed.

Lemma mapM_err : forall A B (f : A -> res B) l e, mapM f l = Err e ->
  exists a, In a l /\ f a = Err e.
Proof.
  induction l as [|a l IH]; intros e H; [discriminate|]. cbn in H.
  destruct (f a) as [b|e'] eqn:E.
  - cbn in H.
    change ((fix go (l : list A) : res (list B) :=
      match l with [] => Ok [] | a :: l' => bind (f a) (fun b => bind (go l') (fun bs => Ok (b :: bs))) end) l)
      with (mapM f l) in H.
    destruct (mapM f l) as [bs'|e'] eqn:M; [discriminate|]. cbn in H. injection H as ->.
    destruct (IH _ eq_refl) as [x [Hx Ex]]. exists x. split; [now right | exact Ex].
  - cbn in H. injection H as ->. exists a. split; [now left | exact E].
Qed.

(** * The order of classes *)
Definition rest_of w c abcs := fold_left (fun l a => remove_first a l) (introduced w c abcs) abcs.
Definition explicit_of w c := firstn (boundary (abstr w) (bases w c)) (bases w c).
Definition other_of w c := skipn (boundary (abstr w) (bases w c)) (bases w c).

Lemma c3_unfold : forall w n c abcs,
  c3_mro w (S n) c abcs =
  bind (mapM (fun b => c3_mro w n b (rest_of w c abcs)) (explicit_of w c)) (fun es =>
  bind (mapM (fun b => c3_mro w n b (rest_of w c abcs)) (introduced w c abcs)) (fun xs =>
  bind (mapM (fun b => c3_mro w n b (rest_of w c abcs)) (other_of w c)) (fun os =>
  c3_merge ([c] :: es ++ xs ++ os ++ [explicit_of w c; introduced w c abcs; other_of w c])))).
Proof. reflexivity. Qed.

Lemma split_bases : forall w c, explicit_of w c ++ other_of w c = bases w c.
Proof. intros w c. apply firstn_skipn. Qed.

(** what [c3_mro] merges *)
Lemma c3_parts : forall w n c abcs r, c3_mro w (S n) c abcs = Ok r ->
  exists ms, c3_merge ([c] :: ms ++ [explicit_of w c; introduced w c abcs; other_of w c]) = Ok r /\
    (forall b, In b (bases w c) \/ In b (introduced w c abcs) ->
       exists m, In m ms /\ c3_mro w n b (rest_of w c abcs) = Ok m) /\
    (forall m, In m ms -> exists b, (In b (bases w c) \/ In b (introduced w c abcs)) /\
       c3_mro w n b (rest_of w c abcs) = Ok m).
Proof.
  intros w n c abcs r H. rewrite c3_unfold in H.
  destruct (mapM _ (explicit_of w c)) as [es|e] eqn:E1 in H; [|discriminate]. cbn [bind] in H.
  destruct (mapM _ (introduced w c abcs)) as [xs|e] eqn:E2 in H; [|discriminate]. cbn [bind] in H.
  destruct (mapM _ (other_of w c)) as [os|e] eqn:E3 in H; [|discriminate]. cbn [bind] in H.
  apply mapM_in in E1, E2, E3.
  destruct E1 as [A1 B1]. destruct E2 as [A2 B2]. destruct E3 as [A3 B3].
  exists (es ++ xs ++ os). split; [|split].
  - rewrite <- !app_assoc. exact H.
  - intros b [Hb|Hb].
    + rewrite <- split_bases in Hb. apply in_app_or in Hb. destruct Hb as [Hb|Hb].
      * destruct (A1 _ Hb) as [m [Hm Em]]. exists m. split; [|exact Em]. apply in_or_app. now left.
      * destruct (A3 _ Hb) as [m [Hm Em]]. exists m. split; [|exact Em].
        apply in_or_app. right. apply in_or_app. now right.
    + destruct (A2 _ Hb) as [m [Hm Em]]. exists m. split; [|exact Em].
      apply in_or_app. right. apply in_or_app. now left.
  - intros m Hm. apply in_app_or in Hm. destruct Hm as [Hm|Hm].
    + destruct (B1 _ Hm) as [b [Hb Eb]]. exists b. split; [|exact Eb]. left.
      rewrite <- split_bases. apply in_or_app. now left.
    + apply in_app_or in Hm. destruct Hm as [Hm|Hm].
      * destruct (B2 _ Hm) as [b [Hb Eb]]. exists b. split; [now right | exact Eb].
      * destruct (B3 _ Hm) as [b [Hb Eb]]. exists b. split; [|exact Eb]. left.
        rewrite <- split_bases. apply in_or_app. now right.
Qed.

Lemma c3_self : forall w n c abcs r, c3_mro w n c abcs = Ok r -> In c r.
Proof.
  intros w [|n] c abcs r H; [discriminate|].
  destruct (c3_parts _ _ _ _ _ H) as [ms [M _]].
  apply (merge_mem _ _ _ M). exists [c]. split; [now left | now left].
Qed.

Lemma c3_nodup : forall w n c abcs r, c3_mro w n c abcs = Ok r -> NoDup r.
Proof.
  intros w [|n] c abcs r H; [discriminate|].
  destruct (c3_parts _ _ _ _ _ H) as [ms [M _]]. apply (merge_nodup _ _ _ M).
Qed.

(** members of what is merged are members of the orders of bases *)
Lemma in_parts : forall w n c abcs ms s t,
  (forall b, In b (bases w c) \/ In b (introduced w c abcs) ->
       exists m, In m ms /\ c3_mro w n b (rest_of w c abcs) = Ok m) ->
  In s (ms ++ [explicit_of w c; introduced w c abcs; other_of w c]) -> In t s ->
  exists m, In m ms /\ In t m.
Proof.
  intros w n c abcs ms s t Hb Hs Ht. apply in_app_or in Hs.
  destruct Hs as [Hs|Hs]; [now exists s|].
  assert (T : In t (bases w c) \/ In t (introduced w c abcs)).
  { rewrite <- split_bases.
    destruct Hs as [<-|[<-|[<-|[]]]];
    [left; apply in_or_app; now left | now right | left; apply in_or_app; now right]. }
  destruct (Hb _ T) as [m [Hm Em]]. exists m. split; [exact Hm|]. now apply c3_self in Em.
Qed.

Definition closed (w : world) (r : list cls) : Prop :=
  forall t b, In t r -> In b (bases w t) -> prior r t b.

Lemma c3_closed : forall w n c abcs r, c3_mro w n c abcs = Ok r -> closed w r.
Proof.
  intros w n; induction n as [|n IH]; intros c abcs r H t b Ht Hb; [discriminate|].
  destruct (c3_parts _ _ _ _ _ H) as [ms [M [Hto Hof]]].
  assert (K : forall m, In m ms -> In t m -> prior r t b).
  { intros m Hm Htm. destruct (Hof _ Hm) as [d [_ Ed]].
    apply (merge_prior _ _ _ M m); [right; apply in_or_app; now left|].
    now apply (IH _ _ _ Ed). }
  apply (merge_mem _ _ _ M) in Ht. destruct Ht as [s [[<-|Hs] Hts]].
  - destruct Hts as [<-|[]].
    destruct (existsb (mem c) (ms ++ [explicit_of w c; introduced w c abcs; other_of w c])) eqn:E.
    + apply existsb_exists in E. destruct E as [s [Hs Hc]]. apply mem_In in Hc.
      destruct (in_parts _ _ _ _ _ _ _ Hto Hs Hc) as [m [Hm Hcm]]. now apply (K m).
    + destruct (merge_single _ _ _ _ M) as [r' ->].
      { intros s Hs Hc. assert (T : existsb (mem c) (ms ++ [explicit_of w c; introduced w c abcs; other_of w c]) = true).
        { apply existsb_exists. exists s. split; [exact Hs | now apply mem_In]. }
        rewrite E in T. discriminate. }
      apply prior_head.
      destruct (Hto b (or_introl Hb)) as [m [Hm Em]]. apply c3_self in Em.
      assert (T : In b (c :: r')).
      { apply (merge_mem _ _ _ M). exists m. split; [right; apply in_or_app; now left | exact Em]. }
      destruct T as [T|T]; [|exact T]. subst b.
      assert (X : existsb (mem c) (ms ++ [explicit_of w c; introduced w c abcs; other_of w c]) = true).
      { apply existsb_exists. exists m. split; [apply in_or_app; now left | now apply mem_In]. }
      rewrite E in X. discriminate.
  - destruct (in_parts _ _ _ _ _ _ _ Hto Hs Hts) as [m [Hm Htm]]. now apply (K m).
Qed.

Lemma closed_in : forall w r t u, closed w r -> nominal w t u -> In t r -> In u r.
Proof.
  intros w r t u C H; induction H as [c|c b t Hb _ IH]; intros Hc; [exact Hc|].
  apply IH. apply (prior_in _ c b). now apply C.
Qed.

Lemma closed_prior : forall w r t u, closed w r -> NoDup r -> nominal w t u -> In t r ->
  t = u \/ prior r t u.
Proof.
  intros w r t u C N H; induction H as [c|c b t Hb Hn IH]; intros Hc; [now left|].
  right. assert (P : prior r c b) by now apply C.
  destruct (IH (proj2 (prior_in _ _ _ P))) as [<-|Q]; [exact P|].
  now apply (prior_trans _ _ b).
Qed.

Lemma remove_first_in : forall x l y, In y (remove_first x l) -> In y l.
Proof.
  induction l as [|z l IH]; cbn; intros y H; [destruct H|].
  destruct (Nat.eqb z x); [now right|]. destruct H as [->|H]; [now left | right; now apply IH].
Qed.

Lemma remove_first_keeps : forall x l y, y <> x -> In y l -> In y (remove_first x l).
Proof.
  induction l as [|z l IH]; cbn; intros y N H; [destruct H|].
  destruct (Nat.eqb_spec z x) as [->|_].
  - destruct H as [->|H]; [now elim N | exact H].
  - destruct H as [->|H]; [now left | right; now apply IH].
Qed.

Lemma removed_in : forall xs l y, In y (fold_left (fun l a => remove_first a l) xs l) -> In y l.
Proof.
  induction xs as [|x xs IH]; cbn; intros l y H; [exact H|].
  apply IH in H. now apply remove_first_in in H.
Qed.

Lemma removed_keeps : forall xs l y, ~ In y xs -> In y l ->
  In y (fold_left (fun l a => remove_first a l) xs l).
Proof.
  induction xs as [|x xs IH]; cbn; intros l y N H; [exact H|].
  apply IH; [intros K; apply N; now right|]. apply remove_first_keeps; [|exact H].
  intros ->. apply N. now left.
Qed.

Lemma introduced_in : forall w c abcs a, In a (introduced w c abcs) -> In a abcs /\ issub w c a = true.
Proof.
  intros w c abcs a H. apply filter_In in H. destruct H as [H E].
  apply andb_true_iff in E. now split.
Qed.

(** where members of the order come from *)
Lemma c3_source : forall w n c abcs r, c3_mro w n c abcs = Ok r ->
  forall t, In t r -> nominal w c t \/ exists a, In a abcs /\ In a r /\ nominal w a t.
Proof.
  intros w n; induction n as [|n IH]; intros c abcs r H t Ht; [discriminate|].
  destruct (c3_parts _ _ _ _ _ H) as [ms [M [Hto Hof]]].
  apply (merge_mem _ _ _ M) in Ht. destruct Ht as [s [[<-|Hs] Hts]].
  - destruct Hts as [<-|[]]. left. constructor.
  - destruct (in_parts _ _ _ _ _ _ _ Hto Hs Hts) as [m [Hm Htm]].
    destruct (Hof _ Hm) as [d [Hd Ed]].
    assert (In_r : forall x, In x m -> In x r).
    { intros x Hx. apply (merge_mem _ _ _ M). exists m. split; [right; apply in_or_app; now left | exact Hx]. }
    destruct (IH _ _ _ Ed _ Htm) as [N|[a [Ha [Har Na]]]].
    + destruct Hd as [Hd|Hd].
      * left. now apply nominal_base with d.
      * right. exists d. split; [now apply introduced_in in Hd|]. split; [|exact N].
        apply In_r. now apply c3_self in Ed.
    + right. exists a. split; [now apply removed_in in Ha|]. split; [now apply In_r | exact Na].
Qed.

(** every abstract class asked for is there, if it is a superclass *)
Lemma c3_asked : forall w n c abcs r, c3_mro w n c abcs = Ok r ->
  forall a, In a abcs -> issub w c a = true -> In a r.
Proof.
  intros w n; induction n as [|n IH]; intros c abcs r H a Ha Hs; [discriminate|].
  destruct (c3_parts _ _ _ _ _ H) as [ms [M [Hto Hof]]].
  destruct (in_dec Nat.eq_dec a (introduced w c abcs)) as [Hi|Hi].
  - destruct (Hto a (or_intror Hi)) as [m [Hm Em]]. apply c3_self in Em.
    apply (merge_mem _ _ _ M). exists m. split; [right; apply in_or_app; now left | exact Em].
  - assert (B : exists b, In b (bases w c) /\ issub w b a = true).
    { destruct (existsb (fun b => issub w b a) (bases w c)) eqn:E.
      - apply existsb_exists in E. exact E.
      - exfalso. apply Hi. apply filter_In. split; [exact Ha|]. now rewrite Hs, E. }
    destruct B as [b [Hb Eb]]. destruct (Hto b (or_introl Hb)) as [m [Hm Em]].
    apply (merge_mem _ _ _ M). exists m. split; [right; apply in_or_app; now left|].
    apply (IH _ _ _ Em); [|exact Eb]. now apply removed_keeps.
Qed.

Lemma removed_length : forall xs l, length (fold_left (fun l a => remove_first a l) xs l) <= length l.
Proof.
  induction xs as [|x xs IH]; cbn; intros l; [lia|].
  specialize (IH (remove_first x l)).
  assert (K : forall l, length (remove_first x l) <= length l).
  { clear. induction l as [|y l IH]; cbn; [lia|]. destruct (Nat.eqb y x); cbn; lia. }
  specialize (K l). lia.
Qed.

Lemma remove_first_less : forall x l, In x l -> length (remove_first x l) < length l.
Proof.
  induction l as [|y l IH]; cbn; intros H; [destruct H|].
  destruct (Nat.eqb_spec y x) as [->|N]; [lia|]. destruct H as [->|H]; [now elim N|].
  specialize (IH H). cbn. lia.
Qed.

Lemma rest_less : forall w c abcs a, In a (introduced w c abcs) ->
  length (rest_of w c abcs) < length abcs.
Proof.
  intros w c abcs a H. unfold rest_of.
  destruct (introduced w c abcs) as [|x xs] eqn:E; [destruct H|]. cbn.
  assert (Hx : In x abcs).
  { assert (T : In x (introduced w c abcs)) by (rewrite E; now left). now apply introduced_in in T. }
  pose proof (removed_length xs (remove_first x abcs)). pose proof (remove_first_less x abcs Hx). lia.
Qed.

Lemma c3_fuel : forall w N, (forall c b, In b (bases w c) -> b < c) ->
  forall n c abcs, c <= N -> (forall a, In a abcs -> a <= N) ->
  length abcs * S N + c < n -> c3_mro w n c abcs <> Err OutOfFuel.
Proof.
  intros w N old n; induction n as [|n IH]; intros c abcs Hc Ha L; [lia|].
  assert (R : forall b, In b (bases w c) \/ In b (introduced w c abcs) ->
              c3_mro w n b (rest_of w c abcs) <> Err OutOfFuel).
  { intros b [Hb|Hb].
    - pose proof (old _ _ Hb). apply IH; [lia| |].
      + intros a Hx. apply Ha. now apply removed_in in Hx.
      + pose proof (removed_length (introduced w c abcs) abcs) as K. fold (rest_of w c abcs) in K.
        apply Nat.mul_le_mono_r with (p := S N) in K. unfold cls in *. lia.
    - apply IH.
      + apply Ha. now apply introduced_in in Hb.
      + intros a Hx. apply Ha. now apply removed_in in Hx.
      + pose proof (rest_less _ _ _ _ Hb) as K.
        assert (b <= N) by (apply Ha; now apply introduced_in in Hb).
        assert (S (length (rest_of w c abcs)) * S N <= length abcs * S N) by (apply Nat.mul_le_mono_r; exact K).
        cbn [Nat.mul] in *. unfold cls in *. lia. }
  rewrite c3_unfold.
  destruct (mapM _ (explicit_of w c)) as [es|e] eqn:E1; cbn [bind].
  2: { intros K. injection K as ->. apply mapM_err in E1. destruct E1 as [b [Hb Eb]].
       apply (R b); [|exact Eb]. left. rewrite <- split_bases. apply in_or_app. now left. }
  destruct (mapM _ (introduced w c abcs)) as [xs|e] eqn:E2; cbn [bind].
  2: { intros K. injection K as ->. apply mapM_err in E2. destruct E2 as [b [Hb Eb]].
       apply (R b); [now right | exact Eb]. }
  destruct (mapM _ (other_of w c)) as [os|e] eqn:E3; cbn [bind].
  2: { intros K. injection K as ->. apply mapM_err in E3. destruct E3 as [b [Hb Eb]].
       apply (R b); [|exact Eb]. left. rewrite <- split_bases. apply in_or_app. now right. }
  unfold c3_merge. apply merge_fuel. lia.
Qed.

Lemma c3_errors : forall w n c abcs e, c3_mro w n c abcs = Err e -> e = Inconsistent \/ e = OutOfFuel.
Proof.
  intros w n; induction n as [|n IH]; intros c abcs e H; [injection H as <-; now right|].
  rewrite c3_unfold in H.
  destruct (mapM _ (explicit_of w c)) as [es|e1] eqn:E1 in H; cbn [bind] in H.
  2: { injection H as <-. apply mapM_err in E1. destruct E1 as [b [_ Eb]]. now apply IH in Eb. }
  destruct (mapM _ (introduced w c abcs)) as [xs|e1] eqn:E2 in H; cbn [bind] in H.
  2: { injection H as <-. apply mapM_err in E2. destruct E2 as [b [_ Eb]]. now apply IH in Eb. }
  destruct (mapM _ (other_of w c)) as [os|e1] eqn:E3 in H; cbn [bind] in H.
  2: { injection H as <-. apply mapM_err in E3. destruct E3 as [b [_ Eb]]. now apply IH in Eb. }
  now apply merge_errors in H.
Qed.
