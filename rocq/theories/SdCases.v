(** Classes given by tables, and the hierarchies used as witnesses. *)
From Coq Require Import List Arith Bool Lia.
From Verif Require Import SdModel SdSpec SdProofs SdLaws SdCache.
Import ListNotations.

Definition at_ (l : list (list cls)) (d : list cls) (c : cls) : list cls :=
  match nth_error l c with Some x => x | None => d end.

(** bases, [__mro__], direct subclasses, virtual subclasses, abstract classes;
    classes beyond the tables inherit from [object] only *)
Definition table (bs ms ss : list (list cls)) (vs : list (cls * cls)) (abs : list cls) : world :=
  World (fun c => at_ bs [0] c) (fun c => at_ ms [c; 0] c) (fun c => at_ ss [] c)
        (fun c t => mem t (at_ ms [c; 0] c) ||
                    existsb (fun p => Nat.eqb (fst p) c && Nat.eqb (snd p) t) vs)
        (fun c => mem c abs).

Definition incb (a b : list cls) : bool := forallb (fun x => mem x b) a.

Definition row_ok (w : world) (c : cls) : bool :=
  forallb (fun b => Nat.ltb b c) (bases w c) &&
  incb (mro w c) (c :: concat (map (mro w) (bases w c))) &&
  incb (c :: concat (map (mro w) (bases w c))) (mro w c) &&
  mem 0 (mro w c) &&
  forallb (fun s => mem c (mro w s)) (subclasses w c).

Definition table_ok (bs ms ss : list (list cls)) vs abs : bool :=
  Nat.eqb (length bs) (length ms) && Nat.eqb (length ss) (length ms) &&
  Nat.ltb 0 (length ms) &&
  match at_ ms [] 0 with [0] => true | _ => false end &&
  forallb (row_ok (table bs ms ss vs abs)) (seq 0 (length ms)).

Lemma incb_in : forall a b, incb a b = true -> forall x, In x a -> In x b.
Proof.
  intros a b H x Hx. unfold incb in H. rewrite forallb_forall in H. apply mem_In. now apply H.
Qed.

Section Table.
Variables (bs ms ss : list (list cls)) (vs : list (cls * cls)) (abs : list cls).
Hypothesis Ok_ : table_ok bs ms ss vs abs = true.
Let w := table bs ms ss vs abs.

Lemma table_parts : length bs = length ms /\ length ss = length ms /\ 0 < length ms /\
  mro w 0 = [0] /\ forall c, c < length ms -> row_ok w c = true.
Proof.
  pose proof Ok_ as K. unfold table_ok in K.
  apply andb_true_iff in K. destruct K as [K R]. apply andb_true_iff in K. destruct K as [K Z].
  apply andb_true_iff in K. destruct K as [K P]. apply andb_true_iff in K. destruct K as [Lb Ls].
  apply Nat.eqb_eq in Lb, Ls. apply Nat.ltb_lt in P. repeat split; auto.
  - cbn. unfold at_ in *. destruct (nth_error ms 0) as [l|] eqn:E; [|discriminate].
    destruct l as [|[|?] [|? ?]]; try discriminate. reflexivity.
  - intros c Hc. rewrite forallb_forall in R. apply R. apply in_seq. lia.
Qed.

Lemma beyond : forall c, length ms <= c -> bases w c = [0] /\ mro w c = [c; 0] /\ subclasses w c = [].
Proof.
  destruct table_parts as [Lb [Ls _]]. intros c Hc. cbn. unfold at_.
  rewrite (proj2 (nth_error_None bs c)), (proj2 (nth_error_None ms c)), (proj2 (nth_error_None ss c)) by lia.
  auto.
Qed.

Lemma row : forall c, row_ok w c = true ->
  (forall b, In b (bases w c) -> b < c) /\
  (forall x, In x (mro w c) <-> In x (c :: concat (map (mro w) (bases w c)))) /\
  In 0 (mro w c) /\ forall s, In s (subclasses w c) -> In c (mro w s).
Proof.
  intros c K. unfold row_ok in K.
  apply andb_true_iff in K. destruct K as [K K5]. apply andb_true_iff in K. destruct K as [K K4].
  apply andb_true_iff in K. destruct K as [K K3]. apply andb_true_iff in K. destruct K as [K1 K2].
  rewrite forallb_forall in K1, K5. repeat split.
  - intros b Hb. apply Nat.ltb_lt. now apply K1.
  - now apply incb_in.
  - now apply incb_in.
  - now apply mem_In.
  - intros s Hs. apply mem_In. now apply K5.
Qed.

Lemma rows : forall c,
  (forall b, In b (bases w c) -> b < c) /\
  (forall x, In x (mro w c) <-> In x (c :: concat (map (mro w) (bases w c)))) /\
  In 0 (mro w c) /\ forall s, In s (subclasses w c) -> In c (mro w s).
Proof.
  intros c. destruct table_parts as [Lb [Ls [P [Z R]]]].
  destruct (Nat.lt_ge_cases c (length ms)) as [H|H]; [now apply row, R|].
  destruct (beyond c H) as [B [M S]]. rewrite B, M, S.
  split; [intros b [<-|[]]; lia|]. split; [|split; [cbn; auto | intros s []]].
  intros x. change (map (mro w) [0]) with [mro w 0]. rewrite Z. cbn. tauto.
Qed.

Lemma table_sound : sound w.
Proof.
  assert (L : forall c t, In t (mro w c) <-> nominal w c t).
  { intros c t. split.
    - revert t. induction c as [c IH] using lt_wf_ind. intros t Ht.
      destruct (rows c) as [B [M _]]. apply M in Ht. destruct Ht as [<-|Ht]; [constructor|].
      apply in_concat in Ht. destruct Ht as [q [Hq Ht]]. apply in_map_iff in Hq.
      destruct Hq as [b [<- Hb]]. apply nominal_base with b; [exact Hb|]. apply IH; [now apply B | exact Ht].
    - intros N. induction N as [c|c b t Hb _ IH]; destruct (rows c) as [B [M _]]; apply M; [now left|].
      right. apply in_concat. exists (mro w b). split; [now apply in_map | exact IH]. }
  split.
  - intros c b Hb. now apply (rows c).
  - exact L.
  - intros c t N. apply L in N. cbn. apply orb_true_iff. left. now apply mem_In.
  - intros t s Hs. apply L. now apply (rows t).
  - intros c. apply L. apply (rows c).
Qed.

Hypothesis Vs : forallb (fun p => mem (snd p) abs) vs = true.
Lemma table_plain : plain w.
Proof.
  intros c t A H. cbn in A, H. apply orb_true_iff in H. destruct H as [H|H].
  - apply (listed w table_sound). now apply mem_In.
  - apply existsb_exists in H. destruct H as [[x y] [Hp E]]. apply andb_true_iff in E. destruct E as [_ E].
    apply Nat.eqb_eq in E. cbn in E. subst y. rewrite forallb_forall in Vs. specialize (Vs _ Hp).
    cbn in Vs. rewrite A in Vs. discriminate.
Qed.
End Table.

(** the merge is C3 *)
Lemma pick_split : forall all rest x, pick all rest = Some x ->
  exists l s more, rest = l ++ (x :: s) :: more /\
    (forall y s', In (y :: s') l -> exists q, In q all /\ In y (tl q)).
Proof.
  intros all rest x; induction rest as [|[|y q] rest IH]; cbn; intros H; [discriminate| |].
  - destruct (IH H) as [l [s [more [-> B]]]]. exists ([] :: l), s, more. split; [reflexivity|].
    intros y s' [K|K]; [discriminate | now apply (B y s')].
  - destruct (existsb (fun s => mem y (tl s)) all) eqn:E.
    + destruct (IH H) as [l [s [more [-> B]]]]. exists ((y :: q) :: l), s, more. split; [reflexivity|].
      intros z s' [K|K]; [|now apply (B z s')]. injection K as <- <-.
      apply existsb_exists in E. destruct E as [p [Hp E]]. exists p. split; [exact Hp | now apply mem_In].
    + injection H as ->. exists [], q, rest. split; [reflexivity | intros ? ? []].
Qed.

Lemma pick_filter : forall seqs rest,
  pick (filter nonempty seqs) (filter nonempty rest) = pick seqs rest.
Proof.
  intros seqs rest.
  assert (E : forall x, existsb (fun s => mem x (tl s)) (filter nonempty seqs) =
                        existsb (fun s => mem x (tl s)) seqs).
  { intros x. induction seqs as [|[|a s] seqs IH]; cbn; [reflexivity | exact IH | now rewrite IH]. }
  induction rest as [|[|a s] rest IH]; cbn; [reflexivity | exact IH|]. now rewrite E, IH.
Qed.

Lemma merge_c3 : forall n seqs r, merge n seqs = Ok r -> c3 seqs r.
Proof.
  induction n as [|n IH]; intros seqs r H; [discriminate|].
  destruct (merge_cases _ _ _ H) as [[-> E]|[x [r' [-> [P M]]]]]; [now constructor|].
  rewrite pick_filter in P. destruct (pick_split _ _ _ P) as [l [s [more [E B]]]].
  apply c3_next with l s more; [exact E | exact B | now apply (pick_in _ _ _ P)|].
  rewrite (map_ext _ _ (behead_drop x)). apply IH. rewrite <- M. apply merge_same.
  symmetry. apply filter_drop.
Qed.

Definition order_ok (w : world) (c : cls) : bool :=
  match mro w c, c3_merge (map (mro w) (bases w c) ++ [bases w c]) with
  | x :: r, Ok r' => Nat.eqb x c && if list_eq_dec Nat.eq_dec r r' then true else false
  | _, _ => false
  end.

Lemma table_ordered : forall bs ms ss vs abs, table_ok bs ms ss vs abs = true ->
  forallb (order_ok (table bs ms ss vs abs)) (seq 0 (length ms)) = true ->
  ordered (table bs ms ss vs abs).
Proof.
  intros bs ms ss vs abs K H c.
  assert (O : order_ok (table bs ms ss vs abs) c = true).
  { destruct (Nat.lt_ge_cases c (length ms)) as [L|L].
    - rewrite forallb_forall in H. apply H. apply in_seq. lia.
    - destruct (beyond bs ms ss vs abs K c L) as [B [M _]]. unfold order_ok. rewrite B, M.
      destruct (table_parts bs ms ss vs abs K) as [_ [_ [_ [Z _]]]].
      cbn [map app]. rewrite Z. cbn. now rewrite Nat.eqb_refl. }
  unfold order_ok in O. destruct (mro (table bs ms ss vs abs) c) as [|x r]; [discriminate|].
  destruct (c3_merge _) as [r'|e] eqn:E in O; [|discriminate].
  apply andb_true_iff in O. destruct O as [O1 O2]. apply Nat.eqb_eq in O1.
  destruct (list_eq_dec Nat.eq_dec r r') as [->|]; [|discriminate]. subst x.
  exists r'. split; [reflexivity|]. now apply (merge_c3 _ _ _ E).
Qed.

(** ** Python's classes that [defdata] knows: 0 object, 1 Callable, 2 Iterable,
    3 Iterator, 4 Number, 5 Complex, 6 Real, 7 Rational, 8 Integral, 9 int, 10 bool,
    11 a class with [__call__] and [__iter__] (torch's [nn.Sequential], say),
    12 a generator, 13 a class inheriting from Iterator with [__call__] *)
Definition py_bases : list (list cls) :=
  [[]; [0]; [0]; [2]; [0]; [4]; [5]; [6]; [7]; [0]; [9]; [0]; [0]; [3]].
Definition py_mro : list (list cls) :=
  [[0]; [1; 0]; [2; 0]; [3; 2; 0]; [4; 0]; [5; 4; 0]; [6; 5; 4; 0]; [7; 6; 5; 4; 0];
   [8; 7; 6; 5; 4; 0]; [9; 0]; [10; 9; 0]; [11; 0]; [12; 0]; [13; 3; 2; 0]].
Definition py_subs : list (list cls) :=
  [[1; 2; 4; 9; 11; 12]; []; [3]; [13]; [5]; [6]; [7]; [8]; []; [10]; []; []; []; []].
Definition py_virtual : list (cls * cls) :=
  [(9, 4); (9, 5); (9, 6); (9, 7); (9, 8); (10, 4); (10, 5); (10, 6); (10, 7); (10, 8);
   (11, 1); (11, 2); (12, 2); (12, 3); (13, 1)].
Definition py_abstract : list cls := [1; 2; 3; 4; 5; 6; 7; 8; 13].
Definition py : world := table py_bases py_mro py_subs py_virtual py_abstract.
(** the keys of [defdata] in order (effectful/ops/syntax.py 570-1365), each with its
    own number as the rule *)
Definition defdata_rules : list (cls * nat) :=
  map (fun c => (c, c)) [0; 1; 2; 3; 4; 5; 6; 7; 8; 10].

Lemma py_ok : table_ok py_bases py_mro py_subs py_virtual py_abstract = true.
Proof. vm_compute. reflexivity. Qed.
Lemma py_sound : sound py.
Proof. exact (table_sound _ _ _ _ _ py_ok). Qed.
Lemma py_plain : plain py.
Proof. apply (table_plain _ _ _ _ _ py_ok). vm_compute. reflexivity. Qed.
Lemma py_ordered : ordered py.
Proof. apply (table_ordered _ _ _ _ _ py_ok). vm_compute. reflexivity. Qed.

(** ** Two abstract classes with bases of their own: 0 object, 1 A0, 2 B0, 3 A(A0),
    4 B(B0), 5 X, registered with A and with B *)
Definition ab : world :=
  table [[]; [0]; [0]; [1]; [2]; [0]] [[0]; [1; 0]; [2; 0]; [3; 1; 0]; [4; 2; 0]; [5; 0]]
        [[1; 2; 5]; [3]; [4]; []; []; []] [(5, 3); (5, 4)] [3; 4].
Lemma ab_sound : sound ab.
Proof. apply table_sound. vm_compute. reflexivity. Qed.
Lemma ab_plain : plain ab.
Proof. apply table_plain; vm_compute; reflexivity. Qed.
Lemma ab_ordered : ordered ab.
Proof. apply table_ordered; vm_compute; reflexivity. Qed.

(** ** An abstract class with its bases the other way round: 0 object, 1 P, 2 Q,
    3 M(Q, P), 4 C(P, Q), registered with M *)
Definition pq : world :=
  table [[]; [0]; [0]; [2; 1]; [1; 2]] [[0]; [1; 0]; [2; 0]; [3; 2; 1; 0]; [4; 1; 2; 0]]
        [[1; 2]; [3; 4]; [3; 4]; []; []] [(4, 3)] [3].
Lemma pq_sound : sound pq.
Proof. apply table_sound. vm_compute. reflexivity. Qed.
Lemma pq_plain : plain pq.
Proof. apply table_plain; vm_compute; reflexivity. Qed.
Lemma pq_ordered : ordered pq.
Proof. apply table_ordered; vm_compute; reflexivity. Qed.

(** ** Mixed bases: 0 object, 1 b, 2 an abstract p, 3 A(b), 4 C(A, p, b) *)
Definition mixed : world :=
  table [[]; [0]; [0]; [1]; [3; 2; 1]] [[0]; [1; 0]; [2; 0]; [3; 1; 0]; [4; 3; 2; 1; 0]]
        [[1; 2]; [3; 4]; [4]; [4]; []] [] [2; 4].
Lemma mixed_sound : sound mixed.
Proof. apply table_sound. vm_compute. reflexivity. Qed.
Lemma mixed_plain : plain mixed.
Proof. apply table_plain; vm_compute; reflexivity. Qed.
Lemma mixed_ordered : ordered mixed.
Proof. apply table_ordered; vm_compute; reflexivity. Qed.

(** ** Registered later: 0 object, 1 an abstract A, 2 Y, which is registered with A
    once something was registered *)
Definition later (n : nat) : world :=
  table [[]; [0]; [0]] [[0]; [1; 0]; [2; 0]] [[1; 2]; []; []]
        (match n with 0 => [] | _ => [(2, 1)] end) [1].
Lemma later_steady : steady later.
Proof.
  split; [|split; reflexivity]. intros n. split.
  - apply table_sound. destruct n; vm_compute; reflexivity.
  - apply table_plain; destruct n; vm_compute; reflexivity.
Qed.
