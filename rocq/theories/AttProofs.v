From Coq Require Import List Bool Arith ZArith Lia.
From Verif Require Import ArrModel ArrSpec ArrProofs ArrNames ArrBind ArrSizes NopModel NopSpec NopProofs NopLaws AttModel AttSpec.
Import ListNotations.

Section Att.
Variable V : Type.
Variable num : nat -> V.
Variable lib : nat -> list (arr V) -> option (list (arr V)).
Hypothesis lawfulness : lawful lib.
Notation sem := (sem V num lib (fun _ => None)).
Notation value := (value_at V num lib (fun _ => None)).

Lemma build_tidy e v : build V num lib e = Ok v -> tidy V (fun _ => None) v.
Proof.
  intros H. eapply build_law; [exact lawfulness| |exact H]. clear H. induction e as [a|n|e key IH|f i es IH] using expr_ind'; try exact Logic.I.
  - split; [exact IH|reflexivity].
  - apply apart_op. exact IH.
Qed.

(** Shapes *)
Theorem shape_ok e v env b : build V num lib e = Ok v -> evaluated v -> sem env e = Some b -> shape_of V v = Got (shape b).
Proof.
  intros B E S. pose proof (build_tidy e v B) as T. pose proof (pointwise V num lib lawfulness e v B env) as P. rewrite S in P.
  destruct v as [a|a dims|n|f i l|v k]; try contradiction; cbn [value_at] in P; cbn [shape_of].
  - destruct P as [P _]. congruence.
  - destruct (index_arr env a dims) as [c|] eqn:C; [|contradiction]. destruct P as [P _]. destruct T as [T _]. rewrite <- P, (eager_shape_index V env a dims c T C). reflexivity.
Qed.
Lemma fold_prod s : fold_left Nat.mul s 1 = prod s.
Proof.
  assert (G : forall k, fold_left Nat.mul s k = k * prod s); [|rewrite G; lia]. induction s as [|d s IH]; intros k; [cbn; lia|].
  cbn [fold_left]. rewrite IH. change (prod (d :: s)) with (d * prod s). lia.
Qed.
Lemma map_nodup {A B} (f : A -> B) l : (forall x y, In x l -> In y l -> f x = f y -> x = y) -> NoDup l -> NoDup (map f l).
Proof.
  intros I N. induction N as [|x l Hx N IH]; cbn; constructor.
  - intros X. apply in_map_iff in X. destruct X as (y & E & Hy). apply Hx. rewrite (I x y); [exact Hy|now left|now right|now symmetry].
  - apply IH. intros y z Hy Hz. apply I; now right.
Qed.
Lemma elements (b : arr V) : has_elements b (prod (shape b)).
Proof.
  exists (map (unravel (shape b)) (seq 0 (prod (shape b)))). split; [|split].
  - apply map_nodup; [|apply seq_NoDup]. intros x y Hx Hy E. apply in_seq in Hx, Hy.
    destruct (unravel_within (shape b) x) as [_ X]; [lia|]. destruct (unravel_within (shape b) y) as [_ Y]; [lia|]. congruence.
  - intros idx. rewrite in_map_iff. split.
    + intros (x & <- & Hx). apply in_seq in Hx. apply unravel_within. lia.
    + intros W. exists (ravel (shape b) idx). split; [apply unravel_ravel; exact W|]. apply in_seq. pose proof (ravel_lt _ _ W). lia.
  - rewrite map_length, seq_length. reflexivity.
Qed.
Theorem size_ok e v env b : build V num lib e = Ok v -> evaluated v -> sem env e = Some b ->
  exists n, size_of V v = Got n /\ has_elements b n.
Proof.
  intros B E S. exists (prod (shape b)). unfold size_of. rewrite (shape_ok e v env b B E S). cbn [fmap]. rewrite fold_prod. split; [reflexivity|apply elements].
Qed.
Theorem ndim_ok e v env b : build V num lib e = Ok v -> evaluated v -> sem env e = Some b ->
  exists n, ndim_of V v = Got n /\ forall idx, within (shape b) idx -> length idx = n.
Proof.
  intros B E S. exists (length (shape b)). unfold ndim_of. rewrite (shape_ok e v env b B E S). split; [reflexivity|]. intros idx W. symmetry. now apply within_length.
Qed.
Lemma nth_rev {A} (l : list A) k : k < length l -> nth_error (rev l) k = nth_error l (length l - 1 - k).
Proof.
  intros L. destruct l as [|x0 l0] eqn:E; [cbn in L; lia|]. rewrite <- E in *. rewrite (nth_error_nth' (rev l) x0) by (rewrite rev_length; exact L).
  rewrite rev_nth by exact L. rewrite (nth_error_nth' l x0) by lia. f_equal. f_equal. lia.
Qed.
Theorem size_at_ok e v env b d x : build V num lib e = Ok v -> evaluated v -> sem env e = Some b ->
  (size_at V v d = Got x <-> at_position (shape b) d x) /\ (size_at V v d = IndexErr <-> ~ exists y, at_position (shape b) d y).
Proof.
  intros B E S. unfold size_at. rewrite (shape_ok e v env b B E S). set (s := shape b).
  assert (G : forall y, py_get s d = Some y <-> at_position s d y).
  { intros y. unfold py_get, at_position. destruct (Z.ltb_spec d 0) as [N|N].
    - destruct (Z.ltb_spec (d + Z.of_nat (length s)) 0) as [M|M].
      + split; [discriminate|]. intros [[X _]|[_ X]]; [lia|]. assert (Y : Z.to_nat (- d - 1) < length (rev s)) by (apply nth_error_Some; congruence). rewrite rev_length in Y. lia.
      + rewrite nth_rev by lia. replace (length s - 1 - Z.to_nat (- d - 1)) with (Z.to_nat (d + Z.of_nat (length s))) by lia. split; [intros X; right; split; [lia|exact X]|]. intros [[X _]|[_ X]]; [lia|exact X].
    - split; [intros X; left; split; [lia|exact X]|]. intros [[_ X]|[X _]]; [exact X|lia]. }
  destruct (py_get s d) as [y|].
  - split; [split; [intros X; injection X as <-; now apply G|intros X; apply G in X; congruence]|]. split; [discriminate|]. intros X. exfalso. apply X. exists y. now apply G.
  - split; [split; [discriminate|intros X; apply G in X; discriminate]|]. split; [|reflexivity]. intros _ [y X]. apply G in X. discriminate.
Qed.

(** Names have one size *)
Lemma consistent_ok (a : arr V) dims : consistent (shape a) dims -> exists m, add_names (shape a) dims [] = Ok m.
Proof.
  intros C. pose proof (add_names_spec (shape a) dims []) as S. destruct (add_names (shape a) dims []) as [m| | | | |]; try contradiction; [eauto|].
  destruct S as (n & d & d' & D & [X|X] & Y); [discriminate X|]. destruct (D (C n d d' X Y)).
Qed.
Lemma sized_consistent sized rest : NoDup (map fst sized) -> consistent (map snd sized ++ rest) (map KName (map fst sized) ++ repeat KAll (length rest)).
Proof. intros N n d d' H H'. apply sized_indexes in H, H'; try exact N. congruence. Qed.
Lemma vmapped_consistent sized run vs a dims : NoDup (map fst sized) -> vmapped V sized run = Ok vs -> In (VGet V a dims) vs -> consistent (shape a) dims.
Proof.
  intros N H I. unfold vmapped in H. destruct (run _) as [outs|]; [|discriminate H]. injection H as <-. apply in_map_iff in I. destruct I as ([i o] & E & _).
  injection E as <- <-. cbn [reshape shape snd]. now apply sized_consistent.
Qed.
Lemma partial_consistent (a : arr V) dims a' dims' : consistent (shape a) dims -> partial_eval a dims = Ok (TGet a' dims') -> consistent (shape a') dims'.
Proof.
  intros C H. unfold partial_eval in H. pose proof (add_names_spec (shape a) dims []) as S. destruct (add_names (shape a) dims []) as [sized| | | | |]; try discriminate H.
  destruct S as [S1 S2]. specialize (S2 (NoDup_nil _)). destruct sized as [|p sized]; [injection H as <- <-; exact C|]. remember (p :: sized) as sz eqn:Es. clear Es p sized.
  destruct (index_axes (assign (fun _ => 0) (map fst sz) (unravel (map snd sz) 0)) (shape a) dims) as [[rest g0]|]; [|discriminate H]. injection H as <- <-. cbn [reshape shape]. now apply sized_consistent.
Qed.
Lemma added_consistent sh dims m : add_names sh dims [] = Ok m -> consistent sh dims.
Proof.
  intros H n d d' X Y. pose proof (add_names_spec sh dims []) as S. rewrite H in S. destruct S as [S _].
  assert (L1 : lookup m n = Some d) by (apply S; now right). assert (L2 : lookup m n = Some d') by (apply S; now right). congruence.
Qed.
Lemma getitem_consistent (a : arr V) key b dims : getitem a key = Ok (TGet b dims) -> consistent (shape b) dims.
Proof.
  intros H. unfold getitem in H. destruct key as [|k key]; [discriminate H|]. remember (k :: key) as K eqn:EK. clear EK k key.
  destruct (desugar (shape a) K) as [[nsh nkey]| | | | |] eqn:D; try discriminate H. destruct (existsb is_name K); [|destruct (index_arr (fun _ => 0) (reshape a nsh) nkey); discriminate H].
  destruct (forallb is_name K).
  - destruct (add_names nsh nkey []) as [m| | | | |] eqn:A; try discriminate H. injection H as <- <-. cbn [reshape shape]. eapply added_consistent. exact A.
  - unfold partial_eval in H. pose proof (add_names_spec (shape (reshape a nsh)) nkey []) as S. destruct (add_names (shape (reshape a nsh)) nkey []) as [sized| | | | |] eqn:A; try discriminate H.
    eapply partial_consistent; [eapply added_consistent; exact A|]. unfold partial_eval. rewrite A. exact H.
Qed.
Lemma sizes_nodup vs m m' : sizes_all V vs m = Ok m' -> NoDup (map fst m) -> NoDup (map fst m').
Proof.
  assert (One : forall v m m', sizes_val V v m = Ok m' -> NoDup (map fst m) -> NoDup (map fst m')).
  { induction v as [a|a dims|n|f i l IH|v k IH] using val_ind'; intros n0 n1 H N; cbn [sizes_val] in H; try (injection H as <-; exact N).
    - pose proof (add_names_spec (shape a) dims n0) as S. rewrite H in S. now apply S.
    - revert n0 H N. induction IH as [|v l Hv _ IHl]; intros n0 H N; [injection H as <-; exact N|]. destruct (sizes_val V v n0) as [n2| | | | |] eqn:E; try discriminate H. cbn [bindr] in H.
      eapply IHl; [exact H|]. eapply Hv; [exact E|exact N].
    - eapply IH; eassumption. }
  revert m. induction vs as [|v vs IH]; intros m H N; cbn [sizes_all] in H; [injection H as <-; exact N|].
  destruct (sizes_val V v m) as [m1| | | | |] eqn:E; try discriminate H. cbn [bindr] in H. eapply IH; [exact H|]. eapply One; eassumption.
Qed.
Lemma index_consistent v key a dims : index_val V v key = Ok (VGet V a dims) -> consistent (shape a) dims.
Proof.
  intros H. destruct v as [c|c dims0|n|f i l|v k]; cbn [index_val] in H; try discriminate H.
  - destruct (getitem c key) as [[b|b ds|]| | | | |] eqn:G; try discriminate H. injection H as <- <-. eapply getitem_consistent. exact G.
  - pose proof (add_names_spec (shape c) dims0 []) as S0. destruct (add_names (shape c) dims0 []) as [m| | | | |]; try discriminate H. destruct S0 as [_ N0]. specialize (N0 (NoDup_nil _)). cbn [bindr] in H.
    destruct (desugar (eager_shape (shape c) dims0) key) as [r| | | | |]; try discriminate H. cbn [bindr] in H.
    pose proof (add_names_spec (fst r) (snd r) m) as S1. destruct (add_names (fst r) (snd r) m) as [sized| | | | |]; try discriminate H. destruct S1 as [_ N1]. specialize (N1 N0). cbn [bindr] in H.
    destruct sized as [|p sized]; [discriminate H|]. remember (p :: sized) as sz eqn:Es. clear Es p sized.
    match type of H with bindr ?x _ = _ => destruct x as [vs| | | | |] eqn:E; try discriminate H end. cbn [bindr] in H. destruct vs as [|w [|? ?]]; try discriminate H. injection H as ->.
    eapply vmapped_consistent; [exact N1|exact E|now left].
Qed.
Lemma build_consistent e a dims : build V num lib e = Ok (VGet V a dims) -> consistent (shape a) dims.
Proof.
  intros H. destruct e as [c|n|e key|f i es]; cbn [build] in H; try discriminate H.
  - destruct (build V num lib e) as [u| | | | |]; try discriminate H. cbn [bindr] in H. eapply index_consistent. exact H.
  - match type of H with bindr ?x _ = _ => destruct x as [vs| | | | |]; try discriminate H end. cbn [bindr] in H. unfold apply_op, run_op in H.
    destruct (sizes_all V vs []) as [sized| | | | |] eqn:Es; try discriminate H. cbn [bindr] in H. pose proof (sizes_nodup _ _ _ Es (NoDup_nil _)) as N.
    match type of H with context [if ?c then _ else _] => destruct c end.
    + unfold partial_op in H. destruct (forallb (eager V sized) vs); [|discriminate H].
      match type of H with context [vmapped ?x ?y ?z] => destruct (vmapped x y z) as [ws| | | | |] eqn:E; try discriminate H end. cbn [bindr] in H.
      destruct (nth_error ws i) as [w|] eqn:Ew; [|discriminate H]. injection H as ->. eapply vmapped_consistent; [exact N|exact E|]. eapply nth_error_In. exact Ew.
    + destruct (traverse (plain_array V) vs) as [l|]; [|discriminate H]. destruct (lib f l) as [outs|]; [|discriminate H]. cbn [bindr] in H.
      rewrite nth_error_map in H. destruct (nth_error outs i); discriminate H.
Qed.

(** Rows *)
Lemma index_row env (b : arr V) i d rest : shape b = d :: rest -> i < d -> same (index_full_arr env b [KInt (Z.of_nat i)]) (Some (row i b)).
Proof.
  intros E L. unfold index_full_arr, index_full. rewrite E. cbn [ellipses used filter is_ell uses_axis length existsb orb].
  assert (X : length (d :: rest) <? 1 = false) by (apply Nat.ltb_ge; cbn; lia). cbn [length] in X. rewrite X. change (1 <? 0) with false. cbn [orb app walk pick].
  assert (Y : ((- Z.of_nat d <=? Z.of_nat i) && (Z.of_nat i <? Z.of_nat d))%Z = true) by (apply andb_true_iff; split; [apply Z.leb_le|apply Z.ltb_lt]; lia).
  assert (Z0 : (Z.of_nat i <? 0)%Z = false) by (apply Z.ltb_ge; lia). rewrite Y, Z0, Nat2Z.id. replace (S (length rest) - 1) with (length rest) by lia.
  rewrite skipn_all, firstn_all. cbn [walk]. rewrite app_nil_r. split; [unfold row; cbn [shape]; rewrite E; reflexivity|]. cbn [shape]. intros idx W. unfold row. cbn [at_]. f_equal. f_equal. rewrite app_nil_r.
  rewrite (within_length _ _ W). apply firstn_all.
Qed.
Lemma no_names_added : forall sh dims m, (forall n, ~ In (KName n) dims) -> add_names sh dims m = Ok m.
Proof.
  induction sh as [|d sh IH]; intros [|k dims] m N; try reflexivity. cbn [add_names]. destruct k as [| |z|x y w|n]; try (apply IH; intros n' I; apply (N n'); now right).
  destruct (N n). now left.
Qed.
Lemma row_built (a : arr V) dims env b d rest i : neat a dims -> consistent (shape a) dims -> index_arr env a dims = Some b -> shape b = d :: rest -> i < d ->
  exists w, index_val V (VGet V a dims) [KInt (Z.of_nat i)] = Ok w.
Proof.
  intros T C Hb Es L. cbn [index_val]. destruct (consistent_ok a dims C) as [m A]. rewrite A. cbn [bindr].
  rewrite <- (eager_shape_index V env a dims b T Hb). destruct (desugar_ok (shape b) [KInt (Z.of_nat i)]) as (nsh & nkey & D & _); [cbn; lia|rewrite Es; cbn; lia|]. rewrite D. cbn [bindr fst snd].
  assert (Nn : forall n, ~ In (KName n) nkey).
  { intros n I. destruct (desugar_counts _ _ _ D) as [C1 C2]. apply (desugar_names _ _ _ _ D C1 C2) in I. destruct I as [I|[]]. discriminate I. }
  rewrite (no_names_added nsh nkey m Nn). cbn [bindr]. destruct m as [|p m0] eqn:Em; [eauto|]. rewrite <- Em in *. clear Em.
  pose proof (add_names_spec (shape a) dims []) as S. rewrite A in S. destruct S as [S N]. specialize (N (NoDup_nil _)).
  assert (IR : in_range env (shape a) dims).
  { intros n e X. destruct (Nat.lt_ge_cases (env n) e) as [Y|Y]; [exact Y|]. unfold index_arr in Hb. rewrite (index_axes_out env _ _ _ _ X Y) in Hb. discriminate Hb. }
  assert (Ve : valid env m). { intros n e X. apply S in X. destruct X as [X|X]; [discriminate X|]. now apply IR in X. }
  unfold vmapped. set (env0 := assign (fun _ => 0) (map fst m) (unravel (map snd m) 0)).
  assert (V0 : valid env0 m).
  { intros n e X. unfold env0. eapply assign_lookup; [|exact X]. apply (unravel_within (map snd m)). eapply prod_within. apply (sized_within env m N Ve). }
  pose proof (index_axes_range env env0 (shape a) dims (eq_sym (proj1 (proj1 T))) IR (fun n e X => V0 n e (proj2 (S n e) (or_intror X)))) as R.
  unfold index_arr in Hb. unfold index_arr. destruct (index_axes env (shape a) dims) as [[s g]|]; [|discriminate Hb]. destruct (index_axes env0 (shape a) dims) as [[s' g']|]; [|contradiction].
  injection Hb as <-. cbn [shape] in Es. subst s'. pose proof (get_one_meaning V [KInt (Z.of_nat i)] (Arr s (fun idx => at_ a (g' idx))) env0) as G.
  pose proof (index_row env0 (Arr s (fun idx => at_ a (g' idx))) i d rest Es L) as H2. pose proof (same_trans _ _ _ G H2) as H3.
  destruct (get_one V [KInt (Z.of_nat i)] (Arr s (fun idx => at_ a (g' idx))) env0) as [c|]; [|contradiction]. cbn. eauto.
Qed.
Lemma getitem_row (a : arr V) d rest i : shape a = d :: rest -> i < d -> exists w, index_val V (VArr V a) [KInt (Z.of_nat i)] = Ok w.
Proof.
  intros E L. cbn [index_val]. unfold getitem. destruct (desugar_ok (shape a) [KInt (Z.of_nat i)]) as (nsh & nkey & D & _); [cbn; lia|rewrite E; cbn; lia|]. rewrite D. cbn [existsb is_name orb].
  pose proof (get_one_meaning V [KInt (Z.of_nat i)] a (fun _ => 0)) as G. pose proof (same_trans _ _ _ G (index_row (fun _ => 0) a i d rest E L)) as H. unfold get_one in H. rewrite D in H.
  destruct (index_arr (fun _ => 0) (reshape a nsh) nkey) as [r|]; [eauto|contradiction].
Qed.
Theorem rows_ok e v env b d rest : build V num lib e = Ok v -> evaluated v -> sem env e = Some b -> shape b = d :: rest ->
  len_of V v = Got d /\ exists ws, iter_of V v = Got ws /\ length ws = d /\
  forall i w, nth_error ws i = Some w -> forall env' b', sem env' e = Some b' -> same (value env' w) (Some (row i b')).
Proof.
  intros B E S Hs. pose proof (shape_ok e v env b B E S) as Sh. pose proof (build_tidy e v B) as T. pose proof (pointwise V num lib lawfulness e v B env) as P. rewrite S in P.
  assert (Len : len_of V v = Got d).
  { destruct v as [a|a dims|n|f i l|v k]; try contradiction; cbn [shape_of] in Sh; injection Sh as Sh; cbn [len_of]; rewrite Sh, Hs; reflexivity. }
  split; [exact Len|]. unfold iter_of. rewrite Len.
  assert (One : forall i, i < d -> exists w, index_val V v [KInt (Z.of_nat i)] = Ok w).
  { intros i L. destruct v as [a|a dims|n|f j l|v k]; try contradiction; cbn [value_at] in P.
    - destruct P as [P _]. eapply getitem_row; [rewrite P; exact Hs|exact L].
    - destruct (index_arr env a dims) as [c|] eqn:C; [|contradiction]. destruct P as [P _]. destruct T as [T _]. eapply row_built; [exact T|eapply build_consistent; exact B|exact C|rewrite P; exact Hs|exact L]. }
  assert (G : forall k s, s + k <= d -> exists ws, rows_of V v (seq s k) = Got ws /\ length ws = k /\ forall i w, nth_error ws i = Some w -> index_val V v [KInt (Z.of_nat (s + i))] = Ok w).
  { induction k as [|k IH]; intros s L; cbn [seq rows_of]; [exists []; split; [reflexivity|]; split; [reflexivity|]; intros [|i] w X; discriminate X|].
    destruct (One s) as [w W]; [lia|]. rewrite W. destruct (IH (Datatypes.S s)) as (ws & R & Lw & Q); [lia|]. rewrite R. exists (w :: ws). split; [reflexivity|]. split; [cbn; now rewrite Lw|].
    intros [|i] x X; cbn in X; [injection X as <-; now rewrite Nat.add_0_r|]. specialize (Q i x X). now rewrite Nat.add_succ_r. }
  destruct (G d 0 (le_n _)) as (ws & R & Lw & Q). exists ws. split; [exact R|]. split; [exact Lw|]. intros i w X env' b' S'.
  assert (L : i < d) by (rewrite <- Lw; apply nth_error_Some; congruence). specialize (Q i w X). cbn [Nat.add] in Q.
  destruct (index_val_law V num lib (fun _ => None) v _ w T (fun n _ => eq_refl) Q) as [_ M]. eapply same_trans; [apply M|].
  pose proof (pointwise V num lib lawfulness e v B env') as P'. rewrite S' in P'. destruct (value env' v) as [c|]; [|contradiction].
  pose proof (shape_ok e v env' b' B E S') as Sh'. rewrite Sh in Sh'. injection Sh' as Sh'. rewrite Hs in Sh'.
  eapply same_trans; [apply (index_row env' c i d rest); [rewrite (proj1 P'); now symmetry|exact L]|]. destruct P' as [P1 P2]. split; cbn [row shape]; [now rewrite P1|]. intros idx W. cbn [at_]. apply P2. rewrite P1, <- Sh'. cbn [row shape] in W. rewrite P1, <- Sh' in W. constructor; assumption.
Qed.
Theorem scalar_ok e v env b : build V num lib e = Ok v -> evaluated v -> sem env e = Some b -> shape b = [] ->
  match v with VArr _ _ => len_of V v = TypeErr /\ iter_of V v = TypeErr | _ => len_of V v = IndexErr /\ iter_of V v = IndexErr end.
Proof.
  intros B E S Hs. pose proof (shape_ok e v env b B E S) as Sh. rewrite Hs in Sh. unfold iter_of. destruct v as [a|a dims|n|f i l|v k]; try contradiction; cbn [shape_of] in Sh; injection Sh as Sh; cbn [len_of]; rewrite Sh; auto.
Qed.

(** Terms made while a function is traced *)
Theorem embedded_rank (a : arr V) key v env b : embedded V a key = Ok v -> value env v = Some b -> exists s, shape_of V v = Got s /\ length s = length (shape b) + ints (match v with VGet _ _ dims => dims | _ => [] end).
Proof.
  intros H S. unfold embedded in H. destruct (desugar (shape a) key) as [[nsh nkey]| | | | |]; try discriminate H. cbn [bindr fst snd] in H. injection H as <-. cbn [value_at] in S. cbn [shape_of reshape shape].
  eexists. split; [reflexivity|]. unfold index_arr in S. cbn [reshape shape] in S. destruct (index_axes env nsh nkey) as [[s g]|] eqn:E; [|discriminate S]. injection S as <-. cbn [shape]. clear a key.
  revert nkey s g E. induction nsh as [|d nsh IH]; intros [|k nkey] s g E; try discriminate E; cbn [index_axes] in E; [injection E as <- _; reflexivity|].
  destruct (index_axes env nsh nkey) as [[s0 g0]|] eqn:E0; [|destruct (pick env k d) as [[|]|]; discriminate E]. specialize (IH nkey s0 g0 E0).
  destruct k as [| |z|x y w|n]; cbn [pick] in E; try discriminate E; cbn [eager_shape ints length].
  - destruct ((- Z.of_nat d <=? z) && (z <? Z.of_nat d))%Z; [|discriminate E]. injection E as <- _. lia.
  - match type of E with match (if ?c then _ else _) with _ => _ end = _ => destruct c; [discriminate E|] end. injection E as <- _. cbn [length]. lia.
  - destruct (env n <? d); [|discriminate E]. injection E as <- _. exact IH.
Qed.
End Att.
