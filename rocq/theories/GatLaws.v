(** When [gather] succeeds; gathering all indices; [stack]. *)
From Coq Require Import String List Bool Arith ZArith Lia.
From Verif Require Import ArrModel ArrSpec ArrProofs ArrNames ArrBind TgetModel NopModel NopSpec NopProofs NopLaws GatModel GatSpec GatProofs.
From Verif Require IdxModel IdxProofs.
Import ListNotations.

Section Gather.
Variable V : Type.
Variable sym : string -> nat.

(** The dimensions of a value have one size each, and elements *)
Definition well_sized (v : val V) : Prop := (forall n d d', has_dim v n d -> has_dim v n d' -> d = d') /\ forall n d, has_dim v n d -> 0 < d.

Lemma well_sized_sizes (a : arr V) dims : (forall n d d', indexes (shape a) dims n d -> indexes (shape a) dims n d' -> d = d') -> exists sizes, add_names (shape a) dims [] = Ok sizes.
Proof.
  intros H. pose proof (add_names_spec (shape a) dims []) as S. destruct (add_names (shape a) dims []) as [sizes| | | | |]; try contradiction; [exists sizes; reflexivity|].
  destruct S as (n & d & d' & Hd & [X|X] & Y); [discriminate X|]. destruct Hd. eapply H; eassumption.
Qed.

Lemma first_position sized : (forall n d, lookup sized n = Some d -> 0 < d) -> NoDup (map fst sized) -> within (map snd sized) (map (fun _ => 0) (map fst sized)).
Proof. intros H N. apply (sized_within (fun _ => 0) sized N). exact H. Qed.

Theorem gather_ok s v : proper sym s -> normal v -> well_sized v ->
  (forall n d l, has_dim v n d -> picks sym s n l -> l <> [] /\ forall z, In z l -> exists j, index_is d z j) ->
  exists r, gather V sym v s = Ok r.
Proof.
  intros P N [C Po] H. destruct v as [a|a dims|n0|f i l|v key]; try contradiction; cbn [gather]; [eexists; reflexivity|]. cbn [has_dim] in *. pose proof N as [[L Pl] Nk].
  destruct (well_sized_sizes a dims C) as (sizes & A). unfold sizes_of. cbn [sizes_val]. rewrite A. cbn [bindr].
  destruct (existsb _ sizes).
  - destruct (gathered_sizes_spec (vars sym s) (shape a) dims sizes L A) as (sized & G & Nd & Sz). rewrite G. cbn [bindr].
    set (run := fun env => index_arr env a (map (replaced (vars sym s) env) dims)).
    assert (Q : exists r, (if forallb (fun j => is_some (run (assign (fun _ => 0) (map fst sized) (unravel (map snd sized) j)))) (seq 0 (prod (map snd sized)))
      then bindr (vmapped V sized (fun env => option_map (fun b => [b]) (run env))) (fun l => match l with [w] => Ok w | _ => RuntimeError end) else IndexError) = Ok r); [|exact Q].
    assert (So : forall env, valid env sized -> exists b, run env = Some b).
    { intros env Ve. destruct (replaced_axes_some (vars sym s) env (shape a) dims L Nk) as (g & E).
      - intros n d Hi. assert (X : env n < new_size (vars sym s) n d) by (apply Ve, Sz; exists d; auto). unfold new_size in X. unfold goes_to. destruct (chosen (vars sym s) n) as [l|] eqn:Cn.
        + apply chosen_picks in Cn; [|exact P]. destruct (H n d l Hi Cn) as [_ Hz]. destruct (nth_error l (env n)) as [z|] eqn:E; [|apply nth_error_None in E; lia].
          destruct (Hz z (nth_error_In _ _ E)) as (j & Hj). exists j. split; [exact (proj1 Hj)|exists z; auto].
        + exists (env n). auto.
      - unfold run, index_arr. rewrite E. eexists; reflexivity. }
    assert (Pos : forall n d, lookup sized n = Some d -> 0 < d).
    { intros n d Hl. apply Sz in Hl. destruct Hl as (d0 & Hi & ->). unfold new_size. destruct (chosen (vars sym s) n) as [l|] eqn:Cn; [|eapply Po; exact Hi].
      apply chosen_picks in Cn; [|exact P]. destruct (H n d0 l Hi Cn) as [Hl _]. destruct l; [contradiction|cbn; lia]. }
    assert (Vj : forall j, j < prod (map snd sized) -> valid (assign (fun _ => 0) (map fst sized) (unravel (map snd sized) j)) sized).
    { intros j Hj n d Hl. eapply assign_lookup; [apply unravel_within; exact Hj|exact Hl]. }
    rewrite (proj2 (forallb_forall _ _)); [|intros j Hj; apply in_seq in Hj; destruct (So _ (Vj j ltac:(lia))) as (b & ->); reflexivity].
    unfold vmapped. assert (P0 : 0 < prod (map snd sized)) by (eapply prod_within; apply first_position; assumption).
    destruct (So _ (Vj 0 P0)) as (b & ->). cbn [option_map length seq combine map bindr]. eexists; reflexivity.
  - cbn [index_val].
    assert (Ax : index_axes (fun _ => 0) (shape a) dims <> None).
    { destruct (replaced_axes_some [] (fun _ => 0) (shape a) dims L Nk) as (g & E).
      - intros n d Hi. exists 0. split; [eapply Po; exact Hi|reflexivity].
      - assert (X : map (replaced [] (fun _ => 0)) dims = dims) by (rewrite <- (map_id dims) at 2; apply map_ext; intros k; destruct k; reflexivity). rewrite X in E. rewrite E. discriminate. }
    destruct (getitem_ok V a dims (fun _ => 0) (conj L Pl) Ax C) as (r & E). rewrite E. destruct r as [b|b dd|]; try (eexists; reflexivity).
    exfalso. pose proof (getitem_meaning V a dims TLazy E (fun _ => 0)) as M. cbn [den] in M. pose proof (index_full_plain (fun _ => 0) a dims (conj L Pl)) as M'. unfold index_arr in M'.
    destruct (index_axes (fun _ => 0) (shape a) dims) as [[t g]|]; [|contradiction]. destruct (index_full_arr (fun _ => 0) a dims); contradiction.
Qed.

Theorem gather_range s v n d l z : proper sym s -> normal v -> well_sized v ->
  (forall n d l, has_dim v n d -> picks sym s n l -> l <> []) ->
  has_dim v n d -> picks sym s n l -> In z l -> (forall j, ~ index_is d z j) -> gather V sym v s = IndexError.
Proof.
  intros P N [C Po] Ne Hd Hp Hz Out. destruct v as [a|a dims|n0|f i l'|v key]; try contradiction. cbn [gather]. cbn [has_dim] in *. pose proof N as [[L Pl] Nk].
  destruct (well_sized_sizes a dims C) as (sizes & A). unfold sizes_of. cbn [sizes_val]. rewrite A. cbn [bindr].
  pose proof Hp as Cn. apply chosen_picks in Cn; [|exact P].
  assert (B : existsb (fun p : nat * nat => is_some (chosen (vars sym s) (fst p))) sizes = true).
  { pose proof (add_names_spec (shape a) dims []) as S. rewrite A in S. destruct S as [S _]. assert (Lk : lookup sizes n = Some d) by (apply S; auto). apply lookup_some_In in Lk.
    apply existsb_exists. exists (n, d). cbn [fst]. rewrite Cn. auto. }
  rewrite B. destruct (gathered_sizes_spec (vars sym s) (shape a) dims sizes L A) as (sized & G & Nd & Sz). rewrite G. cbn [bindr].
  set (run := fun env => index_arr env a (map (replaced (vars sym s) env) dims)).
  assert (Q : (if forallb (fun j => is_some (run (assign (fun _ => 0) (map fst sized) (unravel (map snd sized) j)))) (seq 0 (prod (map snd sized)))
      then bindr (vmapped V sized (fun env => option_map (fun b => [b]) (run env))) (fun l => match l with [w] => Ok w | _ => RuntimeError end) else IndexError) = IndexError); [|exact Q].
  destruct (forallb _ _) eqn:F; [|reflexivity]. exfalso. apply In_nth_error in Hz. destruct Hz as (i & Hi).
  set (env := fun m => if Nat.eqb m n then i else 0).
  assert (Ve : valid env sized).
  { intros m e Hl. apply Sz in Hl. destruct Hl as (d0 & I0 & ->). unfold new_size, env. destruct (Nat.eqb_spec m n) as [->|Hm].
    - rewrite Cn. apply nth_error_Some. congruence.
    - destruct (chosen (vars sym s) m) as [l'|] eqn:C'; [|eapply Po; exact I0]. apply chosen_picks in C'; [|exact P]. specialize (Ne m d0 l' I0 C'). destruct l'; [contradiction|cbn; lia]. }
  destruct (sizes_positions sized env Nd Ve) as (j & Hj & Ag). rewrite forallb_forall in F. specialize (F j Hj). unfold run, index_arr in F.
  rewrite (replaced_axes_out (vars sym s) _ (shape a) dims n d l Hd Cn) in F; [discriminate F|]. rewrite Ag.
  - unfold env. rewrite Nat.eqb_refl. rewrite (nth_error_nth _ _ _ Hi). exact Out.
  - assert (X : lookup sized n = Some (new_size (vars sym s) n d)) by (apply Sz; exists d; auto). apply lookup_some_In in X. apply in_map_iff. exists (n, new_size (vars sym s) n d). auto.
Qed.

(** ** All indices *)
Variable name_of : nat -> string.

Lemma dict_set_new {A} (d : list (string * A)) k v : ~ In k (map fst d) -> dict_set d k v = d ++ [(k, v)].
Proof.
  induction d as [|[x w] d IH]; intros H; [reflexivity|]. cbn [dict_set app]. destruct (String.eqb x k) eqn:E; [apply String.eqb_eq in E; subst; destruct H; left; reflexivity|].
  rewrite IH; [reflexivity|]. intros X. apply H. right. exact X.
Qed.
Lemma fold_dict (m : list (nat * nat)) (d : list (string * IdxModel.arg)) : NoDup (map fst d ++ map (fun p => name_of (fst p)) m) ->
  fold_left (fun d (p : nat * nat) => dict_set d (name_of (fst p)) (IdxModel.AIter (range (snd p)))) m d = d ++ map (fun p => (name_of (fst p), IdxModel.AIter (range (snd p)))) m.
Proof.
  revert d. induction m as [|[n s] m IH]; intros d H; cbn [fold_left map fst snd]; [now rewrite app_nil_r|]. cbn [map fst] in H.
  rewrite dict_set_new by (intros X; apply NoDup_remove_2 in H; apply H; apply in_or_app; auto).
  rewrite IH; [rewrite <- app_assoc; reflexivity|]. rewrite map_app. cbn [map fst]. rewrite <- app_assoc. exact H.
Qed.
Lemma set_of_same l : NoDup l -> IdxModel.set_of l = l.
Proof.
  induction 1 as [|x l Hx H IH]; [reflexivity|]. cbn [IdxModel.set_of]. rewrite IH. destruct (IdxModel.mem x l) eqn:E; [|reflexivity]. apply IdxProofs.mem_In in E. contradiction.
Qed.
Lemma range_NoDup d : NoDup (range d).
Proof. unfold range. apply FinFun.Injective_map_NoDup; [intros x y; lia|apply seq_NoDup]. Qed.

Lemma indices_of_picks v s : normal v -> well_sized v -> (forall n d, has_dim v n d -> sym (name_of n) = n) -> indices_of V name_of v = Ok (IdxModel.Ok s) ->
  proper sym s /\ forall n l, picks sym s n l <-> exists d, has_dim v n d /\ l = range d.
Proof.
  intros N [C Po] Hn H. unfold indices_of, sizes_of in H. destruct (sizes_val V v []) as [m| | | | |] eqn:A; try discriminate H. cbn [bindr] in H. injection H as H.
  assert (Q : NoDup (map fst m) /\ forall n d, lookup m n = Some d <-> has_dim v n d).
  { destruct v as [a|a dims|n0|f i l|v key]; try contradiction; cbn [sizes_val] in A; [injection A as <-; split; [constructor|intros n d; split; [discriminate|intros []]]|].
    pose proof (add_names_spec (shape a) dims []) as S. rewrite A in S. destruct S as [S1 S2]. split; [apply S2; constructor|]. intros n d. cbn [has_dim]. rewrite S1. split; [intros [X|X]; [discriminate X|exact X]|auto]. }
  destruct Q as [Nd Q].
  assert (Names : map (fun p : nat * nat => sym (name_of (fst p))) m = map fst m).
  { apply map_ext_in. intros [n d] Hp. cbn [fst]. apply (Hn n d), Q, lookup_In; assumption. }
  assert (Nn : NoDup (map (fun p : nat * nat => name_of (fst p)) m)).
  { apply (NoDup_map_inv sym). rewrite map_map. rewrite Names. exact Nd. }
  rewrite (fold_dict m []) in H by exact Nn. cbn [app] in H. apply IdxProofs.make_ok in H. destruct H as [-> _].
  set (mp := map (fun p : nat * nat => (name_of (fst p), IdxModel.AIter (range (snd p)))) m).
  assert (In_ : forall k l, In (k, l) (IdxProofs.kept mp) <-> exists n d, In (n, d) m /\ k = name_of n /\ l = range d).
  { intros k l. rewrite IdxProofs.kept_In. unfold mp. split.
    - intros (v0 & Hi & E & _). apply in_map_iff in Hi. destruct Hi as ([n d] & E' & Hi). injection E' as <- <-. exists n, d. split; [exact Hi|]. split; [reflexivity|]. rewrite E. cbn [IdxModel.indexes]. apply set_of_same, range_NoDup.
    - intros (n & d & Hi & -> & ->). exists (IdxModel.AIter (range d)). split; [apply in_map_iff; exists (n, d); auto|]. cbn [IdxModel.indexes]. rewrite set_of_same by apply range_NoDup. split; [reflexivity|].
      assert (0 < d) by (apply (Po n d), Q, lookup_In; assumption). destruct d; [lia|discriminate]. }
  split.
  - unfold proper. assert (K : map (fun p : string * IdxModel.iset => sym (fst p)) (IdxProofs.kept mp) = map sym (IdxModel.keys (IdxProofs.kept mp))) by (unfold IdxModel.keys; now rewrite map_map).
    rewrite K. assert (Nk : NoDup (IdxModel.keys (IdxProofs.kept mp))) by (apply IdxProofs.kept_keys; unfold mp, IdxModel.keys; rewrite map_map; exact Nn).
    assert (Inj : forall x y, In x (IdxModel.keys (IdxProofs.kept mp)) -> In y (IdxModel.keys (IdxProofs.kept mp)) -> sym x = sym y -> x = y).
    { intros x y Hx Hy E. unfold IdxModel.keys in Hx, Hy. apply in_map_iff in Hx, Hy. destruct Hx as ([x' l] & <- & Hx), Hy as ([y' l'] & <- & Hy). apply In_ in Hx, Hy.
      destruct Hx as (n & d & Hx & -> & _), Hy as (n' & d' & Hy & -> & _). cbn [fst] in *. apply lookup_In in Hx, Hy; try exact Nd. apply Q in Hx, Hy. rewrite (Hn n d Hx), (Hn n' d' Hy) in E. congruence. }
    clear - Nk Inj. induction (IdxModel.keys (IdxProofs.kept mp)) as [|x l IH]; [constructor|]. inversion Nk as [|? ? Hx Nk']; subst. cbn [map]. constructor; [|apply IH; [exact Nk'|intros a b Ha Hb; apply Inj; right; assumption]].
    intros X. apply in_map_iff in X. destruct X as (y & E & Hy). apply Hx. rewrite <- (Inj y x); [exact Hy|right; exact Hy|left; reflexivity|exact E].
  - intros n l. unfold picks. split.
    + intros (k & Hk & E). apply In_ in Hk. destruct Hk as (n' & d & Hi & -> & ->). apply lookup_In in Hi; [|exact Nd]. apply Q in Hi. rewrite (Hn n' d Hi) in E. subst n'. exists d. auto.
    + intros (d & Hd & ->). exists (name_of n). split; [|apply (Hn n d Hd)]. apply In_. exists n, d. split; [apply lookup_some_In, Q; exact Hd|auto].
Qed.

Lemma nth_range d i : i < d -> nth_error (range d) i = Some (Z.of_nat i).
Proof.
  intros H. unfold range. rewrite nth_error_map. assert (E : nth_error (seq 0 d) i = Some i); [|rewrite E; reflexivity].
  rewrite (nth_error_nth' _ 0) by (rewrite seq_length; exact H). now rewrite seq_nth.
Qed.

Theorem gather_all v s r : normal v -> well_sized v -> (forall n d, has_dim v n d -> sym (name_of n) = n) ->
  indices_of V name_of v = Ok (IdxModel.Ok s) -> gather V sym v s = Ok r ->
  (forall n d, has_dim r n d <-> has_dim v n d) /\ forall env, same (at_pos env r) (at_pos env v).
Proof.
  intros N [C Po] Hn Hi H. destruct (indices_of_picks v s N (conj C Po) Hn Hi) as [P Pk]. destruct (gather_law V sym s v r P N H) as (Nr & D & M).
  assert (D' : forall n d, has_dim r n d <-> has_dim v n d).
  { intros n d. rewrite D. split.
    - intros (d0 & Hd & A & _). assert (X : picks sym s n (range d0)) by (apply Pk; exists d0; auto). rewrite (A _ X). unfold range. rewrite map_length, seq_length. exact Hd.
    - intros Hd. exists d. split; [exact Hd|]. split; [|intros X; exfalso; eapply X; apply Pk; exists d; auto].
      intros l X. apply Pk in X. destruct X as (d' & Hd' & ->). rewrite (C _ _ _ Hd Hd'). unfold range. now rewrite map_length, seq_length. }
  split; [exact D'|]. intros env.
  assert (Dec : (forall n d, has_dim v n d -> env n < d) \/ exists n d, has_dim v n d /\ d <= env n).
  { destruct v as [a|a dims|n0|f i l|v key]; try contradiction; [left; intros n d []|]. apply (in_range_dec env (shape a) dims). }
  destruct Dec as [Ve|(n & d & Hd & Ho)].
  - apply M. intros n d Hd. split.
    + intros l X. apply Pk in X. destruct X as (d' & Hd' & ->). pose proof (C _ _ _ Hd Hd'). subst d'. exists (Z.of_nat (env n)). split; [apply nth_range; eapply Ve; exact Hd|]. split; [eapply Ve; exact Hd|auto].
    + intros X. reflexivity.
  - assert (Out : forall w : val V, normal w -> has_dim w n d -> at_pos env w = None).
    { intros w Nw Hw. destruct w as [a|a dims|n0|f i l|w key]; try contradiction. cbn [at_pos]. unfold index_arr. rewrite (index_axes_out env _ _ _ _ Hw Ho). reflexivity. }
    rewrite (Out r Nr (proj2 (D' n d) Hd)), (Out v N Hd). exact Logic.I.
Qed.
End Gather.

(** ** Broadcasting *)
Definition fits (sh B : list nat) : Prop := exists pre B', B = pre ++ B' /\ Forall2 (fun d e => d = e \/ d = 1) sh B'.

Lemma bshape_rev_fits : forall a b c, IdxModel.bshape_rev a b = Some c ->
  (exists r s, c = r ++ s /\ Forall2 (fun d e => d = e \/ d = 1) a r) /\ (exists r s, c = r ++ s /\ Forall2 (fun d e => d = e \/ d = 1) b r).
Proof.
  assert (Rf : forall l : list nat, Forall2 (fun d e => d = e \/ d = 1) l l) by (induction l; constructor; auto).
  induction a as [|x a IH]; intros b c H.
  - injection H as <-. split; [exists [], b; split; [reflexivity|constructor]|exists b, []; rewrite app_nil_r; auto].
  - destruct b as [|y b]; [injection H as <-; split; [exists (x :: a), []; rewrite app_nil_r; auto|exists [], (x :: a); split; [reflexivity|constructor]]|].
    cbn [IdxModel.bshape_rev] in H. destruct (IdxModel.dim2 x y) as [d|] eqn:D; [|discriminate H]. destruct (IdxModel.bshape_rev a b) as [r|] eqn:E; [|discriminate H]. injection H as <-.
    destruct (IH b r E) as [(r1 & s1 & -> & F1) (r2 & s2 & E2 & F2)]. unfold IdxModel.dim2 in D.
    assert (Dx : (x = d \/ x = 1) /\ (y = d \/ y = 1)).
    { destruct (Nat.eqb_spec x y); [injection D as <-; auto|]. destruct (Nat.eqb_spec x 1); [injection D as <-; auto|]. destruct (Nat.eqb_spec y 1); [injection D as <-; auto|discriminate D]. }
    split; [exists (d :: r1), s1; split; [reflexivity|constructor; tauto]|exists (d :: r2), s2; split; [rewrite E2; reflexivity|constructor; tauto]].
Qed.
Lemma Forall2_rev {A B} (R : A -> B -> Prop) l r : Forall2 R l r -> Forall2 R (rev l) (rev r).
Proof. induction 1; cbn [rev]; [constructor|]. apply Forall2_app; [assumption|constructor; [assumption|constructor]]. Qed.
Lemma fits_rev a c : (exists r s, c = r ++ s /\ Forall2 (fun d e => d = e \/ d = 1) (rev a) r) -> fits a (rev c).
Proof.
  intros (r & s & -> & F). exists (rev s), (rev r). rewrite rev_app_distr. split; [reflexivity|]. rewrite <- (rev_involutive a). apply Forall2_rev. exact F.
Qed.
Lemma bshape_fits a b c : IdxModel.bshape a b = Some c -> fits a c /\ fits b c.
Proof.
  unfold IdxModel.bshape. destruct (IdxModel.bshape_rev (rev a) (rev b)) as [r|] eqn:E; [|discriminate]. cbn [option_map]. intros H. injection H as <-.
  apply bshape_rev_fits in E. destruct E as [E1 E2]. split; apply fits_rev; assumption.
Qed.
Lemma Forall2_split {A B} (R : A -> B -> Prop) l r1 r2 : Forall2 R l (r1 ++ r2) -> exists l1 l2, l = l1 ++ l2 /\ Forall2 R l1 r1 /\ Forall2 R l2 r2.
Proof. intros H. apply Forall2_app_inv_r in H. destruct H as (l1 & l2 & A1 & A2 & ->). exists l1, l2. auto. Qed.
Lemma fits_trans a b c : fits a b -> fits b c -> fits a c.
Proof.
  intros (p & b' & -> & F) (q & c' & -> & G). apply Forall2_app_inv_l in G. destruct G as (c1 & c2 & _ & G2 & ->). exists (q ++ c1), c2. rewrite app_assoc. split; [reflexivity|].
  clear -F G2. revert c2 G2. induction F as [|x y a b H F IH]; intros c2 G; inversion G as [|? z ? c Hz G']; subst; constructor; [|auto]. destruct H as [->| ->]; auto.
Qed.
Lemma bshapes_fits shs B sh : bshapes shs = Some B -> In sh shs -> fits sh B.
Proof.
  revert B. induction shs as [|s shs IH]; intros B H Hi; [destruct Hi|]. cbn [bshapes] in H. destruct (bshapes shs) as [b|] eqn:E; [|discriminate H]. apply bshape_fits in H. destruct H as [H1 H2].
  destruct Hi as [->|Hi]; [exact H1|]. eapply fits_trans; [apply (IH b eq_refl Hi)|exact H2].
Qed.
Lemma squash_fits sh B b : fits sh B -> within B b -> within sh (IdxModel.squash sh (skipn (length b - length sh) b)).
Proof.
  intros (pre & B' & -> & F) W. pose proof (Forall2_len _ _ _ F) as Lf. apply within_split in W. pose proof (within_length _ _ (proj1 W)) as L1. pose proof (within_length _ _ (proj2 W)) as L2.
  assert (Lb : length b = length pre + length B').
  { rewrite <- (firstn_skipn (length pre) b), app_length, <- L1, <- L2. reflexivity. }
  rewrite Lb, Lf. replace (length pre + length B' - length B') with (length pre) by lia. destruct W as [_ W]. revert W. generalize (skipn (length pre) b). clear -F. intros i W. revert i W.
  induction F as [|d e sh B H F IH]; intros i W; inversion W as [|? ? j i' Hj W']; subst; cbn [IdxModel.squash]; [constructor|]. constructor; [|apply IH; exact W'].
  destruct (Nat.eqb_spec d 1) as [->|Hd]; [lia|]. destruct H as [->| ->]; [exact Hj|contradiction].
Qed.
Lemma bshapes_same sh l : (forall s, In s l -> s = sh) -> l <> [] -> bshapes l = Some sh.
Proof.
  induction l as [|s l IH]; intros H Hn; [contradiction|]. cbn [bshapes]. assert (s = sh) by (apply H; left; reflexivity). subst s. destruct l as [|s' l].
  - cbn [bshapes]. unfold IdxModel.bshape. cbn [rev]. destruct (rev sh) eqn:E; cbn [IdxModel.bshape_rev option_map]; [rewrite <- (rev_involutive sh), E; reflexivity|]. rewrite <- E, rev_involutive. reflexivity.
  - rewrite IH; [|intros x Hx; apply H; right; exact Hx|discriminate]. unfold IdxModel.bshape. rewrite IdxProofs.bshape_rev_same. cbn [option_map]. now rewrite rev_involutive.
Qed.

Section Stack.
Variable V : Type.
Variable num : nat -> V.
Notation lib := (library V).

Lemma spread_same B (p q : arr V) : fits (shape p) B -> same_arr p q -> same_arr (spread V B p) (spread V B q).
Proof.
  intros F [S E]. split; [reflexivity|]. cbn [spread shape at_]. intros b W. rewrite <- S. apply E. apply squash_fits with (B := B); assumption.
Qed.
Lemma spread_id (p : arr V) : same_arr (spread V (shape p) p) p.
Proof.
  split; [reflexivity|]. cbn [spread shape at_]. intros b W. rewrite <- (within_length _ _ W), Nat.sub_diag. cbn [skipn]. f_equal.
  induction W as [|d sh i idx H W IH]; cbn [IdxModel.squash]; [reflexivity|]. rewrite IH. destruct (Nat.eqb_spec d 1); [f_equal; lia|reflexivity].
Qed.

Lemma map_shape_eq (ps qs : list (arr V)) : Forall2 same_shape ps qs -> map shape ps = map shape qs.
Proof. induction 1 as [|p q ps qs H _ IH]; [reflexivity|]. cbn [map]. unfold same_shape in H. congruence. Qed.
Lemma same_shapes (ps qs : list (arr V)) : Forall2 same_arr ps qs -> Forall2 same_shape ps qs.
Proof. induction 1 as [|p q ps qs [H _] _ IH]; constructor; assumption. Qed.

Lemma stack_related (R : arr V -> arr V -> Prop) ps qs : (forall p q, R p q -> same_shape p q) -> Forall2 R ps qs ->
  match torch_stack V ps, torch_stack V qs with
  | Some [a], Some [b] => exists p q, In p ps /\ In q qs /\ (forall r, In r ps -> shape r = shape p) /\ shape a = length ps :: shape p /\ shape b = shape a /\
      (forall idx, at_ a idx = at_ (nth (hd 0 idx) ps p) (tl idx)) /\ (forall idx, at_ b idx = at_ (nth (hd 0 idx) qs q) (tl idx))
  | None, None => True | _, _ => False end.
Proof.
  intros HR H. assert (L := Forall2_len _ _ _ H). assert (Sh : map shape ps = map shape qs) by (apply map_shape_eq; clear -H HR; induction H; constructor; auto).
  destruct H as [|p q ps qs Hpq H]; [exact Logic.I|]. cbn [torch_stack]. pose proof (HR _ _ Hpq) as Hs. unfold same_shape in Hs.
  assert (F : forallb (fun r => shape_eqb (shape p) (shape r)) (p :: ps) = forallb (fun r => shape_eqb (shape q) (shape r)) (q :: qs)).
  { rewrite Hs. clear -Sh. revert Sh. generalize (p :: ps) (q :: qs). intros l. induction l as [|x l IH]; intros [|y r] Sh; try discriminate Sh; [reflexivity|]. cbn [map] in Sh. injection Sh as S1 S2. cbn [forallb]. rewrite S1, (IH r S2). reflexivity. }
  rewrite <- F. destruct (forallb (fun r => shape_eqb (shape p) (shape r)) (p :: ps)) eqn:E; [|exact Logic.I]. exists p, q. split; [left; reflexivity|]. split; [left; reflexivity|]. split.
  - intros r Hr. rewrite forallb_forall in E. specialize (E r Hr). unfold shape_eqb in E. destruct (list_eq_dec Nat.eq_dec (shape p) (shape r)); [auto|discriminate E].
  - cbn [shape at_ length] in *. split; [reflexivity|]. split; [congruence|]. auto.
Qed.

Lemma library_lawful : lawful lib.
Proof.
  split; intros f ps qs H; destruct f as [|[|f]]; cbn [library]; try exact Logic.I.
  - unfold broadcast_tensors. rewrite <- (map_shape_eq ps qs (same_shapes _ _ H)). destruct (bshapes (map shape ps)) as [B|] eqn:E; [|exact Logic.I]. cbn.
    assert (G : forall p, In p ps -> fits (shape p) B) by (intros p Hp; eapply bshapes_fits; [exact E|apply in_map; exact Hp]). clear E.
    induction H as [|p q ps qs Hpq H IH]; cbn [map]; constructor; [apply spread_same; [apply G; left; reflexivity|exact Hpq]|apply IH; intros r Hr; apply G; right; exact Hr].
  - pose proof (stack_related same_arr ps qs (fun p q H => proj1 H) H) as S. destruct (torch_stack V ps) as [[|a [|? ?]]|], (torch_stack V qs) as [[|b [|? ?]]|]; try contradiction; [|exact Logic.I].
    destruct S as (p & q & Hp & Hq & Sp & Sa & Sb & Ea & Eb). constructor; [|constructor]. split; [congruence|]. rewrite Sa. intros idx W. rewrite Ea, Eb. inversion W as [|? ? i j Hi W']; subst. cbn [hd tl].
    destruct (nth_error ps i) as [x|] eqn:Ex; [|apply nth_error_None in Ex; lia]. destruct (Forall2_nth _ _ _ _ _ H Ex) as (y & Ey & Hxy). rewrite (nth_error_nth _ _ _ Ex), (nth_error_nth _ _ _ Ey). apply (proj2 Hxy).
    rewrite (Sp x (nth_error_In _ _ Ex)). exact W'.
  - unfold broadcast_tensors. rewrite <- (map_shape_eq ps qs H). destruct (bshapes (map shape ps)) as [B|]; [|exact Logic.I]. cbn. induction H; cbn [map]; constructor; [reflexivity|assumption].
  - pose proof (stack_related same_shape ps qs (fun p q H => H) H) as S. destruct (torch_stack V ps) as [[|a [|? ?]]|], (torch_stack V qs) as [[|b [|? ?]]|]; try contradiction; [|exact Logic.I].
    destruct S as (p & q & _ & _ & _ & _ & Sb & _). constructor; [|constructor]. unfold same_shape. congruence.
Qed.

Notation none := (fun _ : nat => @None (arr V)).
Notation value := (value_at V num lib none).
Notation values' := (values V num lib none).

Lemma traverse_len {A B} (f : A -> option B) l r : traverse f l = Some r -> length r = length l.
Proof.
  revert r. induction l as [|x l IH]; intros r H; cbn [traverse] in H; [injection H as <-; reflexivity|]. destruct (f x); [|discriminate H]. destruct (traverse f l); [|discriminate H]. injection H as <-. cbn [length]. now rewrite IH.
Qed.
Lemma values_len env vs l : values' env vs = Some l -> length l = length vs.
Proof.
  revert l. induction vs as [|v vs IH]; intros l H; cbn [values] in H; [injection H as <-; reflexivity|]. destruct (value env v); [|discriminate H]. destruct (values' env vs); [|discriminate H]. injection H as <-. cbn [length]. now rewrite IH.
Qed.
Lemma broadcast_len ps us : broadcast_tensors V ps = Some us -> length us = length ps.
Proof. unfold broadcast_tensors. destruct (bshapes (map shape ps)); [|discriminate]. intros H. injection H as <-. apply map_length. Qed.
Lemma run_op_len args outs : run_op V num lib 0 args = Ok (Some outs) -> length outs = length args.
Proof.
  unfold run_op. destruct (sizes_all V args []) as [sized| | | | |]; try discriminate. cbn [bindr]. match goal with |- context [if ?c then _ else _] => destruct c end.
  - unfold partial_op. destruct (forallb (eager V sized) args); [|discriminate]. unfold vmapped.
    destruct (traverse _ args) as [ps|] eqn:T; [|discriminate]. cbn [library]. destruct (broadcast_tensors V ps) as [us|] eqn:B; [|discriminate]. cbn [bindr]. intros H. injection H as <-.
    rewrite map_length, combine_length, seq_length, Nat.min_id. rewrite (broadcast_len _ _ B). apply (traverse_len _ _ _ T).
  - destruct (traverse (plain_array V) args) as [ps|] eqn:T; [|discriminate]. cbn [library]. destruct (broadcast_tensors V ps) as [us|] eqn:B; [|discriminate]. intros H. injection H as <-.
    rewrite map_length, (broadcast_len _ _ B). apply (traverse_len _ _ _ T).
Qed.

Lemma values_related env outs us : length us = length outs -> (forall i v, nth_error outs i = Some v -> same (value env v) (nth_error us i)) ->
  exists qs, values' env outs = Some qs /\ Forall2 same_arr qs us.
Proof.
  revert us. induction outs as [|v outs IH]; intros us L H; destruct us as [|u us]; try discriminate L; [exists []; split; [reflexivity|constructor]|]. cbn [length] in L. injection L as L.
  destruct (IH us L) as (qs & E & F); [intros i w Hw; apply (H (S i) w Hw)|]. pose proof (H 0 v eq_refl) as H0. cbn [nth_error] in H0. cbn [values]. rewrite E. destruct (value env v) as [q|]; [|contradiction]. exists (q :: qs). split; [reflexivity|constructor; assumption].
Qed.

Definition stacked (ps : option (list (arr V))) (i : nat) : option (arr V) :=
  match ps with
  | Some l => match bshapes (map shape l), nth_error l i with Some B, Some p => Some (spread V B p) | _, _ => None end
  | None => None
  end.

Lemma index_first env (a : arr V) d B n : shape a = d :: B ->
  same (index_full_arr env a [KName n]) (if env n <? d then Some (Arr B (fun idx => at_ a (env n :: idx))) else None).
Proof.
  intros S. unfold index_full_arr, index_full. rewrite S. change ((1 <? ellipses [KName n]) || (length (d :: B) <? used [KName n])) with false. change (length (d :: B) - used [KName n]) with (length B - 0). rewrite Nat.sub_0_r. cbn [existsb is_ell orb app walk pick].
  destruct (env n <? d); [|exact Logic.I]. rewrite skipn_all. split; [cbn [shape]; rewrite firstn_all, app_nil_r; reflexivity|]. cbn [shape at_]. rewrite firstn_all, app_nil_r. intros idx W. rewrite (within_length _ _ W), firstn_all, app_nil_r. reflexivity.
Qed.

Variable sym : string -> nat.

Theorem stack_law vs name r : Forall normal vs -> stack V num sym vs name = Ok r ->
  forall env, same (value env r) (stacked (values' env vs) (env (sym name))).
Proof.
  intros N H env. unfold stack in H. destruct (run_op V num lib 0 vs) as [[outs|]| | | | |] eqn:R; try discriminate H. cbn [bindr] in H.
  destruct (apply_op V num lib 1 0 outs) as [w| | | | |] eqn:W; try discriminate H. cbn [bindr] in H.
  assert (T : Forall (tidy V none) vs).
  { eapply Forall_impl; [|exact N]. intros v Hv. destruct v; try contradiction; [exact Logic.I|]. split; [exact Hv|intros ? ?; reflexivity]. }
  assert (O : forall i v, nth_error outs i = Some v -> tidy V none v /\ forall env, same (value env v) (call V lib 0 i (values' env vs))).
  { intros i v Hi. apply apply_op_law; [exact library_lawful|exact T|]. unfold apply_op. rewrite R. cbn [bindr]. rewrite Hi. reflexivity. }
  assert (To : Forall (tidy V none) outs) by (apply Forall_forall; intros v Hv; apply In_nth_error in Hv; destruct Hv as (i & Hi); exact (proj1 (O i v Hi))).
  destruct (apply_op_law V num lib none library_lawful 1 0 outs w To W) as [Tw Mw].
  destruct (index_val_law V num lib none w [KName (sym name)] r Tw (fun _ _ => eq_refl) H) as [_ Mr].
  pose proof (run_op_len vs outs R) as Lo. eapply same_trans; [apply Mr|]. clear Mr H. specialize (Mw env).
  assert (No : call V lib 0 0 (values' env vs) = None -> outs <> [] -> same (match value env w with Some a => index_full_arr env a [KName (sym name)] | None => None end) None).
  { intros E Hn. destruct outs as [|o outs]; [contradiction|]. pose proof (proj2 (O 0 o eq_refl) env) as Ho. rewrite E in Ho. destruct (same_cases _ _ Ho) as [(? & ? & _ & X & _)|[X _]]; [discriminate X|].
    cbn [values] in Mw. rewrite X in Mw. cbn [call] in Mw. destruct (same_cases _ _ Mw) as [(? & ? & _ & Y & _)|[Y _]]; [discriminate Y|]. rewrite Y. exact Logic.I. }
  destruct (values' env vs) as [ps|] eqn:Ev; cbn [stacked].
  2:{ apply No; [reflexivity|]. intros X. subst outs. destruct vs; [discriminate Ev|discriminate Lo]. }
  pose proof (values_len env vs ps Ev) as Lp. cbn [call library] in O, No.
  destruct (bshapes (map shape ps)) as [B|] eqn:EB.
  2:{ assert (Eb : broadcast_tensors V ps = None) by (unfold broadcast_tensors; rewrite EB; reflexivity). apply No; [rewrite Eb; reflexivity|]. intros X. subst outs. destruct ps; [discriminate EB|]. cbn [length] in *. lia. }
  assert (Eb : broadcast_tensors V ps = Some (map (spread V B) ps)) by (unfold broadcast_tensors; rewrite EB; reflexivity).
  destruct (values_related env outs (map (spread V B) ps)) as (qs & Eq & F).
  { rewrite map_length. lia. }
  { intros i v Hi. pose proof (proj2 (O i v Hi) env) as X. cbn [call library] in X. rewrite Ev in X. cbn [call library] in X. rewrite Eb in X. exact X. }
  rewrite Eq in Mw. cbn [call library] in Mw. pose proof (stack_related same_arr qs qs (fun p q H => proj1 H)) as S. lapply S; [clear S; intros S|clear; induction qs; constructor; [split; auto|assumption]].
  destruct (torch_stack V qs) as [[|b [|? ?]]|] eqn:Et; try contradiction.
  - destruct S as (p & _ & Hp & _ & Sp & Sa & _ & Ea & _). cbn [result nth_error] in Mw. destruct (same_cases _ _ Mw) as [(a & b' & -> & X & Sab)|[_ X]]; [|discriminate X]. injection X as <-.
    eapply same_trans; [apply index_full_same; exact Sab|]. eapply same_trans; [apply (index_first env b _ _ (sym name) Sa)|].
    assert (Sq : forall q, In q qs -> shape q = B).
    { intros q Hq. apply In_nth_error in Hq. destruct Hq as (i & Hi). destruct (Forall2_nth _ _ _ _ _ F Hi) as (u & Hu & Squ). apply nth_error_In, in_map_iff in Hu. destruct Hu as (x & <- & _). exact (proj1 Squ). }
    assert (Lq : length qs = length ps) by (rewrite (Forall2_len _ _ _ F), map_length; reflexivity).
    destruct (env (sym name) <? length qs) eqn:El.
    + apply Nat.ltb_lt in El. destruct (nth_error ps (env (sym name))) as [x|] eqn:Ex; [|apply nth_error_None in Ex; lia].
      destruct (nth_error qs (env (sym name))) as [q|] eqn:Eq'; [|apply nth_error_None in Eq'; lia]. destruct (Forall2_nth _ _ _ _ _ F Eq') as (u & Hu & Squ). rewrite nth_error_map, Ex in Hu. injection Hu as <-.
      split; [cbn [shape spread]; apply Sq; exact Hp|]. cbn [shape at_]. rewrite (Sq p Hp). intros idx Wi. rewrite Ea. cbn [hd tl]. rewrite (nth_error_nth _ _ _ Eq'). apply (proj2 Squ). rewrite (Sq q (nth_error_In _ _ Eq')). exact Wi.
    + apply Nat.ltb_ge in El. destruct (nth_error ps (env (sym name))) eqn:Ex; [|exact Logic.I]. assert (env (sym name) < length ps) by (apply nth_error_Some; congruence). lia.
  - cbn [result] in Mw. destruct (same_cases _ _ Mw) as [(? & ? & _ & Y & _)|[Y _]]; [discriminate Y|]. rewrite Y.
    assert (ps = []); [|subst; cbn [nth_error]; destruct (env (sym name)); exact Logic.I].
    assert (Sq : forall q, In q qs -> shape q = B).
    { intros q Hq. apply In_nth_error in Hq. destruct Hq as (i & Hi). destruct (Forall2_nth _ _ _ _ _ F Hi) as (u & Hu & Squ). apply nth_error_In, in_map_iff in Hu. destruct Hu as (x & <- & _). exact (proj1 Squ). }
    destruct qs as [|q qs]; [apply Forall2_len in F; rewrite map_length in F; destruct ps; [reflexivity|discriminate F]|]. exfalso. cbn [torch_stack] in Et.
    rewrite (proj2 (forallb_forall _ _)) in Et; [discriminate Et|]. intros x Hx. rewrite (Sq x Hx), (Sq q (or_introl eq_refl)). unfold shape_eqb. destruct (list_eq_dec Nat.eq_dec B B); [reflexivity|contradiction].
Qed.

Theorem stack_same vs name r env ps sh : Forall normal vs -> stack V num sym vs name = Ok r -> values' env vs = Some ps -> (forall p, In p ps -> shape p = sh) ->
  same (value env r) (nth_error ps (env (sym name))).
Proof.
  intros N H Ev S. eapply same_trans; [apply (stack_law vs name r N H env)|]. rewrite Ev. cbn [stacked]. destruct ps as [|p0 ps0]; [destruct (bshapes _); destruct (env (sym name)); exact Logic.I|]. remember (p0 :: ps0) as ps eqn:Ep.
  rewrite (bshapes_same sh); [|intros s Hs; apply in_map_iff in Hs; destruct Hs as (p & <- & Hp); apply S; exact Hp|subst; discriminate].
  destruct (nth_error ps (env (sym name))) as [p|] eqn:E; [|exact Logic.I]. rewrite <- (S p (nth_error_In _ _ E)). apply spread_id.
Qed.
End Stack.
