(** Proofs about named dimensions. *)
From Coq Require Import List Bool Arith ZArith Lia Permutation.
From Verif Require Import ArrModel ArrSpec ArrProofs.
Import ListNotations.

Lemma same_refl {V} (x : option (arr V)) : same x x.
Proof. destruct x as [a|]; cbn; [split; reflexivity|exact I]. Qed.
Lemma same_sym {V} (x y : option (arr V)) : same x y -> same y x.
Proof. destruct x as [a|], y as [b|]; cbn; auto. intros [H1 H2]. split; [auto|]. intros idx Hi. rewrite <- H1 in Hi. rewrite H2; auto. Qed.
Lemma same_trans {V} (x y z : option (arr V)) : same x y -> same y z -> same x z.
Proof.
  destruct x as [a|], y as [b|], z as [c|]; cbn; try tauto. intros [H1 H2] [H3 H4]. split; [congruence|]. intros idx Hi. rewrite H2 by exact Hi. apply H4. rewrite <- H1. exact Hi.
Qed.

(** ** Sizes *)
Lemma indexes_nil dims n d : ~ indexes [] dims n d.
Proof. intros (i & _ & H). destruct i; discriminate H. Qed.
Lemma indexes_nil2 sh n d : ~ indexes sh [] n d.
Proof. intros (i & H & _). destruct i; discriminate H. Qed.
Lemma indexes_cons d0 sh k dims n d : indexes (d0 :: sh) (k :: dims) n d <-> (k = KName n /\ d0 = d) \/ indexes sh dims n d.
Proof.
  unfold indexes. split.
  - intros ([|i] & H1 & H2); cbn in H1, H2; [left; inversion H1; inversion H2; auto|right; exists i; auto].
  - intros [[-> ->]|(i & H1 & H2)]; [exists 0; auto|exists (S i); auto].
Qed.

Lemma lookup_app m n d x : lookup (m ++ [(n, d)]) x = match lookup m x with Some y => Some y | None => if Nat.eqb n x then Some d else None end.
Proof. induction m as [|[y e] m IH]; cbn [lookup app]; [reflexivity|]. destruct (Nat.eqb y x); [reflexivity|exact IH]. Qed.

Lemma lookup_fst m n : lookup m n = None <-> ~ In n (map fst m).
Proof.
  induction m as [|[y e] m IH]; cbn [lookup map fst In]; [tauto|]. destruct (Nat.eqb y n) eqn:E.
  - apply Nat.eqb_eq in E. split; [discriminate|]. intros H. exfalso. apply H. left. exact E.
  - apply Nat.eqb_neq in E. rewrite IH. tauto.
Qed.

Lemma add_size_ok m n d m' : add_size m n d = Ok m' ->
  (forall x e, lookup m' x = Some e <-> lookup m x = Some e \/ (x = n /\ e = d)) /\ (NoDup (map fst m) -> NoDup (map fst m')).
Proof.
  unfold add_size. destruct (lookup m n) as [d'|] eqn:E.
  - destruct (Nat.eqb d' d) eqn:Ed; [|discriminate]. apply Nat.eqb_eq in Ed. subst d'. intros H. inversion H; subst. split; [|auto].
    intros x e. split; [auto|]. intros [H1|[-> ->]]; assumption.
  - intros H. inversion H; subst. split.
    + intros x e. rewrite lookup_app. destruct (lookup m x) as [y|] eqn:Ex.
      * split; [auto|]. intros [H1|[-> ->]]; [exact H1|congruence].
      * destruct (Nat.eqb n x) eqn:En; [apply Nat.eqb_eq in En; subst x|apply Nat.eqb_neq in En].
        -- split; [intros H1; inversion H1; subst; auto|]. intros [H1|[_ ->]]; [discriminate|reflexivity].
        -- split; [discriminate|]. intros [H1|[-> _]]; [discriminate|contradiction].
    + intros Hn. rewrite map_app. cbn. apply (Permutation_NoDup (l := n :: map fst m)); [apply Permutation_cons_append|]. constructor; [|exact Hn]. apply lookup_fst. exact E.
Qed.

Lemma add_names_spec : forall sh dims m,
  match add_names sh dims m with
  | Ok m' => (forall n d, lookup m' n = Some d <-> lookup m n = Some d \/ indexes sh dims n d) /\ (NoDup (map fst m) -> NoDup (map fst m'))
  | ValueError => exists n d d', d <> d' /\ (lookup m n = Some d \/ indexes sh dims n d) /\ indexes sh dims n d'
  | _ => False
  end.
Proof.
  induction sh as [|d0 sh IH]; intros dims m.
  - assert (E : add_names [] dims m = Ok m) by (destruct dims; reflexivity). rewrite E. split; [|auto]. intros n d. split; [auto|]. intros [H|H]; [exact H|]. destruct (indexes_nil _ _ _ H).
  - destruct dims as [|k dims].
    + cbn [add_names]. split; [|auto]. intros n d. split; [auto|]. intros [H|H]; [exact H|]. destruct (indexes_nil2 _ _ _ H).
    + assert (Hother : (forall n, k <> KName n) ->
        match add_names sh dims m with
        | Ok m' => (forall n d, lookup m' n = Some d <-> lookup m n = Some d \/ indexes (d0 :: sh) (k :: dims) n d) /\ (NoDup (map fst m) -> NoDup (map fst m'))
        | ValueError => exists n d d', d <> d' /\ (lookup m n = Some d \/ indexes (d0 :: sh) (k :: dims) n d) /\ indexes (d0 :: sh) (k :: dims) n d'
        | _ => False
        end).
      { intros Hk. specialize (IH dims m). destruct (add_names sh dims m) as [m'| | | | |]; try contradiction.
        - destruct IH as [H1 H2]. split; [|exact H2]. intros n d. rewrite H1, indexes_cons. split; [tauto|]. intros [H|[[H _]|H]]; [auto|destruct (Hk n H)|auto].
        - destruct IH as (n & d & d' & Hd & H1 & H2). exists n, d, d'. rewrite !indexes_cons. tauto. }
      destruct k as [| |z|a b c|n0]; try (apply Hother; discriminate). clear Hother. cbn [add_names].
      destruct (add_size m n0 d0) as [m1| | | | |] eqn:E; try (unfold add_size in E; destruct (lookup m n0) as [d'|]; [destruct (Nat.eqb d' d0)|]; discriminate E).
      * destruct (add_size_ok _ _ _ _ E) as [A1 A2]. specialize (IH dims m1). destruct (add_names sh dims m1) as [m'| | | | |]; try contradiction.
        -- destruct IH as [H1 H2]. split; [|auto]. intros n d. rewrite H1, A1, indexes_cons. split.
           ++ intros [[H|[-> ->]]|H]; auto.
           ++ intros [H|[[H1' H2']|H]]; auto. inversion H1'; subst. auto.
        -- destruct IH as (n & d & d' & Hd & H1 & H2). exists n, d, d'. rewrite A1 in H1. rewrite !indexes_cons. split; [exact Hd|]. split; [|auto].
           destruct H1 as [[H1|[-> ->]]|H1]; auto.
      * unfold add_size in E. destruct (lookup m n0) as [d'|] eqn:El; [|discriminate E]. destruct (Nat.eqb d' d0) eqn:Ed; [discriminate E|].
        apply Nat.eqb_neq in Ed. exists n0, d', d0. rewrite !indexes_cons. auto.
Qed.

(** ** Dependence on the names *)
Definition in_range (env : nat -> nat) (sh : list nat) (dims : list kelem) : Prop := forall n d, indexes sh dims n d -> env n < d.

Lemma pick_agree env env' k d : (forall n, k = KName n -> env n = env' n) -> pick env k d = pick env' k d.
Proof. destruct k; cbn [pick]; intros H; try reflexivity. rewrite (H n eq_refl). reflexivity. Qed.

Lemma index_axes_agree env env' : forall sh dims, (forall n, In (KName n) dims -> env n = env' n) -> index_axes env sh dims = index_axes env' sh dims.
Proof.
  induction sh as [|d sh IH]; intros [|k dims] H; cbn [index_axes]; try reflexivity.
  rewrite (pick_agree env env' k d) by (intros n ->; apply H; left; reflexivity). rewrite (IH dims) by (intros n Hn; apply H; right; exact Hn). reflexivity.
Qed.

Lemma index_axes_range env env' : forall sh dims, length sh = length dims -> in_range env sh dims -> in_range env' sh dims ->
  match index_axes env sh dims, index_axes env' sh dims with
  | Some (s, _), Some (s', _) => s = s'
  | None, None => True
  | _, _ => False
  end.
Proof.
  induction sh as [|d sh IH]; intros [|k dims] L H H'; try discriminate L; cbn [index_axes]; [reflexivity|].
  assert (IH' := IH dims). lapply IH'; [clear IH'; intros IH'|inversion L; reflexivity].
  lapply IH'; [clear IH'; intros IH'|intros n e He; apply H; apply indexes_cons; auto].
  lapply IH'; [clear IH'; intros IH'|intros n e He; apply H'; apply indexes_cons; auto].
  assert (P : match pick env k d, pick env' k d with Some (Drop _), Some (Drop _) => True | Some (Keep a _), Some (Keep b _) => a = b | None, None => True | _, _ => False end).
  { destruct k as [| |z|a b c|n]; cbn [pick]; try exact I.
    - destruct ((- Z.of_nat d <=? z) && (z <? Z.of_nat d))%Z; exact I.
    - destruct (match c with Some s => s | None => 1%Z end <=? 0)%Z; [exact I|reflexivity].
    - rewrite (proj2 (Nat.ltb_lt (env n) d)) by (apply H; apply indexes_cons; auto). rewrite (proj2 (Nat.ltb_lt (env' n) d)) by (apply H'; apply indexes_cons; auto). exact I. }
  destruct (pick env k d) as [[i|a f]|], (pick env' k d) as [[i'|a' f']|]; try contradiction; try exact I;
    destruct (index_axes env sh dims) as [[s g]|], (index_axes env' sh dims) as [[s' g']|]; try contradiction; try exact I; try exact IH'. congruence.
Qed.

Lemma index_axes_out env sh dims n d : indexes sh dims n d -> d <= env n -> index_axes env sh dims = None.
Proof.
  revert dims. induction sh as [|d0 sh IH]; intros [|k dims] H Hd; try (destruct H as ([|i] & H1 & H2); discriminate).
  cbn [index_axes]. apply indexes_cons in H. destruct H as [[-> ->]|H].
  - cbn [pick]. rewrite (proj2 (Nat.ltb_ge (env n) d)) by exact Hd. reflexivity.
  - rewrite (IH dims H Hd). destruct (pick env k d0) as [[|]|]; reflexivity.
Qed.

Lemma in_range_dec env sh dims : in_range env sh dims \/ exists n d, indexes sh dims n d /\ d <= env n.
Proof.
  revert dims. induction sh as [|d0 sh IH]; intros [|k dims]; try (left; intros n d ([|i] & H1 & H2); discriminate).
  destruct (IH dims) as [H|(n & d & H & Hd)]; [|right; exists n, d; rewrite indexes_cons; auto].
  destruct k as [| |z|a b c|n0]; try (left; intros n d Hn; apply indexes_cons in Hn; destruct Hn as [[E _]|Hn]; [discriminate E|apply H; exact Hn]).
  destruct (Nat.le_gt_cases d0 (env n0)) as [Hle|Hlt]; [right; exists n0, d0; rewrite indexes_cons; auto|left].
  intros n d Hn. apply indexes_cons in Hn. destruct Hn as [[E ->]|Hn]; [inversion E; subst; exact Hlt|apply H; exact Hn].
Qed.

(** ** Partial evaluation *)
Lemma index_of_spec n l : match index_of n l with Some i => nth_error l i = Some n | None => ~ In n l end.
Proof.
  induction l as [|y l IH]; cbn [index_of]; [intros []|]. destruct (Nat.eqb n y) eqn:E; [apply Nat.eqb_eq in E; subst; reflexivity|].
  apply Nat.eqb_neq in E. destruct (index_of n l) as [i|]; cbn [option_map]; [exact IH|]. intros [H|H]; [congruence|contradiction].
Qed.

Lemma index_of_nth n l i : NoDup l -> nth_error l i = Some n -> index_of n l = Some i.
Proof.
  revert i. induction l as [|y l IH]; intros i Hn H; [destruct i; discriminate H|]. inversion Hn as [|? ? Hy Hn']; subst. destruct i as [|i]; cbn in H.
  - inversion H; subst. cbn [index_of]. rewrite Nat.eqb_refl. reflexivity.
  - cbn [index_of]. destruct (Nat.eqb n y) eqn:E; [apply Nat.eqb_eq in E; subst; exfalso; apply Hy; eapply nth_error_In; exact H|]. rewrite (IH i Hn' H). reflexivity.
Qed.

Lemma assign_map env names n : In n names -> forall env0, assign env0 names (map env names) n = env n.
Proof.
  intros Hn env0. unfold assign. pose proof (index_of_spec n names) as H. destruct (index_of n names) as [i|]; [|contradiction].
  assert (E : nth_error (map env names) i = Some (env n)) by (rewrite nth_error_map, H; reflexivity). apply nth_error_nth with (d := env0 n) in E. exact E.
Qed.

Lemma names_axes env names sizes rest : within sizes (map env names) ->
  exists g, index_axes env (sizes ++ rest) (map KName names ++ repeat KAll (length rest)) = Some (rest, g) /\
    forall idx, length idx = length rest -> g idx = map env names ++ idx.
Proof.
  revert sizes. induction names as [|n names IH]; intros sizes H; cbn [map] in *.
  - inversion H; subst. cbn [app]. destruct (index_axes_all env rest [] [] [] (fun _ => [])) as (g & E & Hg); [reflexivity|].
    rewrite !app_nil_r in E. exists g. split; [exact E|]. intros idx L. rewrite <- (app_nil_r idx) at 1. rewrite Hg by exact L. apply app_nil_r.
  - inversion H as [|d sh i idx Hi Hw]; subst. destruct (IH _ Hw) as (g & E & Hg). cbn [app index_axes pick]. rewrite (proj2 (Nat.ltb_lt _ _) Hi), E.
    eexists. split; [reflexivity|]. intros idx L. cbn beta. rewrite Hg by exact L. reflexivity.
Qed.

Lemma sized_within env m : NoDup (map fst m) -> (forall n d, lookup m n = Some d -> env n < d) -> within (map snd m) (map env (map fst m)).
Proof.
  induction m as [|[n d] m IH]; cbn [map fst snd]; intros Hn H; [constructor|]. inversion Hn as [|? ? Hx Hn']; subst. constructor.
  - apply H. cbn [lookup]. rewrite Nat.eqb_refl. reflexivity.
  - apply IH; [exact Hn'|]. intros x e He. apply H. cbn [lookup]. destruct (Nat.eqb n x) eqn:E; [|exact He]. apply Nat.eqb_eq in E. subst.
    apply lookup_fst in Hx. congruence.
Qed.

Lemma lookup_In m n d : NoDup (map fst m) -> In (n, d) m -> lookup m n = Some d.
Proof.
  induction m as [|[x e] m IH]; intros Hn H; [destruct H|]. cbn [map fst] in Hn. inversion Hn as [|? ? Hx Hn']; subst. cbn [lookup]. destruct H as [H|H].
  - inversion H; subst. rewrite Nat.eqb_refl. reflexivity.
  - destruct (Nat.eqb x n) eqn:E; [|auto]. apply Nat.eqb_eq in E. subst. exfalso. apply Hx. apply in_map_iff. exists (n, d). auto.
Qed.

Lemma lookup_some_In m n d : lookup m n = Some d -> In (n, d) m.
Proof.
  induction m as [|[x e] m IH]; cbn [lookup]; intros H; [discriminate H|]. destruct (Nat.eqb x n) eqn:E; [apply Nat.eqb_eq in E; inversion H; subst; left; reflexivity|right; auto].
Qed.

Lemma assign_lookup sized is env0 n d : within (map snd sized) is -> lookup sized n = Some d -> assign env0 (map fst sized) is n < d.
Proof.
  revert is. induction sized as [|[x e] m IH]; intros is Hw H; [discriminate H|]. cbn [map fst snd] in *. inversion Hw as [|? ? i idx Hi Hw']; subst.
  unfold assign. cbn [index_of lookup] in *. rewrite Nat.eqb_sym. destruct (Nat.eqb x n); [inversion H; subst; exact Hi|].
  specialize (IH idx Hw' H). unfold assign in IH. destruct (index_of n (map fst m)) as [j|] eqn:Ej; cbn [option_map]; [exact IH|].
  pose proof (index_of_spec n (map fst m)) as Hs. rewrite Ej in Hs. apply lookup_fst in Hs. congruence.
Qed.

Theorem partial_eval_meaning V (a : arr V) dims r : built a dims -> partial_eval a dims = Ok r ->
  forall env, same (den env r) (den env (TGet a dims)).
Proof.
  intros [L _] H env. unfold partial_eval in H. pose proof (add_names_spec (shape a) dims []) as S.
  destruct (add_names (shape a) dims []) as [sized| | | | |]; try discriminate H.
  destruct S as [S1 S2]. specialize (S2 (NoDup_nil _)). assert (S1' : forall n d, lookup sized n = Some d <-> indexes (shape a) dims n d).
  { intros n d. rewrite S1. cbn. split; [intros [Hx|Hx]; [discriminate Hx|exact Hx]|auto]. }
  destruct sized as [|p0 sized0] eqn:Es; [inversion H; subst; apply same_refl|]. rewrite <- Es in *. clear Es p0 sized0.
  set (names := map fst sized) in *. set (sizes := map snd sized) in *.
  destruct (index_axes (assign (fun _ => 0) names (unravel sizes 0)) (shape a) dims) as [[rest g0]|] eqn:E0; [|discriminate H].
  inversion H; subst r. clear H. match goal with |- context [reshape ?f _] => set (fl := f) end.
  cbn [den]. unfold index_arr. change (shape (reshape fl (sizes ++ rest))) with (sizes ++ rest).
  assert (R0 : in_range (assign (fun _ => 0) names (unravel sizes 0)) (shape a) dims).
  { destruct (in_range_dec (assign (fun _ => 0) names (unravel sizes 0)) (shape a) dims) as [R|(n & d & Hn & Hd)]; [exact R|].
    rewrite (index_axes_out _ _ _ _ _ Hn Hd) in E0. discriminate E0. }
  destruct (in_range_dec env (shape a) dims) as [R|(n & d & Hn & Hd)].
  - assert (W : within sizes (map env names)) by (apply sized_within; [exact S2|]; intros n d Hl; apply R; apply S1'; exact Hl).
    destruct (names_axes env names sizes rest W) as (g & Eg & Hg). rewrite Eg.
    pose proof (index_axes_range env _ (shape a) dims (eq_sym L) R R0) as RR. rewrite E0 in RR.
    destruct (index_axes env (shape a) dims) as [[s gd]|] eqn:Ed; [|contradiction]. subst s. split; [reflexivity|]. cbn [shape at_]. intros idx Hw.
    rewrite (Hg idx) by (symmetry; apply within_length; exact Hw).
    transitivity (at_ fl (ravel sizes (map env names) :: idx)).
    + apply (reshape_at fl (sizes ++ rest)).
      * constructor; [apply ravel_lt; exact W|exact Hw].
      * unfold fl. cbn [shape]. rewrite ravel_app by exact W. reflexivity.
    + unfold fl. cbn [at_ hd tl]. rewrite unravel_ravel by exact W. rewrite (index_axes_agree _ env).
      * rewrite Ed. reflexivity.
      * intros n Hn. apply assign_map. apply In_nth_error in Hn. destruct Hn as [i Hi]. assert (i < length dims) by (apply nth_error_Some; congruence).
        destruct (nth_error (shape a) i) as [d|] eqn:Ei; [|apply nth_error_None in Ei; lia].
        assert (Hl : lookup sized n = Some d) by (apply S1'; exists i; auto). apply lookup_some_In in Hl. apply in_map_iff. exists (n, d). auto.
  - rewrite (index_axes_out _ _ _ _ _ Hn Hd). apply S1' in Hn.
    assert (Hi : indexes (sizes ++ rest) (map KName names ++ repeat KAll (length rest)) n d).
    { apply lookup_some_In in Hn. apply In_nth_error in Hn. destruct Hn as [i Hi]. exists i. 
      assert (Li : i < length sized) by (apply nth_error_Some; congruence). split.
      - rewrite nth_error_app1 by (unfold names; rewrite !map_length; exact Li). unfold names. rewrite !nth_error_map, Hi. reflexivity.
      - rewrite nth_error_app1 by (unfold sizes; rewrite map_length; exact Li). unfold sizes. rewrite nth_error_map, Hi. reflexivity. }
    rewrite (index_axes_out _ _ _ _ _ Hi Hd). exact I.
Qed.

(** When it succeeds. *)
Lemma partial_eval_ok V (a : arr V) dims env : built a dims -> index_axes env (shape a) dims <> None ->
  (forall n d d', indexes (shape a) dims n d -> indexes (shape a) dims n d' -> d = d') ->
  exists a' dims', partial_eval a dims = Ok (TGet a' dims') /\ built a' dims' /\
    (forall n, In (KName n) dims' <-> In (KName n) dims) /\
    ((exists n, In (KName n) dims) -> forall i j n, nth_error dims' i = Some (KName n) -> nth_error dims' j = Some (KName n) -> i = j) /\
    (forall n d, indexes (shape a') dims' n d <-> indexes (shape a) dims n d).
Proof.
  intros [L P] Hd Hc. unfold partial_eval. pose proof (add_names_spec (shape a) dims []) as S.
  destruct (add_names (shape a) dims []) as [sized| | | | |]; try contradiction.
  - destruct S as [S1 S2]. specialize (S2 (NoDup_nil _)). assert (S1' : forall n d, lookup sized n = Some d <-> indexes (shape a) dims n d).
    { intros n d. rewrite S1. cbn. split; [intros [Hx|Hx]; [discriminate Hx|exact Hx]|auto]. }
    assert (Hin : forall n, In (KName n) dims <-> exists d, indexes (shape a) dims n d).
    { intros n. split.
      - intros Hn. apply In_nth_error in Hn. destruct Hn as [i Hi]. assert (i < length dims) by (apply nth_error_Some; congruence).
        destruct (nth_error (shape a) i) as [d|] eqn:Ei; [|apply nth_error_None in Ei; lia]. exists d, i. auto.
      - intros (d & i & Hi & _). eapply nth_error_In; exact Hi. }
    destruct sized as [|p0 sized0] eqn:Es.
    + exists a, dims. split; [reflexivity|]. split; [split; assumption|]. split; [reflexivity|]. split; [|reflexivity].
      intros (n & Hn) i j n' Hi Hj. apply Hin in Hn. destruct Hn as (d & Hn). apply S1' in Hn. discriminate Hn.
    + rewrite <- Es in *. clear Es p0 sized0. set (names := map fst sized) in *. set (sizes := map snd sized) in *.
      assert (R : in_range env (shape a) dims).
      { destruct (in_range_dec env (shape a) dims) as [R|(n & d & Hn & Hdd)]; [exact R|]. exfalso. apply Hd. exact (index_axes_out _ _ _ _ _ Hn Hdd). }
      assert (W : within sizes (map env names)) by (apply sized_within; [exact S2|]; intros n d Hl; apply R; apply S1'; exact Hl).
      assert (W0 : within sizes (unravel sizes 0)) by (apply unravel_within; eapply prod_within; exact W).
      assert (R0 : in_range (assign (fun _ => 0) names (unravel sizes 0)) (shape a) dims).
      { intros n d Hn. apply S1' in Hn. eapply assign_lookup; eassumption. }
      pose proof (index_axes_range env _ (shape a) dims (eq_sym L) R R0) as RR.
      destruct (index_axes (assign (fun _ => 0) names (unravel sizes 0)) (shape a) dims) as [[rest g0]|] eqn:E0;
        [|destruct (index_axes env (shape a) dims) as [[? ?]|]; [contradiction|exfalso; apply Hd; reflexivity]].
      do 2 eexists. split; [reflexivity|].
      assert (In' : forall n, In (KName n) (map KName names ++ repeat KAll (length rest)) <-> In n names).
      { intros n. rewrite in_app_iff, in_map_iff. split.
        - intros [(x & Ex & Hx)|Hx]; [inversion Ex; subst; exact Hx|]. apply repeat_spec in Hx. discriminate Hx.
        - intros Hn. left. exists n. auto. }
      assert (Ix : forall n d, indexes (sizes ++ rest) (map KName names ++ repeat KAll (length rest)) n d <-> lookup sized n = Some d).
      { intros n d. split.
        - intros (i & Hi & Hd'). destruct (Nat.lt_ge_cases i (length sized)) as [Hlt|Hge].
          + unfold names, sizes in *. rewrite nth_error_app1 in Hi by (rewrite !map_length; exact Hlt). rewrite nth_error_app1 in Hd' by (rewrite map_length; exact Hlt).
            rewrite !nth_error_map in Hi. rewrite nth_error_map in Hd'. destruct (nth_error sized i) as [[x e]|] eqn:Ei; [|discriminate Hi].
            cbn in Hi, Hd'. inversion Hi; inversion Hd'; subst. apply lookup_In; [exact S2|]. eapply nth_error_In; exact Ei.
          + unfold names in Hi. rewrite nth_error_app2 in Hi by (rewrite !map_length; exact Hge). apply nth_error_In, repeat_spec in Hi. discriminate Hi.
        - intros Hl. apply lookup_some_In in Hl. apply In_nth_error in Hl. destruct Hl as [i Hi]. exists i.
          assert (Li : i < length sized) by (apply nth_error_Some; congruence). split.
          + rewrite nth_error_app1 by (unfold names; rewrite !map_length; exact Li). unfold names. rewrite !nth_error_map, Hi. reflexivity.
          + rewrite nth_error_app1 by (unfold sizes; rewrite map_length; exact Li). unfold sizes. rewrite nth_error_map, Hi. reflexivity. }
      split; [split|split; [|split]].
      * cbn [reshape shape]. rewrite !app_length, map_length, repeat_length. unfold names, sizes. rewrite !map_length. reflexivity.
      * intros k Hk. apply in_app_or in Hk. destruct Hk as [Hk|Hk]; [apply in_map_iff in Hk; destruct Hk as (n & <- & _); reflexivity|apply repeat_spec in Hk; subst; reflexivity].
      * intros n. rewrite In', Hin. split.
        -- intros Hn. unfold names in Hn. apply in_map_iff in Hn. destruct Hn as ([x d] & Ex & Hn). cbn in Ex. subst x. exists d. apply S1'. apply lookup_In; assumption.
        -- intros (d & Hn). apply S1' in Hn. apply lookup_some_In in Hn. apply in_map_iff. exists (n, d). auto.
      * intros _ i j n Hi Hj. assert (Hn : forall i, nth_error (map KName names ++ repeat KAll (length rest)) i = Some (KName n) -> nth_error names i = Some n).
        { intros x Hx. destruct (Nat.lt_ge_cases x (length names)) as [Hlt|Hge].
          - rewrite nth_error_app1 in Hx by (rewrite map_length; exact Hlt). rewrite nth_error_map in Hx. destruct (nth_error names x); [|discriminate Hx]. cbn in Hx. inversion Hx. reflexivity.
          - rewrite nth_error_app2 in Hx by (rewrite map_length; exact Hge). apply nth_error_In, repeat_spec in Hx. discriminate Hx. }
        apply Hn in Hi, Hj. pose proof (index_of_nth _ _ _ S2 Hi) as E1. pose proof (index_of_nth _ _ _ S2 Hj) as E2. congruence.
      * cbn [reshape shape]. intros n d. rewrite Ix. apply S1'.
  - destruct S as (n & d & d' & Hne & [Hx|Hx] & Hy); [discriminate Hx|]. exfalso. apply Hne. eapply Hc; eassumption.
Qed.
