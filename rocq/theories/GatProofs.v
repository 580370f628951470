(** Proofs about [gather]. *)
From Coq Require Import String List Bool Arith ZArith Lia.
From Verif Require Import ArrModel ArrSpec ArrProofs ArrNames ArrBind TgetModel NopModel NopSpec NopProofs GatModel GatSpec.
Import ListNotations.

Section Gather.
Variable V : Type.
Variable sym : string -> nat.

Lemma chosen_picks s n l : proper sym s -> (chosen (vars sym s) n = Some l <-> picks sym s n l).
Proof.
  unfold proper. induction s as [|[k l0] s IH]; intros P; cbn [vars map chosen fst snd].
  - split; [discriminate|intros (name & [] & _)].
  - cbn [map fst] in P. inversion P as [|x xs Hx P']; subst. destruct (Nat.eqb (sym k) n) eqn:E.
    + apply Nat.eqb_eq in E. subst n. split.
      * intros H. injection H as ->. exists k. split; [left; reflexivity|reflexivity].
      * intros (name & [H|H] & En); [injection H as -> ->; reflexivity|]. exfalso. apply Hx. rewrite <- En. apply in_map_iff. exists (name, l). auto.
    + apply Nat.eqb_neq in E. fold (vars sym s). rewrite (IH P'). split; intros (name & H & En); [exists name; split; [right; exact H|exact En]|].
      destruct H as [H|H]; [injection H as -> ->; contradiction|exists name; auto].
Qed.
Lemma chosen_none s n : proper sym s -> chosen (vars sym s) n = None -> forall l, ~ picks sym s n l.
Proof. intros P H l X. apply chosen_picks in X; [congruence|exact P]. Qed.
Lemma none_chosen s n : proper sym s -> (forall l, ~ picks sym s n l) -> chosen (vars sym s) n = None.
Proof. intros P H. destruct (chosen (vars sym s) n) as [l|] eqn:E; [|reflexivity]. apply chosen_picks in E; [destruct (H l E)|exact P]. Qed.

Definition names_only (dims : list kelem) : Prop := Forall (fun k => k = KAll \/ exists n, k = KName n) dims.

(** ** The new sizes *)
Section Sizes.
Variable m : list (nat * iset).
Definition new_size (n d : nat) : nat := match chosen m n with Some l => length l | None => d end.

Lemma inner_sizes_spec : forall dims acc, (forall n d, lookup acc n = Some d -> exists l, chosen m n = Some l /\ d = length l) ->
  exists acc', inner_sizes m dims acc = Ok acc' /\
    (forall n d, lookup acc' n = Some d <-> lookup acc n = Some d \/ In (KName n) dims /\ exists l, chosen m n = Some l /\ d = length l) /\ (NoDup (map fst acc) -> NoDup (map fst acc')).
Proof.
  induction dims as [|k dims IH]; intros acc A.
  - exists acc. split; [reflexivity|]. split; [|auto]. intros n d. split; [auto|]. intros [H|[[] _]]. exact H.
  - assert (Skip : (forall n, k = KName n -> chosen m n = None) -> exists acc', inner_sizes m dims acc = Ok acc' /\
      (forall n d, lookup acc' n = Some d <-> lookup acc n = Some d \/ In (KName n) (k :: dims) /\ exists l, chosen m n = Some l /\ d = length l) /\ (NoDup (map fst acc) -> NoDup (map fst acc'))).
    { intros Hk. destruct (IH acc A) as (acc' & E & S & N). exists acc'. split; [exact E|]. split; [|exact N]. intros n d. rewrite S. split; [intros [H|[H X]]; [auto|right; cbn; auto]|].
      intros [H|[[H|H] X]]; [auto|destruct X as (l & X & _); rewrite (Hk n H) in X; discriminate X|auto]. }
    destruct k as [| |z|x y w|n0]; try (apply Skip; intros ? X; discriminate X). cbn [inner_sizes]. destruct (chosen m n0) as [l|] eqn:C; [|apply Skip; intros n X; injection X as <-; exact C]. clear Skip.
    assert (E : exists acc1, add_size acc n0 (length l) = Ok acc1).
    { unfold add_size. destruct (lookup acc n0) as [d'|] eqn:L; [|eexists; reflexivity]. destruct (A n0 d' L) as (l' & C' & ->). rewrite C in C'. injection C' as <-. rewrite Nat.eqb_refl. eexists; reflexivity. }
    destruct E as (acc1 & E). rewrite E. cbn [bindr]. destruct (add_size_ok _ _ _ _ E) as [S1 N1].
    destruct (IH acc1) as (acc' & E' & S & N).
    { intros n d L. apply S1 in L. destruct L as [L|[-> ->]]; [auto|exists l; auto]. }
    exists acc'. split; [exact E'|]. split; [|auto]. intros n d. rewrite S, S1. split.
    + intros [[H|[-> ->]]|[H X]]; [auto|right; split; [left; reflexivity|exists l; auto]|right; split; [right; exact H|exact X]].
    + intros [H|[[H|H] X]]; [auto|injection H as <-; destruct X as (l' & X & ->); rewrite C in X; injection X as <-; auto|auto].
Qed.

Lemma replaced_indexes env sh dims n d : indexes sh (map (replaced m env) dims) n d <-> indexes sh dims n d /\ chosen m n = None.
Proof.
  unfold indexes. split.
  - intros (i & Hi & Hd). rewrite nth_error_map in Hi. destruct (nth_error dims i) as [k|] eqn:E; [|discriminate Hi]. cbn [option_map] in Hi.
    destruct k as [| |z|x y w|n0]; try discriminate Hi. cbn [replaced] in Hi. destruct (chosen m n0) eqn:C; [discriminate Hi|]. injection Hi as ->. split; [exists i; auto|exact C].
  - intros [(i & Hi & Hd) C]. exists i. rewrite nth_error_map, Hi. cbn [option_map replaced]. rewrite C. auto.
Qed.

Lemma gathered_sizes_spec sh dims sizes : length dims = length sh -> add_names sh dims [] = Ok sizes ->
  exists sized, gathered_sizes m sh dims = Ok sized /\ NoDup (map fst sized) /\ forall n d, lookup sized n = Some d <-> exists d0, indexes sh dims n d0 /\ d = new_size n d0.
Proof.
  intros L A. pose proof (add_names_spec sh dims []) as S. rewrite A in S. destruct S as [S _].
  unfold gathered_sizes. destruct (inner_sizes_spec dims []) as (acc & E & S1 & N1); [intros n d X; discriminate X|]. rewrite E. cbn [bindr].
  pose proof (add_names_spec sh (map (replaced m (fun _ => 0)) dims) acc) as Q. destruct (add_names sh (map (replaced m (fun _ => 0)) dims) acc) as [sized| | | | |]; try contradiction.
  - destruct Q as [Q1 Q2]. exists sized. split; [reflexivity|]. split; [apply Q2, N1; constructor|]. intros n d. rewrite Q1, S1, replaced_indexes. unfold new_size. split.
    + intros [[X|[Hn (l & C & ->)]]|[I C]]; [discriminate X| |exists d; rewrite C; auto]. apply In_nth_error in Hn. destruct Hn as (i & Hi).
      assert (i < length dims) by (apply nth_error_Some; congruence). destruct (nth_error sh i) as [d0|] eqn:Ei; [|apply nth_error_None in Ei; lia].
      exists d0. rewrite C. split; [exists i; auto|reflexivity].
    + intros (d0 & I & ->). destruct (chosen m n) as [l|] eqn:C; [|auto]. left. right. split; [destruct I as (i & Hi & _); eapply nth_error_In; exact Hi|exists l; auto].
  - exfalso. destruct Q as (n & d & d' & Hd & A1 & A2). apply replaced_indexes in A2. destruct A2 as [A2 C]. destruct A1 as [A1|A1].
    + apply S1 in A1. destruct A1 as [X|[_ (l & C' & _)]]; [discriminate X|congruence].
    + apply replaced_indexes in A1. destruct A1 as [A1 _]. apply Hd. pose proof (proj2 (S n d) (or_intror A1)) as X. pose proof (proj2 (S n d') (or_intror A2)) as Y. congruence.
Qed.

(** ** The new positions *)
Definition goes_to (n d i j : nat) : Prop :=
  match chosen m n with Some l => exists z, nth_error l i = Some z /\ index_is d z j | None => j = i end.

Lemma pick_index env d z j : index_is d z j -> pick env (KInt z) d = Some (Drop j).
Proof.
  intros [Hj H]. cbn [pick]. assert (B : ((- Z.of_nat d <=? z) && (z <? Z.of_nat d))%Z = true) by (apply andb_true_iff; rewrite Z.leb_le, Z.ltb_lt; lia).
  rewrite B. do 2 f_equal. destruct (z <? 0)%Z eqn:E; [apply Z.ltb_lt in E|apply Z.ltb_ge in E]; lia.
Qed.
Lemma pick_out env d z : (forall j, ~ index_is d z j) -> pick env (KInt z) d = None.
Proof.
  intros H. cbn [pick]. destruct ((- Z.of_nat d <=? z) && (z <? Z.of_nat d))%Z eqn:B; [|reflexivity]. exfalso. apply andb_true_iff in B. rewrite Z.leb_le, Z.ltb_lt in B.
  destruct (Z.ltb_spec z 0); [apply (H (Z.to_nat (z + Z.of_nat d)))|apply (H (Z.to_nat z))]; unfold index_is; lia.
Qed.
Lemma index_is_wrap d z : (exists j, index_is d z j) -> index_is d z (wrap d z).
Proof. intros (j & Hj & H). unfold wrap, index_is. destruct (Z.ltb_spec z 0); lia. Qed.

Lemma replaced_axes env env' : forall sh dims, (forall n d, indexes sh dims n d -> goes_to n d (env n) (env' n)) ->
  index_axes env sh (map (replaced m env) dims) = index_axes env' sh dims.
Proof.
  induction sh as [|d sh IH]; intros [|k dims] H; cbn [map index_axes]; try reflexivity.
  rewrite (IH dims) by (intros n e He; apply H, indexes_cons; auto).
  assert (P : pick env (replaced m env k) d = pick env' k d).
  { destruct k as [| |z|x y w|n]; try reflexivity. specialize (H n d). lapply H; [clear H; intros H|apply indexes_cons; auto]. unfold goes_to in H. cbn [replaced].
    destruct (chosen m n) as [l|]; [|cbn [pick]; rewrite H; reflexivity]. destruct H as (z & Hz & Hi). rewrite (nth_error_nth _ _ _ Hz), (pick_index env d z (env' n) Hi).
    cbn [pick]. destruct Hi as [Hi _]. rewrite (proj2 (Nat.ltb_lt _ _) Hi). reflexivity. }
  rewrite P. reflexivity.
Qed.
Lemma replaced_axes_out env sh dims n d l : indexes sh dims n d -> chosen m n = Some l -> (forall j, ~ index_is d (nth (env n) l 0%Z) j) ->
  index_axes env sh (map (replaced m env) dims) = None.
Proof.
  intros I C H. revert dims I. induction sh as [|d0 sh IH]; intros [|k dims] I; try (destruct I as ([|i] & A & B); discriminate). cbn [map index_axes]. apply indexes_cons in I. destruct I as [[-> ->]|I].
  - cbn [replaced]. rewrite C, (pick_out env d _ H). reflexivity.
  - rewrite (IH dims I). destruct (pick env (replaced m env k) d0) as [[|]|]; reflexivity.
Qed.
Lemma replaced_axes_some env : forall sh dims, length dims = length sh -> names_only dims ->
  (forall n d, indexes sh dims n d -> exists j, j < d /\ goes_to n d (env n) j) -> exists g, index_axes env sh (map (replaced m env) dims) = Some (eager_shape sh dims, g).
Proof.
  induction sh as [|d sh IH]; intros [|k dims] L N H; try discriminate L; cbn [map index_axes eager_shape]; [eexists; reflexivity|]. cbn [length] in L. injection L as L. apply Forall_cons_iff in N. destruct N as [Nk N].
  destruct (IH dims L N) as (g & E); [intros n e He; apply H, indexes_cons; auto|]. rewrite E. destruct Nk as [->|(n & ->)].
  - change (replaced m env KAll) with KAll. destruct (pick_all env d) as (f & Ef & _). rewrite Ef. eexists; reflexivity.
  - destruct (H n d) as (j & Hj & G); [apply indexes_cons; auto|]. unfold goes_to in G. cbn [replaced]. destruct (chosen m n) as [l|].
    + destruct G as (z & Hz & Hi). rewrite (nth_error_nth _ _ _ Hz), (pick_index env d z j Hi). eexists; reflexivity.
    + subst j. cbn [pick]. rewrite (proj2 (Nat.ltb_lt _ _) Hj). eexists; reflexivity.
Qed.
Lemma replaced_agree env env' dims : (forall n, In (KName n) dims -> env n = env' n) -> map (replaced m env) dims = map (replaced m env') dims.
Proof.
  intros H. apply map_ext_in. intros k Hk. destruct k as [| |z|x y w|n]; try reflexivity. cbn [replaced]. rewrite (H n Hk). reflexivity.
Qed.
Lemma replaced_shape env sh dims s g : names_only dims -> index_axes env sh (map (replaced m env) dims) = Some (s, g) -> s = eager_shape sh dims.
Proof.
  revert dims s g. induction sh as [|d sh IH]; intros [|k dims] s g N E; cbn [map index_axes] in E; try discriminate E; [injection E as <- _; reflexivity|]. apply Forall_cons_iff in N. destruct N as [Nk N].
  destruct (index_axes env sh (map (replaced m env) dims)) as [[s0 g0]|] eqn:E0; [|destruct (pick env (replaced m env k) d) as [[|]|]; discriminate E]. specialize (IH dims s0 g0 N E0). destruct Nk as [->|(n & ->)].
  - change (replaced m env KAll) with KAll in E. destruct (pick_all env d) as (f & Ef & _). rewrite Ef in E. injection E as <- _. cbn [eager_shape KAll]. now rewrite IH.
  - cbn [eager_shape]. cbn [replaced] in E. destruct (chosen m n) as [l|].
    + destruct (pick env (KInt (nth (env n) l 0%Z)) d) as [[j|? ?]|] eqn:P; [|cbn [pick] in P; destruct (_ && _); discriminate P|discriminate E]. injection E as <- _. exact IH.
    + destruct (pick env (KName n) d) as [[j|? ?]|] eqn:P; [|cbn [pick] in P; destruct (_ <? _); discriminate P|discriminate E]. injection E as <- _. exact IH.
Qed.
End Sizes.

Lemma moves_goes s n d i j : proper sym s -> (moves sym s n d i j <-> goes_to (vars sym s) n d i j).
Proof.
  intros P. unfold moves, goes_to. destruct (chosen (vars sym s) n) as [l|] eqn:C.
  - pose proof C as C'. apply chosen_picks in C'; [|exact P]. split; [intros [H _]; exact (H l C')|]. intros H. split; [|intros X; destruct (X l C')].
    intros l' X. apply chosen_picks in X; [|exact P]. rewrite C in X. injection X as <-. exact H.
  - pose proof (chosen_none s n P C) as N. split; [intros [_ H]; exact (H N)|]. intros H. split; [intros l X; destruct (N l X)|auto].
Qed.

Lemma normal_neat (a : arr V) dims : normal (VGet V a dims) -> neat a dims.
Proof. exact (fun H => H). Qed.

Notation value := (fun env (v : val V) => at_pos env v).

Lemma sizes_positions sized env : NoDup (map fst sized) -> valid env sized ->
  exists j, In j (seq 0 (prod (map snd sized))) /\ forall n, In n (map fst sized) -> assign (fun _ => 0) (map fst sized) (unravel (map snd sized) j) n = env n.
Proof.
  intros N Ve. pose proof (sized_within env sized N Ve) as W. exists (ravel (map snd sized) (map env (map fst sized))). split; [apply in_seq; pose proof (ravel_lt _ _ W); lia|].
  intros n Hn. rewrite unravel_ravel by exact W. apply assign_map. exact Hn.
Qed.

Theorem gather_law s v r : proper sym s -> normal v -> gather V sym v s = Ok r ->
  normal r /\
  (forall n d, has_dim r n d <-> exists d0, has_dim v n d0 /\ (forall l, picks sym s n l -> d = length l) /\ ((forall l, ~ picks sym s n l) -> d = d0)) /\
  forall env env', (forall n d, has_dim v n d -> moves sym s n d (env n) (env' n)) -> same (at_pos env r) (at_pos env' v).
Proof.
  intros P Nv H.
  destruct v as [a|a dims|n0|f i l|v key]; try contradiction; cbn [gather] in H.
  - injection H as <-. split; [exact Logic.I|]. split; [intros n d; split; [intros []|intros (d0 & [] & _)]|]. intros env env' _. apply same_refl.
  - unfold sizes_of in H. cbn [sizes_val] in H. destruct (add_names (shape a) dims []) as [sizes| | | | |] eqn:A; try discriminate H. cbn [bindr] in H.
    pose proof Nv as Ne. destruct Ne as [[L Pl] N]. pose proof (add_names_spec (shape a) dims []) as S. rewrite A in S. destruct S as [S _].
    assert (Hs : forall n d d0, (forall l, picks sym s n l -> d = length l) /\ ((forall l, ~ picks sym s n l) -> d = d0) <-> d = new_size (vars sym s) n d0).
    { intros n d d0. unfold new_size. destruct (chosen (vars sym s) n) as [l|] eqn:C.
      - pose proof C as C'. apply chosen_picks in C'; [|exact P]. split; [intros [X _]; exact (X l C')|]. intros ->. split; [|intros X; destruct (X l C')].
        intros l' X. apply chosen_picks in X; [congruence|exact P].
      - pose proof (chosen_none s n P C) as Nn. split; [intros [_ X]; exact (X Nn)|]. intros ->. split; [intros l X; destruct (Nn l X)|auto]. }
    destruct (existsb (fun p : nat * nat => is_some (chosen (vars sym s) (fst p))) sizes) eqn:B.
    + destruct (gathered_sizes_spec (vars sym s) (shape a) dims sizes L A) as (sized & G & Nd & Sz). rewrite G in H. cbn [bindr] in H.
      set (run := fun env => index_arr env a (map (replaced (vars sym s) env) dims)).
      assert (H' : (if forallb (fun j => is_some (run (assign (fun _ => 0) (map fst sized) (unravel (map snd sized) j)))) (seq 0 (prod (map snd sized)))
        then bindr (vmapped V sized (fun env => option_map (fun b => [b]) (run env))) (fun l => match l with [w] => Ok w | _ => RuntimeError end)
        else IndexError) = Ok r) by exact H. clear H. rename H' into H.
      destruct (forallb _ (seq 0 (prod (map snd sized)))) eqn:F; [|discriminate H].
      destruct (vmapped V sized (fun env => option_map (fun b => [b]) (run env))) as [vs| | | | |] eqn:Ev; try discriminate H. cbn [bindr] in H. destruct vs as [|w0 [|? ?]]; try discriminate H. injection H as <-.
      assert (Nm : forall n, In (KName n) dims -> In n (map fst sized)).
      { intros n Hn. destruct (name_indexed V a dims n (conj L Pl) Hn) as (d & Hd). assert (X : lookup sized n = Some (new_size (vars sym s) n d)) by (apply Sz; exists d; auto). apply lookup_some_In in X. apply in_map_iff. exists (n, new_size (vars sym s) n d). auto. }
      assert (Ex : forall env env', (forall n, In n (map fst sized) -> env n = env' n) -> run env = run env').
      { intros env env' Ag. unfold run, index_arr. rewrite (replaced_agree (vars sym s) env env' dims) by (intros n Hn; apply Ag, Nm; exact Hn).
        rewrite (index_axes_agree env env'); [reflexivity|]. intros n Hn. apply Ag, Nm. apply in_map_iff in Hn. destruct Hn as (k & Ek & Hk). destruct k as [| |z|x y w|n0]; try discriminate Ek.
        cbn [replaced] in Ek. destruct (chosen (vars sym s) n0); [discriminate Ek|]. injection Ek as ->. exact Hk. }
      assert (So : forall env, valid env sized -> exists b, run env = Some b /\ shape b = eager_shape (shape a) dims).
      { intros env Ve. destruct (sizes_positions sized env Nd Ve) as (j & Hj & Ag). rewrite forallb_forall in F. specialize (F j Hj). rewrite (Ex _ env Ag) in F.
        destruct (run env) as [b|] eqn:Er; [|discriminate F]. exists b. split; [reflexivity|]. unfold run, index_arr in Er. destruct (index_axes env (shape a) (map (replaced (vars sym s) env) dims)) as [[t g]|] eqn:Ei; [|discriminate Er].
        injection Er as <-. cbn [shape]. eapply replaced_shape; [exact N|exact Ei]. }
      destruct (vmapped_ok V sized (fun env => option_map (fun b => [b]) (run env)) [w0] Nd Ev) as [_ W].
      * intros env env' Ag. rewrite (Ex env env' Ag). reflexivity.
      * intros env env' Ve Ve'. destruct (So env Ve) as (b & -> & Sb). destruct (So env' Ve') as (b' & -> & Sb'). cbn. constructor; [|constructor]. unfold same_shape. congruence.
      * destruct (W 0 w0 eq_refl) as (c & dims' & -> & Nc & Ic & M). split; [exact Nc|]. split.
        -- intros n d. cbn [has_dim]. rewrite Ic, Sz. split; intros (d0 & Hd & E); exists d0; (split; [exact Hd|apply Hs; exact E]).
        -- intros env env' Mo. cbn [at_pos].
           assert (Go : forall n d, indexes (shape a) dims n d -> goes_to (vars sym s) n d (env n) (env' n)) by (intros n d Hd; apply moves_goes; [exact P|apply Mo; exact Hd]).
           pose proof (replaced_axes (vars sym s) env env' (shape a) dims Go) as R. destruct (valid_dec env sized) as [Ve|Nev].
           ++ specialize (M env Ve). cbv beta in M. assert (Rr : run env = index_arr env' a dims) by (unfold run, index_arr; rewrite R; reflexivity). rewrite Rr in M. destruct (index_arr env' a dims) as [b|]; exact M.
           ++ rewrite (outside V sized c dims' env Ic Nev). destruct Nev as (n & d & Hl & Hd). apply Sz in Hl. destruct Hl as (d0 & Hi & ->). specialize (Go n d0 Hi). unfold goes_to in Go. unfold new_size in Hd.
              destruct (chosen (vars sym s) n) as [l|].
              ** destruct Go as (z & Hz & _). assert (env n < length l) by (apply nth_error_Some; congruence). lia.
              ** unfold index_arr. rewrite (index_axes_out env' _ _ _ _ Hi); [exact Logic.I|lia].
    + assert (No : forall n d, indexes (shape a) dims n d -> chosen (vars sym s) n = None).
      { intros n d Hd. destruct (chosen (vars sym s) n) as [l|] eqn:C; [|reflexivity]. assert (Lk : lookup sizes n = Some d) by (apply S; auto). apply lookup_some_In in Lk.
        assert (X : existsb (fun p : nat * nat => is_some (chosen (vars sym s) (fst p))) sizes = true) by (apply existsb_exists; exists (n, d); cbn [fst]; rewrite C; auto). congruence. }
      assert (Lw := index_val_law V (fun _ => at_ a []) (fun _ _ => None) (fun _ => None) (VArr V a) dims r Logic.I (fun _ _ => eq_refl) H). destruct Lw as [T M].
      assert (Shape : exists b dims', r = VGet V b dims' \/ r = VArr V b).
      { cbn [index_val] in H. destruct (getitem a dims) as [[b|b dd|]| | | | |]; try discriminate H; injection H as <-; [exists b, []; auto|exists b, dd; auto]. }
      assert (Nr : normal r) by (destruct Shape as (b & dd & [->| ->]); [destruct T as [T _]; exact T|exact Logic.I]).
      assert (M' : forall env, same (at_pos env r) (index_arr env a dims)).
      { intros env. specialize (M env). assert (X : at_pos env r = value_at V (fun _ => at_ a []) (fun _ _ => None) (fun _ => None) env r) by (destruct Shape as (b & dd & [->| ->]); reflexivity). rewrite X. eapply same_trans; [exact M|]. cbn [value_at]. apply index_full_plain. split; assumption. }
      split; [exact Nr|]. split.
      * assert (Hd : forall n d, has_dim r n d <-> indexes (shape a) dims n d).
        { intros n d. cbn [index_val] in H. destruct dims as [|k0 dims0]; [cbn [getitem] in H; injection H as <-; cbn [has_dim]; split; [intros []|intros X; destruct (indexes_nil2 _ _ _ X)]|].
          remember (k0 :: dims0) as dims eqn:Ek. assert (Hne : dims <> []) by (subst; discriminate). clear Ek k0 dims0. rewrite getitem_nonempty in H by exact Hne.
          rewrite desugar_plain in H by (auto; lia). rewrite L, Nat.sub_diag in H. cbn [repeat] in H. rewrite app_nil_r in H.
          destruct (existsb is_name dims) eqn:En.
          - destruct (forallb is_name dims).
            + rewrite A in H. injection H as <-. cbn [has_dim reshape shape]. reflexivity.
            + unfold partial_eval in H. cbn [reshape shape] in H. rewrite A in H. destruct sizes as [|p sizes]; [injection H as <-; reflexivity|]. remember (p :: sizes) as sz eqn:Es. clear Es p sizes.
              destruct (index_axes (assign (fun _ => 0) (map fst sz) (unravel (map snd sz) 0)) (shape a) dims) as [[rest g0]|]; [|discriminate H]. injection H as <-. cbn [has_dim reshape shape].
              pose proof (add_names_spec (shape a) dims []) as S'. rewrite A in S'. destruct S' as [_ Nd]. specialize (Nd (NoDup_nil _)). rewrite (sized_indexes sz rest n d Nd). rewrite S. split; [intros [X|X]; [discriminate X|exact X]|auto].
          - pose proof (no_names_agree dims En) as Nn. destruct (index_arr (fun _ => 0) (reshape a (shape a)) dims); [|discriminate H]. injection H as <-. cbn [has_dim]. split; [intros []|].
            intros (j & Hj & _). destruct (Nn n). eapply nth_error_In; exact Hj. }
        intros n d. rewrite Hd. cbn [has_dim]. split.
        -- intros Hi. exists d. split; [exact Hi|]. apply Hs. unfold new_size. rewrite (No n d Hi). reflexivity.
        -- intros (d0 & Hi & E). apply Hs in E. unfold new_size in E. rewrite (No n d0 Hi) in E. subst d. exact Hi.
      * intros env env' Mo. eapply same_trans; [apply M'|]. cbn [at_pos]. unfold index_arr. rewrite (index_axes_agree env env'); [apply same_refl|]. intros n Hn.
        destruct (name_indexed V a dims n (conj L Pl) Hn) as (d & Hd). specialize (Mo n d Hd). apply moves_goes in Mo; [|exact P]. unfold goes_to in Mo. rewrite (No n d Hd) in Mo. auto.
Qed.

Theorem gather_ignores s v r : proper sym s -> normal v -> gather V sym v s = Ok r ->
  (forall n d l, has_dim v n d -> ~ picks sym s n l) -> forall env, same (at_pos env r) (at_pos env v).
Proof.
  intros P N H No env. apply (gather_law s v r P N H). intros n d Hd. split; [intros l X; destruct (No n d l Hd X)|reflexivity].
Qed.
End Gather.
