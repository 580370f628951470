(** Proofs about array operations on arrays with named dimensions. *)
From Coq Require Import List Bool Arith ZArith Lia.
From Verif Require Import ArrModel ArrSpec ArrProofs ArrNames ArrBind NopModel NopSpec.
Import ListNotations.

Definition valid (env : nat -> nat) (m : list (nat * nat)) : Prop := forall n d, lookup m n = Some d -> env n < d.
Definition neat {V} (a : arr V) (dims : list kelem) : Prop := built a dims /\ Forall (fun k => k = KAll \/ exists n, k = KName n) dims.

Lemma valid_dec env m : valid env m \/ exists n d, lookup m n = Some d /\ d <= env n.
Proof.
  assert (H : forall l, (forall n d, In (n, d) l -> lookup m n = Some d -> env n < d) \/ exists n d, lookup m n = Some d /\ d <= env n).
  { induction l as [|[n d] l IH]; [left; intros ? ? []|]. destruct IH as [IH|IH]; [|right; exact IH].
    destruct (lookup m n) as [e|] eqn:E; [|left; intros n' d' [H|H] L; [inversion H; subst; congruence|eauto]].
    destruct (Nat.lt_ge_cases (env n) e) as [L|L]; [left; intros n' d' [H|H] L'; [inversion H; subst; congruence|eauto]|right; exists n, e; auto]. }
  destruct (H m) as [A|A]; [left; intros n d L; eapply A; [apply lookup_some_In; exact L|exact L]|right; exact A].
Qed.

Lemma nth_error_combine_seq {A} (l : list A) i s : nth_error (combine (seq s (length l)) l) i = option_map (fun x => (s + i, x)) (nth_error l i).
Proof.
  revert i s. induction l as [|x l IH]; intros i s; [destruct i; reflexivity|]. destruct i as [|i]; cbn [length seq combine nth_error option_map]; [now rewrite Nat.add_0_r|].
  rewrite IH. replace (S s + i) with (s + S i) by lia. reflexivity.
Qed.

Lemma index_full_same {V} env (a b : arr V) key : same_arr a b -> same (index_full_arr env a key) (index_full_arr env b key).
Proof.
  intros S. unfold same_arr in S. destruct S as [S1 S2]. unfold index_full_arr, index_full. rewrite <- S1.
  destruct ((1 <? ellipses key) || (length (shape a) <? used key)) eqn:E; [exact I|]. apply orb_false_iff in E. destruct E as [E1 E2]. apply Nat.ltb_ge in E1, E2.
  destruct (desugar_meaning V a key E1 E2) as (nsh & nkey & D & _ & L & P & M). specialize (M env). unfold index_full_arr, index_full in M.
  rewrite (proj2 (Nat.ltb_ge _ _) E1), (proj2 (Nat.ltb_ge _ _) E2) in M. cbn [orb] in M.
  destruct (desugar_ok _ _ E1 E2) as (nsh' & nkey' & D' & W).
  pose proof (walk_dwalk env _ _ _ _ _ W) as (_ & _ & _ & Q). unfold full in Q.
  destruct (walk env (length (shape a) - used key) (if existsb is_ell key then key else key ++ [KEll]) (shape a)) as [[s g]|]; [|exact I].
  destruct (index_axes env nsh' nkey') as [[s' g']|]; [|contradiction]. destruct Q as [-> Q]. split; [reflexivity|]. cbn [shape at_]. intros idx Hw. apply S2. apply Q. exact Hw.
Qed.

Lemma same_cases {V} (x y : option (arr V)) : same x y -> (exists a b, x = Some a /\ y = Some b /\ same_arr a b) \/ (x = None /\ y = None).
Proof. destruct x as [a|], y as [b|]; cbn; try contradiction; intros H; [left; exists a, b; auto|right; auto]. Qed.

Section Ops.
Variable V : Type.
Variable num : nat -> V.
Variable lib : nat -> list (arr V) -> option (list (arr V)).

Lemma index_of_in n l : In n l -> exists i, index_of n l = Some i.
Proof. intros H. pose proof (index_of_spec n l) as Q. destruct (index_of n l) as [i|]; [exists i; reflexivity|contradiction]. Qed.

(** ** [vmap] over the positions of names *)
Lemma sized_indexes sized rest n d : NoDup (map fst sized) ->
  (indexes (map snd sized ++ rest) (map KName (map fst sized) ++ repeat KAll (length rest)) n d <-> lookup sized n = Some d).
Proof.
  intros N. split.
  - intros (i & Hi & Hd'). destruct (Nat.lt_ge_cases i (length sized)) as [Hlt|Hge].
    + rewrite nth_error_app1 in Hi by (rewrite !map_length; exact Hlt). rewrite nth_error_app1 in Hd' by (rewrite map_length; exact Hlt).
      rewrite !nth_error_map in Hi. rewrite nth_error_map in Hd'. destruct (nth_error sized i) as [[x e]|] eqn:Ei; [|discriminate Hi].
      cbn in Hi, Hd'. inversion Hi; inversion Hd'; subst. apply lookup_In; [exact N|]. eapply nth_error_In; exact Ei.
    + rewrite nth_error_app2 in Hi by (rewrite !map_length; exact Hge). apply nth_error_In, repeat_spec in Hi. discriminate Hi.
  - intros Hl. apply lookup_some_In in Hl. apply In_nth_error in Hl. destruct Hl as [i Hi]. exists i.
    assert (Li : i < length sized) by (apply nth_error_Some; congruence). split.
    + rewrite nth_error_app1 by (rewrite !map_length; exact Li). rewrite !nth_error_map, Hi. reflexivity.
    + rewrite nth_error_app1 by (rewrite map_length; exact Li). rewrite nth_error_map, Hi. reflexivity.
Qed.

Lemma related_sym {W} (R : arr W -> arr W -> Prop) (S : forall a b, R a b -> R b a) x y : related R x y -> related R y x.
Proof. destruct x as [a|], y as [b|]; cbn; auto. induction 1; constructor; auto. Qed.

Lemma Forall2_nth {A B} (R : A -> B -> Prop) l r i a : Forall2 R l r -> nth_error l i = Some a -> exists b, nth_error r i = Some b /\ R a b.
Proof.
  intros H. revert i. induction H as [|x y l r Hxy H IH]; intros i E; [destruct i; discriminate|]. destruct i as [|i]; cbn in *; [injection E as <-; exists y; auto|auto].
Qed.
Lemma Forall2_len {A B} (R : A -> B -> Prop) l r : Forall2 R l r -> length l = length r.
Proof. induction 1; cbn; congruence. Qed.

Lemma vmapped_ok sized run vs : NoDup (map fst sized) -> vmapped V sized run = Ok vs ->
  (forall env env', (forall n, In n (map fst sized) -> env n = env' n) -> run env = run env') ->
  (forall env env', valid env sized -> valid env' sized -> related same_shape (run env) (run env')) ->
  (forall env, valid env sized -> exists outs, run env = Some outs /\ length outs = length vs) /\
  forall i v, nth_error vs i = Some v -> exists a dims, v = VGet V a dims /\ neat a dims /\
    (forall n d, indexes (shape a) dims n d <-> lookup sized n = Some d) /\
    forall env, valid env sized -> same (index_arr env a dims) (result V i (run env)).
Proof.
  intros N H Ext Uni. unfold vmapped in H. set (names := map fst sized) in *. set (sizes := map snd sized) in *.
  destruct (run (assign (fun _ => 0) names (unravel sizes 0))) as [outs|] eqn:E0; [|discriminate H]. injection H as <-.
  assert (V0 : forall env, valid env sized -> within sizes (map env names)) by (intros env Ve; apply sized_within; assumption).
  assert (Vp : forall j, j < prod sizes -> valid (assign (fun _ => 0) names (unravel sizes j)) sized).
  { intros j Hj n d Hl. apply (unravel_within sizes) in Hj. eapply assign_lookup; [exact (proj1 Hj)|exact Hl]. }
  assert (P0 : forall env, valid env sized -> related same_shape (Some outs) (run env)).
  { intros env Ve. rewrite <- E0. apply Uni; [|exact Ve]. apply Vp. eapply prod_within. apply V0. exact Ve. }
  split.
  - intros env Ve. specialize (P0 env Ve). destruct (run env) as [os|]; [|contradiction]. exists os. split; [reflexivity|]. cbn in P0. apply Forall2_len in P0.
    rewrite map_length, combine_length, seq_length. lia.
  - intros i v Hi. rewrite nth_error_map, nth_error_combine_seq in Hi. destruct (nth_error outs i) as [o|] eqn:Eo; [|discriminate Hi].
    cbn [option_map fst snd Nat.add] in Hi. injection Hi as <-. do 2 eexists. split; [reflexivity|].
    split; [|split].
    + split; [split|].
      * cbn [reshape shape]. rewrite !app_length, map_length, repeat_length. unfold names, sizes. rewrite !map_length. reflexivity.
      * intros k Hk. apply in_app_or in Hk. destruct Hk as [Hk|Hk]; [apply in_map_iff in Hk; destruct Hk as (n & <- & _); reflexivity|apply repeat_spec in Hk; subst; reflexivity].
      * apply Forall_forall. intros k Hk. apply in_app_or in Hk. destruct Hk as [Hk|Hk]; [apply in_map_iff in Hk; destruct Hk as (n & <- & _); right; exists n; reflexivity|apply repeat_spec in Hk; left; exact Hk].
    + intros n d. cbn [reshape shape]. apply sized_indexes. exact N.
    + intros env Ve. match goal with |- context [reshape ?f _] => set (fl := f) end.
      pose proof (V0 env Ve) as W. destruct (names_axes env names sizes (shape o) W) as (g & Eg & Hg). unfold index_arr.
      change (shape (reshape fl (sizes ++ shape o))) with (sizes ++ shape o). rewrite Eg.
      pose proof (P0 env Ve) as P. destruct (run env) as [os|] eqn:Er; [|contradiction]. cbn in P. destruct (Forall2_nth _ _ _ _ _ P Eo) as (o' & Eo' & So). cbn [result]. rewrite Eo'.
      split; [exact So|]. cbn [shape at_]. intros idx Hw. rewrite (Hg idx) by (symmetry; apply within_length; exact Hw).
      transitivity (at_ fl (ravel sizes (map env names) :: idx)).
      * apply (reshape_at fl (sizes ++ shape o)); [constructor; [apply ravel_lt; exact W|exact Hw]|].
        unfold fl. cbn [shape]. rewrite ravel_app by exact W. reflexivity.
      * unfold fl. cbn [at_ hd tl fst snd]. rewrite unravel_ravel by exact W. rewrite (Ext _ env), Er by (intros n Hn; apply assign_map; exact Hn).
        rewrite (nth_error_nth os i o Eo'). reflexivity.
Qed.

(** Outside the sizes an indexed array has no value. *)
Lemma outside sized (a : arr V) dims env : (forall n d, indexes (shape a) dims n d <-> lookup sized n = Some d) ->
  (exists n d, lookup sized n = Some d /\ d <= env n) -> index_arr env a dims = None.
Proof. intros I (n & d & L & H). apply I in L. unfold index_arr. rewrite (index_axes_out env _ _ _ _ L H). reflexivity. Qed.

(** ** Sizes of arguments *)
Definition simple (v : val V) : bool := match v with VArr _ _ | VGet _ _ _ | VName _ _ => true | _ => false end.

Lemma sizes_all_spec : forall vs m, forallb simple vs = true ->
  match sizes_all V vs m with
  | Ok m' => (forall n d, lookup m' n = Some d <-> lookup m n = Some d \/ exists v, In v vs /\ has_dim v n d) /\ (NoDup (map fst m) -> NoDup (map fst m'))
  | ValueError => exists n d d', d <> d' /\ (lookup m n = Some d \/ exists v, In v vs /\ has_dim v n d) /\ exists v, In v vs /\ has_dim v n d'
  | _ => False
  end.
Proof.
  induction vs as [|v vs IH]; intros m H; cbn [sizes_all].
  - split; [|auto]. intros n d. split; [auto|]. intros [L|(v & [] & _)]. exact L.
  - cbn [forallb] in H. apply andb_true_iff in H. destruct H as [Hv Hs].
    assert (Hother : (forall n d, ~ has_dim v n d) -> match sizes_all V vs m with
      | Ok m' => (forall n d, lookup m' n = Some d <-> lookup m n = Some d \/ exists v', In v' (v :: vs) /\ has_dim v' n d) /\ (NoDup (map fst m) -> NoDup (map fst m'))
      | ValueError => exists n d d', d <> d' /\ (lookup m n = Some d \/ exists v', In v' (v :: vs) /\ has_dim v' n d) /\ exists v', In v' (v :: vs) /\ has_dim v' n d'
      | _ => False end).
    { intros Nv. specialize (IH m Hs). destruct (sizes_all V vs m) as [m'| | | | |]; try contradiction.
      - destruct IH as [I1 I2]. split; [|exact I2]. intros n d. rewrite I1. split; [intros [L|(w & Hw & D)]; [auto|right; exists w; cbn; auto]|].
        intros [L|(w & [<-|Hw] & D)]; [auto|destruct (Nv _ _ D)|right; exists w; auto].
      - destruct IH as (n & d & d' & Hd & A & (w & Hw & D)). exists n, d, d'. split; [exact Hd|]. split; [|exists w; cbn; auto]. destruct A as [A|(u & Hu & A)]; [auto|right; exists u; cbn; auto]. }
    destruct v as [a|a dims|n0|f i args|v key]; try discriminate Hv; cbn [sizes_val bindr]; try (apply Hother; intros n d []). clear Hother.
    pose proof (add_names_spec (shape a) dims m) as S. destruct (add_names (shape a) dims m) as [m1| | | | |]; try contradiction; cbn [bindr].
    + destruct S as [S1 S2]. specialize (IH m1 Hs). destruct (sizes_all V vs m1) as [m'| | | | |]; try contradiction.
      * destruct IH as [I1 I2]. split; [|auto]. intros n d. rewrite I1, S1. split.
        -- intros [[L|L]|(w & Hw & D)]; [auto|right; exists (VGet V a dims); cbn; auto|right; exists w; cbn; auto].
        -- intros [L|(w & [<-|Hw] & D)]; [auto|left; right; exact D|right; exists w; auto].
      * destruct IH as (n & d & d' & Hd & A & (w & Hw & D)). exists n, d, d'. split; [exact Hd|]. split; [|exists w; cbn; auto].
        rewrite S1 in A. destruct A as [[A|A]|(u & Hu & A)]; [auto|right; exists (VGet V a dims); cbn; auto|right; exists u; cbn; auto].
    + destruct S as (n & d & d' & Hd & A & B). exists n, d, d'. split; [exact Hd|]. split; [|exists (VGet V a dims); cbn; auto].
      destruct A as [A|A]; [auto|right; exists (VGet V a dims); cbn; auto].
Qed.

(** Indexed arrays are in normal form; the names in [rho] are not used in indices. *)
Section Tidy.
Variable rho : nat -> option (arr V).
Definition apart_key (key : list kelem) : Prop := forall n, In (KName n) key -> rho n = None.
Fixpoint tidy (v : val V) : Prop :=
  match v with
  | VGet _ a dims => neat a dims /\ apart_key dims
  | VOp _ _ _ args => (fix all vs := match vs with [] => True | v :: vs' => tidy v /\ all vs' end) args
  | VIdx _ v key => tidy v /\ apart_key key
  | _ => True
  end.
Lemma tidy_op f i args : Forall tidy args <-> tidy (VOp V f i args).
Proof.
  cbn [tidy]. induction args as [|v args IH]; [split; [intros _; exact Logic.I|constructor]|]. rewrite Forall_cons_iff, IH. reflexivity.
Qed.

Lemma traverse_ext {A B} (f g : A -> option B) l : (forall x, In x l -> f x = g x) -> traverse f l = traverse g l.
Proof. induction l as [|x l IH]; intros H; cbn [traverse]; [reflexivity|]. rewrite (H x (or_introl eq_refl)), IH; [reflexivity|]. intros y Hy. apply H. right. exact Hy. Qed.
Lemma traverse_none {A B} (f : A -> option B) l x : In x l -> f x = None -> traverse f l = None.
Proof. induction l as [|y l IH]; intros H E; [destruct H|]. cbn [traverse]. destruct H as [->|H]; [rewrite E; reflexivity|]. rewrite (IH H E). destruct (f y); reflexivity. Qed.

Lemma name_indexed (a : arr V) dims n : built a dims -> In (KName n) dims -> exists d, indexes (shape a) dims n d.
Proof.
  intros [L _] Hn. apply In_nth_error in Hn. destruct Hn as [i Hi]. assert (i < length dims) by (apply nth_error_Some; congruence).
  destruct (nth_error (shape a) i) as [d|] eqn:Ei; [|apply nth_error_None in Ei; lia]. exists d, i. auto.
Qed.

Lemma single_valid_shape sized args env env' : Forall tidy args -> forallb simple args = true ->
  (forall n d, (exists v, In v args /\ has_dim v n d) -> lookup sized n = Some d) ->
  valid env sized -> valid env' sized ->
  match traverse (fun v => single V num v env) args, traverse (fun v => single V num v env') args with
  | Some ps, Some qs => Forall2 same_shape ps qs
  | None, None => True
  | _, _ => False
  end.
Proof.
  intros T. induction args as [|v args IH]; intros S D Ve Ve'; cbn [traverse]; [constructor|]. apply Forall_cons_iff in T. destruct T as [Tv T].
  cbn [forallb] in S. apply andb_true_iff in S. destruct S as [Sv S]. specialize (IH T S). lapply IH; [clear IH; intros IH|intros n d (w & Hw & E); apply D; exists w; cbn; auto]. specialize (IH Ve Ve').
  assert (Q : match single V num v env, single V num v env' with Some a, Some b => same_shape a b | None, None => True | _, _ => False end).
  { destruct v as [a|a dims|n0|f i l|v key]; try discriminate Sv; cbn [single]; try reflexivity. destruct Tv as [[[L P] _] _]. unfold index_arr.
    pose proof (index_axes_range env env' (shape a) dims (eq_sym L)) as R. lapply R; [clear R; intros R|intros n d I; apply Ve, D; exists (VGet V a dims); cbn; auto].
    lapply R; [clear R; intros R|intros n d I; apply Ve', D; exists (VGet V a dims); cbn; auto].
    destruct (index_axes env (shape a) dims) as [[s g]|], (index_axes env' (shape a) dims) as [[s' g']|]; try contradiction; exact R. }
  destruct (single V num v env), (single V num v env'); try contradiction; [|exact I].
  destruct (traverse (fun v => single V num v env) args), (traverse (fun v => single V num v env') args); try contradiction; [constructor; assumption|exact I].
Qed.

Lemma single_ext sized args env env' : Forall tidy args -> forallb (eager V sized) args = true ->
  (forall n d, (exists v, In v args /\ has_dim v n d) -> lookup sized n = Some d) -> (forall n, In n (map fst sized) -> env n = env' n) ->
  traverse (fun v => single V num v env) args = traverse (fun v => single V num v env') args.
Proof.
  intros T E D A. apply traverse_ext. intros v Hv. rewrite forallb_forall in E. specialize (E v Hv). rewrite Forall_forall in T. specialize (T v Hv).
  destruct v as [a|a dims|n0|f i l|v key]; try discriminate E; cbn [single]; [reflexivity| |].
  - unfold index_arr. rewrite (index_axes_agree env env'); [reflexivity|]. intros n Hn. apply A. destruct (name_indexed a dims n (proj1 (proj1 T)) Hn) as (d & Hd).
    assert (L : lookup sized n = Some d) by (apply D; exists (VGet V a dims); cbn; auto). apply lookup_some_In in L. apply in_map_iff. exists (n, d). auto.
  - cbn [eager] in E. apply ArrBind.mem_In in E. rewrite (A n0 E). reflexivity.
Qed.

Lemma eager_simple sized args : forallb (eager V sized) args = true -> forallb simple args = true.
Proof. rewrite !forallb_forall. intros H v Hv. specialize (H v Hv). destruct v; try discriminate H; reflexivity. Qed.

(** ** Values of terms *)
Notation value := (value_at V num lib rho).
Fixpoint values env vs : option (list (arr V)) := match vs with [] => Some [] | v :: vs' => match value env v, values env vs' with Some a, Some l => Some (a :: l) | _, _ => None end end.
Lemma value_op env f i vs : value env (VOp V f i vs) = call V lib f i (values env vs).
Proof. cbn [value_at]. f_equal. induction vs as [|v vs IH]; [reflexivity|]. cbn [values]. rewrite <- IH. reflexivity. Qed.

Lemma values_single env sized args : forallb (eager V sized) args = true -> (forall n, In n (map fst sized) -> rho n = None) ->
  values env args = traverse (fun v => single V num v env) args.
Proof.
  intros H R. induction args as [|v args IH]; cbn [values traverse]; [reflexivity|]. cbn [forallb] in H. apply andb_true_iff in H. destruct H as [Hv H]. rewrite (IH H).
  destruct v as [a|a dims|n|f i l|v key]; try discriminate Hv; try reflexivity. cbn [value_at single]. unfold name_at. cbn [eager] in Hv. rewrite (R n); [reflexivity|]. apply ArrBind.mem_In. exact Hv.
Qed.

Lemma values_plain env args l : traverse (plain_array V) args = Some l -> values env args = Some l.
Proof.
  revert l. induction args as [|v args IH]; intros l H; cbn [values traverse] in *; [exact H|]. destruct v; try discriminate H. cbn [plain_array value_at] in *.
  destruct (traverse (plain_array V) args) as [l'|]; [|discriminate H]. rewrite (IH l' eq_refl). exact H.
Qed.

Hypothesis lawfulness : lawful lib.

(** What an operation on values gives, at all positions. *)
Lemma partial_op_law sized f args outs : Forall tidy args -> sizes_all V args [] = Ok sized -> partial_op V num lib sized f args = Ok (Some outs) ->
  forall i v, nth_error outs i = Some v -> exists a dims, v = VGet V a dims /\ tidy v /\
    (forall n d, indexes (shape a) dims n d <-> exists w, In w args /\ has_dim w n d) /\
    forall env, same (index_arr env a dims) (call V lib f i (values env args)).
Proof.
  intros T S H i v Hi. unfold partial_op in H. destruct (forallb (eager V sized) args) eqn:E; [|discriminate H].
  pose proof (eager_simple _ _ E) as Si. pose proof (sizes_all_spec args [] Si) as Q. rewrite S in Q. destruct Q as [Q1 Q2]. specialize (Q2 (NoDup_nil _)).
  assert (Q : forall n d, lookup sized n = Some d <-> exists w, In w args /\ has_dim w n d).
  { intros n d. rewrite Q1. cbn. split; [intros [X|X]; [discriminate X|exact X]|auto]. }
  assert (R : forall n d, lookup sized n = Some d -> rho n = None).
  { intros n d L. apply Q in L. destruct L as (w & Hw & Dw). rewrite Forall_forall in T. specialize (T w Hw). destruct w as [|b dims'| | |]; try contradiction Dw.
    apply (proj2 T). destruct Dw as (j & Hj & _). eapply nth_error_In; exact Hj. }
  set (run := fun env => match traverse (fun v => single V num v env) args with Some l => lib f l | None => None end) in H.
  destruct (vmapped V sized run) as [vs| | | | |] eqn:Ev; try discriminate H. cbn [bindr] in H. injection H as <-.
  destruct (vmapped_ok sized run vs Q2 Ev) as [W1 W2].
  - intros env env' A. unfold run. rewrite (single_ext sized args env env'); [reflexivity|exact T|exact E| |exact A]. intros n d. apply Q.
  - intros env env' Ve Ve'. unfold run. pose proof (single_valid_shape sized args env env' T Si (fun n d => proj2 (Q n d)) Ve Ve') as P.
    destruct (traverse (fun v => single V num v env) args), (traverse (fun v => single V num v env') args); try contradiction; [|exact I]. apply (proj2 lawfulness). exact P.
  - destruct (W2 i v Hi) as (a & dims & -> & B & I & M). exists a, dims. split; [reflexivity|]. split; [split; [exact B|intros n Hn; destruct (name_indexed a dims n (proj1 B) Hn) as (d & Hd); apply I in Hd; exact (R n d Hd)]|]. split; [intros n d; rewrite I; apply Q|].
    intros env. rewrite (values_single env sized args E) by (intros n Hn; apply in_map_iff in Hn; destruct Hn as ([x d] & <- & Hn); apply (R x d); apply lookup_In; assumption). destruct (valid_dec env sized) as [Ve|Ne].
    + specialize (M env Ve). unfold run in M. unfold call. destruct (traverse (fun v => single V num v env) args); exact M.
    + rewrite (outside sized a dims env I Ne). destruct Ne as (n & d & L & Hd). apply Q in L. destruct L as (w & Hw & Dw). destruct w as [|b dims'| | |]; try contradiction Dw.
      rewrite (traverse_none _ args (VGet V b dims') Hw); [exact Logic.I|]. cbn [single]. unfold index_arr. rewrite (index_axes_out env _ _ _ _ Dw Hd). reflexivity.
Qed.

Lemma apply_op_law f i args v : Forall tidy args -> apply_op V num lib f i args = Ok v ->
  tidy v /\ forall env, same (value_at V num lib rho env v) (call V lib f i (values env args)).
Proof.
  intros T H. unfold apply_op, run_op in H. destruct (sizes_all V args []) as [sized| | | | |] eqn:S; try discriminate H. cbn [bindr] in H.
  match type of H with context [if ?c then _ else _] => destruct c end.
  - destruct (partial_op V num lib sized f args) as [[outs|]| | | | |] eqn:P; try discriminate H; cbn [bindr] in H.
    + destruct (nth_error outs i) as [w|] eqn:N; [|discriminate H]. injection H as <-. destruct (partial_op_law sized f args outs T S P i w N) as (a & dims & -> & B & _ & M). split; [exact B|exact M].
    + injection H as <-. split; [apply tidy_op; exact T|]. intros env. rewrite value_op. apply same_refl.
  - destruct (traverse (plain_array V) args) as [l|] eqn:P.
    + destruct (lib f l) as [outs|] eqn:L; [|discriminate H]. cbn [bindr] in H. rewrite nth_error_map in H. destruct (nth_error outs i) as [o|] eqn:N; [|discriminate H].
      cbn [option_map] in H. injection H as <-. split; [exact Logic.I|]. intros env. rewrite (values_plain env args l P). cbn [call]. rewrite L. cbn [result value_at]. rewrite N. apply same_refl.
    + cbn [bindr] in H. injection H as <-. split; [apply tidy_op; exact T|]. intros env. rewrite value_op. apply same_refl.
Qed.

(** ** Indexing *)
Lemma eager_shape_index env (a : arr V) dims b : neat a dims -> index_arr env a dims = Some b -> shape b = eager_shape (shape a) dims.
Proof.
  intros [[L _] N] H. unfold index_arr in H. destruct (index_axes env (shape a) dims) as [[s g]|] eqn:E; [|discriminate H]. injection H as <-. cbn [shape].
  revert dims L N s g E. generalize (shape a). induction l as [|d sh IH]; intros [|k dims] L N s g E; try discriminate L; cbn [index_axes] in E; [injection E as <- _; reflexivity|].
  apply Forall_cons_iff in N. destruct N as [Nk N]. cbn [length] in L. injection L as L. destruct (index_axes env sh dims) as [[s0 g0]|] eqn:E0; [|destruct (pick env k d) as [[|]|]; discriminate E].
  specialize (IH dims L N s0 g0 E0). destruct Nk as [->|(n & ->)].
  - destruct (pick_all env d) as (h & Eh & _). rewrite Eh in E. injection E as <- _. cbn [eager_shape]. unfold KAll. now rewrite IH.
  - destruct (pick env (KName n) d) as [[j|? ?]|] eqn:Ep; [|cbn [pick] in Ep; destruct (env n <? d); discriminate Ep|discriminate E]. injection E as <- _. exact IH.
Qed.

Lemma desugar_counts sh key r : desugar sh key = Ok r -> ellipses key <= 1 /\ used key <= length sh.
Proof.
  intros D. destruct (Nat.le_gt_cases (ellipses key) 1) as [A|A]; [|destruct (desugar_rejects sh key (or_introl A)); congruence].
  destruct (Nat.le_gt_cases (used key) (length sh)) as [B|B]; [auto|destruct (desugar_rejects sh key (or_intror B)); congruence].
Qed.

Lemma get_one_meaning key (b : arr V) env : same (get_one V key b env) (index_full_arr env b key).
Proof.
  unfold get_one. destruct (desugar (shape b) key) as [[nsh nkey]| | | | |] eqn:D.
  - destruct (desugar_counts _ _ _ D) as [A B]. destruct (desugar_meaning V b key A B) as (nsh' & nkey' & E & _ & _ & _ & M). rewrite D in E. injection E as <- <-. apply M.
  - apply same_sym. unfold index_full_arr, index_full. destruct (1 <? ellipses key) eqn:A, (length (shape b) <? used key) eqn:B; cbn [orb]; try exact Logic.I.
    apply Nat.ltb_ge in A, B. destruct (desugar_ok _ _ A B) as (? & ? & E & _). congruence.
  - apply same_sym. unfold index_full_arr, index_full. destruct (1 <? ellipses key) eqn:A, (length (shape b) <? used key) eqn:B; cbn [orb]; try exact Logic.I.
    apply Nat.ltb_ge in A, B. destruct (desugar_ok _ _ A B) as (? & ? & E & _). congruence.
  - apply same_sym. unfold index_full_arr, index_full. destruct (1 <? ellipses key) eqn:A, (length (shape b) <? used key) eqn:B; cbn [orb]; try exact Logic.I.
    apply Nat.ltb_ge in A, B. destruct (desugar_ok _ _ A B) as (? & ? & E & _). congruence.
  - apply same_sym. unfold index_full_arr, index_full. destruct (1 <? ellipses key) eqn:A, (length (shape b) <? used key) eqn:B; cbn [orb]; try exact Logic.I.
    apply Nat.ltb_ge in A, B. destruct (desugar_ok _ _ A B) as (? & ? & E & _). congruence.
  - apply same_sym. unfold index_full_arr, index_full. destruct (1 <? ellipses key) eqn:A, (length (shape b) <? used key) eqn:B; cbn [orb]; try exact Logic.I.
    apply Nat.ltb_ge in A, B. destruct (desugar_ok _ _ A B) as (? & ? & E & _). congruence.
Qed.

Lemma desugar_built (b : arr V) key nsh nkey : desugar (shape b) key = Ok (nsh, nkey) -> built (reshape b nsh) nkey.
Proof.
  intros D. destruct (desugar_counts _ _ _ D) as [A B]. destruct (desugar_meaning V b key A B) as (nsh' & nkey' & E & _ & L & P & _). rewrite D in E. injection E as <- <-. split; [exact L|exact P].
Qed.

Lemma partial_eval_neat (a : arr V) dims r : built a dims -> (exists n, In (KName n) dims) -> partial_eval a dims = Ok r -> exists a' dims', r = TGet a' dims' /\ neat a' dims'.
Proof.
  intros B (n & Hn) H. destruct (name_indexed a dims n B Hn) as (d & Hd). unfold partial_eval in H. pose proof (add_names_spec (shape a) dims []) as S.
  destruct (add_names (shape a) dims []) as [sized| | | | |]; try discriminate H. destruct S as [S1 _]. destruct sized as [|p sized].
  - exfalso. pose proof (proj2 (S1 n d) (or_intror Hd)) as X. discriminate X.
  - remember (p :: sized) as sz eqn:Es. clear Es p sized S1.
    destruct (index_axes (assign (fun _ => 0) (map fst sz) (unravel (map snd sz) 0)) (shape a) dims) as [[rest g0]|]; [|discriminate H].
    injection H as <-. do 2 eexists. split; [reflexivity|]. split; [split|].
    + cbn [reshape shape]. rewrite !app_length, !map_length, repeat_length. reflexivity.
    + intros k Hk. apply in_app_or in Hk. destruct Hk as [Hk|Hk]; [apply in_map_iff in Hk; destruct Hk as (m & <- & _); reflexivity|apply repeat_spec in Hk; subst; reflexivity].
    + apply Forall_forall. intros k Hk. apply in_app_or in Hk. destruct Hk as [Hk|Hk]; [apply in_map_iff in Hk; destruct Hk as (m & <- & _); right; exists m; reflexivity|apply repeat_spec in Hk; left; exact Hk].
Qed.

Lemma getitem_neat (a : arr V) key b dims : getitem a key = Ok (TGet b dims) -> neat b dims.
Proof.
  intros H. destruct key as [|k0 key0]; [discriminate H|]. rewrite getitem_nonempty in H by discriminate. remember (k0 :: key0) as key eqn:Ek. clear Ek.
  destruct (desugar (shape a) key) as [[nsh nkey]| | | | |] eqn:D; try discriminate H. pose proof (desugar_built a key nsh nkey D) as B. destruct (desugar_counts _ _ _ D) as [C1 C2].
  destruct (existsb is_name key) eqn:En.
  - destruct (forallb is_name key) eqn:Ea.
    + assert (P : plain key) by (intros k Hk; rewrite forallb_forall in Ea; specialize (Ea k Hk); destruct k; try discriminate Ea; reflexivity).
      destruct (plain_counts key P) as [U _]. rewrite desugar_plain in D by (auto; lia). injection D as <- <-.
      destruct (add_names (shape a) (key ++ repeat KAll (length (shape a) - length key)) []); inversion H; subst. split; [exact B|].
      apply Forall_forall. intros k Hk. apply in_app_or in Hk. destruct Hk as [Hk|Hk]; [rewrite forallb_forall in Ea; specialize (Ea k Hk); destruct k; try discriminate Ea; right; eexists; reflexivity|apply repeat_spec in Hk; left; exact Hk].
    + apply existsb_name in En. destruct En as (n & Hn). apply (desugar_names _ _ _ _ D C1 C2) in Hn.
      destruct (partial_eval_neat (reshape a nsh) nkey _ B (ex_intro _ n Hn) H) as (a' & dims' & E & Ne). inversion E; subst. exact Ne.
  - destruct (index_arr (fun _ => 0) (reshape a nsh) nkey); discriminate H.
Qed.

Lemma getitem_names (a : arr V) key b dims n : getitem a key = Ok (TGet b dims) -> In (KName n) dims -> In (KName n) key.
Proof.
  intros H Hn. destruct key as [|k0 key0]; [discriminate H|]. rewrite getitem_nonempty in H by discriminate. remember (k0 :: key0) as key eqn:Ek. clear Ek.
  destruct (desugar (shape a) key) as [[nsh nkey]| | | | |] eqn:D; try discriminate H. pose proof (desugar_built a key nsh nkey D) as B. destruct (desugar_counts _ _ _ D) as [C1 C2].
  apply (desugar_names _ _ _ _ D C1 C2). destruct (existsb is_name key) eqn:En; [|destruct (index_arr (fun _ => 0) (reshape a nsh) nkey); discriminate H].
  destruct (forallb is_name key).
  - destruct (add_names nsh nkey []); inversion H; subst. exact Hn.
  - unfold partial_eval in H. pose proof (add_names_spec (shape (reshape a nsh)) nkey []) as S. destruct (add_names (shape (reshape a nsh)) nkey []) as [sized| | | | |]; try discriminate H.
    destruct S as [S1 S2]. specialize (S2 (NoDup_nil _)). destruct sized as [|p sized]; [inversion H; subst; exact Hn|]. remember (p :: sized) as sz eqn:Es. clear Es p sized.
    destruct (index_axes (assign (fun _ => 0) (map fst sz) (unravel (map snd sz) 0)) (shape (reshape a nsh)) nkey) as [[rest g0]|]; [|discriminate H].
    injection H as _ <-. apply in_app_or in Hn. destruct Hn as [Hn|Hn]; [|apply repeat_spec in Hn; discriminate Hn]. apply in_map_iff in Hn. destruct Hn as (m & E & Hn). injection E as <-.
    apply in_map_iff in Hn. destruct Hn as ([x d] & <- & Hn). apply lookup_In in Hn; [|exact S2]. apply S1 in Hn. destruct Hn as [Hn|(j & Hj & _)]; [discriminate Hn|]. eapply nth_error_In; exact Hj.
Qed.

Lemma index_val_law v key w : tidy v -> apart_key key -> index_val V v key = Ok w ->
  tidy w /\ forall env, same (value_at V num lib rho env w)
    (match value_at V num lib rho env v with Some a => index_full_arr env a key | None => None end).
Proof.
  intros T K H. assert (Lazy : w = VIdx V v key -> tidy w /\ forall env, same (value_at V num lib rho env w) (match value_at V num lib rho env v with Some a => index_full_arr env a key | None => None end)).
  { intros ->. split; [split; assumption|]. intros env. apply same_refl. }
  destruct v as [a|a dims|n0|f i l|v k0]; cbn [index_val] in H; try (injection H as <-; apply Lazy; reflexivity).
  - destruct (getitem a key) as [[b|b dims|]| | | | |] eqn:G; try discriminate H; injection H as <-; (split; [cbn [tidy]; first [exact Logic.I|split; [eapply getitem_neat; exact G|intros n Hn; apply K; eapply getitem_names; eassumption]]|]); intros env; apply (getitem_meaning V a key _ G env).
  - cbn [tidy] in T. destruct T as [T Tr]. destruct (add_names (shape a) dims []) as [m| | | | |] eqn:A1; try discriminate H. cbn [bindr] in H.
    destruct (desugar (eager_shape (shape a) dims) key) as [[nsh nkey]| | | | |] eqn:D; try discriminate H. cbn [bindr fst snd] in H.
    destruct (add_names nsh nkey m) as [sized| | | | |] eqn:A2; try discriminate H. cbn [bindr] in H.
    assert (Hs : sized = [] \/ sized <> []) by (destruct sized; [left; reflexivity|right; discriminate]).
    destruct Hs as [->|Hs]; [injection H as <-; apply Lazy; reflexivity|].
    set (run := fun env => match index_arr env a dims with Some b => option_map (fun c => [c]) (get_one V key b env) | None => None end) in H.
    assert (H' : bindr (vmapped V sized run) (fun l => match l with [w] => Ok w | _ => RuntimeError end) = Ok w) by (destruct sized; [contradiction|exact H]). clear H.
    destruct (vmapped V sized run) as [vs| | | | |] eqn:Ev; try discriminate H'. cbn [bindr] in H'. destruct vs as [|w0 [|? ?]]; try discriminate H'. injection H' as <-.
    pose proof (add_names_spec (shape a) dims []) as S1. rewrite A1 in S1. destruct S1 as [S1 N1]. specialize (N1 (NoDup_nil _)).
    pose proof (add_names_spec nsh nkey m) as S2. rewrite A2 in S2. destruct S2 as [S2 N2]. specialize (N2 N1).
    assert (Q : forall n d, lookup sized n = Some d <-> indexes (shape a) dims n d \/ indexes nsh nkey n d).
    { intros n d. rewrite S2, S1. cbn. split; [intros [[X|X]|X]; [discriminate X|auto|auto]|intros [X|X]; auto]. }
    clear S1 S2 A1 A2. pose proof T as T'. destruct T' as [B N]. pose proof (desugar_built (Arr (eager_shape (shape a) dims) (fun _ => at_ a [])) key nsh nkey D) as Bn.
    assert (Kn : forall n d, lookup sized n = Some d -> rho n = None).
    { intros n d Hl. apply Q in Hl. destruct Hl as [(j & Hj & _)|(j & Hj & _)]; apply nth_error_In in Hj; [apply Tr; exact Hj|].
      destruct (desugar_counts _ _ _ D) as [C1 C2]. apply (desugar_names _ _ _ _ D C1 C2) in Hj. apply K. exact Hj. }
    assert (Dk : forall n, In (KName n) nkey -> exists d, indexes nsh nkey n d) by (intros n Hn; exact (name_indexed _ _ n Bn Hn)).
    assert (Go : forall env b, index_arr env a dims = Some b -> get_one V key b env = index_arr env (reshape b nsh) nkey).
    { intros env b Eb. unfold get_one. rewrite (eager_shape_index env a dims b T Eb), D. reflexivity. }
    destruct (vmapped_ok sized run [w0] N2 Ev) as [W1 W2].
    + intros env env' Ag. unfold run. assert (Agn : forall n d, lookup sized n = Some d -> env n = env' n) by (intros n d Hl; apply Ag; apply lookup_some_In in Hl; apply in_map_iff; exists (n, d); auto).
      assert (E1 : index_arr env a dims = index_arr env' a dims).
      { unfold index_arr. rewrite (index_axes_agree env env'); [reflexivity|]. intros n Hn. destruct (name_indexed a dims n B Hn) as (d & Hd). apply (Agn n d). apply Q. left. exact Hd. }
      rewrite E1. destruct (index_arr env' a dims) as [b|] eqn:Eb; [|reflexivity]. rewrite (Go env b E1), (Go env' b Eb). f_equal. unfold index_arr.
      rewrite (index_axes_agree env env'); [reflexivity|]. intros n Hn. destruct (Dk n Hn) as (d & Hd). apply (Agn n d). apply Q. right. exact Hd.
    + intros env env' Ve Ve'. unfold run.
      pose proof (index_axes_range env env' (shape a) dims (eq_sym (proj1 B)) (fun n d Hi => Ve n d (proj2 (Q n d) (or_introl Hi))) (fun n d Hi => Ve' n d (proj2 (Q n d) (or_introl Hi)))) as R.
      destruct (index_arr env a dims) as [b|] eqn:Eb, (index_arr env' a dims) as [b'|] eqn:Eb'; unfold index_arr in Eb, Eb';
        destruct (index_axes env (shape a) dims) as [[s g]|] eqn:X1, (index_axes env' (shape a) dims) as [[s' g']|] eqn:X2; try discriminate; try contradiction; [|exact Logic.I].
      assert (Fb : index_arr env a dims = Some b) by (unfold index_arr; rewrite X1; exact Eb). assert (Fb' : index_arr env' a dims = Some b') by (unfold index_arr; rewrite X2; exact Eb').
      rewrite (Go env b Fb), (Go env' b' Fb'). unfold index_arr. cbn [reshape shape].
      pose proof (index_axes_range env env' nsh nkey (eq_sym (proj1 Bn)) (fun n d Hi => Ve n d (proj2 (Q n d) (or_intror Hi))) (fun n d Hi => Ve' n d (proj2 (Q n d) (or_intror Hi)))) as R2.
      destruct (index_axes env nsh nkey) as [[t h]|], (index_axes env' nsh nkey) as [[t' h']|]; try contradiction; [|exact Logic.I]. cbn. constructor; [|constructor]. exact R2.
    + destruct (W2 0 w0 eq_refl) as (c & dims' & -> & Nc & Ic & M). split; [split; [exact Nc|intros n Hn; destruct (name_indexed c dims' n (proj1 Nc) Hn) as (d & Hd); apply Ic in Hd; exact (Kn n d Hd)]|]. intros env. cbn [value_at]. destruct (valid_dec env sized) as [Ve|Ne].
      * specialize (M env Ve). eapply same_trans; [exact M|]. unfold run. destruct (index_arr env a dims) as [b|]; [|exact Logic.I].
        pose proof (get_one_meaning key b env) as G. destruct (get_one V key b env) as [y|]; exact G.
      * rewrite (outside sized c dims' env Ic Ne). destruct Ne as (n & d & L & Hd). apply Q in L. destruct L as [L|L].
        -- unfold index_arr. rewrite (index_axes_out env _ _ _ _ L Hd). exact Logic.I.
        -- destruct (index_arr env a dims) as [b|] eqn:Eb; [|exact Logic.I]. apply same_sym. eapply same_trans; [apply same_sym, get_one_meaning|]. rewrite (Go env b Eb). unfold index_arr.
           change (shape (reshape b nsh)) with nsh. rewrite (index_axes_out env _ _ _ _ L Hd). exact Logic.I.
Qed.
End Tidy.
End Ops.
