(** Proofs about the library's transformations of functions with named results. *)
From Coq Require Import List Bool Arith ZArith Lia.
From Verif Require Import ArrModel ArrSpec ArrProofs ArrNames ArrBind ArrUnbind NopModel NopSpec NopProofs FunModel FunSpec FunProofs FunLaws.
Import ListNotations.

Section Fun.
Variable V : Type.
Variable num : nat -> V.
Notation none := (fun _ : nat => @None (arr V)).
Notation bindt := (@bind_dims_torch V).

(** ** Shapes decide whether names can be taken off *)
Lemma getitem_shape (a b : arr V) key r : shape a = shape b -> getitem a key = Ok (TArr r) -> exists r', getitem b key = Ok (TArr r') /\ shape r = shape r'.
Proof.
  intros E H. unfold getitem in *. destruct key as [|k key]; [injection H as <-; exists b; auto|]. rewrite <- E. destruct (desugar (shape a) (k :: key)) as [[nsh nkey]| | | | |]; try discriminate H.
  destruct (existsb is_name (k :: key)).
  - destruct (forallb is_name (k :: key)); [destruct (add_names nsh nkey []); discriminate H|]. exfalso. unfold partial_eval in H. cbn [reshape shape] in H.
    destruct (add_names nsh nkey []) as [[|p m]| | | | |]; try discriminate H. match type of H with match ?x with _ => _ end = _ => destruct x as [[? ?]|]; discriminate H end.
  - unfold index_arr in *. cbn [reshape shape] in *. destruct (index_axes (fun _ => 0) nsh nkey) as [[s g]|]; [|discriminate H]. injection H as <-. eexists. split; reflexivity.
Qed.

Lemma bind_core_shape (a b : arr V) dims names r : shape a = shape b -> bind_core a dims names = Ok (TArr r) -> exists r', bind_core b dims names = Ok (TArr r') /\ shape r = shape r'.
Proof.
  intros E H. unfold bind_core in *. match goal with |- context [forallb ?f names] => destruct (forallb f names); [|discriminate H] end. unfold permute in *. rewrite <- E.
  match type of H with context [is_perm ?x ?y] => destruct (is_perm x y); [|discriminate H] end. eapply getitem_shape; [|exact H]. reflexivity.
Qed.

Lemma bind_shape (a b : arr V) dims names r : shape a = shape b -> bindt (TGet a dims) names = Ok (TArr r) -> exists r', bindt (TGet b dims) names = Ok (TArr r') /\ shape r = shape r'.
Proof.
  intros E H. unfold bind_dims_torch in *. destruct (negb (nodupb names)); [discriminate H|]. cbn [sizes1] in *. rewrite <- E. destruct (add_names (shape a) dims []) as [m| | | | |]; try discriminate H.
  match goal with |- context [if ?c then _ else _] => destruct c; [discriminate H|] end. eapply bind_core_shape; eassumption.
Qed.

Lemma same_of_slices names sz (a b : arr V) : NoDup names -> length names = length sz -> shape a = shape b -> prefixed V 0 sz a ->
  (forall env : nat -> nat, within sz (map env names) -> same_arr (slice_at V 0 (map env names) a) (slice_at V 0 (map env names) b)) -> same_arr a b.
Proof.
  intros N Ln E [_ (rest & P)] H. split; [exact E|]. intros idx W. cbn [skipn] in P. rewrite P in W. apply within_split in W. destruct W as [W1 W2].
  pose proof (within_length _ _ W1) as L1. set (env := assign (fun _ => 0) names (firstn (length sz) idx)).
  assert (Ee : map env names = firstn (length sz) idx) by (apply map_assign; [exact N|congruence]).
  specialize (H env). rewrite Ee in H. destruct (H W1) as [_ S]. specialize (S (skipn (length sz) idx)). cbn [slice_at shape at_ firstn skipn app] in S. rewrite <- L1 in S. cbn [Nat.add] in S. rewrite P, skipn_app, Nat.sub_diag, skipn_all in S. cbn [app skipn] in S.
  specialize (S W2). rewrite firstn_skipn in S. exact S.
Qed.

Lemma alike_sizes v w : evaluated v -> alike V v w -> evaluated w /\ sizes_val V w [] = sizes_val V v [].
Proof.
  destruct v as [a|a dims| | |], w as [b|b dims'| | |]; cbn [alike evaluated]; try contradiction; intros _ H; (split; [exact Logic.I|]); cbn [sizes_val]; [reflexivity|].
  destruct H as [<- E]. rewrite E. reflexivity.
Qed.

Lemma deindex_ext v w m a : alike V v w -> regular V v -> regular V w -> stripped V bindt v m a ->
  exists b, stripped V bindt w m b /\ shape a = shape b /\ ((forall env, same (leaf_at V env v) (leaf_at V env w)) -> same_arr a b).
Proof.
  intros A Rv Rw [Em D]. destruct (deindex_law V bindt (torch_binds V) v m a Rv Em D) as (Ev & N & P & L). destruct (alike_sizes v w Ev A) as [Ew Es].
  assert (B : exists b, deindex V bindt w m = Ok b /\ shape a = shape b).
  { unfold deindex in *. destruct v as [c|c dims| | |], w as [c'|c' dims'| | |]; cbn [alike] in A; try contradiction; cbn [to_tval sizes_val] in *.
    - injection Em as <-. cbn [map] in *. destruct (torch_binds V) as [B1 _]. rewrite B1 in D |- *. cbn [length firstn map] in *. injection D as <-. exists c'. split; [reflexivity|exact A].
    - destruct A as [<- Ec]. destruct (bindt (TGet c dims) (map fst m)) as [[b|b ds|]| | | | |] eqn:Eb; try discriminate D. destruct (bind_shape c c' dims _ b Ec Eb) as (b' & Eb' & Esh). rewrite Eb', <- Esh.
      destruct (eq_list (firstn (length m) (shape b)) (map snd m)); [|discriminate D]. injection D as <-. exists b'. split; [reflexivity|exact Esh]. }
  destruct B as (b & Db & Esh). exists b. split; [split; [rewrite Es; exact Em|exact Db]|]. split; [exact Esh|]. intros Sm.
  destruct (deindex_law V bindt (torch_binds V) w m b Rw ltac:(rewrite Es; exact Em) Db) as (_ & _ & _ & L').
  apply (same_of_slices (map fst m) (map snd m)); [exact N|rewrite !map_length; reflexivity|exact Esh|exact P|]. intros env W.
  assert (Ve : valid env m).
  { intros n d Hl. apply lookup_some_In in Hl. clear -W Hl. induction m as [|[x e] m IH]; [destruct Hl|]. cbn [map fst snd] in W. inversion W; subst. destruct Hl as [Hl|Hl]; [injection Hl as -> ->; assumption|auto]. }
  pose proof (proj1 (L env) Ve) as S1. pose proof (proj1 (L' env) Ve) as S2.
  assert (S : same (Some (slice_at V 0 (map env (map fst m)) a)) (Some (slice_at V 0 (map env (map fst m)) b))); [|exact S].
  eapply same_trans; [apply same_sym; exact S1|]. eapply same_trans; [apply Sm|exact S2].
Qed.

Lemma strip_ext vs ws ms outs : Forall2 (alike V) vs ws -> Forall (regular V) vs -> Forall (regular V) ws -> strip V bindt vs ms outs ->
  exists outs', strip V bindt ws ms outs' /\ Forall2 same_shape outs outs' /\
    (Forall2 (fun v w => forall env, same (leaf_at V env v) (leaf_at V env w)) vs ws -> Forall2 same_arr outs outs').
Proof.
  intros A R1 R2 S. revert ws A R1 R2. induction S as [|v m a vs ms outs Hv S IH]; intros ws A R1 R2; inversion A as [|? w ? ws' A1 A2]; subst.
  - exists []. split; [constructor|]. split; [constructor|]. intros _. constructor.
  - apply Forall_cons_iff in R1, R2. destruct R1 as [R1 R1'], R2 as [R2 R2']. destruct (deindex_ext v w m a A1 R1 R2 Hv) as (b & Hb & Eb & Sb). destruct (IH ws' A2 R1' R2') as (outs' & S' & E' & Sm').
    exists (b :: outs'). split; [constructor; assumption|]. split; [constructor; assumption|]. intros F. inversion F; subst. constructor; auto.
Qed.

Lemma arrays_strip func args outs : arrays_of V bindt func args = Some outs <-> exists ret ms, func args = Ok ret /\ strip V bindt (leaves ret) ms outs.
Proof.
  unfold arrays_of. split.
  - intros H. destruct (deindexed V bindt func args None) as [r ix] eqn:E. cbn [fst] in H. destruct r as [t| | | | |]; try discriminate H. injection H as <-. apply deindexed_spec in E. destruct E as (ret & ms & E & _ & S & _). eauto.
  - intros (ret & ms & E & S). rewrite (deindexed_conv V bindt func args ret ms outs None E S). reflexivity.
Qed.

Lemma alike_sym v w : alike V v w -> alike V w v.
Proof. destruct v, w; cbn [alike]; try tauto; [congruence|]. intros [-> ->]. auto. Qed.

Lemma Forall2_flip {A B} (R : A -> B -> Prop) l r : Forall2 R l r -> Forall2 (fun b a => R a b) r l.
Proof. induction 1; constructor; assumption. Qed.
Lemma Forall2_weaken {A B} (R S : A -> B -> Prop) l r : (forall a b, R a b -> S a b) -> Forall2 R l r -> Forall2 S l r.
Proof. intros H. induction 1; constructor; auto. Qed.
Lemma same_shapes (xs ys : list (arr V)) : Forall2 same_arr xs ys -> Forall2 same_shape xs ys.
Proof. apply Forall2_weaken. intros a b [E _]. exact E. Qed.
Lemma same_shape_sym (xs ys : list (arr V)) : Forall2 same_shape xs ys -> Forall2 same_shape ys xs.
Proof. intros H. apply Forall2_flip in H. revert H. apply Forall2_weaken. unfold same_shape. congruence. Qed.
Lemma same_shape_trans (xs ys zs : list (arr V)) : Forall2 same_shape xs ys -> Forall2 same_shape ys zs -> Forall2 same_shape xs zs.
Proof. intros H. revert zs. induction H; intros zs Hz; inversion Hz; subst; constructor; unfold same_shape in *; [congruence|auto]. Qed.
Lemma same_shape_refl (xs : list (arr V)) : Forall2 same_shape xs xs.
Proof. induction xs; constructor; [reflexivity|assumption]. Qed.
Lemma same_arr_refl (xs : list (arr V)) : Forall2 same_arr xs xs.
Proof. induction xs; constructor; [split; reflexivity|assumption]. Qed.

(** What strips, for arguments of the same shapes *)
Lemma strip_like func xs ys ret ms outs : traceable V func -> Forall2 same_shape xs ys -> func xs = Ok ret -> strip V bindt (leaves ret) ms outs ->
  exists ret' outs', func ys = Ok ret' /\ is_node ret' = is_node ret /\ strip V bindt (leaves ret') ms outs' /\ Forall2 same_shape outs outs' /\ (Forall2 same_arr xs ys -> Forall2 same_arr outs outs').
Proof.
  intros (T1 & T2 & T3) S E H. specialize (T1 xs ys S). rewrite E in T1. destruct (func ys) as [ret'| | | | |] eqn:E'; try contradiction. destruct T1 as [Tn T1].
  destruct (strip_ext _ _ ms outs T1 (T3 _ _ E) (T3 _ _ E') H) as (outs' & S' & Es & Sm). exists ret', outs'. split; [reflexivity|]. split; [symmetry; exact Tn|]. split; [exact S'|]. split; [exact Es|].
  intros Sa. apply Sm. specialize (T2 xs ys Sa). rewrite E, E' in T2. exact T2.
Qed.

Lemma arrays_respect (R : arr V -> arr V -> Prop) func xs ys : traceable V func -> (R = same_shape \/ R = same_arr) -> Forall2 R xs ys -> related R (arrays_of V bindt func xs) (arrays_of V bindt func ys).
Proof.
  intros T HR H. assert (Sh : Forall2 same_shape xs ys) by (destruct HR as [->| ->]; [exact H|apply same_shapes; exact H]).
  destruct (arrays_of V bindt func xs) as [us|] eqn:Ex.
  - apply arrays_strip in Ex. destruct Ex as (ret & ms & E & S). destruct (strip_like func xs ys ret ms us T Sh E S) as (ret' & us' & E' & _ & S' & Es & Sa).
    assert (Ey : arrays_of V bindt func ys = Some us') by (apply arrays_strip; exists ret', ms; auto). rewrite Ey. cbn [related]. destruct HR as [->| ->]; auto.
  - destruct (arrays_of V bindt func ys) as [us|] eqn:Ey; [|exact Logic.I]. exfalso.
    apply arrays_strip in Ey. destruct Ey as (ret & ms & E & S). destruct (strip_like func ys xs ret ms us T (same_shape_sym _ _ Sh) E S) as (ret' & us' & E' & _ & S' & _).
    assert (Ex' : arrays_of V bindt func xs = Some us') by (apply arrays_strip; exists ret', ms; auto). congruence.
Qed.

(** ** Operations on evaluated arguments, all results *)
Lemma leaves_single env args : Forall evaluated args -> leaves_at V env args = traverse (fun v => single V num v env) args.
Proof. intros E. apply traverse_ext. intros v Hv. rewrite Forall_forall in E. specialize (E v Hv). destruct v; try contradiction; reflexivity. Qed.

Lemma traverse_some {A B} (f : A -> option B) l r : traverse f l = Some r <-> Forall2 (fun x y => f x = Some y) l r.
Proof.
  revert r. induction l as [|x l IH]; intros r; cbn [traverse].
  - split; [intros H; injection H as <-; constructor|]. intros H. inversion H. reflexivity.
  - split.
    + intros H. destruct (f x) as [y|] eqn:E; [|discriminate H]. destruct (traverse f l) as [ys|]; [|discriminate H]. injection H as <-. constructor; [exact E|]. apply IH. reflexivity.
    + intros H. inversion H as [|? y ? ys E F]; subst. rewrite E. apply IH in F. rewrite F. reflexivity.
Qed.

Lemma traverse_each {A B C} (R : B -> C -> Prop) (f : A -> option B) l r : length l = length r ->
  (forall i x c, nth_error l i = Some x -> nth_error r i = Some c -> exists b, f x = Some b /\ R b c) -> exists bs, traverse f l = Some bs /\ Forall2 R bs r.
Proof.
  revert r. induction l as [|x l IH]; intros [|c r] L H; try discriminate L; [exists []; split; [reflexivity|constructor]|].
  destruct (H 0 x c eq_refl eq_refl) as (b & Eb & Hb). destruct (IH r ltac:(cbn in L; lia)) as (bs & Ebs & Hbs); [intros i; exact (H (S i))|]. exists (b :: bs). cbn [traverse]. rewrite Eb, Ebs. split; [reflexivity|constructor; assumption].
Qed.

Lemma run_law L args outs : (forall ps qs, Forall2 same_arr ps qs -> related same_arr (L ps) (L qs)) -> (forall ps qs, Forall2 same_shape ps qs -> related same_shape (L ps) (L qs)) ->
  Forall evaluated args -> Forall (regular V) args -> run_op V num (fun _ => L) 0 args = Ok (Some outs) ->
  Forall (fun v => evaluated v /\ regular V v /\ named V v) outs /\
  forall env xs, leaves_at V env args = Some xs ->
    (exists ys, leaves_at V env outs = Some ys /\ related same_arr (Some ys) (L xs)) /\
    exists l, traverse (fun v => single V num v (fun _ => 0)) args = Some l /\ Forall2 same_shape l xs.
Proof.
  intros La Ls Ev Rg H. unfold run_op in H. destruct (sizes_all V args []) as [sized| | | | |] eqn:S; try discriminate H. cbn [bindr] in H.
  match type of H with context [if ?c then _ else _] => destruct c eqn:Ec end.
  - apply andb_true_iff in Ec. destruct Ec as [Hne _]. assert (Ne : sized <> []) by (intros ->; discriminate Hne). clear Hne.
    assert (Td : Forall (tidy V none) args).
    { rewrite Forall_forall in *. intros v Hv. apply regular_tidy; auto. }
    assert (Sim : forallb (simple V) args = true) by (apply forallb_forall; intros v Hv; rewrite Forall_forall in Ev; specialize (Ev v Hv); destruct v; try contradiction; reflexivity).
    pose proof (sizes_all_spec V args [] Sim) as SS. rewrite S in SS. destruct SS as [SS N]. specialize (N (NoDup_nil _)).
    assert (SS' : forall n d, lookup sized n = Some d <-> exists v, In v args /\ has_dim v n d) by (intros n d; rewrite SS; split; [intros [X|X]; [discriminate X|exact X]|auto]).
    pose proof (partial_op_law V num (fun _ => L) none (conj (fun _ => La) (fun _ => Ls)) sized 0 args outs Td S H) as P.
    split.
    + apply Forall_forall. intros v Hv. apply In_nth_error in Hv. destruct Hv as [i Hi]. destruct (P i v Hi) as (a & dims & -> & Tv & I & _). split; [exact Logic.I|]. split; [apply regular_neat; exact (proj1 Tv)|].
      destruct sized as [|[n d] sized']; [congruence|]. exists n, d. apply I, SS'. cbn [lookup]. rewrite Nat.eqb_refl. reflexivity.
    + intros env xs Hx. assert (Ve : valid env sized).
      { intros n d Hl. apply SS' in Hl. destruct Hl as (v & Hv & Hd). destruct (Nat.lt_ge_cases (env n) d) as [X|X]; [exact X|exfalso].
        assert (Z : leaf_at V env v = None) by (destruct v; try contradiction; cbn [leaf_at has_dim] in *; unfold index_arr; rewrite (index_axes_out env _ _ _ _ Hd X); reflexivity).
        unfold leaves_at in Hx. rewrite (traverse_none _ _ _ Hv Z) in Hx. discriminate Hx. }
      assert (Eg : forallb (eager V sized) args = true) by (apply forallb_forall; intros v Hv; rewrite Forall_forall in Ev; specialize (Ev v Hv); destruct v; try contradiction; reflexivity).
      assert (Uni : forall e e', valid e sized -> valid e' sized -> match traverse (fun v => single V num v e) args, traverse (fun v => single V num v e') args with Some ps, Some qs => Forall2 same_shape ps qs | None, None => True | _, _ => False end).
      { intros e e' V1 V2. apply (single_valid_shape V num none sized); auto. intros n d X. apply SS'. exact X. }
      assert (V0 : valid (fun _ => 0) sized) by (intros n d Hl; specialize (Ve n d Hl); lia).
      rewrite (leaves_single env args Ev) in Hx. split.
      * unfold partial_op in H. rewrite Eg in H. destruct (vmapped V sized (fun env => match traverse (fun v => single V num v env) args with Some l => L l | None => None end)) as [vs| | | | |] eqn:Vm; try discriminate H. cbn [bindr] in H. injection H as ->.
        destruct (vmapped_ok V sized _ outs N Vm) as [Len _].
        { intros e e' A. rewrite (single_ext V num none sized args e e'); auto. intros n d X. apply SS'. exact X. }
        { intros e e' V1 V2. specialize (Uni e e' V1 V2). destruct (traverse (fun v => single V num v e) args), (traverse (fun v => single V num v e') args); try contradiction; [apply Ls; exact Uni|exact Logic.I]. }
        destruct (Len env Ve) as (os & Eo & Lo). rewrite Hx in Eo. rewrite Eo. unfold leaves_at.
        destruct (traverse_each same_arr (leaf_at V env) outs os) as (ys & Ey & Fy); [symmetry; exact Lo| |exists ys; auto].
        intros i v o Hi Ho. destruct (P i v Hi) as (a & dims & -> & _ & _ & M). specialize (M env). rewrite (values_single V num (fun _ => L) none env sized args Eg ltac:(reflexivity)), Hx in M. cbn [call] in M. rewrite Eo in M. cbn [result] in M. rewrite Ho in M.
        cbn [leaf_at]. destruct (index_arr env a dims) as [b|]; [|contradiction]. exists b. auto.
      * specialize (Uni (fun _ => 0) env V0 Ve). rewrite Hx in Uni. destruct (traverse (fun v => single V num v (fun _ => 0)) args) as [l|]; [|contradiction]. exists l. auto.
  - destruct (traverse (plain_array V) args) as [l|] eqn:Pl; [|discriminate H]. destruct (L l) as [os|] eqn:El; [|discriminate H]. injection H as <-. split.
    + apply Forall_forall. intros v Hv. apply in_map_iff in Hv. destruct Hv as (a & <- & _). split; [exact Logic.I|split; exact Logic.I].
    + assert (At : forall env, traverse (fun v => single V num v env) args = Some l).
      { intros env. rewrite <- Pl. apply traverse_ext. intros v Hv. apply traverse_some in Pl. clear -Pl Hv. induction Pl as [|x y args l E Pl IH]; [destruct Hv|]. destruct Hv as [->|Hv]; [destruct v; try discriminate E; reflexivity|auto]. }
      intros env xs Hx. rewrite (leaves_single env args Ev), At in Hx. injection Hx as <-. split.
      * exists os. split; [apply traverse_some; clear; induction os; constructor; auto|]. rewrite El. apply same_arr_refl.
      * exists l. split; [apply At|apply same_shape_refl].
Qed.

Lemma run_concrete L args : Forall (concrete V) args -> Forall (regular V) args -> run_op V num (fun _ => L) 0 args <> Ok None.
Proof.
  intros C R. rewrite Forall_forall in C, R.
  assert (Ev : Forall evaluated args) by (apply Forall_forall; intros v Hv; specialize (C v Hv); destruct v; try contradiction; exact Logic.I).
  assert (Sim : forallb (simple V) args = true) by (apply forallb_forall; intros v Hv; rewrite Forall_forall in Ev; specialize (Ev v Hv); destruct v; try contradiction; reflexivity).
  unfold run_op. pose proof (sizes_all_spec V args [] Sim) as SS. destruct (sizes_all V args []) as [sized| | | | |]; try discriminate. cbn [bindr]. destruct SS as [SS _].
  assert (SS' : forall n d, lookup sized n = Some d <-> exists v, In v args /\ has_dim v n d) by (intros n d; rewrite SS; split; [intros [X|X]; [discriminate X|exact X]|auto]).
  assert (Nm : forall v n, In v args -> In (Dim n) (fvs V v) -> exists d, lookup sized n = Some d).
  { intros v n Hv Hn. specialize (C v Hv). specialize (R v Hv). destruct v as [a|a dims| | |]; try contradiction. cbn [fvs] in Hn. apply in_map_iff in Hn. destruct Hn as (n' & E & Hn). injection E as ->.
    unfold key_names in Hn. apply in_flat_map in Hn. destruct Hn as (k & Hk & Hn). destruct k; try contradiction. destruct Hn as [<-|[]].
    apply regular_neat in R. destruct (name_indexed V a dims _ (proj1 R) Hk) as (d & Hd). exists d. apply SS'. exists (VGet V a dims). auto. }
  assert (Fv : forall x, In x (flat_map (fvs V) args) -> exists n d, x = Dim n /\ lookup sized n = Some d).
  { intros x Hx. apply in_flat_map in Hx. destruct Hx as (v & Hv & Hx). assert (Q : exists n, x = Dim n).
    { specialize (C v Hv). destruct v as [a|a dims| | |]; try contradiction. cbn [fvs] in Hx. apply in_map_iff in Hx. destruct Hx as (n & <- & _). eauto. }
    destruct Q as [n ->]. destruct (Nm v n Hv Hx) as [d Hd]. eauto. }
  destruct sized as [|p sized'] eqn:Esz.
  - cbn [negb andb]. assert (P : exists l, traverse (plain_array V) args = Some l).
    { assert (G : forall v, In v args -> exists a, v = VArr V a).
      { intros v Hv. pose proof (C v Hv) as Cv. pose proof (R v Hv) as Rv. destruct v as [a|a dims| | |]; try contradiction; [eauto|]. exfalso. destruct Cv as [n Hn]. apply regular_neat in Rv. destruct (name_indexed V a dims n (proj1 Rv) Hn) as (d & Hd).
        assert (X : lookup [] n = Some d) by (apply SS'; exists (VGet V a dims); auto). discriminate X. }
      clear -G. induction args as [|v args IH]; [exists []; reflexivity|]. destruct (G v (or_introl eq_refl)) as [a ->]. destruct IH as [l El]; [intros w Hw; apply G; right; exact Hw|]. exists (a :: l). cbn [traverse plain_array]. rewrite El. reflexivity. }
    destruct P as [l ->]. destruct (L l); discriminate.
  - cbn [negb andb]. rewrite <- Esz in *.
    match goal with |- context [subset ?x ?y && subset ?y ?x] => assert (S1 : subset x y = true); [|assert (S2 : subset y x = true)] end.
    + apply forallb_forall. intros x Hx. apply in_map_iff in Hx. destruct Hx as ((n & e) & <- & Hn). cbn [fst]. apply existsb_exists. exists (Dim n). split; [|cbn; apply Nat.eqb_refl]. apply filter_In. split; [|reflexivity].
      assert (Q : exists d, lookup sized n = Some d) by (clear -Hn; induction sized as [|[x y] sized IH]; [destruct Hn|]; cbn [lookup]; destruct (Nat.eqb x n) eqn:E; [eauto|]; destruct Hn as [Hn|Hn]; [injection Hn as -> ->; rewrite Nat.eqb_refl in E; discriminate E|auto]).
      destruct Q as [d Hd]. apply SS' in Hd. destruct Hd as (v & Hv & Hd). apply in_flat_map. exists v. split; [exact Hv|]. destruct v as [|a dims| | |]; try contradiction. cbn [has_dim fvs] in *. apply in_map. unfold key_names. apply in_flat_map.
      destruct Hd as (i & Hi & _). exists (KName n). split; [eapply nth_error_In; exact Hi|left; reflexivity].
    + apply forallb_forall. intros x Hx. apply filter_In in Hx. destruct Hx as [Hx _]. destruct (Fv x Hx) as (n & d & -> & Hl). apply existsb_exists. exists (Dim n). split; [|cbn; apply Nat.eqb_refl].
      apply lookup_some_In in Hl. apply in_map_iff. exists (n, d). auto.
    + rewrite S1, S2. cbn [andb]. unfold partial_op. match goal with |- context [forallb ?g args] => assert (Eg : forallb g args = true) by (apply forallb_forall; intros v Hv; rewrite Forall_forall in Ev; specialize (Ev v Hv); destruct v; try contradiction; reflexivity) end.
      rewrite Eg. match goal with |- bindr ?x _ <> _ => destruct x; discriminate end.
Qed.

(** ** Names put back on the transformed results *)
Lemma strip_prefixed func us ret ms os : traceable V func -> func us = Ok ret -> strip V bindt (leaves ret) ms os -> Forall2 (prefixed V 0) (map (map snd) ms) os.
Proof.
  intros (_ & _ & T3) E S. specialize (T3 _ _ E). revert T3. generalize S. generalize (leaves ret). clear. intros vs S R. induction S as [|v m a vs ms outs [Em D] S IH]; cbn [map]; constructor.
  - apply Forall_cons_iff in R. apply (deindex_law V bindt (torch_binds V) v m a (proj1 R) Em D).
  - apply IH. apply Forall_cons_iff in R. exact (proj2 R).
Qed.

Lemma strip_slices env vs ms os : Forall (regular V) vs -> strip V bindt vs ms os -> Forall (valid env) ms ->
  exists ls, leaves_at V env vs = Some ls /\ Forall2 same_arr ls (parts V 0 (map (fun m => map env (map fst m)) ms) os).
Proof.
  intros R S. revert R. induction S as [|v m a vs ms outs [Em D] S IH]; intros R Ve.
  - exists []. split; [reflexivity|constructor].
  - apply Forall_cons_iff in R, Ve. destruct R as [R R'], Ve as [Ve Ve']. destruct (deindex_law V bindt (torch_binds V) v m a R Em D) as (_ & _ & _ & L). pose proof (proj1 (L env) Ve) as M.
    destruct (IH R' Ve') as (ls & El & Fl). destruct (leaf_at V env v) as [b|] eqn:Eb; [|contradiction]. exists (b :: ls). unfold leaves_at in *. cbn [traverse]. rewrite Eb, El. split; [reflexivity|]. constructor; assumption.
Qed.

Lemma strip_outside env vs ms os : Forall (regular V) vs -> strip V bindt vs ms os -> ~ Forall (valid env) ms -> leaves_at V env vs = None.
Proof.
  intros R S. revert R. induction S as [|v m a vs ms outs [Em D] S IH]; intros R Ne; [destruct (Ne (Forall_nil _))|].
  apply Forall_cons_iff in R. destruct R as [R R']. unfold leaves_at in *. cbn [traverse]. destruct (valid_dec env m) as [Ve|Nv].
  - rewrite (IH R'); [destruct (leaf_at V env v); reflexivity|]. intros F. apply Ne. constructor; assumption.
  - destruct (deindex_law V bindt (torch_binds V) v m a R Em D) as (_ & _ & _ & L). rewrite (proj2 (L env) Nv). reflexivity.
Qed.

Lemma skip_skip {A} m n (l : list A) : skipn (m + n) l = skipn n (skipn m l).
Proof. revert l. induction m as [|m IH]; intros [|x l]; cbn [Nat.add skipn]; [reflexivity|reflexivity|destruct n; reflexivity|apply IH]. Qed.

Lemma slice_same start is (a b : arr V) sz : within sz is -> prefixed V start sz a -> same_arr a b -> same_arr (slice_at V start is a) (slice_at V start is b).
Proof.
  intros W [L (rest & E)] [S1 S2]. pose proof (within_length _ _ W) as Lw. split; cbn [slice_at shape at_]; [rewrite S1; reflexivity|].
  intros idx Wi. apply S2. rewrite <- (firstn_skipn start (shape a)). apply within_split in Wi. rewrite (firstn_length_le (shape a)) in Wi by exact L. destruct Wi as [W1 W2]. apply within_app; [exact W1|]. rewrite E.
  apply within_app; [exact W|]. rewrite skip_skip, E, <- Lw, skipn_app, skipn_all, Nat.sub_diag in W2. exact W2.
Qed.

Lemma prefixed_same start sz (a b : arr V) : same_arr a b -> prefixed V start sz a -> prefixed V start sz b.
Proof. intros [E _] H. unfold prefixed in *. rewrite <- E. exact H. Qed.

Lemma valid_within env m : NoDup (map fst m) -> valid env m -> within (map snd m) (map env (map fst m)).
Proof. apply sized_within. Qed.

Lemma reindex_in env start outs ms ws ys : Forall (fun v => evaluated v /\ regular V v /\ named V v) outs -> leaves_at V env outs = Some ys ->
  Forall2 (prefixed V start) (map (map snd) ms) ys -> Forall (fun m => NoDup (map fst m)) ms -> Forall (valid env) ms ->
  Forall2 (fun p w => index_val V (fst p) (index_expr start (snd p)) = Ok w) (combine outs (map (map fst) ms)) ws ->
  exists ls, leaves_at V env ws = Some ls /\ Forall2 same_arr ls (parts V start (map (fun m => map env (map fst m)) ms) ys).
Proof.
  intros Ho Ly. apply traverse_some in Ly. revert ms ws Ho. induction Ly as [|v y outs ys Ey Ly IH]; intros [|m ms] ws Ho P N Ve F; cbn [map] in P; inversion P as [|? ? ? ? P1 P2]; subst; cbn [map combine] in F; inversion F as [|? w ? ws' F1 F2]; subst.
  - exists []. split; [reflexivity|constructor].
  - apply Forall_cons_iff in Ho, N, Ve. destruct Ho as [(E1 & E2 & E3) Ho], N as [N1 N], Ve as [Ve1 Ve]. destruct (IH ms ws' Ho P2 N Ve F2) as (ls & El & Fl).
    cbn [fst snd] in F1. destruct (index_leaf V num v _ w E1 E2 E3 F1) as (_ & _ & M). specialize (M env). rewrite Ey in M.
    assert (M' : same (leaf_at V env w) (Some (slice_at V start (map env (map fst m)) y))).
    { eapply same_trans; [exact M|]. apply names_after with (sz := map snd m); [exact P1|rewrite !map_length; reflexivity|apply valid_within; assumption]. }
    destruct (leaf_at V env w) as [b|] eqn:Eb; [|contradiction]. exists (b :: ls). unfold leaves_at in *. cbn [traverse]. rewrite Eb, El. split; [reflexivity|constructor; assumption].
Qed.

Lemma reindex_out env start outs ms ws ys : Forall (fun v => evaluated v /\ regular V v /\ named V v) outs -> leaves_at V env outs = Some ys ->
  Forall2 (prefixed V start) (map (map snd) ms) ys -> ~ Forall (valid env) ms ->
  Forall2 (fun p w => index_val V (fst p) (index_expr start (snd p)) = Ok w) (combine outs (map (map fst) ms)) ws -> leaves_at V env ws = None.
Proof.
  intros Ho Ly. apply traverse_some in Ly. revert ms ws Ho. induction Ly as [|v y outs ys Ey Ly IH]; intros [|m ms] ws Ho P Ne F; cbn [map] in P; inversion P as [|? ? ? ? P1 P2]; subst; cbn [map combine] in F; inversion F as [|? w ? ws' F1 F2]; subst.
  - destruct (Ne (Forall_nil _)).
  - apply Forall_cons_iff in Ho. destruct Ho as [(E1 & E2 & E3) Ho]. cbn [fst snd] in F1. unfold leaves_at in *. cbn [traverse]. destruct (valid_dec env m) as [Ve|(n & d & Hn & Hd)].
    + rewrite (IH ms ws' Ho P2); [destruct (leaf_at V env w); reflexivity| |exact F2]. intros X. apply Ne. constructor; assumption.
    + destruct (index_leaf V num v _ w E1 E2 E3 F1) as (_ & _ & M). specialize (M env). rewrite Ey in M.
      rewrite (names_outside V env start (map fst m) y (map snd m) n d) in M; [|exact P1|rewrite !map_length; reflexivity|rewrite lookup_combine; exact Hn|exact Hd].
      destruct (leaf_at V env w); [contradiction|reflexivity].
Qed.

Lemma strip_nodup vs ms os : Forall (regular V) vs -> strip V bindt vs ms os -> Forall (fun m => NoDup (map fst m)) ms.
Proof.
  intros R S. revert R. induction S as [|v m a vs ms outs [Em D] S IH]; intros R; constructor.
  - apply Forall_cons_iff in R. apply (deindex_law V bindt (torch_binds V) v m a (proj1 R) Em D).
  - apply IH. apply Forall_cons_iff in R. exact (proj2 R).
Qed.

Lemma strip_det vs ms os ms' os' : strip V bindt vs ms os -> strip V bindt vs ms' os' -> ms = ms' /\ os = os'.
Proof.
  intros S. revert ms' os'. induction S as [|v m a vs ms os [H1 H2] S IH]; intros ms' os' S'; inversion S' as [|? ? ? ? ? ? [H1' H2'] S'']; subst; [auto|].
  destruct (IH _ _ S'') as [-> ->]. rewrite H1' in H1. injection H1 as ->. rewrite H2' in H2. injection H2 as ->. auto.
Qed.

Lemma parts_same start szs poss us vs : Forall2 within szs poss -> Forall2 (prefixed V start) szs us -> Forall2 same_arr us vs -> Forall2 same_arr (parts V start poss us) (parts V start poss vs).
Proof.
  intros W. revert us vs. induction W as [|sz is szs poss W1 W IH]; intros us vs P S; inversion P as [|? u ? us' P1 P2]; subst; inversion S as [|? v ? vs' S1 S2]; subst; [constructor|].
  unfold parts. cbn [combine map fst snd]. constructor; [eapply slice_same; eassumption|]. apply IH; assumption.
Qed.

Lemma related_same_trans (x y z : option (list (arr V))) : related same_arr x y -> related same_arr y z -> related same_arr x z.
Proof.
  destruct x as [us|], y as [vs|], z as [ws|]; cbn [related]; try contradiction; auto. intros H. revert ws. induction H as [|u v us vs H1 H IH]; intros ws H'; inversion H' as [|? w ? ws' H2 H3]; subst; constructor; [|auto].
  exact (same_trans (Some u) (Some v) (Some w) H1 H2).
Qed.
Lemma related_same_sym (x y : option (list (arr V))) : related same_arr x y -> related same_arr y x.
Proof. apply related_sym. intros a b H. exact (same_sym (Some a) (Some b) H). Qed.

Lemma parts_shapes poss us vs : Forall2 same_shape us vs -> forall start, Forall2 same_shape (parts V start poss us) (parts V start poss vs).
Proof.
  intros H start. revert poss. induction H as [|u v us vs E H IH]; intros [|is poss]; try constructor.
  - unfold same_shape in *. cbn [fst snd slice_at shape]. rewrite E. reflexivity.
  - apply IH.
Qed.
Lemma parts_shapely F poss : shapely V F -> shapely V (fun us => option_map (parts V 0 poss) (F us)).
Proof. intros H us vs Hu. specialize (H us vs Hu). cbv beta. destruct (F us), (F vs); try contradiction; [|exact Logic.I]. cbn [option_map related] in *. apply parts_shapes. exact H. Qed.

Theorem transformed_sound T start func ix args t : lawful_transform V T start -> traceable V func -> Forall (concrete V) args -> Forall (regular V) args ->
  fst (transformed V num bindt T start func ix args) = Ok t ->
  forall env xs, leaves_at V env args = Some xs -> related same_arr (leaves_at V env (leaves t)) (trans V T (func_at V env func) xs).
Proof.
  intros LT Tr Cc Rg H env xs Hx. assert (Ev : Forall evaluated args) by (eapply Forall_impl; [|exact Cc]; intros v Hv; destruct v; try contradiction; exact Logic.I). set (L := trans V T (arrays_of V bindt func)) in *.
  assert (Sh : shapely V (arrays_of V bindt func)) by (intros us vs Hu; apply arrays_respect; auto).
  assert (Re : respectful V (arrays_of V bindt func)) by (intros us vs Hu; apply arrays_respect; auto).
  assert (La : forall ps qs, Forall2 same_arr ps qs -> related same_arr (L ps) (L qs)).
  { intros ps qs Hp. apply (law_ext _ _ _ LT); [exact Hp|exact Sh|]. intros us vs _ Hu. apply arrays_respect; auto. }
  pose proof (law_shape _ _ _ LT _ Sh : forall ps qs, Forall2 same_shape ps qs -> related same_shape (L ps) (L qs)) as Ls.
  unfold transformed in H. fold L in H. destruct (run_op V num (fun _ => L) 0 args) as [[outs|]| | | | |] eqn:Er; try discriminate H.
  2:{ destruct (run_concrete L args Cc Rg Er). }
  destruct (run_law L args outs La Ls Ev Rg Er) as [Ho RL]. destruct (RL env xs Hx) as [(ys & Ey & Ry) (l & El & Sl)]. rewrite El in H. cbn [fst] in H.
  destruct (L xs) as [zs|] eqn:Ez; [|contradiction]. cbn [related] in Ry.
  pose proof (law_probe _ _ _ LT _ _ Sl) as Sp.
  assert (Cl : forall us, called V T xs us -> Forall2 same_shape (probe V T l) us) by (intros us Hu; apply same_shape_sym in Hu; eapply same_shape_trans; [exact Sp|exact Hu]).
  destruct (arrays_of V bindt func (probe V T l)) as [os0|] eqn:E0.
  2:{ exfalso. unfold L in Ez. rewrite (law_fails _ _ _ LT) in Ez; [discriminate Ez|]. intros us Hu. pose proof (arrays_respect same_shape func _ _ Tr (or_introl eq_refl) (Cl us Hu)) as R. rewrite E0 in R.
      destruct (arrays_of V bindt func us); [contradiction|reflexivity]. }
  apply arrays_strip in E0. destruct E0 as (ret0 & ms & Ef0 & S0). rewrite (deindexed_conv V bindt func _ ret0 ms os0 ix Ef0 S0) in H. cbn [snd reindex_tree] in H.
  apply tmap2_spec in H. cbn [is_node leaves] in H. destruct H as (_ & _ & _ & F).
  assert (Us : forall us, called V T xs us -> exists ret os, func us = Ok ret /\ strip V bindt (leaves ret) ms os).
  { intros us Hu. destruct (strip_like func _ us ret0 ms os0 Tr (Cl us Hu) Ef0 S0) as (ret & os & E & _ & S & _). eauto. }
  assert (Uo : forall us os, called V T xs us -> arrays_of V bindt func us = Some os -> Forall2 (prefixed V 0) (map (map snd) ms) os).
  { intros us os Hu E. destruct (Us us Hu) as (ret & os' & E' & S'). assert (Eo : arrays_of V bindt func us = Some os') by (apply arrays_strip; exists ret, ms; auto). rewrite E in Eo. injection Eo as ->.
    eapply strip_prefixed; eassumption. }
  pose proof (law_prefix _ _ _ LT _ _ _ _ Uo Ez) as Pz.
  assert (Py : Forall2 (prefixed V start) (map (map snd) ms) ys).
  { clear -Pz Ry. revert ys Ry. induction Pz as [|sz z szs zs P Pz IH]; intros ys Ry; inversion Ry as [|y ? ys' ? R1 R2]; subst; constructor; [|auto]. eapply prefixed_same; [|exact P]. exact (same_sym (Some y) (Some z) R1). }
  assert (R0 : Forall (regular V) (leaves ret0)) by (destruct Tr as (_ & _ & T3); exact (T3 _ _ Ef0)).
  pose proof (strip_nodup _ _ _ R0 S0) as Nd.
  assert (Dec : Forall (valid env) ms \/ ~ Forall (valid env) ms).
  { clear. induction ms as [|m ms IH]; [left; constructor|]. destruct (valid_dec env m) as [Ve|(n & d & Hn & Hd)].
    - destruct IH as [IH|IH]; [left; constructor; assumption|]. right. intros F. apply IH. apply Forall_cons_iff in F. exact (proj2 F).
    - right. intros F. apply Forall_cons_iff in F. specialize (proj1 F n d Hn). lia. }
  destruct Dec as [Ve|Ne].
  - destruct (reindex_in env start outs ms (leaves t) ys Ho Ey Py Nd Ve F) as (ls & El' & Fl). rewrite El'. set (poss := map (fun m => map env (map fst m)) ms) in *.
    assert (W : Forall2 within (map (map snd) ms) poss).
    { unfold poss. clear -Nd Ve. induction ms as [|m ms IH]; [constructor|]. apply Forall_cons_iff in Nd, Ve. cbn [map]. constructor; [apply valid_within; tauto|apply IH; tauto]. }
    apply related_same_trans with (y := option_map (parts V start poss) (L xs)).
    + rewrite Ez. cbn [option_map]. apply related_same_trans with (y := Some (parts V start poss ys)); [exact Fl|]. cbn [related]. eapply parts_same; eassumption.
    + apply related_same_sym. apply related_same_trans with (y := trans V T (fun us => option_map (parts V 0 poss) (arrays_of V bindt func us)) xs).
      * apply (law_ext _ _ _ LT); [apply same_arr_refl|apply parts_shapely; exact Sh|]. intros us vs Hu Hs. destruct (Us us Hu) as (ret & os & E & S).
        assert (Eo : arrays_of V bindt func us = Some os) by (apply arrays_strip; exists ret, ms; auto).
        assert (Rr : Forall (regular V) (leaves ret)) by (destruct Tr as (_ & _ & T3); exact (T3 _ _ E)).
        unfold func_at. rewrite E. destruct (strip_slices env (leaves ret) ms os Rr S Ve) as (l' & E' & F'). rewrite E'. fold poss in F'.
        pose proof (arrays_respect same_arr func us vs Tr (or_intror eq_refl) Hs) as Q. rewrite Eo in Q. destruct (arrays_of V bindt func vs) as [os'|]; [|contradiction]. cbn [related option_map] in *.
        pose proof (strip_prefixed func us ret ms os Tr E S) as Pf.
        exact (related_same_trans (Some l') (Some (parts V 0 poss os)) (Some (parts V 0 poss os')) F' (parts_same 0 _ poss os os' W Pf Q)).
      * rewrite Ez. exact (law_parts _ _ _ LT _ _ _ poss zs W Sh Re Uo Ez).
  - rewrite (reindex_out env start outs ms (leaves t) ys Ho Ey Py Ne F). rewrite (law_fails _ _ _ LT); [exact Logic.I|]. intros us Hu. destruct (Us us Hu) as (ret & os & E & S).
    unfold func_at. rewrite E. apply (strip_outside env _ ms os); [|exact S|exact Ne]. destruct Tr as (_ & _ & T3). exact (T3 _ _ E).
Qed.
End Fun.
