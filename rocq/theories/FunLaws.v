(** Proofs about [jit] and transformations of functions with named results. *)
From Coq Require Import List Bool Arith ZArith Lia.
From Verif Require Import ArrModel ArrSpec ArrProofs ArrNames ArrBind ArrUnbind NopModel NopSpec NopProofs FunModel FunSpec FunProofs.
Import ListNotations.

Lemma lookup_combine m n : lookup (combine (map fst m) (map snd m)) n = lookup m n.
Proof. induction m as [|[x d] m IH]; [reflexivity|]. cbn [map fst snd combine lookup]. rewrite IH. reflexivity. Qed.

Section Fun.
Variable V : Type.
Variable num : nat -> V.
Notation nolib := (fun (_ : nat) (_ : list (arr V)) => @None (list (arr V))).
Notation none := (fun _ : nat => @None (arr V)).

Definition named (v : val V) : Prop := match v with VGet _ a dims => exists n d, indexes (shape a) dims n d | _ => True end.

Lemma leaf_value env v : evaluated v -> leaf_at V env v = value_at V num nolib none env v.
Proof. destruct v; try contradiction; reflexivity. Qed.
Lemma regular_tidy v : evaluated v -> (regular V v <-> tidy V none v).
Proof. destruct v as [a|a dims| | |]; try contradiction; intros _; [reflexivity|]. rewrite regular_neat. cbn [tidy]. split; [intros N; split; [exact N|intros ? ?; reflexivity]|intros [N _]; exact N]. Qed.

Lemma index_evaluated v key w : evaluated v -> named v -> index_val V v key = Ok w -> evaluated w.
Proof.
  intros Ev Nv H. destruct v as [a|a dims| | |]; try contradiction.
  - cbn [index_val] in H. destruct (getitem a key) as [[b|b dims|]| | | | |]; try discriminate H; injection H as <-; exact Logic.I.
  - cbn [index_val] in H. pose proof (add_names_spec (shape a) dims []) as S. destruct (add_names (shape a) dims []) as [m| | | | |]; try discriminate H. cbn [bindr] in H. destruct S as [S _].
    destruct (desugar (eager_shape (shape a) dims) key) as [[nsh nkey]| | | | |]; try discriminate H. cbn [bindr fst snd] in H.
    pose proof (add_names_spec nsh nkey m) as S'. destruct (add_names nsh nkey m) as [sized| | | | |]; try discriminate H. cbn [bindr] in H. destruct S' as [S' _].
    destruct Nv as (n & d & Hn). assert (Q : lookup sized n = Some d) by (apply S'; left; apply S; right; exact Hn). destruct sized as [|p sized]; [discriminate Q|].
    match type of H with bindr ?x _ = _ => destruct x as [[|y [|z l]]| | | | |] eqn:E end; try discriminate H. cbn [bindr] in H. injection H as <-.
    unfold vmapped in E. match type of E with match ?x with _ => _ end = _ => destruct x as [outs|]; [|discriminate E] end. injection E as E.
    destruct (combine (seq 0 (length outs)) outs) as [|q l0]; [discriminate E|]. cbn [map] in E. injection E as <- _. exact Logic.I.
Qed.

Lemma index_leaf v key w : evaluated v -> regular V v -> named v -> index_val V v key = Ok w ->
  evaluated w /\ regular V w /\ forall env, same (leaf_at V env w) (match leaf_at V env v with Some a => index_full_arr env a key | None => None end).
Proof.
  intros Ev Rv Nv H. pose proof (index_evaluated v key w Ev Nv H) as Ew. split; [exact Ew|].
  destruct (index_val_law V num nolib none v key w) as [Tw M]; [apply regular_tidy; assumption|intros ? ?; reflexivity|exact H|].
  split; [apply regular_tidy; assumption|]. intros env. specialize (M env). rewrite <- !leaf_value in M by assumption. exact M.
Qed.

(** ** Names taken off and put back *)
Section Bind.
Variable bind : tval V -> list nat -> res (tval V).
Hypothesis binding : binds V bind.

Lemma back v m a w : regular V v -> stripped V bind v m a -> index_val V (VArr V a) (index_expr 0 (map fst m)) = Ok w ->
  forall env, same (leaf_at V env w) (leaf_at V env v).
Proof.
  intros Rv [Em D] H env. destruct (deindex_law V bind binding v m a Rv Em D) as (Ev & N & P & L). destruct (L env) as [L1 L2].
  destruct (index_leaf (VArr V a) _ w Logic.I Logic.I Logic.I H) as (_ & _ & M). eapply same_trans; [apply M|]. cbn [leaf_at].
  destruct (valid_dec env m) as [Ve|Ne].
  - eapply same_trans; [|apply same_sym, L1; exact Ve]. apply names_after with (sz := map snd m); [exact P|rewrite !map_length; reflexivity|]. apply sized_within; assumption.
  - rewrite (L2 Ne). destruct Ne as (n & d & Hn & Hd). rewrite (names_outside V env 0 (map fst m) a (map snd m) n d); [exact Logic.I|exact P|rewrite !map_length; reflexivity|rewrite lookup_combine; exact Hn|exact Hd].
Qed.

Lemma back_all vs ms outs ws : Forall (regular V) vs -> strip V bind vs ms outs ->
  Forall2 (fun p w => index_val V (fst p) (index_expr 0 (snd p)) = Ok w) (combine (map (VArr V) outs) (map (map fst) ms)) ws ->
  Forall2 (fun w v => forall env, same (leaf_at V env w) (leaf_at V env v)) ws vs.
Proof.
  intros R S. revert ws R. induction S as [|v m a vs ms outs Hv S IH]; intros ws R F; cbn [map combine] in F; inversion F as [|? w ? ws' H1 H2]; subst; constructor.
  - apply Forall_cons_iff in R. eapply back; [exact (proj1 R)|exact Hv|exact H1].
  - apply IH; [apply Forall_cons_iff in R; exact (proj2 R)|exact H2].
Qed.

(** ** [jit] *)
Definition regular_results (func : pyfun V) : Prop := forall xs r, func xs = Ok r -> Forall (regular V) (leaves r).

Lemma deindexed_names func args ix : result_names V func args = match snd (deindexed V bind func args None) with Some t => Some (is_node t, leaves t) | None => None end /\
  snd (deindexed V bind func args ix) = match result_names V func args with Some (b, l) => Some (Tree b l) | None => ix end.
Proof.
  unfold result_names, deindexed. destruct (func args) as [r| | | | |]; try (split; reflexivity). unfold tmap. destruct (rmap (fun v => sizes_val V v []) (leaves r)); split; reflexivity.
Qed.

Lemma jit_invariant func history : let st := jit_calls V bind func history in
  (forall sig, In sig (cache st) -> In sig (map (map shape) history)) /\
  match ix_of st with None => cache st = [] | Some t => exists xs, In xs history /\ result_names V func xs = Some (is_node t, leaves t) end.
Proof.
  cbn zeta. unfold jit_calls. induction history as [|xs history IH] using rev_ind; [split; [intros sig []|reflexivity]|].
  rewrite fold_left_app. cbn [fold_left]. set (st := fold_left _ history fresh_jit) in *. destruct IH as [I1 I2].
  assert (Old : (forall sig, In sig (cache st) -> In sig (map (map shape) (history ++ [xs]))) /\ match ix_of st with None => cache st = [] | Some t => exists xs0, In xs0 (history ++ [xs]) /\ result_names V func xs0 = Some (is_node t, leaves t) end).
  { split; [intros sig Hs; rewrite map_app; apply in_or_app; left; auto|]. destruct (ix_of st); [|exact I2]. destruct I2 as (ys & Hy & E). exists ys. split; [apply in_or_app; left; exact Hy|exact E]. }
  unfold jit_arrays. destruct (existsb (eq_sig (map shape xs)) (cache st)) eqn:Ec; [exact Old|].
  pose proof (proj2 (deindexed_names func xs (ix_of st))) as N. destruct (deindexed V bind func xs (ix_of st)) as [r ix] eqn:Ed. cbn [snd] in N.
  assert (New : match ix with None => cache st = [] | Some t => exists xs0, In xs0 (history ++ [xs]) /\ result_names V func xs0 = Some (is_node t, leaves t) end).
  { destruct (result_names V func xs) as [[b l]|] eqn:En; [subst ix; exists xs; split; [apply in_or_app; right; left; reflexivity|exact En]|subst ix; exact (proj2 Old)]. }
  destruct r as [t| | | | |]; cbn [snd cache ix_of]; try (split; [exact (proj1 Old)|exact New]).
  split.
  - intros sig [<-|Hs]; [rewrite map_app; apply in_or_app; right; left; reflexivity|exact (proj1 Old sig Hs)].
  - apply deindexed_spec in Ed. destruct Ed as (ret & ms & _ & _ & _ & E). rewrite E in New |- *. exact New.
Qed.

Lemma eq_sig_true a b : eq_sig a b = true <-> a = b.
Proof. unfold eq_sig. destruct (list_eq_dec (list_eq_dec Nat.eq_dec) a b); split; congruence. Qed.

Lemma reindexed func args ret ms outs t : regular_results func -> func args = Ok ret -> strip V bind (leaves ret) ms outs ->
  reindex_tree V (Some (Tree (is_node ret) (map (map fst) ms))) 0 (Tree (is_node ret) (map (VArr V) outs)) = Ok t -> agree V t ret.
Proof.
  intros R E S H. cbn [reindex_tree] in H. apply tmap2_spec in H. cbn [is_node leaves] in H. destruct H as (_ & Hn & _ & F). split; [exact Hn|].
  eapply back_all; [exact (R _ _ E)|exact S|exact F].
Qed.

Lemma strip_names func args ret ms outs : func args = Ok ret -> strip V bind (leaves ret) ms outs -> result_names V func args = Some (is_node ret, map (map fst) ms).
Proof. intros E S. rewrite (proj1 (deindexed_names func args None)). rewrite (deindexed_conv V bind func args ret ms outs None E S). reflexivity. Qed.

Notation settled := (settled V).

(** What [reindex] is called with *)
Lemma jit_step func history args : settled func history args ->
  (exists ret ms outs, func args = Ok ret /\ strip V bind (leaves ret) ms outs /\
    fst (jit_arrays V bind func (jit_calls V bind func history) args) =
    reindex_tree V (Some (Tree (is_node ret) (map (map fst) ms))) 0 (Tree (is_node ret) (map (VArr V) outs))) \/
  (forall t, fst (jit_arrays V bind func (jit_calls V bind func history) args) <> Ok t) /\
  (forall ret ms outs, func args = Ok ret -> ~ strip V bind (leaves ret) ms outs).
Proof.
  intros St. destruct (jit_invariant func history) as [I1 I2]. set (st := jit_calls V bind func history) in *. unfold jit_arrays.
  destruct (existsb (eq_sig (map shape args)) (cache st)) eqn:Ec.
  - apply existsb_exists in Ec. destruct Ec as (sig & Hs & Eq). apply eq_sig_true in Eq. subst sig. destruct St as [St|St]; [destruct (St (I1 _ Hs))|].
    cbn [fst]. destruct (deindexed V bind func args None) as [r ix] eqn:Ed. cbn [fst].
    destruct r as [t| | | | |]; cbn [bindr]; try (right; split; [discriminate|]; intros ret ms outs E S; rewrite (deindexed_conv V bind func args ret ms outs None E S) in Ed; discriminate Ed).
    left. apply deindexed_spec in Ed. destruct Ed as (ret & ms & E & Hn & S & _). exists ret, ms, (leaves t). split; [exact E|]. split; [exact S|]. rewrite Hn.
    destruct (ix_of st) as [u|] eqn:Eix; [|rewrite I2 in Hs; destruct Hs]. destruct I2 as (xs & Hx & En). specialize (St xs Hx). rewrite En in St. specialize (St ltac:(discriminate)).
    rewrite (strip_names func args ret ms _ E S) in St. injection St as S1 S2. destruct u as [b l]. cbn [is_node leaves] in *. subst. reflexivity.
  - destruct (deindexed V bind func args (ix_of st)) as [r ix] eqn:Ed.
    destruct r as [t| | | | |]; cbn [fst bindr]; try (right; split; [discriminate|]; intros ret ms outs E S; rewrite (deindexed_conv V bind func args ret ms outs _ E S) in Ed; discriminate Ed).
    left. apply deindexed_spec in Ed. destruct Ed as (ret & ms & E & Hn & S & ->). exists ret, ms, (leaves t). split; [exact E|]. split; [exact S|]. rewrite Hn. reflexivity.
Qed.

Theorem jit_sound func history args t : regular_results func -> settled func history args ->
  fst (jit_arrays V bind func (jit_calls V bind func history) args) = Ok t -> exists ret, func args = Ok ret /\ agree V t ret.
Proof.
  intros R St H. destruct (jit_step func history args St) as [(ret & ms & outs & E & S & J)|[J _]]; [|destruct (J t H)].
  exists ret. split; [exact E|]. rewrite J in H. eapply reindexed; eassumption.
Qed.
End Bind.
End Fun.
