(** Programs over arrays with named dimensions, and evaluation of the terms they leave. *)
From Coq Require Import List Bool Arith ZArith Lia.
From Verif Require Import ArrModel ArrSpec ArrProofs ArrNames ArrBind NopModel NopSpec NopProofs.
Import ListNotations.

Section Laws.
Variable V : Type.
Variable num : nat -> V.
Variable lib : nat -> list (arr V) -> option (list (arr V)).
Hypothesis lawfulness : lawful lib.

Lemma expr_ind' (P : expr V -> Prop) : (forall a, P (EArr V a)) -> (forall n, P (EName V n)) -> (forall e key, P e -> P (EGet V e key)) ->
  (forall f i es, Forall P es -> P (EOp V f i es)) -> forall e, P e.
Proof.
  intros H1 H2 H3 H4. fix IH 1. intros [a|n|e key|f i es]; [apply H1|apply H2|apply H3, IH|apply H4]. induction es as [|e es IHes]; constructor; [apply IH|exact IHes].
Qed.
Lemma val_ind' (P : val V -> Prop) : (forall a, P (VArr V a)) -> (forall a dims, P (VGet V a dims)) -> (forall n, P (VName V n)) ->
  (forall f i vs, Forall P vs -> P (VOp V f i vs)) -> (forall v key, P v -> P (VIdx V v key)) -> forall v, P v.
Proof.
  intros H1 H2 H3 H4 H5. fix IH 1. intros [a|a dims|n|f i vs|v key]; [apply H1|apply H2|apply H3|apply H4|apply H5, IH]. induction vs as [|v vs IHvs]; constructor; [apply IH|exact IHvs].
Qed.

Fixpoint build_all (es : list (expr V)) : res (list (val V)) :=
  match es with [] => Ok [] | e :: es' => bindr (build V num lib e) (fun v => bindr (build_all es') (fun vs => Ok (v :: vs))) end.
Lemma build_op f i es : build V num lib (EOp V f i es) = bindr (build_all es) (apply_op V num lib f i).
Proof. reflexivity. Qed.
Definition evaluate_all (rho : nat -> option (arr V)) : list (val V) -> res (list (val V)) :=
  fix all vs := match vs with [] => Ok [] | v :: vs' => bindr (evaluate V num lib rho v) (fun w => bindr (all vs') (fun ws => Ok (w :: ws))) end.
Lemma evaluate_op rho f i vs : evaluate V num lib rho (VOp V f i vs) = bindr (evaluate_all rho vs) (apply_op V num lib f i).
Proof. reflexivity. Qed.
Definition sems rho env : list (expr V) -> option (list (arr V)) :=
  fix all es := match es with [] => Some [] | e :: es' => match sem V num lib rho env e, all es' with Some a, Some l => Some (a :: l) | _, _ => None end end.
Lemma sem_op rho env f i es : sem V num lib rho env (EOp V f i es) = call V lib f i (sems rho env es).
Proof. reflexivity. Qed.

Lemma call_related f i x y : related same_arr x y -> same (call V lib f i x) (call V lib f i y).
Proof.
  destruct x as [ps|], y as [qs|]; cbn; try contradiction; [|intros _; exact Logic.I]. intros H. apply (proj1 lawfulness f) in H.
  destruct (lib f ps) as [us|], (lib f qs) as [vs|]; cbn in *; try contradiction; [|exact Logic.I].
  destruct (nth_error us i) as [u|] eqn:E.
  - destruct (Forall2_nth _ _ _ _ _ H E) as (v & -> & S). exact S.
  - apply nth_error_None in E. rewrite (Forall2_len _ _ _ H) in E. apply nth_error_None in E. rewrite E. exact Logic.I.
Qed.

(** No index of the program uses a name of [rho]. *)
Fixpoint apart (rho : nat -> option (arr V)) (e : expr V) : Prop :=
  match e with
  | EGet _ e key => apart rho e /\ forall n, In (KName n) key -> rho n = None
  | EOp _ _ _ es => (fix all es := match es with [] => True | e :: es' => apart rho e /\ all es' end) es
  | _ => True
  end.
Lemma apart_op rho f i es : Forall (apart rho) es <-> apart rho (EOp V f i es).
Proof. cbn [apart]. induction es as [|e es IH]; [split; [intros _; exact Logic.I|constructor]|]. rewrite Forall_cons_iff, IH. reflexivity. Qed.

Lemma build_law rho : forall e v, apart rho e -> build V num lib e = Ok v ->
  tidy V rho v /\ forall env, same (value_at V num lib rho env v) (sem V num lib rho env e).
Proof.
  induction e as [a|n|e key IH|f i es IH] using expr_ind'; intros v A H.
  - injection H as <-. split; [exact Logic.I|]. intros env. apply same_refl.
  - injection H as <-. split; [exact Logic.I|]. intros env. apply same_refl.
  - cbn [build] in H. destruct A as [A K]. destruct (build V num lib e) as [u| | | | |] eqn:E; try discriminate H. cbn [bindr] in H. destruct (IH u A eq_refl) as [T M].
    destruct (index_val_law V num lib rho u key v T K H) as [T' M']. split; [exact T'|]. intros env. eapply same_trans; [apply M'|]. cbn [sem]. specialize (M env).
    destruct (same_cases _ _ M) as [(b & c & -> & -> & S)|[-> ->]]; [apply index_full_same; exact S|exact Logic.I].
  - rewrite build_op in H. destruct (build_all es) as [vs| | | | |] eqn:E; try discriminate H. cbn [bindr] in H.
    assert (Q : Forall (tidy V rho) vs /\ forall env, related same_arr (values V num lib rho env vs) (sems rho env es)).
    { apply apart_op in A. clear H. revert vs E. induction es as [|e es IHes]; intros vs E; cbn [build_all] in E.
      - injection E as <-. split; [constructor|]. intros env. constructor.
      - apply Forall_cons_iff in IH. destruct IH as [IHe IH]. apply Forall_cons_iff in A. destruct A as [Ae A]. destruct (build V num lib e) as [u| | | | |] eqn:Eu; try discriminate E. cbn [bindr] in E.
        destruct (build_all es) as [us| | | | |]; try discriminate E. cbn [bindr] in E. injection E as <-. destruct (IHe u Ae eq_refl) as [Tu Mu]. destruct (IHes IH A us eq_refl) as [Ts Ms].
        split; [constructor; assumption|]. intros env. cbn. fold (sems rho env). specialize (Mu env). specialize (Ms env).
        destruct (same_cases _ _ Mu) as [(b & c & -> & -> & S)|[-> ->]]; [|exact Logic.I].
        destruct (values V num lib rho env us), (sems rho env es); try contradiction; [constructor; assumption|exact Logic.I]. }
    destruct Q as [T M]. destruct (apply_op_law V num lib rho lawfulness f i vs v T H) as [T' M']. split; [exact T'|]. intros env. rewrite sem_op. eapply same_trans; [apply M'|]. apply call_related. apply M.
Qed.

Lemma key_names_none rho key : existsb (fun n => match rho n with Some _ => true | None => false end) (key_names key) = false -> forall n, In (KName n) key -> (rho n : option (arr V)) = None.
Proof.
  intros H n Hn. destruct (rho n) as [a|] eqn:E; [|reflexivity]. assert (X : existsb (fun n => match rho n with Some _ => true | None => false end) (key_names key) = true).
  { apply existsb_exists. exists n. split; [|rewrite E; reflexivity]. unfold key_names. apply in_flat_map. exists (KName n). split; [exact Hn|left; reflexivity]. }
  congruence.
Qed.

Lemma tidy_none rho v : tidy V rho v -> tidy V (fun _ => None) v.
Proof.
  induction v as [a|a dims|n|f i vs IH|v key IH] using val_ind'; intros T; try exact Logic.I.
  - destruct T as [T _]. split; [exact T|intros ? ?; reflexivity].
  - apply tidy_op in T. apply tidy_op. induction vs as [|v vs IHvs]; [constructor|]. apply Forall_cons_iff in IH, T. destruct IH, T. constructor; auto.
  - destruct T as [T _]. split; [auto|intros ? ?; reflexivity].
Qed.

Lemma evaluate_law rho : forall v w, tidy V (fun _ => None) v -> evaluate V num lib rho v = Ok w ->
  tidy V (fun _ => None) w /\ forall env, same (value_at V num lib (fun _ => None) env w) (value_at V num lib rho env v).
Proof.
  induction v as [a|a dims|n|f i vs IH|v key IH] using val_ind'; intros w T H.
  - injection H as <-. split; [exact Logic.I|]. intros env. apply same_refl.
  - cbn [evaluate] in H. match type of H with (if ?c then _ else _) = _ => destruct c end; [discriminate H|]. destruct T as [[B N] _].
    destruct (index_val_law V num lib (fun _ => None) (VArr V a) dims w Logic.I (fun n _ => eq_refl) H) as [T' M]. split; [exact T'|]. intros env. eapply same_trans; [apply M|]. cbn [value_at].
    apply index_full_plain. exact B.
  - cbn [evaluate] in H. destruct (rho n) as [a|] eqn:E; injection H as <-; (split; [exact Logic.I|]); intros env; cbn [value_at]; unfold name_at; rewrite E; apply same_refl.
  - rewrite evaluate_op in H. destruct (evaluate_all rho vs) as [ws| | | | |] eqn:E; try discriminate H. cbn [bindr] in H.
    assert (Q : Forall (tidy V (fun _ => None)) ws /\ forall env, related same_arr (values V num lib (fun _ => None) env ws) (values V num lib rho env vs)).
    { apply tidy_op in T. clear H. revert ws E. induction vs as [|v vs IHvs]; intros ws E; cbn in E; fold (evaluate_all rho) in E.
      - injection E as <-. split; [constructor|]. intros env. constructor.
      - apply Forall_cons_iff in IH. destruct IH as [IHv IH]. apply Forall_cons_iff in T. destruct T as [Tv T]. destruct (evaluate V num lib rho v) as [u| | | | |] eqn:Eu; try discriminate E. cbn [bindr] in E.
        destruct (evaluate_all rho vs) as [us| | | | |]; try discriminate E. cbn [bindr] in E. injection E as <-. destruct (IHv u Tv eq_refl) as [Tu Mu]. destruct (IHvs IH T us eq_refl) as [Ts Ms].
        split; [constructor; assumption|]. intros env. cbn [values]. specialize (Mu env). specialize (Ms env).
        destruct (same_cases _ _ Mu) as [(b & c & -> & -> & S)|[-> ->]]; [|exact Logic.I].
        destruct (values V num lib (fun _ => None) env us), (values V num lib rho env vs); try contradiction; [constructor; assumption|exact Logic.I]. }
    destruct Q as [T' M]. destruct (apply_op_law V num lib (fun _ => None) lawfulness f i ws w T' H) as [Tw Mw]. split; [exact Tw|]. intros env. rewrite value_op. eapply same_trans; [apply Mw|]. apply call_related. apply M.
  - cbn [evaluate] in H. match type of H with (if ?c then _ else _) = _ => destruct c end; [discriminate H|]. destruct T as [T _].
    destruct (evaluate V num lib rho v) as [u| | | | |] eqn:E; try discriminate H. cbn [bindr] in H. destruct (IH u T eq_refl) as [Tu Mu].
    destruct (index_val_law V num lib (fun _ => None) u key w Tu (fun n _ => eq_refl) H) as [T' M]. split; [exact T'|]. intros env. eapply same_trans; [apply M|]. cbn [value_at]. specialize (Mu env).
    destruct (same_cases _ _ Mu) as [(b & c & -> & -> & S)|[-> ->]]; [apply index_full_same; exact S|exact Logic.I].
Qed.

(** ** The three theorems *)
Theorem pointwise e v : build V num lib e = Ok v -> forall env, same (value_at V num lib (fun _ => None) env v) (sem V num lib (fun _ => None) env e).
Proof.
  intros H. apply build_law; [|exact H]. clear H. induction e as [a|n|e key IH|f i es IH] using expr_ind'; try exact Logic.I.
  - split; [exact IH|reflexivity].
  - apply apart_op. exact IH.
Qed.

Theorem later rho e v w : apart rho e -> build V num lib e = Ok v -> evaluate V num lib rho v = Ok w ->
  forall env, same (value_at V num lib (fun _ => None) env w) (sem V num lib rho env e).
Proof.
  intros A H E env. destruct (build_law rho e v A H) as [T M]. destruct (evaluate_law rho v w (tidy_none rho v T) E) as [_ M']. eapply same_trans; [apply M'|apply M].
Qed.

(** Operations on arrays with names give arrays with names. *)
Definition named_args (args : list (val V)) : Prop :=
  (exists v n d, In v args /\ has_dim v n d) /\
  (forall v n d w d', In v args -> has_dim v n d -> In w args -> has_dim w n d' -> d = d') /\
  forall v, In v args -> match v with VArr _ _ => True | VGet _ a dims => neat a dims | VName _ n => exists w d, In w args /\ has_dim w n d | _ => False end.

Theorem stays f i args env : named_args args -> call V lib f i (values V num lib (fun _ => None) env args) <> None ->
  exists a dims, apply_op V num lib f i args = Ok (VGet V a dims) /\ forall n d, indexes (shape a) dims n d <-> exists v, In v args /\ has_dim v n d.
Proof.
  intros (Hn & Hc & Ha) Hcall.
  assert (Si : forallb (simple V) args = true) by (apply forallb_forall; intros v Hv; specialize (Ha v Hv); destruct v; try contradiction; reflexivity).
  assert (T : Forall (tidy V (fun _ => None)) args).
  { apply Forall_forall. intros v Hv. specialize (Ha v Hv). destruct v; try contradiction; try exact Logic.I. split; [exact Ha|intros ? ?; reflexivity]. }
  pose proof (sizes_all_spec V args [] Si) as Q. destruct (sizes_all V args []) as [sized| | | | |] eqn:Es; try contradiction.
  2:{ destruct Q as (n & d & d' & Hd & [X|(v & Hv & D)] & (w & Hw & D')); [discriminate X|]. exfalso. apply Hd. exact (Hc v n d w d' Hv D Hw D'). }
  destruct Q as [Q1 Q2]. specialize (Q2 (NoDup_nil _)).
  assert (Q : forall n d, lookup sized n = Some d <-> exists w, In w args /\ has_dim w n d) by (intros n d; rewrite Q1; cbn; split; [intros [X|X]; [discriminate X|exact X]|auto]).
  assert (Qn : forall n, In n (map fst sized) <-> exists w d, In w args /\ has_dim w n d).
  { intros n. split.
    - intros X. apply in_map_iff in X. destruct X as ([x d] & <- & X). apply lookup_In in X; [|exact Q2]. apply Q in X. destruct X as (w & Hw & D). exists w, d. auto.
    - intros (w & d & Hw & D). assert (L : lookup sized n = Some d) by (apply Q; exists w; auto). apply lookup_some_In in L. apply in_map_iff. exists (n, d). auto. }
  assert (Ee : forallb (eager V sized) args = true).
  { apply forallb_forall. intros v Hv. specialize (Ha v Hv). destruct v as [a|a dims|n|? ? ?|? ?]; try contradiction; try reflexivity. apply mem_In, Qn. exact Ha. }
  assert (Fv : forall n, In n (map fst sized) <-> In (Dim n) (flat_map (fvs V) args)).
  { intros n. rewrite Qn. split.
    - intros (w & d & Hw & D). apply in_flat_map. exists w. split; [exact Hw|]. destruct w as [|a dims| | |]; try contradiction D. cbn [fvs]. apply in_map. unfold key_names. apply in_flat_map.
      destruct D as (j & Hj & _). exists (KName n). split; [eapply nth_error_In; exact Hj|left; reflexivity].
    - intros X. apply in_flat_map in X. destruct X as (w & Hw & X). specialize (Ha w Hw). destruct w as [a|a dims|m|? ? ?|? ?]; try contradiction; cbn [fvs] in X.
      + apply in_map_iff in X. destruct X as (m & E & X). injection E as ->. unfold key_names in X. apply in_flat_map in X. destruct X as (k & Hk & X). destruct k; try contradiction. destruct X as [<-|[]].
        destruct (name_indexed V a dims n0 (proj1 Ha) Hk) as (d & Hd). exists (VGet V a dims), d. auto.
      + destruct X as [X|[]]. injection X as ->. exact Ha. }
  assert (Nf : forall g, ~ In (Fn g) (flat_map (fvs V) args)).
  { intros g X. apply in_flat_map in X. destruct X as (w & Hw & X). specialize (Ha w Hw). destruct w as [a|a dims|m|? ? ?|? ?]; try contradiction; cbn [fvs] in X; [|destruct X as [X|[]]; discriminate X].
    apply in_map_iff in X. destruct X as (m & E & _). discriminate E. }
  assert (Refl : forall x y, fv_eqb x y = true <-> x = y) by (intros [n|n] [m|m]; cbn [fv_eqb]; rewrite ?Nat.eqb_eq; split; intros X; try discriminate X; try congruence).
  unfold apply_op, run_op. rewrite Es. cbn [bindr].
  match goal with |- context [if ?c then _ else _] => assert (C : c = true) end.
  { apply andb_true_iff. split; [|apply andb_true_iff; split].
    - destruct sized as [|p sized]; [|reflexivity]. destruct Hn as (v & n & d & Hv & D). assert (X : lookup [] n = Some d) by (apply Q; exists v; auto). discriminate X.
    - apply forallb_forall. intros x Hx. apply in_map_iff in Hx. destruct Hx as ([n d] & <- & Hx). apply existsb_exists. exists (Dim n). split; [|apply Refl; reflexivity].
      apply filter_In. split; [|reflexivity]. apply Fv. apply in_map_iff. exists (n, d). auto.
    - apply forallb_forall. intros x Hx. apply filter_In in Hx. destruct Hx as [Hx _]. destruct x as [n|g]; [|destruct (Nf g Hx)]. apply Fv in Hx. apply in_map_iff in Hx. destruct Hx as ([m d] & E & Hx). cbn in E. subst m.
      apply existsb_exists. exists (Dim n). split; [|apply Refl; reflexivity]. apply in_map_iff. exists (n, d). auto. }
  rewrite C. clear C.
  assert (P : exists outs, partial_op V num lib sized f args = Ok (Some outs) /\ nth_error outs i <> None).
  { unfold partial_op. rewrite Ee. set (run := fun env => match traverse (fun v => single V num v env) args with Some l => lib f l | None => None end).
    assert (Hrun : result V i (run env) <> None).
    { rewrite (values_single V num lib (fun _ => None) env sized args Ee) in Hcall by reflexivity. unfold run. unfold call in Hcall. destruct (traverse (fun v => single V num v env) args); exact Hcall. }
    assert (Ve : valid env sized).
    { destruct (valid_dec env sized) as [X|(n & d & L & Hd)]; [exact X|]. exfalso. apply Hrun. unfold run. apply Q in L. destruct L as (w & Hw & Dw). destruct w as [|b dims'| | |]; try contradiction Dw.
      rewrite (traverse_none _ args (VGet V b dims') Hw); [reflexivity|]. cbn [single]. unfold index_arr. rewrite (index_axes_out env _ _ _ _ Dw Hd). reflexivity. }
    assert (Uni : forall env env', valid env sized -> valid env' sized -> related same_shape (run env) (run env')).
    { intros e1 e2 V1 V2. unfold run. pose proof (single_valid_shape V num (fun _ => None) sized args e1 e2 T Si (fun n d => proj2 (Q n d)) V1 V2) as R.
      destruct (traverse (fun v => single V num v e1) args), (traverse (fun v => single V num v e2) args); try contradiction; [|exact Logic.I]. apply (proj2 lawfulness). exact R. }
    assert (Ev : exists vs, vmapped V sized run = Ok vs).
    { unfold vmapped. pose proof (sized_within env sized Q2 Ve) as W.
      assert (V0 : valid (assign (fun _ => 0) (map fst sized) (unravel (map snd sized) 0)) sized).
      { intros n d L. eapply assign_lookup; [apply unravel_within; eapply prod_within; exact W|exact L]. }
      pose proof (Uni _ _ V0 Ve) as R. destruct (run (assign (fun _ => 0) (map fst sized) (unravel (map snd sized) 0))); [eexists; reflexivity|].
      destruct (run env); [contradiction|exfalso; apply Hrun; reflexivity]. }
    destruct Ev as (vs & Ev). rewrite Ev. exists vs. split; [reflexivity|]. destruct (vmapped_ok V sized run vs Q2 Ev) as [W1 _]; [|exact Uni|].
    - intros e1 e2 A. unfold run. rewrite (single_ext V num (fun _ => None) sized args e1 e2 T Ee (fun n d => proj2 (Q n d)) A). reflexivity.
    - destruct (W1 env Ve) as (outs & Eo & Lo). rewrite Eo in Hrun. cbn in Hrun. apply nth_error_Some. rewrite <- Lo. apply nth_error_Some. exact Hrun. }
  destruct P as (outs & P & Ni). rewrite P. cbn [bindr]. destruct (nth_error outs i) as [w|] eqn:N; [|contradiction].
  destruct (partial_op_law V num lib (fun _ => None) lawfulness sized f args outs T Es P i w N) as (a & dims & -> & _ & I & _). exists a, dims. split; [reflexivity|exact I].
Qed.
End Laws.

Theorem conflict V num lib f i (args : list (val V)) v w n d d' : forallb (simple V) args = true -> In v args -> has_dim v n d -> In w args -> has_dim w n d' -> d <> d' ->
  apply_op V num lib f i args = ValueError.
Proof.
  intros Si Hv D Hw D' Hd. unfold apply_op, run_op. pose proof (sizes_all_spec V args [] Si) as Q. destruct (sizes_all V args []) as [sized| | | | |]; try contradiction; [|reflexivity].
  exfalso. destruct Q as [Q _]. assert (A : lookup sized n = Some d) by (apply Q; right; exists v; auto). assert (B : lookup sized n = Some d') by (apply Q; right; exists w; auto). congruence.
Qed.

(** ** A library of two functions: addition of arrays of one shape; the parts of a pair of arrays doubled and reversed *)
Definition same_list (a b : list nat) : bool := if list_eq_dec Nat.eq_dec a b then true else false.
Definition toy (f : nat) (ps : list (arr nat)) : option (list (arr nat)) :=
  match f, ps with
  | 0, [a; b] => if same_list (shape a) (shape b) then Some [Arr (shape a) (fun idx => at_ a idx + at_ b idx)] else None
  | 1, [a; b] => Some [Arr (shape b) (at_ b); Arr (shape a) (fun idx => 2 * at_ a idx)]
  | _, _ => None
  end.
Lemma toy_lawful : lawful toy.
Proof.
  split.
  - intros f ps qs H. inversion H as [|a b ps1 qs1 [Sa Ea] H1]; subst; [destruct f as [|[|f]]; exact I|].
    inversion H1 as [|c d ps2 qs2 [Sc Ec] H2]; subst; [destruct f as [|[|f]]; exact I|]. inversion H2; subst; [|destruct f as [|[|f]]; exact I].
    destruct f as [|[|f]]; cbn [toy]; [| |exact I].
    + rewrite <- Sa, <- Sc. unfold same_list. destruct (list_eq_dec Nat.eq_dec (shape a) (shape c)) as [E|E]; [|exact I]. constructor; [|constructor]. split; [reflexivity|]. cbn [shape at_]. intros idx W.
      rewrite Ea by exact W. rewrite Ec by (rewrite <- E; exact W). reflexivity.
    + constructor; [split; assumption|]. constructor; [|constructor]. split; [exact Sa|]. cbn [shape at_]. intros idx W. rewrite Ea by exact W. reflexivity.
  - intros f ps qs H. inversion H as [|a b ps1 qs1 Sa H1]; subst; [destruct f as [|[|f]]; exact I|].
    inversion H1 as [|c d ps2 qs2 Sc H2]; subst; [destruct f as [|[|f]]; exact I|]. inversion H2; subst; [|destruct f as [|[|f]]; exact I]. unfold same_shape in *.
    destruct f as [|[|f]]; cbn [toy]; [|repeat constructor; cbn; auto|exact I].
    rewrite <- Sa, <- Sc. unfold same_list. destruct (list_eq_dec Nat.eq_dec (shape a) (shape c)); [|exact I]. constructor; [reflexivity|constructor].
Qed.

Lemma ok_some {A} (x : res A) (P : A -> Prop) : match x with Ok r => P r | _ => False end -> exists r, x = Ok r /\ P r.
Proof. destruct x as [r| | | | |]; try contradiction. intros H. now exists r. Qed.
