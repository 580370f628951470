From Coq Require Import List Bool Arith ZArith Lia.
Import ListNotations.
From Verif Require Import ProdModel ProdSpec ProdProofs.
Open Scope Z_scope.

Definition back : outcome -> comp := fun r => match r with Ok v => Ret v | Exn e => Raise e end.
(** Operation 1 returns 7 by default, the others have no default. *)
Definition ex_defs (m : nat) : fn := fun _ => match m with 1%nat => Ret (VInt 7) | _ => Raise ENotHandled end.

Lemma other_handles : exists defs intps p d m r r',
  assoc intps p = Some d /\ alone defs intps 20 d (EOp m []) = Some r /\
  project defs intps 20 p (EOp m []) = Some r' /\ r' <> r.
Proof.
  exists ex_defs, [(0, [(BOp 0, fun _ => Call (OBase (BOp 1)) [] back)]); (1, [(BOp 1, fun _ => Ret (VInt 5))])]%nat, 0%nat.
  eexists _, 0%nat, _, _. split; [reflexivity|]. split; [vm_compute; reflexivity|]. split; [vm_compute; reflexivity|]. discriminate.
Qed.

Definition div_intps : list (nat * intp) :=
  [(0, [(BOp 0, fun _ => Call (OBase (BOp 1)) [] back)]); (1, [(BApply, fun _ => Ret (VInt 0))])]%nat.

Lemma loop : forall n a E, get E (OBase BApply) = Some (COp (ORen 0 BApply)) -> get E (ORen 0 BApply) = None ->
  exec ex_defs div_intps n (TOp (OBase BApply) a) E = None.
Proof.
  induction n as [n IH] using lt_wf_ind. intros a E G1 G2. destruct n as [|n]; [reflexivity|]. cbn [exec]. rewrite G1.
  destruct n as [|n]; [reflexivity|]. cbn [exec]. destruct n as [|n]; [reflexivity|]. cbn [exec]. rewrite G2.
  assert (X : exec ex_defs div_intps n (TOp (OBase BApply) (VOp (ORen 0 BApply) :: a)) E = None) by (apply IH; auto; lia).
  destruct a as [|v a]; auto. destruct v; auto.
Qed.

Lemma comp_loop : forall n E, get E (OBase (BOp 1)) = None -> get E (OBase BApply) = Some (COp (ORen 0 BApply)) ->
  get E (ORen 0 BApply) = None -> exec ex_defs div_intps n (TComp (Call (OBase (BOp 1)) [] back)) E = None.
Proof.
  intros n E G0 G1 G2. destruct n as [|n]; [reflexivity|]. cbn [exec].
  destruct n as [|n]; [reflexivity|]. cbn [exec]. rewrite G0. rewrite loop; auto.
Qed.

Lemma apply_diverges : exists defs intps p d m r,
  assoc intps p = Some d /\ alone defs intps 20 d (EOp m []) = Some r /\
  forall n, project defs intps n p (EOp m []) = None.
Proof.
  exists ex_defs, div_intps, 0%nat. eexists _, 0%nat, _. split; [reflexivity|]. split; [vm_compute; reflexivity|].
  intros n. unfold project, project_in.
  assert (Ev : eval ex_defs div_intps n (product_env div_intps ++ []) (EOp 0 []) = None \/
    eval ex_defs div_intps n (product_env div_intps ++ []) (EOp 0 []) =
    Some (Ok (VProd [(0, (KDirect, BOp 0, [])); (1, (KApply, BOp 0, []))]%nat))).
  { do 7 (destruct n as [|n]; [first [left; reflexivity|right; reflexivity]|]). right. reflexivity. }
  destruct Ev as [->| ->]; [reflexivity|].
  do 5 (destruct n as [|n]; [reflexivity|]).
  assert (X : forall E, get E (OPrompt 0) = Some (CThunk 0 (KDirect, BOp 0, [])) -> get E (OBase (BOp 1)) = None -> get E (ORen 0 BApply) = None ->
     exec ex_defs div_intps (S (S (S (S n)))) (TOp (OPrompt 0) []) E = None).
  { intros E G0 G1 G2. cbn [exec]. rewrite G0. cbn [exec]. 
    change (get (isolated_of div_intps 0 ++ E) (ORen 0 (BOp 0))) with (Some (CTr 0 (fun _ => Call (OBase (BOp 1)) [] back))).
    cbn iota. destruct n as [|n]; [reflexivity|].
    exact (comp_loop (S n) (translation div_intps 0 ++ isolated_of div_intps 0 ++ E) G1 eq_refl G2). }
  exact (X (result_env [(0, (KDirect, BOp 0, [])); (1, (KApply, BOp 0, []))]%nat) eq_refl eq_refl eq_refl).
Qed.

Lemma copy_visible : exists defs intps p d m r r',
  assoc intps p = Some d /\ alone defs intps 20 d (EOp m []) = Some r /\
  project defs intps 20 p (EOp m []) = Some r' /\ r' <> r.
Proof.
  exists ex_defs, [(0, [(BApply, fun a => match a with VOp o :: l => Dflt o l back | _ => Raise EType end)]); (1, [(BOp 1, fun _ => Ret (VInt 5))])]%nat, 0%nat.
  eexists _, 1%nat, _, _. split; [reflexivity|]. split; [vm_compute; reflexivity|]. split; [vm_compute; reflexivity|]. discriminate.
Qed.

Lemma exception_leaks : exists defs intps p d e v x,
  assoc intps p = Some d /\ alone defs intps 20 d e = Some (Ok v) /\
  project defs intps 20 p e = Some (Exn (EUser x)).
Proof.
  exists ex_defs, [(0, [(BOp 0, fun _ => Ret (VInt 1)); (BOp 1, fun _ => Ret (VInt 2))]); (1, [(BOp 1, fun _ => Raise (EUser 3))])]%nat, 0%nat.
  eexists _, (EOp 0 [EOp 1 []]), _, _. split; [reflexivity|]. split; [vm_compute; reflexivity|]. vm_compute; reflexivity.
Qed.

Lemma enclosing : exists defs intps E0 p d m r r',
  assoc intps p = Some d /\ alone_in defs intps E0 20 d (EOp m []) = Some r /\
  project_in defs intps E0 20 p (EOp m []) = Some r' /\ r' <> r.
Proof.
  exists ex_defs, [(0, [(BOp 0, fun _ => Call (OBase (BOp 1)) [] back)]); (1, [(BOp 0, fun _ => Ret (VInt 2))])]%nat,
    [(OBase (BOp 1), CFn (fun _ => Ret (VInt 5)))], 0%nat.
  eexists _, 0%nat, _, _. split; [reflexivity|]. split; [vm_compute; reflexivity|]. split; [vm_compute; reflexivity|]. discriminate.
Qed.

Lemma uncovered : exists defs intps p d e v,
  assoc intps p = Some d /\ alone defs intps 20 d e = Some (Ok v) /\
  project defs intps 20 p e = Some (Exn EType).
Proof.
  exists ex_defs, [(0, [(BOp 0, fun _ => Ret (VInt 1))]); (1, [(BOp 0, fun _ => Ret (VInt 2))])]%nat, 0%nat.
  eexists _, (EOp 2 [EOp 0 []]), _. split; [reflexivity|]. split; vm_compute; reflexivity.
Qed.

Lemma argsof_apply : exists defs intps p q m es vs w,
  answer defs intps (SArgs q es) (Ok (VTup vs)) /\
  project defs intps 20 p (EOp m es) = Some (Ok (VTup [VTup w; VTup []])) /\ vs = VInt 10 :: w.
Proof.
  exists ex_defs, [(0, [(BOp 0, fun _ => Call OArgsOf [VOp (OPrompt 1)] back)]); (1, [(BApply, fun _ => Ret (VInt 3))])]%nat, 0%nat, 1%nat, 0%nat, [ELit 10; ELit 20].
  eexists _, _. split; [repeat econstructor|]. split; [vm_compute; reflexivity|reflexivity].
Qed.

(** Examples: 0 is addition; component 0 computes it, component 1 a weight of its own that is
    paired at the root with the value. *)
Definition add2 (a : list value) : comp := match a with [VInt x; VInt y] => Ret (VInt (x + y)) | _ => Raise EType end.
Definition num (v : value) : Z := match v with VInt z => z | VTup (VInt z :: _) => z | _ => 0 end.
Definition weigh (a : list value) : comp :=
  match a with
  | [x; y] => Call (OPrompt 0) [] (fun r => match r with Ok v => Ret (VTup [VInt (num x + num y + 1); v]) | Exn e => Raise e end)
  | _ => Raise EType
  end.
Definition ex_intps : list (nat * intp) := [(0, [(BOp 0, add2)]); (1, [(BOp 0, weigh)])]%nat.

Lemma ex_tame : all_tame ex_defs ex_intps.
Proof.
  intros q d D. cbn [ex_intps assoc] in D.
  assert (Df : forall m a, tame ex_intps q (ex_defs m a)) by (intros [|[|m]] a; constructor).
  destruct (Nat.eqb_spec 0 q) as [<-|]; [injection D as <-|destruct (Nat.eqb_spec 1 q) as [<-|]; [injection D as <-|discriminate]];
    (split; [|auto]); intros b f a; cbn [find]; (destruct (bop_dec _ _); [|discriminate]); intros [= <-].
  - unfold add2. destruct a as [|[] [|[] [|]]]; constructor.
  - unfold weigh. destruct a as [|x [|y [|]]]; try constructor. intros [v|x0]; constructor.
Qed.

Lemma ex_no_copies : forall l : list (nat * intp), ~ In BApply (result_ops l) -> no_copies l.
Proof.
  intros l N q d m D _ _. destruct (find d BApply) eqn:F; auto. destruct N. eapply find_ops; eauto.
Qed.

Ltac ans := repeat first
  [ apply A_lit | apply A_nil | eapply A_cons | eapply A_op | apply A_ret
  | eapply A_handled; [reflexivity|reflexivity|cbn] | eapply A_prompt ].

Lemma example : forall m es, EOp m es = EOp 0 [EOp 0 [ELit 1; ELit 2]; ELit 4] ->
  all_tame ex_defs ex_intps /\ no_copies ex_intps /\ covered ex_intps (EOp m es) /\ inside_ok ex_defs ex_intps (EOp m es) /\
  answer ex_defs ex_intps (SExpr 1 (EOp m es)) (Ok (VTup [VInt 9; VInt 7])).
Proof.
  intros m es ->. split; [apply ex_tame|]. split; [apply ex_no_copies; cbn; intuition discriminate|].
  split; [cbn; tauto|]. split.
  - cbn [inside_ok]. split; [split; [cbn [inside_ok]; repeat split; intros; eexists; apply A_lit|]|repeat split; intros; eexists; apply A_lit].
    intros q d D. cbn [ex_intps assoc] in D.
    destruct (Nat.eqb_spec 0 q) as [<-|]; [|destruct (Nat.eqb_spec 1 q) as [<-|]; [|discriminate]]; eexists.
    + ans.
    + ans; cbn; ans.
  - ans; cbn; ans.
Qed.

Definition one (a : list value) : comp := match a with [x; y] => Ret (VInt (num x + num y + 1)) | _ => Raise EType end.
Definition ex_intps2 : list (nat * intp) := [(0, [(BOp 0, add2)]); (1, [(BOp 0, one)])]%nat.
Lemma example_alone :
  all_no_prompts ex_defs ex_intps2 /\ all_tame ex_defs ex_intps2 /\ no_copies ex_intps2 /\
  covered ex_intps2 (EOp 0 [EOp 0 [ELit 1; ELit 2]; ELit 4]) /\ inside_alone ex_defs ex_intps2 (EOp 0 [EOp 0 [ELit 1; ELit 2]; ELit 4]) /\
  exists d, assoc ex_intps2 0 = Some d /\ alone ex_defs ex_intps2 9 d (EOp 0 [EOp 0 [ELit 1; ELit 2]; ELit 4]) = Some (Ok (VInt 7)).
Proof.
  split; [|split; [|split; [|split; [|split]]]].
  - split; [|intros [|[|m]] a; constructor].
    intros q d b f a D. cbn [ex_intps2 assoc] in D.
    destruct (Nat.eqb_spec 0 q) as [<-|]; [injection D as <-|destruct (Nat.eqb_spec 1 q) as [<-|]; [injection D as <-|discriminate]];
      cbn [find]; (destruct (bop_dec _ _); [|discriminate]); intros [= <-].
    + unfold add2. destruct a as [|[] [|[] [|]]]; constructor.
    + unfold one. destruct a as [|x [|y [|]]]; constructor.
  - intros q d D. cbn [ex_intps2 assoc] in D.
    assert (Df : forall m a, tame ex_intps2 q (ex_defs m a)) by (intros [|[|m]] a; constructor).
    destruct (Nat.eqb_spec 0 q) as [<-|]; [injection D as <-|destruct (Nat.eqb_spec 1 q) as [<-|]; [injection D as <-|discriminate]];
      (split; [|auto]); intros b f a; cbn [find]; (destruct (bop_dec _ _); [|discriminate]); intros [= <-].
    + unfold add2. destruct a as [|[] [|[] [|]]]; constructor.
    + unfold one. destruct a as [|x [|y [|]]]; constructor.
  - apply ex_no_copies; cbn; intuition discriminate.
  - cbn; tauto.
  - cbn [inside_alone].
    assert (L : forall z q d, assoc ex_intps2 q = Some d -> exists n v, alone ex_defs ex_intps2 n d (ELit z) = Some (Ok v)) by (intros; exists 0%nat; eexists; reflexivity).
    split; [split|].
    1: { split; [split; [exact I|apply L]|split; [split; [exact I|apply L]|exact I]]. }
    2: { split; [split; [exact I|apply L]|exact I]. }
    intros q d D. cbn [ex_intps2 assoc] in D. exists 9%nat.
    destruct (Nat.eqb_spec 0 q) as [<-|]; [injection D as <-|destruct (Nat.eqb_spec 1 q) as [<-|]; [injection D as <-|discriminate]];
      eexists; vm_compute; reflexivity.
  - eexists. split; [reflexivity|vm_compute; reflexivity].
Qed.

(** Component 1 records the operation and its first argument. *)
Definition note (a : list value) : comp := match a with VOp o :: x :: _ => Ret (VTup [VOp o; x]) | _ => Raise EType end.
Definition ex_intps3 : list (nat * intp) := [(0, [(BOp 0, fun _ => Ret (VInt 5))]); (1, [(BApply, note)])]%nat.
Lemma example_apply :
  all_alike ex_defs ex_intps3 /\ covered ex_intps3 (EOp 0 [ELit 1]) /\ inside_ok ex_defs ex_intps3 (EOp 0 [ELit 1]) /\
  answer ex_defs ex_intps3 (SExpr 1 (EOp 0 [ELit 1])) (Ok (VTup [VOp (OBase (BOp 0)); VInt 1])).
Proof.
  split; [|split; [|split]].
  - intros q d D. cbn [ex_intps3 assoc] in D.
    assert (Df : forall m a a', alike ex_intps3 q (ex_defs m a) (ex_defs m a')) by (intros [|[|m]] a a'; repeat constructor).
    destruct (Nat.eqb_spec 0 q) as [<-|]; [injection D as <-|destruct (Nat.eqb_spec 1 q) as [<-|]; [injection D as <-|discriminate]];
      (split; [|auto]); intros b f a a'; cbn [find]; (destruct (bop_dec _ _); [|discriminate]); intros [= <-] F.
    + repeat constructor.
    + destruct F as [|v v' a a' V F]; [constructor|]. cbn [note].
      destruct V; try constructor. destruct F; repeat constructor; auto.
  - cbn; tauto.
  - cbn [inside_ok]. repeat split. intros. eexists. apply A_lit.
  - eapply A_op; [ans|]. eapply A_apply; [reflexivity|reflexivity|reflexivity|]. cbn. apply A_ret.
Qed.

Definition ex_intps4 : list (nat * intp) := [(0, [(BOp 0, fun _ => Call OArgsOf [VOp (OPrompt 1)] back)]); (1, [(BOp 0, one)])]%nat.
Lemma example_argsof : project ex_defs ex_intps4 20 0 (EOp 0 [ELit 1; ELit 2]) = Some (Ok (VTup [VTup [VInt 1; VInt 2]; VTup []])) /\
  all_tame ex_defs ex_intps4 /\ ~ In BApply (result_ops ex_intps4).
Proof.
  assert (N : ~ In BApply (result_ops ex_intps4)) by (cbn; intuition discriminate).
  split; [vm_compute; reflexivity|]. split; [|exact N].
  intros q d D. cbn [ex_intps4 assoc] in D.
  assert (Df : forall m a, tame ex_intps4 q (ex_defs m a)) by (intros [|[|m]] a; constructor).
  destruct (Nat.eqb_spec 0 q) as [<-|]; [injection D as <-|destruct (Nat.eqb_spec 1 q) as [<-|]; [injection D as <-|discriminate]];
    (split; [|auto]); intros b f a; cbn [find]; (destruct (bop_dec _ _); [|discriminate]); intros [= <-].
  - constructor; auto. intros [v|x0]; constructor.
  - unfold one. destruct a as [|x [|y [|]]]; constructor.
Qed.
