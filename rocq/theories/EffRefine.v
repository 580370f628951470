(** Simulation between the runtime (EffModel) and the reference semantics
    (EffSpec), in both directions. *)
From Coq Require Import List Bool Arith Lia String.
From Verif Require Import EffModel EffSpec EffProofs.
Import ListNotations.
Set Implicit Arguments.

Section Refine.
Variable W : Type.
Variable defs : cls -> nat -> bool * (args -> comp W).

Notation exec := (@exec W defs).
Notation ref := (@ref W defs).
Notation runs := (@runs W defs).
Notation closure := (closure W).
Notation dict := (dict W).
Notation elem := (elem W).
Notation env := (env W).
Notation sav := (@sav W defs).
Notation savl := (@savl W defs).
Notation stack := (@stack W defs).
Notation save_args := (@save_args W defs).
Notation restore_args := (@restore_args W defs).
Notation nullary := (@nullary W defs).

(** ** Which closures stand for which lists of functions *)

Inductive repr : closure -> list elem -> Prop :=
| R_base b : repr (CBase b) [mkelem false b]
| R_save c e l : repr c (e :: l) -> nullary c = false -> repr (CSave c) (sav e :: l)
| R_prompt cont body l1 l2 :
    repr cont l1 -> repr body l2 ->
    repr (CPrompt OFwd (restore_args cont) body) (l2 ++ l1).

Lemma repr_head c l : repr c l -> exists e l', l = e :: l' /\ nullary c = elem_nullary defs e.
Proof.
  induction 1 as [b|c e l H IH Hn|cont body l1 l2 H1 IH1 H2 IH2].
  - exists (mkelem false b), []. split; reflexivity.
  - exists (sav e), l. split; [reflexivity|].
    destruct IH as (e1 & l1 & Heq & Hnul). inversion Heq; subst. exact Hnul.
  - destruct IH2 as (e & l' & -> & Hnul). exists e, (l' ++ l1). split; [reflexivity|exact Hnul].
Qed.

Lemma repr_save c l : repr c l -> repr (save_args c) (savl l).
Proof.
  intros H. destruct (repr_head H) as (e & l' & -> & Hn).
  unfold EffModel.save_args. cbn [EffSpec.savl].
  destruct (nullary c) eqn:En.
  - unfold EffSpec.sav. rewrite <- Hn. cbn [negb]. rewrite orb_false_r.
    destruct e as [sv0 eb0]. exact H.
  - apply R_save; assumption.
Qed.

Definition orepr (c : option closure) (l : list elem) : Prop :=
  match c with None => l = [] | Some c => repr c l end.

Inductive fwrepr : closure -> op -> list elem -> Prop :=
| F_def o : fwrepr (CRestore (CDefault o)) o []
| F_cont next cont o l rest :
    fwrepr next o rest -> repr cont l ->
    fwrepr (CWith [(OFwd, next)] (restore_args cont)) o (l ++ rest).

Definition fwrel (c : option closure) (f : option (op * list elem)) : Prop :=
  match c, f with
  | None, None => True
  | Some c, Some (o, l) => fwrepr c o l
  | _, _ => False
  end.

Definition carel (c : option closure) (a : option args) : Prop :=
  match c, a with
  | None, None => True
  | Some c, Some a => c = CConst (enc_args a)
  | _, _ => False
  end.

Definition srel (d : dict) (E : env) : Prop :=
  (forall h, orepr (dget d (OH h)) (hs E h)) /\
  fwrel (dget d OFwd) (fw E) /\
  carel (dget d OGetArgs) (ca E).

Lemma srel_empty : srel [] (env0 W).
Proof. repeat split. Qed.

(** ** Interpretation expressions *)

Lemma orepr_stack (c1 c2 : option closure) l1 l2 :
  orepr c1 l1 -> orepr c2 l2 ->
  orepr match c2 with
        | Some i2 =>
            Some match c1 with
                 | Some i1 => CPrompt OFwd (restore_args (save_args i1)) (save_args i2)
                 | None => save_args i2
                 end
        | None => c1
        end (stack l1 l2).
Proof.
  intros H1 H2. destruct c2 as [i2|]; cbn [orepr] in H2.
  - pose proof (repr_save H2) as Hs2.
    destruct (repr_head H2) as (e & l' & -> & _). cbn [EffSpec.stack].
    destruct c1 as [i1|]; cbn [orepr] in H1 |- *.
    + apply R_prompt; [apply repr_save; exact H1|exact Hs2].
    + subst l1. cbn [EffSpec.savl]. rewrite app_nil_r. exact Hs2.
  - subst l2. cbn [EffSpec.stack]. exact H1.
Qed.

Lemma lookup_lit_none (d : list (hop * base W)) h : 
  lookup_lit d h = None <-> ~ In h (map fst d).
Proof.
  induction d as [|[h' b] d IH]; cbn [lookup_lit map fst In].
  - split; auto.
  - destruct (lookup_lit d h) eqn:E.
    + split; [discriminate|]. intros H. exfalso. 
      assert (Hn : ~ In h (map fst d)) by (intros Hi; apply H; right; exact Hi).
      apply IH in Hn. discriminate.
    + destruct (hop_eq_dec h' h) as [Eh|Eh].
      * split; [discriminate|]. intros H. exfalso. apply H. left. exact Eh.
      * split; [|reflexivity]. intros _ [Hi|Hi]; [contradiction|]. apply IH in Hi; [exact Hi|reflexivity].
Qed.

Lemma lit_get (d : list (hop * base W)) : forall (acc : dict) h,
  dget (fold_left (fun acc p => dset acc (OH (fst p)) (CBase (snd p))) d acc) (OH h) =
  match lookup_lit d h with Some b => Some (CBase b) | None => dget acc (OH h) end.
Proof.
  induction d as [|[h' b] d IH]; intros acc h; cbn [fold_left lookup_lit fst snd]; [reflexivity|].
  rewrite IH. destruct (lookup_lit d h); [reflexivity|].
  destruct (hop_eq_dec h' h) as [E|E].
  - subst. apply dget_dset_same.
  - apply dget_dset_other. congruence.
Qed.

Lemma lit_get_special (d : list (hop * base W)) o : special o = true -> forall (acc : dict),
  dget (fold_left (fun acc p => dset acc (OH (fst p)) (CBase (snd p))) d acc) o = dget acc o.
Proof.
  intros Hs. induction d as [|[h' b] d IH]; intros acc; cbn [fold_left fst snd]; [reflexivity|].
  rewrite IH. apply dget_dset_other. intros He. subst. discriminate.
Qed.

Lemma idict_special (i : iexp W) o : special o = true -> dget (idict defs i) o = None.
Proof.
  intros Hs. induction i as [d|i IHi j IHj]; cbn [idict].
  - rewrite (lit_get_special d o Hs). reflexivity.
  - rewrite coproduct_get by apply nodup_idict. rewrite IHj. exact IHi.
Qed.

Lemma idict_repr (i : iexp W) h : orepr (dget (idict defs i) (OH h)) (provides defs i h).
Proof.
  induction i as [d|i IHi j IHj]; cbn [idict provides].
  - rewrite lit_get. destruct (lookup_lit d h); cbn [orepr dget]; [apply R_base|reflexivity].
  - rewrite coproduct_get by apply nodup_idict.
    pose proof (@orepr_stack _ _ _ _ IHi IHj) as H.
    destruct (dget (idict defs j) (OH h)); exact H.
Qed.

Lemma srel_enter m (i : iexp W) d E : srel d E ->
  srel match m with MHandler => coproduct defs d (idict defs i) | MInterp => idict defs i end
       (enter defs m i E).
Proof.
  intros (Hh & Hf & Ha). destruct m; unfold srel; cbn [enter hs fw ca].
  - split; [|split].
    + intros h. rewrite coproduct_get by apply nodup_idict.
      pose proof (@orepr_stack _ _ _ _ (Hh h) (idict_repr i h)) as H.
      destruct (dget (idict defs i) (OH h)); exact H.
    + rewrite coproduct_get by apply nodup_idict. rewrite idict_special by reflexivity. exact Hf.
    + rewrite coproduct_get by apply nodup_idict. rewrite idict_special by reflexivity. exact Ha.
  - split; [intros h; apply idict_repr|].
    rewrite !idict_special by reflexivity. split; exact I.
Qed.

Lemma srel_set_fw d E c o l : srel d E -> fwrepr c o l ->
  srel (coproduct defs d [(OFwd, c)]) (set_fw E (o, l)).
Proof.
  intros (Hh & Hf & Ha) Hc. unfold srel, set_fw; cbn [hs fw ca].
  rewrite !coproduct_single. split; [|split].
  - intros h. rewrite coproduct_single. destruct (op_eq_dec OFwd (OH h)); [discriminate|apply Hh].
  - destruct (op_eq_dec OFwd OFwd); [|congruence]. cbn [cop_val special fwrel]. exact Hc.
  - destruct (op_eq_dec OFwd OGetArgs); [discriminate|exact Ha].
Qed.

Lemma srel_set_ca d E a : srel d E ->
  srel (coproduct defs d [(OGetArgs, CConst (enc_args a))]) (set_ca E a).
Proof.
  intros (Hh & Hf & Ha). unfold srel, set_ca; cbn [hs fw ca].
  rewrite !coproduct_single. split; [|split].
  - intros h. rewrite coproduct_single. destruct (op_eq_dec OGetArgs (OH h)); [discriminate|apply Hh].
  - destruct (op_eq_dec OGetArgs OFwd); [discriminate|exact Hf].
  - destruct (op_eq_dec OGetArgs OGetArgs); [|congruence]. reflexivity.
Qed.

(** LookOp agrees. *)
Lemma repr_lookop c l : repr c l ->
  match c with CBase (BOp o') => Some o' | _ => None end =
  match l with [mkelem false (BOp o')] => Some o' | _ => None end.
Proof.
  intros H. destruct H as [b|c e l H Hn|cont body l1 l2 H1 H2].
  - destruct b; reflexivity.
  - destruct (repr_head H) as (e1 & l1 & Heq & Hnul). inversion Heq; subst e1 l1.
    unfold EffSpec.sav. rewrite <- Hnul, Hn. cbn [negb]. rewrite orb_true_r. reflexivity.
  - destruct (repr_head H1) as (e1 & r1 & -> & _). destruct (repr_head H2) as (e2 & r2 & -> & _).
    cbn [app]. destruct e2 as [[] []]; destruct r2; reflexivity.
Qed.

Lemma lookop_agree d E o : srel d E ->
  match dget d o with Some (CBase (BOp o')) => o' | _ => o end =
  match o with
  | OH h => match hs E h with [mkelem false (BOp o')] => o' | _ => o end
  | _ => o
  end.
Proof.
  intros (Hh & Hf & Ha). destruct o as [h| |].
  - specialize (Hh h). destruct (dget d (OH h)) as [c|]; cbn [orepr] in Hh.
    + pose proof (repr_lookop Hh) as H.
      destruct c as [[nul f|o']| | | | | |];
        destruct (hs E h) as [|[[] [nul2 f2|o2]] [|e2 l2]]; try reflexivity; try discriminate;
        inversion H; reflexivity.
    + rewrite Hh. reflexivity.
  - destruct (dget d OFwd) as [c|]; [|reflexivity]. cbn [fwrel] in Hf.
    destruct (fw E) as [[o l]|]; [|contradiction].
    destruct Hf as [o|next cont o l rest H1 H2]; reflexivity.
  - destruct (dget d OGetArgs) as [c|]; [|reflexivity]. cbn [carel] in Ha.
    destruct (ca E) as [a|]; [|contradiction]. subst. reflexivity.
Qed.

(** ** Rules for [runs] *)

Lemma runs_Ret E v w : runs E (RComp (Ret v)) w (Ok v) w.
Proof. exists 1. reflexivity. Qed.
Lemma runs_Raise E e w : runs E (RComp (Raise e)) w (Exn e) w.
Proof. exists 1. reflexivity. Qed.

Lemma runs_Act E f k w r w' :
  runs E (RComp (k (fst (f w)))) (snd (f w)) r w' -> runs E (RComp (Act f k)) w r w'.
Proof.
  intros (n & H). exists (S n). cbn [EffSpec.ref]. destruct (f w) as [r1 w1]. exact H.
Qed.

Lemma runs_Call E o a k w r1 w1 r w' :
  runs E (ROp W o a) w r1 w1 -> runs E (RComp (k r1)) w1 r w' ->
  runs E (RComp (Call o a k)) w r w'.
Proof.
  intros (n & H1) (m & H2). exists (S (max n m)). cbn [EffSpec.ref].
  rewrite (@ref_mono W defs n (max n m) _ _ _ _ ltac:(lia) H1).
  apply (@ref_mono W defs m); [lia|exact H2].
Qed.

Lemma runs_Scope E md i b k w r1 w1 r w' :
  runs (enter defs md i E) (RComp b) w r1 w1 -> runs E (RComp (k r1)) w1 r w' ->
  runs E (RComp (Scope md i b k)) w r w'.
Proof.
  intros (n & H1) (m & H2). exists (S (max n m)). cbn [EffSpec.ref].
  rewrite (@ref_mono W defs n (max n m) _ _ _ _ ltac:(lia) H1).
  apply (@ref_mono W defs m); [lia|exact H2].
Qed.

Lemma runs_step E t w r w' E' t' :
  (forall n, ref (S n) E t w = ref n E' t' w) -> runs E' t' w r w' -> runs E t w r w'.
Proof. intros He (n & H). exists (S n). rewrite He. exact H. Qed.

Lemma runs_done E t w r w' : ref 1 E t w = Some (r, w') -> runs E t w r w'.
Proof. intros H. exists 1. exact H. Qed.

Lemma runs_Default E o a w r w' :
  runs E (RDef W o a) w r w' ->
  runs E (RDefault W o a) w
    match r with Exn ENotHandled => Ok (VTerm o (pos a) (kws a)) | _ => r end w'.
Proof.
  intros (n & H). exists (S n). cbn [EffSpec.ref]. rewrite H. destruct r as [v|[]]; reflexivity.
Qed.

(** resolving arguments, as a relation *)
Definition args_outcome (r : outcome) : outcome + args :=
  match r with
  | Ok v => match dec_args v with Some a => inr a | None => inl (Exn EType) end
  | Exn e => inl (Exn e)
  end.

Lemma runs_FwdNext E o e rest a w r w' :
  fw E = Some (o, e :: rest) -> (elem_nullary defs e = true \/ nonempty a = true) ->
  runs (set_fw E (o, rest)) (RElem e a) w r w' -> runs E (ROp W OFwd a) w r w'.
Proof.
  intros Hf Hc (n & H). exists (S n). cbn [EffSpec.ref]. rewrite Hf.
  destruct (elem_nullary defs e); [exact H|]. destruct Hc as [Hc|Hc]; [discriminate|].
  unfold resolve. rewrite Hc. exact H.
Qed.

Lemma runs_FwdNext_args E o e rest a w r1 w1 r w' :
  fw E = Some (o, e :: rest) -> elem_nullary defs e = false -> nonempty a = false ->
  runs (set_fw E (o, rest)) (ROp W OGetArgs noargs) w r1 w1 ->
  match args_outcome r1 with
  | inl x => r = x /\ w' = w1
  | inr a' => runs (set_fw E (o, rest)) (RElem e a') w1 r w'
  end ->
  runs E (ROp W OFwd a) w r w'.
Proof.
  intros Hf Hn Ha (n & H1) H2.
  destruct r1 as [v|x]; cbn [args_outcome] in H2.
  - destruct (dec_args v) as [a'|] eqn:Ed.
    + destruct H2 as (m & H2). exists (S (max n m)). cbn [EffSpec.ref]. rewrite Hf, Hn.
      unfold resolve. rewrite Ha.
      rewrite (@ref_mono W defs n (max n m) _ _ _ _ ltac:(lia) H1). rewrite Ed.
      apply (@ref_mono W defs m); [lia|exact H2].
    + destruct H2 as [-> ->]. exists (S n). cbn [EffSpec.ref]. rewrite Hf, Hn.
      unfold resolve. rewrite Ha, H1, Ed. reflexivity.
  - destruct H2 as [-> ->]. exists (S n). cbn [EffSpec.ref]. rewrite Hf, Hn.
    unfold resolve. rewrite Ha, H1. reflexivity.
Qed.

Lemma runs_FwdDef E o a w r w' :
  fw E = Some (o, []) -> nonempty a = true ->
  runs (set_fw E (OFwd, [])) (RDefault W o a) w r w' -> runs E (ROp W OFwd a) w r w'.
Proof.
  intros Hf Hc (n & H). exists (S n). cbn [EffSpec.ref]. rewrite Hf.
  unfold resolve. rewrite Hc. exact H.
Qed.

Lemma runs_FwdDef_args E o a w r1 w1 r w' :
  fw E = Some (o, []) -> nonempty a = false ->
  runs (set_fw E (OFwd, [])) (ROp W OGetArgs noargs) w r1 w1 ->
  match args_outcome r1 with
  | inl x => r = x /\ w' = w1
  | inr a' => runs (set_fw E (OFwd, [])) (RDefault W o a') w1 r w'
  end ->
  runs E (ROp W OFwd a) w r w'.
Proof.
  intros Hf Ha (n & H1) H2.
  destruct r1 as [v|x]; cbn [args_outcome] in H2.
  - destruct (dec_args v) as [a'|] eqn:Ed.
    + destruct H2 as (m & H2). exists (S (max n m)). cbn [EffSpec.ref]. rewrite Hf.
      unfold resolve. rewrite Ha.
      rewrite (@ref_mono W defs n (max n m) _ _ _ _ ltac:(lia) H1). rewrite Ed.
      apply (@ref_mono W defs m); [lia|exact H2].
    + destruct H2 as [-> ->]. exists (S n). cbn [EffSpec.ref]. rewrite Hf.
      unfold resolve. rewrite Ha, H1, Ed. reflexivity.
  - destruct H2 as [-> ->]. exists (S n). cbn [EffSpec.ref]. rewrite Hf.
    unfold resolve. rewrite Ha, H1. reflexivity.
Qed.

(** Looking up the current arguments does not depend on what [fwd] is. *)
Lemma apply_of_getargs : apply_of OGetArgs = OH (HApply []).
Proof. reflexivity. Qed.

Lemma getargs_fw n E x y w :
  ref n (set_fw E x) (ROp W OGetArgs noargs) w = ref n (set_fw E y) (ROp W OGetArgs noargs) w.
Proof.
  destruct n as [|n]; [reflexivity|]. cbn [EffSpec.ref set_fw ca].
  destruct (ca E); [reflexivity|].
  destruct n as [|n]; [reflexivity|]. cbn [EffSpec.ref pos kws noargs].
  destruct n as [|n]; [reflexivity|]. unfold apply_of; cbn [cls_of].
  cbn [EffSpec.ref hs set_fw].
  destruct (hs E (HApply [])); [|reflexivity].
  destruct n as [|n]; [reflexivity|]. cbn [EffSpec.ref pos kws].
  unfold apply_of; cbn [cls_of]. destruct (op_eq_dec (OH (HApply [])) (OH (HApply []))); [|congruence].
  destruct n as [|n]; [reflexivity|]. cbn [EffSpec.ref pos kws].
  destruct n as [|n]; [reflexivity|]. cbn [EffSpec.ref pos kws].
  destruct n as [|n]; [reflexivity|]. cbn [EffSpec.ref pos kws nonempty]. reflexivity.
Qed.

Lemma runs_getargs_fw E x y w r w' :
  runs (set_fw E x) (ROp W OGetArgs noargs) w r w' ->
  runs (set_fw E y) (ROp W OGetArgs noargs) w r w'.
Proof. intros (n & H). exists n. rewrite (getargs_fw n E y x). exact H. Qed.

Lemma set_fw_fw (E : env) x y : set_fw (set_fw E x) y = set_fw E y.
Proof. reflexivity. Qed.

Lemma set_fw_id (E : env) x : fw E = Some x -> set_fw E x = E.
Proof. intros H. destruct E as [h f c]. cbn in *. subst. reflexivity. Qed.

(** Saving arguments at the head of a list. *)
Lemma runs_sav E e a w r w' :
  elem_nullary defs e = false ->
  runs (set_ca E a) (RElem e a) w r w' -> runs E (RElem (sav e) a) w r w'.
Proof.
  intros Hn (n & H). exists n. destruct n as [|n]; [discriminate|].
  cbn [EffSpec.ref] in *. unfold EffSpec.sav; cbn [sv eb]. rewrite Hn. cbn [negb].
  rewrite orb_true_r.
  assert (Hcc : set_ca (set_ca E a) a = set_ca E a) by reflexivity.
  destruct (sv e); [rewrite Hcc in H|]; exact H.
Qed.

Lemma runs_sav_inv E e a w r w' :
  elem_nullary defs e = false ->
  runs E (RElem (sav e) a) w r w' -> runs (set_ca E a) (RElem e a) w r w'.
Proof.
  intros Hn (n & H). exists n. destruct n as [|n]; [discriminate|].
  cbn [EffSpec.ref] in *. unfold EffSpec.sav in H; cbn [sv eb] in H. rewrite Hn in H. cbn [negb] in H.
  rewrite orb_true_r in H.
  assert (Hcc : set_ca (set_ca E a) a = set_ca E a) by reflexivity.
  destruct (sv e); [rewrite Hcc|]; exact H.
Qed.

(** ** Runtime to reference *)

Inductive trel : task W -> state W -> env -> rtask W -> Prop :=
| T_comp c s E : srel (intp s) E -> trel (TComp c) s E (RComp c)
| T_op o a s E : srel (intp s) E -> trel (TOp o a) s E (ROp W o a)
| T_def o a s E : srel (intp s) E -> trel (TDef o a) s E (RDef W o a)
| T_default o a s E : srel (intp s) E -> trel (TClo (CDefault o) a) s E (RDefault W o a)
| T_clo c e l o rest a s E :
    repr c (e :: l) -> srel (intp s) (set_fw E (o, rest)) ->
    trel (TClo c a) s (set_fw E (o, l ++ rest)) (RElem e a).

Lemma with_interpreter_inv run d (s : state W) r s' :
  with_interpreter run d s = Some (r, s') ->
  exists s1, run (mkst d (world s)) = Some (r, s1) /\ world s1 = world s' /\ intp s' = intp s.
Proof.
  unfold with_interpreter. destruct (run _) as [[r1 s1]|] eqn:E; [|discriminate].
  intros H; inversion H; subst. exists s1. repeat split; reflexivity.
Qed.

Lemma restore_not_default cont o l : repr cont l -> restore_args cont <> CDefault o.
Proof.
  unfold EffModel.restore_args. intros H. destruct (nullary cont); [|discriminate].
  intros He. subst. inversion H.
Qed.

Theorem exec_to_ref n : forall t s E rt r s',
  trel t s E rt -> exec n t s = Some (r, s') -> runs E rt (world s) r (world s').
Proof.
  induction n as [n IH] using lt_wf_ind. intros t s E rt r s' Ht H.
  destruct n as [|n]; [discriminate|].
  assert (IHn : forall t s E rt r s', trel t s E rt -> exec n t s = Some (r, s') ->
            runs E rt (world s) r (world s')) by (intros; eapply IH; eauto).
  destruct Ht as [c s E Hs|o a s E Hs|o a s E Hs|o a s E Hs|c e l o rest a s E Hr Hs].
  - (* computation *)
    destruct c as [v|e|f k|o a k|md i body k|o k]; cbn [EffModel.exec] in H.
    + inversion H; subst. apply runs_Ret.
    + inversion H; subst. apply runs_Raise.
    + apply runs_Act. destruct (f (world s)) as [r1 w1]; cbn [fst snd].
      apply (IHn _ (mkst (intp s) w1) E (RComp (k r1))) in H; [exact H|]. apply T_comp. exact Hs.
    + destruct (exec n (TOp o a) s) as [[r1 s1]|] eqn:Eo; [|discriminate].
      pose proof (exec_restores _ _ _ _ Eo) as Hi.
      apply (@runs_Call E o a k (world s) r1 (world s1) r (world s')).
      * apply (IHn _ _ _ _ _ _ (@T_op o a s _ Hs) Eo).
      * apply (IHn _ _ _ _ _ _ (@T_comp (k r1) s1 _ ltac:(rewrite Hi; exact Hs)) H).
    + pose proof (@srel_enter md i _ _ Hs) as He.
      destruct md.
      * unfold with_handler in H.
        destruct (with_interpreter _ _ _) as [[r1 s1]|] eqn:Eo; [|discriminate].
        apply with_interpreter_inv in Eo. destruct Eo as (s2 & Eo & Hw & Hi).
        apply (@runs_Scope E MHandler i body k (world s) r1 (world s1) r (world s')).
        -- rewrite <- Hw. exact (IHn _ _ _ _ _ _ (@T_comp body (mkst _ (world s)) _ He) Eo).
        -- apply (IHn _ _ _ _ _ _ (@T_comp (k r1) s1 _ ltac:(rewrite Hi; exact Hs)) H).
      * destruct (with_interpreter _ _ _) as [[r1 s1]|] eqn:Eo; [|discriminate].
        apply with_interpreter_inv in Eo. destruct Eo as (s2 & Eo & Hw & Hi).
        apply (@runs_Scope E MInterp i body k (world s) r1 (world s1) r (world s')).
        -- rewrite <- Hw. exact (IHn _ _ _ _ _ _ (@T_comp body (mkst _ (world s)) _ He) Eo).
        -- apply (IHn _ _ _ _ _ _ (@T_comp (k r1) s1 _ ltac:(rewrite Hi; exact Hs)) H).
    + rewrite (@lookop_agree _ _ o Hs) in H.
      eapply runs_step; [intros m; cbn [EffSpec.ref]; reflexivity|].
      exact (IHn _ _ _ _ _ _ (@T_comp _ s _ Hs) H).
  - (* operation call *)
    cbn [EffModel.exec] in H.
    destruct (dget (intp s) o) as [h|] eqn:Eh.
    + (* handled *)
      unfold with_handler in H. apply with_interpreter_inv in H.
      destruct H as (s1 & H & Hw & Hi). rewrite <- Hw.
      assert (Hrest : restore_args (@CDefault W o) = CRestore (CDefault o)) by reflexivity.
      rewrite Hrest in H.
      pose proof (@srel_set_fw _ _ _ _ _ Hs (F_def o)) as Hsf.
      destruct o as [h0| |].
      * (* user operation *)
        pose proof (proj1 Hs h0) as Hr. rewrite Eh in Hr. cbn [orepr] in Hr.
        destruct (repr_head Hr) as (e & l & Hl & _). rewrite Hl in Hr.
        eapply runs_step; [intros m; cbn [EffSpec.ref]; rewrite Hl; reflexivity|].
        assert (HT : trel (TClo h a) (mkst (coproduct defs (intp s) [(OFwd, CRestore (CDefault (OH h0)))]) (world s))
                          (set_fw E (OH h0, l)) (RElem e a)).
        { rewrite <- (app_nil_r l). apply T_clo; [exact Hr|exact Hsf]. }
        exact (IHn _ _ _ _ _ _ HT H).
      * (* fwd *)
        pose proof (proj1 (proj2 Hs)) as Hf. rewrite Eh in Hf.
        destruct (fw E) as [[o l]|] eqn:Ef; cbn [fwrel] in Hf; [|contradiction].
        set (d1 := coproduct defs (intp s) [(OFwd, CRestore (CDefault OFwd))]) in *.
        destruct Hf as [o|next cont o l rest Hnext Hcont].
        -- (* default *)
           destruct n as [|n]; [discriminate|]. cbn [EffModel.exec] in H.
           destruct (nonempty a) eqn:Ea.
           ++ apply (@runs_FwdDef E o a (world s) r (world s1) Ef Ea).
              apply (IH n ltac:(lia) _ _ _ _ _ _ (@T_default o a (mkst d1 (world s)) _ Hsf) H).
           ++ destruct (exec n (TOp OGetArgs noargs) (mkst d1 (world s))) as [[r1 s2]|] eqn:Eg; [|discriminate].
              pose proof (exec_restores _ _ _ _ Eg) as Hi2. cbn [intp] in Hi2.
              apply (@runs_FwdDef_args E o a (world s) r1 (world s2) r (world s1) Ef Ea).
              ** exact (IH n ltac:(lia) _ _ _ _ _ _ (@T_op _ _ (mkst d1 (world s)) _ Hsf) Eg).
              ** destruct r1 as [v|x]; cbn [args_outcome].
                 --- destruct (dec_args v) as [a'|].
                     +++ apply (IH n ltac:(lia) _ _ _ _ _ _ (@T_default o a' s2 _ ltac:(rewrite Hi2; exact Hsf)) H).
                     +++ inversion H; subst. split; reflexivity.
                 --- inversion H; subst. split; reflexivity.
        -- (* next functions *)
           destruct n as [|n]; [discriminate|]. cbn [EffModel.exec] in H.
           unfold with_handler in H. apply with_interpreter_inv in H.
           destruct H as (s2 & H & Hw2 & Hi2). rewrite <- Hw2. cbn [world intp] in H.
           pose proof (@srel_set_fw _ _ _ _ _ Hsf Hnext) as Hsf2. rewrite set_fw_fw in Hsf2.
           set (d2 := coproduct defs d1 [(OFwd, next)]) in *.
           destruct (repr_head Hcont) as (e & l' & Hl & Hn). subst l.
           cbn [app] in Ef.
           unfold EffModel.restore_args in H. rewrite Hn in H.
           destruct (elem_nullary defs e) eqn:En.
           ++ apply (@runs_FwdNext E o e (l' ++ rest) a (world s) r (world s2) Ef (or_introl En)).
              exact (IH n ltac:(lia) _ _ _ _ _ _ (@T_clo _ _ _ _ _ a (mkst d2 (world s)) E Hcont Hsf2) H).
           ++ destruct n as [|n]; [discriminate|]. cbn [EffModel.exec] in H.
              destruct (nonempty a) eqn:Ea.
              ** apply (@runs_FwdNext E o e (l' ++ rest) a (world s) r (world s2) Ef (or_intror Ea)).
                 exact (IH n ltac:(lia) _ _ _ _ _ _ (@T_clo _ _ _ _ _ a (mkst d2 (world s)) E Hcont Hsf2) H).
              ** destruct (exec n (TOp OGetArgs noargs) (mkst d2 (world s))) as [[r1 s3]|] eqn:Eg; [|discriminate].
                 pose proof (exec_restores _ _ _ _ Eg) as Hi3. cbn [intp] in Hi3.
                 apply (@runs_FwdNext_args E o e (l' ++ rest) a (world s) r1 (world s3) r (world s2) Ef En Ea).
                 --- apply runs_getargs_fw with (x := (o, rest)).
                     exact (IH n ltac:(lia) _ _ _ _ _ _ (@T_op _ _ (mkst d2 (world s)) _ Hsf2) Eg).
                 --- destruct r1 as [v|x]; cbn [args_outcome].
                     +++ destruct (dec_args v) as [a'|].
                         *** assert (Hs3 : srel (intp s3) (set_fw E (o, rest))) by (rewrite Hi3; exact Hsf2).
                             exact (IH n ltac:(lia) _ _ _ _ _ _ (@T_clo _ _ _ _ _ a' s3 E Hcont Hs3) H).
                         *** inversion H; subst. split; reflexivity.
                     +++ inversion H; subst. split; reflexivity.
      * (* _get_args *)
        pose proof (proj2 (proj2 Hs)) as Ha. rewrite Eh in Ha.
        destruct (ca E) as [a0|] eqn:Ec; cbn [carel] in Ha; [|contradiction]. subst h.
        destruct n as [|n]; [discriminate|]. cbn [EffModel.exec] in H.
        apply runs_done. cbn [EffSpec.ref]. rewrite Ec.
        destruct (nonempty a); inversion H; reflexivity.
    + (* unhandled *)
      assert (Hu : runs E (RUnh W o a) (world s) r (world s')).
      { destruct (pos a) as [|v l] eqn:Ep.
        { eapply runs_step; [intros m; cbn [EffSpec.ref]; rewrite Ep; reflexivity|].
          exact (IHn _ _ _ _ _ _ (@T_op _ _ s _ Hs) H). }
        destruct v as [| | |o1| | |];
          try (eapply runs_step; [intros m; cbn [EffSpec.ref]; rewrite Ep; reflexivity|];
               exact (IHn _ _ _ _ _ _ (@T_op _ _ s _ Hs) H)).
        destruct (op_eq_dec o (apply_of o1)) as [Eo|Eo].
        - eapply runs_step; [intros m; cbn [EffSpec.ref]; rewrite Ep;
            destruct (op_eq_dec o (apply_of o1)); [reflexivity|contradiction]|].
          exact (IHn _ _ _ _ _ _ (@T_def _ _ s _ Hs) H).
        - eapply runs_step; [intros m; cbn [EffSpec.ref]; rewrite Ep;
            destruct (op_eq_dec o (apply_of o1)); [contradiction|reflexivity]|].
          exact (IHn _ _ _ _ _ _ (@T_op _ _ s _ Hs) H). }
      destruct Hs as (Hh & Hf & Ha).
      destruct o as [h| |].
      * specialize (Hh h). rewrite Eh in Hh. cbn [orepr] in Hh.
        eapply runs_step; [intros m; cbn [EffSpec.ref]; rewrite Hh; reflexivity|exact Hu].
      * rewrite Eh in Hf. destruct (fw E) as [[o l]|] eqn:Ef; cbn [fwrel] in Hf; [contradiction|].
        eapply runs_step; [intros m; cbn [EffSpec.ref]; rewrite Ef; reflexivity|exact Hu].
      * rewrite Eh in Ha. destruct (ca E) as [a0|] eqn:Ec; cbn [carel] in Ha; [contradiction|].
        eapply runs_step; [intros m; cbn [EffSpec.ref]; rewrite Ec; reflexivity|exact Hu].
  - (* default body *)
    destruct o as [[c i|[|x c]]| |]; cbn [EffModel.exec] in H.
    + destruct (defs c i) as [nul f] eqn:Ed.
      destruct (nul && nonempty a) eqn:Ena.
      * inversion H; subst. apply runs_done. cbn [EffSpec.ref]. rewrite Ed, Ena. reflexivity.
      * eapply runs_step; [intros m; cbn [EffSpec.ref]; rewrite Ed, Ena; reflexivity|].
        exact (IHn _ _ _ _ _ _ (@T_comp _ s _ Hs) H).
    + destruct (pos a) as [|v l] eqn:Ep.
      * inversion H; subst. apply runs_done. cbn [EffSpec.ref]. rewrite Ep. reflexivity.
      * destruct v;
          try (inversion H; subst; apply runs_done; cbn [EffSpec.ref]; rewrite Ep; reflexivity).
        eapply runs_step; [intros m; cbn [EffSpec.ref]; rewrite Ep; reflexivity|].
        exact (IHn _ _ _ _ _ _ (@T_default _ _ s _ Hs) H).
    + destruct (pos a) as [|v l] eqn:Ep.
      * inversion H; subst. apply runs_done. cbn [EffSpec.ref]. rewrite Ep. reflexivity.
      * eapply runs_step; [intros m; cbn [EffSpec.ref]; rewrite Ep; reflexivity|].
        exact (IHn _ _ _ _ _ _ (@T_op _ _ s _ Hs) H).
    + inversion H; subst. apply runs_done. reflexivity.
    + apply runs_done. cbn [EffSpec.ref]. destruct (nonempty a); inversion H; reflexivity.
  - (* default rule *)
    cbn [EffModel.exec] in H.
    destruct (exec n (TDef o a) s) as [[r1 s1]|] eqn:Eo; [|discriminate].
    pose proof (@runs_Default _ _ _ _ _ _ (IHn _ _ _ _ _ _ (@T_def o a s _ Hs) Eo)) as Hd.
    destruct r1 as [v|[]]; inversion H; subst; exact Hd.
  - (* installed function *)
    inversion Hr as [b He|c0 e0 l0 Hr0 Hn0 Hc He|cont body l1 l2 H1 H2 Hc He]; subst; clear Hr.
    + (* base *)
      cbn [app]. destruct b as [nul f|o1]; cbn [EffModel.exec] in H.
      * destruct (nul && nonempty a) eqn:Ena.
        -- inversion H; subst. apply runs_done. cbn [EffSpec.ref sv eb]. rewrite Ena. reflexivity.
        -- eapply runs_step; [intros m; cbn [EffSpec.ref sv eb]; rewrite Ena; reflexivity|].
           exact (IHn _ _ _ _ _ _ (@T_comp _ s _ Hs) H).
      * eapply runs_step; [intros m; cbn [EffSpec.ref sv eb]; reflexivity|].
        exact (IHn _ _ _ _ _ _ (@T_op _ _ s _ Hs) H).
    + (* saved arguments *)
      cbn [EffModel.exec] in H. unfold with_handler in H. apply with_interpreter_inv in H.
      destruct H as (s1 & H & Hw & _). rewrite <- Hw.
      destruct (repr_head Hr0) as (e1 & l1 & Heq & Hn1). inversion Heq; subst e1 l1; clear Heq.
      apply runs_sav; [congruence|].
      pose proof (@srel_set_ca _ _ a Hs) as Hsa.
      change (set_ca (set_fw E (o, l ++ rest)) a) with (set_fw (set_ca E a) (o, l ++ rest)).
      change (set_ca (set_fw E (o, rest)) a) with (set_fw (set_ca E a) (o, rest)) in Hsa.
      exact (IHn _ _ _ _ _ _ (@T_clo _ _ _ _ _ a (mkst _ (world s)) (set_ca E a) Hr0 Hsa) H).
    + (* prompt *)
      cbn [EffModel.exec] in H.
      pose proof (proj1 (proj2 Hs)) as Hf. cbn [set_fw fw] in Hf.
      destruct (dget (intp s) OFwd) as [next|] eqn:En; cbn [fwrel] in Hf; [|contradiction].
      unfold with_handler in H. apply with_interpreter_inv in H.
      destruct H as (s1 & H & Hw & _). rewrite <- Hw.
      pose proof (@srel_set_fw _ _ _ _ _ Hs (F_cont Hf H1)) as Hsf. rewrite set_fw_fw in Hsf.
      destruct (repr_head H2) as (e1 & l3 & Heq & _). subst l2. cbn [app] in He.
      inversion He; subst e1 l; clear He. rewrite <- app_assoc.
      exact (IHn _ _ _ _ _ _ (@T_clo _ _ _ _ _ a (mkst _ (world s)) E H2 Hsf) H).
Qed.

(** ** Reference to runtime *)

Definition evals (t : task W) (s : state W) (r : outcome) (w' : W) : Prop :=
  exists m, exec m t s = Some (r, mkst (intp s) w').

Lemma evals_of m t s r s' : exec m t s = Some (r, s') -> evals t s r (world s').
Proof.
  intros H. exists m. rewrite H. rewrite <- (exec_restores _ _ _ _ H). destruct s'; reflexivity.
Qed.

Lemma evals_step t s r w' t' :
  (forall n, exec (S n) t s = exec n t' s) -> evals t' s r w' -> evals t s r w'.
Proof. intros He (n & H). exists (S n). rewrite He. exact H. Qed.

Lemma evals_handler t s r w' t' d :
  (forall n, exec (S n) t s = with_handler defs (exec n t') d s) ->
  evals t' (mkst (coproduct defs (intp s) d) (world s)) r w' -> evals t s r w'.
Proof.
  intros He (n & H). exists (S n). rewrite He. unfold with_handler, with_interpreter.
  rewrite H. reflexivity.
Qed.

Lemma evals_Call s o a k r1 w1 r w' :
  evals (TOp o a) s r1 w1 -> evals (TComp (k r1)) (mkst (intp s) w1) r w' ->
  evals (TComp (Call o a k)) s r w'.
Proof.
  intros (n & H1) (m & H2). exists (S (max n m)). cbn [EffModel.exec].
  rewrite (@exec_mono W defs n (max n m) _ _ _ ltac:(lia) H1).
  apply (@exec_mono W defs m); [lia|exact H2].
Qed.

Lemma evals_Scope s md i b k r1 w1 r w' :
  evals (TComp b) (mkst match md with
                        | MHandler => coproduct defs (intp s) (idict defs i)
                        | MInterp => idict defs i end (world s)) r1 w1 ->
  evals (TComp (k r1)) (mkst (intp s) w1) r w' ->
  evals (TComp (Scope md i b k)) s r w'.
Proof.
  intros (n & H1) (m & H2). exists (S (max n m)). cbn [EffModel.exec].
  destruct md; unfold with_handler, with_interpreter;
    rewrite (@exec_mono W defs n (max n m) _ _ _ ltac:(lia) H1);
    apply (@exec_mono W defs m); try lia; exact H2.
Qed.

Lemma evals_Default s o a r w' :
  evals (TDef o a) s r w' ->
  evals (TClo (CDefault o) a) s
    match r with Exn ENotHandled => Ok (VTerm o (pos a) (kws a)) | _ => r end w'.
Proof.
  intros (n & H). exists (S n). cbn [EffModel.exec]. rewrite H. destruct r as [v|[]]; reflexivity.
Qed.

Lemma evals_Restore s c a r1 w1 r w' : nonempty a = false ->
  evals (TOp OGetArgs noargs) s r1 w1 ->
  match args_outcome r1 with
  | inl x => r = x /\ w' = w1
  | inr a' => evals (TClo c a') (mkst (intp s) w1) r w'
  end ->
  evals (TClo (CRestore c) a) s r w'.
Proof.
  intros Ha (n & H1) H2.
  destruct r1 as [v|x]; cbn [args_outcome] in H2.
  - destruct (dec_args v) as [a'|] eqn:Ed.
    + destruct H2 as (m & H2). exists (S (max n m)). cbn [EffModel.exec]. rewrite Ha.
      rewrite (@exec_mono W defs n (max n m) _ _ _ ltac:(lia) H1). rewrite Ed.
      apply (@exec_mono W defs m); [lia|exact H2].
    + destruct H2 as [-> ->]. exists (S n). cbn [EffModel.exec]. rewrite Ha, H1, Ed. reflexivity.
  - destruct H2 as [-> ->]. exists (S n). cbn [EffModel.exec]. rewrite Ha, H1. reflexivity.
Qed.

Lemma evals_done t s r w' : exec 1 t s = Some (r, mkst (intp s) w') -> evals t s r w'.
Proof. intros H. exists 1. exact H. Qed.

Lemma state_eta (s : state W) : mkst (intp s) (world s) = s.
Proof. destruct s; reflexivity. Qed.

Inductive trel2 : task W -> state W -> env -> rtask W -> Prop :=
| T2_rel t s E rt : trel t s E rt -> trel2 t s E rt
| T2_unh o a s E : srel (intp s) E -> dget (intp s) o = None -> trel2 (TOp o a) s E (RUnh W o a).

Lemma ref_sav n E e a w : elem_nullary defs e = false ->
  ref n E (RElem (sav e) a) w = ref n (set_ca E a) (RElem e a) w.
Proof.
  intros Hn. destruct n as [|n]; [reflexivity|]. cbn [EffSpec.ref].
  unfold EffSpec.sav; cbn [sv eb]. rewrite Hn. cbn [negb]. rewrite orb_true_r.
  assert (Hcc : set_ca (set_ca E a) a = set_ca E a) by reflexivity.
  destruct (sv e); [rewrite Hcc|]; reflexivity.
Qed.

Lemma clo_exec n :
  (forall E rt w r w', ref n E rt w = Some (r, w') -> forall t s, trel2 t s E rt -> world s = w ->
     evals t s r w') ->
  forall c le, repr c le -> forall e l, le = e :: l -> forall E o rest a w r w' s,
    ref (S n) (set_fw E (o, l ++ rest)) (RElem e a) w = Some (r, w') ->
    srel (intp s) (set_fw E (o, rest)) -> world s = w ->
    evals (TClo c a) s r w'.
Proof.
  intros IH c le Hr.
  induction Hr as [b|c e0 l0 Hr IHr Hn|cont body l1 l2 H1 IH1 H2 IH2];
    intros e l Hle E o rest a w r w' s H Hs Hw.
  - inversion Hle; subst e l; clear Hle. cbn [EffSpec.ref sv eb app] in H.
    destruct b as [nul f|o1].
    + destruct (nul && nonempty a) eqn:Ena.
      * inversion H; subst. apply evals_done. cbn [EffModel.exec]. rewrite Ena, state_eta. reflexivity.
      * eapply evals_step; [intros m; cbn [EffModel.exec]; rewrite Ena; reflexivity|].
        refine (IH _ _ _ _ _ H _ _ _ Hw). apply T2_rel. apply T_comp. exact Hs.
    + eapply evals_step; [intros m; cbn [EffModel.exec]; reflexivity|].
      refine (IH _ _ _ _ _ H _ _ _ Hw). apply T2_rel. apply T_op. exact Hs.
  - inversion Hle; subst e l; clear Hle.
    destruct (repr_head Hr) as (e1 & l1 & Heq & Hn1). inversion Heq; subst e1 l1; clear Heq.
    rewrite ref_sav in H by congruence.
    eapply evals_handler; [intros m; cbn [EffModel.exec]; reflexivity|].
    change (set_ca (set_fw E (o, l0 ++ rest)) a) with (set_fw (set_ca E a) (o, l0 ++ rest)) in H.
    refine (IHr e0 l0 eq_refl _ _ _ _ _ _ _ (mkst _ (world s)) H _ Hw).
    exact (@srel_set_ca _ _ a Hs).
  - destruct (repr_head H2) as (e1 & l3 & -> & _). cbn [app] in Hle.
    inversion Hle; subst e l; clear Hle. rewrite <- app_assoc in H.
    pose proof (proj1 (proj2 Hs)) as Hf. cbn [set_fw fw] in Hf.
    destruct (dget (intp s) OFwd) as [next|] eqn:En; cbn [fwrel] in Hf; [|contradiction].
    eapply evals_handler; [intros m; cbn [EffModel.exec]; rewrite En; reflexivity|].
    refine (IH2 e1 l3 eq_refl _ _ _ _ _ _ _ (mkst _ (world s)) H _ Hw).
    exact (@srel_set_fw _ _ _ _ _ Hs (F_cont Hf H1)).
Qed.

Theorem ref_to_exec n : forall E rt w r w', ref n E rt w = Some (r, w') ->
  forall t s, trel2 t s E rt -> world s = w -> evals t s r w'.
Proof.
  induction n as [n IH] using lt_wf_ind. intros E rt w r w' H t s Ht Hw.
  destruct n as [|n]; [discriminate|].
  assert (IHn : forall E rt w r w', ref n E rt w = Some (r, w') ->
     forall t s, trel2 t s E rt -> world s = w -> evals t s r w') by (intros; eapply IH; eauto).
  destruct Ht as [t s E rt Ht|o a s E Hs Hno].
  destruct Ht as [c s E Hs|o a s E Hs|o a s E Hs|o a s E Hs|c e l o rest a s E Hr Hs].
  - destruct c as [v|e|f k|o a k|md i body k|o k]; cbn [EffSpec.ref] in H.
    + inversion H; subst. apply evals_done. cbn [EffModel.exec]. rewrite state_eta. reflexivity.
    + inversion H; subst. apply evals_done. cbn [EffModel.exec]. rewrite state_eta. reflexivity.
    + destruct (f w) as [r1 w1] eqn:Ef.
      destruct (IHn _ _ _ _ _ H (TComp (k r1)) (mkst (intp s) w1)) as (m & Hm);
        [apply T2_rel, T_comp; exact Hs|reflexivity|].
      exists (S m). cbn [EffModel.exec]. rewrite Hw, Ef. exact Hm.
    + destruct (ref n E (ROp W o a) w) as [[r1 w1]|] eqn:Eo; [|discriminate].
      apply (@evals_Call s o a k r1 w1).
      * exact (IHn _ _ _ _ _ Eo _ _ (T2_rel (@T_op o a s E Hs)) Hw).
      * exact (IHn _ _ _ _ _ H _ (mkst (intp s) w1) (T2_rel (@T_comp (k r1) (mkst (intp s) w1) E Hs)) eq_refl).
    + destruct (ref n (enter defs md i E) (RComp body) w) as [[r1 w1]|] eqn:Eo; [|discriminate].
      apply (@evals_Scope s md i body k r1 w1).
      * refine (IHn _ _ _ _ _ Eo _ _ (T2_rel (@T_comp body (mkst _ (world s)) _ _)) Hw).
        cbn [intp]. exact (@srel_enter md i _ _ Hs).
      * exact (IHn _ _ _ _ _ H _ (mkst (intp s) w1) (T2_rel (@T_comp (k r1) (mkst (intp s) w1) E Hs)) eq_refl).
    + eapply evals_step; [intros m; cbn [EffModel.exec]; reflexivity|].
      rewrite (@lookop_agree _ _ o Hs).
      exact (IHn _ _ _ _ _ H _ _ (T2_rel (@T_comp _ s E Hs)) Hw).
  - destruct (dget (intp s) o) as [h|] eqn:Eh.
    + assert (Hrest : restore_args (@CDefault W o) = CRestore (CDefault o)) by reflexivity.
      pose proof (@srel_set_fw _ _ _ _ _ Hs (F_def o)) as Hsf.
      eapply evals_handler; [intros m; cbn [EffModel.exec]; rewrite Eh, Hrest; reflexivity|].
      set (d1 := coproduct defs (intp s) [(OFwd, CRestore (CDefault o))]) in *.
      destruct o as [h0| |].
      * pose proof (proj1 Hs h0) as Hr. rewrite Eh in Hr. cbn [orepr] in Hr.
        destruct (repr_head Hr) as (e & l & Hl & _). rewrite Hl in Hr.
        cbn [EffSpec.ref] in H. rewrite Hl in H.
        assert (HT : trel2 (TClo h a) (mkst d1 (world s)) (set_fw E (OH h0, l)) (RElem e a)).
        { apply T2_rel. rewrite <- (app_nil_r l). apply T_clo; [exact Hr|exact Hsf]. }
        exact (IHn _ _ _ _ _ H _ _ HT Hw).
      * pose proof (proj1 (proj2 Hs)) as Hf. rewrite Eh in Hf.
        destruct (fw E) as [[o l]|] eqn:Ef; cbn [fwrel] in Hf; [|contradiction].
        cbn [EffSpec.ref] in H. rewrite Ef in H.
        destruct Hf as [o|next cont o l rest Hnext Hcont].
        -- unfold resolve in H. destruct (nonempty a) eqn:Ea.
           ++ eapply evals_step; [intros m; cbn [EffModel.exec]; rewrite Ea; reflexivity|].
              exact (IHn _ _ _ _ _ H _ _ (T2_rel (@T_default o a (mkst d1 (world s)) _ Hsf)) Hw).
           ++ destruct (ref n (set_fw E (OFwd, [])) (ROp W OGetArgs noargs) w) as [[r1 w1]|] eqn:Eg; [|discriminate].
              apply (@evals_Restore _ _ a r1 w1 r w' Ea).
              ** exact (IHn _ _ _ _ _ Eg _ _ (T2_rel (@T_op _ _ (mkst d1 (world s)) _ Hsf)) Hw).
              ** destruct r1 as [v|x]; cbn [args_outcome].
                 --- destruct (dec_args v) as [a'|].
                     +++ exact (IHn _ _ _ _ _ H _ (mkst d1 w1) (T2_rel (@T_default o a' (mkst d1 w1) _ Hsf)) eq_refl).
                     +++ inversion H; subst. split; reflexivity.
                 --- inversion H; subst. split; reflexivity.
        -- pose proof (@srel_set_fw _ _ _ _ _ Hsf Hnext) as Hsf2. rewrite set_fw_fw in Hsf2.
           eapply evals_handler; [intros m; cbn [EffModel.exec intp world]; reflexivity|].
           cbn [intp world].
           set (d2 := coproduct defs d1 [(OFwd, next)]) in *.
           destruct (repr_head Hcont) as (e & l' & Hl & Hn). subst l.
           cbn [app] in Ef, H.
           unfold EffModel.restore_args. rewrite Hn.
           destruct (elem_nullary defs e) eqn:En.
           ++ exact (IHn _ _ _ _ _ H _ _ (T2_rel (@T_clo _ _ _ _ _ a (mkst d2 (world s)) E Hcont Hsf2)) Hw).
           ++ unfold resolve in H. destruct (nonempty a) eqn:Ea.
              ** eapply evals_step; [intros m; cbn [EffModel.exec]; rewrite Ea; reflexivity|].
                 exact (IHn _ _ _ _ _ H _ _ (T2_rel (@T_clo _ _ _ _ _ a (mkst d2 (world s)) E Hcont Hsf2)) Hw).
              ** destruct (ref n (set_fw E (o, l' ++ rest)) (ROp W OGetArgs noargs) w) as [[r1 w1]|] eqn:Eg; [|discriminate].
                 rewrite (getargs_fw n E (o, l' ++ rest) (o, rest)) in Eg.
                 apply (@evals_Restore _ _ a r1 w1 r w' Ea).
                 --- exact (IHn _ _ _ _ _ Eg _ _ (T2_rel (@T_op _ _ (mkst d2 (world s)) _ Hsf2)) Hw).
                 --- destruct r1 as [v|x]; cbn [args_outcome].
                     +++ destruct (dec_args v) as [a'|].
                         *** exact (IHn _ _ _ _ _ H _ (mkst d2 w1) (T2_rel (@T_clo _ _ _ _ _ a' (mkst d2 w1) E Hcont Hsf2)) eq_refl).
                         *** inversion H; subst. split; reflexivity.
                     +++ inversion H; subst. split; reflexivity.
      * pose proof (proj2 (proj2 Hs)) as Ha. rewrite Eh in Ha.
        destruct (ca E) as [a0|] eqn:Ec; cbn [carel] in Ha; [|contradiction]. subst h.
        cbn [EffSpec.ref] in H. rewrite Ec in H.
        apply evals_done. cbn [EffModel.exec intp].
        destruct (nonempty a); inversion H; subst; reflexivity.
    + assert (Hu : ref n E (RUnh W o a) w = Some (r, w')).
      { destruct Hs as (Hh & Hf & Ha). cbn [EffSpec.ref] in H. destruct o as [h| |].
        - specialize (Hh h). rewrite Eh in Hh. cbn [orepr] in Hh. rewrite Hh in H. exact H.
        - rewrite Eh in Hf. destruct (fw E) as [[o l]|] eqn:Ef; cbn [fwrel] in Hf; [contradiction|]. exact H.
        - rewrite Eh in Ha. destruct (ca E) as [a0|] eqn:Ec; cbn [carel] in Ha; [contradiction|]. exact H. }
      exact (IHn _ _ _ _ _ Hu _ _ (@T2_unh o a s E Hs Eh) Hw).
  - destruct o as [[c i|[|x c]]| |]; cbn [EffSpec.ref] in H.
    + destruct (defs c i) as [nul f] eqn:Ed.
      destruct (nul && nonempty a) eqn:Ena.
      * inversion H; subst. apply evals_done. cbn [EffModel.exec]. rewrite Ed, Ena, state_eta. reflexivity.
      * eapply evals_step; [intros m; cbn [EffModel.exec]; rewrite Ed, Ena; reflexivity|].
        exact (IHn _ _ _ _ _ H _ _ (T2_rel (@T_comp _ s E Hs)) Hw).
    + destruct (pos a) as [|v l] eqn:Ep.
      * inversion H; subst. apply evals_done. cbn [EffModel.exec]. rewrite Ep, state_eta. reflexivity.
      * destruct v;
          try (inversion H; subst; apply evals_done; cbn [EffModel.exec]; rewrite Ep, state_eta; reflexivity).
        eapply evals_step; [intros m; cbn [EffModel.exec]; rewrite Ep; reflexivity|].
        exact (IHn _ _ _ _ _ H _ _ (T2_rel (@T_default _ _ s E Hs)) Hw).
    + destruct (pos a) as [|v l] eqn:Ep.
      * inversion H; subst. apply evals_done. cbn [EffModel.exec]. rewrite Ep, state_eta. reflexivity.
      * eapply evals_step; [intros m; cbn [EffModel.exec]; rewrite Ep; reflexivity|].
        exact (IHn _ _ _ _ _ H _ _ (T2_rel (@T_op _ _ s E Hs)) Hw).
    + inversion H; subst. apply evals_done. cbn [EffModel.exec]. rewrite state_eta. reflexivity.
    + apply evals_done. cbn [EffModel.exec]. destruct (nonempty a); inversion H; subst; rewrite state_eta; reflexivity.
  - cbn [EffSpec.ref] in H.
    destruct (ref n E (RDef W o a) w) as [[r1 w1]|] eqn:Eo; [|discriminate].
    pose proof (@evals_Default s o a r1 w1 (IHn _ _ _ _ _ Eo _ _ (T2_rel (@T_def o a s E Hs)) Hw)) as Hd.
    destruct r1 as [v|[]]; inversion H; subst; exact Hd.
  - exact (@clo_exec n IHn c (e :: l) Hr e l eq_refl E o rest a w r w' s H Hs Hw).
  - cbn [EffSpec.ref] in H.
    destruct (pos a) as [|v l] eqn:Ep.
    + eapply evals_step; [intros m; cbn [EffModel.exec]; rewrite Hno, Ep; reflexivity|].
      exact (IHn _ _ _ _ _ H _ _ (T2_rel (@T_op _ _ s E Hs)) Hw).
    + destruct v as [| | |o1| | |];
        try (eapply evals_step; [intros m; cbn [EffModel.exec]; rewrite Hno, Ep; reflexivity|];
             exact (IHn _ _ _ _ _ H _ _ (T2_rel (@T_op _ _ s E Hs)) Hw)).
      destruct (op_eq_dec o (apply_of o1)) as [Eo|Eo].
      * eapply evals_step; [intros m; cbn [EffModel.exec]; rewrite Hno, Ep;
          destruct (op_eq_dec o (apply_of o1)); [reflexivity|contradiction]|].
        exact (IHn _ _ _ _ _ H _ _ (T2_rel (@T_def _ _ s E Hs)) Hw).
      * eapply evals_step; [intros m; cbn [EffModel.exec]; rewrite Hno, Ep;
          destruct (op_eq_dec o (apply_of o1)); [contradiction|reflexivity]|].
        exact (IHn _ _ _ _ _ H _ _ (T2_rel (@T_op _ _ s E Hs)) Hw).
Qed.

(** ** Refinement for whole programs *)

Theorem refinement c w r w' :
  evals (TComp c) (mkst [] w) r w' <-> runs (env0 W) (RComp c) w r w'.
Proof.
  split.
  - intros (n & H). exact (exec_to_ref n (@T_comp c (mkst [] w) (env0 W) srel_empty) H).
  - intros (n & H). exact (@ref_to_exec n _ _ _ _ _ H _ _ (T2_rel (@T_comp c (mkst [] w) (env0 W) srel_empty)) eq_refl).
Qed.

Theorem refinement_at c d E w r w' : srel d E ->
  (evals (TComp c) (mkst d w) r w' <-> runs E (RComp c) w r w').
Proof.
  intros Hs. split.
  - intros (n & H). exact (exec_to_ref n (@T_comp c (mkst d w) E Hs) H).
  - intros (n & H). exact (@ref_to_exec n _ _ _ _ _ H _ _ (T2_rel (@T_comp c (mkst d w) E Hs)) eq_refl).
Qed.

End Refine.
