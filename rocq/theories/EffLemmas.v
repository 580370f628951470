(** Lemmas behind the property theorems of EffProps. *)
From Coq Require Import List Bool Arith Lia String ZArith.
From Verif Require Import EffModel EffSpec EffProofs EffRefine EffEquiv.
Import ListNotations.
Set Implicit Arguments.

(** ** Vocabulary used in statements *)

(** Python code that does not use the library, as a handler or default body. *)
Definition pure {W} (g : args -> W -> outcome * W) : args -> comp W :=
  fun a => Act (g a) (@done W).

(** Sequencing: run [c], then [k] on its outcome. *)
Fixpoint bind {W} (c : comp W) (k : outcome -> comp W) : comp W :=
  match c with
  | Ret v => k (Ok v)
  | Raise e => k (Exn e)
  | Act f k1 => Act f (fun r => bind (k1 r) k)
  | Call o a k1 => Call o a (fun r => bind (k1 r) k)
  | Scope m i b k1 => Scope m i b (fun r => bind (k1 r) k)
  | LookOp o k1 => LookOp o (fun o' => bind (k1 o') k)
  end.

(** [with handler(i): return o( *a )] *)
Definition call_under {W} (i : iexp W) (o : op) (a : args) : comp W :=
  Scope MHandler i (Call o a (@done W)) (@done W).

Section Lemmas.
Variable W : Type.
Variable defs : cls -> nat -> bool * (args -> comp W).
Notation runs := (@runs W defs).
Notation env := (env W).

(** ** Inversion of [runs] *)

Lemma runs_det E t w r1 w1 r2 w2 : runs E t w r1 w1 -> runs E t w r2 w2 -> r1 = r2 /\ w1 = w2.
Proof. intros (n & H1) (m & H2). pose proof (@ref_det _ _ _ _ _ _ _ _ _ H1 H2) as H. inversion H; auto. Qed.

Lemma evals_det t s r1 w1 r2 w2 :
  evals defs t s r1 w1 -> evals defs t s r2 w2 -> r1 = r2 /\ w1 = w2.
Proof. intros (n & H1) (m & H2). pose proof (@exec_det _ _ _ _ _ _ _ _ H1 H2) as H. inversion H; auto. Qed.

Lemma runs_done_c (E : env) r w : runs E (RComp (@done W r)) w r w.
Proof. destruct r; exists 1; reflexivity. Qed.

Lemma runs_pure (E : env) g a w : runs E (RComp (pure g a)) w (fst (g a w)) (snd (g a w)).
Proof. apply runs_Act. apply runs_done_c. Qed.

Lemma runs_bind (E : env) c : forall k w r1 w1 r w',
  runs E (RComp c) w r1 w1 -> runs E (RComp (k r1)) w1 r w' -> runs E (RComp (bind c k)) w r w'.
Proof.
  induction c as [v|e|f k1 IH|o a k1 IH|m i b IHb k1 IH|o k1 IH]; intros k w r1 w1 r w' (n & H1) H2;
    (destruct n as [|n]; [discriminate|]); cbn [ref] in H1; cbn [bind].
  - inversion H1; subst. exact H2.
  - inversion H1; subst. exact H2.
  - apply runs_Act. destruct (f w) as [r0 w0]; cbn [fst snd].
    apply (IH r0 k _ r1 w1); [exists n; exact H1|exact H2].
  - destruct (ref defs n E (ROp W o a) w) as [[r0 w0]|] eqn:Eo; [|discriminate].
    apply (@runs_Call W defs E o a _ w r0 w0); [exists n; exact Eo|].
    apply (IH r0 k _ r1 w1); [exists n; exact H1|exact H2].
  - destruct (ref defs n (enter defs m i E) (RComp b) w) as [[r0 w0]|] eqn:Eo; [|discriminate].
    apply (@runs_Scope W defs E m i b _ w r0 w0); [exists n; exact Eo|].
    apply (IH r0 k _ r1 w1); [exists n; exact H1|exact H2].
  - eapply runs_step; [intros m; cbn [ref]; reflexivity|].
    eapply IH; [exists n; exact H1|exact H2].
Qed.

(** Running the head function of a list. *)
Lemma runs_elem_fn (E : env) (s nul : bool) f a w r w' :
  nul && nonempty a = false ->
  runs (if s then set_ca E a else E) (RComp (f a)) w r w' ->
  runs E (RElem (mkelem s (BFn nul f)) a) w r w'.
Proof.
  intros Hn H. eapply runs_step; [intros m; cbn [ref sv eb]; rewrite Hn; reflexivity|exact H].
Qed.

Lemma runs_op_handled (E : env) h e l a w r w' :
  hs E h = e :: l -> runs (set_fw E (OH h, l)) (RElem e a) w r w' -> runs E (ROp W (OH h) a) w r w'.
Proof.
  intros Hh H. eapply runs_step; [intros m; cbn [ref]; rewrite Hh; reflexivity|exact H].
Qed.

Lemma runs_op_unh (E : env) h a w r w' :
  hs E h = [] -> runs E (RUnh W (OH h) a) w r w' -> runs E (ROp W (OH h) a) w r w'.
Proof.
  intros Hh H. eapply runs_step; [intros m; cbn [ref]; rewrite Hh; reflexivity|exact H].
Qed.

Lemma call_under_runs i o a w r w' :
  runs (enter defs MHandler i (env0 W)) (ROp W o a) w r w' ->
  evals defs (TComp (call_under i o a)) (mkst [] w) r w'.
Proof.
  intros H. apply refinement. unfold call_under.
  apply (@runs_Scope W defs _ MHandler i _ _ w r w'); [|apply runs_done_c].
  apply (@runs_Call W defs _ o a _ w r w'); [exact H|apply runs_done_c].
Qed.

(** ** C02 *)

Lemma dget_some_keys (d : dict W) o : (exists c, dget d o = Some c) <-> In o (map fst d).
Proof.
  split; [intros (c & H); apply (dget_in _ _ H)|].
  induction d as [|[o' c'] d IH]; cbn [map fst In dget]; [intros []|].
  intros Hin. destruct (op_eq_dec o' o) as [E|E]; [exists c'; reflexivity|].
  destruct Hin as [Hin|Hin]; [contradiction|]. exact (IH Hin).
Qed.

Lemma idict_keys i j o :
  In o (map fst (idict defs (ICop i j))) <->
  In o (map fst (idict defs i)) \/ In o (map fst (idict defs j)).
Proof.
  rewrite <- !dget_some_keys. cbn [idict]. rewrite coproduct_get by apply nodup_idict.
  destruct (dget (idict defs j) o) as [c|].
  - split; intros H; [right; exists c; reflexivity|eexists; reflexivity].
  - split; intros H; [left; exact H|]. destruct H as [H|(c & H)]; [exact H|discriminate].
Qed.

Lemma lit_keys (d : list (hop * base W)) o :
  In o (map fst (idict defs (IDict d))) <-> exists h, o = OH h /\ In h (map fst d).
Proof.
  rewrite <- dget_some_keys. destruct o as [h| |].
  - cbn [idict]. rewrite lit_get. destruct (lookup_lit d h) as [b|] eqn:E.
    + split; intros _; [|eexists; reflexivity]. exists h. split; [reflexivity|].
      destruct (in_dec hop_eq_dec h (map fst d)) as [Hi|Hi]; [exact Hi|].
      apply lookup_lit_none in Hi. congruence.
    + split; [intros (c & H); discriminate|]. intros (h' & Heq & Hi). inversion Heq; subst h'.
      exfalso. apply (proj1 (lookup_lit_none d h) E). exact Hi.
  - rewrite idict_special by reflexivity. split; [intros (c & H); discriminate|].
    intros (h & H & _). discriminate.
  - rewrite idict_special by reflexivity. split; [intros (c & H); discriminate|].
    intros (h & H & _). discriminate.
Qed.

Lemma stack_head_above below e above :
  stack defs below (e :: above) = sav defs e :: (above ++ savl defs below).
Proof. reflexivity. Qed.

Lemma runs_head_pure (E : env) h s nul g l a w :
  hs E h = mkelem s (BFn nul (pure g)) :: l -> nul && nonempty a = false ->
  runs E (ROp W (OH h) a) w (fst (g a w)) (snd (g a w)).
Proof.
  intros Hh Hn. apply (@runs_op_handled E h _ _ _ _ _ _ Hh).
  apply runs_elem_fn; [exact Hn|]. apply runs_pure.
Qed.

Lemma coproduct_right i j d h nul g a w :
  j = IDict d -> lookup_lit d h = Some (BFn nul (pure g)) -> nul && nonempty a = false ->
  evals defs (TComp (call_under (ICop i j) (OH h) a)) (mkst [] w) (fst (g a w)) (snd (g a w)).
Proof.
  intros -> Hl Hn. apply call_under_runs.
  eapply runs_head_pure; [|exact Hn]. cbn [enter hs env0 provides]. rewrite Hl.
  cbn [stack savl app]. unfold sav; cbn [sv eb]. reflexivity.
Qed.

Lemma coproduct_left i j d h nul g a w :
  i = IDict d -> lookup_lit d h = Some (BFn nul (pure g)) -> nul && nonempty a = false ->
  provides defs j h = [] ->
  evals defs (TComp (call_under (ICop i j) (OH h) a)) (mkst [] w) (fst (g a w)) (snd (g a w)).
Proof.
  intros -> Hl Hn Hj. apply call_under_runs.
  eapply runs_head_pure; [|exact Hn]. cbn [enter hs env0 provides]. rewrite Hl, Hj.
  cbn [stack savl app]. unfold sav; cbn [sv eb]. reflexivity.
Qed.

(** ** C08: unhandled operations *)

(** No [__apply__] is handled. *)
Definition apply_free (E : env) : Prop := forall c, hs E (HApply c) = [].

Lemma runs_RUnh_other (E : env) o a w r w' :
  (match pos a with VOp o1 :: _ => o <> apply_of o1 | _ => True end) ->
  runs E (ROp W (apply_of o) (mkargs (VOp o :: pos a) (kws a))) w r w' ->
  runs E (RUnh W o a) w r w'.
Proof.
  intros Hne H. destruct (pos a) as [|v l] eqn:Ep.
  - eapply runs_step; [intros m; cbn [ref]; rewrite Ep; reflexivity|exact H].
  - destruct v as [| | |o1| | |];
      try (eapply runs_step; [intros m; cbn [ref]; rewrite Ep; reflexivity|exact H]).
    destruct (op_eq_dec o (apply_of o1)) as [Eo|Eo] eqn:Ed; [contradiction|].
    eapply runs_step; [intros m; cbn [ref]; rewrite Ep, Ed; reflexivity|exact H].
Qed.

Lemma runs_RUnh_self (E : env) o o1 l k w r w' :
  o = apply_of o1 ->
  runs E (RDef W o (mkargs (VOp o1 :: l) k)) w r w' ->
  runs E (RUnh W o (mkargs (VOp o1 :: l) k)) w r w'.
Proof.
  intros He H. destruct (op_eq_dec o (apply_of o1)) as [Eo|Eo] eqn:Ed; [|contradiction].
  eapply runs_step; [intros m; cbn [ref pos]; rewrite Ed; reflexivity|exact H].
Qed.

Lemma runs_RDef_apply0 (E : env) o1 l k w r w' :
  runs E (RDefault W o1 (mkargs l k)) w r w' ->
  runs E (RDef W (OH (HApply [])) (mkargs (VOp o1 :: l) k)) w r w'.
Proof. intros H. eapply runs_step; [intros m; cbn [ref pos kws]; reflexivity|exact H]. Qed.

Lemma runs_RDef_applyS (E : env) x c v l k w r w' :
  runs E (ROp W (OH (HApply c)) (mkargs (v :: l) k)) w r w' ->
  runs E (RDef W (OH (HApply (x :: c))) (mkargs (v :: l) k)) w r w'.
Proof. intros H. eapply runs_step; [intros m; cbn [ref pos kws]; reflexivity|exact H]. Qed.

Lemma runs_Default_ok (E : env) o a w r w' :
  runs E (RDef W o a) w r w' -> r <> Exn ENotHandled -> runs E (RDefault W o a) w r w'.
Proof.
  intros H Hr. pose proof (@runs_Default W defs E o a w r w' H) as Hd.
  destruct r as [v|[]]; try exact Hd. congruence.
Qed.

(** Calling [op.__apply__] chains: with [HApply []] unhandled, calling the
    [__apply__] of any class [c] with an operation [o] of another class ends in the
    default rule of [o]. *)
Lemma runs_apply0_default (E : env) o l k w r w' :
  hs E (HApply []) = [] -> r <> Exn ENotHandled ->
  runs E (RDefault W o (mkargs l k)) w r w' ->
  runs E (ROp W (OH (HApply [])) (mkargs (VOp o :: l) k)) w r w'.
Proof.
  intros H0 Hr H. apply runs_op_unh; [exact H0|].
  destruct (op_eq_dec (OH (HApply [])) (apply_of o)) as [Ea|Ea].
  - apply runs_RUnh_self; [exact Ea|]. apply runs_RDef_apply0. exact H.
  - apply runs_RUnh_other; [exact Ea|]. cbn [pos kws].
    change (apply_of (OH (HApply []))) with (OH (HApply [])).
    apply runs_op_unh; [exact H0|]. apply runs_RUnh_self; [reflexivity|].
    apply runs_RDef_apply0. apply runs_Default_ok; [|exact Hr].
    apply runs_RDef_apply0. exact H.
Qed.

Lemma runs_apply_via_root (E : env) c o l k w r w' :
  hs E (HApply []) = [] -> hs E (HApply c) = [] -> c <> cls_of o -> r <> Exn ENotHandled ->
  runs E (RDef W (OH (HApply c)) (mkargs (VOp o :: l) k)) w r w' ->
  runs E (ROp W (OH (HApply c)) (mkargs (VOp o :: l) k)) w r w'.
Proof.
  intros H0 Hc Hne Hr H. apply runs_op_unh; [exact Hc|].
  apply runs_RUnh_other; [cbn [pos]; unfold apply_of; congruence|]. cbn [pos kws].
  change (apply_of (OH (HApply c))) with (OH (HApply [])).
  apply runs_apply0_default; [exact H0|exact Hr|].
  apply runs_Default_ok; assumption.
Qed.

(** Calling the [__apply__] of a proper superclass of the class of [o]. *)
Lemma runs_apply_default (E : env) o l k w r w' : apply_free E -> r <> Exn ENotHandled ->
  runs E (RDefault W o (mkargs l k)) w r w' ->
  forall c, List.length c < List.length (cls_of o) ->
  runs E (ROp W (OH (HApply c)) (mkargs (VOp o :: l) k)) w r w'.
Proof.
  intros Hf Hr H c. induction c as [|x c IH]; intros Hlen.
  - apply runs_apply0_default; [apply Hf|exact Hr|exact H].
  - apply runs_apply_via_root; try apply Hf; [|exact Hr|].
    + intros He. rewrite He in Hlen. lia.
    + apply runs_RDef_applyS. apply IH. cbn [List.length] in Hlen. lia.
Qed.

Lemma runs_unhandled_default (E : env) c n a w r w' :
  apply_free E -> hs E (HUser c n) = [] -> r <> Exn ENotHandled ->
  runs E (RDefault W (OH (HUser c n)) a) w r w' ->
  runs E (ROp W (OH (HUser c n)) a) w r w'.
Proof.
  intros Hf Hn Hr H. apply runs_op_unh; [exact Hn|].
  apply runs_RUnh_other; [destruct (pos a) as [|[]]; try exact I; discriminate|].
  apply runs_op_unh; [apply Hf|].
  apply runs_RUnh_self; [reflexivity|]. unfold apply_of; cbn [cls_of].
  destruct a as [l k]; cbn [pos kws].
  destruct c as [|x c].
  - apply runs_RDef_apply0. exact H.
  - apply runs_RDef_applyS. apply (runs_apply_default Hf Hr H). cbn [cls_of List.length]. lia.
Qed.

Definition free_rule (o : op) (a : args) (r : outcome) : outcome :=
  match r with Exn ENotHandled => Ok (VTerm o (pos a) (kws a)) | _ => r end.

Lemma free_rule_not_nh o a r : free_rule o a r <> Exn ENotHandled.
Proof. destruct r as [v|[]]; discriminate. Qed.

Lemma runs_default_pure (E : env) c n nul g a w :
  defs c n = (nul, pure g) -> nul && nonempty a = false ->
  runs E (RDefault W (OH (HUser c n)) a) w
    (free_rule (OH (HUser c n)) a (fst (g a w))) (snd (g a w)).
Proof.
  intros Hd Hn.
  apply (@runs_Default W defs E (OH (HUser c n)) a w (fst (g a w)) (snd (g a w))).
  eapply runs_step; [intros m; cbn [ref]; rewrite Hd, Hn; reflexivity|]. apply runs_pure.
Qed.

Lemma unhandled_call i c n nul g a w :
  defs c n = (nul, pure g) -> nul && nonempty a = false ->
  provides defs i (HUser c n) = [] -> (forall c', provides defs i (HApply c') = []) ->
  evals defs (TComp (call_under i (OH (HUser c n)) a)) (mkst [] w)
    (free_rule (OH (HUser c n)) a (fst (g a w))) (snd (g a w)).
Proof.
  intros Hd Hn Hi Ha. apply call_under_runs.
  apply runs_unhandled_default.
  - intros c'. cbn [enter hs env0]. rewrite Ha. reflexivity.
  - cbn [enter hs env0]. rewrite Hi. reflexivity.
  - apply free_rule_not_nh.
  - exact (@runs_default_pure _ c n nul g a w Hd Hn).
Qed.

(** ** C09: [__apply__] handlers *)

(** The classes strictly between: suffixes of [p ++ c] longer than [c]. *)
Lemma runs_apply_walk (E : env) p c o l k w r w' :
  hs E (HApply []) = [] -> r <> Exn ENotHandled ->
  (forall p1 p2, p = p1 ++ p2 -> p2 <> [] -> hs E (HApply (p2 ++ c)) = []) ->
  List.length (p ++ c) < List.length (cls_of o) ->
  runs E (ROp W (OH (HApply c)) (mkargs (VOp o :: l) k)) w r w' ->
  runs E (ROp W (OH (HApply (p ++ c))) (mkargs (VOp o :: l) k)) w r w'.
Proof.
  intros H0 Hr Hp Hlen H. induction p as [|x p IH]; [exact H|]. cbn [app].
  apply runs_apply_via_root; [exact H0|exact (Hp [] (x :: p) eq_refl ltac:(discriminate))| |exact Hr|].
  - intros He. rewrite <- He in Hlen. cbn [app List.length] in Hlen. lia.
  - apply runs_RDef_applyS. apply IH.
    + intros p1 p2 He Hne. apply (Hp (x :: p1) p2); [cbn [app]; rewrite He; reflexivity|exact Hne].
    + cbn [app List.length] in Hlen. lia.
Qed.

Lemma apply_sees_op i p c n d nul g a w :
  (* the operation's class is p ++ c; only the __apply__ of c is handled *)
  i = IDict d -> lookup_lit d (HApply c) = Some (BFn nul (pure g)) -> nul = false ->
  lookup_lit d (HUser (p ++ c) n) = None ->
  (forall p1 p2, p = p1 ++ p2 -> p2 <> [] -> lookup_lit d (HApply (p2 ++ c)) = None) ->
  (List.length p <= 1 \/ (c <> [] /\ lookup_lit d (HApply []) = None)) ->
  let o := OH (HUser (p ++ c) n) in
  let a' := mkargs (VOp o :: pos a) (kws a) in
  fst (g a' w) <> Exn ENotHandled ->
  evals defs (TComp (call_under i o a)) (mkst [] w) (fst (g a' w)) (snd (g a' w)).
Proof.
  intros -> Hl -> Hu Hp Hc o a' Hr. apply call_under_runs.
  set (E := enter defs MHandler (IDict d) (env0 W)).
  assert (Hnone : forall h, lookup_lit d h = None -> hs E h = []).
  { intros h Hh. unfold E. cbn [enter hs env0 provides]. rewrite Hh. reflexivity. }
  assert (Hhd : runs E (ROp W (OH (HApply c)) a') w (fst (g a' w)) (snd (g a' w))).
  { eapply runs_head_pure with (nul := false); [|reflexivity]. unfold E. cbn [enter hs env0 provides]. rewrite Hl.
    cbn [stack savl app]. unfold sav; cbn [sv eb]. reflexivity. }
  apply runs_op_unh; [apply Hnone; exact Hu|].
  apply runs_RUnh_other; [destruct (pos a) as [|[]]; try exact I; discriminate|].
  unfold apply_of; cbn [cls_of]. fold o. fold a'.
  destruct p as [|x p]; cbn [app] in *; [exact Hhd|].
  apply runs_op_unh; [apply Hnone; exact (Hp [] (x :: p) eq_refl ltac:(discriminate))|].
  apply runs_RUnh_self; [reflexivity|]. apply runs_RDef_applyS. fold a'.
  destruct Hc as [Hc|[Hc0 Hc1]].
  - cbn [List.length] in Hc. assert (p = []) by (destruct p; [reflexivity|cbn in Hc; lia]).
    subst p. exact Hhd.
  - unfold a'. apply runs_apply_walk; [apply Hnone; exact Hc1|exact Hr| |cbn [o cls_of List.length]; lia|exact Hhd].
    intros p1 p2 He Hne. apply Hnone. apply (Hp (x :: p1) p2); [cbn [app]; rewrite He; reflexivity|exact Hne].
Qed.

(** ** C07: the current arguments *)

Lemma fwd_current_args (E : env) o e rest a pre k w r1 w1 r2 w2 r w' :
  fw E = Some (o, e :: rest) -> ca E = Some a -> elem_nullary defs e = false ->
  runs E (RComp pre) w r1 w1 ->
  runs (set_fw E (o, rest)) (RElem e a) w1 r2 w2 ->
  runs E (RComp (k r2)) w2 r w' ->
  runs E (RComp (bind pre (fun _ => Call OFwd noargs k))) w r w'.
Proof.
  intros Hf Hc Hn Hp He Hk. apply (@runs_bind E pre _ w r1 w1); [exact Hp|].
  apply (@runs_Call W defs E OFwd noargs k w1 r2 w2); [|exact Hk].
  apply (@runs_FwdNext_args W defs E o e rest noargs w1 (Ok (enc_args a)) w1); try assumption;
    [reflexivity| |].
  - apply runs_done. cbn [ref set_fw ca]. rewrite Hc. reflexivity.
  - cbn [args_outcome enc_args dec_args]. destruct a as [l kk]; exact He.
Qed.

Lemma fwd_current_args_default (E : env) o a pre k w r1 w1 r2 w2 r w' :
  fw E = Some (o, []) -> ca E = Some a ->
  runs E (RComp pre) w r1 w1 ->
  runs (set_fw E (OFwd, [])) (RDefault W o a) w1 r2 w2 ->
  runs E (RComp (k r2)) w2 r w' ->
  runs E (RComp (bind pre (fun _ => Call OFwd noargs k))) w r w'.
Proof.
  intros Hf Hc Hp He Hk. apply (@runs_bind E pre _ w r1 w1); [exact Hp|].
  apply (@runs_Call W defs E OFwd noargs k w1 r2 w2); [|exact Hk].
  apply (@runs_FwdDef_args W defs E o noargs w1 (Ok (enc_args a)) w1); try assumption;
    [reflexivity| |].
  - apply runs_done. cbn [ref set_fw ca]. rewrite Hc. reflexivity.
  - cbn [args_outcome enc_args dec_args]. destruct a as [l kk]; exact He.
Qed.

(** A handler with parameters, after any prefix, forwards its own arguments to
    the next installed function. *)
Lemma fwd_current_call (E : env) h pre e rest a w r1 w1 r2 w2 :
  hs E h = mkelem true (BFn false (fun a => bind (pre a) (fun _ => Call OFwd noargs (@done W)))) :: e :: rest ->
  elem_nullary defs e = false ->
  runs (set_ca (set_fw E (OH h, e :: rest)) a) (RComp (pre a)) w r1 w1 ->
  runs (set_ca (set_fw E (OH h, rest)) a) (RElem e a) w1 r2 w2 ->
  runs E (ROp W (OH h) a) w r2 w2.
Proof.
  intros Hh Hn Hp He. apply (@runs_op_handled E h _ _ _ _ _ _ Hh).
  apply runs_elem_fn; [reflexivity|].
  apply (@fwd_current_args _ (OH h) e rest a (pre a) (@done W) w r1 w1 r2 w2);
    try reflexivity; try assumption. apply runs_done_c.
Qed.

Lemma fwd_current_call_default (E : env) h pre a w r1 w1 r2 w2 :
  hs E h = [mkelem true (BFn false (fun a => bind (pre a) (fun _ => Call OFwd noargs (@done W))))] ->
  runs (set_ca (set_fw E (OH h, [])) a) (RComp (pre a)) w r1 w1 ->
  runs (set_ca (set_fw E (OFwd, [])) a) (RDefault W (OH h) a) w1 r2 w2 ->
  runs E (ROp W (OH h) a) w r2 w2.
Proof.
  intros Hh Hp He. apply (@runs_op_handled E h _ _ _ _ _ _ Hh).
  apply runs_elem_fn; [reflexivity|].
  apply (@fwd_current_args_default _ (OH h) a (pre a) (@done W) w r1 w1 r2 w2);
    try reflexivity; try assumption. apply runs_done_c.
Qed.

End Lemmas.

(** ** C06: stacks of forwarding handlers *)

Inductive ev := EvIn (i : nat) (a : args) | EvDefault (a : args) | EvOut (i : nat) (r : outcome).

Definition log (e : ev) : list ev -> outcome * list ev := fun w => (Ok VNone, w ++ [e]).

(** A handler that records its arguments, forwards once with arguments [g a]
    (none means the current ones), and records the result. *)
Definition forwarding (i : nat) (g : args -> args) : args -> comp (list ev) :=
  fun a => Act (log (EvIn i a)) (fun _ =>
    Call OFwd (g a) (fun r => Act (log (EvOut i r)) (fun _ => done (list ev) r))).

(** [with handler({h: f_1}): ... with handler({h: f_n}): body], outermost first. *)
Fixpoint nest (h : hop) (fs : list (nat * (args -> args))) (body : comp (list ev)) : comp (list ev) :=
  match fs with
  | [] => body
  | (i, g) :: fs' =>
      Scope MHandler (IDict [(h, BFn false (forwarding i g))]) (nest h fs' body) (@done (list ev))
  end.

(** What should happen, innermost handler first: the events and the result. *)
Fixpoint expected (o : op) (res : args -> outcome) (fs : list (nat * (args -> args))) (a : args)
  : list ev * outcome :=
  match fs with
  | [] => ([EvDefault a], free_rule o a (res a))
  | (i, g) :: fs' =>
      let a' := if nonempty (g a) then g a else a in
      let '(t, r) := expected o res fs' a' in
      (EvIn i a :: t ++ [EvOut i r], r)
  end.

Section Chain.
Variable defs : cls -> nat -> bool * (args -> comp (list ev)).
Variables (c : cls) (n : nat) (res : args -> outcome).
Let h := HUser c n.
Hypothesis Hdef : defs c n = (false, pure (fun a w => (res a, w ++ [EvDefault a]))).

Definition elems (fs : list (nat * (args -> args))) : list (elem (list ev)) :=
  map (fun p => mkelem true (BFn false (forwarding (fst p) (snd p)))) fs.

Notation runs := (@runs (list ev) defs).

Lemma chain_elem fs : forall E a w, fw E = Some (OH h, elems fs) -> ca E = Some a -> forall b,
  let a' := if nonempty b then b else a in
  runs E (ROp _ OFwd b) w (snd (expected (OH h) res fs a')) (w ++ fst (expected (OH h) res fs a')).
Proof.
  induction fs as [|[i g] fs IH]; intros E a w Hf Hc b a'.
  - cbn [expected fst snd elems map] in *.
    assert (Hd : forall a0, runs (set_fw E (OFwd, [])) (RDefault _ (OH h) a0) w
       (free_rule (OH h) a0 (res a0)) (w ++ [EvDefault a0])).
    { intros a0. exact (@runs_default_pure _ defs (set_fw E (OFwd, [])) c n false (fun a w => (res a, w ++ [EvDefault a])) a0 w Hdef eq_refl). }
    unfold a'. destruct (nonempty b) eqn:Eb.
    + apply (@runs_FwdDef _ defs E (OH h) b w _ _ Hf Eb). apply Hd.
    + apply (@runs_FwdDef_args _ defs E (OH h) b w (Ok (enc_args a)) w _ _ Hf Eb).
      * apply runs_done. cbn [ref set_fw ca]. rewrite Hc. reflexivity.
      * cbn [args_outcome enc_args dec_args]. destruct a as [l k]. apply Hd.
  - cbn [elems map fst snd] in Hf.
    assert (He : forall a0, runs (set_fw E (OH h, elems fs)) (RElem (mkelem true (BFn false (forwarding i g))) a0) w
       (snd (expected (OH h) res ((i, g) :: fs) a0)) (w ++ fst (expected (OH h) res ((i, g) :: fs) a0))).
    { intros a0. apply runs_elem_fn; [reflexivity|].
      set (E1 := set_ca (set_fw E (OH h, elems fs)) a0).
      specialize (IH E1 a0 (w ++ [EvIn i a0]) eq_refl eq_refl (g a0)). cbv zeta in IH. cbn [expected].
      destruct (expected (OH h) res fs (if nonempty (g a0) then g a0 else a0)) as [t r].
      cbn [fst snd] in *. unfold forwarding.
      apply runs_Act. cbn [log fst snd].
      apply (@runs_Call _ defs E1 OFwd (g a0) _ _ r ((w ++ [EvIn i a0]) ++ t)); [exact IH|].
      apply runs_Act. cbn [log fst snd].
      replace (w ++ EvIn i a0 :: t ++ [EvOut i r]) with (((w ++ [EvIn i a0]) ++ t) ++ [EvOut i r]).
      - apply runs_done_c.
      - rewrite <- !app_assoc. reflexivity. }
    unfold a'. destruct (nonempty b) eqn:Eb.
    + apply (@runs_FwdNext _ defs E (OH h) _ _ b w _ _ Hf (or_intror Eb)). apply He.
    + apply (@runs_FwdNext_args _ defs E (OH h) _ _ b w (Ok (enc_args a)) w _ _ Hf eq_refl Eb).
      * apply runs_done. cbn [ref set_fw ca]. rewrite Hc. reflexivity.
      * cbn [args_outcome enc_args dec_args]. destruct a as [l k]. apply He.
Qed.

Lemma nest_runs fs : forall E body w r w',
  runs (fold_left (fun E p => enter defs MHandler (IDict [(h, BFn false (forwarding (fst p) (snd p)))]) E) fs E)
       (RComp body) w r w' ->
  runs E (RComp (nest h fs body)) w r w'.
Proof.
  induction fs as [|[i g] fs IH]; intros E body w r w' H; cbn [nest fold_left fst snd] in *; [exact H|].
  apply (@runs_Scope _ defs E MHandler _ _ _ w r w'); [|apply runs_done_c]. apply IH. exact H.
Qed.

Lemma elems_savl fs : savl defs (elems fs) = elems fs.
Proof. destruct fs as [|[i g] fs]; reflexivity. Qed.

Lemma nest_env fs : forall E gs, hs E h = elems gs ->
  hs (fold_left (fun E p => enter defs MHandler (IDict [(h, BFn false (forwarding (fst p) (snd p)))]) E) fs E) h
  = elems (rev fs ++ gs).
Proof.
  induction fs as [|[i g] fs IH]; intros E gs HE; cbn [fold_left rev app fst snd]; [exact HE|].
  rewrite (IH _ ((i, g) :: gs)).
  - rewrite <- app_assoc. reflexivity.
  - cbn [enter hs provides lookup_lit]. destruct (hop_eq_dec h h) as [_|]; [|congruence].
    rewrite HE. cbn [stack savl app]. rewrite elems_savl. reflexivity.
Qed.

Lemma nest_apply fs : forall E, apply_free E ->
  apply_free (fold_left (fun E p => enter defs MHandler (IDict [(h, BFn false (forwarding (fst p) (snd p)))]) E) fs E).
Proof.
  induction fs as [|[i g] fs IH]; intros E HE; cbn [fold_left fst snd]; [exact HE|].
  apply IH. intros c'. cbn [enter hs provides lookup_lit].
  destruct (hop_eq_dec h (HApply c')) as [Hx|_]; [discriminate|]. cbn [stack]. apply HE.
Qed.

Lemma chain_order fs a w :
  evals defs (TComp (nest h fs (Call (OH h) a (@done _)))) (mkst [] w)
    (snd (expected (OH h) res (rev fs) a)) (w ++ fst (expected (OH h) res (rev fs) a)).
Proof.
  apply refinement. apply nest_runs.
  set (E := fold_left _ fs (env0 (list ev))).
  assert (HE : hs E h = elems (rev fs)).
  { unfold E. rewrite (nest_env fs (env0 _) []); [rewrite app_nil_r|]; reflexivity. }
  set (x := expected (OH h) res (rev fs) a).
  apply (@runs_Call _ defs E (OH h) a _ w (snd x) (w ++ fst x)); [|apply runs_done_c].
  unfold x. destruct (rev fs) as [|[i g] gs].
  - apply runs_unhandled_default.
    + apply nest_apply. intros c'. reflexivity.
    + exact HE.
    + cbn [expected snd]. apply free_rule_not_nh.
    + cbn [expected fst snd]. exact (@runs_default_pure _ defs E c n false (fun a w => (res a, w ++ [EvDefault a])) a w Hdef eq_refl).
  - (* reuse the forwarding lemma: the call behaves as fwd would from outside *)
    cbn [elems map fst snd] in HE.
    apply (@runs_op_handled _ defs E h _ _ _ _ _ _ HE).
    apply runs_elem_fn; [reflexivity|].
    set (E1 := set_ca (set_fw E (OH h, elems gs)) a).
    pose proof (@chain_elem gs E1 a (w ++ [EvIn i a]) eq_refl eq_refl (g a)) as IH.
    cbv zeta in IH. cbn [expected].
    destruct (expected (OH h) res gs (if nonempty (g a) then g a else a)) as [t r].
    cbn [fst snd] in *. unfold forwarding.
    apply runs_Act. cbn [log fst snd].
    apply (@runs_Call _ defs E1 OFwd (g a) _ _ r ((w ++ [EvIn i a]) ++ t)); [exact IH|].
    apply runs_Act. cbn [log fst snd].
    replace (w ++ EvIn i a :: t ++ [EvOut i r]) with (((w ++ [EvIn i a]) ++ t) ++ [EvOut i r]).
    + apply runs_done_c.
    + rewrite <- !app_assoc. reflexivity.
Qed.

End Chain.

(** ** Forms used in EffProps *)

Section Final.
Variable W : Type.
Variable defs : cls -> nat -> bool * (args -> comp W).

Lemma after_block n m i body k (s : state W) r s' :
  exec defs (S n) (TComp (Scope m i body k)) s = Some (r, s') ->
  exists r1 w1, exec defs n (TComp (k r1)) (mkst (intp s) w1) = Some (r, s').
Proof.
  cbn [exec]. intros H. destruct m; unfold with_handler in H;
    (destruct (with_interpreter _ _ s) as [[r1 s1]|] eqn:E; [|discriminate]);
    apply with_interpreter_intp in E; exists r1, (world s1);
    rewrite <- E; destruct s1; exact H.
Qed.

Lemma not_key_provides i h :
  ~ In (OH h) (map fst (idict defs i)) -> provides defs i h = [].
Proof.
  intros Hn. pose proof (idict_repr defs i h) as H.
  rewrite (dget_notin _ _ Hn) in H. exact H.
Qed.

Lemma coproduct_left_keys d j h nul g a w :
  lookup_lit d h = Some (BFn nul (pure g)) -> nul && nonempty a = false ->
  ~ In (OH h) (map fst (idict defs j)) ->
  evals defs (TComp (call_under (ICop (IDict d) j) (OH h) a)) (mkst [] w) (fst (g a w)) (snd (g a w)).
Proof.
  intros Hl Hn Hj. apply (@coproduct_left W defs (IDict d) j d h nul g a w eq_refl Hl Hn).
  apply not_key_provides. exact Hj.
Qed.

Lemma unhandled_call_keys i c n nul g a w :
  defs c n = (nul, pure g) -> nul && nonempty a = false ->
  ~ In (OH (HUser c n)) (map fst (idict defs i)) ->
  (forall c', ~ In (OH (HApply c')) (map fst (idict defs i))) ->
  evals defs (TComp (call_under i (OH (HUser c n)) a)) (mkst [] w)
    match fst (g a w) with
    | Exn ENotHandled => Ok (VTerm (OH (HUser c n)) (pos a) (kws a))
    | r => r
    end (snd (g a w)).
Proof.
  intros Hd Hn Hi Ha.
  pose proof (@unhandled_call W defs i c n nul g a w Hd Hn (not_key_provides _ _ Hi)
               (fun c' => not_key_provides _ _ (Ha c'))) as H.
  unfold free_rule in H. destruct (fst (g a w)) as [v|[]]; exact H.
Qed.

Lemma fwd_outside a w :
  evals defs (TComp (Call OFwd a (@done W))) (mkst [] w) (Exn ERuntime) w.
Proof.
  apply refinement. apply (@runs_Call W defs _ OFwd a _ w (Exn ERuntime) w); [|apply runs_done_c].
  eapply runs_step; [intros m; cbn [ref env0 fw]; reflexivity|].
  apply runs_RUnh_other; [destruct (pos a) as [|[]]; try exact I; discriminate|].
  apply runs_apply0_default; [reflexivity|discriminate|].
  apply runs_Default_ok; [|discriminate]. apply runs_done. reflexivity.
Qed.

Lemma coproduct_assoc outer m i j l body w r w' :
  let prog x := Scope MHandler outer (Scope m x body (@done W)) (@done W) in
  evals defs (TComp (prog (ICop (ICop i j) l))) (mkst [] w) r w' <->
  evals defs (TComp (prog (ICop i (ICop j l)))) (mkst [] w) r w'.
Proof.
  intros prog. apply ceq_observably_equal; [apply defs_eq_refl|].
  apply q_scope; [apply ieq_refl| |intros x; apply ceq_refl].
  apply q_scope; [apply q_law; apply law_assoc|apply ceq_refl|intros x; apply ceq_refl].
Qed.

Lemma coproduct_units outer i body w r w' :
  let prog x := Scope MHandler outer (Scope MHandler x body (@done W)) (@done W) in
  (evals defs (TComp (prog (ICop i (IDict [])))) (mkst [] w) r w' <->
   evals defs (TComp (prog i)) (mkst [] w) r w') /\
  (evals defs (TComp (prog (ICop (IDict []) i))) (mkst [] w) r w' <->
   evals defs (TComp (prog i)) (mkst [] w) r w').
Proof.
  intros prog. split; (apply ceq_observably_equal; [apply defs_eq_refl|]);
    (apply q_scope; [apply ieq_refl| |intros x; apply ceq_refl]);
    (apply q_scope; [apply q_law; constructor|apply ceq_refl|intros x; apply ceq_refl]).
Qed.

Lemma nested_handlers outer i j body w r w' :
  evals defs (TComp (Scope MHandler outer
     (Scope MHandler i (Scope MHandler j body (@done W)) (@done W)) (@done W))) (mkst [] w) r w' <->
  evals defs (TComp (Scope MHandler outer
     (Scope MHandler (ICop i j) body (@done W)) (@done W))) (mkst [] w) r w'.
Proof.
  apply ceq_observably_equal; [apply defs_eq_refl|].
  apply q_scope; [apply ieq_refl| |intros x; apply ceq_refl].
  apply q_nest; [apply ceq_refl|intros x; apply ceq_refl].
Qed.

End Final.
