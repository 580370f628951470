(** Application of [deffn] terms is substitution of the arguments. *)
From Coq Require Import List ZArith String Bool Arith Lia.
From Verif Require Import TermModel TermSpec TermProofs TermScopes TermData TermEval TermSubst TermUser.
Import ListNotations.
Set Implicit Arguments.

Section Beta.
Variable sigs : nat -> sig.
Hypothesis Hsigs : forall b, wf_sig (sigs b).

(** ** Substitution after renaming the substituted variables *)

Lemma csubst_cren phi (H H' : op -> option cexpr) : (forall o, phi o <> o -> nullary sigs o) ->
  forall t, wf sigs t -> forall m,
  (forall o, In o (fval sigs t) -> m o = None -> phi o = o) ->
  (forall o, In o (fv sigs t) -> m o = None -> H' (phi o) = H o /\ (H o = None -> phi o = o)) ->
  csubst H' (cren phi (canon sigs m t)) = csubst H (canon sigs m t).
Proof.
  intros Hnull. induction t as [z|o|o a k IHa IHk|c l IHl] using expr_ind2; intros Hwf m Hval Hfv.
  - reflexivity.
  - cbn [canon cren csubst]. unfold label. destruct (m o) as [[u i]|] eqn:Em; cbn [flab]; [reflexivity|].
    rewrite (Hval o) by (try (left; reflexivity); exact Em). reflexivity.
  - inversion Hwf as [| |o' a' k' Ba Bk Hn Hf Ha Hk| |]; subst. rewrite Forall_forall in IHa, IHk, Ha, Hk.
    cbn [canon cren]. set (s := sigs (base o)) in *. set (sl := slots s a k) in *. set (U := binders s sl).
    cbn [fval fv] in Hval, Hfv. fold s in Hval, Hfv. fold sl in Hval, Hfv.
    set (ca := zipp (fun p e => canon sigs (enter m U (scope s sl p)) e) (varpos s) (posonly s ++ poskw s) a).
    set (ck := map (fun x => (fst x, canon sigs (enter m U (scope s sl (kw_param s (fst x)))) (snd x))) k).
    assert (Ea : map (csubst H') (map (cren phi) ca) = map (csubst H) ca).
    { unfold ca. rewrite zipp_slots, !map_map. apply map_ext_in. intros x Hx.
      assert (Hin : In (snd x) a) by (eapply slots_pos_in; exact Hx). apply IHa; [exact Hin|apply Ha; exact Hin| |].
      - intros v Hv Hm. apply enter_none in Hm. destruct Hm as [Hm1 Hm2]. apply Hval; [|exact Hm2]. apply in_or_app. left.
        apply in_concat_zipp. exists x. split; [exact Hx|]. apply in_minus. split; assumption.
      - intros v Hv Hm. apply enter_none in Hm. destruct Hm as [Hm1 Hm2]. apply Hfv; [|exact Hm2]. right. apply in_or_app. left.
        apply in_concat_zipp. exists x. split; [exact Hx|]. apply in_minus. split; assumption. }
    assert (Ek : map (fun x => (fst x, csubst H' (snd x))) (map (fun x => (fst x, cren phi (snd x))) ck)
               = map (fun x => (fst x, csubst H (snd x))) ck).
    { unfold ck. rewrite !map_map. apply map_ext_in. intros x Hx. cbn [fst snd]. f_equal. apply IHk; [exact Hx|apply Hk; exact Hx| |].
      - intros v Hv Hm. apply enter_none in Hm. destruct Hm as [Hm1 Hm2]. apply Hval; [|exact Hm2]. apply in_or_app. right.
        apply in_concat_map. exists x. split; [exact Hx|]. apply in_minus. split; assumption.
      - intros v Hv Hm. apply enter_none in Hm. destruct Hm as [Hm1 Hm2]. apply Hfv; [|exact Hm2]. right. apply in_or_app. right.
        apply in_concat_map. exists x. split; [exact Hx|]. apply in_minus. split; assumption. }
    destruct (op_eq_dec (phi o) o) as [Ep|Ep].
    + assert (El : flab phi (label m o) = label m o) by (unfold label; destruct (m o) as [[u i]|]; cbn [flab]; congruence).
      rewrite El. unfold label. destruct (m o) as [[u i]|] eqn:Em.
      * cbn [csubst]. rewrite Ea, Ek. reflexivity.
      * destruct (Hfv o (or_introl eq_refl) Em) as [E1 _]. rewrite Ep in E1.
        cbn [csubst]. rewrite Ea, Ek. destruct ca as [|x ca']; [|reflexivity]. destruct ck as [|y ck']; [|reflexivity].
        cbn [map]. rewrite E1. reflexivity.
    + destruct (@normal_nullary sigs o a k (Hnull _ Ep) Hn) as [-> ->]. unfold ca, ck. cbn [zipp map csubst].
      unfold label. destruct (m o) as [[u i]|] eqn:Em; cbn [flab]; [reflexivity|].
      destruct (Hfv o (or_introl eq_refl) Em) as [E1 E2]. rewrite E1.
      destruct (H o); [reflexivity|]. exfalso. apply Ep. apply E2. reflexivity.
  - cbn [canon cren csubst]. f_equal. rewrite !map_map. apply map_ext_in. intros e He.
    rewrite Forall_forall in IHl. apply IHl; [exact He| | |].
    + inversion Hwf as [| | |c' l' Hw Hl|c' l' Hw Hl]; subst.
      * rewrite Forall_forall in Hl. apply Hl. exact He.
      * clear -Hl He. pose proof (flat_map_nil_in _ _ Hl _ He) as E. clear -E. revert E.
        induction e as [z|o|o a k _ _|c l IHl] using expr_ind2; cbn [ops]; intros E; try discriminate E; [constructor|].
        destruct (walks c) eqn:Ec; [|apply WfFlat; assumption].
        apply WfColl; [exact Ec|]. apply Forall_forall. intros x Hx.
        apply (proj1 (Forall_forall _ _) IHl x Hx). exact (flat_map_nil_in _ _ E _ Hx).
    + intros o Ho. apply Hval. cbn [fval]. apply in_flat_map. exists e. split; assumption.
    + intros o Ho. apply Hfv. cbn [fv]. apply in_flat_map. exists e. split; assumption.
Qed.

(** ** Building a [deffn] term *)
Variable d : op.
Hypothesis Hd : sigs (base d) = deffn_sig.

Definition kwvars (kn : list string) (ys : list op) : kwargs := combine kn (map EOp ys).

Lemma take_absent name (k : kwargs) : ~ In name (map fst k) -> take name k = None.
Proof.
  induction k as [|[n e] k IH]; intros H; [reflexivity|]. cbn [take]. destruct (String.eqb n name) eqn:E.
  - apply String.eqb_eq in E. exfalso. apply H. left. exact E.
  - rewrite IH; [reflexivity|]. intros Hi. apply H. right. exact Hi.
Qed.

Lemma map_fst_combine {A B} (l : list A) (l' : list B) : List.length l = List.length l' -> map fst (combine l l') = l.
Proof. revert l'. induction l as [|x l IH]; intros [|y l'] H; try discriminate H; [reflexivity|]. cbn. rewrite IH by (cbn in H; lia). reflexivity. Qed.
Lemma map_snd_combine {A B} (l : list A) (l' : list B) : List.length l = List.length l' -> map snd (combine l l') = l'.
Proof. revert l'. induction l as [|x l IH]; intros [|y l'] H; try discriminate H; [reflexivity|]. cbn. rewrite IH by (cbn in H; lia). reflexivity. Qed.

Lemma deffn_bind body (xs : list op) (k : kwargs) : ~ In "body"%string (map fst k) ->
  bind deffn_sig (body :: map EOp xs) k =
  Ok [(mkparam "body" false [0; 1] None, A1 body); (mkparam "args" true [0] None, APos (map EOp xs));
      (mkparam "kwargs" true [0] None, AKw k)].
Proof.
  intros H. unfold bind. cbn [deffn_sig posonly poskw varpos kwonly varkw bind_posonly bind_poskw pname].
  rewrite take_absent by exact H. cbn [bind_kwonly opt_list map app]. reflexivity.
Qed.

Lemma existsb_memo_disj l l' : (forall x, In x l -> ~ In x l') -> existsb (fun x => memo x l') l = false.
Proof.
  intros H. induction l as [|x l IH]; [reflexivity|]. cbn [existsb]. rewrite IH by (intros y Hy; apply H; right; exact Hy).
  rewrite (proj2 (memo_notin x l')); [reflexivity|]. apply H. left. reflexivity.
Qed.

Lemma NoDup_app_inv {A} (l l' : list A) : NoDup (l ++ l') -> NoDup l /\ NoDup l' /\ forall x, In x l -> ~ In x l'.
Proof.
  induction l as [|x l IH]; cbn [app]; intros H.
  - split; [constructor|split; [exact H|intros x []]].
  - inversion H as [|? ? Hx Hl]; subst. destruct (IH Hl) as (H1 & H2 & H3). rewrite in_app_iff in Hx. split; [constructor; tauto|].
    split; [exact H2|]. intros y [<-|Hy]; [tauto|apply H3; exact Hy].
Qed.

Lemma deffn_fvs body xs kn ys : extract body = [] -> NoDup (xs ++ ys) -> List.length kn = List.length ys ->
  ~ In "body"%string kn ->
  fvs_rule deffn_sig (body :: map EOp xs) (kwvars kn ys) =
  Ok ((xs ++ ys) :: map (fun _ => xs ++ ys) (map EOp xs), map (fun x => (fst x, xs ++ ys)) (kwvars kn ys)).
Proof.
  intros He Hnd Hl Hk. unfold fvs_rule.
  assert (Ek : map fst (kwvars kn ys) = kn) by (apply map_fst_combine; rewrite map_length; exact Hl).
  assert (Es : map snd (kwvars kn ys) = map EOp ys) by (apply map_snd_combine; rewrite map_length; exact Hl).
  replace (check_result deffn_sig) with true by reflexivity.
  rewrite deffn_bind by (rewrite Ek; exact Hk).
  set (pb := mkparam "body" false [0; 1] None). set (pa := mkparam "args" true [0] None). set (pk := mkparam "kwargs" true [0] None).
  destruct (NoDup_app_inv _ _ Hnd) as (N1 & N2 & N3).
  assert (Pa : param_vars pa (APos (map EOp xs)) = Ok xs).
  { unfold param_vars. cbn [isvar pa]. rewrite all_ops_eop. cbn [distinct]. rewrite (proj2 (nodupb_spec xs) N1). reflexivity. }
  assert (Pk : param_vars pk (AKw (kwvars kn ys)) = Ok ys).
  { unfold param_vars. cbn [isvar pk]. rewrite Es, all_ops_eop. cbn [distinct]. rewrite (proj2 (nodupb_spec ys) N2). reflexivity. }
  assert (Pb : param_vars pb (A1 body) = Ok []).
  { unfold param_vars. cbn [isvar pb]. rewrite He. reflexivity. }
  assert (Dx : existsb (fun x => memo x []) xs = false) by (apply existsb_memo_disj; intros x _ []).
  assert (Dy : existsb (fun x => memo x xs) ys = false) by (apply existsb_memo_disj; intros x Hx Hy; exact (N3 x Hy Hx)).
  assert (A1' : analyze deffn_sig (infer_ord deffn_sig [0;1]) [(pb, A1 body); (pa, APos (map EOp xs)); (pk, AKw (kwvars kn ys))] [] = Ok (xs ++ ys)).
  { cbn [analyze]. change (subt (infer_ord deffn_sig (ord pb)) (infer_ord deffn_sig [0; 1]) && negb (subt (infer_ord deffn_sig (ord pb)) (infer_ord deffn_sig (ret deffn_sig)))) with true.
    change (subt (infer_ord deffn_sig (ord pa)) (infer_ord deffn_sig [0; 1]) && negb (subt (infer_ord deffn_sig (ord pa)) (infer_ord deffn_sig (ret deffn_sig)))) with true.
    change (subt (infer_ord deffn_sig (ord pk)) (infer_ord deffn_sig [0; 1]) && negb (subt (infer_ord deffn_sig (ord pk)) (infer_ord deffn_sig (ret deffn_sig)))) with true.
    cbn iota. rewrite Pb. cbn [existsb app]. rewrite Pa, Dx. cbn [app]. rewrite Pk, Dy. reflexivity. }
  assert (A2' : analyze deffn_sig (infer_ord deffn_sig [0]) [(pb, A1 body); (pa, APos (map EOp xs)); (pk, AKw (kwvars kn ys))] [] = Ok (xs ++ ys)).
  { cbn [analyze]. change (subt (infer_ord deffn_sig (ord pb)) (infer_ord deffn_sig [0]) && negb (subt (infer_ord deffn_sig (ord pb)) (infer_ord deffn_sig (ret deffn_sig)))) with false.
    change (subt (infer_ord deffn_sig (ord pa)) (infer_ord deffn_sig [0]) && negb (subt (infer_ord deffn_sig (ord pa)) (infer_ord deffn_sig (ret deffn_sig)))) with true.
    change (subt (infer_ord deffn_sig (ord pk)) (infer_ord deffn_sig [0]) && negb (subt (infer_ord deffn_sig (ord pk)) (infer_ord deffn_sig (ret deffn_sig)))) with true.
    cbn iota. rewrite Pa, Dx. cbn [app]. rewrite Pk, Dy. reflexivity. }
  cbn [fvs_go]. change (ord pb) with [0;1]. change (ord pa) with [0]. change (ord pk) with [0].
  rewrite A1', A2'. cbn [is_kwonly deffn_sig kwonly existsb]. rewrite !app_nil_r. reflexivity.
Qed.

Lemma ren_args_const r B l : ren_args r l (map (fun _ => B) l) = Ok (map (rename (restrict r B)) l).
Proof. induction l as [|e l IH]; [reflexivity|]. cbn [ren_args map]. rewrite eval_ren, IH. reflexivity. Qed.
Lemma ren_kwargs_const r B (k : kwargs) : ren_kwargs r k (map (fun x => (fst x, B)) k) = Ok (map (fun x => (fst x, rename (restrict r B) (snd x))) k).
Proof. induction k as [|[s e] k IH]; [reflexivity|]. cbn [ren_kwargs map fst snd]. rewrite eval_ren, IH. reflexivity. Qed.

(** The variables after construction. *)
Lemma deffn_build body xs kn ys n : extract body = [] -> NoDup (xs ++ ys) -> List.length kn = List.length ys ->
  ~ In "body"%string kn ->
  exists U, same_set U (xs ++ ys) /\
    defdata sigs d (body :: map EOp xs) (kwvars kn ys) n =
    Ok (ETerm d (rename (fresh_ren n U) body :: map EOp (map (fresh_ren n U) xs)) (kwvars kn (map (fresh_ren n U) ys)),
        n + List.length U).
Proof.
  intros He Hnd Hl Hk. unfold defdata, sig_of. rewrite Hd. rewrite deffn_fvs by assumption.
  assert (Ek : map fst (kwvars kn ys) = kn) by (apply map_fst_combine; rewrite map_length; exact Hl).
  rewrite deffn_bind by (rewrite Ek; exact Hk).
  set (U := nodup _ _). exists U.
  assert (HU : same_set U (xs ++ ys)).
  { intros v. unfold U. rewrite nodup_In. cbn [List.concat]. rewrite !in_app_iff. split.
    - intros [[H|H]|H]; [exact H| |].
      + apply in_concat in H. destruct H as (l & Hl' & Hv). apply in_map_iff in Hl'. destruct Hl' as (y & <- & _). apply in_app_or in Hv. exact Hv.
      + apply in_concat in H. destruct H as (l & Hl' & Hv). rewrite map_map in Hl'. apply in_map_iff in Hl'. destruct Hl' as (y & <- & _). apply in_app_or in Hv. exact Hv.
    - intros H. left. left. exact H. }
  split; [exact HU|]. fold (fresh_ren n U).
  assert (HR : forall v, restrict (fresh_ren n U) (xs ++ ys) v = fresh_ren n U v).
  { intros v. unfold restrict. destruct (memo v (xs ++ ys)) eqn:E; [reflexivity|]. symmetry. apply fresh_out.
    intros H. apply HU in H. apply memo_in in H. congruence. }
  cbn [args_of kwargs_of flat_map fst snd is_kwonly deffn_sig kwonly existsb app]. rewrite !app_nil_r.
  change (fun v : op => if memo v U then {| base := base v; copy := n + index v U |} else v) with (fresh_ren n U).
  cbn [ren_args]. rewrite eval_ren, ren_args_const, ren_kwargs_const.
  rewrite (rename_ext (restrict (fresh_ren n U) (xs ++ ys)) (fresh_ren n U)) by (intros v _; apply HR).
  do 4 f_equal.
  - rewrite map_map, map_map. apply map_ext. intros x. cbn [rename]. rewrite HR. reflexivity.
  - unfold kwvars. clearbody U. clear -HR. revert HR. generalize (xs ++ ys) as B. intros B HR. revert ys.
    induction kn as [|s kn IH]; intros [|y ys]; try reflexivity. cbn [map combine fst snd rename]. rewrite HR, IH. reflexivity.
Qed.

(** ** Applying it *)

Definition functional (L : list (op * expr)) : Prop := forall o e e', In (o, e) L -> In (o, e') L -> e = e'.

Lemma lookup_sub_spec L o e : functional L -> (lookup_sub L o = Some e <-> In (o, e) L).
Proof.
  intros HF. split; [apply lookup_sub_in|]. intros Hi.
  assert (G : exists e', lookup_sub L o = Some e').
  { clear HF. induction L as [|[x y] L IH]; [destruct Hi|]. cbn [lookup_sub]. destruct (op_eqb x o) eqn:E; [eexists; reflexivity|].
    apply IH. destruct Hi as [Hi|Hi]; [|exact Hi]. inversion Hi; subst. rewrite op_eqb_refl in E. discriminate E. }
  destruct G as [e' G]. rewrite G. f_equal. apply lookup_sub_in in G. exact (HF _ _ _ G Hi).
Qed.

Lemma NoDup_fst_fun {A B} (l : list (A * B)) : NoDup (map fst l) -> forall x y y', In (x, y) l -> In (x, y') l -> y = y'.
Proof.
  induction l as [|[a b] l IH]; cbn [map fst]; intros H x y y' H1 H2; [destruct H1|].
  inversion H as [|? ? Ha Hl]; subst. destruct H1 as [H1|H1], H2 as [H2|H2].
  - congruence.
  - inversion H1; subst. exfalso. apply Ha. apply in_map_iff. exists (x, y'). split; [reflexivity|exact H2].
  - inversion H2; subst. exfalso. apply Ha. apply in_map_iff. exists (x, y). split; [reflexivity|exact H1].
  - exact (IH Hl _ _ _ H1 H2).
Qed.

Lemma take_kwvars name : forall kn ys, NoDup kn -> List.length kn = List.length ys -> forall y,
  In (name, y) (combine kn ys) -> exists r, take name (kwvars kn ys) = Some (EOp y, r).
Proof.
  induction kn as [|s kn IH]; intros [|z ys] Hnd Hl y H; try discriminate Hl; [destruct H|]. unfold kwvars. cbn [map combine take].
  inversion Hnd as [|? ? Hs Hnd']; subst. cbn [combine] in H. destruct (String.eqb s name) eqn:E.
  - apply String.eqb_eq in E. subst. destruct H as [H|H]; [inversion H; subst; eexists; reflexivity|].
    apply in_combine_l in H. contradiction.
  - destruct H as [H|H]; [inversion H; subst; rewrite String.eqb_refl in E; discriminate E|].
    destruct (IH ys Hnd' (eq_add_S _ _ Hl) y H) as [r Hr]. unfold kwvars in Hr. rewrite Hr. eexists. reflexivity.
Qed.

Lemma in_combine_ex {A B} (l : list A) : forall (l' : list B) x, List.length l = List.length l' -> In x l -> exists y, In (x, y) (combine l l').
Proof.
  induction l as [|a l IH]; intros [|b l'] x Hl Hx; try discriminate Hl; [destruct Hx|]. cbn [combine]. destruct Hx as [<-|Hx].
  - exists b. left. reflexivity.
  - destruct (IH l' x (eq_add_S _ _ Hl) Hx) as [y Hy]. exists y. right. exact Hy.
Qed.

Lemma kw_subs_spec (kn : list string) (ys : list op) : NoDup kn -> List.length kn = List.length ys -> forall kws,
  (forall name, In name (map fst kws) -> In name kn) ->
  exists ks, kw_subs (kwvars kn ys) kws = Some ks /\
    forall y e, In (y, e) ks <-> exists name, In (name, y) (combine kn ys) /\ In (name, e) kws.
Proof.
  intros Hnd Hl. induction kws as [|[name e] kws IH]; intros Hin; cbn [kw_subs].
  - exists []. split; [reflexivity|]. intros y e. split; [intros []|intros (name & _ & [])].
  - destruct IH as (ks & E & Hks); [intros s Hs; apply Hin; right; exact Hs|].
    destruct (in_combine_ex kn ys name Hl (Hin name (or_introl eq_refl))) as [y Hy].
    destruct (@take_kwvars name kn ys Hnd Hl y Hy) as [r Hr]. rewrite Hr, E. exists ((y, e) :: ks). split; [reflexivity|].
    intros z e'. cbn [In]. split.
    + intros [H|H]; [inversion H; subst; exists name; split; [exact Hy|left; reflexivity]|].
      apply Hks in H. destruct H as (s & H1 & H2). exists s. split; [exact H1|right; exact H2].
    + intros (s & H1 & [H2|H2]).
      * inversion H2; subst. left. f_equal. assert (Hf : map fst (combine kn ys) = kn) by (apply map_fst_combine; exact Hl).
        apply (NoDup_fst_fun (combine kn ys)) with (x := s); [rewrite Hf; exact Hnd|exact Hy|exact H1].
      * right. apply Hks. exists s. split; assumption.
Qed.

Lemma applied_in xs kn ys vs (kws : kwargs) : NoDup (map fst kws) -> forall o e,
  In (o, e) (applied xs kn ys vs kws) <->
  In (o, e) (combine xs vs) \/ exists name, In (name, o) (combine kn ys) /\ In (name, e) kws.
Proof.
  intros Hk o e. unfold applied. rewrite in_app_iff, in_flat_map.
  assert (F : forall name, match find (fun x => String.eqb (fst x) name) kws with
      | Some x => forall e', In (name, e') kws <-> e' = snd x | None => forall e', ~ In (name, e') kws end).
  { intros name. destruct (find _ kws) as [[s x]|] eqn:E.
    - apply find_some in E. cbn [fst snd] in E. destruct E as [H1 H2]. apply String.eqb_eq in H2. subst s.
      intros e'. split; [intros H; exact (NoDup_fst_fun kws Hk _ _ _ H H1)|intros ->; exact H1].
    - intros e' H. pose proof (find_none _ _ E _ H) as Hn. cbn [fst] in Hn. rewrite String.eqb_refl in Hn. discriminate Hn. }
  split.
  - intros [H|([s y] & Hy & H)]; [left; exact H|right]. cbn [fst snd] in H. specialize (F s).
    destruct (find _ kws) as [x|]; [|destruct H]. destruct H as [H|[]]. inversion H; subst. exists s. split; [exact Hy|]. apply F. reflexivity.
  - intros [H|(s & H1 & H2)]; [left; exact H|right]. exists (s, o). split; [exact H1|]. cbn [fst snd]. specialize (F s).
    destruct (find _ kws) as [x|]; [|exfalso; exact (F e H2)]. apply F in H2. subst e. left. reflexivity.
Qed.

Lemma combine_fun {A B} (l : list A) (l' : list B) : NoDup l -> forall x y y', In (x, y) (combine l l') -> In (x, y') (combine l l') -> y = y'.
Proof.
  revert l'. induction l as [|a l IH]; intros [|b l'] H x y y' H1 H2; try (destruct H1; fail). cbn [combine] in *.
  inversion H as [|? ? Ha Hl]; subst. destruct H1 as [H1|H1], H2 as [H2|H2].
  - congruence.
  - inversion H1; subst. apply in_combine_l in H2. contradiction.
  - inversion H2; subst. apply in_combine_l in H1. contradiction.
  - exact (IH _ Hl _ _ _ H1 H2).
Qed.
Lemma combine_fun_r {A B} (l : list A) (l' : list B) : NoDup l' -> forall x x' y, In (x, y) (combine l l') -> In (x', y) (combine l l') -> x = x'.
Proof.
  revert l'. induction l as [|a l IH]; intros [|b l'] H x x' y H1 H2; try (destruct H1; fail). cbn [combine] in *.
  inversion H as [|? ? Ha Hl]; subst. destruct H1 as [H1|H1], H2 as [H2|H2].
  - congruence.
  - inversion H1; subst. apply in_combine_r in H2. contradiction.
  - inversion H2; subst. apply in_combine_r in H1. contradiction.
  - exact (IH _ Hl _ _ _ H1 H2).
Qed.

Lemma subs_functional (xs : list op) (kn : list string) (ys : list op) (vs : list expr) (kws : kwargs) (L : list (op * expr)) : NoDup (xs ++ ys) -> NoDup (map fst kws) ->
  (forall o e, In (o, e) L <-> In (o, e) (combine xs vs) \/ exists name, In (name, o) (combine kn ys) /\ In (name, e) kws) ->
  functional L.
Proof.
  intros Hnd Hk HL o e e' H1 H2. destruct (NoDup_app_inv _ _ Hnd) as (N1 & N2 & N3).
  apply HL in H1, H2. destruct H1 as [H1|(s & H1 & K1)], H2 as [H2|(s' & H2 & K2)].
  - exact (combine_fun _ N1 _ _ _ H1 H2).
  - apply in_combine_l in H1. apply in_combine_r in H2. exfalso. exact (N3 _ H1 H2).
  - apply in_combine_l in H2. apply in_combine_r in H1. exfalso. exact (N3 _ H2 H1).
  - pose proof (combine_fun_r _ N2 _ _ _ H1 H2). subst s'. exact (NoDup_fst_fun kws Hk _ _ _ K1 K2).
Qed.

Lemma in_combine_map {A B} (r : A -> A) (l : list A) (l' : list B) x y :
  In (x, y) (combine (map r l) l') <-> exists z, x = r z /\ In (z, y) (combine l l').
Proof.
  revert l'. induction l as [|a l IH]; intros [|b l']; cbn [map combine In]; try (split; [intros []|intros (z & _ & [])]; fail).
  rewrite IH. split.
  - intros [H|(z & H1 & H2)]; [inversion H; subst; exists a; split; [reflexivity|left; reflexivity]|exists z; split; [exact H1|right; exact H2]].
  - intros (z & -> & [H|H]); [left; inversion H; subst; reflexivity|right; exists z; split; [reflexivity|exact H]].
Qed.
Lemma in_combine_map_r {A B} (r : A -> A) (l : list B) (l' : list A) x y :
  In (y, x) (combine l (map r l')) <-> exists z, x = r z /\ In (y, z) (combine l l').
Proof.
  revert l'. induction l as [|a l IH]; intros [|b l']; cbn [map combine In]; try (split; [intros []|intros (z & _ & [])]; fail).
  rewrite IH. split.
  - intros [H|(z & H1 & H2)]; [inversion H; subst; exists b; split; [reflexivity|left; reflexivity]|exists z; split; [exact H1|right; exact H2]].
  - intros (z & -> & [H|H]); [left; inversion H; subst; reflexivity|right; exists z; split; [reflexivity|exact H]].
Qed.

Lemma vars_only_eop xs : vars_only (map EOp xs) = xs.
Proof. induction xs as [|x xs IH]; [reflexivity|]. cbn [map vars_only]. rewrite IH. reflexivity. Qed.

(** A function whose variables are not bound again inside its body, applied to
    values that avoid the bound variables of the body (C18). *)
Lemma apply_open body (xs : list op) (kn : list string) (ys : list op) (vs : list expr) (kws : kwargs) n :
  wf sigs body -> below n body -> NoDup (xs ++ ys) ->
  (forall x, In x (xs ++ ys) -> nullary sigs x /\ ~ In x (bv sigs body)) ->
  List.length kn = List.length ys -> NoDup kn ->
  List.length vs = List.length xs -> NoDup (map fst kws) -> (forall name, In name (map fst kws) <-> In name kn) ->
  (forall e, In e (vs ++ map snd kws) -> wf sigs e /\ below n e /\ extract e = [] /\ forall x, In x (bv sigs body) -> ~ In x (fvo sigs e)) ->
  exists t n' L, call_deffn sigs d (ETerm d (body :: map EOp xs) (kwvars kn ys)) vs kws n = Some (Ok (t, n')) /\
    n <= n' /\ evals sigs (lookup_sub L) n n' body t /\ functional L /\
    (forall o e, In (o, e) L <-> In (o, e) (combine xs vs) \/ exists name, In (name, o) (combine kn ys) /\ In (name, e) kws).
Proof.
  intros Hwf Hb Hnd Hxs Hl Hkn Hlv Hk Hnames Hvs.
  destruct (@kw_subs_spec kn ys Hkn Hl kws) as (ks & Eks & Hks); [intros s Hs; apply Hnames; exact Hs|].
  set (L := combine xs vs ++ ks).
  assert (HL : forall o e, In (o, e) L <-> In (o, e) (combine xs vs) \/ exists name, In (name, o) (combine kn ys) /\ In (name, e) kws).
  { intros o e. unfold L. rewrite in_app_iff, Hks. reflexivity. }
  pose proof (@subs_functional xs kn ys vs kws L Hnd Hk HL) as HF.
  assert (Hval : forall o e, lookup_sub L o = Some e -> In o (xs ++ ys) /\ In e (vs ++ map snd kws)).
  { intros o e H. apply lookup_sub_in, HL in H. destruct H as [H|(s & H1 & H2)].
    - split; apply in_or_app; left; [eapply in_combine_l; exact H|eapply in_combine_r; exact H].
    - split; apply in_or_app; right; [eapply in_combine_r; exact H1|]. apply in_map_iff. exists (s, e). split; [reflexivity|exact H2]. }
  destruct (@eval_subst sigs Hsigs (lookup_sub L) body Hwf) with (n := n) as (t & n' & E & Le & Ev).
  - intros x Hx. split.
    + destruct (lookup_sub L x) as [e|] eqn:El; [|reflexivity]. destruct (Hval _ _ El) as [H1 _]. destruct (Hxs _ H1) as [_ H2]. contradiction.
    + intros o v Ho. destruct (Hval _ _ Ho) as [_ H1]. destruct (Hvs _ H1) as (_ & _ & _ & H2). apply H2. exact Hx.
  - constructor; intros o v Ho; destruct (Hval _ _ Ho) as [H1 H2]; [destruct (Hxs _ H1) as [H3 _]; exact H3| | |];
      destruct (Hvs _ H2) as (V1 & V2 & V3 & _); assumption.
  - exact Hb.
  - exists t, n', L. split; [|split; [exact Le|split; [exact Ev|split; [exact HF|exact HL]]]].
    unfold call_deffn. rewrite op_eqb_refl, Eks, vars_only_eop. fold L. rewrite E. reflexivity.
Qed.

Lemma fvo_ops t : incl (fvo sigs t) (ops t).
Proof.
  induction t as [z|o|o a k IHa IHk|c l IHl] using expr_ind2; cbn [fvo ops]; try (apply incl_refl).
  - rewrite Forall_forall in IHa, IHk. intros v [Hv|Hv]; [left; exact Hv|right]. apply in_app_or in Hv. apply in_or_app. destruct Hv as [Hv|Hv].
    + left. apply in_concat_zipp in Hv. destruct Hv as (x & Hx & Hv). apply in_minus in Hv. destruct Hv as [Hv _].
      apply slots_pos_in in Hx. apply in_flat_map. exists (snd x). split; [exact Hx|]. apply IHa; assumption.
    + right. apply in_concat_map in Hv. destruct Hv as (x & Hx & Hv). apply in_minus in Hv. destruct Hv as [Hv _].
      apply in_flat_map. exists x. split; [exact Hx|]. apply IHk; assumption.
  - rewrite Forall_forall in IHl. intros v Hv. apply in_flat_map in Hv. destruct Hv as (e & He & Hv).
    apply in_flat_map. exists e. split; [exact He|]. apply IHl; assumption.
Qed.
Lemma fv_ops t : incl (fv sigs t) (ops t).
Proof.
  induction t as [z|o|o a k IHa IHk|c l IHl] using expr_ind2; cbn [fv ops]; try (intros x []; fail).
  - rewrite Forall_forall in IHa, IHk. intros v [Hv|Hv]; [left; exact Hv|right]. apply in_app_or in Hv. apply in_or_app. destruct Hv as [Hv|Hv].
    + left. apply in_concat_zipp in Hv. destruct Hv as (x & Hx & Hv). apply in_minus in Hv. destruct Hv as [Hv _].
      apply slots_pos_in in Hx. apply in_flat_map. exists (snd x). split; [exact Hx|]. apply IHa; assumption.
    + right. apply in_concat_map in Hv. destruct Hv as (x & Hx & Hv). apply in_minus in Hv. destruct Hv as [Hv _].
      apply in_flat_map. exists x. split; [exact Hx|]. apply IHk; assumption.
  - rewrite Forall_forall in IHl. intros v Hv. apply in_flat_map in Hv. destruct Hv as (e & He & Hv).
    apply in_flat_map. exists e. split; [exact He|]. apply IHl; assumption.
Qed.

(** A function the program has just built, applied to terms of the program. *)
Theorem apply_fresh body (xs : list op) (kn : list string) (ys : list op) n :
  1 <= n -> user sigs n body -> extract body = [] -> NoDup (xs ++ ys) ->
  (forall x, In x (xs ++ ys) -> copy x = 0 /\ nullary sigs x /\ ~ In x (fval sigs body)) ->
  List.length kn = List.length ys -> NoDup kn -> ~ In "body"%string kn ->
  exists f n1, defdata sigs d (body :: map EOp xs) (kwvars kn ys) n = Ok (f, n1) /\ n <= n1 /\
  forall (vs : list expr) (kws : kwargs) n2, n1 <= n2 ->
  List.length vs = List.length xs -> NoDup (map fst kws) -> (forall name, In name (map fst kws) <-> In name kn) ->
  (forall e, In e (vs ++ map snd kws) -> user sigs n2 e /\ extract e = []) ->
  exists t n3, call_deffn sigs d f vs kws n2 = Some (Ok (t, n3)) /\ n2 <= n3 /\ user sigs n3 t /\
    canon sigs no_names t = csubst (hc sigs (lookup_sub (applied xs kn ys vs kws))) (canon sigs no_names body).
Proof.
  intros Hn Hu He Hnd Hxs Hl Hkn Hbody.
  destruct (@deffn_build body xs kn ys n He Hnd Hl Hbody) as (U & HU & Ef). eexists. eexists. split; [exact Ef|]. clear Ef.
  split; [lia|]. intros vs kws n2 Hn2 Hlv Hk Hnames Hvs.
  set (r := fresh_ren n U) in *.
  assert (HU0 : forall v, In v U -> copy v = 0) by (intros v Hv; apply HU in Hv; destruct (Hxs v Hv) as [H _]; exact H).
  assert (Hrin : forall v, In v U -> n <= copy (r v) < n + List.length U).
  { intros v Hv. unfold r. rewrite fresh_in by exact Hv. cbn [copy]. pose proof (index_lt _ _ Hv). lia. }
  assert (Hrout : forall v, ~ In v U -> r v = v) by (intros v Hv; apply fresh_out; exact Hv).
  assert (Hin : forall l, (forall v, In v l -> copy v < n) -> inj_on l r) by (intros l Hl0; apply fresh_inj_U; exact Hl0).
  assert (Hlt : forall v, In v (xs ++ ys) -> copy v < n) by (intros v Hv; destruct (Hxs v Hv) as [H _]; lia).
  assert (Hwk : walkable body = true) by exact (wf_walkable (us_wf Hu)).
  assert (Hri : inj_on (ops body) r) by (apply Hin; exact (us_below Hu)).
  assert (Hbv : forall v, In v (bv sigs (rename r body)) -> In v (bv sigs body) /\ copy v < n).
  { intros v Hv. apply (@bv_rename sigs r body) in Hv; [|intros w; apply fresh_base|exact Hwk|exact Hri].
    apply in_map_iff in Hv. destruct Hv as (w & <- & Hw). rewrite Hrout.
    - split; [exact Hw|]. apply (us_below Hu). apply bv_ops with (sigs := sigs). exact Hw.
    - intros Hc. apply (us_bv Hu _ Hw). apply HU0. exact Hc. }
  destruct (@apply_open (rename r body) (map r xs) kn (map r ys) vs kws n2) as (t & n3 & L & Ec & Le & Ev & HF & HL).
  - apply wf_rename; [exact Hsigs|intros w; apply fresh_base|exact (us_wf Hu)|exact Hri].
  - intros v Hv. apply ops_rename in Hv; [|exact Hwk]. apply in_map_iff in Hv. destruct Hv as (w & <- & Hw).
    destruct (in_dec op_eq_dec w U) as [Hi|Hi]; [specialize (Hrin w Hi); lia|]. rewrite Hrout by exact Hi. pose proof (us_below Hu _ Hw). lia.
  - rewrite <- map_app. apply NoDup_map_inj; [|exact Hnd]. apply Hin. exact Hlt.
  - intros x Hx. rewrite <- map_app in Hx. apply in_map_iff in Hx. destruct Hx as (y & <- & Hy). destruct (Hxs y Hy) as (_ & Hy2 & _).
    split; [unfold nullary; unfold r; rewrite fresh_base; exact Hy2|]. intros Hc. apply Hbv in Hc. destruct Hc as [_ Hc].
    apply HU in Hy. specialize (Hrin y Hy). lia.
  - rewrite map_length. exact Hl.
  - exact Hkn.
  - rewrite map_length. exact Hlv.
  - exact Hk.
  - exact Hnames.
  - intros e Hi. destruct (Hvs e Hi) as [Hue Hee]. split; [exact (us_wf Hue)|]. split; [exact (us_below Hue)|]. split; [exact Hee|].
    intros x Hx Hc. apply Hbv in Hx. destruct Hx as [Hx _]. apply (us_bv Hu _ Hx). exact (us_fvo Hue _ Hc).
  - set (A := applied xs kn ys vs kws).
    pose proof (@applied_in xs kn ys vs kws Hk) as HA. fold A in HA.
    pose proof (@subs_functional xs kn ys vs kws A Hnd Hk HA) as HFA.
    assert (HLA : forall o, copy o < n -> lookup_sub L (r o) = lookup_sub A o).
    { intros o Ho.
      assert (G : forall e, In (r o, e) L <-> In (o, e) A).
      { assert (Hz : forall z, In z (xs ++ ys) -> r o = r z -> o = z).
        { intros z Hz E. apply (Hin [o; z]); [|left; reflexivity|right; left; reflexivity|exact E].
          intros v [<-|[<-|[]]]; [exact Ho|exact (Hlt _ Hz)]. }
        intros e. rewrite HL, HA. split.
        - intros [H|(s & H1 & H2)].
          + left. apply in_combine_map in H. destruct H as (z & E & H). rewrite (Hz z) by (try exact E; apply in_or_app; left; eapply in_combine_l; exact H). exact H.
          + right. exists s. split; [|exact H2]. apply in_combine_map_r in H1. destruct H1 as (z & E & H).
            rewrite (Hz z) by (try exact E; apply in_or_app; right; eapply in_combine_r; exact H). exact H.
        - intros [H|(s & H1 & H2)].
          + left. apply in_combine_map. exists o. split; [reflexivity|exact H].
          + right. exists s. split; [|exact H2]. apply in_combine_map_r. exists o. split; [reflexivity|exact H1]. }
      destruct (lookup_sub L (r o)) as [e|] eqn:E1.
      - apply (lookup_sub_spec _ _ HF), G, (lookup_sub_spec _ _ HFA) in E1. symmetry. exact E1.
      - destruct (lookup_sub A o) as [e|] eqn:E2; [|reflexivity].
        apply (lookup_sub_spec _ _ HFA), G, (lookup_sub_spec _ _ HF) in E2. congruence. }
    assert (Ecn : canon sigs no_names t = csubst (hc sigs (lookup_sub A)) (canon sigs no_names body)).
    { rewrite (ev_canon Ev); [|intros x Hx; exfalso; apply Hx; reflexivity].
      rewrite (@canon_rename_gen sigs r r (fun w => fresh_base n U w) body Hwk no_names no_names Hri) by (intros v _; reflexivity).
      apply csubst_cren; [|exact (us_wf Hu)| |].
      - intros o Ho. destruct (in_dec op_eq_dec o U) as [Hi|Hi]; [|exfalso; apply Ho; apply Hrout; exact Hi].
        apply HU in Hi. destruct (Hxs o Hi) as (_ & H & _). exact H.
      - intros o Ho _. destruct (in_dec op_eq_dec o U) as [Hi|Hi]; [|apply Hrout; exact Hi].
        exfalso. apply HU in Hi. destruct (Hxs o Hi) as (_ & _ & H). exact (H Ho).
      - intros o Ho _. unfold hc. rewrite HLA by (apply (us_below Hu); apply fv_ops; exact Ho). split; [reflexivity|].
        intros HN. apply Hrout. intros Hi. apply HU in Hi.
        assert (G : exists e, In (o, e) A).
        { apply in_app_or in Hi. destruct Hi as [Hi|Hi].
          - destruct (in_combine_ex xs vs o (eq_sym Hlv) Hi) as [e G]. exists e. apply HA. left. exact G.
          - assert (Hi' : exists s, In (s, o) (combine kn ys)).
            { clear -Hl Hi. revert kn Hl. induction ys as [|y ys IH]; intros [|s kn] Hl; try discriminate Hl; [destruct Hi|].
              destruct Hi as [<-|Hi]; [exists s; left; reflexivity|]. destruct (IH Hi kn (eq_add_S _ _ Hl)) as [z Hz]. exists z. right. exact Hz. }
            destruct Hi' as [s Hs]. assert (Hsn : In s (map fst kws)) by (apply Hnames; eapply in_combine_l; exact Hs).
            apply in_map_iff in Hsn. destruct Hsn as ([s' e] & E & Hi'). cbn [fst] in E. subst s'. exists e. apply HA. right. exists s. split; assumption. }
        destruct G as [e G]. apply (lookup_sub_spec _ _ HFA) in G. rewrite G in HN. discriminate HN. }
    assert (Hval : forall o e, lookup_sub A o = Some e -> In e (vs ++ map snd kws)).
    { intros o e H. apply lookup_sub_in, HA in H. destruct H as [H|(s & _ & H2)].
      - apply in_or_app; left; eapply in_combine_r; exact H.
      - apply in_or_app; right. apply in_map_iff. exists (s, e). split; [reflexivity|exact H2]. }
    exists t, n3. split; [exact Ec|]. split; [exact Le|]. split; [|exact Ecn]. constructor.
    + exact (ev_wf Ev).
    + exact (ev_below Ev).
    + intros v Hv. assert (Hc : In v (cfvo (canon sigs no_names t))) by (apply cfvo_canon; split; [exact Hv|reflexivity]).
      rewrite Ecn in Hc. apply cfvo_csubst in Hc. destruct Hc as [Hc|(o & w & _ & Hw & Hc)].
      * apply cfvo_canon in Hc. destruct Hc as [Hc _]. exact (us_fvo Hu _ Hc).
      * unfold hc in Hw. destruct (lookup_sub A o) as [w0|] eqn:Eh; [|discriminate Hw]. cbn [option_map] in Hw. inversion Hw; subst.
        apply cfvo_canon in Hc. destruct Hc as [Hc _]. destruct (Hvs _ (Hval _ _ Eh)) as [Hu0 _]. exact (us_fvo Hu0 _ Hc).
    + intros v Hv. apply (ev_bv Ev) in Hv. destruct Hv as [Hv|(o & w & Ho & Hv)]; [lia|].
      apply lookup_sub_in, HL in Ho. assert (Hw : In w (vs ++ map snd kws)).
      { destruct Ho as [H|(s & _ & H2)]; [apply in_or_app; left; eapply in_combine_r; exact H|].
        apply in_or_app; right. apply in_map_iff. exists (s, w). split; [reflexivity|exact H2]. }
      destruct (Hvs _ Hw) as [Hu0 _]. exact (us_bv Hu0 _ Hv).
Qed.

Lemma apply_open_canon body (xs : list op) (kn : list string) (ys : list op) (vs : list expr) (kws : kwargs) n :
  wf sigs body -> below n body -> NoDup (xs ++ ys) ->
  (forall x, In x (xs ++ ys) -> nullary sigs x /\ ~ In x (bv sigs body)) ->
  List.length kn = List.length ys -> NoDup kn ->
  List.length vs = List.length xs -> NoDup (map fst kws) -> (forall name, In name (map fst kws) <-> In name kn) ->
  (forall e, In e (vs ++ map snd kws) -> wf sigs e /\ below n e /\ extract e = [] /\
     forall x, In x (bv sigs body) -> ~ In x (fvo sigs e)) ->
  exists t n', call_deffn sigs d (ETerm d (body :: map EOp xs) (kwvars kn ys)) vs kws n = Some (Ok (t, n')) /\
    canon sigs no_names t = csubst (hc sigs (lookup_sub (applied xs kn ys vs kws))) (canon sigs no_names body).
Proof.
  intros Hwf Hb Hnd Hxs Hl Hkn Hlv Hk Hnames Hvs.
  destruct (@apply_open body xs kn ys vs kws n Hwf Hb Hnd Hxs Hl Hkn Hlv Hk Hnames Hvs) as (t & n' & L & E & _ & Ev & HF & HL).
  exists t, n'. split; [exact E|]. rewrite (ev_canon Ev); [|intros x Hx; exfalso; apply Hx; reflexivity].
  pose proof (@applied_in xs kn ys vs kws Hk) as HA. set (A := applied xs kn ys vs kws) in *.
  pose proof (@subs_functional xs kn ys vs kws A Hnd Hk HA) as HFA.
  assert (HLA : forall o, lookup_sub L o = lookup_sub A o).
  { intros o. destruct (lookup_sub L o) as [e|] eqn:E1.
    - apply (lookup_sub_spec _ _ HF), HL, HA, (lookup_sub_spec _ _ HFA) in E1. symmetry. exact E1.
    - destruct (lookup_sub A o) as [e|] eqn:E2; [|reflexivity].
      apply (lookup_sub_spec _ _ HFA), HA, HL, (lookup_sub_spec _ _ HF) in E2. congruence. }
  pose proof (@csubst_cren (fun o => o) (hc sigs (lookup_sub A)) (hc sigs (lookup_sub L))) as C.
  rewrite <- (C (fun o H => match H eq_refl with end) body Hwf no_names); [rewrite cren_id; reflexivity|reflexivity|].
  intros o _ _. split; [unfold hc; rewrite HLA; reflexivity|reflexivity].
Qed.

Lemma unknown_keyword body vars (kv : kwargs) a (k : kwargs) n name : In name (map fst k) -> ~ In name (map fst kv) ->
  call_deffn sigs d (ETerm d (body :: vars) kv) a k n = Some (Err EBind).
Proof.
  intros Hi Hn. unfold call_deffn. rewrite op_eqb_refl.
  assert (E : kw_subs kv k = None).
  { induction k as [|[s e] k IH]; [destruct Hi|]. cbn [kw_subs]. destruct Hi as [Hi|Hi].
    - cbn [fst] in Hi. subst s. rewrite take_absent by exact Hn. reflexivity.
    - rewrite IH by exact Hi. destruct (take s kv) as [[[ | | | ] ?]|]; reflexivity. }
  rewrite E. reflexivity.
Qed.

End Beta.
