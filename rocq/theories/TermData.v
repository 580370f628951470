(** [defdata]: bound variables are renamed consistently to fresh ones. *)
From Coq Require Import List ZArith String Bool Arith Lia.
From Verif Require Import TermModel TermSpec TermProofs TermScopes.
Import ListNotations.
Set Implicit Arguments.

(** ** [fvs_rule] when the binders of the arguments are renamed *)

Section Cong.
Variable s : sig.
Variable f : op -> op.

Definition erel (p : option param) (e e' : expr) : Prop :=
  forall q, p = Some q -> subset (ord q) (ret s) = false -> ops_of q e' = map f (ops_of q e).

Definition vrel (p : param) (v v' : aval) : Prop :=
  match v, v' with
  | A1 e, A1 e' => erel (Some p) e e'
  | APos l, APos l' => Forall2 (erel (Some p)) l l'
  | AKw l, AKw l' => Forall2 (fun x x' => fst x' = fst x /\ erel (Some p) (snd x) (snd x')) l l'
  | _, _ => False
  end.

Definition brel (x x' : param * aval) : Prop := fst x' = fst x /\ vrel (fst x) (snd x) (snd x').

Lemma isvar_erel p o e' : isvar p = true -> subset (ord p) (ret s) = false ->
  erel (Some p) (EOp o) e' -> e' = EOp (f o).
Proof.
  intros Hv Hb H. specialize (H p eq_refl Hb). unfold ops_of in H. rewrite Hv in H.
  destruct e'; try discriminate H. cbn in H. inversion H. reflexivity.
Qed.

Lemma all_ops_map l : forall vs, all_ops l = Ok vs -> l = map EOp vs.
Proof.
  induction l as [|e l IH]; intros vs H; cbn [all_ops] in H; [inversion H; reflexivity|].
  destruct e; try discriminate H. destruct (all_ops l) as [r|]; [|discriminate H].
  inversion H; subst. cbn [map]. f_equal. apply IH. reflexivity.
Qed.
Lemma all_ops_eop vs : all_ops (map EOp vs) = Ok vs.
Proof. induction vs as [|v vs IH]; [reflexivity|]. cbn [map all_ops]. rewrite IH. reflexivity. Qed.

Lemma all_ops_rel p l l' vs : isvar p = true -> subset (ord p) (ret s) = false ->
  Forall2 (erel (Some p)) l l' -> all_ops l = Ok vs -> all_ops l' = Ok (map f vs).
Proof.
  intros Hv Hb H Ho. apply all_ops_map in Ho. subst l.
  assert (E : l' = map EOp (map f vs)).
  { revert l' H. induction vs as [|v vs IH]; intros l' H; inversion H as [|? e' ? l'' He Hl]; subst; [reflexivity|].
    cbn [map]. f_equal; [exact (isvar_erel Hv Hb He)|apply IH; exact Hl]. }
  subst l'. apply all_ops_eop.
Qed.

Lemma NoDup_map_inj (l : list op) : inj_on l f -> NoDup l -> NoDup (map f l).
Proof.
  induction l as [|x l IH]; intros Hi Hn; [constructor|]. inversion Hn as [|? ? Hx Hl]; subst. cbn [map]. constructor.
  - intros H. apply in_map_iff in H. destruct H as (y & Hy & Hyl). apply Hx.
    rewrite (Hi x y); [exact Hyl|left; reflexivity|right; exact Hyl|symmetry; exact Hy].
  - apply IH; [|exact Hl]. intros a b Ha Hb. apply Hi; right; assumption.
Qed.

Lemma vals_rel p v v' : vrel p v v' -> Forall2 (erel (Some p)) (vals v) (vals v').
Proof.
  destruct v as [e|l|l], v' as [e'|l'|l']; cbn [vrel vals]; try tauto.
  - intros H. constructor; [exact H|constructor].
  - intros H. induction H as [|x x' l l' [_ Hx] _ IH]; constructor; assumption.
Qed.

Lemma ops_rel p l l' : subset (ord p) (ret s) = false -> Forall2 (erel (Some p)) l l' ->
  flat_map (ops_of p) l' = map f (flat_map (ops_of p) l).
Proof.
  intros Hb H. induction H as [|e e' l l' He _ IH]; [reflexivity|].
  cbn [flat_map]. rewrite map_app, IH. f_equal. apply He; [reflexivity|exact Hb].
Qed.

Lemma param_vars_rel p v v' vs : subset (ord p) (ret s) = false -> vrel p v v' ->
  inj_on (flat_map (ops_of p) (vals v)) f -> param_vars p v = Ok vs -> param_vars p v' = Ok (map f vs).
Proof.
  intros Hb Hr Hi H. pose proof (param_vars_in _ _ H) as Hin. pose proof (vals_rel _ _ _ Hr) as Hvs.
  unfold param_vars in *. destruct (isvar p) eqn:Ev.
  - assert (Hinj : inj_on vs f) by (intros x y Hx Hy; apply Hi; apply Hin; assumption).
    assert (D : forall l l', Forall2 (erel (Some p)) l l' -> distinct (all_ops l) = Ok vs ->
                distinct (all_ops l') = Ok (map f vs)).
    { intros l l' Hl Hd. unfold distinct in Hd. destruct (all_ops l) as [r|] eqn:E; [|discriminate Hd].
      destruct (nodupb r) eqn:En; [|discriminate Hd]. inversion Hd; subst.
      rewrite (all_ops_rel Ev Hb Hl E). cbn [distinct].
      assert (En' : nodupb (map f vs) = true)
        by (apply nodupb_spec, NoDup_map_inj; [exact Hinj|apply nodupb_spec; exact En]).
      rewrite En'. reflexivity. }
    destruct v as [e|l|l], v' as [e'|l'|l']; cbn [vrel] in Hr; try contradiction; cbn [vals] in Hvs.
    + exact (all_ops_rel Ev Hb Hvs H).
    + exact (D _ _ Hvs H).
    + exact (D _ _ Hvs H).
  - inversion H as [H1]. f_equal.
    assert (E : forall w, match w with A1 e => extract e | APos l => flat_map extract l
                          | AKw l => flat_map extract (map snd l) end = flat_map (ops_of p) (vals w)).
    { intros w. unfold ops_of. rewrite Ev. destruct w; cbn [vals flat_map]; [rewrite app_nil_r|..]; reflexivity. }
    rewrite !E, (ops_rel Hb Hvs). apply nodup_map_inj. exact Hi.
Qed.

(** What a list of bound arguments can bind. *)
Definition braw (b : list (param * aval)) : list op :=
  flat_map (fun x => if subset (ord (fst x)) (ret s) then [] else flat_map (ops_of (fst x)) (vals (snd x))) b.

Lemma memo_map_inj x l : inj_on (x :: l) f -> memo (f x) (map f l) = memo x l.
Proof.
  intros Hi. destruct (memo x l) eqn:E.
  - apply memo_in in E. apply memo_in, in_map. exact E.
  - apply memo_notin in E. apply memo_notin. intros H. apply E. apply in_map_iff in H. destruct H as (y & Hy & Hl).
    rewrite (Hi x y); [exact Hl|left; reflexivity|right; exact Hl|symmetry; exact Hy].
Qed.

Lemma acond_binding so p : In p (params s) -> acond s so p = true -> subset (ord p) (ret s) = false.
Proof.
  intros Hp H. unfold acond in H. apply andb_true_iff in H. destruct H as [_ H].
  rewrite infer_ord_sub in H by (left; reflexivity). apply negb_true_iff in H. exact H.
Qed.

Lemma analyze_rel so b b' : Forall2 brel b b' -> (forall p v, In (p, v) b -> In p (params s)) ->
  forall R, inj_on R f -> incl (braw b) R -> forall bv0 B, incl bv0 R ->
  analyze s so b bv0 = Ok B -> analyze s so b' (map f bv0) = Ok (map f B).
Proof.
  intros Hr. induction Hr as [|[p v] [p' v'] b b' [Hf Hv] _ IH]; intros Hp R HR Hb bv0 B H0 H; cbn [analyze] in *.
  - inversion H; subst. reflexivity.
  - cbn [fst snd] in Hf, Hv. subst p'. fold (acond s so p) in *.
    assert (Hpp : In p (params s)) by (apply (Hp p v); left; reflexivity).
    assert (Hp' : forall q w, In (q, w) b -> In q (params s)) by (intros q w Hi; apply (Hp q w); right; exact Hi).
    assert (Hb' : incl (braw b) R) by (intros x Hx; apply Hb; unfold braw; cbn [flat_map]; apply in_or_app; right; exact Hx).
    destruct (acond s so p) eqn:Ec; [|apply (IH Hp' R HR Hb' bv0 B H0 H)].
    destruct (param_vars p v) as [vs|] eqn:Ev; [|discriminate H].
    pose proof (acond_binding so _ Hpp Ec) as Hbind.
    assert (Hops : incl (flat_map (ops_of p) (vals v)) R).
    { intros x Hx. apply Hb. unfold braw. cbn [flat_map fst snd]. apply in_or_app. left. rewrite Hbind. exact Hx. }
    assert (Hvs : incl vs R) by (intros x Hx; apply Hops; apply (param_vars_in _ _ Ev); exact Hx).
    rewrite (param_vars_rel p _ _ Hbind Hv (fun x y Hx Hy => HR x y (Hops _ Hx) (Hops _ Hy)) Ev).
    destruct (existsb (fun x => memo x bv0) vs) eqn:Eo; [discriminate H|].
    assert (Eo' : existsb (fun x => memo x (map f bv0)) (map f vs) = false).
    { rewrite <- Eo. clear -HR Hvs H0. induction vs as [|x vs IHv]; [reflexivity|]. cbn [map existsb].
      rewrite memo_map_inj; [f_equal; apply IHv; intros y Hy; apply Hvs; right; exact Hy|].
      intros a b Ha Hb'. apply HR.
      - destruct Ha as [<-|Ha]; [apply Hvs; left; reflexivity|apply H0; exact Ha].
      - destruct Hb' as [<-|Hb']; [apply Hvs; left; reflexivity|apply H0; exact Hb']. }
    rewrite Eo', <- map_app. apply (IH Hp' R HR Hb'); [|exact H].
    intros x Hx. apply in_app_or in Hx. destruct Hx as [Hx|Hx]; [apply H0|apply Hvs]; exact Hx.
Qed.

Lemma fvs_go_rel all all' : Forall2 brel all all' -> (forall p v, In (p, v) all -> In p (params s)) ->
  inj_on (braw all) f -> forall b b', Forall2 brel b b' -> forall ra rk,
  fvs_go s all b = Ok (ra, rk) ->
  fvs_go s all' b' = Ok (map (map f) ra, map (fun x => (fst x, map f (snd x))) rk).
Proof.
  intros Hall Hp Hinj b b' Hr. induction Hr as [|[p v] [p' v'] b b' [Hf Hv] _ IH]; intros ra rk H; cbn [fvs_go] in *.
  - inversion H; subst. reflexivity.
  - cbn [fst snd] in Hf, Hv. subst p'.
    destruct (analyze s (infer_ord s (ord p)) all []) as [B|] eqn:Ea; [|discriminate H].
    pose proof (@analyze_rel (infer_ord s (ord p)) all all' Hall Hp (braw all) Hinj (incl_refl _) [] B
                  (incl_nil_l _) Ea) as Ea'. cbn [map] in Ea'. rewrite Ea'.
    destruct (fvs_go s all b) as [[ra0 rk0]|]; [|discriminate H]. rewrite (IH _ _ eq_refl).
    destruct v as [e|l|l], v' as [e'|l'|l']; cbn [vrel] in Hv; try contradiction.
    + destruct (is_kwonly s p); inversion H; subst; reflexivity.
    + inversion H; subst. rewrite map_app, map_map.
      assert (E : map (fun _ : expr => map f B) l' = map (fun _ : expr => map f B) l).
      { clear -Hv. induction Hv; [reflexivity|]. cbn. f_equal. assumption. }
      rewrite E. reflexivity.
    + inversion H; subst. rewrite map_app, map_map. cbn [fst snd].
      assert (E : map (fun x : string * expr => (fst x, map f B)) l' = map (fun x : string * expr => (fst x, map f B)) l).
      { clear -Hv. induction Hv as [|x x' l l' [Hx _] _ IH]; [reflexivity|]. cbn. rewrite Hx. f_equal. exact IH. }
      rewrite E. reflexivity.
Qed.

(** *** From arguments to bound arguments *)

Lemma a1map_rel vp : forall ps a a', Forall2 (slot_ren s f) (slots_pos ps vp a) (slots_pos ps vp a') ->
  Forall2 brel (a1map ps a) (a1map ps a').
Proof.
  induction ps as [|p ps IH]; intros a a' H; [constructor|].
  destruct a as [|e a], a' as [|e' a']; cbn [slots_pos] in H; inversion H as [|? ? ? ? Hx Hl]; subst; [constructor|].
  unfold a1map. cbn [combine map]. constructor; [|apply IH; exact Hl].
  split; [reflexivity|]. cbn [snd fst vrel]. destruct Hx as [_ Hx]. intros q Hq. apply Hx. exact Hq.
Qed.

Lemma slots_rel_skip vp : forall ps1 ps2 a a', Forall2 (slot_ren s f) (slots_pos (ps1 ++ ps2) vp a) (slots_pos (ps1 ++ ps2) vp a') ->
  Forall2 (slot_ren s f) (slots_pos ps2 vp (skipn (List.length ps1) a)) (slots_pos ps2 vp (skipn (List.length ps1) a')).
Proof.
  induction ps1 as [|p ps1 IH]; intros ps2 a a' H; [exact H|].
  destruct a as [|e a], a' as [|e' a']; cbn [app slots_pos] in H; inversion H as [|? ? ? ? Hx Hl]; subst; [constructor|].
  cbn [List.length skipn]. apply IH. exact Hl.
Qed.

Lemma slots_rel_first vp : forall ps1 ps2 a a', Forall2 (slot_ren s f) (slots_pos (ps1 ++ ps2) vp a) (slots_pos (ps1 ++ ps2) vp a') ->
  Forall2 brel (a1map ps1 a) (a1map ps1 a').
Proof.
  induction ps1 as [|p ps1 IH]; intros ps2 a a' H; [constructor|].
  destruct a as [|e a], a' as [|e' a']; cbn [app slots_pos] in H; inversion H as [|? ? ? ? Hx Hl]; subst; [constructor|].
  unfold a1map. cbn [combine map]. constructor; [|exact (IH ps2 a a' Hl)].
  split; [reflexivity|]. cbn [snd fst vrel]. destruct Hx as [_ Hx]. intros q Hq. apply Hx. exact Hq.
Qed.

Lemma slots_nil_rel p a a' : Forall2 (slot_ren s f) (slots_pos [] (Some p) a) (slots_pos [] (Some p) a') ->
  Forall2 (erel (Some p)) a a'.
Proof.
  rewrite !slots_pos_nil. revert a'. induction a as [|e a IH]; intros [|e' a'] H; cbn [map] in H;
    inversion H as [|? ? ? ? Hx Hl]; subst; constructor; [|apply IH; exact Hl].
  destruct Hx as [_ Hx]. exact Hx.
Qed.

Lemma fill_rel a k a' k' : wf_sig s -> normal s (List.length a) (map fst k) ->
  Forall2 (slot_ren s f) (slots_pos (posonly s ++ poskw s) (varpos s) a) (slots_pos (posonly s ++ poskw s) (varpos s) a') ->
  Forall2 (fun x x' => fst x' = fst x /\ erel (kw_param s (fst x)) (snd x) (snd x')) k k' ->
  Forall2 brel (fill s a k) (fill s a' k').
Proof.
  intros Hw (Hl & Hvp & extra & Hn & Hvk & _ & Hex) Ha Hk. unfold fill.
  apply Forall2_app; [eapply slots_rel_first; exact Ha|].
  apply Forall2_app; [apply a1map_rel with (vp := varpos s); apply slots_rel_skip; exact Ha|].
  apply Forall2_app.
  { assert (Ha2 : Forall2 (slot_ren s f) (slots_pos [] (varpos s) (skipn (List.length (posonly s ++ poskw s)) a))
                 (slots_pos [] (varpos s) (skipn (List.length (posonly s ++ poskw s)) a')))
      by (apply slots_rel_skip; rewrite app_nil_r; exact Ha).
    destruct (varpos s) as [p|]; [|constructor]. cbn [opt_list map]. constructor; [|constructor].
    split; [reflexivity|]. cbn [snd fst vrel]. apply slots_nil_rel. exact Ha2. }
  assert (G : forall l, incl l (kwonly s) -> forall kk kk', map fst kk = map pname l ++ extra ->
     Forall2 (fun x x' => fst x' = fst x /\ erel (kw_param s (fst x)) (snd x) (snd x')) kk kk' ->
     Forall2 brel (a1map l (map snd kk)) (a1map l (map snd kk')) /\
     (forall p, varkw s = Some p ->
        Forall2 (fun x x' => fst x' = fst x /\ erel (Some p) (snd x) (snd x'))
           (skipn (List.length l) kk) (skipn (List.length l) kk'))).
  { induction l as [|q l IH]; intros Hi kk kk' Hnn HF.
    - split; [constructor|]. cbn [List.length skipn map app] in *. intros p Hp.
      assert (HH : forall x, In x kk -> kw_param s (fst x) = Some p).
      { intros x Hx. unfold kw_param. rewrite find_kwonly_out; [exact Hp|]. intros Hin. apply (Hex (fst x)).
        - rewrite <- Hnn. apply in_map. exact Hx.
        - rewrite map_app. apply in_or_app. right. exact Hin. }
      clear -HF HH. induction HF as [|x x' kk kk' [Hf He] _ IH]; constructor.
      + split; [exact Hf|]. rewrite <- (HH x (or_introl eq_refl)). exact He.
      + apply IH. intros y Hy. apply HH. right. exact Hy.
    - destruct HF as [|x x' kk kk' [Hf He] HF]; [discriminate Hnn|]. cbn [map app] in Hnn. inversion Hnn as [[Hn1 Hn2]].
      destruct (IH (fun z Hz => Hi z (or_intror Hz)) kk kk' Hn2 HF) as [I1 I2]. split; [|exact I2].
      unfold a1map. cbn [map combine]. constructor; [|exact I1].
      split; [reflexivity|]. cbn [fst snd vrel].
      assert (Eq : kw_param s (fst x) = Some q).
      { unfold kw_param. rewrite Hn1, find_kwonly_in; [reflexivity|apply kwonly_nodup; exact Hw|apply Hi; left; reflexivity]. }
      rewrite <- Eq. exact He. }
  destruct (G (kwonly s) (incl_refl _) k k' Hn Hk) as [G1 G2].
  apply Forall2_app; [exact G1|].
  destruct (varkw s) as [p|]; [|constructor]. cbn [opt_list map]. constructor; [|constructor].
  split; [reflexivity|]. cbn [snd fst vrel]. apply G2. reflexivity.
Qed.

Lemma braw_fill a k : wf_sig s -> normal s (List.length a) (map fst k) ->
  incl (braw (fill s a k)) (raw_binders s (slots s a k)).
Proof.
  intros Hw Hn x Hx. unfold braw in Hx. apply in_flat_map in Hx. destruct Hx as ([p v] & Hi & Hx). cbn [fst snd] in Hx.
  destruct (subset (ord p) (ret s)) eqn:Eb; [destruct Hx|]. apply in_flat_map in Hx. destruct Hx as (e & He & Hx).
  unfold raw_binders. apply in_flat_map. exists (Some p, e). cbn [fst snd]. rewrite Eb. split; [|exact Hx].
  apply (slots_fill a k Hw Hn). unfold slots_of. apply in_flat_map. exists (p, v). split; [exact Hi|]. cbn [fst snd].
  destruct v as [e0|l|l]; cbn [vals] in He.
  - destruct He as [<-|[]]. left. reflexivity.
  - apply in_map. exact He.
  - apply in_map_iff in He. destruct He as (y & <- & Hy). apply in_map_iff. exists y. split; [reflexivity|exact Hy].
Qed.

Lemma slots_pos_length ps vp : forall a, List.length (slots_pos ps vp a) = List.length a.
Proof.
  intros a. revert ps. induction a as [|e a IH]; intros ps; [reflexivity|].
  destruct ps; cbn [slots_pos List.length]; f_equal; apply IH.
Qed.

Lemma Forall2_len {A B} (P : A -> B -> Prop) l l' : Forall2 P l l' -> List.length l = List.length l'.
Proof. intros H. induction H; cbn; congruence. Qed.

Lemma fvs_rule_rel a k a' k' Ba Bk : wf_sig s -> normal s (List.length a) (map fst k) ->
  Forall2 (slot_ren s f) (slots_pos (posonly s ++ poskw s) (varpos s) a) (slots_pos (posonly s ++ poskw s) (varpos s) a') ->
  Forall2 (fun x x' => fst x' = fst x /\ erel (kw_param s (fst x)) (snd x) (snd x')) k k' ->
  inj_on (raw_binders s (slots s a k)) f ->
  fvs_rule s a k = Ok (Ba, Bk) ->
  fvs_rule s a' k' = Ok (map (map f) Ba, map (fun x => (fst x, map f (snd x))) Bk) /\
  normal s (List.length a') (map fst k').
Proof.
  intros Hw Hn Ha Hk Hinj H.
  assert (El : List.length a' = List.length a).
  { apply Forall2_len in Ha. rewrite !slots_pos_length in Ha. symmetry. exact Ha. }
  assert (Ek : map fst k' = map fst k).
  { clear -Hk. induction Hk as [|x x' k k' [Hx _] _ IH]; [reflexivity|]. cbn. f_equal; assumption. }
  assert (Hn' : normal s (List.length a') (map fst k')) by (rewrite El, Ek; exact Hn).
  split; [|exact Hn']. unfold fvs_rule in *. destruct (check_result s); [|discriminate H].
  rewrite (bind_normal _ _ Hw Hn) in H. rewrite (bind_normal _ _ Hw Hn').
  assert (HF : Forall2 brel (fill s a k) (fill s a' k')) by (apply fill_rel; assumption).
  refine (@fvs_go_rel (fill s a k) (fill s a' k') HF _ _ _ _ HF _ _ H).
  - intros p v Hi. exact (@fill_params s a k p v Hi).
  - intros x y Hx Hy. apply Hinj; apply (braw_fill _ _ Hw Hn); assumption.
Qed.
End Cong.

(** ** The renaming of [defdata] *)

Definition fresh_ren (n : nat) (U : list op) (v : op) : op :=
  if memo v U then mkop (base v) (n + index v U) else v.

Lemma fresh_base n U v : base (fresh_ren n U v) = base v.
Proof. unfold fresh_ren. destruct (memo v U); reflexivity. Qed.
Lemma restrict_base r B v : base (r v) = base v -> base (restrict r B v) = base v.
Proof. intros H. unfold restrict. destruct (memo v B); [exact H|reflexivity]. Qed.

Lemma index_inj U : forall x y, In x U -> In y U -> index x U = index y U -> x = y.
Proof.
  induction U as [|z U IH]; intros x y Hx Hy H; [destruct Hx|]. cbn [index] in H.
  destruct (op_eqb x z) eqn:Ex, (op_eqb y z) eqn:Ey; try discriminate H.
  - apply op_eqb_eq in Ex, Ey. congruence.
  - apply op_eqb_neq in Ex, Ey. inversion H. apply IH; [destruct Hx; congruence|destruct Hy; congruence|assumption].
Qed.
Lemma index_lt U : forall x, In x U -> index x U < List.length U.
Proof.
  induction U as [|z U IH]; intros x Hx; [destruct Hx|]. cbn [index List.length].
  destruct (op_eqb x z) eqn:E; [lia|]. apply op_eqb_neq in E. destruct Hx as [->|Hx]; [congruence|].
  specialize (IH x Hx). lia.
Qed.

Lemma fresh_in n U v : In v U -> fresh_ren n U v = mkop (base v) (n + index v U).
Proof. intros H. unfold fresh_ren. apply memo_in in H. rewrite H. reflexivity. Qed.
Lemma fresh_out n U v : ~ In v U -> fresh_ren n U v = v.
Proof. intros H. unfold fresh_ren. apply memo_notin in H. rewrite H. reflexivity. Qed.

(** Operations with copies below [n], the fresh ones being in [U]. *)
Lemma fresh_inj n U B l : incl B U -> (forall v, In v l -> copy v < n) -> inj_on l (restrict (fresh_ren n U) B).
Proof.
  intros HB Hl x y Hx Hy H. unfold restrict in H.
  destruct (memo x B) eqn:Ex, (memo y B) eqn:Ey.
  - apply memo_in in Ex, Ey. rewrite !fresh_in in H by (apply HB; assumption).
    inversion H. apply (@index_inj U); [apply HB; assumption|apply HB; assumption|lia].
  - apply memo_in in Ex. rewrite fresh_in in H by (apply HB; assumption).
    exfalso. specialize (Hl y Hy). rewrite <- H in Hl. cbn [copy] in Hl. lia.
  - apply memo_in in Ey. rewrite fresh_in in H by (apply HB; assumption).
    exfalso. specialize (Hl x Hx). rewrite H in Hl. cbn [copy] in Hl. lia.
  - exact H.
Qed.

(** Result of [ren_args] and [ren_kwargs]. *)
Lemma restrict_set r B B' : same_set B B' -> forall v, restrict r B v = restrict r B' v.
Proof.
  intros H v. unfold restrict. destruct (memo v B) eqn:E1, (memo v B') eqn:E2; try reflexivity; exfalso.
  - apply memo_in in E1. apply memo_notin in E2. apply E2, H. exact E1.
  - apply memo_in in E2. apply memo_notin in E1. apply E1, H. exact E2.
Qed.

Lemma ren_args_spec r (F : option param -> list op) : forall (sl : list (option param * expr)) Ba,
  Forall2 (fun B x => same_set B (F (fst x))) Ba sl ->
  ren_args r (map snd sl) Ba = Ok (map (fun x => rename (restrict r (F (fst x))) (snd x)) sl).
Proof.
  induction sl as [|x sl IH]; intros Ba H; [reflexivity|].
  inversion H as [|B y Ba' sl' HB HF]; subst. cbn [map ren_args]. rewrite eval_ren, (IH _ HF).
  do 2 f_equal. apply rename_ext. intros v _. apply restrict_set. exact HB.
Qed.

Lemma ren_kwargs_spec r (F : string -> list op) : forall (k : kwargs) Bk,
  Forall2 (fun B x => fst B = fst x /\ same_set (snd B) (F (fst x))) Bk k ->
  ren_kwargs r k Bk = Ok (map (fun x => (fst x, rename (restrict r (F (fst x))) (snd x))) k).
Proof.
  induction k as [|[n e] k IH]; intros Bk H; [reflexivity|].
  inversion H as [|[m B] y Bk' k' [Hf HB] HF]; subst. cbn [map ren_kwargs]. rewrite eval_ren, (IH _ HF).
  cbn [fst snd] in *. do 3 f_equal. apply rename_ext. intros v _. apply restrict_set. exact HB.
Qed.

Lemma map_snd_slots ps vp : forall a, map snd (slots_pos ps vp a) = a.
Proof.
  intros a. revert ps. induction a as [|e a IH]; intros ps; [reflexivity|].
  destruct ps; cbn [slots_pos map snd]; f_equal; apply IH.
Qed.

Section Data.
Variable sigs : nat -> sig.
Hypothesis Hsigs : forall b, wf_sig (sigs b).

(** The renamed arguments of a call. *)
Definition ren_a (s : sig) (sl : list (option param * expr)) (r : op -> op) (a : args) : args :=
  zipp (fun p e => rename (restrict r (scope s sl p)) e) (varpos s) (posonly s ++ poskw s) a.
Definition ren_k (s : sig) (sl : list (option param * expr)) (r : op -> op) (k : kwargs) : kwargs :=
  map (fun x => (fst x, rename (restrict r (scope s sl (kw_param s (fst x)))) (snd x))) k.

Lemma fvs_rule_bind s a k b : wf_sig s -> NoDup (map fst k) -> bind s a k = Ok b ->
  fvs_rule s a k = fvs_rule s (args_of s b) (kwargs_of s b).
Proof.
  intros Hw Hk Hb. destruct (bind_result _ _ Hw Hk Hb) as [Hn E].
  unfold fvs_rule. rewrite Hb, (bind_normal _ _ Hw Hn), <- E. reflexivity.
Qed.

Lemma union_binders s a k Ba Bk : wf_sig s -> normal s (List.length a) (map fst k) ->
  fvs_rule s a k = Ok (Ba, Bk) ->
  same_set (nodup op_eq_dec (List.concat Ba ++ List.concat (map snd Bk))) (binders s (slots s a k)).
Proof.
  intros Hw Hn H. destruct (fvs_rule_scopes _ _ Hw Hn H) as [H1 H2]. clear H. intros v.
  rewrite nodup_In, in_app_iff, binders_in. split.
  - intros [Hv|Hv]; apply in_concat in Hv; destruct Hv as (B & HB & Hv).
    + clear H2. revert HB. induction H1 as [|B0 x Ba sl HB0 _ IH]; intros HB; [destruct HB|].
      destruct HB as [<-|HB]; [apply HB0 in Hv; eapply scope_binders; exact Hv|]. apply IH. exact HB.
    + apply in_map_iff in HB. destruct HB as (y & <- & HB). clear H1.
      assert (G : exists x, same_set (snd y) (scope s (slots s a k) (kw_param s x))).
      { remember (slots s a k) as SL eqn:ES. clear -H2 HB. induction H2 as [|B0 x Bk kk [Hf HB0] _ IH]; [destruct HB|].
        destruct HB as [<-|HB]; [exists (fst x); exact HB0|apply IH; exact HB]. }
      destruct G as [x Hx]. apply Hx in Hv. eapply scope_binders. exact Hv.
  - intros Hv. unfold raw_binders in Hv. apply in_flat_map in Hv. destruct Hv as ([q e] & Hs & Hv). cbn [fst snd] in Hv.
    destruct q as [q|]; [|destruct Hv]. destruct (subset (ord q) (ret s)) eqn:Eb; [destruct Hv|].
    pose proof (@own_scope s (slots s a k) q e v Hs Eb Hv) as Hown. unfold slots in Hs. apply in_app_or in Hs.
    destruct Hs as [Hs|Hs]; [left|right].
    + clear H2. remember (slots s a k) as SL. clear HeqSL.
      induction H1 as [|B0 x Ba sl HB0 _ IH]; [destruct Hs|]. cbn [List.concat].
      apply in_or_app. destruct Hs as [->|Hs]; [left; apply HB0; exact Hown|right; apply IH; exact Hs].
    + clear H1. remember (slots s a k) as SL. clear HeqSL. unfold slots_kw in Hs.
      apply in_map_iff in Hs. destruct Hs as (y & Hy & Hs). inversion Hy; subst.
      clear -H2 Hs Hown H0. induction H2 as [|B0 x Bk kk [Hf HB0] _ IH]; [destruct Hs|]. cbn [map List.concat].
      apply in_or_app. destruct Hs as [->|Hs]; [left; apply HB0; rewrite H0; exact Hown|right; apply IH; exact Hs].
Qed.

(** Explicit form of the term [defdata] builds. *)
Lemma defdata_spec o a k n t n' : NoDup (map fst k) -> defdata sigs o a k n = Ok (t, n') ->
  let s := sigs (base o) in
  exists b U, bind s a k = Ok b /\ normal s (List.length (args_of s b)) (map fst (kwargs_of s b)) /\
    (exists Ba Bk, fvs_rule s (args_of s b) (kwargs_of s b) = Ok (Ba, Bk)) /\
    let sl := slots s (args_of s b) (kwargs_of s b) in
    same_set U (binders s sl) /\ NoDup U /\ n' = n + List.length U /\
    t = ETerm o (ren_a s sl (fresh_ren n U) (args_of s b)) (ren_k s sl (fresh_ren n U) (kwargs_of s b)).
Proof.
  intros Hk H s. unfold defdata, sig_of in H. fold s in H. assert (Hs : wf_sig s) by apply Hsigs. clearbody s.
  destruct (fvs_rule s a k) as [[Ba Bk]|] eqn:Ef; [|discriminate H].
  destruct (bind s a k) as [b|] eqn:Eb; [|discriminate H].
  pose proof (bind_result _ _ Hs Hk Eb) as [Hn _].
  rewrite (fvs_rule_bind _ _ Hs Hk Eb) in Ef.
  set (U := nodup op_eq_dec (List.concat Ba ++ List.concat (map snd Bk))) in *.
  exists b, U. split; [reflexivity|]. split; [exact Hn|]. split; [exists Ba, Bk; exact Ef|]. cbv zeta.
  split; [exact (union_binders _ _ Hs Hn Ef)|]. split; [apply NoDup_nodup|].
  destruct (fvs_rule_scopes _ _ Hs Hn Ef) as [H1 H2].
  pose proof (@ren_args_spec (fresh_ren n U) _ _ _ H1) as R1. rewrite map_snd_slots in R1.
  pose proof (@ren_kwargs_spec (fresh_ren n U) (fun x => scope s (slots s (args_of s b) (kwargs_of s b)) (kw_param s x)) _ _ H2) as R2.
  unfold fresh_ren at 1 in R1. unfold fresh_ren at 1 in R2. fold (args_of s b) (kwargs_of s b) in *.
  change (fun v : op => if memo v U then {| base := base v; copy := n + index v U |} else v) with (fresh_ren n U) in *.
  rewrite R1, R2 in H. inversion H; subst. split; [reflexivity|].
  unfold ren_a, ren_k. rewrite zipp_slots. reflexivity.
Qed.
End Data.
