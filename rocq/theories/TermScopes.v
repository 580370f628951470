(** [fvs_rule] computes the scopes of TermSpec; how scopes change under renaming. *)
From Coq Require Import List ZArith String Bool Arith Lia.
From Verif Require Import TermModel TermSpec TermProofs.
Import ListNotations.
Set Implicit Arguments.

(** ** Slots of bound arguments *)

Definition pslots_of (s : sig) (b : list (param * aval)) : list (option param * expr) :=
  flat_map (fun pv => match snd pv with
                      | A1 e => if is_kwonly s (fst pv) then [] else [(Some (fst pv), e)]
                      | APos l => map (fun e => (Some (fst pv), e)) l
                      | AKw _ => [] end) b.
Definition kslots_of (s : sig) (b : list (param * aval)) : list (string * (option param * expr)) :=
  flat_map (fun pv => match snd pv with
                      | A1 e => if is_kwonly s (fst pv) then [(pname (fst pv), (Some (fst pv), e))] else []
                      | APos _ => []
                      | AKw l => map (fun x => (fst x, (Some (fst pv), snd x))) l end) b.

Lemma pslots_app s b1 b2 : pslots_of s (b1 ++ b2) = pslots_of s b1 ++ pslots_of s b2.
Proof. apply flat_map_app. Qed.
Lemma kslots_app s b1 b2 : kslots_of s (b1 ++ b2) = kslots_of s b1 ++ kslots_of s b2.
Proof. apply flat_map_app. Qed.

Lemma slots_pos_app ps : forall vp a rest, List.length a = List.length ps ->
  slots_pos ps vp (a ++ rest) = slots_pos ps vp a ++ slots_pos [] vp rest.
Proof.
  induction ps as [|p ps IH]; intros vp a rest H; [destruct a; [reflexivity|discriminate H]|].
  destruct a as [|e a]; [discriminate H|]. cbn [app slots_pos]. f_equal. apply IH. cbn in H. lia.
Qed.
Lemma slots_pos_nil vp a : slots_pos [] vp a = map (fun e => (vp, e)) a.
Proof. induction a as [|e a IH]; [reflexivity|]. cbn [slots_pos map]. f_equal. exact IH. Qed.

Lemma pslots_a1 s ps : (forall p, In p ps -> is_kwonly s p = false) -> forall vp a, List.length ps <= List.length a ->
  pslots_of s (a1map ps a) = slots_pos ps vp (firstn (List.length ps) a) /\ kslots_of s (a1map ps a) = [].
Proof.
  induction ps as [|p ps IH]; intros Hk vp a H; [split; reflexivity|].
  destruct a as [|e a]; [cbn in H; lia|]. cbn [List.length] in H.
  unfold pslots_of, kslots_of, a1map. cbn [combine map flat_map fst snd firstn List.length slots_pos].
  rewrite (Hk p (or_introl eq_refl)).
  destruct (IH (fun q Hq => Hk q (or_intror Hq)) vp a ltac:(lia)) as [H1 H2].
  unfold pslots_of, kslots_of, a1map in H1, H2. rewrite H1, H2. split; reflexivity.
Qed.

Lemma find_kwonly_in l : NoDup (map pname l) -> forall p, In p l ->
  find (fun q => String.eqb (pname q) (pname p)) l = Some p.
Proof.
  induction l as [|q l IH]; intros Hn p Hp; [destruct Hp|].
  cbn [map] in Hn. inversion Hn as [|? ? Hq Hl]; subst. cbn [find].
  destruct (String.eqb (pname q) (pname p)) eqn:E.
  - apply String.eqb_eq in E. destruct Hp as [<-|Hp]; [reflexivity|].
    exfalso. apply Hq. rewrite E. apply in_map. exact Hp.
  - destruct Hp as [<-|Hp]; [rewrite String.eqb_refl in E; discriminate E|]. apply IH; assumption.
Qed.
Lemma find_kwonly_out l x : ~ In x (map pname l) -> find (fun q => String.eqb (pname q) x) l = None.
Proof.
  induction l as [|q l IH]; intros H; [reflexivity|]. cbn [find].
  destruct (String.eqb (pname q) x) eqn:E.
  - apply String.eqb_eq in E. exfalso. apply H. left. exact E.
  - apply IH. intros Hi. apply H. right. exact Hi.
Qed.

Lemma kwonly_nodup s : wf_sig s -> NoDup (map pname (kwonly s)).
Proof.
  intros Hw. unfold wf_sig in Hw. rewrite params_names in Hw.
  apply NoDup_app_r, NoDup_app_r, NoDup_app_r, NoDup_app_l in Hw. exact Hw.
Qed.

Lemma fill_slots s a k : wf_sig s -> normal s (List.length a) (map fst k) ->
  pslots_of s (fill s a k) = slots_pos (posonly s ++ poskw s) (varpos s) a /\
  kslots_of s (fill s a k) = map (fun x => (fst x, (kw_param s (fst x), snd x))) k.
Proof.
  intros Hw (Hl & Hvp & extra & Hn & Hvk & _ & Hex). unfold fill. rewrite app_assoc.
  rewrite <- a1map_app by (rewrite app_length in Hl; lia).
  rewrite !pslots_app, !kslots_app.
  set (ps := posonly s ++ poskw s) in *.
  assert (Hps : forall p, In p ps -> is_kwonly s p = false) by (intros p Hp; apply is_kwonly_false; assumption).
  destruct (@pslots_a1 s ps Hps (varpos s) a Hl) as [P1 K1]. rewrite P1, K1.
  assert (KW : forall l vals, (forall p, In p l -> is_kwonly s p = true) ->
     pslots_of s (a1map l vals) = [] /\
     kslots_of s (a1map l vals) = map (fun pe => (pname (fst pe), (Some (fst pe), snd pe))) (combine l vals)).
  { induction l as [|p l IH]; intros vals Hko; [split; reflexivity|].
    destruct vals as [|e vals]; [split; reflexivity|].
    unfold pslots_of, kslots_of, a1map. cbn [combine map flat_map fst snd].
    rewrite (Hko p (or_introl eq_refl)).
    destruct (IH vals (fun q Hq => Hko q (or_intror Hq))) as [H1 H2].
    unfold pslots_of, kslots_of, a1map in H1, H2. rewrite H1, H2. split; reflexivity. }
  destruct (KW (kwonly s) (map snd k) (fun p Hp => @is_kwonly_true s p Hp)) as [P3 K3]. rewrite P3, K3.
  set (a2 := skipn (List.length ps) a). set (k3 := skipn (List.length (kwonly s)) k).
  assert (AP : pslots_of s (map (fun p => (p, APos a2)) (opt_list (varpos s))) = map (fun e => (varpos s, e)) a2 /\
               kslots_of s (map (fun p => (p, APos a2)) (opt_list (varpos s))) = []).
  { destruct (varpos s) as [vp|]; cbn; [rewrite app_nil_r; split; reflexivity|].
    unfold a2. rewrite skipn_all2 by (rewrite (Hvp eq_refl); lia). split; reflexivity. }
  assert (KP : pslots_of s (map (fun p => (p, AKw k3)) (opt_list (varkw s))) = [] /\
               kslots_of s (map (fun p => (p, AKw k3)) (opt_list (varkw s))) = map (fun x => (fst x, (varkw s, snd x))) k3).
  { destruct (varkw s) as [vk|]; cbn; [rewrite app_nil_r; split; reflexivity|].
    unfold k3. rewrite skipn_all2; [split; reflexivity|].
    rewrite <- (map_length fst k), Hn, (Hvk eq_refl), app_nil_r, map_length. lia. }
  destruct AP as [-> ->]. destruct KP as [-> ->]. split.
  - rewrite !app_nil_r.
    assert (Ea : slots_pos ps (varpos s) a = slots_pos ps (varpos s) (firstn (List.length ps) a ++ a2))
      by (unfold a2; rewrite firstn_skipn; reflexivity).
    rewrite Ea, slots_pos_app by (rewrite firstn_length; lia). rewrite slots_pos_nil. reflexivity.
  - cbn [app]. unfold k3, kw_param.
    assert (Hf : forall l kk, incl l (kwonly s) -> map fst kk = map pname l ++ extra ->
       map (fun pe => (pname (fst pe), (Some (fst pe), snd pe))) (combine l (map snd kk)) ++
       map (fun x => (fst x, (varkw s, snd x))) (skipn (List.length l) kk) =
       map (fun x : string * expr => (fst x, (match find (fun p => String.eqb (pname p) (fst x)) (kwonly s) with
                                Some p => Some p | None => varkw s end, snd x))) kk).
    { induction l as [|p l IH]; intros kk Hi Hnn.
      - cbn [app map combine List.length skipn]. cbn [map app] in Hnn.
        apply map_ext_in. intros [n e] Hx. cbn [fst snd].
        rewrite find_kwonly_out; [reflexivity|]. intros Hin. apply (Hex n).
        + rewrite <- Hnn. apply in_map_iff. exists (n, e). split; [reflexivity|exact Hx].
        + rewrite map_app. apply in_or_app. right. exact Hin.
      - destruct kk as [|[n e] kk]; [discriminate Hnn|]. cbn [map app fst] in Hnn. inversion Hnn as [[Hn1 Hn2]].
        cbn [map combine List.length skipn app fst snd]. rewrite IH; [|intros q Hq; apply Hi; right; exact Hq|exact Hn2].
        f_equal. rewrite find_kwonly_in; [reflexivity|apply kwonly_nodup; exact Hw|apply Hi; left; reflexivity]. }
    apply Hf; [apply incl_refl|exact Hn].
Qed.

(** Slots of the whole call, in the order of the model's bound arguments. *)
Definition slots_of (b : list (param * aval)) : list (option param * expr) :=
  flat_map (fun pv => match snd pv with
                      | A1 e => [(Some (fst pv), e)]
                      | APos l => map (fun e => (Some (fst pv), e)) l
                      | AKw l => map (fun x => (Some (fst pv), snd x)) l end) b.

Lemma slots_of_in s b x : In x (slots_of b) <-> In x (pslots_of s b) \/ In x (map snd (kslots_of s b)).
Proof.
  induction b as [|[p v] b IH]; [cbn; tauto|].
  unfold slots_of, pslots_of, kslots_of in *. cbn [flat_map fst snd].
  rewrite map_app, !in_app_iff, IH.
  destruct v as [e|l|l]; [destruct (is_kwonly s p)| |]; cbn [map In].
  - tauto.
  - tauto.
  - tauto.
  - rewrite map_map. cbn [snd]. tauto.
Qed.

(** ** Parameters of bound arguments *)
Lemma a1map_fst ps : forall a p v, In (p, v) (a1map ps a) -> In p ps.
Proof.
  intros a p v H. unfold a1map in H. apply in_map_iff in H. destruct H as ([q e] & H & Hi).
  inversion H; subst. apply in_combine_l in Hi. exact Hi.
Qed.
Lemma fill_params s a k p v : In (p, v) (fill s a k) -> In p (params s).
Proof.
  unfold fill, params. rewrite !in_app_iff.
  intros [H|[H|[H|[H|H]]]].
  - left. exact (a1map_fst _ _ _ _ H).
  - right. left. exact (a1map_fst _ _ _ _ H).
  - right. right. left. destruct (varpos s); [|destruct H]. destruct H as [H|[]]. inversion H; subst. left. reflexivity.
  - right. right. right. left. exact (a1map_fst _ _ _ _ H).
  - right. right. right. right. destruct (varkw s); [|destruct H]. destruct H as [H|[]]. inversion H; subst. left. reflexivity.
Qed.

(** ** analyze *)

(** The operations of one bound parameter. *)
Definition vals (v : aval) : list expr :=
  match v with A1 e => [e] | APos l => l | AKw l => map snd l end.

Lemma all_ops_in l : forall vs, all_ops l = Ok vs -> forall v, In v vs <-> In v (flat_map (fun e => match e with EOp o => [o] | _ => [] end) l).
Proof.
  induction l as [|e l IH]; intros vs H v; cbn [all_ops] in H.
  - inversion H; subst. reflexivity.
  - destruct e; try discriminate H. destruct (all_ops l) as [r|]; [|discriminate H]. inversion H; subst.
    cbn [flat_map app In]. rewrite (IH _ eq_refl). reflexivity.
Qed.

Lemma param_vars_in p v vs : param_vars p v = Ok vs -> forall x, In x vs <-> In x (flat_map (ops_of p) (vals v)).
Proof.
  unfold param_vars, ops_of, vals. destruct (isvar p).
  - unfold distinct. destruct v as [e|l|l]; intros H x.
    + apply (all_ops_in _ H).
    + destruct (all_ops l) as [r|] eqn:E; [|discriminate H]. destruct (nodupb r); [|discriminate H].
      inversion H; subst. apply (all_ops_in _ E).
    + destruct (all_ops (map snd l)) as [r|] eqn:E; [|discriminate H]. destruct (nodupb r); [|discriminate H].
      inversion H; subst. apply (all_ops_in _ E).
  - intros H x. inversion H; subst. rewrite nodup_In. destruct v as [e|l|l]; cbn [flat_map]; [rewrite app_nil_r|..]; reflexivity.
Qed.

(** Condition tested by [analyze]. *)
Definition acond (s : sig) (so : list tv) (p : param) : bool :=
  subt (infer_ord s (ord p)) so && negb (subt (infer_ord s (ord p)) (infer_ord s (ret s))).

Lemma acond_binds s q p : In p (params s) -> acond s (infer_ord s (ord p)) q = binds_in s q p.
Proof.
  intros Hp. unfold acond, binds_in. rewrite !infer_ord_sub; [reflexivity|left; reflexivity|].
  right. apply in_map. exact Hp.
Qed.

Lemma analyze_in s so b : forall bv B, analyze s so b bv = Ok B -> forall x,
  In x B <-> In x bv \/ exists p v, In (p, v) b /\ acond s so p = true /\ In x (flat_map (ops_of p) (vals v)).
Proof.
  induction b as [|[p v] b IH]; intros bv B H x; cbn [analyze] in H.
  - inversion H; subst. split; [intros Hx; left; exact Hx|intros [Hx|(p & v & [] & _)]; exact Hx].
  - fold (acond s so p) in H. destruct (acond s so p) eqn:Ec.
    + destruct (param_vars p v) as [vs|] eqn:Ev; [|discriminate H].
      destruct (existsb (fun x0 => memo x0 bv) vs) eqn:Eo; [discriminate H|].
      rewrite (IH _ _ H), in_app_iff, (param_vars_in _ _ Ev). split.
      * intros [[Hx|Hx]|(p' & v' & Hi & Hc & Hx)].
        -- left. exact Hx.
        -- right. exists p, v. split; [left; reflexivity|]. split; assumption.
        -- right. exists p', v'. split; [right; exact Hi|]. split; assumption.
      * intros [Hx|(p' & v' & [Hi|Hi] & Hc & Hx)].
        -- left. left. exact Hx.
        -- inversion Hi; subst. left. right. exact Hx.
        -- right. exists p', v'. split; [exact Hi|]. split; assumption.
    + rewrite (IH _ _ H). split.
      * intros [Hx|(p' & v' & Hi & Hc & Hx)]; [left; exact Hx|].
        right. exists p', v'. split; [right; exact Hi|]. split; assumption.
      * intros [Hx|(p' & v' & [Hi|Hi] & Hc & Hx)]; [left; exact Hx| |].
        -- inversion Hi; subst. congruence.
        -- right. exists p', v'. split; [exact Hi|]. split; assumption.
Qed.

Lemma analyze_scope s p b B : In p (params s) -> analyze s (infer_ord s (ord p)) b [] = Ok B -> forall x,
  In x B <-> exists q v, In (q, v) b /\ binds_in s q p = true /\ In x (flat_map (ops_of q) (vals v)).
Proof.
  intros Hp Ha x. rewrite (analyze_in _ _ _ _ Ha). split.
  - intros [[]|(q & v & Hi & Hc & Hx)]. exists q, v. rewrite <- (acond_binds _ _ _ Hp). split; [exact Hi|split; assumption].
  - intros (q & v & Hi & Hc & Hx). right. exists q, v. rewrite (acond_binds _ _ _ Hp). split; [exact Hi|split; assumption].
Qed.

Lemma analyze_declared s p b B : In p (params s) -> analyze s (infer_ord s (ord p)) b [] = Ok B -> forall x,
  In x B <-> exists q v, In (q, v) b /\
    (incl (ord q) (ord p) /\ ~ incl (ord q) (ret s)) /\ In x (flat_map (ops_of q) (vals v)).
Proof.
  intros Hp Ha x. rewrite (@analyze_scope s p b B Hp Ha x).
  assert (E : forall q, binds_in s q p = true <-> incl (ord q) (ord p) /\ ~ incl (ord q) (ret s)).
  { intros q. unfold binds_in. rewrite andb_true_iff, negb_true_iff, subset_incl. split; intros [H1 H2]; (split; [exact H1|]).
    - intros H. apply subset_incl in H. congruence.
    - destruct (subset (ord q) (ret s)) eqn:Es; [|reflexivity]. apply subset_incl in Es. contradiction. }
  split; intros (q & v & H1 & H2 & H3); exists q, v; (split; [exact H1|split; [apply E; exact H2|exact H3]]).
Qed.

(** An Operation parameter whose variables would be visible in the result but not
    everywhere makes the signature unusable. *)
Lemma bad_result_scope s a k p : In p (params s) -> isvar p = true -> incl (ord p) (ret s) ->
  (exists x, In x (ord p) /\ exists o, In o (ordinals s) /\ ~ In x o) -> fvs_rule s a k = Err EAssert.
Proof.
  intros Hp Hv Hi (x & Hx & o & Ho & Hn). unfold fvs_rule.
  assert (E : check_result s = false); [|rewrite E; reflexivity].
  unfold check_result. apply negb_false_iff, existsb_exists. exists p. split; [exact Hp|].
  rewrite Hv. cbn [andb]. apply andb_true_intro. split; [|apply subset_incl; exact Hi].
  apply andb_true_intro. split.
  - apply subset_incl. apply root_sub. right. apply in_map. exact Hp.
  - apply negb_true_iff. destruct (subset (ord p) (root_ordinal s)) eqn:E; [|reflexivity].
    apply subset_incl in E. exfalso. apply Hn. apply (@root_sub s o Ho). apply E. exact Hx.
Qed.

(** Membership in the specification's scope, over the model's bound arguments. *)
Lemma scope_in s b p x : In x (scope s (slots_of b) (Some p)) <->
  exists q v, In (q, v) b /\ binds_in s q p = true /\ In x (flat_map (ops_of q) (vals v)).
Proof.
  unfold scope. rewrite in_flat_map. split.
  - intros ([q e] & Hi & Hx). unfold slots_of in Hi. apply in_flat_map in Hi. destruct Hi as ([q' v] & Hv & Hi).
    cbn [fst snd] in *. destruct q as [q|]; [|destruct Hx].
    assert (E : q' = q /\ In e (vals v)).
    { destruct v as [e0|l|l]; cbn [vals] in *.
      - destruct Hi as [Hi|[]]. inversion Hi; subst. split; [reflexivity|left; reflexivity].
      - apply in_map_iff in Hi. destruct Hi as (e1 & He & Hl). inversion He; subst. split; [reflexivity|exact Hl].
      - apply in_map_iff in Hi. destruct Hi as (e1 & He & Hl). inversion He; subst. split; [reflexivity|].
        apply in_map. exact Hl. }
    destruct E as [-> He]. exists q, v. destruct (binds_in s q p) eqn:Eb; [|destruct Hx].
    split; [exact Hv|]. split; [reflexivity|]. apply in_flat_map. exists e. split; assumption.
  - intros (q & v & Hv & Hb & Hx). apply in_flat_map in Hx. destruct Hx as (e & He & Hx).
    exists (Some q, e). cbn [fst snd]. rewrite Hb. split; [|exact Hx].
    unfold slots_of. apply in_flat_map. exists (q, v). split; [exact Hv|]. cbn [fst snd].
    destruct v as [e0|l|l]; cbn [vals] in He.
    + destruct He as [<-|[]]. left. reflexivity.
    + apply in_map. exact He.
    + apply in_map_iff in He. destruct He as (y & <- & Hy). apply in_map_iff. exists y. split; [reflexivity|exact Hy].
Qed.

Definition same_set (l1 l2 : list op) : Prop := forall x, In x l1 <-> In x l2.

Lemma fvs_go_scopes s all b : (forall p v, In (p, v) b -> In p (params s)) -> forall ra rk,
  fvs_go s all b = Ok (ra, rk) ->
  Forall2 (fun B x => same_set B (scope s (slots_of all) (fst x))) ra (pslots_of s b) /\
  Forall2 (fun B x => fst B = fst x /\ same_set (snd B) (scope s (slots_of all) (fst (snd x)))) rk (kslots_of s b).
Proof.
  induction b as [|[p v] b IH]; intros Hp ra rk H; cbn [fvs_go] in H.
  - inversion H; subst. split; constructor.
  - destruct (analyze s (infer_ord s (ord p)) all []) as [B|] eqn:Ea; [|discriminate H].
    destruct (fvs_go s all b) as [[ra' rk']|] eqn:Eg; [|discriminate H].
    destruct (IH (fun q w Hi => Hp q w (or_intror Hi)) _ _ eq_refl) as [IH1 IH2].
    assert (Hpp : In p (params s)) by (apply (Hp p v); left; reflexivity).
    assert (HB : same_set B (scope s (slots_of all) (Some p))).
    { intros x. rewrite (analyze_in _ _ _ _ Ea), scope_in. split.
      - intros [[]|(q & w & Hi & Hc & Hx)]. exists q, w. rewrite <- (acond_binds _ _ _ Hpp). split; [exact Hi|split; assumption].
      - intros (q & w & Hi & Hc & Hx). right. exists q, w. rewrite (acond_binds _ _ _ Hpp). split; [exact Hi|split; assumption]. }
    unfold pslots_of, kslots_of. cbn [flat_map fst snd].
    destruct v as [e|l|l].
    + destruct (is_kwonly s p); inversion H; subst; cbn [app]; (split; [|try exact IH2]); try exact IH1.
      * constructor; [split; [reflexivity|exact HB]|exact IH2].
      * constructor; [exact HB|exact IH1].
    + inversion H; subst. split; [|exact IH2]. apply Forall2_app; [|exact IH1].
      clear -HB. induction l as [|e l IHl]; [constructor|]. constructor; [exact HB|exact IHl].
    + inversion H; subst. split; [exact IH1|]. apply Forall2_app; [|exact IH2].
      clear -HB. induction l as [|e l IHl]; [constructor|]. constructor; [split; [reflexivity|exact HB]|exact IHl].
Qed.

(** Scope only depends on the set of slots. *)
Lemma scope_ext s sl sl' p : (forall x, In x sl <-> In x sl') -> same_set (scope s sl p) (scope s sl' p).
Proof.
  intros H x. destruct p as [p|]; [|reflexivity]. unfold scope. rewrite !in_flat_map.
  split; intros (y & Hy & Hx); exists y; (split; [apply H; exact Hy|exact Hx]).
Qed.

Lemma slots_fill s a k : wf_sig s -> normal s (List.length a) (map fst k) ->
  forall x, In x (slots_of (fill s a k)) <-> In x (slots s a k).
Proof.
  intros Hw Hn x. rewrite (slots_of_in s). destruct (fill_slots a k Hw Hn) as [-> ->].
  unfold slots. rewrite in_app_iff. unfold slots_kw. rewrite map_map. cbn [snd]. reflexivity.
Qed.

Lemma Forall2_impl {A B} (P Q : A -> B -> Prop) l l' :
  (forall x y, P x y -> Q x y) -> Forall2 P l l' -> Forall2 Q l l'.
Proof. intros H F. induction F; constructor; [apply H; assumption|assumption]. Qed.

(** [fvs_rule] on normal arguments gives, for each argument, the variables in whose
    scope it is. *)
Lemma fvs_rule_scopes s a k Ba Bk : wf_sig s -> normal s (List.length a) (map fst k) ->
  fvs_rule s a k = Ok (Ba, Bk) ->
  Forall2 (fun B x => same_set B (scope s (slots s a k) (fst x))) Ba
          (slots_pos (posonly s ++ poskw s) (varpos s) a) /\
  Forall2 (fun B x => fst B = fst x /\ same_set (snd B) (scope s (slots s a k) (kw_param s (fst x)))) Bk k.
Proof.
  intros Hw Hn H. unfold fvs_rule in H. destruct (check_result s); [|discriminate H].
  rewrite (bind_normal _ _ Hw Hn) in H.
  destruct (fvs_go_scopes s (fill s a k) (fill s a k) (fun p v => @fill_params s a k p v) H) as [H1 H2].
  destruct (fill_slots a k Hw Hn) as [E1 E2]. rewrite E1 in H1. rewrite E2 in H2.
  pose proof (slots_fill a k Hw Hn) as Hs. split.
  - eapply Forall2_impl; [|exact H1]. intros B x HB v. cbn beta in HB. rewrite (HB v). apply scope_ext. exact Hs.
  - assert (G : forall S1 S2, (forall p, same_set (scope s S1 p) (scope s S2 p)) -> forall kk Bs,
      Forall2 (fun B x => fst B = fst x /\ same_set (snd B) (scope s S1 (fst (snd x)))) Bs
              (map (fun x : string * expr => (fst x, (kw_param s (fst x), snd x))) kk) ->
      Forall2 (fun B x => fst B = fst x /\ same_set (snd B) (scope s S2 (kw_param s (fst x)))) Bs kk).
    { intros S1 S2 HS. induction kk as [|[n e] kk IH]; intros Bs HF; cbn [map] in HF.
      - inversion HF. constructor.
      - inversion HF as [|B y Bs' l' [Hf HB] HF']; subst. constructor; [|apply IH; exact HF'].
        cbn [fst snd] in *. split; [exact Hf|]. intros v. rewrite (HB v). apply HS. }
    eapply G; [|exact H2]. intros p. apply scope_ext. exact Hs.
Qed.

(** ** Renaming *)

Fixpoint rename (r : op -> op) (t : expr) : expr :=
  match t with
  | EConst z => EConst z
  | EOp o => EOp (r o)
  | ETerm o a k => ETerm (r o) (map (rename r) a) (map (fun x => (fst x, rename r (snd x))) k)
  | EColl c l => if walks c then EColl c (map (rename r) l) else EColl c l
  end.

(** Collections that [evaluate] does not enter contain no operations. *)
Fixpoint walkable (t : expr) : bool :=
  match t with
  | EConst _ | EOp _ => true
  | ETerm o a k => forallb walkable a && forallb (fun x => walkable (snd x)) k
  | EColl c l => if walks c then forallb walkable l
                 else match flat_map ops l with [] => true | _ => false end
  end.

Lemma eval_ren r e : evaluate_with_renaming r e = Ok (rename r e, tt).
Proof.
  unfold evaluate_with_renaming.
  induction e as [z|o|o a k IHa IHk|c l IHl] using expr_ind2; cbn [evaluate rename]; try reflexivity.
  - assert (Ha : mapm (evaluate r (fun o a k (u : unit) => Ok (ETerm (r o) a k, u))) a tt = Ok (map (rename r) a, tt)).
    { clear -IHa. induction IHa as [|e a He Ha IH]; [reflexivity|]. cbn [mapm map]. rewrite He.
      rewrite IH. reflexivity. }
    rewrite Ha.
    assert (Hk : mapk (evaluate r (fun o a k (u : unit) => Ok (ETerm (r o) a k, u))) k tt
                 = Ok (map (fun x => (fst x, rename r (snd x))) k, tt)).
    { clear -IHk. induction IHk as [|e k He Hk IH]; [reflexivity|]. cbn [mapk map]. rewrite He.
      rewrite IH. reflexivity. }
    rewrite Hk. reflexivity.
  - destruct (walks c); [|reflexivity].
    assert (Ha : mapm (evaluate r (fun o a k (u : unit) => Ok (ETerm (r o) a k, u))) l tt = Ok (map (rename r) l, tt)).
    { clear -IHl. induction IHl as [|e a He Ha IH]; [reflexivity|]. cbn [mapm map]. rewrite He.
      rewrite IH. reflexivity. }
    rewrite Ha. reflexivity.
Qed.

Lemma rename_ext r r' e : (forall v, In v (ops e) -> r v = r' v) -> rename r e = rename r' e.
Proof.
  induction e as [z|o|o a k IHa IHk|c l IHl] using expr_ind2; cbn [rename ops]; intros H; try reflexivity.
  - rewrite H by (left; reflexivity). reflexivity.
  - rewrite H by (left; reflexivity). f_equal.
    + apply map_ext_in. intros e He. apply (proj1 (Forall_forall _ _) IHa e He).
      intros v Hv. apply H. right. apply in_or_app. left. apply in_flat_map. exists e. split; assumption.
    + apply map_ext_in. intros x Hx. f_equal. apply (proj1 (Forall_forall _ _) IHk x Hx).
      intros v Hv. apply H. right. apply in_or_app. right. apply in_flat_map. exists x. split; assumption.
  - destruct (walks c); [|reflexivity]. f_equal. apply map_ext_in. intros e He.
    apply (proj1 (Forall_forall _ _) IHl e He). intros v Hv. apply H. apply in_flat_map. exists e. split; assumption.
Qed.

Lemma flat_map_nil_in {A B} (f : A -> list B) l : flat_map f l = [] -> forall x, In x l -> f x = [].
Proof.
  intros H x Hx. destruct (f x) as [|y ys] eqn:E; [reflexivity|]. exfalso.
  assert (Hi : In y (flat_map f l)) by (apply in_flat_map; exists x; split; [exact Hx|rewrite E; left; reflexivity]).
  rewrite H in Hi. destruct Hi.
Qed.

Lemma extract_ops e : incl (extract e) (ops e).
Proof.
  induction e as [z|o|o a k IHa IHk|c l IHl] using expr_ind2; cbn [extract ops]; try (intros x []; fail).
  - apply incl_refl.
  - destruct (extracts c); [|intros x []]. intros x Hx. apply in_flat_map in Hx. destruct Hx as (e & He & Hx).
    apply in_flat_map. exists e. split; [exact He|]. apply (proj1 (Forall_forall _ _) IHl e He). exact Hx.
Qed.

Lemma flat_map_map {A B C} (f : B -> list C) (g : A -> B) l : flat_map f (map g l) = flat_map (fun x => f (g x)) l.
Proof. induction l as [|x l IH]; [reflexivity|]. cbn. rewrite IH. reflexivity. Qed.
Lemma map_flat_map {A B C} (f : B -> C) (g : A -> list B) l : map f (flat_map g l) = flat_map (fun x => map f (g x)) l.
Proof. induction l as [|x l IH]; [reflexivity|]. cbn. rewrite map_app, IH. reflexivity. Qed.
Lemma flat_map_ext_in {A B} (f g : A -> list B) l : (forall x, In x l -> f x = g x) -> flat_map f l = flat_map g l.
Proof.
  induction l as [|x l IH]; intros H; [reflexivity|]. cbn. rewrite H by (left; reflexivity).
  rewrite IH; [reflexivity|]. intros y Hy. apply H. right. exact Hy.
Qed.

Lemma extract_rename r e : walkable e = true -> extract (rename r e) = map r (extract e).
Proof.
  induction e as [z|o|o a k IHa IHk|c l IHl] using expr_ind2; cbn [extract rename walkable]; intros Hw; try reflexivity.
  destruct (walks c) eqn:Ec; cbn [extract].
  - destruct (extracts c); [|reflexivity]. rewrite flat_map_map, map_flat_map.
    apply flat_map_ext_in. intros e He. apply (proj1 (Forall_forall _ _) IHl e He).
    rewrite forallb_forall in Hw. apply Hw. exact He.
  - destruct (extracts c); [|reflexivity].
    destruct (flat_map ops l) eqn:E; [|discriminate Hw].
    assert (E2 : flat_map extract l = []).
    { clear -E. induction l as [|e l IH]; [reflexivity|]. cbn in *. apply app_eq_nil in E. destruct E as [E1 E2].
      rewrite (IH E2), app_nil_r. destruct (extract e) as [|x xs] eqn:Ex; [reflexivity|].
      assert (Hi : In x (ops e)) by (apply extract_ops; rewrite Ex; left; reflexivity). rewrite E1 in Hi. destruct Hi. }
    rewrite E2. reflexivity.
Qed.

Lemma ops_of_rename r p e : walkable e = true -> ops_of p (rename r e) = map r (ops_of p e).
Proof.
  intros Hw. unfold ops_of. destruct (isvar p); [|apply extract_rename; exact Hw].
  destruct e as [z|o|o a k|c l]; cbn [rename]; try reflexivity. destruct (walks c); reflexivity.
Qed.

Lemma ops_of_ops p e : incl (ops_of p e) (ops e).
Proof.
  unfold ops_of. destruct (isvar p); [|apply extract_ops].
  destruct e; try (intros x []; fail). apply incl_refl.
Qed.

(** ** Scopes of a call whose arguments are renamed *)

Definition inj_on (l : list op) (r : op -> op) : Prop :=
  forall x y, In x l -> In y l -> r x = r y -> x = y.

Lemma nodup_map_inj r l : inj_on l r -> nodup op_eq_dec (map r l) = map r (nodup op_eq_dec l).
Proof.
  induction l as [|x l IH]; intros H; [reflexivity|]. cbn [map nodup].
  assert (H' : inj_on l r) by (intros a b Ha Hb; apply H; right; assumption).
  destruct (in_dec op_eq_dec (r x) (map r l)) as [Hi|Hi], (in_dec op_eq_dec x l) as [Hj|Hj].
  - apply IH. exact H'.
  - exfalso. apply in_map_iff in Hi. destruct Hi as (y & Hy & Hl).
    assert (y = x) by (apply H; [right; exact Hl|left; reflexivity|exact Hy]). subst. contradiction.
  - exfalso. apply Hi. apply in_map. exact Hj.
  - cbn [map]. f_equal. apply IH. exact H'.
Qed.

(** Slots related argument by argument: same parameter, and the operations of a
    binding parameter are renamed by [r]. *)
Definition slot_ren (s : sig) (r : op -> op) (x x' : option param * expr) : Prop :=
  fst x' = fst x /\
  forall q, fst x = Some q -> subset (ord q) (ret s) = false -> ops_of q (snd x') = map r (ops_of q (snd x)).

Lemma scope_ren s r sl sl' p : Forall2 (slot_ren s r) sl sl' -> scope s sl' p = map r (scope s sl p).
Proof.
  intros H. destruct p as [p|]; [|reflexivity]. unfold scope.
  induction H as [|x x' sl sl' [Hf Ho] _ IH]; [reflexivity|].
  cbn [flat_map]. rewrite map_app, IH. f_equal. rewrite Hf.
  destruct (fst x) as [q|]; [|reflexivity]. unfold binds_in.
  destruct (subset (ord q) (ord p)); [|reflexivity].
  destruct (subset (ord q) (ret s)) eqn:E; [reflexivity|]. cbn [andb negb]. apply Ho; [reflexivity|exact E].
Qed.

Definition raw_binders (s : sig) (sl : list (option param * expr)) : list op :=
  flat_map (fun x => match fst x with
                     | Some q => if subset (ord q) (ret s) then [] else ops_of q (snd x)
                     | None => [] end) sl.

Lemma binders_in s sl v : In v (binders s sl) <-> In v (raw_binders s sl).
Proof. apply nodup_In. Qed.

Lemma binders_ren s r sl sl' : Forall2 (slot_ren s r) sl sl' -> inj_on (raw_binders s sl) r ->
  binders s sl' = map r (binders s sl).
Proof.
  intros H Hi. unfold binders. fold (raw_binders s sl') (raw_binders s sl).
  assert (E : raw_binders s sl' = map r (raw_binders s sl)).
  { clear Hi. unfold raw_binders. induction H as [|x x' sl sl' [Hf Ho] _ IH]; [reflexivity|].
    cbn [flat_map]. rewrite map_app, IH. f_equal. rewrite Hf. destruct (fst x) as [q|]; [|reflexivity].
    destruct (subset (ord q) (ret s)) eqn:E; [reflexivity|]. apply Ho; [reflexivity|exact E]. }
  rewrite E. apply nodup_map_inj. exact Hi.
Qed.

Lemma scope_binders s sl p : incl (scope s sl p) (raw_binders s sl).
Proof.
  destruct p as [p|]; [|intros x []]. unfold scope, raw_binders. intros x Hx.
  apply in_flat_map in Hx. destruct Hx as (y & Hy & Hx). apply in_flat_map. exists y. split; [exact Hy|].
  destruct (fst y) as [q|]; [|destruct Hx]. unfold binds_in in Hx.
  destruct (subset (ord q) (ord p)); [|destruct Hx]. destruct (subset (ord q) (ret s)); [destruct Hx|exact Hx].
Qed.

(** A binding parameter is in the scope of its own variables. *)
Lemma own_scope s sl q e v : In (Some q, e) sl -> subset (ord q) (ret s) = false -> In v (ops_of q e) ->
  In v (scope s sl (Some q)).
Proof.
  intros Hi Hr Hv. unfold scope. apply in_flat_map. exists (Some q, e). split; [exact Hi|]. cbn [fst snd].
  unfold binds_in. rewrite Hr. assert (E : subset (ord q) (ord q) = true) by (apply subset_incl, incl_refl).
  rewrite E. exact Hv.
Qed.

Lemma raw_binders_ops s sl v : In v (raw_binders s sl) -> exists x, In x sl /\ In v (ops (snd x)).
Proof.
  unfold raw_binders. intros H. apply in_flat_map in H. destruct H as (x & Hx & Hv). exists x. split; [exact Hx|].
  destruct (fst x) as [q|]; [|destruct Hv]. destruct (subset (ord q) (ret s)); [destruct Hv|].
  apply (ops_of_ops q). exact Hv.
Qed.

(** ** canon under renaming *)

Lemma zipp_slots {B} (f : option param -> expr -> B) vp : forall a ps,
  zipp f vp ps a = map (fun x => f (fst x) (snd x)) (slots_pos ps vp a).
Proof.
  induction a as [|e a IH]; intros ps; [reflexivity|].
  destruct ps as [|p ps]; cbn [zipp slots_pos map fst snd]; f_equal; apply IH.
Qed.

Lemma slots_pos_map (f : expr -> expr) vp : forall a ps,
  slots_pos ps vp (map f a) = map (fun x => (fst x, f (snd x))) (slots_pos ps vp a).
Proof.
  induction a as [|e a IH]; intros ps; [reflexivity|].
  destruct ps as [|p ps]; cbn [slots_pos map fst snd]; f_equal; apply IH.
Qed.

Lemma slots_pos_in vp : forall a ps x, In x (slots_pos ps vp a) -> In (snd x) a.
Proof.
  induction a as [|e a IH]; intros ps x H; [destruct H|].
  destruct ps as [|p ps]; cbn [slots_pos] in H; destruct H as [<-|H]; try (left; reflexivity); right; eapply IH; exact H.
Qed.

Lemma slots_map s (f : expr -> expr) a k :
  slots s (map f a) (map (fun x => (fst x, f (snd x))) k) = map (fun x => (fst x, f (snd x))) (slots s a k).
Proof.
  unfold slots, slots_kw. rewrite map_app, slots_pos_map. f_equal. rewrite !map_map. reflexivity.
Qed.

Lemma slots_in s a k x : In x (slots s a k) -> In (snd x) a \/ In (snd x) (map snd k).
Proof.
  unfold slots, slots_kw. rewrite in_app_iff. intros [H|H].
  - left. eapply slots_pos_in. exact H.
  - right. apply in_map_iff in H. destruct H as (y & <- & Hy). cbn [snd]. apply in_map. exact Hy.
Qed.

Lemma index_map r U : forall v, inj_on (v :: U) r -> index (r v) (map r U) = index v U.
Proof.
  induction U as [|x U IH]; intros v H; [reflexivity|]. cbn [map index].
  destruct (op_eqb v x) eqn:E.
  - apply op_eqb_eq in E. subst. rewrite op_eqb_refl. reflexivity.
  - apply op_eqb_neq in E. destruct (op_eqb (r v) (r x)) eqn:E2.
    + apply op_eqb_eq in E2. exfalso. apply E. apply H; [left; reflexivity|right; left; reflexivity|exact E2].
    + f_equal. apply IH. intros a b Ha Hb. apply H; [destruct Ha; [left; assumption|right; right; assumption]|
        destruct Hb; [left; assumption|right; right; assumption]].
Qed.

Lemma canon_ext sigs t : forall m m', (forall v, In v (ops t) -> m v = m' v) -> canon sigs m t = canon sigs m' t.
Proof.
  induction t as [z|o|o a k IHa IHk|c l IHl] using expr_ind2; intros m m' H; cbn [canon ops] in *; try reflexivity.
  - unfold label. rewrite H by (left; reflexivity). reflexivity.
  - assert (El : label m o = label m' o) by (unfold label; rewrite (H o) by (left; reflexivity); reflexivity).
    rewrite El. f_equal.
    + rewrite !zipp_slots. apply map_ext_in. intros x Hx. pose proof (slots_pos_in _ _ _ _ Hx) as Hi.
      apply (proj1 (Forall_forall _ _) IHa _ Hi). intros v Hv. unfold enter.
      destruct (memo v _); [reflexivity|]. rewrite H; [reflexivity|]. right. apply in_or_app. left.
      apply in_flat_map. exists (snd x). split; assumption.
    + apply map_ext_in. intros x Hx. f_equal. apply (proj1 (Forall_forall _ _) IHk _ Hx). intros v Hv. unfold enter.
      destruct (memo v _); [reflexivity|]. rewrite H; [reflexivity|]. right. apply in_or_app. right.
      apply in_flat_map. exists x. split; assumption.
  - f_equal. apply map_ext_in. intros e He. apply (proj1 (Forall_forall _ _) IHl e He). intros v Hv. apply H.
    apply in_flat_map. exists e. split; assumption.
Qed.

(** Renaming of the free operations of a canonical form. *)
Definition flab (phi : op -> op) (l : lab) : lab :=
  match l with LFree o => LFree (phi o) | LBound u i b => LBound u i b end.
Fixpoint cren (phi : op -> op) (c : cexpr) : cexpr :=
  match c with
  | CConst z => CConst z
  | COp l => COp (flab phi l)
  | CTerm l a k => CTerm (flab phi l) (map (cren phi) a) (map (fun x => (fst x, cren phi (snd x))) k)
  | CColl c l => CColl c (map (cren phi) l)
  end.

Section CanonRename.
Variable sigs : nat -> sig.
Variable phi : op -> op.
Variable r : op -> op.
Hypothesis Hbase : forall v, base (r v) = base v.

Lemma rename_noops t : ops t = [] -> rename r t = t.
Proof.
  induction t as [z|o|o a k IHa IHk|c l IHl] using expr_ind2; cbn [ops rename]; intros H; try reflexivity; try discriminate H.
  destruct (walks c); [|reflexivity]. f_equal. rewrite <- (map_id l) at 2. apply map_ext_in. intros e He.
  apply (proj1 (Forall_forall _ _) IHl e He). exact (flat_map_nil_in _ _ H _ He).
Qed.

Lemma canon_noops t : ops t = [] -> forall m m', canon sigs m t = cren phi (canon sigs m' t).
Proof.
  induction t as [z|o|o a k IHa IHk|c l IHl] using expr_ind2; cbn [ops canon cren]; intros H m m'; try reflexivity; try discriminate H.
  f_equal. rewrite map_map. apply map_ext_in. intros e He. apply (proj1 (Forall_forall _ _) IHl e He). exact (flat_map_nil_in _ _ H _ He).
Qed.

Lemma canon_rename_gen t : walkable t = true -> forall m m',
  inj_on (ops t) r -> (forall v, In v (ops t) -> label m' (r v) = flab phi (label m v)) ->
  canon sigs m' (rename r t) = cren phi (canon sigs m t).
Proof.
  induction t as [z|o|o a k IHa IHk|c l IHl] using expr_ind2; intros Hw m m' Hinj Hlab; cbn [canon rename ops walkable cren] in *.
  - reflexivity.
  - rewrite Hlab by (left; reflexivity). reflexivity.
  - apply andb_true_iff in Hw. destruct Hw as [Hwa Hwk]. rewrite forallb_forall in Hwa, Hwk.
    rewrite Hbase. set (s := sigs (base o)). set (sl := slots s a k).
    rewrite slots_map. fold sl. set (sl' := map (fun x => (fst x, rename r (snd x))) sl).
    assert (Hren : Forall2 (slot_ren s r) sl sl').
    { unfold sl'. clear -Hwa Hwk.
      assert (Hwsl : forall x, In x sl -> walkable (snd x) = true).
      { intros x Hx. apply slots_in in Hx. destruct Hx as [Hx|Hx]; [apply Hwa; exact Hx|].
        apply in_map_iff in Hx. destruct Hx as (y & <- & Hy). apply Hwk. exact Hy. }
      induction sl as [|x l IH]; [constructor|]. cbn [map]. constructor.
      - split; [reflexivity|]. intros q _ _. cbn [snd]. apply ops_of_rename. apply Hwsl. left. reflexivity.
      - apply IH. intros y Hy. apply Hwsl. right. exact Hy. }
    assert (Hraw : incl (raw_binders s sl) (o :: flat_map ops a ++ flat_map (fun x => ops (snd x)) k)).
    { intros v Hv. apply raw_binders_ops in Hv. destruct Hv as (x & Hx & Hv). right. apply in_or_app.
      apply slots_in in Hx. destruct Hx as [Hx|Hx].
      - left. apply in_flat_map. exists (snd x). split; assumption.
      - right. apply in_map_iff in Hx. destruct Hx as (y & Ey & Hy). apply in_flat_map. exists y. rewrite Ey. split; assumption. }
    assert (Hinj' : inj_on (raw_binders s sl) r) by (intros x y Hx Hy; apply Hinj; apply Hraw; assumption).
    pose proof (binders_ren Hren Hinj') as HU. rewrite HU.
    rewrite Hlab by (left; reflexivity). f_equal.
    + rewrite !zipp_slots, slots_pos_map, !map_map. apply map_ext_in. intros x Hx. cbn [fst snd].
      rewrite (scope_ren (fst x) Hren). pose proof (slots_pos_in _ _ _ _ Hx) as Hi.
      apply (proj1 (Forall_forall _ _) IHa _ Hi).
      * apply Hwa. exact Hi.
      * intros u v Hu Hv. apply Hinj; right; apply in_or_app; left; apply in_flat_map; exists (snd x); split; assumption.
      * intros v Hv.
        assert (Hvo : In v (o :: flat_map ops a ++ flat_map (fun x => ops (snd x)) k))
          by (right; apply in_or_app; left; apply in_flat_map; exists (snd x); split; assumption).
        specialize (Hlab v Hvo). unfold label, enter in *. rewrite Hbase in *.
        destruct (memo v (scope s sl (fst x))) eqn:Em.
        -- apply memo_in in Em. assert (Em2 : memo (r v) (map r (scope s sl (fst x))) = true)
             by (apply memo_in, in_map; exact Em).
           rewrite Em2. cbn [flab]. f_equal. apply index_map. intros y z Hy Hz. apply Hinj.
           ++ destruct Hy as [<-|Hy]; [exact Hvo|]. apply Hraw. apply binders_in. exact Hy.
           ++ destruct Hz as [<-|Hz]; [exact Hvo|]. apply Hraw. apply binders_in. exact Hz.
        -- assert (Em2 : memo (r v) (map r (scope s sl (fst x))) = false).
           { apply memo_notin. intros Hc. apply in_map_iff in Hc. destruct Hc as (y & Hy & Hys).
             apply memo_notin in Em. apply Em. assert (y = v); [|subst; exact Hys].
             apply Hinj; [apply Hraw; eapply scope_binders; exact Hys|exact Hvo|exact Hy]. }
           rewrite Em2. destruct (m v) as [[u i]|], (m' (r v)) as [[u' i']|]; cbn [flab] in *; try discriminate Hlab; inversion Hlab; subst; congruence.
    + rewrite !map_map. apply map_ext_in. intros x Hx. cbn [fst snd]. f_equal.
      rewrite (scope_ren (kw_param s (fst x)) Hren).
      apply (proj1 (Forall_forall _ _) IHk _ Hx).
      * apply Hwk. exact Hx.
      * intros u v Hu Hv. apply Hinj; right; apply in_or_app; right; apply in_flat_map; exists x; split; assumption.
      * intros v Hv.
        assert (Hvo : In v (o :: flat_map ops a ++ flat_map (fun x => ops (snd x)) k))
          by (right; apply in_or_app; right; apply in_flat_map; exists x; split; assumption).
        specialize (Hlab v Hvo). unfold label, enter in *. rewrite Hbase in *.
        destruct (memo v (scope s sl (kw_param s (fst x)))) eqn:Em.
        -- apply memo_in in Em. assert (Em2 : memo (r v) (map r (scope s sl (kw_param s (fst x)))) = true)
             by (apply memo_in, in_map; exact Em).
           rewrite Em2. cbn [flab]. f_equal. apply index_map. intros y z Hy Hz. apply Hinj.
           ++ destruct Hy as [<-|Hy]; [exact Hvo|]. apply Hraw. apply binders_in. exact Hy.
           ++ destruct Hz as [<-|Hz]; [exact Hvo|]. apply Hraw. apply binders_in. exact Hz.
        -- assert (Em2 : memo (r v) (map r (scope s sl (kw_param s (fst x)))) = false).
           { apply memo_notin. intros Hc. apply in_map_iff in Hc. destruct Hc as (y & Hy & Hys).
             apply memo_notin in Em. apply Em. assert (y = v); [|subst; exact Hys].
             apply Hinj; [apply Hraw; eapply scope_binders; exact Hys|exact Hvo|exact Hy]. }
           rewrite Em2. destruct (m v) as [[u i]|], (m' (r v)) as [[u' i']|]; cbn [flab] in *; try discriminate Hlab; inversion Hlab; subst; congruence.
  - destruct (walks c) eqn:Ec; cbn [canon].
    + f_equal. rewrite !map_map. apply map_ext_in. intros e He. rewrite forallb_forall in Hw.
      apply (proj1 (Forall_forall _ _) IHl e He).
      * apply Hw. exact He.
      * intros u v Hu Hv. apply Hinj; apply in_flat_map; exists e; split; assumption.
      * intros v Hv. apply Hlab. apply in_flat_map. exists e. split; assumption.
    + f_equal. destruct (flat_map ops l) eqn:E; [|discriminate Hw].
      rewrite map_map. apply map_ext_in. intros e He. apply canon_noops. exact (flat_map_nil_in _ _ E _ He).
Qed.
End CanonRename.

Lemma cren_id c : cren (fun o => o) c = c.
Proof.
  revert c. fix IH 1. intros [z|l|l a k|c l]; cbn [cren].
  - reflexivity.
  - destruct l; reflexivity.
  - f_equal.
    + destruct l; reflexivity.
    + induction a as [|x a IHa]; [reflexivity|]. cbn [map]. rewrite IH, IHa. reflexivity.
    + induction k as [|[n x] k IHk]; [reflexivity|]. cbn [map fst snd]. rewrite IH, IHk. reflexivity.
  - f_equal. induction l as [|x l IHl]; [reflexivity|]. cbn [map]. rewrite IH, IHl. reflexivity.
Qed.

Lemma canon_rename sigs r t : (forall v, base (r v) = base v) -> walkable t = true -> forall m m',
  inj_on (ops t) r -> (forall v, In v (ops t) -> label m' (r v) = label m v) ->
  canon sigs m' (rename r t) = canon sigs m t.
Proof.
  intros Hb Hw m m' Hi Hl. rewrite (@canon_rename_gen sigs (fun o => o) r Hb t Hw m m' Hi).
  - apply cren_id.
  - intros v Hv. rewrite (Hl v Hv). destruct (label m v); reflexivity.
Qed.
