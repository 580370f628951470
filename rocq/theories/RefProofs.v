From Coq Require Import String Ascii List Bool Arith ZArith Lia.
Import ListNotations.
From Verif Require Import RefModel RefSpec.
Local Open Scope string_scope.
Local Open Scope list_scope.
Local Arguments String.eqb : simpl never.

Lemma each_inv : forall A B (f : A -> res B) l l', each f l = Ok l' -> Forall2 (fun a b => f a = Ok b) l l'.
Proof.
  induction l as [|a l IH]; intros l' H; cbn [each] in H; [injection H as <-; constructor|].
  destruct (f a) as [b| |] eqn:E; try discriminate. destruct (each f l) as [ys| |]; try discriminate. injection H as <-. constructor; auto.
Qed.
Lemma each_ok : forall A B (f : A -> res B) l l', Forall2 (fun a b => f a = Ok b) l l' -> each f l = Ok l'.
Proof. induction 1 as [|a b l l' H F IH]; cbn [each]; auto. rewrite H, IH. reflexivity. Qed.

Lemma jget_in : forall A (l : list (string * A)) k v, jget l k = Some v -> In (k, v) l.
Proof.
  induction l as [|[x w] l IH]; intros k v; cbn [jget]; [discriminate|]. destruct (String.eqb_spec x k) as [->|].
  - intros [= ->]. left; auto.
  - right; auto.
Qed.
Lemma jget_none : forall A (l : list (string * A)) k, (forall x v, In (x, v) l -> x <> k) -> jget l k = None.
Proof.
  induction l as [|[x w] l IH]; intros k H; cbn [jget]; auto. destruct (String.eqb_spec x k) as [E|].
  - destruct (H x w (or_introl eq_refl) E).
  - apply IH. intros y v Hy. eapply H. right; eauto.
Qed.
Lemma jget_filter : forall A (l : list (string * A)) k p, (forall v, p (k, v) = true) -> jget (filter p l) k = jget l k.
Proof.
  induction l as [|[x w] l IH]; intros k p P; cbn [filter jget]; auto. destruct (p (x, w)) eqn:E; cbn [jget].
  - destruct (String.eqb x k); auto.
  - destruct (String.eqb_spec x k) as [->|]; auto. rewrite P in E. discriminate.
Qed.
Lemma jget_Forall2 : forall A B (R : A -> B -> Prop) (l : list (string * A)) (l' : list (string * B)) k,
  Forall2 (fun a b => fst a = fst b /\ R (snd a) (snd b)) l l' ->
  match jget l k, jget l' k with Some a, Some b => R a b | None, None => True | _, _ => False end.
Proof.
  induction 1 as [|[x a] [y b] l l' [E H] F IH]; cbn [jget]; auto. cbn [fst snd] in *. subst y. destruct (String.eqb x k); auto.
Qed.

(** ** References *)
Lemma substring_all : forall s, substring 0 (String.length s) s = s.
Proof. induction s as [|c s IH]; cbn; auto. rewrite IH. reflexivity. Qed.
Lemma pointer_prefix : forall name, pointer (prefix ++ name)%string = Some name.
Proof.
  intros name. unfold pointer. replace (String.prefix prefix (prefix ++ name)) with true.
  - f_equal. unfold prefix. cbn [append String.length substring Nat.sub]. rewrite Nat.sub_0_r. apply substring_all.
  - symmetry. unfold prefix. cbn. destruct name; reflexivity.
Qed.
Lemma last_segment_prefix : forall name, has_slash name = false -> last_segment (prefix ++ name)%string = name.
Proof. intros name H. unfold prefix. cbn. rewrite H. reflexivity. Qed.

(** ** Steps *)
Lemma resolve_mono : forall n defs v v' m, resolve n defs v = Ok v' -> n <= m -> resolve m defs v = Ok v'.
Proof.
  induction n as [|n IH]; intros defs v v' m H L; [discriminate|]. destruct m as [|m]; [lia|]. cbn [resolve] in *.
  assert (E : forall A B (f g : A -> res B) l l', (forall a b, f a = Ok b -> g a = Ok b) -> each f l = Ok l' -> each g l = Ok l').
  { intros A B f g l l' FG EF. apply each_ok. apply each_inv in EF. clear - FG EF. induction EF; constructor; auto. }
  destruct v as [| | | |l|kvs]; auto.
  - destruct (each (resolve n defs) l) as [l'| |] eqn:EL; try discriminate. rewrite (E _ _ _ (resolve m defs) _ _ (fun a b h => IH defs a b m h ltac:(lia)) EL). exact H.
  - assert (C : forall w, match each (fun kv : string * json => match resolve n defs (snd kv) with Ok y => Ok (fst kv, y) | AttributeError => AttributeError | RecursionError => RecursionError end)
               (filter (fun kv => negb (String.eqb (fst kv) "$defs")) kvs) with Ok l => Ok (JObj l) | AttributeError => AttributeError | RecursionError => RecursionError end = Ok w ->
        match each (fun kv : string * json => match resolve m defs (snd kv) with Ok y => Ok (fst kv, y) | AttributeError => AttributeError | RecursionError => RecursionError end)
               (filter (fun kv => negb (String.eqb (fst kv) "$defs")) kvs) with Ok l => Ok (JObj l) | AttributeError => AttributeError | RecursionError => RecursionError end = Ok w).
    { intros w. match goal with |- context [each ?f ?l] => destruct (each f l) as [l'| |] eqn:EL end; try discriminate. intros W.
      erewrite E; [exact W| |exact EL]. intros [k a] b. cbn [fst snd]. destruct (resolve n defs a) as [y| |] eqn:RA; try discriminate.
      intros [= <-]. rewrite (IH _ _ _ m RA) by lia. reflexivity. }
    destruct (jget kvs "$ref") as [[| | |r| |]|]; try discriminate; auto. destruct (jget defs (last_segment r)) as [d|]; auto. apply IH with (m := m) in H; auto. lia.
Qed.

(** Relations between results that pass through conjunctions. *)
Definition through (L : option bool -> option bool -> Prop) : Prop :=
  (forall b, L (Some b) (Some b)) /\ (forall l l', Forall2 L l l' -> L (conj l) (conj l')) /\ (forall l l', Forall2 L l l' -> L (disj l) (disj l')).
Definition leads (a b : option bool) : Prop := forall x, a = Some x -> b = Some x.
Lemma leads_through : through leads.
Proof.
  split; [intros b x; auto|]. split.
  - induction 1 as [|a b l l' H F IH]; intros x; cbn [conj]; auto. destruct a as [a|]; [|discriminate]. destruct (conj l) as [c|]; [|discriminate].
    rewrite (H a eq_refl), (IH c eq_refl). auto.
  - induction 1 as [|a b l l' H F IH]; intros x; cbn [disj]; auto. destruct a as [a|]; [|discriminate]. destruct (disj l) as [c|]; [|discriminate].
    rewrite (H a eq_refl), (IH c eq_refl). auto.
Qed.
Lemma leads_flipped : through (fun a b => leads b a).
Proof.
  destruct leads_through as (A & B & C). assert (X : forall l l', Forall2 (fun a b => leads b a) l l' -> Forall2 leads l' l) by (induction 1; constructor; auto).
  split; [auto|]. split; intros l l' F; [apply B|apply C]; apply X; exact F.
Qed.
Lemma Forall2_map2 : forall A B C D (f : A -> C) (g : B -> D) (R : C -> D -> Prop) l l',
  Forall2 (fun a b => R (f a) (g b)) l l' -> Forall2 R (map f l) (map g l').
Proof. induction 1; cbn [map]; constructor; auto. Qed.
Lemma Forall2_same : forall A (R : A -> A -> Prop) l, (forall a, In a l -> R a a) -> Forall2 R l l.
Proof. induction l as [|a l IH]; intros H; constructor; [apply H; left; auto|apply IH; intros; apply H; right; auto]. Qed.

Lemma keyword_mono : forall defs f g kvs i kv, (forall s j, leads (f s j) (g s j)) -> leads (keyword defs f kvs i kv) (keyword defs g kvs i kv).
Proof.
  destruct leads_through as (_ & LC & LD). intros defs f g kvs i [k v] FG. unfold keyword.
  repeat match goal with |- leads (if ?c then _ else _) _ => destruct c end; try (intros x; exact (fun h => h)).
  - destruct v; try (intros x; exact (fun h => h)). destruct (pointer s); try (intros x; exact (fun h => h)). destruct (jget defs s0); [apply FG|intros x; exact (fun h => h)].
  - destruct v; try (intros x; exact (fun h => h)). destruct i; try (intros x; exact (fun h => h)). apply LC, Forall2_map2, Forall2_same. intros p _.
    destruct (jget l0 (fst p)); [apply FG|intros x; auto].
  - destruct i; try (intros x; exact (fun h => h)). apply LC, Forall2_map2, Forall2_same. intros p _.
    destruct (jget kvs "properties") as [[]|]; try apply FG. destruct (jget l0 (fst p)); [intros x; auto|apply FG].
  - destruct i; try (intros x; exact (fun h => h)). apply LC, Forall2_map2, Forall2_same. intros p _. apply FG.
  - destruct v; try (intros x; exact (fun h => h)). apply LD, Forall2_map2, Forall2_same. intros p _. apply FG.
  - destruct v; try (intros x; exact (fun h => h)). apply LC, Forall2_map2, Forall2_same. intros p _. apply FG.
Qed.
Lemma check_mono : forall defs n m s i, n <= m -> leads (check defs n s i) (check defs m s i).
Proof.
  intros defs. induction n as [|n IH]; intros m s i L x; [discriminate|]. destruct m as [|m]; [lia|]. cbn [check]. destruct s; auto.
  apply leads_through. apply Forall2_map2, Forall2_same. intros kv _. apply keyword_mono. intros s j. apply IH. lia.
Qed.
(** A schema does not both allow and forbid an instance. *)
Lemma decides_once : forall s i a b, decides s i a -> decides s i b -> a = b.
Proof.
  intros s i a b [n H] [m K]. pose proof (check_mono _ n (n + m) s i ltac:(lia) _ H) as A.
  pose proof (check_mono _ m (n + m) s i ltac:(lia) _ K) as B. congruence.
Qed.

(** ** Values without references *)
Lemma filter_all : forall A (p : A -> bool) l, (forall a, In a l -> p a = true) -> filter p l = l.
Proof.
  induction l as [|a l IH]; intros H; cbn [filter]; auto. rewrite (H a) by (left; auto). f_equal. apply IH. intros. apply H. right; auto.
Qed.
Lemma no_defs_filter : forall (l : list (string * json)), (forall k v, In (k, v) l -> k <> "$defs") ->
  filter (fun kv => negb (String.eqb (fst kv) "$defs")) l = l.
Proof. intros l H. apply filter_all. intros [k v] I. cbn [fst]. specialize (H k v I). destruct (String.eqb_spec k "$defs"); [contradiction|reflexivity]. Qed.

Definition entry (n : nat) (defs : list (string * json)) (kv kv' : string * json) : Prop := fst kv = fst kv' /\ resolve n defs (snd kv) = Ok (snd kv').
Lemma resolve_plain : forall n defs kvs v', resolve (S n) defs (JObj kvs) = Ok v' -> jget kvs "$ref" = None ->
  exists l, v' = JObj l /\ Forall2 (entry n defs) (filter (fun kv => negb (String.eqb (fst kv) "$defs")) kvs) l.
Proof.
  intros n defs kvs v' H G. cbn [resolve] in H. rewrite G in H. match type of H with context [each ?f ?l] => destruct (each f l) as [l'| |] eqn:EL end; try discriminate.
  injection H as <-. exists l'. split; auto. apply each_inv in EL. clear - EL. induction EL as [|[k v] [k' w] l l' E F IH]; constructor; auto.
  cbn [fst snd] in E. destruct (resolve n defs v) as [y| |] eqn:R; try discriminate. injection E as <- <-. split; auto.
Qed.
Lemma quiet_resolve : forall n defs v v', quiet v -> resolve n defs v = Ok v' -> v' = v.
Proof.
  induction n as [|n IH]; intros defs v v' Q H; [discriminate|]. destruct v as [| | | |l|l]; try (cbn in H; congruence).
  - cbn [resolve] in H. destruct (each (resolve n defs) l) as [l'| |] eqn:E; try discriminate. injection H as <-. f_equal. apply each_inv in E.
    inversion Q as [| | | |? QL|]; subst. clear - E QL IH. induction E as [|a b l l' R F IHF]; auto. f_equal; [eapply IH; eauto; apply QL; left; auto|].
    apply IHF. intros. apply QL. right; auto.
  - inversion Q as [| | | | |? QL]; subst. apply resolve_plain in H as (l' & -> & F).
    2: { apply jget_none. intros k v I. apply (QL k v I). }
    rewrite no_defs_filter in F by (intros k v I; apply (QL k v I)). f_equal.
    clear - F QL IH. induction F as [|[k a] [k' b] l l' [E R] F IHF]; auto. cbn [fst snd] in *. subst k'. f_equal.
    + f_equal. eapply IH; eauto. apply (QL k a (or_introl eq_refl)).
    + apply IHF. intros. apply QL. right; auto.
Qed.

(** ** The meaning is kept *)
Lemma keyword_other : forall defs defs' f g kvs kvs' i k v, k <> "$ref" ->
  ~ In k ["properties"; "additionalProperties"; "items"; "anyOf"; "allOf"] -> keyword defs f kvs i (k, v) = keyword defs' g kvs' i (k, v).
Proof.
  intros defs defs' f g kvs kvs' i k v NR N. unfold keyword. cbn [In] in N.
  destruct (String.eqb_spec k "$ref"); [contradiction|]. destruct (String.eqb k "type"); auto. destruct (String.eqb k "enum"); auto.
  destruct (String.eqb k "const"); auto. destruct (String.eqb k "required"); auto.
  destruct (String.eqb_spec k "properties"); [exfalso; auto|]. destruct (String.eqb_spec k "additionalProperties"); [exfalso; auto|].
  destruct (String.eqb_spec k "items"); [exfalso; auto|]. destruct (String.eqb_spec k "anyOf"); [exfalso; auto 7|].
  destruct (String.eqb_spec k "allOf"); [exfalso; auto 7|]. reflexivity.
Qed.

Section Keep.
Variable defs : list (string * json).
Hypothesis defs_clean : forall x d, In (x, d) defs -> clean defs d.
Variable L : option bool -> option bool -> Prop.
Hypothesis LT : through L.

(** What is known of the values inside. *)
Definition linked (m : nat) (f g : json -> json -> option bool) : Prop :=
  forall v v' i, clean defs v -> resolve m defs v = Ok v' -> L (f v i) (g v' i).
Lemma linked_less : forall m f g, linked (S m) f g -> linked m f g.
Proof. intros m f g H v v' i C R. apply H; auto. eapply resolve_mono; eauto. Qed.

(** Properties keep their names. *)
Definition same_names (kvs kvs' : list (string * json)) : Prop :=
  match jget kvs "properties", jget kvs' "properties" with
  | Some (JObj ps), Some (JObj ps') => forall n, jget ps n = None <-> jget ps' n = None
  | Some (JObj _), _ | _, Some (JObj _) => False
  | _, _ => True
  end.

Lemma properties_resolved : forall m ps v', (forall k v, In (k, v) ps -> k <> "$ref" /\ k <> "$defs" /\ clean defs v) ->
  resolve (S m) defs (JObj ps) = Ok v' -> exists ps', v' = JObj ps' /\ Forall2 (entry m defs) ps ps'.
Proof.
  intros m ps v' CP R. apply resolve_plain in R as (l & -> & F).
  - rewrite no_defs_filter in F by (intros k v I; apply (CP k v I)). eauto.
  - apply jget_none. intros k v I. apply (CP k v I).
Qed.

Lemma keyword_kept : forall m f g kvs kvs' i k v v', linked m f g -> clean_keyword defs k v -> k <> "$ref" -> same_names kvs kvs' ->
  resolve m defs v = Ok v' -> L (keyword defs f kvs i (k, v)) (keyword [] g kvs' i (k, v')).
Proof.
  destruct LT as (LS & LC & LD). intros m f g kvs kvs' i k v v' LK CK NR SN R.
  destruct CK as [ps CP|k v IK C|k l IK C|k v NI Q].
  - change (keyword defs f kvs i ("properties", JObj ps)) with
      (match i with JObj o => conj (map (fun p => match jget o (fst p) with Some x => f (snd p) x | None => Some true end) ps) | _ => Some true end).
    change (keyword [] g kvs' i ("properties", v')) with
      (match v', i with JObj ps, JObj o => conj (map (fun p => match jget o (fst p) with Some x => g (snd p) x | None => Some true end) ps) | _, _ => Some true end).
    destruct m as [|m]; [discriminate|]. apply properties_resolved in R as (ps' & -> & F); auto. destruct i; try apply LS. apply LC, Forall2_map2.
    apply linked_less in LK. clear - F CP LK LS. induction F as [|[k a] [k' b] ps ps' [E R] F IH]; constructor.
    + cbn [fst snd] in *. subst k'. destruct (jget l k); [|apply LS]. apply LK; auto. apply (CP k a (or_introl eq_refl)).
    + apply IH. intros. apply CP. right; auto.
  - destruct IK as [<-|[<-|[]]].
    + change (keyword defs f kvs i ("additionalProperties", v)) with
        (match i with JObj o => conj (map (fun p => match jget kvs "properties" with Some (JObj ps) => match jget ps (fst p) with Some _ => Some true | None => f v (snd p) end | _ => f v (snd p) end) o) | _ => Some true end).
      change (keyword [] g kvs' i ("additionalProperties", v')) with
        (match i with JObj o => conj (map (fun p => match jget kvs' "properties" with Some (JObj ps) => match jget ps (fst p) with Some _ => Some true | None => g v' (snd p) end | _ => g v' (snd p) end) o) | _ => Some true end).
      destruct i; try apply LS. apply LC, Forall2_map2, Forall2_same. intros [n x] _. cbn [fst snd].
      assert (X : L (f v x) (g v' x)) by (apply LK; auto). unfold same_names in SN.
      destruct (jget kvs "properties") as [[| | | | |ps]|], (jget kvs' "properties") as [[| | | | |ps']|]; auto; try contradiction.
      specialize (SN n). destruct (jget ps n), (jget ps' n); auto; exfalso; destruct SN as [S1 S2]; [specialize (S2 eq_refl)|specialize (S1 eq_refl)]; discriminate.
    + change (keyword defs f kvs i ("items", v)) with (match i with JArr l => conj (map (f v) l) | _ => Some true end).
      change (keyword [] g kvs' i ("items", v')) with (match i with JArr l => conj (map (g v') l) | _ => Some true end).
      destruct i; try apply LS. apply LC, Forall2_map2, Forall2_same. intros x _. apply LK; auto.
  - destruct m as [|m]; [discriminate|]. cbn [resolve] in R. destruct (each (resolve m defs) l) as [l'| |] eqn:E; try discriminate. injection R as <-.
    apply each_inv in E. apply linked_less in LK.
    assert (F : Forall2 L (map (fun s => f s i) l) (map (fun s => g s i) l')).
    { apply Forall2_map2. clear - E C LK. induction E as [|a b l l' R F IH]; constructor; [apply LK; auto; apply C; left; auto|]. apply IH. intros. apply C. right; auto. }
    destruct IK as [<-|[<-|[]]]; [exact (LD _ _ F)|exact (LC _ _ F)].
  - pose proof (quiet_resolve _ _ _ _ Q R). subst v'. rewrite (keyword_other defs [] f g kvs kvs' i k v) by auto.
    destruct (keyword [] g kvs' i (k, v)) eqn:K; auto. exfalso. clear - K NR NI. rewrite (keyword_other [] [] g (fun _ _ => Some true) kvs' kvs' i k v) in K by auto.
    unfold keyword in K. cbn [In] in NI.
    destruct (String.eqb_spec k "$ref"); [contradiction|]. destruct (String.eqb k "type"); [destruct v; discriminate|]. destruct (String.eqb k "enum"); [destruct v; discriminate|].
    destruct (String.eqb k "const"); [discriminate|]. destruct (String.eqb k "required"); [destruct v, i; discriminate|].
    destruct (String.eqb_spec k "properties"); [exfalso; auto|]. destruct (String.eqb_spec k "additionalProperties"); [exfalso; auto|].
    destruct (String.eqb_spec k "items"); [exfalso; auto|]. destruct (String.eqb_spec k "anyOf"); [exfalso; auto 7|].
    destruct (String.eqb_spec k "allOf"); [exfalso; auto 7|]. discriminate.
Qed.

Lemma conj_filter : forall A (h : A -> option bool) p l, (forall a, In a l -> p a = false -> h a = Some true) -> conj (map h (filter p l)) = conj (map h l).
Proof.
  induction l as [|a l IH]; intros H; auto. cbn [filter map conj]. destruct (p a) eqn:E; cbn [map conj].
  - rewrite IH; auto. intros. apply H; auto. right; auto.
  - rewrite IH by (intros; apply H; auto; right; auto). rewrite (H a) by (auto; left; auto). cbn [conj]. destruct (conj (map h l)); reflexivity.
Qed.

Lemma object_kept : forall m f g kvs s' i, linked m f g -> (forall k v, In (k, v) kvs -> k <> "$ref") ->
  (forall k v, In (k, v) kvs -> k <> "$defs" -> clean_keyword defs k v) -> resolve (S m) defs (JObj kvs) = Ok s' ->
  exists kvs', s' = JObj kvs' /\ L (conj (map (keyword defs f kvs i) kvs)) (conj (map (keyword [] g kvs' i) kvs')).
Proof.
  intros m f g kvs s' i LK NR CK R. assert (G : jget kvs "$ref" = None) by (apply jget_none; auto).
  apply resolve_plain in R as (kvs' & -> & F); auto. exists kvs'. split; auto.
  assert (SN : same_names kvs kvs').
  { unfold same_names. rewrite <- (jget_filter json kvs "properties" (fun kv => negb (String.eqb (fst kv) "$defs"))) by reflexivity.
    pose proof (jget_Forall2 _ _ (fun a b => resolve m defs a = Ok b) _ _ "properties" F) as J.
    rewrite jget_filter in * by reflexivity.
    destruct (jget kvs "properties") as [v|] eqn:GP, (jget kvs' "properties") as [v'|]; try contradiction; auto.
    apply jget_in in GP. specialize (CK _ _ GP). assert (X : clean_keyword defs "properties" v) by (apply CK; discriminate).
    remember "properties" as pk eqn:EP in X. destruct X as [ps CP|k v IK C|k ss IK C|k v NI Q].
    - destruct m as [|m]; [discriminate|]. apply properties_resolved in J as (ps' & -> & F2); auto. intros n.
      pose proof (jget_Forall2 _ _ (fun a b => resolve m defs a = Ok b) _ _ n F2) as J2. destruct (jget ps n), (jget ps' n); try contradiction; split; auto; discriminate.
    - exfalso. subst k. destruct IK as [E|[E|[]]]; discriminate.
    - exfalso. subst k. destruct IK as [E|[E|[]]]; discriminate.
    - exfalso. subst k. apply NI. left; auto. }
  rewrite <- (conj_filter _ _ (fun kv => negb (String.eqb (fst kv) "$defs")) kvs).
  - apply LT, Forall2_map2.
    assert (X : forall k v, In (k, v) (filter (fun kv => negb (String.eqb (fst kv) "$defs")) kvs) -> k <> "$ref" /\ clean_keyword defs k v).
    { intros k v I. apply filter_In in I as [I E]. cbn [fst] in E. split; [eapply NR; eauto|]. apply CK; auto. intros ->. discriminate. }
    revert X F. generalize (filter (fun kv : string * json => negb (String.eqb (fst kv) "$defs")) kvs) as l. intros l X F.
    assert (K : forall k v v', k <> "$ref" -> clean_keyword defs k v -> resolve m defs v = Ok v' -> L (keyword defs f kvs i (k, v)) (keyword [] g kvs' i (k, v'))).
    { intros k v v' N C R. eapply keyword_kept; eauto. }
    clear - F X K. revert K. generalize (keyword [] g kvs' i) as h. intros h K. induction F as [|[k a] [k' b] l l' [E R] F IH]; constructor.
    + cbn [fst snd] in *. subst k'. destruct (X k a (or_introl eq_refl)). apply K; auto.
    + apply IH. intros. apply X. right; auto.
  - intros [k v] I E. cbn [fst] in E. destruct (String.eqb_spec k "$defs") as [->|]; [reflexivity|discriminate].
Qed.
End Keep.

Lemma ref_conj : forall defs f kvs0 kvs i r d name, jget kvs "$ref" = Some (JStr r) -> pointer r = Some name -> jget defs name = Some d -> NoDup (map fst kvs) ->
  (forall k v, In (k, v) kvs -> k <> "$ref" -> ~ In k constraining) -> conj (map (keyword defs f kvs0 i) kvs) = f d i.
Proof.
  assert (SIL : forall defs f kvs0 i k v, ~ In k constraining -> keyword defs f kvs0 i (k, v) = Some true).
  { intros defs f kvs0 i k v N. unfold keyword, constraining in *. cbn [In] in N.
    repeat match goal with |- (if String.eqb k ?s then _ else _) = _ => destruct (String.eqb_spec k s); [exfalso; subst; apply N; auto 11|] end. reflexivity. }
  intros defs f kvs0 kvs i r d name. induction kvs as [|[k v] kvs IH]; intros G P D ND N; [discriminate|]. cbn [jget] in G. cbn [map fst] in ND.
  inversion ND as [|? ? NI ND']; subst. cbn [map conj]. destruct (String.eqb_spec k "$ref") as [->|NE].
  - injection G as ->. change (keyword defs f kvs0 i ("$ref", JStr r)) with (match pointer r with Some name => match jget defs name with Some d => f d i | None => Some false end | None => Some false end).
    rewrite P, D. replace (conj (map (keyword defs f kvs0 i) kvs)) with (Some true); [destruct (f d i) as [[]|]; reflexivity|].
    symmetry. assert (X : forall k v, In (k, v) kvs -> ~ In k constraining).
    { intros k v I. apply (N k v); [right; auto|]. intros ->. apply NI. change "$ref" with (fst ("$ref", v)). apply in_map. auto. }
    clear - SIL X. induction kvs as [|[k v] kvs IH]; auto. cbn [map conj]. rewrite SIL by (eapply X; left; eauto). rewrite IH; auto. intros. eapply X. right; eauto.
  - rewrite SIL by (apply (N k v); auto; left; auto). rewrite IH; auto; [destruct (f d i); reflexivity|]. intros. eapply N; eauto. right; eauto.
Qed.

Section Meaning.
Variable defs : list (string * json).
Hypothesis defs_clean : forall x d, In (x, d) defs -> clean defs d.

Lemma forward : forall n m s s' i, clean defs s -> resolve m defs s = Ok s' -> leads (check defs n s i) (check [] n s' i).
Proof.
  induction n as [|n IH]; intros m s s' i C R x; [discriminate|]. destruct m as [|m]; [discriminate|].
  destruct C as [b|kvs name d G NS GD ND N|kvs NR CK].
  - cbn [resolve] in R. injection R as <-. auto.
  - cbn [resolve] in R. rewrite G, last_segment_prefix, GD in R by auto. cbn [check].
    rewrite (ref_conj defs (check defs n) kvs kvs i (prefix ++ name)%string d name); auto; [|apply pointer_prefix].
    intros H. apply (check_mono [] n (S n)); auto. eapply IH; eauto. apply (defs_clean name). apply jget_in. auto.
  - destruct (object_kept defs leads leads_through m (check defs n) (check [] n) kvs s' i) as (kvs' & -> & K); auto.
    intros v v' j C Rv. eapply IH; eauto.
Qed.
Lemma backward : forall m n s s' i, clean defs s -> resolve m defs s = Ok s' -> leads (check [] n s' i) (check defs (n + m) s i).
Proof.
  induction m as [|m IH]; intros n s s' i C R x; [discriminate|]. destruct C as [b|kvs name d G NS GD ND N|kvs NR CK].
  - cbn [resolve] in R. injection R as <-. intros H. apply (check_mono defs n (n + S m)); [lia|]. destruct n; [discriminate|exact H].
  - cbn [resolve] in R. rewrite G, last_segment_prefix, GD in R by auto. replace (n + S m) with (S (n + m)) by lia. cbn [check].
    rewrite (ref_conj defs (check defs (n + m)) kvs kvs i (prefix ++ name)%string d name); auto; [|apply pointer_prefix].
    intros H. eapply IH; eauto. apply (defs_clean name). apply jget_in. auto.
  - destruct n as [|n]; [discriminate|].
    destruct (object_kept defs (fun a b => leads b a) leads_flipped m (check defs (n + S m)) (check [] n) kvs s' i) as (kvs' & -> & K); auto.
    intros v v' j C Rv y H. apply (check_mono defs (n + m) (n + S m)); [lia|]. eapply IH; eauto.
Qed.

(** No reference is left. *)
Lemma resolve_quiet : forall m s s', clean defs s -> resolve m defs s = Ok s' -> quiet s'.
Proof.
  induction m as [|m IH]; intros s s' C R; [discriminate|]. destruct C as [b|kvs name d G NS GD ND N|kvs NR CK].
  - cbn in R. injection R as <-. constructor.
  - cbn [resolve] in R. rewrite G, last_segment_prefix, GD in R by auto. eapply IH; eauto. apply (defs_clean name). apply jget_in. auto.
  - apply resolve_plain in R as (l & -> & F); [|apply jget_none; auto]. constructor. intros k v' I.
    assert (exists v, In (k, v) (filter (fun kv => negb (String.eqb (fst kv) "$defs")) kvs) /\ resolve m defs v = Ok v') as (v & Iv & R).
    { clear - F I. induction F as [|[x a] [y b] l1 l2 [E R] F IHF]; [destruct I|]. cbn [fst snd] in *. subst y. destruct I as [[= -> ->]|I].
      - exists a. split; auto. left; auto.
      - destruct (IHF I) as (v & Iv & Rv). exists v. split; auto. right; auto. }
    apply filter_In in Iv as [Iv E]. cbn [fst] in E. assert (ND : k <> "$defs") by (intros ->; discriminate).
    split; [eapply NR; eauto|]. split; auto. specialize (CK k v Iv ND).
    destruct CK as [ps CP|k v IK C|k ss IK C|k v NI Q].
    + destruct m as [|m]; [discriminate|]. apply properties_resolved in R as (ps' & -> & F2); auto. constructor. intros n w Iw.
      assert (exists a, In (n, a) ps /\ resolve m defs a = Ok w) as (a & Ia & Ra).
      { clear - F2 Iw. induction F2 as [|[x a] [y b] l1 l2 [E R] F IHF]; [destruct Iw|]. cbn [fst snd] in *. subst y. destruct Iw as [[= -> ->]|I].
        - exists a. split; auto. left; auto.
        - destruct (IHF I) as (v & Iv & Rv). exists v. split; auto. right; auto. }
      destruct (CP _ _ Ia) as (X1 & X2 & X3). split; auto. split; auto. eapply IH; eauto. eapply resolve_mono; eauto.
    + eapply IH; eauto.
    + destruct m as [|m]; [discriminate|]. cbn [resolve] in R. destruct (each (resolve m defs) ss) as [ss'| |] eqn:E2; try discriminate. injection R as <-.
      apply each_inv in E2. constructor. intros w Iw.
      assert (exists a, In a ss /\ resolve m defs a = Ok w) as (a & Ia & Ra).
      { clear - E2 Iw. induction E2 as [|x y l1 l2 R F IHF]; [destruct Iw|]. destruct Iw as [->|I]; [exists x; split; auto; left; auto|].
        destruct (IHF I) as (v & Iv & Rv). exists v. split; auto. right; auto. }
      eapply IH; eauto. eapply resolve_mono; eauto.
    + rewrite (quiet_resolve _ _ _ _ Q R). exact Q.
Qed.
End Meaning.

Lemma quiet_no_defs : forall s, quiet s -> definitions s = [].
Proof.
  intros s Q. destruct s as [| | | |l|l]; auto. inversion Q as [| | | | |? QL]; subst. unfold definitions. rewrite jget_none; auto. intros k v I. apply (QL k v I).
Qed.
Lemma inlined_quiet : forall n s s', clean_schema s -> inline_refs n s = Ok s' -> quiet s'.
Proof. intros n s s' [C D] R. eapply resolve_quiet; eauto. Qed.
Lemma inlined_decides : forall n s s' i b, clean_schema s -> inline_refs n s = Ok s' -> (decides s i b <-> decides s' i b).
Proof.
  intros n s s' i b CS R. pose proof (quiet_no_defs _ (inlined_quiet _ _ _ CS R)) as E. destruct CS as [C D]. unfold decides. rewrite E. split; intros [m H].
  - exists m. eapply forward; eauto.
  - exists (m + n). eapply backward; eauto.
Qed.
Lemma inlined_again : forall n m s s' s'', clean_schema s -> inline_refs n s = Ok s' -> inline_refs m s' = Ok s'' -> s'' = s'.
Proof. intros n m s s' s'' CS R R'. eapply quiet_resolve; [eapply inlined_quiet; eauto|exact R']. Qed.

(** ** Inlining ends *)
Section Ends.
Variable defs : list (string * json).
Inductive tame : json -> Prop :=
| T_null : tame JNull
| T_bool : forall b, tame (JBool b)
| T_num : forall z, tame (JNum z)
| T_str : forall s, tame (JStr s)
| T_arr : forall l, (forall v, In v l -> tame v) -> tame (JArr l)
| T_ref : forall kvs name d, jget kvs "$ref" = Some (JStr (prefix ++ name)%string) -> has_slash name = false -> jget defs name = Some d -> tame (JObj kvs)
| T_obj : forall kvs, (forall k v, In (k, v) kvs -> k <> "$ref") -> (forall k v, In (k, v) kvs -> k <> "$defs" -> tame v) -> tame (JObj kvs).
Lemma quiet_tame : forall v, quiet v -> tame v.
Proof.
  fix IH 2. intros v Q. destruct Q as [|b|z|s|l Q|l Q]; try constructor.
  - intros v I. apply IH. exact (Q v I).
  - intros k v I. exact (proj1 (Q k v I)).
  - intros k v I _. destruct (Q k v I) as (_ & _ & Qv). apply IH. exact Qv.
Qed.
Lemma clean_tame : forall v, clean defs v -> tame v.
Proof.
  fix IH 2. intros v C. destruct C as [b|kvs name d G NS GD ND N|kvs NR CK].
  - constructor.
  - eapply T_ref; eauto.
  - apply T_obj; auto. intros k v I ND. specialize (CK k v I ND). destruct CK as [ps CP|k v IK C|k ss IK C|k v NI Q].
    + apply T_obj; [intros x w J; exact (proj1 (CP x w J))|]. intros x w J _. destruct (CP x w J) as (_ & _ & Cw). apply IH. exact Cw.
    + apply IH. exact C.
    + constructor. intros w J. apply IH. exact (C w J).
    + apply quiet_tame. exact Q.
Qed.

Lemma each_exists : forall A B (f : nat -> A -> res B) l, (forall n m a b, f n a = Ok b -> n <= m -> f m a = Ok b) ->
  (forall a, In a l -> exists n b, f n a = Ok b) -> exists n l', each (f n) l = Ok l'.
Proof.
  intros A B f l M. induction l as [|a l IH]; intros H; [exists 0, []; reflexivity|].
  destruct (H a (or_introl eq_refl)) as (n & b & E). destruct IH as (m & l' & F); [intros; apply H; right; auto|].
  exists (n + m), (b :: l'). apply each_ok. constructor; [eapply M; eauto; lia|]. apply each_inv in F. clear - F M. induction F; constructor; auto.
  eapply M; eauto. lia.
Qed.

Hypothesis defs_tame : forall x d, jget defs x = Some d -> tame d.
Variable rank : string -> nat.
Hypothesis ranked : forall x d y d', jget defs x = Some d -> mentions d y -> jget defs y = Some d' -> rank y < rank x.
Lemma resolve_ends : forall r v, tame v -> (forall y d, mentions v y -> jget defs y = Some d -> rank y < r) -> exists n v', resolve n defs v = Ok v'.
Proof.
  induction r as [r IHr] using lt_wf_ind. induction 1 as [|b|z|s|l T IH|kvs name d G NS GD|kvs NR T IH]; intros B; try (exists 1; eexists; reflexivity).
  - destruct (each_exists _ _ (fun n => resolve n defs) l) as (n & l' & E).
    + intros. eapply resolve_mono; eauto.
    + intros v I. apply IH; auto. intros y d M. apply B. eapply M_arr; eauto.
    + exists (S n), (JArr l'). cbn [resolve]. rewrite E. reflexivity.
  - destruct (IHr (rank name)) with (v := d) as (n & v' & E).
    + eapply B; [|exact GD]. eapply M_ref; [exact G|apply pointer_prefix].
    + eapply defs_tame; eauto.
    + intros y d' M D. eapply ranked; eauto.
    + exists (S n), v'. cbn [resolve]. rewrite G, last_segment_prefix, GD by auto. exact E.
  - destruct (each_exists _ _ (fun n (kv : string * json) => match resolve n defs (snd kv) with Ok y => Ok (fst kv, y) | AttributeError => AttributeError | RecursionError => RecursionError end)
      (filter (fun kv => negb (String.eqb (fst kv) "$defs")) kvs)) as (n & l' & E).
    + intros n m [k v] b. cbn [fst snd]. destruct (resolve n defs v) eqn:E; try discriminate. intros H L. rewrite (resolve_mono _ _ _ _ m E L). exact H.
    + intros [k v] I. apply filter_In in I as [I E]. cbn [fst snd] in *. assert (ND : k <> "$defs") by (intros ->; discriminate).
      destruct (IH k v I ND) as (n & v' & R); [intros y d M; apply B; eapply M_obj; eauto; apply jget_none; auto|]. exists n, (k, v'). rewrite R. reflexivity.
    + exists (S n), (JObj l'). cbn [resolve]. rewrite jget_none by auto. rewrite E. reflexivity.
Qed.
End Ends.
Lemma bounded_ranks : forall (defs : list (string * json)) (rank : string -> nat), exists r, forall y d, jget defs y = Some d -> rank y < r.
Proof.
  intros defs rank. induction defs as [|[x w] l [r IH]]; [exists 0; discriminate|]. exists (r + S (rank x)). intros y d. cbn [jget].
  destruct (String.eqb_spec x y) as [->|]; [lia|]. intros G. specialize (IH y d G). lia.
Qed.
Lemma inline_ends : forall s, clean_schema s -> acyclic (definitions s) -> exists n s', forall m, n <= m -> inline_refs m s = Ok s'.
Proof.
  intros s [C D] [rank RK]. destruct (bounded_ranks (definitions s) rank) as [r B].
  destruct (resolve_ends (definitions s)) with (rank := rank) (r := r) (v := s) as (n & s' & E); auto.
  - intros x d G. apply clean_tame. eapply D. apply jget_in. eauto.
  - apply clean_tame. auto.
  - intros y d _ G. eapply B; eauto.
  - exists n, s'. intros m L. eapply resolve_mono; eauto.
Qed.


(** ** Recursive definitions *)
Section Loops.
Variable defs : list (string * json).
Hypothesis defs_tame : forall x d, jget defs x = Some d -> tame defs d.

Lemma tame_arr : forall l, tame defs (JArr l) -> forall v, In v l -> tame defs v.
Proof. intros l T. inversion T; auto. Qed.
Lemma tame_obj : forall l, tame defs (JObj l) ->
  (exists name d, jget l "$ref" = Some (JStr (prefix ++ name)%string) /\ has_slash name = false /\ jget defs name = Some d) \/
  (jget l "$ref" = None /\ forall k v, In (k, v) l -> k <> "$defs" -> tame defs v).
Proof. intros l T. inversion T as [| | | | |? name d G NS GD|? NR TL]; subst; [left; eauto|right]. split; auto. apply jget_none. auto. Qed.

Lemma resolve_mentions : forall n v v' y d, tame defs v -> resolve n defs v = Ok v' -> mentions v y -> jget defs y = Some d ->
  exists m d', m < n /\ resolve m defs d = Ok d'.
Proof.
  intros n v v' y d T R M GD. revert n v' T R. induction M as [l v y I M IH|l k v y G I ND M IH|l r y G P]; intros n v' T R; (destruct n as [|n]; [discriminate|]).
  - cbn [resolve] in R. destruct (each (resolve n defs) l) as [l'| |] eqn:E; try discriminate. apply each_inv in E.
    assert (exists w, resolve n defs v = Ok w) as (w & Rw).
    { clear - E I. induction E as [|a b l1 l2 R F IHF]; [destruct I|]. destruct I as [->|I]; eauto. }
    destruct (IH GD n w (tame_arr _ T v I) Rw) as (m & d' & L & Rd). exists m, d'. split; auto.
  - apply resolve_plain in R as (l' & -> & F); auto.
    assert (exists w, resolve n defs v = Ok w) as (w & Rw).
    { assert (J : In (k, v) (filter (fun kv => negb (String.eqb (fst kv) "$defs")) l)) by (apply filter_In; split; auto; cbn [fst]; destruct (String.eqb_spec k "$defs"); [contradiction|reflexivity]).
      clear - F J. induction F as [|[x a] [x' b] l1 l2 [E R] F IHF]; [destruct J|]. destruct J as [[= -> ->]|J]; eauto. }
    destruct (tame_obj _ T) as [(name & d0 & G' & _ & _)|[_ TL]]; [congruence|].
    destruct (IH GD n w (TL k v I ND) Rw) as (m & d' & L & Rd). exists m, d'. split; auto.
  - destruct (tame_obj _ T) as [(name & d0 & G' & NS & GD0)|[G' _]]; [|congruence].
    assert (r = (prefix ++ name)%string) as -> by congruence. rewrite pointer_prefix in P. injection P as ->. cbn [resolve] in R. rewrite G, last_segment_prefix, GD in R by auto. eauto.
Qed.
Lemma resolve_reaches : forall v y, reaches defs v y -> forall n v' d, tame defs v -> resolve n defs v = Ok v' -> jget defs y = Some d ->
  exists m d', m < n /\ resolve m defs d = Ok d'.
Proof.
  induction 1 as [v y M|v x dx y M GX RC IH]; intros n v' d T R G.
  - eapply resolve_mentions; eauto.
  - destruct (resolve_mentions n v v' x dx T R M GX) as (m & d' & L & Rd). destruct (IH m d' d (defs_tame _ _ GX) Rd G) as (m' & d'' & L' & Rd').
    exists m', d''. split; auto. lia.
Qed.
Lemma resolve_loops : forall x d, jget defs x = Some d -> reaches defs d x -> forall n d', resolve n defs d <> Ok d'.
Proof.
  intros x d G RC. induction n as [n IH] using lt_wf_ind. intros d' R. destruct (resolve_reaches _ _ RC n d' d (defs_tame _ _ G) R G) as (m & d'' & L & R'). exact (IH m L d'' R').
Qed.
Lemma tame_no_error : forall n v, tame defs v -> resolve n defs v <> AttributeError.
Proof.
  assert (E : forall A B (f : A -> res B) l, each f l = AttributeError -> exists a, In a l /\ f a = AttributeError).
  { intros A B f. induction l as [|a l IHl]; cbn [each]; [discriminate|]. destruct (f a) eqn:F; try discriminate; [|intros _; exists a; split; auto; left; auto].
    destruct (each f l); try discriminate. intros _. destruct IHl as (x & I & X); auto. exists x. split; auto. right; auto. }
  induction n as [|n IH]; intros v T; [discriminate|]. destruct T as [|b|z|s|l T|kvs name d G NS GD|kvs NR T]; try discriminate.
  - cbn [resolve]. destruct (each (resolve n defs) l) eqn:H; try discriminate. apply E in H as (a & I & X). destruct (IH a (T a I) X).
  - cbn [resolve]. rewrite G, last_segment_prefix, GD by auto. apply IH. eapply defs_tame; eauto.
  - cbn [resolve]. rewrite jget_none by auto. match goal with |- context [each ?f ?l] => destruct (each f l) eqn:H end; try discriminate.
    apply E in H as ([k v] & I & X). apply filter_In in I as [I N]. cbn [fst snd] in *. destruct (resolve n defs v) eqn:RV; try discriminate.
    intros _. apply (IH v); auto. apply (T k v I). intros ->. discriminate.
Qed.
End Loops.
Lemma inline_no_error : forall n s, clean_schema s -> inline_refs n s <> AttributeError.
Proof. intros n s [C D]. apply tame_no_error; [|apply clean_tame; auto]. intros x d G. apply clean_tame. eapply D. apply jget_in. eauto. Qed.
Lemma inline_loops : forall s x d, clean_schema s -> reaches (definitions s) s x -> jget (definitions s) x = Some d -> reaches (definitions s) d x ->
  forall n, inline_refs n s = RecursionError.
Proof.
  intros s x d CS RS G RD n. pose proof (inline_no_error n s CS) as NE. destruct CS as [C D].
  assert (T : forall x d, jget (definitions s) x = Some d -> tame (definitions s) d) by (intros y e Gy; apply clean_tame; eapply D; apply jget_in; eauto).
  destruct (inline_refs n s) as [s'| |] eqn:R; auto; [|contradiction]. exfalso.
  destruct (resolve_reaches (definitions s) T s x RS n s' d (clean_tame _ _ C) R G) as (m & d' & _ & Rd). exact (resolve_loops _ T x d G RD m d' Rd).
Qed.
Lemma quiet_silent : forall v, quiet v -> forall y, ~ mentions v y.
Proof.
  intros v Q y M. revert Q. induction M as [l v y I M IH|l k v y G I ND M IH|l r y G P]; intros Q; inversion Q as [| | | |? QL|? QL]; subst.
  - apply IH. auto.
  - apply IH. apply (QL k v I).
  - apply jget_in in G. destruct (QL _ _ G) as (N & _). apply N. reflexivity.
Qed.

(** ** References to no definition *)
Lemma last_segment_whole : forall s, has_slash s = false -> last_segment s = s.
Proof. destruct s as [|c s]; auto. cbn. intros H. apply orb_false_iff in H as [A B]. rewrite A, B. reflexivity. Qed.
Lemma last_segment_ends : forall s, has_slash s = true -> exists p, s = (p ++ "/" ++ last_segment s)%string.
Proof.
  induction s as [|c s IH]; [discriminate|]. cbn [has_slash last_segment]. intros H. destruct (has_slash s) eqn:E.
  - destruct IH as [p P]; auto. exists (String c p). cbn [append]. f_equal. exact P.
  - rewrite orb_false_r in H. rewrite H. apply Ascii.eqb_eq in H as ->. exists EmptyString. reflexivity.
Qed.
Lemma names_none_segment : forall defs r, names_none defs r -> jget defs (last_segment r) = None.
Proof.
  intros defs r N. destruct (jget defs (last_segment r)) as [d|] eqn:G; auto. apply jget_in in G. destruct (N _ _ G) as [A B]. exfalso. destruct (has_slash r) eqn:E.
  - destruct (last_segment_ends r E) as [p P]. exact (B p P).
  - rewrite (last_segment_whole r E) in A. apply A. reflexivity.
Qed.
Lemma each_self : forall A (f : A -> res A) l, (forall a, In a l -> f a = Ok a) -> each f l = Ok l.
Proof. intros A f l H. apply each_ok, Forall2_same. auto. Qed.
Lemma foreign_resolve : forall defs n v, foreign defs v -> depth v <= n -> resolve n defs v = Ok v.
Proof.
  intros defs. induction n as [|n IH]; intros v F D; [destruct v; cbn in D; lia|]. destruct F as [|b|z|s|l F|l F NR]; auto.
  - cbn [resolve]. rewrite each_self; auto. intros a I. apply IH; auto. cbn [depth] in D. apply le_S_n in D. clear - D I.
    induction l as [|x l IHl]; [destruct I|]. destruct I as [->|I]; [lia|]. apply IHl; auto. lia.
  - assert (C : match each (fun kv : string * json => match resolve n defs (snd kv) with Ok y => Ok (fst kv, y) | AttributeError => AttributeError | RecursionError => RecursionError end)
       (filter (fun kv => negb (String.eqb (fst kv) "$defs")) l) with Ok l => Ok (JObj l) | AttributeError => AttributeError | RecursionError => RecursionError end = Ok (JObj l)).
    { rewrite no_defs_filter by (intros k v I; apply (F k v I)). rewrite each_self; auto. intros [k v] I. cbn [fst snd]. rewrite IH; auto; [apply (F k v I)|].
      cbn [depth] in D. apply le_S_n in D. clear - D I. induction l as [|x l IHl]; [destruct I|]. destruct I as [->|I]; [cbn [snd] in D; lia|]. apply IHl; auto. lia. }
    cbn [resolve]. destruct (jget l "$ref") as [v|] eqn:G; [|exact C]. apply jget_in in G. destruct (NR v G) as (r & -> & N). rewrite names_none_segment by exact N. exact C.
Qed.
Lemma foreign_inline : forall n s, foreign [] s -> depth s <= n -> inline_refs n s = Ok s.
Proof.
  intros n s F D. unfold inline_refs. replace (definitions s) with (@nil (string * json)); [apply foreign_resolve; auto|]. symmetry.
  destruct F as [|b|z|s|l F|l F NR]; auto. unfold definitions. rewrite jget_none; auto. intros k v I. apply (F k v I).
Qed.
