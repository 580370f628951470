From Coq Require Import String List Bool ZArith Lia.
Import ListNotations.
From Verif Require Import JsonModel JsonSpec.
Open Scope string_scope.
Open Scope list_scope.

Lemma json_ind2 (P : json -> Prop) :
  P JNull -> (forall b, P (JBool b)) -> (forall z, P (JInt z)) -> (forall s, P (JFloat s)) -> (forall s, P (JStr s)) ->
  (forall l, Forall P l -> P (JArr l)) -> (forall l, Forall (fun kx => P (snd kx)) l -> P (JObj l)) -> forall v, P v.
Proof.
  intros H1 H2 H3 H4 H5 H6 H7. fix IH 1. intros [| | | | |l|l]; [exact H1|apply H2|apply H3|apply H4|apply H5| |].
  - apply H6. induction l as [|x l IHl]; constructor; [apply IH|exact IHl].
  - apply H7. induction l as [|[k x] l IHl]; constructor; [apply IH|exact IHl].
Qed.

Lemma sapp_nil_r : forall s, (s ++ "")%string = s.
Proof. induction s; cbn; congruence. Qed.
Lemma sapp_assoc : forall a b c, ((a ++ b) ++ c = a ++ (b ++ c))%string.
Proof. induction a; intros; cbn; [reflexivity|]. rewrite IHa. reflexivity. Qed.

Lemma concat_cons : forall s l, String.concat "" (s :: l) = (s ++ String.concat "" l)%string.
Proof. intros s [|x l]; cbn; [rewrite sapp_nil_r; reflexivity|reflexivity]. Qed.
Lemma concat_app : forall a b, String.concat "" (a ++ b) = (String.concat "" a ++ String.concat "" b)%string.
Proof.
  induction a as [|s a IH]; intros b; [reflexivity|]. cbn [app]. rewrite !concat_cons, IH, sapp_assoc. reflexivity.
Qed.

Section Proofs.
Variable dumps_scalar : json -> string.
Variable block_types : list string.
Notation walk := (walk dumps_scalar block_types).
Notation dumps := (dumps dumps_scalar).
Notation blockb := (blockb block_types).
Notation outermost := (outermost block_types).
Notation is_block := (is_block block_types).
Notation reached := (reached block_types).

Section Go.
Variable f : json -> state -> option state.
Fixpoint goA (first : bool) (l : list json) (st : state) : option state :=
  match l with
  | [] => Some st
  | x :: l' =>
      let st := if first then st else put ", " st in
      match f x st with Some st => goA false l' st | None => None end
  end.
Fixpoint goO (first : bool) (l : list (string * json)) (st : state) : option state :=
  match l with
  | [] => Some st
  | (k, x) :: l' =>
      let st := if first then st else put ", " st in
      let st := put (dumps_scalar (JStr k) ++ ": ")%string st in
      match f x st with Some st => goO false l' st | None => None end
  end.
End Go.
Lemma walk_arr : forall l st, walk (JArr l) st =
  match goA walk true l (put "[" st) with Some st => Some (put "]" st) | None => None end.
Proof. reflexivity. Qed.
Lemma walk_obj : forall l st, walk (JObj l) st =
  match is_block_type block_types (jget l "type") with
  | None => None
  | Some true => let st := flush st in Some (fst st, snd st ++ [BVal (JObj l)])
  | Some false => match goO walk true l (put "{" st) with Some st => Some (put "}" st) | None => None end
  end.
Proof. reflexivity. Qed.

Lemma existsb_in : forall s l, existsb (String.eqb s) l = true <-> In s l.
Proof.
  intros s l. rewrite existsb_exists. split.
  - intros (x & H & E). apply String.eqb_eq in E. subst. auto.
  - intros H. exists s. split; auto. apply String.eqb_refl.
Qed.
Lemma blockb_spec : forall v, blockb v = true <-> is_block v.
Proof.
  intros v. unfold JsonSpec.blockb, JsonSpec.is_block. split.
  - destruct (typed v) as [[]|]; try discriminate. intros H. apply existsb_in in H. eauto.
  - intros (s & -> & H). apply existsb_in. auto.
Qed.
Lemma block_type : forall l, is_block_type block_types (jget l "type") =
  if blockb (JObj l) then Some true else match jget l "type" with Some (JArr _) | Some (JObj _) => None | _ => Some false end.
Proof.
  intros l. unfold JsonSpec.blockb, is_block_type. cbn [typed]. destruct (jget l "type") as [[]|]; auto.
  destruct (existsb _ _); reflexivity.
Qed.

(** What a state shows, and how its blocks end. *)
Definition text (st : state) : string := (linearize dumps_scalar (snd st) ++ String.concat "" (fst st))%string.
Definition calm (st : state) : Prop :=
  no_two_texts (snd st) /\ forall l b, snd st = l ++ [b] -> ~ is_text b.

Lemma linearize_app : forall a b, linearize dumps_scalar (a ++ b) = (linearize dumps_scalar a ++ linearize dumps_scalar b)%string.
Proof. intros. unfold linearize. rewrite map_app, concat_app. reflexivity. Qed.

Lemma text_put : forall s st, text (put s st) = (text st ++ s)%string.
Proof.
  intros s [buf bs]. unfold text, put. cbn [fst snd]. rewrite concat_app, sapp_assoc. cbn [String.concat]. reflexivity.
Qed.
Lemma text_flush : forall st, text (flush st) = text st /\ fst (flush st) = [].
Proof.
  intros [[|s buf] bs]; unfold flush; cbn [fst snd]; [split; reflexivity|]. split; [|reflexivity].
  unfold text. cbn [fst snd]. rewrite linearize_app.
  unfold linearize at 2. cbn [map shown]. change (String.concat "" [String.concat "" (s :: buf)]) with (String.concat "" (s :: buf)).
  change (String.concat "" []) with "". rewrite sapp_nil_r. reflexivity.
Qed.
Lemma values_flush : forall st, values (snd (flush st)) = values (snd st).
Proof.
  intros [[|s buf] bs]; unfold flush; cbn [fst snd]; [reflexivity|].
  unfold values. rewrite flat_map_app. cbn. rewrite app_nil_r. reflexivity.
Qed.

Lemma no_two_snoc : forall l b, no_two_texts l -> (forall l' a, l = l' ++ [a] -> ~ (is_text a /\ is_text b)) -> no_two_texts (l ++ [b]).
Proof.
  intros l b N. induction N as [|a|a c l H N IH]; intros HL; cbn [app].
  - constructor.
  - constructor; [|constructor]. apply (HL []). reflexivity.
  - constructor; auto. apply IH. intros l' a' E. apply (HL (a :: l')). rewrite E. reflexivity.
Qed.
Lemma calm_put : forall s st, calm st -> calm (put s st).
Proof. intros s [buf bs] H. exact H. Qed.
Lemma flush_no_two : forall st, calm st -> no_two_texts (snd (flush st)).
Proof.
  intros [[|s buf] bs] [H1 H2]; unfold flush; cbn [fst snd] in *; auto.
  apply no_two_snoc; auto. intros l' a E [T _]. exact (H2 _ _ E T).
Qed.
Lemma calm_block : forall st v, calm st -> ~ is_text (BVal v) -> calm (fst (flush st), snd (flush st) ++ [BVal v]).
Proof.
  intros st v C T. pose proof (flush_no_two _ C) as N. split; cbn [fst snd].
  - apply no_two_snoc; auto. intros l' a E [_ X]. auto.
  - intros l b E. apply app_inj_tail in E. destruct E as [_ <-]. auto.
Qed.

(** The blocks passed on are the outermost ones. *)
Lemma walk_values : forall v st st', walk v st = Some st' -> values (snd st') = values (snd st) ++ outermost v.
Proof.
  induction v as [|b|z|s|s|l IH|l IH] using json_ind2; intros st st' H;
    try (injection H as <-; cbn; rewrite app_nil_r; reflexivity).
  - rewrite walk_arr in H. cbn [JsonSpec.outermost].
    replace (blockb (JArr l)) with false by reflexivity.
    destruct (goA walk true l (put "[" st)) as [st1|] eqn:G; [|discriminate]. injection H as <-. cbn [put fst snd].
    change (values (snd st)) with (values (snd (put "[" st))).
    enough (X : forall first st0, goA walk first l st0 = Some st1 -> values (snd st1) = values (snd st0) ++ flat_map outermost l) by exact (X _ _ G).
    clear G.
    induction IH as [|x l Hx F IHl]; intros first st0 G; cbn [goA] in G.
    + injection G as <-. cbn. rewrite app_nil_r. reflexivity.
    + destruct (walk x _) as [st2|] eqn:W; [|discriminate]. rewrite (IHl _ _ G), (Hx _ _ W). cbn [flat_map].
      rewrite <- app_assoc. destruct first; reflexivity.
  - rewrite walk_obj in H. rewrite block_type in H. cbn [JsonSpec.outermost]. destruct (blockb (JObj l)).
    + injection H as <-. cbn [snd]. unfold values. rewrite flat_map_app. cbn [flat_map].
      fold (values (snd (flush st))). rewrite values_flush. reflexivity.
    + assert (H' : match goO walk true l (put "{" st) with Some st => Some (put "}" st) | None => None end = Some st').
      { destruct (jget l "type") as [[]|]; try discriminate; exact H. } clear H.
      destruct (goO walk true l (put "{" st)) as [st1|] eqn:G; [|discriminate]. injection H' as <-. cbn [put fst snd].
      change (values (snd st)) with (values (snd (put "{" st))).
    enough (X : forall first st0, goO walk first l st0 = Some st1 -> values (snd st1) = values (snd st0) ++ flat_map (fun kx => outermost (snd kx)) l) by exact (X _ _ G).
    clear G.
      induction IH as [|[k x] l Hx F IHl]; intros first st0 G; cbn [goO] in G.
      * injection G as <-. cbn. rewrite app_nil_r. reflexivity.
      * destruct (walk x _) as [st2|] eqn:W; [|discriminate]. rewrite (IHl _ _ G), (Hx _ _ W). cbn [flat_map snd].
        rewrite <- app_assoc. destruct first; reflexivity.
Qed.

(** Without text-typed blocks inside, the text grows by the JSON of the value. *)
Definition no_text (v : json) : Prop := forall x, reached v x -> is_block x -> typed x <> Some (JStr "text").

Lemma shown_block : forall l, typed (JObj l) <> Some (JStr "text") -> shown dumps_scalar (BVal (JObj l)) = dumps (JObj l).
Proof.
  intros l N. cbn [shown]. cbn [typed] in N. destruct (jget l "type") as [[]|] eqn:E; try reflexivity.
  destruct (String.eqb_spec s "text") as [->|NE]; [congruence|].
  assert (X : forall (A : Type) (a b : A), (match s with "text" => a | _ => b end) = b).
  { intros A a b.
    repeat match goal with |- match ?x with _ => _ end = _ => is_var x; destruct x; try reflexivity end; congruence. }
  rewrite X. reflexivity.
Qed.

Lemma walk_text : forall v st st', no_text v -> walk v st = Some st' ->
  text st' = (text st ++ dumps v)%string /\ (calm st -> calm st').
Proof.
  induction v as [|b|z|s|s|l IH|l IH] using json_ind2; intros st st' NT H;
    try (injection H as <-; rewrite text_put; split; [reflexivity|apply calm_put]).
  - rewrite walk_arr in H. destruct (goA walk true l (put "[" st)) as [st1|] eqn:G; [|discriminate]. injection H as <-.
    assert (NT' : Forall no_text l).
    { apply Forall_forall. intros x HI y R. apply NT. econstructor; eauto. }
    clear NT.
    assert (X : forall (first : bool) st0, goA walk first l st0 = Some st1 ->
      text st1 = (text st0 ++ (if first then "" else match l with [] => "" | _ => ", " end) ++ separated (map dumps l))%string /\ (calm st0 -> calm st1)).
    { clear G. induction IH as [|x l Hx F IHl]; intros first st0 G; cbn [goA] in G.
      - injection G as <-. split; auto. destruct first; cbn; rewrite sapp_nil_r; reflexivity.
      - inversion NT' as [|? ? N1 N2]; subst. destruct (walk x _) as [st2|] eqn:W; [|discriminate].
        destruct (Hx _ _ N1 W) as [T1 C1]. destruct (IHl N2 _ _ G) as [T2 C2]. split.
        + rewrite T2, T1. destruct first; [|rewrite text_put]; cbn [map]; unfold separated;
            destruct l as [|y l]; cbn [map String.concat]; cbn [String.append]; rewrite ?sapp_nil_r, ?sapp_assoc; reflexivity.
        + intros C. apply C2, C1. destruct first; [auto|apply calm_put; auto]. }
    destruct (X _ _ G) as [T C]. split; [|intros; apply calm_put, C, calm_put; auto].
    rewrite text_put, T, text_put. cbn [JsonSpec.dumps]. rewrite !sapp_assoc. reflexivity.
  - rewrite walk_obj in H. rewrite block_type in H. destruct (blockb (JObj l)) eqn:B.
    + injection H as <-. apply blockb_spec in B. pose proof (NT _ (R_here _ _) B) as N.
      destruct (text_flush st) as [T F]. split.
      * unfold text. cbn [fst snd]. rewrite linearize_app, F. unfold text in T. rewrite F in T.
        unfold linearize at 2. cbn [map]. rewrite shown_block by exact N.
        change (String.concat "" []) with "" in *. rewrite sapp_nil_r in *. rewrite T. reflexivity.
      * intros C. apply calm_block; auto.
    + assert (H' : match goO walk true l (put "{" st) with Some st => Some (put "}" st) | None => None end = Some st').
      { destruct (jget l "type") as [[]|]; try discriminate; exact H. } clear H.
      assert (NT' : Forall (fun kx => no_text (snd kx)) l).
      { apply Forall_forall. intros [k x] HI y R. apply NT. econstructor; eauto. intros X. apply blockb_spec in X. congruence. }
      clear NT B. destruct (goO walk true l (put "{" st)) as [st1|] eqn:G; [|discriminate]. injection H' as <-.
      assert (X : forall (first : bool) st0, goO walk first l st0 = Some st1 ->
        text st1 = (text st0 ++ (if first then "" else match l with [] => "" | _ => ", " end) ++
          separated (map (fun kx => dumps_scalar (JStr (fst kx)) ++ ": " ++ dumps (snd kx)) l))%string /\ (calm st0 -> calm st1)).
      { clear G. induction IH as [|[k x] l Hx F IHl]; intros first st0 G; cbn [goO] in G.
        - injection G as <-. split; auto. destruct first; cbn; rewrite sapp_nil_r; reflexivity.
        - inversion NT' as [|? ? N1 N2]; subst. destruct (walk x _) as [st2|] eqn:W; [|discriminate]. cbn [snd] in *.
          destruct (Hx _ _ N1 W) as [T1 C1]. destruct (IHl N2 _ _ G) as [T2 C2]. split.
          + rewrite T2, T1, text_put. destruct first; [|rewrite text_put]; cbn [map fst snd]; unfold separated;
              destruct l as [|y l]; cbn [map String.concat fst snd]; cbn [String.append]; rewrite ?sapp_nil_r, ?sapp_assoc; reflexivity.
          + intros C. apply C2, C1, calm_put. destruct first; [auto|apply calm_put; auto]. }
      destruct (X _ _ G) as [T C]. split; [|intros; apply calm_put, C, calm_put; auto].
      rewrite text_put, T, text_put. cbn [JsonSpec.dumps]. rewrite !sapp_assoc. reflexivity.
Qed.

(** When it fails. *)
Lemma walk_fails : forall v st, walk v st = None <-> exists x, reached v x /\ unhashable_type x.
Proof.
  assert (L : forall v, (match v with JArr _ | JObj _ => False | _ => True end) -> forall x, reached v x -> unhashable_type x -> False).
  { intros v N x R U. destruct R; try contradiction. destruct v; contradiction. }
  induction v as [|b|z|s|s|l IH|l IH] using json_ind2; intros st;
    try (split; [discriminate|intros (x & R & U); exfalso; eapply L; [|exact R|exact U]; exact I]).
  - rewrite walk_arr.
    assert (X : forall first st0, goA walk first l st0 = None <-> exists v x, In v l /\ reached v x /\ unhashable_type x).
    { induction IH as [|x l Hx F IHl]; intros first st0; cbn [goA].
      - split; [discriminate|intros (v & x & [] & _)].
      - specialize (Hx (if first then st0 else put ", " st0)).
        destruct (walk x _) as [st2|] eqn:W.
        + rewrite IHl. split; [intros (v & y & HI & R & U); exists v, y; split; [right|]; auto|].
          intros (v & y & [<-|HI] & R & U); [|eauto 6]. destruct Hx as [_ Hx]. discriminate Hx. eauto.
        + split; [|reflexivity]. intros _. destruct Hx as [Hx _]. destruct (Hx eq_refl) as (y & R & U). exists x, y. split; [left|]; auto. }
    destruct (goA walk true l (put "[" st)) as [st1|] eqn:G.
    + split; [discriminate|]. intros (x & R & U). inversion R; subst.
      * contradiction.
      * assert (G' : goA walk true l (put "[" st) = None) by (apply X; eauto). congruence.
    + split; [|reflexivity]. intros _. apply X in G. destruct G as (v & x & HI & R & U). exists x. split; auto. econstructor; eauto.
  - rewrite walk_obj, block_type. destruct (blockb (JObj l)) eqn:B.
    + apply blockb_spec in B. split; [discriminate|]. intros (x & R & U). inversion R; subst; [|contradiction].
      destruct B as (s & E & _). unfold unhashable_type in U. rewrite E in U. contradiction.
    + assert (NB : ~ is_block (JObj l)) by (intros Y; apply blockb_spec in Y; congruence).
      assert (X : forall first st0, goO walk first l st0 = None <-> exists k v x, In (k, v) l /\ reached v x /\ unhashable_type x).
      { clear B NB. induction IH as [|[k x] l Hx F IHl]; intros first st0; cbn [goO].
        - split; [discriminate|intros (k & v & x & [] & _)].
        - cbn [snd] in Hx. specialize (Hx (put (dumps_scalar (JStr k) ++ ": ")%string (if first then st0 else put ", " st0))).
          destruct (walk x _) as [st2|] eqn:W.
          + rewrite IHl. split; [intros (k' & v & y & HI & R & U); exists k', v, y; split; [right|]; auto|].
            intros (k' & v & y & [[= <- <-]|HI] & R & U); [|eauto 7]. destruct Hx as [_ Hx]. discriminate Hx. eauto.
          + split; [|reflexivity]. intros _. destruct Hx as [Hx _]. destruct (Hx eq_refl) as (y & R & U). exists k, x, y. split; [left|]; auto. }
      assert (Y : match goO walk true l (put "{" st) with Some st => Some (put "}" st) | None => None end = None <->
                  exists k v x, In (k, v) l /\ reached v x /\ unhashable_type x).
      { rewrite <- (X true (put "{" st)). destruct (goO walk true l _); split; discriminate || reflexivity. }
      assert (Z : ~ unhashable_type (JObj l) -> (exists x, reached (JObj l) x /\ unhashable_type x) <->
                  exists k v x, In (k, v) l /\ reached v x /\ unhashable_type x).
      { intros NU. split.
        - intros (x & R & U). inversion R; subst; [contradiction|eauto 6].
        - intros (k & v & x & HI & R & U). exists x. split; auto. econstructor; eauto. }
      unfold unhashable_type at 1 in Z. cbn [typed] in Z.
      destruct (jget l "type") as [[]|] eqn:E;
        first [ rewrite Z by (intros []); exact Y
              | split; [|reflexivity]; intros _; exists (JObj l); split; [constructor|]; unfold unhashable_type; cbn [typed]; rewrite E; exact I ].
Qed.

Lemma not_str : forall v, (forall s, v <> JStr s) ->
  to_content_blocks dumps_scalar block_types v = match walk v ([], []) with Some st => Some (snd (flush st)) | None => None end.
Proof. intros [] N; try reflexivity. destruct (N s). reflexivity. Qed.

Lemma blocks_linear : forall v bs, (forall s, v <> JStr s) -> no_text v ->
  to_content_blocks dumps_scalar block_types v = Some bs ->
  linearize dumps_scalar bs = dumps v /\ no_two_texts bs.
Proof.
  intros v bs N NT H. rewrite (not_str _ N) in H. destruct (walk v ([], [])) as [st|] eqn:W; [|discriminate]. injection H as <-.
  destruct (walk_text _ _ _ NT W) as [T C]. destruct (text_flush st) as [TF FF]. split.
  - unfold text in TF at 1. rewrite FF in TF. change (String.concat "" []) with "" in TF. rewrite sapp_nil_r in TF. rewrite TF, T. reflexivity.
  - apply flush_no_two, C. split; [constructor|]. intros l b E. destruct l; discriminate.
Qed.

Lemma blocks_values : forall v bs, to_content_blocks dumps_scalar block_types v = Some bs -> values bs = outermost v.
Proof.
  intros v bs H. destruct v as [| | | |s| |];
   try (rewrite not_str in H by discriminate; match type of H with context [JsonModel.walk _ _ ?v ?s] => destruct (walk v s) as [st|] eqn:W end;
    [injection H as <-; rewrite values_flush, (walk_values _ _ _ W); reflexivity|discriminate]).
  injection H as <-. reflexivity.
Qed.

Lemma blocks_fail : forall v, to_content_blocks dumps_scalar block_types v = None <-> exists x, reached v x /\ unhashable_type x.
Proof.
  intros v. destruct v as [| | | |s|l|l];
    try (rewrite not_str by discriminate; rewrite <- (walk_fails _ ([], []));
         destruct (walk _ ([], [])); split; discriminate || reflexivity).
  split; [discriminate|]. intros (x & R & U). inversion R; subst. contradiction.
Qed.

(** A value of type "text" is shown without its JSON. *)
Lemma text_refuted : In "text" block_types -> exists v bs, (forall s, v <> JStr s) /\
  to_content_blocks dumps_scalar block_types v = Some bs /\
  linearize dumps_scalar bs <> dumps v /\ ~ no_two_texts bs.
Proof.
  intros HT. set (d := JObj [("type", JStr "text"); ("text", JStr "x"); ("author", JStr "y")]%string).
  exists (JArr [d]), [BText "["; BVal d; BText "]"]. split; [discriminate|].
  assert (B : existsb (String.eqb "text") block_types = true) by (apply existsb_in; auto). split; [|split].
  - rewrite not_str by discriminate. rewrite walk_arr. cbn [goA]. unfold d at 1. rewrite walk_obj.
    rewrite block_type. fold d. assert (BB : blockb d = true) by exact B. rewrite BB. reflexivity.
  - cbn. discriminate.
  - intros N. inversion N as [| |a b l H N']; subst. apply H. split; [exact I|reflexivity].
Qed.
End Proofs.
