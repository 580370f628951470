From Coq Require Import String List Bool Arith Lia.
From Verif Require Import ToolsModel ToolsSpec ToolsProofs OffModel OffSpec.
Import ListNotations.
Open Scope string_scope.
Open Scope list_scope.

Notation get := (dget String.eqb).

Lemma get_in : forall (A : Type) (d : list (string * A)) n v, NoDup (map fst d) -> (get n d = Some v <-> In (n, v) d).
Proof. intros A d n v N. apply dget_in; [exact String.eqb_eq | exact N]. Qed.

Lemma get_none : forall (A : Type) (d : list (string * A)) n, get n d = None <-> ~ In n (map fst d).
Proof. intros A d n. apply dget_none. exact String.eqb_eq. Qed.

Section Offers.
Variable isidentifier : string -> bool.
Variable sess : nat.
Notation collect := (collect isidentifier sess).
Notation offered := (offered isidentifier sess).

Lemma collect_spec : forall e, NoDup (map fst e) -> forall st,
  match collect st e with
  | Some r => exists d, collect_tools e = Some d /\ NoDup (map fst r) /\
      (forall n o, In (n, o) r <-> offered st e d n o)
  | None => raising e \/ exists n t d, In Readers st /\ In (n, VTool t) e /\ isidentifier n = true /\
      collect_tools e = Some d /\ forall u, ~ In (n, u) d
  end.
Proof.
  intros e ND. induction st as [|l st IH]; cbn [OffModel.collect].
  - destruct (collect_tools e) as [d|] eqn:C; [|left; now apply collect_raises].
    pose proof (collect_distinct _ _ C) as (N & _ & _).
    exists d. split; [reflexivity|]. split; [now rewrite map_offer_fst|]. intros n o. unfold OffSpec.offered. cbn [In].
    rewrite in_map_iff. split.
    + intros [[m t] [E I]]. cbn in E. injection E as <- <-. right. split; [tauto|]. left. now exists t.
    + intros [[[] _]|[_ [[t [-> I]]|[_ [[] _]]]]]. now exists (n, t).
  - destruct l.
    + (* Readers *)
      destruct (collect st e) as [r|].
      2:{ destruct IH as [H|(n & t & d & H & R)]; [now left | right; exists n, t, d; split; [now right | exact R]]. }
      destruct IH as (d & C & N & I).
      assert (I' : forall n o, get n r = Some o <-> offered st e d n o) by (intros n o; rewrite get_in by exact N; apply I).
      pose proof (collect_distinct _ _ C) as (Nd & _ & _).
      pose proof (read_all_spec isidentifier e r ND) as R.
      destruct (read_all isidentifier e r) as [r'|].
      * destruct R as (G & NR & _). exists d. split; [exact C|]. split; [exact (NR N)|]. intros n o.
        rewrite <- get_in by exact (NR N). rewrite G, I'.
        assert (P : In Repl (Readers :: st) <-> In Repl st) by (cbn; split; [intros [H|H]; [discriminate | exact H] | auto]).
        unfold OffSpec.offered at 2. rewrite P. split.
        -- intros [H|(A & -> & B & D)].
           ++ unfold OffSpec.offered in H. destruct H as [H|[Q [H|H]]]; [now left | right; split; [exact Q|now left] |].
              right. split; [exact Q|]. right. cbn. tauto.
           ++ right. split.
              ** intros Q. assert (X : get n r = Some (OTool sess)) by (apply I'; left; tauto). congruence.
              ** right. split; [reflexivity|]. split; [now left|]. split; [exact B|]. split; [exact D|].
                 intros t T. assert (X : get n r <> None).
                 { destruct (string_dec n "exec_code") as [E|E].
                   - destruct (in_dec (fun a b : layer => ltac:(decide equality) : {a = b} + {a <> b}) Repl st) as [W|W].
                     + assert (X : get n r = Some (OTool sess)) by (apply I'; left; tauto). congruence.
                     + assert (X : get n r = Some (OTool t)) by (apply I'; right; split; [tauto | left; now exists t]). congruence.
                   - assert (X : get n r = Some (OTool t)) by (apply I'; right; split; [tauto | left; now exists t]). congruence. }
                 exact (X A).
        -- intros [H|[Q [H|(-> & _ & B & D & T)]]].
           ++ left. now left.
           ++ left. right. split; [exact Q | now left].
           ++ destruct (get n r) as [o|] eqn:X; [|right; auto].
              left. pose proof (proj1 (I' n o) X) as O. destruct O as [[O1 [O2 _]]|[_ [[t [_ O]]|O]]].
              ** exfalso. tauto.
              ** exfalso. exact (T t O).
              ** right. split; [exact Q|]. right. tauto.
      * right. destruct R as (n & t & A & B & D). exists n, t, d. split; [now left|]. split; [exact A|]. split; [exact B|].
        split; [exact C|]. intros u U. rewrite get_none in D. apply D.
        destruct (string_dec n "exec_code") as [E|E].
        -- destruct (in_dec (fun a b : layer => ltac:(decide equality) : {a = b} + {a <> b}) Repl st) as [W|W].
           ++ apply (in_map fst r (n, OTool sess)). apply I. left. tauto.
           ++ apply (in_map fst r (n, OTool u)). apply I. right. split; [tauto | left; now exists u].
        -- apply (in_map fst r (n, OTool u)). apply I. right. split; [tauto | left; now exists u].
    + (* Repl *)
      destruct (collect st e) as [r|].
      2:{ destruct IH as [H|(n & t & d & H & R)]; [now left | right; exists n, t, d; split; [now right | exact R]]. }
      destruct IH as (d & C & N & I). exists d. split; [exact C|].
      pose proof (dput_keys String.eqb String.eqb_eq "exec_code" (OTool sess) r N) as N'.
      split; [exact N'|]. intros n o. rewrite <- get_in by exact N'.
      rewrite (dget_dput String.eqb String.eqb_eq). destruct (String.eqb_spec "exec_code" n) as [<-|E].
      * split.
        -- intros H. injection H as <-. left. split; [now left|]. auto.
        -- intros [[_ [_ ->]]|[Q _]]; [reflexivity|]. exfalso. apply Q. split; [now left | reflexivity].
      * rewrite get_in by exact N. rewrite I. unfold OffSpec.offered. cbn [In].
        assert (X : n <> "exec_code") by congruence.
        assert (Y : (Repl = Readers \/ In Readers st) <-> In Readers st) by (split; [intros [H|H]; [discriminate|exact H] | auto]).
        rewrite Y. tauto.
Qed.

(** ** What the call sees *)
Lemma get_filter : forall (A : Type) (p : string -> bool) (l : list (string * A)) n,
  get n (filter (fun x => p (fst x)) l) = if p n then get n l else None.
Proof.
  intros A p l n. induction l as [|[m v] l IH]; cbn [filter dget fst]; [now destruct (p n)|].
  destruct (p m) eqn:Pm; cbn [dget].
  - destruct (String.eqb_spec m n) as [->|E]; [now rewrite Pm | exact IH].
  - rewrite IH. destruct (String.eqb_spec m n) as [->|E]; [now rewrite Pm | reflexivity].
Qed.

Lemma get_apply : forall s ev n, get n (apply s ev) =
  match ev with
  | Bind m v => if String.eqb m n then Some v else get n s
  | Del m => if String.eqb m n then None else get n s
  end.
Proof.
  intros s [m v|m] n; cbn [apply].
  - apply dget_dput. exact String.eqb_eq.
  - rewrite (get_filter value (fun k => negb (String.eqb k m))). rewrite (String.eqb_sym n m).
    now destruct (String.eqb m n).
Qed.

Lemma get_after : forall evs s n, get n (fold_left apply evs s) =
  match latest evs n with Some (Bind _ v) => Some v | Some (Del _) => None | None => get n s end.
Proof.
  induction evs as [|ev evs IH]; intros s n; cbn [fold_left latest]; [reflexivity|].
  rewrite IH. destruct (latest evs n) as [x|]; [reflexivity|]. rewrite get_apply.
  destruct ev as [m v|m]; destruct (String.eqb m n); reflexivity.
Qed.

Lemma nodup_after : forall evs s, NoDup (map fst s) -> NoDup (map fst (fold_left apply evs s)).
Proof.
  assert (F : forall (p : string * value -> bool) l, NoDup (map fst l) -> NoDup (map fst (filter p l))).
  { intros p l; induction l as [|x l IH]; intros N; cbn; [constructor|]. inversion N as [|? ? NI N']; subst.
    destruct (p x); [|auto]. cbn. constructor; [|auto]. intros I. apply NI.
    apply in_map_iff in I. destruct I as [y [E I]]. apply filter_In in I. apply in_map_iff. exists y. tauto. }
  induction evs as [|ev evs IH]; intros s N; cbn; [exact N|]. apply IH.
  destruct ev as [n v|n]; cbn [apply]; [apply dput_keys; [exact String.eqb_eq | exact N] | now apply F].
Qed.

Lemma view_keys : forall base s, NoDup (map fst base) -> NoDup (map fst s) -> NoDup (map fst (view base s)).
Proof.
  intros base s Nb Ns. unfold view. rewrite map_app, map_map.
  assert (E : map (fun x => fst (match get (fst x) s with Some v => (fst x, v) | None => x end)) base = map fst base).
  { apply map_ext. intros x. now destruct (get (fst x) s). }
  rewrite E. clear E. revert Ns. induction s as [|[m v] s IH]; intros Ns; cbn [filter map fst]; [now rewrite app_nil_r|].
  inversion Ns as [|? ? NI N']; subst. destruct (get m base) eqn:G; [apply (IH N')|]. cbn [map fst].
  apply NoDup_Add with (a := m) (l := map fst base ++ map fst (filter (fun x => match get (fst x) base with Some _ => false | None => true end) s)).
  - apply Add_app.
  - split; [exact (IH N')|]. intros I. apply in_app_or in I. destruct I as [I|I].
    + now apply get_none in G.
    + apply NI. apply in_map_iff in I. destruct I as [y [Ey I]]. apply filter_In in I. apply in_map_iff. exists y. tauto.
Qed.

Lemma get_app : forall (A : Type) (l m : list (string * A)) n,
  get n (l ++ m) = match get n l with Some v => Some v | None => get n m end.
Proof.
  intros A l m n. induction l as [|[k v] l IH]; cbn [app dget]; [reflexivity|]. now destruct (String.eqb k n).
Qed.

Lemma get_view : forall base s n, get n (view base s) = match get n s with Some v => Some v | None => get n base end.
Proof.
  intros base s n. unfold view. rewrite get_app.
  assert (M : get n (map (fun x => match get (fst x) s with Some v => (fst x, v) | None => x end) base) =
    match get n base with Some w => Some (match get n s with Some v => v | None => w end) | None => None end).
  { induction base as [|[k w] base IH]; cbn [map dget fst]; [reflexivity|].
    destruct (get k s) as [v|] eqn:G; cbn [dget]; destruct (String.eqb_spec k n) as [->|E];
      try (rewrite G; reflexivity); exact IH. }
  rewrite M, (get_filter value (fun k => match get k base with Some _ => false | None => true end)).
  destruct (get n base) as [w|]; destruct (get n s) as [v|]; reflexivity.
Qed.

Lemma view_current : forall base evs, NoDup (map fst base) ->
  NoDup (map fst (view base (fold_left apply evs base))) /\
  forall n v, In (n, v) (view base (fold_left apply evs base)) <-> current base evs n v.
Proof.
  intros base evs Nb. assert (N : NoDup (map fst (view base (fold_left apply evs base)))).
  { apply view_keys; [exact Nb | now apply nodup_after]. }
  split; [exact N|]. intros n v. rewrite <- get_in by exact N. rewrite get_view, get_after. unfold current.
  destruct (latest evs n) as [[m w|m]|].
  - split; [intros H; injection H as ->; reflexivity | now intros ->].
  - apply get_in. exact Nb.
  - destruct (get n base) eqn:G; [rewrite <- G|]; [apply get_in; exact Nb|].
    rewrite <- G. apply get_in. exact Nb.
Qed.

(** ** Rounds *)
Lemma rounds_nth : forall st base l s0 evs0, In Repl st ->
  (s0 = None /\ evs0 = [] \/ s0 = Some (fold_left apply evs0 base)) -> NoDup (map fst base) ->
  forall i r, nth_error (rounds isidentifier sess st base s0 l) i = Some r ->
  exists e, collect st e = r /\ NoDup (map fst e) /\
    forall n v, In (n, v) e <-> current base (evs0 ++ concat (firstn i l)) n v.
Proof.
  intros st base l; induction l as [|evs l IH]; intros s0 evs0 HR S0 Nb i r H; cbn [rounds] in H; [destruct i; discriminate|].
  assert (X : existsb is_repl st = true) by (apply existsb_exists; exists Repl; auto).
  set (e := match s0 with Some s => view base s | None => base end) in *.
  assert (E : NoDup (map fst e) /\ forall n v, In (n, v) e <-> current base evs0 n v).
  { destruct S0 as [[-> ->]| ->]; [|apply view_current; exact Nb]. split; [exact Nb|]. reflexivity. }
  destruct (collect st e) as [q|] eqn:C.
  - rewrite X in H. destruct i as [|i].
    + injection H as <-. exists e. split; [exact C|]. cbn. rewrite app_nil_r. exact E.
    + cbn [nth_error] in H. cbn [firstn concat]. rewrite app_assoc. apply IH with (s0 := Some (fold_left apply evs (match s0 with Some s => s | None => base end))); auto.
      right. rewrite fold_left_app. destruct S0 as [[-> ->]| ->]; reflexivity.
  - destruct i as [|i]; [|destruct i; discriminate]. injection H as <-. exists e. split; [exact C|]. cbn. rewrite app_nil_r. exact E.
Qed.

Lemma rounds_exact : forall st base l, In Repl st -> NoDup (map fst base) ->
  forall i r, nth_error (rounds isidentifier sess st base None l) i = Some (Some r) ->
  exists e d, (forall n v, In (n, v) e <-> current base (concat (firstn i l)) n v) /\
    collect_tools e = Some d /\ NoDup (map fst r) /\
    forall n o, In (n, o) r <-> offered st e d n o.
Proof.
  intros st base l HR Nb i r H.
  destruct (rounds_nth st base l None [] HR (or_introl (conj eq_refl eq_refl)) Nb i _ H) as (e & C & N & V).
  pose proof (collect_spec e N st) as S. rewrite C in S. destruct S as (d & D & Nr & O). exists e, d. auto.
Qed.

(** ** Quiet snippets *)
Definition toolish (x : string * value) : bool := match snd x with VOther _ => false | _ => true end.

Lemma gather_skip : forall e d, gather e d = gather (filter toolish e) d.
Proof.
  induction e as [|[n [t|a b|b]] e IH]; intros d; cbn [gather filter toolish snd]; [reflexivity|apply IH| |apply IH].
  destruct (scan_mro n a (mro a) d); [apply IH | reflexivity].
Qed.

Definition tame (base s : env) : Prop := forall n v, get n s = Some v ->
  match get n base with
  | Some w => toolish (n, w) = true /\ v = w \/ toolish (n, w) = false /\ toolish (n, v) = false
  | None => toolish (n, v) = false
  end.

Lemma tame_base : forall base, tame base base.
Proof.
  intros base n v H. rewrite H. destruct (toolish (n, v)) eqn:T; [left | right]; auto.
Qed.

Lemma tame_apply : forall base s ev, NoDup (map fst base) -> quiet base ev -> tame base s -> tame base (apply s ev).
Proof.
  intros base s ev Nb Q T n v H. rewrite get_apply in H. destruct ev as [m w|m].
  - destruct (String.eqb_spec m n) as [->|E]; [|now apply T]. injection H as ->.
    destruct Q as [[b ->] [Q1 Q2]]. destruct (get n base) as [x|] eqn:G; [|reflexivity].
    apply get_in in G; [|exact Nb]. destruct x as [t|a b'|b']; [destruct (Q1 _ G) | destruct (Q2 _ _ G) | right; auto].
  - destruct (String.eqb m n); [discriminate | now apply T].
Qed.

Lemma tame_after : forall base evs s, NoDup (map fst base) -> Forall (quiet base) evs -> tame base s -> tame base (fold_left apply evs s).
Proof.
  intros base evs s Nb Q; revert s; induction Q as [|ev evs Hq Q IH]; intros s T; cbn; [exact T|].
  apply IH. now apply tame_apply.
Qed.

Lemma tame_view : forall base s, NoDup (map fst base) -> NoDup (map fst s) -> tame base s ->
  filter toolish (view base s) = filter toolish base.
Proof.
  intros base s Nb Ns T. unfold view. rewrite filter_app.
  assert (A : filter toolish (map (fun x => match get (fst x) s with Some v => (fst x, v) | None => x end) base) = filter toolish base).
  { assert (B : forall x, In x base -> match get (fst x) s with
        | Some v => toolish x = true /\ (fst x, v) = x \/ toolish x = false /\ toolish (fst x, v) = false | None => True end).
    { intros [n w] I. cbn [fst]. destruct (get n s) as [v|] eqn:G; [|exact Logic.I].
      pose proof (T n v G) as H. apply get_in in I; [|exact Nb]. rewrite I in H.
      destruct H as [[H ->]|H]; [left; auto | right; exact H]. }
    clear T Nb. induction base as [|x base IH]; [reflexivity|]. cbn [map filter].
    rewrite IH by (intros y I; apply B; now right). specialize (B x (or_introl eq_refl)).
    destruct (get (fst x) s) as [v|]; [|reflexivity]. destruct B as [[H ->]|[H1 H2]]; [reflexivity | now rewrite H1, H2]. }
  rewrite A. rewrite <- (app_nil_r (filter toolish base)) at 2. f_equal.
  assert (B : forall x, In x s -> get (fst x) base = None -> toolish x = false).
  { intros [n v] I G. cbn [fst] in G. apply get_in in I; [|exact Ns]. pose proof (T n v I) as H. now rewrite G in H. }
  clear T A Ns. induction s as [|x s IH]; [reflexivity|]. cbn [filter].
  destruct (get (fst x) base) eqn:G; [apply IH; intros y I; apply B; now right|].
  cbn [filter]. rewrite (B x (or_introl eq_refl) G). apply IH. intros y I. apply B. now right.
Qed.

Lemma rounds_quiet : forall st base l s, NoDup (map fst base) -> In Repl st ->
  Forall (Forall (quiet base)) l -> ~ raising base -> unambiguous base -> one_name base ->
  (match s with Some s => NoDup (map fst s) /\ tame base s | None => True end) ->
  exists d, collect_tools base = Some d /\ length (rounds isidentifier sess st base s l) = length l /\
  forall i r, nth_error (rounds isidentifier sess st base s l) i = Some r ->
  exists q, r = Some q /\ forall n t, In (n, OTool t) q <->
    (n = "exec_code" /\ t = sess) \/ (n <> "exec_code" /\ In (n, t) d).
Proof.
  intros st base l s Nb HR Q NR U ON.
  destruct (collect_tools base) as [d|] eqn:Cb; [|exfalso; apply NR; now apply collect_raises].
  assert (X : existsb is_repl st = true) by (apply existsb_exists; exists Repl; auto).
  revert s. induction Q as [|evs l Hq Q IH]; intros s Hs.
  - exists d. split; [reflexivity|]. split; [reflexivity|]. intros [|i] r H; discriminate.
  - pose (e := match s with Some s => view base s | None => base end).
    assert (UE : rounds isidentifier sess st base s (evs :: l) =
      match collect st e with
      | None => [None]
      | Some r => Some r :: rounds isidentifier sess st base (Some (fold_left apply evs (match s with Some s => s | None => base end))) l
      end) by (cbn [rounds]; now rewrite X).
    rewrite UE. clear UE.
    assert (E : NoDup (map fst e) /\ filter toolish e = filter toolish base).
    { subst e. destruct s as [s|]; [|auto]. destruct Hs as [Ns T]. split; [now apply view_keys | now apply tame_view]. }
    destruct E as [Ne Fe].
    assert (Ce : collect_tools e = Some d).
    { rewrite <- Cb. unfold collect_tools. now rewrite (gather_skip e), Fe, <- (gather_skip base). }
    pose proof (collect_spec e Ne st) as Sp.
    destruct (collect st e) as [q|].
    + destruct Sp as (d' & C' & _ & O). rewrite Ce in C'. injection C' as <-.
      set (s1 := fold_left apply evs (match s with Some s => s | None => base end)).
      assert (H1 : NoDup (map fst s1) /\ tame base s1).
      { subst s1. destruct s as [s|].
        - destruct Hs as [Ns T]. split; [now apply nodup_after | now apply tame_after].
        - split; [now apply nodup_after | apply tame_after; [exact Nb | exact Hq | apply tame_base]]. }
      destruct (IH (Some s1) H1) as (d2 & D2 & L & R). injection D2 as <-.
      exists d. split; [reflexivity|]. split; [exact (f_equal S L)|].
      intros [|i] r H; [|now apply (R i)]. injection H as <-. exists q. split; [reflexivity|].
      intros n t. rewrite O. unfold OffSpec.offered. split.
      * intros [[_ [A B]]|[A [[u [B D]]|[B _]]]]; [injection B as ->; now left | | discriminate].
        injection B as <-. right. split; [intros ->; tauto | exact D].
      * intros [[-> ->]|[A B]]; [left; auto|]. right. split; [tauto | left; now exists t].
    + exfalso. destruct Sp as [S0|(n & t & d' & _ & I & _ & C' & NI)].
      * apply collect_raises in S0. congruence.
      * rewrite Ce in C'. injection C' as <-. apply (NI t).
        apply (proj1 (collect_exact base d U Cb)).
        assert (V : visible base n t).
        { apply vis_direct. assert (J : In (n, VTool t) (filter toolish e)) by (apply filter_In; auto).
          rewrite Fe in J. apply filter_In in J. tauto. }
        split; [exact V|]. intros m M. rewrite (ON m n t M V). apply le_refl.
Qed.

Lemma rounds_stable : forall st base l, NoDup (map fst base) -> In Repl st ->
  Forall (Forall (quiet base)) l -> ~ raising base -> unambiguous base -> one_name base ->
  exists d, collect_tools base = Some d /\ length (rounds isidentifier sess st base None l) = length l /\
  forall i r, nth_error (rounds isidentifier sess st base None l) i = Some r ->
  exists q, r = Some q /\ forall n t, In (n, OTool t) q <->
    (n = "exec_code" /\ t = sess) \/ (n <> "exec_code" /\ In (n, t) d).
Proof. intros. now apply rounds_quiet. Qed.
End Offers.

Lemma stacks_same : forall isidentifier sess st st' e r r', NoDup (map fst e) ->
  (forall l, In l st <-> In l st') ->
  collect isidentifier sess st e = Some r -> collect isidentifier sess st' e = Some r' ->
  forall n o, In (n, o) r <-> In (n, o) r'.
Proof.
  intros isidentifier sess st st' e r r' N L H H' n o.
  pose proof (collect_spec isidentifier sess e N st) as A. rewrite H in A.
  pose proof (collect_spec isidentifier sess e N st') as B. rewrite H' in B.
  destruct A as (d & C & _ & A). destruct B as (d' & C' & _ & B). rewrite C in C'. injection C' as <-.
  rewrite A, B. unfold offered. now rewrite (L Repl), (L Readers).
Qed.

Lemma rounds_alone : forall isidentifier sess st base l, ~ In Repl st -> NoDup (map fst base) ->
  forall i r, nth_error (rounds isidentifier sess st base None l) i = Some (Some r) ->
  exists d, collect_tools base = Some d /\ NoDup (map fst r) /\
    forall n o, In (n, o) r <-> OffSpec.offered isidentifier sess st base d n o.
Proof.
  intros isidentifier sess st base l NR Nb i r H.
  assert (X : existsb is_repl st = false).
  { destruct (existsb is_repl st) eqn:E; [|reflexivity]. apply existsb_exists in E.
    destruct E as (x & I & P). destruct x; [discriminate | contradiction]. }
  assert (C : OffModel.collect isidentifier sess st base = Some r).
  { revert i H. induction l as [|evs l IH]; intros i H; [destruct i; discriminate|].
    cbn [rounds] in H. destruct (OffModel.collect isidentifier sess st base) as [q|] eqn:E.
    - rewrite X in H. destruct i as [|i]; cbn [nth_error] in H; [injection H as ->; reflexivity | exact (IH _ H)].
    - destruct i as [|i]; [discriminate | destruct i; discriminate]. }
  pose proof (collect_spec isidentifier sess base Nb st) as P. rewrite C in P. exact P.
Qed.
