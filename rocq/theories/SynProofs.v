From Coq Require Import String Ascii List Bool Arith ZArith Lia.
Import ListNotations.
From Verif Require Import SynModel SynSpec.
Local Arguments String.eqb : simpl never.

(** ** Arguments *)
Lemma bind_args_takes : forall ps args, ordered ps -> ((exists l, bind_args ps args = Ok l) <-> takes ps (length args)).
Proof.
  induction ps as [|p ps IH]; intros args O.
  - cbn [bind_args]. split.
    + intros [l H]. destruct args; [|discriminate]. repeat split; cbn; auto; intros p [].
    + intros (A & _ & _). destruct A as [A|(p & [] & _)]. cbn in A. destruct args; [eexists; reflexivity|cbn in A; lia].
  - destruct O as [OV O]. cbn [bind_args].
    assert (POS : positional p = true -> takes (p :: ps) (length args) <-> match args with _ :: r => takes ps (length r) | [] => p_default p <> None /\ takes ps 0 end).
    { intros K. unfold takes. cbn [filter]. unfold positional in K. rewrite K. assert (K' : p_kind p = PosOnly \/ p_kind p = PosKw) by (destruct (p_kind p); auto; discriminate).
      destruct args as [|a args]; cbn [length skipn].
      - split.
        + intros (A & B & C). split; [apply B; left; auto|]. split; [left; lia|]. split; [intros q I; apply B; right; auto|intros q I; apply C; right; auto].
        + intros (D & A & B & C). split; [left; lia|]. split; [intros q [<-|I]; auto|]. intros q [<-|I] E; [destruct K' as [K'|K']; rewrite K' in E; discriminate|auto].
      - split.
        + intros (A & B & C). split; [|split; [auto|intros q I; apply C; right; auto]]. destruct A as [A|(q & [<-|I] & E)]; [left; lia| |right; eauto].
          destruct K' as [K'|K']; rewrite K' in E; discriminate.
        + intros (A & B & C). split; [|split; [auto|]]. { destruct A as [A|(q & I & E)]; [left; lia|right; exists q; split; auto; right; auto]. }
          intros q [<-|I] E; [destruct K' as [K'|K']; rewrite K' in E; discriminate|auto]. }
    assert (BIND : forall r x v, (exists l, bind r (fun l : env => Ok ((x, v) :: l)) = Ok l) <-> exists l : env, r = Ok l).
    { intros r x v. split; intros [l H]; [destruct r; [eauto|discriminate]|subst; eexists; reflexivity]. }
    destruct (p_kind p) eqn:K.
    1,2: rewrite POS by (unfold positional; rewrite K; auto); destruct args as [|a args]; [|rewrite BIND; apply IH; auto];
         (destruct (p_default p) as [z|]; [rewrite BIND, IH by auto; cbn [length]; split; [intros H; split; [discriminate|auto]|intros [_ H]; auto]|split; [intros [l H]; discriminate|intros [H _]; congruence]]).
    + rewrite BIND, IH by auto. unfold takes. cbn [filter length]. rewrite K.
      assert (E : filter (fun p : param => match p_kind p with PosOnly | PosKw => true | _ => false end) ps = []).
      { destruct (filter _ ps) as [|q l] eqn:F; auto. exfalso. assert (I : In q (filter (fun p : param => match p_kind p with PosOnly | PosKw => true | _ => false end) ps)) by (rewrite F; left; auto).
        apply filter_In in I as [I E]. apply (OV eq_refl q I). unfold plain. destruct (p_kind q); auto; discriminate. }
      rewrite E. rewrite !skipn_nil. split; intros (A & B & C).
      * split; [right; exists p; split; auto; left; auto|]. split; auto. intros q [<-|I] KQ; [congruence|auto].
      * split; [left; lia|]. split; auto. intros q I. apply C. right; auto.
    + assert (E : takes (p :: ps) (length args) <-> p_default p <> None /\ takes ps (length args)).
      { unfold takes. cbn [filter]. rewrite K. split.
        - intros (A & B & C). split; [apply C; auto; left; auto|]. split; [|split; [auto|intros q I; apply C; right; auto]]. destruct A as [A|(q & [<-|I] & KQ)]; auto; [congruence|right; eauto].
        - intros (D & A & B & C). split; [|split; auto]. { destruct A as [A|(q & I & KQ)]; auto. right. exists q. split; auto. right; auto. } intros q [<-|I]; auto. }
      rewrite E. destruct (p_default p) as [z|]; [|split; [intros [l H]; discriminate|intros [H _]; congruence]]. rewrite BIND, IH by auto.
      split; [intros H; split; [discriminate|auto]|intros [_ H]; auto].
    + rewrite BIND, IH by auto. unfold takes. cbn [filter]. rewrite K. split; intros (A & B & C).
      * split; [|split; auto]. { destruct A as [A|(q & I & KQ)]; auto. right. exists q. split; auto. right; auto. } intros q [<-|I] KQ; [congruence|auto].
      * split; [|split; [auto|intros q I; apply C; right; auto]]. destruct A as [A|(q & [<-|I] & KQ)]; auto; [congruence|right; eauto].
Qed.
Lemma plain_args : forall ps args, Forall plain ps -> length args = length ps -> bind_args ps args = Ok (combine (map p_name ps) args).
Proof.
  induction ps as [|p ps IH]; intros args F L; destruct args as [|a args]; cbn in L; try lia; auto. inversion F as [|? ? P F']; subst.
  cbn [bind_args map combine]. rewrite IH by (auto; lia). destruct P as [P|P]; rewrite P; reflexivity.
Qed.
Lemma all_plain : forall ps, length (filter positional ps) = length ps -> Forall plain ps.
Proof.
  assert (LE : forall ps, length (filter positional ps) <= length ps) by (induction ps as [|p ps IH]; cbn; auto; destruct (positional p); cbn; lia).
  induction ps as [|p ps IH]; intros L; constructor.
  - cbn [filter] in L. unfold plain. unfold positional in L at 1. specialize (LE ps). destruct (p_kind p); auto; cbn [length] in L; lia.
  - apply IH. cbn [filter] in L. specialize (LE ps). destruct (positional p); cbn [length] in L; lia.
Qed.
Lemma plain_all : forall ps, Forall plain ps -> length (filter positional ps) = length ps.
Proof.
  induction 1 as [|p ps P F IH]; auto. cbn [filter]. unfold positional at 1. destruct P as [P|P]; rewrite P; cbn [length]; rewrite IH; reflexivity.
Qed.
Lemma plain_ordered : forall ps, Forall plain ps -> ordered ps.
Proof. induction 1 as [|p ps P F IH]; cbn; auto. split; auto. intros E. destruct P as [P|P]; congruence. Qed.
Lemma plain_takes : forall ps, Forall plain ps -> takes ps (length ps).
Proof.
  intros ps F. pose proof (repeat_length VNone (length ps)) as L. rewrite <- L at 1. apply bind_args_takes; [apply plain_ordered; auto|]. eexists. apply plain_args; auto.
Qed.

(** ** Decoding *)
Lemma last_app : forall l s, last_stmt (l ++ [s]) = Some s.
Proof. intros l s. unfold last_stmt. rewrite rev_app_distr. reflexivity. Qed.
Lemma last_inv : forall l s, last_stmt l = Some s -> exists l', l = l' ++ [s].
Proof.
  intros l s. unfold last_stmt. destruct (rev l) as [|x r] eqn:E; [discriminate|]. intros [= ->]. exists (rev r). rewrite <- (rev_involutive l), E. reflexivity.
Qed.

Section Prims.
Variable prim : nat -> list Z -> option Z.
Lemma exec_app : forall fuel st l l' g, exec prim fuel st g (l ++ l') = bind (exec prim fuel st g l) (fun g' => exec prim fuel st g' l').
Proof.
  intros fuel st l l'. induction l as [|s l IH]; intros g; auto. cbn [app exec]. destruct (exec1 prim fuel st g s) as [g'|e]; cbn [bind]; auto.
Qed.

Lemma validate_inv : forall fuel check t st ctx c v st', validate prim fuel check t st ctx (ICode c) = Ok (v, st') ->
  exists expected l d g, t = Typed expected RType /\ c = Code l /\ last_stmt l = Some (SDef d) /\ f_async d = false /\ validate_ast d expected = Ok tt /\
    check l = Ok tt /\ exec prim fuel st (filter (fun p => isidentifier (fst p)) ctx) l = Ok g /\ get g (f_name d) = Some v /\ callable v = true /\
    validate_callable v expected = Ok tt /\ st' = st ++ [g].
Proof.
  intros fuel check t st ctx c v st' H. cbn [validate] in H. destruct t as [|expected []]; try discriminate. destruct c as [l|]; [|discriminate].
  destruct (last_stmt l) as [[d| | | | |]|] eqn:LL; try discriminate. destruct (f_async d) eqn:A; [discriminate|].
  destruct (validate_ast d expected) as [[]|] eqn:VA; [|discriminate]. cbn [bind] in H. destruct (check l) as [[]|] eqn:CK; [|discriminate]. cbn [bind] in H.
  destruct (exec prim fuel st _ l) as [g|] eqn:EX; [|discriminate]. cbn [bind] in H. destruct (get g (f_name d)) as [w|] eqn:G; [|discriminate].
  destruct (callable w) eqn:CW; [|discriminate]. destruct (validate_callable w expected) as [[]|] eqn:VC; [|discriminate]. cbn [bind] in H. injection H as <- <-.
  exists expected, l, d, g. auto 15.
Qed.
Lemma decoded_signature : forall fuel check n st ctx c v st', validate prim fuel check (Typed (Some n) RType) st ctx (ICode c) = Ok (v, st') ->
  callable v = true /\ exists ps, signature v = Some (ps, true) /\ length ps = n.
Proof.
  intros fuel check n st ctx c v st' H. apply validate_inv in H as (ex & l & d & g & E & _ & _ & _ & _ & _ & _ & _ & CV & VC & _). injection E as <-. split; auto.
  unfold validate_callable in VC. destruct (signature v) as [[ps a]|]; [|discriminate]. destruct (Nat.eqb_spec (length ps) n); [|discriminate]. destruct a; [|discriminate]. eauto.
Qed.
Lemma get_put_same : forall A (l : list (string * A)) x v, get (put l x v) x = Some v.
Proof. intros. unfold put. cbn [get]. rewrite String.eqb_refl. reflexivity. Qed.
Lemma last_def : forall fuel st g l d g', exec prim fuel st g l = Ok g' -> last_stmt l = Some (SDef d) -> f_decorators d = [] -> get g' (f_name d) = Some (VFun (length st) [] d).
Proof.
  intros fuel st g l d g' E LL ND. apply last_inv in LL as [l' ->]. rewrite exec_app in E. destruct (exec prim fuel st g l') as [g1|]; [|discriminate].
  cbn [bind exec exec1] in E. rewrite ND in E. cbn [decorate bind] in E. injection E as <-. apply get_put_same.
Qed.
Lemma decoded : forall fuel check n st ctx l d v st', validate prim fuel check (Typed (Some n) RType) st ctx (ICode (Code l)) = Ok (v, st') ->
  last_stmt l = Some (SDef d) -> f_decorators d = [] ->
  v = VFun (length st) [] d /\ takes (f_params d) n /\
  forall k args, length args = n -> call prim (S k) st' v args = eval prim k st' (length st) (combine (map p_name (f_params d)) args) (f_body d).
Proof.
  intros fuel check n st ctx l d v st' H LL ND. apply validate_inv in H as (ex & l' & d' & g & E & EL & LL' & A & VA & CK & EX & G & CV & VC & ->).
  injection E as <-. injection EL as <-. assert (d' = d) as -> by congruence. pose proof (last_def _ _ _ _ _ _ EX LL ND) as G'. assert (v = VFun (length st) [] d) as -> by congruence.
  cbn [validate_ast] in VA. destruct (Nat.eqb_spec (length (filter positional (f_params d))) n) as [LP|]; [|discriminate].
  unfold validate_callable in VC. cbn [signature] in VC. destruct (Nat.eqb_spec (length (f_params d)) n) as [LN|]; [|discriminate].
  assert (P : Forall plain (f_params d)) by (apply all_plain; congruence). split; auto. split; [rewrite <- LN; apply plain_takes; auto|].
  intros k args L. cbn [call]. rewrite plain_args by (auto; congruence). cbn [bind]. rewrite A, app_nil_r. reflexivity.
Qed.
Lemma decodes : forall fuel check expected st ctx l d g, last_stmt l = Some (SDef d) -> f_decorators d = [] -> f_async d = false -> f_returns d = true ->
  Forall plain (f_params d) -> (forall n, expected = Some n -> length (f_params d) = n) -> check l = Ok tt ->
  exec prim fuel st (filter (fun p => isidentifier (fst p)) ctx) l = Ok g ->
  validate prim fuel check (Typed expected RType) st ctx (ICode (Code l)) = Ok (VFun (length st) [] d, st ++ [g]).
Proof.
  intros fuel check expected st ctx l d g LL ND A RT P EN CK EX. cbn [validate]. rewrite LL, A.
  assert (VA : validate_ast d expected = Ok tt).
  { destruct expected as [n|]; auto. cbn [validate_ast]. rewrite plain_all, (EN n), Nat.eqb_refl by auto. reflexivity. }
  rewrite VA. cbn [bind]. rewrite CK. cbn [bind]. rewrite EX. cbn [bind]. rewrite (last_def _ _ _ _ _ _ EX LL ND). cbn [callable].
  assert (VC : validate_callable (VFun (length st) [] d) expected = Ok tt).
  { unfold validate_callable. cbn [signature]. rewrite RT. destruct expected as [n|]; auto. rewrite (EN n), Nat.eqb_refl by auto. reflexivity. }
  rewrite VC. reflexivity.
Qed.
End Prims.

(** ** The copy of a function does what the function does *)
Lemma get_app : forall A (l l' : list (string * A)) x, get (l ++ l') x = match get l x with Some v => Some v | None => get l' x end.
Proof. induction l as [|[y v] l IH]; intros l' x; cbn [app get]; auto. destruct (String.eqb y x); auto. Qed.
Lemma get_in : forall A (l : list (string * A)) x v, get l x = Some v -> In (x, v) l.
Proof.
  induction l as [|[y w] l IH]; intros x v; cbn [get]; [discriminate|]. destruct (String.eqb_spec y x) as [->|]; [intros [= ->]; left; auto|right; auto].
Qed.
Lemma get_filter : forall A (l : list (string * A)) x, isidentifier x = true -> get (filter (fun p => isidentifier (fst p)) l) x = get l x.
Proof.
  induction l as [|[y w] l IH]; intros x H; auto. cbn [filter fst]. destruct (isidentifier y) eqn:E; cbn [get].
  - destruct (String.eqb y x); auto.
  - destruct (String.eqb_spec y x) as [->|]; [congruence|auto].
Qed.

Section Copy.
Variable prim : nat -> list Z -> option Z.
Variables (st : store) (mo : nat) (clo : env) (d : fdef) (g : env).
Let N := length st.
Let st' := st ++ [g].
Hypothesis store_closed : closed_store st.
Hypothesis original_closed : closed N (VFun mo clo d).
Hypothesis seen : forall x, free (f_body d) x -> ~ In x (map p_name (f_params d)) ->
  match sees st mo clo x, get g x with
  | Some v, Some v' => same (VFun mo clo d) (VFun N [] d) v v'
  | None, None => True
  | _, _ => False
  end.

Definition rel (v v' : val) : Prop := same (VFun mo clo d) (VFun N [] d) v v' /\ closed N v.
Definition rel_res (r r' : res val) : Prop := match r, r' with Ok v, Ok v' => rel v v' | Err e, Err e' => e = e' | _, _ => False end.
Lemma rel_refl : forall v, closed N v -> rel v v.
Proof. intros v H. split; auto. constructor. Qed.
Lemma bind_rel : forall r r' f f', rel_res r r' -> (forall v v', rel v v' -> rel_res (f v) (f' v')) -> rel_res (bind r f) (bind r' f').
Proof. intros [v|e] [v'|e'] f f' H K; cbn in *; auto; contradiction. Qed.

Lemma rel_truthy : forall v v', rel v v' -> truthy v = truthy v'.
Proof. intros v v' [S _]. destruct S as [v| |l l' F]; auto. destruct F; reflexivity. Qed.
Lemma rel_ints : forall l l', Forall2 rel l l' -> ints l = ints l'.
Proof.
  induction 1 as [|v v' l l' [S _] F IH]; auto. destruct S as [v| |a b Fab]; cbn [ints]; try reflexivity. rewrite IH. reflexivity.
Qed.

Definition related_env (l l' : env) : Prop := Forall2 (fun p p' => fst p = fst p' /\ rel (snd p) (snd p')) l l'.
Lemma related_get : forall l l' x, related_env l l' -> match get l x, get l' x with Some v, Some v' => rel v v' | None, None => True | _, _ => False end.
Proof. induction 1 as [|[y v] [y' v'] l l' [E R] F IH]; cbn [get]; auto. cbn [fst snd] in *. subst y'. destruct (String.eqb y x); auto. Qed.
Lemma related_args : forall ps args args', Forall2 rel args args' ->
  match bind_args ps args, bind_args ps args' with Ok l, Ok l' => related_env l l' /\ map fst l = map p_name ps | Err e, Err e' => e = e' | _, _ => False end.
Proof.
  assert (TUP : forall l l', Forall2 rel l l' -> rel (VTuple l) (VTuple l')).
  { intros l l' F. split; constructor; [|]; induction F as [|a b l l' [A B] F IH]; constructor; auto. }
  induction ps as [|p ps IH]; intros args args' F.
  - cbn [bind_args]. destruct F; auto. split; auto. constructor.
  - cbn [bind_args]. assert (K : forall a a' v v', Forall2 rel a a' -> rel v v' ->
      match bind (bind_args ps a) (fun l => Ok ((p_name p, v) :: l)), bind (bind_args ps a') (fun l => Ok ((p_name p, v') :: l)) with
      | Ok l, Ok l' => related_env l l' /\ map fst l = map p_name (p :: ps) | Err e, Err e' => e = e' | _, _ => False end).
    { intros a a' v v' Fa R. specialize (IH a a' Fa). destruct (bind_args ps a), (bind_args ps a'); cbn [bind]; auto. destruct IH as [A B]. split; [constructor; auto|].
      cbn [map fst]. rewrite B. reflexivity. }
    destruct (p_kind p).
    1,2: destruct F as [|a a' args args' R F]; [destruct (p_default p); [apply K; [constructor|apply rel_refl; constructor]|reflexivity]|apply K; auto].
    + apply K; [constructor|auto].
    + destruct (p_default p); [apply K; auto; apply rel_refl; constructor|reflexivity].
    + apply K; auto. apply rel_refl. constructor.
Qed.

(** Where variables of an expression have related values. *)
Definition lookup (s : store) (m : nat) (loc : env) (x : string) : option val := match get loc x with Some v => Some v | None => get (globals s m) x end.
Definition agree (e : expr) (m : nat) (loc : env) (m' : nat) (loc' : env) : Prop :=
  forall x, free e x -> match lookup st m loc x, lookup st' m' loc' x with Some v, Some v' => rel v v' | None, None => True | _, _ => False end.

Lemma globals_old : forall m, m < N -> globals st' m = globals st m.
Proof. intros m H. unfold globals, st'. apply app_nth1. exact H. Qed.
Lemma globals_new : globals st' N = g.
Proof. unfold globals, st'. rewrite app_nth2 by (unfold N; lia). unfold N. rewrite Nat.sub_diag. reflexivity. Qed.
Lemma globals_closed : forall m x v, get (globals st m) x = Some v -> closed N v.
Proof.
  intros m x v H. unfold globals in H. destruct (Nat.lt_ge_cases m (length st)) as [L|L].
  - eapply store_closed; [|exact H]. apply nth_In. auto.
  - rewrite nth_overflow in H by lia. discriminate.
Qed.
Lemma closure_closed : forall (cl : env) x v, Forall (fun p => closed N (snd p)) cl -> get cl x = Some v -> closed N v.
Proof. intros cl x v F G. apply get_in in G. rewrite Forall_forall in F. apply (F _ G). Qed.

Lemma body_agrees : forall e l l' m cl, related_env l l' -> m < N -> Forall (fun p => closed N (snd p)) cl -> agree e m (l ++ cl) m (l' ++ cl).
Proof.
  intros e l l' m cl R L F x _. unfold lookup. rewrite !get_app, globals_old by auto. pose proof (related_get l l' x R) as G.
  destruct (get l x), (get l' x); try contradiction; auto. destruct (get cl x) eqn:C; [apply rel_refl; eapply closure_closed; eauto|].
  destruct (get (globals st m) x) eqn:GG; auto. apply rel_refl. eapply globals_closed; eauto.
Qed.
Lemma copy_agrees : forall l l', related_env l l' -> map fst l = map p_name (f_params d) -> agree (f_body d) mo (l ++ clo) N (l' ++ []).
Proof.
  intros l l' R ML x FX. unfold lookup. rewrite !get_app, globals_new. pose proof (related_get l l' x R) as G. destruct (get l x) eqn:GL, (get l' x); try contradiction; auto.
  cbn [get]. assert (NI : ~ In x (map p_name (f_params d))).
  { rewrite <- ML. clear - GL. induction l as [|[y v] l IH]; [intros []|]. cbn [get] in GL. destruct (String.eqb_spec y x); [discriminate|]. intros [E|I]; [contradiction|exact (IH GL I)]. }
  specialize (seen x FX NI). unfold sees in seen. assert (CC : Forall (fun p => closed N (snd p)) clo) by (inversion original_closed; auto).
  destruct (get clo x) eqn:C; [destruct (get g x); [|contradiction]; split; auto; eapply closure_closed; eauto|].
  destruct (get (globals st mo) x) eqn:GG, (get g x); auto. split; auto. eapply globals_closed; eauto.
Qed.

Lemma free_arg : forall a l x, In a l -> free a x -> (fix go (l : list expr) : Prop := match l with [] => False | a :: l' => free a x \/ go l' end) l.
Proof. induction l as [|b l IH]; intros x I F; [destruct I|]. destruct I as [->|I]; [left; exact F|right; apply (IH x I F)]. Qed.
Lemma simulated : forall k,
  (forall e m loc m' loc', agree e m loc m' loc' -> rel_res (eval prim k st m loc e) (eval prim k st' m' loc' e)) /\
  (forall f f' args args', rel f f' -> Forall2 rel args args' -> rel_res (call prim k st f args) (call prim k st' f' args')).
Proof.
  induction k as [|k [IE IC]]; [split; intros; reflexivity|]. split.
  - intros e m loc m' loc' A. destruct e as [z| |x|c a b|f args]; cbn [eval].
    + apply rel_refl. constructor.
    + apply rel_refl. constructor.
    + specialize (A x eq_refl). unfold lookup in A. destruct (get loc x), (get loc' x); cbn; auto; destruct (get (globals st m) x), (get (globals st' m') x); cbn; auto; contradiction.
    + apply bind_rel; [apply IE; intros x F; apply A; cbn; auto|]. intros v v' R. rewrite (rel_truthy v v' R).
      destruct (truthy v'); apply IE; intros x F; apply A; cbn; auto.
    + apply bind_rel; [apply IE; intros x F; apply A; cbn; auto|]. intros v v' R.
      assert (AE : forall l, (forall a, In a l -> agree a m loc m' loc') ->
        match each (eval prim k st m loc) l, each (eval prim k st' m' loc') l with Ok vs, Ok vs' => Forall2 rel vs vs' | Err e, Err e' => e = e' | _, _ => False end).
      { induction l as [|a l IHl]; intros Al; cbn [each]; [constructor|]. pose proof (IE a m loc m' loc' (Al a (or_introl eq_refl))) as Ra.
        destruct (eval prim k st m loc a), (eval prim k st' m' loc' a); cbn in Ra |- *; try contradiction; auto.
        specialize (IHl (fun b I => Al b (or_intror I))). destruct (each (eval prim k st m loc) l), (each (eval prim k st' m' loc') l); cbn [bind]; try contradiction; auto. }
      specialize (AE args). destruct (each (eval prim k st m loc) args) as [vs|], (each (eval prim k st' m' loc') args) as [vs'|]; cbn [bind];
        try (apply IC; auto; apply AE); try (cbn; apply AE); try (exfalso; apply AE); intros a I x F; apply A; cbn; right; eapply free_arg; eauto.
  - intros f f' args args' [SF CF] FA. cbn [call].
    assert (RUN : forall ps m cl m' cl' body (async : bool) as1 as2, Forall2 rel as1 as2 ->
      (forall l l', related_env l l' -> map fst l = map p_name ps -> agree body m (l ++ cl) m' (l' ++ cl')) ->
      rel_res (bind (bind_args ps as1) (fun l => if async then Ok VCoroutine else eval prim k st m (l ++ cl) body))
              (bind (bind_args ps as2) (fun l => if async then Ok VCoroutine else eval prim k st' m' (l ++ cl') body))).
    { intros ps m cl m' cl' body async as1 as2 F AG. pose proof (related_args ps as1 as2 F) as RA. destruct (bind_args ps as1), (bind_args ps as2); cbn [bind]; try contradiction; auto.
      destruct RA as [RA ML]. destruct async; [apply rel_refl; constructor|]. apply IE. apply AG; auto. }
    destruct SF as [f| |l l' F].
    + destruct f as [| | | |m cl df|self m cl df|na do sg cd|x ps| |]; try reflexivity.
      * inversion CF; subst. apply RUN; auto. intros l l' R _. apply body_agrees; auto.
      * inversion CF; subst. apply RUN; [constructor; auto; apply rel_refl; auto|]. intros l l' R _. apply body_agrees; auto.
      * rewrite (rel_ints args args' FA). destruct (ints args'); [|reflexivity]. destruct (prim cd l); [apply rel_refl; constructor|reflexivity].
      * pose proof (related_args ps args args' FA) as RA. destruct (bind_args ps args), (bind_args ps args'); cbn [bind]; try contradiction; auto. apply rel_refl. constructor.
    + apply RUN; auto. intros l l' R ML. apply copy_agrees; auto.
    + reflexivity.
Qed.
End Copy.

Lemma round_trip : forall prim fuel check st m cl d expected ctx, closed_store st -> closed (length st) (VFun m cl d) ->
  f_lambda d = false -> f_async d = false -> f_decorators d = [] -> f_returns d = true -> Forall plain (f_params d) ->
  (forall n, expected = Some n -> length (f_params d) = n) -> check [SDef d] = Ok tt ->
  (forall x, free (f_body d) x -> ~ In x (map p_name (f_params d)) ->
     if String.eqb x (f_name d) then sees st m cl x = Some (VFun m cl d) else isidentifier x = true /\ get ctx x = sees st m cl x) ->
  exists src v st', serialize (VFun m cl d) = Ok src /\ validate prim fuel check (Typed expected RType) st ctx (ICode src) = Ok (v, st') /\
    forall k args, Forall (closed (length st)) args -> same_result (VFun m cl d) v (call prim k st (VFun m cl d) args) (call prim k st' v args).
Proof.
  intros prim fuel check st m cl d expected ctx CS CF FL FA FD FR FP EN CK SEE.
  set (g := put (filter (fun p => isidentifier (fst p)) ctx) (f_name d) (VFun (length st) [] d)).
  exists (Code [SDef d]), (VFun (length st) [] d), (st ++ [g]). split; [unfold serialize; cbn; rewrite FL; reflexivity|]. split.
  - apply decodes; auto. cbn [exec exec1]. rewrite FD. cbn [decorate bind]. reflexivity.
  - intros k args CA. destruct (simulated prim st m cl d g CS CF) with (k := k) as [_ H].
    + intros x FX NI. specialize (SEE x FX NI). destruct (String.eqb_spec x (f_name d)) as [EQ|NE].
      * rewrite SEE. unfold g. rewrite EQ. rewrite get_put_same. apply S_copy.
      * destruct SEE as [ID GC]. unfold g, put. cbn [get]. destruct (String.eqb_spec (f_name d) x); [congruence|]. rewrite get_filter, GC by auto.
        destruct (sees st m cl x); auto. apply S_eq.
    + assert (H' : rel_res st m cl d (call prim k st (VFun m cl d) args) (call prim k (st ++ [g]) (VFun (length st) [] d) args)).
      { apply H; [split; [apply S_copy|auto]|]. clear - CA. induction CA; constructor; auto. apply rel_refl. auto. }
      clear H. unfold same_result, rel_res in *. destruct (call prim k st (VFun m cl d) args), (call prim k (st ++ [g]) (VFun (length st) [] d) args); auto. apply H'.
Qed.

(** Letters and the underscore *)
Lemma letter_chars c : letter c = true <-> In c (list_ascii_of_string "ABCDEFGHIJKLMNOPQRSTUVWXYZ_abcdefghijklmnopqrstuvwxyz").
Proof.
  split.
  - destruct c as [[] [] [] [] [] [] [] []]; intro H; try (vm_compute in H; discriminate H); cbn; repeat (try (left; reflexivity); right).
  - cbn. intros H. repeat (destruct H as [<-|H]; [reflexivity|]). destruct H.
Qed.
Lemma digit_chars c : digit c = true <-> In c (list_ascii_of_string "0123456789").
Proof.
  split.
  - destruct c as [[] [] [] [] [] [] [] []]; intro H; try (vm_compute in H; discriminate H); cbn; repeat (try (left; reflexivity); right).
  - cbn. intros H. repeat (destruct H as [<-|H]; [reflexivity|]). destruct H.
Qed.
Lemma rest_chars s : rest_ok s = true <-> forall c, In c (list_ascii_of_string s) -> In c (list_ascii_of_string "ABCDEFGHIJKLMNOPQRSTUVWXYZ_abcdefghijklmnopqrstuvwxyz0123456789").
Proof.
  assert (J : forall c, letter c || digit c = true <-> In c (list_ascii_of_string "ABCDEFGHIJKLMNOPQRSTUVWXYZ_abcdefghijklmnopqrstuvwxyz0123456789")).
  { intros c. change (list_ascii_of_string "ABCDEFGHIJKLMNOPQRSTUVWXYZ_abcdefghijklmnopqrstuvwxyz0123456789") with
      (list_ascii_of_string "ABCDEFGHIJKLMNOPQRSTUVWXYZ_abcdefghijklmnopqrstuvwxyz" ++ list_ascii_of_string "0123456789").
    rewrite in_app_iff, orb_true_iff, letter_chars, digit_chars. reflexivity. }
  induction s as [|c s IH]; [split; [intros _ c []|reflexivity]|]. cbn [rest_ok list_ascii_of_string]. rewrite andb_true_iff, J, IH. split.
  - intros [H1 H2] c' [<-|H]; auto.
  - intros H. split; [apply H; now left|intros c' Hc; apply H; now right].
Qed.
Lemma identifier_chars s : isidentifier s = true <-> exists c r, s = String c r /\
  In c (list_ascii_of_string "ABCDEFGHIJKLMNOPQRSTUVWXYZ_abcdefghijklmnopqrstuvwxyz") /\
  forall c, In c (list_ascii_of_string r) -> In c (list_ascii_of_string "ABCDEFGHIJKLMNOPQRSTUVWXYZ_abcdefghijklmnopqrstuvwxyz0123456789").
Proof.
  destruct s as [|c r]; cbn [isidentifier]; [split; [discriminate|intros (c & r & H & _); discriminate]|].
  rewrite andb_true_iff, letter_chars, rest_chars. split.
  - intros [H1 H2]. exists c, r. auto.
  - intros (c' & r' & E & H1 & H2). injection E as -> ->. auto.
Qed.
