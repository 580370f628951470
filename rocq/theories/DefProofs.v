(** Lemmas about [define]. *)
From Coq Require Import String List Bool Arith Lia.
From Verif Require Import ColModel ColSpec ColProofs ColLaws DefModel DefSpec.
Import ListNotations.
Local Open Scope list_scope.

Section Def.
Variable keyeq : val -> val -> bool.
Variable hash_term : nat -> bool.
Variable binds : nat -> list val -> kwargs -> list nat.
Variable fits : nat -> list val -> kwargs -> bool.
Hypothesis Heq : equality keyeq.
Notation collect := (collect binds).
Notation define := (define keyeq hash_term binds).
Notation defines := (defines keyeq hash_term binds).
Notation invoke := (invoke keyeq hash_term fits).
Notation term := (term keyeq hash_term fits).
Notation ev := (evaluate keyeq hash_term same (fun x => x)).

(** Collecting *)
Lemma through_id l s : Forall (fun v => forall s, collect v s = s) l -> through collect l s = s.
Proof. intros H. revert s. induction H as [|v l Hv _ IH]; intros s; cbn; [reflexivity|]. now rewrite Hv, IH. Qed.
Lemma throughS_id {K} (l : list (K * val)) s : Forall (fun v => forall s, collect v s = s) (map snd l) -> throughS collect l s = s.
Proof.
  revert s. induction l as [|[k v] l IH]; intros s H; cbn; [reflexivity|]. inversion H as [|x y Hv Hl]; subst. now rewrite Hv, IH.
Qed.
Lemma throughP_id l s : Forall (fun v => forall s, collect v s = s) (map fst l) -> Forall (fun v => forall s, collect v s = s) (map snd l) ->
  throughP collect l s = s.
Proof.
  revert s. induction l as [|[a b] l IH]; intros s H G; cbn; [reflexivity|]. inversion H as [|x y Hv Hl]; subst.
  inversion G as [|x y Hw Hm]; subst. now rewrite Hv, Hw, IH.
Qed.
Lemma decide v : hasterm v \/ (forall s, collect v s = s).
Proof.
  assert (Hl : forall l, Forall (fun v => hasterm v \/ (forall s, collect v s = s)) l -> Exists hasterm l \/ Forall (fun v => forall s, collect v s = s) l).
  { induction 1 as [|x l [Hx|Hx] _ IH]; [right; constructor|left; now constructor|].
    destruct IH as [IH|IH]; [left; now apply Exists_cons_tl|right; now constructor]. }
  induction v as [n|s|x|o args kw IHa IHk|k l IH|k l IHk IHv|k l IH|l IH|l IHk IHv|l IH|c fs IH|l] using val_all; try (right; reflexivity).
  - left. constructor.
  - destruct (Hl _ IH) as [H|H]; [left; now constructor|right; intros s; now apply through_id].
  - destruct (Hl _ IHk) as [H|H]; [left; now apply h_key|]. destruct (Hl _ IHv) as [G|G]; [left; now apply h_value|].
    right. intros s. now apply throughP_id.
  - destruct (Hl _ IH) as [H|H]; [left; now constructor|right; intros s; now apply through_id].
  - destruct (Hl _ IHk) as [H|H]; [left; now apply h_ikey|]. destruct (Hl _ IHv) as [G|G]; [left; now apply h_ivalue|].
    right. intros s. now apply throughP_id.
  - destruct (Hl _ IH) as [H|H]; [left; now constructor|right; intros s; now apply through_id].
  - destruct (Hl _ IH) as [H|H]; [left; now constructor|right; intros s; now apply throughS_id].
Qed.
Lemma decide_list l : Exists hasterm l \/ Forall (fun v => forall s, collect v s = s) l.
Proof.
  induction l as [|x l [IH|IH]]; [right; constructor|left; now apply Exists_cons_tl|].
  destruct (decide x) as [H|H]; [left; now constructor|right; now constructor].
Qed.
Hypothesis Hsane : sane binds.
Definition finds (v : val) : Prop := hasterm v -> forall s, collect v s <> [].
Lemma through_finds l s : Forall finds l -> Exists hasterm l -> through collect l s <> [].
Proof.
  intros H. revert s. induction H as [|v l Hv _ IH]; intros s E; [inversion E|]. cbn.
  destruct (decide_list l) as [G|G]; [now apply IH|]. rewrite (through_id l _ G). apply Hv.
  inversion E as [x y Hx|x y Hx]; subst; [exact Hx|]. exfalso.
  assert (F : through collect l [] <> []) by now apply IH. rewrite (through_id l _ G) in F. now apply F.
Qed.
Lemma throughS_map {K} (l : list (K * val)) s : throughS collect l s = through collect (map snd l) s.
Proof. revert s. induction l as [|[k v] l IH]; intros s; cbn; [reflexivity|apply IH]. Qed.
Definition flat (l : list (val * val)) : list val := flat_map (fun p => [fst p; snd p]) l.
Lemma throughP_map l s : throughP collect l s = through collect (flat l) s.
Proof. revert s. induction l as [|[a b] l IH]; intros s; cbn; [reflexivity|apply IH]. Qed.
Lemma flat_forall (P : val -> Prop) l : Forall P (map fst l) -> Forall P (map snd l) -> Forall P (flat l).
Proof. induction l as [|[a b] l IH]; cbn; intros H G; [constructor|]. inversion H; inversion G; subst. auto. Qed.
Lemma flat_exists (P : val -> Prop) l : Exists P (map fst l) \/ Exists P (map snd l) -> Exists P (flat l).
Proof.
  induction l as [|[a b] l IH]; cbn; intros [H|H]; inversion H; subst; auto.
Qed.
Lemma collect_finds v : finds v.
Proof.
  induction v as [n|s|x|o args kw IHa IHk|k l IH|k l IHk IHv|k l IH|l IH|l IHk IHv|l IH|c fs IH|l] using val_all;
    intros Ht s'; inversion Ht; subst; cbn [DefModel.collect].
  - cbn [filter]. destruct (existsb (Nat.eqb o) (binds o args kw)) eqn:E; cbn; [|discriminate].
    exfalso. apply existsb_exists in E. destruct E as (y & Hy & E). apply Nat.eqb_eq in E. subst y. now apply (Hsane o args kw).
  - now apply through_finds.
  - rewrite throughP_map. apply through_finds; [now apply flat_forall|now apply flat_exists; left].
  - rewrite throughP_map. apply through_finds; [now apply flat_forall|now apply flat_exists; right].
  - now apply through_finds.
  - rewrite throughP_map. apply through_finds; [now apply flat_forall|now apply flat_exists; left].
  - rewrite throughP_map. apply through_finds; [now apply flat_forall|now apply flat_exists; right].
  - now apply through_finds.
  - rewrite throughS_map. now apply through_finds.
Qed.
Lemma no_terms v : ~ hasterm v -> forall s, collect v s = s.
Proof. intros H. destruct (decide v) as [G|G]; [contradiction|exact G]. Qed.

(** Evaluating ordinary arguments *)
Lemma ev_args args kw : ordinary keyeq hash_term args kw -> mapO ev args = Ok args /\ mapS ev kw = Ok kw.
Proof.
  intros H. unfold ordinary in H. rewrite Forall_app in H. destruct H as [H G].
  assert (Hs : forall v, plain v /\ proper keyeq hash_term v -> ev v = Ok v).
  { intros v [H1 H2]. apply (evaluate_self keyeq hash_term Heq); [|exact H1|exact H2]. left. now split. }
  split.
  - clear G. induction H as [|v l Hv _ IH]; cbn; [reflexivity|]. now rewrite (Hs v Hv), IH.
  - clear H. induction kw as [|[k v] l IH]; cbn; [reflexivity|]. inversion G as [|x y Hv Hl]; subst.
    now rewrite (Hs v Hv), (IH Hl).
Qed.
Lemma fvsof_ordinary args kw : ordinary keyeq hash_term args kw ->
  exists fv, fvsof keyeq hash_term binds args kw = Ok fv /\ (fv = [] <-> ~ with_term args kw).
Proof.
  intros H. destruct (ev_args args kw H) as [E1 E2]. unfold fvsof. rewrite E1. cbn [andthen]. rewrite E2. cbn [andthen].
  eexists. split; [reflexivity|]. rewrite throughS_map.
  assert (Happ : forall l m s, through collect m (through collect l s) = through collect (l ++ m) s).
  { induction l as [|x l IH]; intros m s; cbn; [reflexivity|apply IH]. }
  rewrite Happ. unfold with_term. destruct (decide_list (args ++ map snd kw)) as [G|G].
  - split.
    + intros E. exfalso. revert E. apply through_finds; [|exact G]. apply Forall_forall. intros v _. apply collect_finds.
    + intros N. contradiction.
  - split; [|intros _; now apply through_id]. intros _ N.
    assert (F : through collect (args ++ map snd kw) [] <> []).
    { apply through_finds; [|exact N]. apply Forall_forall. intros v _. apply collect_finds. }
    rewrite (through_id _ _ G) in F. now apply F.
Qed.
Lemma term_ordinary o s args kw : osig o = Some s -> fitting fits s args kw = true -> ordinary keyeq hash_term args kw ->
  term o args kw = Ok (Trm (oid o) args kw).
Proof.
  intros Es Hf H. unfold DefModel.term, free. rewrite Es, Hf. destruct (ev_args args kw H) as [E1 E2].
  rewrite E1. cbn [andthen]. rewrite E2. reflexivity.
Qed.

(** Built-in functions *)
Lemma builtin_calls next n s f name o next' args kw : define next (Builtin n s f) name = Ok (o, next') ->
  ordinary keyeq hash_term args kw -> ~ with_term args kw -> f args kw <> NotHandled -> invoke o args kw = f args kw.
Proof.
  intros E H Hn Hh. cbn in E. unfold make in E. destruct (named name (Some n)) as [x|]; [|discriminate]. injection E as <- <-.
  unfold DefModel.invoke. cbn [orule]. unfold guarded. destruct (fvsof_ordinary args kw H) as (fv & Ef & Hf).
  rewrite Ef. cbn [andthen]. rewrite (proj2 Hf Hn).
  destruct (f args kw) as [a| | |[|m]] eqn:E2; try reflexivity. now exfalso.
Qed.
Lemma builtin_term next n s f name o next' args kw : define next (Builtin n (Some s) f) name = Ok (o, next') ->
  ordinary keyeq hash_term args kw -> with_term args kw -> fitting fits s args kw = true ->
  invoke o args kw = Ok (Trm (oid o) args kw).
Proof.
  intros E H Hn Hf. cbn in E. unfold make in E. destruct (named name (Some n)) as [x|]; [|discriminate]. injection E as <- <-.
  unfold DefModel.invoke. cbn [orule]. unfold guarded. destruct (fvsof_ordinary args kw H) as (fv & Ef & Hfv).
  rewrite Ef. cbn [andthen]. destruct fv as [|y fv]; [exfalso; now apply (proj1 Hfv eq_refl)|]. unfold NotHandled. cbv beta iota.
  now apply (term_ordinary _ s).
Qed.
(** A term of a built-in function, evaluated when everything inside becomes a value *)
Lemma builtin_later next n s f name o next' call ren args kw args' ws :
  define next (Builtin n s f) name = Ok (o, next') ->
  (forall a k, call (oid o) a k = invoke o a k) ->
  plain (Trm (oid o) args kw) -> settled keyeq hash_term call ren (Trm (oid o) args kw) ->
  Forall2 (becomes keyeq hash_term call ren) args args' -> Forall2 (becomes keyeq hash_term call ren) (map snd kw) ws ->
  ordinary keyeq hash_term args' (combine (map fst kw) ws) -> ~ with_term args' (combine (map fst kw) ws) ->
  forall w, f args' (combine (map fst kw) ws) = Ok w -> evaluate keyeq hash_term call ren (Trm (oid o) args kw) = Ok w.
Proof.
  intros E Hc Hp Hs F1 F2 Ho Hn w Ef. apply (evaluate_iff keyeq hash_term Heq call ren _ Hp Hs).
  apply (b_term _ _ _ _ _ _ _ args' ws); [exact F1|exact F2|]. rewrite Hc.
  rewrite (builtin_calls next n s f name o next' args' _ E Ho Hn); [exact Ef|]. rewrite Ef. discriminate.
Qed.

(** Functions *)
Lemma function_calls next n s f name o next' args kw : define next (Function n s f) name = Ok (o, next') ->
  f args kw <> NotHandled -> invoke o args kw = f args kw.
Proof.
  intros E Hh. cbn in E. unfold make in E. destruct (named name n) as [x|]; [|discriminate]. injection E as <- <-.
  unfold DefModel.invoke. cbn [orule]. destruct (f args kw) as [a| | |[|m]] eqn:E2; try reflexivity. now exfalso.
Qed.
Lemma function_term next n s f name o next' args kw : define next (Function n (Some s) f) name = Ok (o, next') ->
  f args kw = NotHandled -> ordinary keyeq hash_term args kw -> fitting fits s args kw = true ->
  invoke o args kw = Ok (Trm (oid o) args kw).
Proof.
  intros E Hh Ho Hf. cbn in E. unfold make in E. destruct (named name n) as [x|]; [|discriminate]. injection E as <- <-.
  unfold DefModel.invoke. cbn [orule]. rewrite Hh. unfold NotHandled. cbv beta iota. now apply (term_ordinary _ s).
Qed.
(** Variables *)
Lemma variable next n t name o next' : define next (Typ (Some n) t) name = Ok (o, next') ->
  osig o = Some (Nullary t) /\ invoke o [] [] = Ok (Trm (oid o) [] []) /\
  forall args kw, (args <> [] \/ kw <> []) -> invoke o args kw = TypeError.
Proof.
  intros E. cbn in E. unfold make in E. destruct (named name (Some n)) as [x|]; [|discriminate]. injection E as <- <-.
  split; [reflexivity|]. split; [reflexivity|]. intros args kw H. unfold DefModel.invoke, DefModel.term. cbn.
  destruct args as [|a args]; [destruct kw as [|k kw]|]; [destruct H; contradiction|reflexivity|reflexivity].
Qed.
Lemma named_some name n : exists x, named name (Some n) = Some x.
Proof. destruct name as [[|a s]|]; cbn; eauto. Qed.
Lemma variable_made next n t name : exists o, define next (Typ (Some n) t) name = Ok (o, S next).
Proof. destruct (named_some name n) as [x E]. cbn. rewrite E. cbn. eauto. Qed.

(** Identities *)
Lemma make_id next n s f o next' : make next n s f = Ok (o, next') -> oid o = next /\ next' = S next.
Proof. unfold make. destruct n; [|discriminate]. intros E. now injection E as <- <-. Qed.
Lemma define_id next d name o next' : define next d name = Ok (o, next') -> oid o = next /\ next' = S next.
Proof. destruct d as [n s f|n s f|[n|] t|o'|]; cbn; try discriminate; apply make_id. Qed.
Lemma defines_above next l : Forall (fun o => next <= oid o) (defines next l).
Proof.
  revert next. induction l as [|[d n] l IH]; intros next; cbn; [constructor|].
  destruct (define next d n) as [[o next']| | |] eqn:E; try apply IH.
  apply define_id in E. destruct E as [E1 E2]. subst. constructor; [lia|]. eapply Forall_impl; [|apply IH]. cbn. intros o' H. lia.
Qed.
Lemma defines_fresh next l : NoDup (map oid (defines next l)) /\ forall o, oid o < next -> ~ In (oid o) (map oid (defines next l)).
Proof.
  split.
  - revert next. induction l as [|[d n] l IH]; intros next; cbn; [constructor|].
    destruct (define next d n) as [[o next']| | |] eqn:E; try apply IH.
    apply define_id in E. destruct E as [E1 E2]. cbn. constructor; [|apply IH]. intros Hin. apply in_map_iff in Hin.
    destruct Hin as (o' & E3 & Hin). pose proof (defines_above next' l) as G. rewrite Forall_forall in G. specialize (G o' Hin). lia.
  - intros o Ho Hin. apply in_map_iff in Hin. destruct Hin as (o' & E3 & Hin).
    pose proof (defines_above next l) as G. rewrite Forall_forall in G. specialize (G o' Hin). lia.
Qed.

(** Copies of copies *)
Notation copies := (copies keyeq hash_term binds).
Lemma copies_same names : forall next o, oid o < next -> exists o', copies next o names = Ok o' /\
  oname o' = last_name (oname o) names /\ osig o' = osig o /\
  (names <> [] -> next <= oid o' /\ forall args kw, orule o' args kw = NotHandled).
Proof.
  induction names as [|n l IH]; intros next o Ho; cbn [DefModel.copies].
  - exists o. now repeat split.
  - cbn. destruct (named_some n (oname o)) as [x E]. rewrite E. cbn.
    destruct (IH (S next) (Op next x (osig o) no_rule)) as (o' & E1 & E2 & E3 & E4); [cbn; lia|].
    exists o'. split; [exact E1|]. split; [|split; [exact E3|]].
    + rewrite E2. cbn. destruct n as [[|a s]|]; cbn in E; injection E as <-; reflexivity.
    + intros _. destruct l as [|n' l].
      * cbn in E1. injection E1 as <-. cbn. split; [lia|reflexivity].
      * destruct E4 as [E5 E6]; [discriminate|]. split; [lia|exact E6].
Qed.
Lemma copies_term names next o s o' args kw : oid o < next -> names <> [] -> copies next o names = Ok o' -> osig o = Some s ->
  fitting fits s args kw = true -> ordinary keyeq hash_term args kw -> invoke o' args kw = Ok (Trm (oid o') args kw) /\ oid o' <> oid o.
Proof.
  intros Hlt Hn E Es Hf Ho. destruct (copies_same names next o Hlt) as (o2 & E2 & _ & E3 & E4). rewrite E in E2.
  injection E2 as <-. destruct (E4 Hn) as [Hid Hr]. split; [|lia]. unfold DefModel.invoke. rewrite Hr. unfold NotHandled. cbv beta iota.
  apply (term_ordinary _ s); congruence || assumption.
Qed.
End Def.

(** What does not work *)
Definition yes (c : nat) (args : list val) (kw : kwargs) : bool := true.
Definition nothing (o : nat) (args : list val) (kw : kwargs) : list nat := [].
Definition total : rule := fun args kw =>
  match args with [Seq _ [Num a; Num b; Num c]] => Ok (Num (a + b + c)) | [Sets _ l] => Ok (Num (length l)) | _ => TypeError end.
Lemma union_refuted : exists t, forall keyeq hash_term binds next name, define keyeq hash_term binds next (Typ None t) name = AttributeError /\
  define keyeq hash_term binds next (Typ None t) name <> NotHandled /\ define keyeq hash_term binds next (Typ None t) name <> NotImplementedError.
Proof. exists 0. intros. split; [reflexivity|]. split; discriminate. Qed.
Lemma nameless_refuted : exists s f, forall keyeq hash_term binds next,
  define keyeq hash_term binds next (Function None (Some s) f) None = AttributeError /\
  exists o, define keyeq hash_term binds next (Function None (Some s) f) (Some "f"%string) = Ok (o, S next).
Proof. exists (Code 0), total. intros. split; [reflexivity|]. eexists. reflexivity. Qed.
Lemma signature_refuted : exists f args o next', ordinary by_code hashes args [] /\
  define by_code hashes nothing 3 (Builtin "max"%string None f) None = Ok (o, next') /\
  invoke by_code hashes yes o args [] = ValueError.
Proof.
  exists total, [Trm 1 [] []; Num 1]. eexists. eexists. split; [|split; [reflexivity|reflexivity]].
  constructor; [|constructor; [|constructor]]; split; repeat constructor.
Qed.
Lemma range_op_refuted : exists f args o next', Forall inert args /\
  define by_code hashes nothing 3 (Builtin "sum"%string (Some (Code 0)) f) None = Ok (o, next') /\
  f args [] = Ok (Num 3) /\ invoke by_code hashes yes o args [] = TypeError.
Proof.
  exists total, [Seq KRange [Num 0; Num 1; Num 2]]. eexists. eexists.
  split; [|split; [reflexivity|split; reflexivity]]. constructor; [|constructor]. constructor. repeat constructor.
Qed.
Lemma set_op_refuted : exists f args o next', ordinary by_code hashes args [] /\
  args = [Sets KSet [Trm 0 [] []; Trm 1 [] []]] /\
  define by_code hashes nothing 3 (Builtin "len"%string (Some (Code 0)) f) None = Ok (o, next') /\
  invoke by_code hashes yes o args [] = Ok (Num 2) /\
  (forall k, fives 0 [] k = Ok (Num 5) /\ fives 1 [] k = Ok (Num 5)).
Proof.
  exists total. eexists. eexists. eexists. split; [|split; [reflexivity|split; [reflexivity|split; [reflexivity|now split]]]].
  constructor; [|constructor]. split; [repeat constructor|]. constructor; [repeat constructor|split; [repeat constructor|reflexivity]].
Qed.
