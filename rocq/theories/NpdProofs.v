(** Proofs about NumPyro distributions as terms. *)
From Coq Require Import String ZArith List Bool Arith Lia.
From Verif Require Import NpdModel NpdSpec.
Import ListNotations.
Local Open Scope string_scope.
Local Open Scope list_scope.

Section All.
Variable P : val -> Prop.
Variables (hn : P Null) (hz : forall z, P (Num z)) (ht : forall s, P (Txt s)) (ha : forall n, P (Arr n))
  (hr : forall c attrs opts, Forall (fun k => P (snd k)) attrs -> P (Raw c attrs opts))
  (htm : forall c args kw, Forall P args -> Forall (fun k => P (snd k)) kw -> P (Tm c args kw)).
Fixpoint val_all (v : val) : P v :=
  let fix many l : Forall P l := match l with [] => Forall_nil _ | x :: l' => Forall_cons x (val_all x) (many l') end in
  let fix keys l : Forall (fun k : string * val => P (snd k)) l :=
    match l with [] => Forall_nil _ | (n, x) :: l' => Forall_cons (n, x) (val_all x : P (snd (n, x))) (keys l') end in
  match v with
  | Null => hn | Num z => hz z | Txt s => ht s | Arr n => ha n
  | Raw c attrs opts => hr c attrs opts (keys attrs)
  | Tm c args kw => htm c args kw (many args) (keys kw)
  end.
End All.

Lemma mem_In a l : mem a l = true <-> In a l.
Proof.
  unfold mem. rewrite existsb_exists. split; [intros [x [H E]]; apply String.eqb_eq in E; now subst|intros H; exists a; split; [assumption|apply String.eqb_refl]].
Qed.
Lemma mem_notIn a l : mem a l = false <-> ~ In a l.
Proof. rewrite <- mem_In. destruct (mem a l); split; congruence. Qed.
Lemma get_In {B} (l : list (string * B)) a v : get l a = Some v -> In (a, v) l.
Proof. induction l as [|[n x] l IH]; [discriminate|]. cbn. destruct (String.eqb_spec n a) as [->|_]; intros H; [injection H as ->; now left|right; now apply IH]. Qed.
Lemma get_notIn {B} (l : list (string * B)) a : ~ In a (map fst l) -> get l a = None.
Proof. induction l as [|[n x] l IH]; [reflexivity|]. cbn. intros H. destruct (String.eqb_spec n a) as [->|_]; [tauto|]. apply IH. tauto. Qed.
Lemma get_filter {B} (q : string -> bool) (l : list (string * B)) a : q a = true -> get (filter (fun k => q (fst k)) l) a = get l a.
Proof.
  intros Q. induction l as [|[n x] l IH]; [reflexivity|]. cbn. destruct (String.eqb_spec n a) as [->|N].
  - rewrite Q. cbn. now rewrite String.eqb_refl.
  - destruct (q n); [cbn; destruct (String.eqb_spec n a); [contradiction|]|]; exact IH.
Qed.
Lemma andthen_ok {A B} (o : outcome A) (f : A -> outcome B) b : andthen o f = Ok b -> exists a, o = Ok a /\ f a = Ok b.
Proof. destruct o; cbn; intros H; try discriminate. now exists a. Qed.

(** Binding *)
Lemma fill_app ps qs kw : fill (ps ++ qs) kw = andthen (fill ps kw) (fun vs => andthen (fill qs kw) (fun ws => Ok (vs ++ ws))).
Proof.
  induction ps as [|[n d] ps IH]; [cbn; now destruct (fill qs kw)|]. cbn [app fill]. destruct (match get kw n with Some v => Some v | None => d end); [|reflexivity].
  rewrite IH. destruct (fill ps kw); try reflexivity. cbn. now destruct (fill qs kw).
Qed.
Lemma fill_length ps kw vs : fill ps kw = Ok vs -> length vs = length ps.
Proof.
  revert vs. induction ps as [|[n d] ps IH]; intros vs H; [injection H as <-; reflexivity|]. cbn [fill] in H. destruct (match get kw n with Some v => Some v | None => d end); [|discriminate].
  apply andthen_ok in H. destruct H as [ws [E H]]. injection H as <-. cbn. f_equal. now apply IH.
Qed.
Lemma fill_outcome ps kw : (exists vs, fill ps kw = Ok vs) \/ fill ps kw = TypeError.
Proof.
  induction ps as [|[n d] ps IH]; [left; now exists []|]. cbn [fill]. destruct (match get kw n with Some v => Some v | None => d end); [|now right].
  destruct IH as [[vs ->] | ->]; [left; now eexists|now right].
Qed.
Lemma fill_ext ps kw kw' : (forall n, In n (map fst ps) -> get kw n = get kw' n) -> fill ps kw = fill ps kw'.
Proof.
  induction ps as [|[n d] ps IH]; intros H; [reflexivity|]. cbn [fill]. rewrite (H n) by now left. destruct (match get kw' n with Some v => Some v | None => d end); [|reflexivity].
  now rewrite IH by (intros k Hk; apply H; now right).
Qed.
Lemma bind_length ps pos kw vs ex : bind ps pos kw = Ok (vs, ex) -> length vs = length ps /\ ex = others ps kw.
Proof.
  unfold bind. destruct (Nat.ltb_spec (length ps) (length pos)) as [|L]; [discriminate|]. destruct (existsb _ kw); [discriminate|]. intros H.
  apply andthen_ok in H. destruct H as [ws [E H]]. injection H as <- <-. split; [|reflexivity]. rewrite app_length, (fill_length _ _ _ E), skipn_length. lia.
Qed.
Lemma bind_outcome ps pos kw : (exists b, bind ps pos kw = Ok b) \/ bind ps pos kw = TypeError.
Proof.
  unfold bind. destruct (Nat.ltb _ _); [now right|]. destruct (existsb _ kw); [now right|].
  destruct (fill_outcome (skipn (length pos) ps) kw) as [[vs ->] | ->]; [left; now eexists|now right].
Qed.
Lemma others_out ps kw k : In k (map fst (others ps kw)) -> ~ In k (map fst ps).
Proof.
  unfold others. intros H. apply in_map_iff in H. destruct H as [x [<- H]]. apply filter_In in H. destruct H as [_ H]. apply negb_true_iff in H. now apply mem_notIn.
Qed.
Lemma others_same ps kw : (forall k, In k (map fst kw) -> ~ In k (map fst ps)) -> others ps kw = kw.
Proof.
  intros H. unfold others. induction kw as [|k kw IH]; [reflexivity|]. cbn. destruct (mem (fst k) (map fst ps)) eqn:E.
  - apply mem_In in E. exfalso. apply (H (fst k)); [now left|assumption].
  - cbn. f_equal. apply IH. intros x Hx. apply H. now right.
Qed.
Lemma others_none ps kw : incl (map fst kw) (map fst ps) -> others ps kw = [].
Proof.
  intros H. unfold others. induction kw as [|k kw IH]; [reflexivity|]. cbn. replace (mem (fst k) (map fst ps)) with true.
  - cbn. apply IH. intros x Hx. apply H. now right.
  - symmetry. apply mem_In, H. now left.
Qed.
(** A full list of arguments with other keywords binds to itself. *)
Lemma bind_full ps vs kw : length vs = length ps -> (forall k, In k (map fst kw) -> ~ In k (map fst ps)) -> bind ps vs kw = Ok (vs, kw).
Proof.
  intros L H. unfold bind. rewrite L, Nat.ltb_irrefl, firstn_all, skipn_all. cbn [fill andthen]. rewrite app_nil_r, others_same by assumption.
  replace (existsb _ kw) with false; [reflexivity|]. symmetry. apply not_true_iff_false. intros E. apply existsb_exists in E. destruct E as [k [Hk E]].
  apply mem_In in E. eapply H; [apply in_map; eassumption|assumption].
Qed.
Lemma others_steps ps qs kw : others (ps ++ qs) (others ps kw) = others (ps ++ qs) kw.
Proof.
  unfold others. induction kw as [|k kw IH]; [reflexivity|]. cbn [filter]. destruct (mem (fst k) (map fst ps)) eqn:E; cbn [negb filter].
  - rewrite IH. replace (mem (fst k) (map fst (ps ++ qs))) with true; [reflexivity|]. symmetry. apply mem_In. rewrite map_app. apply in_or_app. left. now apply mem_In.
  - rewrite IH. reflexivity.
Qed.
(** Binding in two steps: what the operation binds, the library's longer signature binds the same. *)
Lemma bind_steps ps qs pos kw vs ex : NoDup (map fst (ps ++ qs)) -> bind ps pos kw = Ok (vs, ex) -> bind (ps ++ qs) pos kw = bind (ps ++ qs) vs ex.
Proof.
  intros ND B. destruct (bind_length _ _ _ _ _ B) as [LV ->]. revert B. unfold bind. rewrite !app_length. destruct (Nat.ltb_spec (length ps) (length pos)) as [|L]; [discriminate|].
  destruct (Nat.ltb_spec (length ps + length qs) (length pos)); [lia|]. rewrite LV. destruct (Nat.ltb_spec (length ps + length qs) (length ps)); [lia|].
  rewrite firstn_app. replace (length pos - length ps) with 0 by lia. rewrite firstn_O, app_nil_r. rewrite firstn_app, Nat.sub_diag, firstn_O, firstn_all, app_nil_r.
  destruct (existsb (fun k : string * val => mem (fst k) (map fst (firstn (length pos) ps))) kw); [discriminate|]. intros B. apply andthen_ok in B. destruct B as [ws [E B]]. injection B as <-.
  replace (existsb (fun k : string * val => mem (fst k) (map fst ps)) (others ps kw)) with false.
  2:{ symmetry. apply not_true_iff_false. intros X. apply existsb_exists in X. destruct X as [k [Hk X]]. apply mem_In in X. apply (others_out ps kw (fst k)); [now apply in_map|assumption]. }
  rewrite !skipn_app. replace (length pos - length ps) with 0 by lia. rewrite Nat.sub_diag, skipn_all. cbn [skipn app]. rewrite fill_app, E. cbn [andthen].
  assert (D : forall n, In n (map fst qs) -> ~ In n (map fst ps)).
  { intros n Hq Hp. rewrite map_app in ND. clear - Hq Hp ND. induction (map fst ps) as [|x l IH]; [assumption|]. cbn in ND. apply NoDup_cons_iff in ND. destruct ND as [N1 N2].
    destruct Hp as [->|Hp]; [apply N1, in_or_app; now right|now apply IH]. }
  rewrite (fill_ext qs (others ps kw) kw).
  2:{ intros n Hn. apply (get_filter (fun a => negb (mem a (map fst ps)))). apply negb_true_iff, mem_notIn. now apply D. }
  destruct (fill qs kw); try reflexivity. cbn [andthen]. rewrite app_assoc. do 2 f_equal.
  now rewrite others_steps.
Qed.
Lemma bind_longer ps qs pos kw : length pos <= length ps -> bind ps pos kw = TypeError -> bind (ps ++ qs) pos kw = TypeError.
Proof.
  intros L. unfold bind. rewrite !app_length. destruct (Nat.ltb_spec (length ps) (length pos)); [lia|]. destruct (Nat.ltb_spec (length ps + length qs) (length pos)); [reflexivity|].
  rewrite firstn_app. replace (length pos - length ps) with 0 by lia. rewrite firstn_O, app_nil_r. destruct (existsb _ kw); [reflexivity|].
  rewrite skipn_app. replace (length pos - length ps) with 0 by lia. cbn [skipn]. rewrite fill_app. destruct (fill_outcome (skipn (length pos) ps) kw) as [[vs ->] | ->]; [discriminate|reflexivity].
Qed.

(** Mapping *)
Lemma mapO_app f a b : mapO f (a ++ b) = andthen (mapO f a) (fun x => andthen (mapO f b) (fun y => Ok (x ++ y))).
Proof. induction a as [|v a IH]; cbn; [now destruct (mapO f b)|]. destruct (f v); try reflexivity. cbn. rewrite IH. destruct (mapO f a); try reflexivity. cbn. now destruct (mapO f b). Qed.
Lemma mapO_length f l m : mapO f l = Ok m -> length m = length l.
Proof.
  revert m. induction l as [|v l IH]; intros m H; [injection H as <-; reflexivity|]. cbn in H. apply andthen_ok in H. destruct H as [w [_ H]]. apply andthen_ok in H. destruct H as [ws [E H]].
  injection H as <-. cbn. f_equal. now apply IH.
Qed.
Lemma mapK_names f l m : mapK f l = Ok m -> map fst m = map fst l.
Proof.
  revert m. induction l as [|[n v] l IH]; intros m H; [injection H as <-; reflexivity|]. cbn in H. apply andthen_ok in H. destruct H as [w [_ H]]. apply andthen_ok in H. destruct H as [ws [E H]].
  injection H as <-. cbn. f_equal. now apply IH.
Qed.
Lemma mapK_get f l m a : mapK f l = Ok m -> match get l a with Some v => exists w, get m a = Some w /\ f v = Ok w | None => get m a = None end.
Proof.
  revert m. induction l as [|[n v] l IH]; intros m H; [injection H as <-; reflexivity|]. cbn in H. apply andthen_ok in H. destruct H as [w [W H]]. apply andthen_ok in H. destruct H as [ws [E H]].
  injection H as <-. cbn. destruct (String.eqb n a); [exists w; now split|now apply IH].
Qed.
Lemma mapK_filter f (q : string -> bool) l m : mapK f l = Ok m -> mapK f (filter (fun k => q (fst k)) l) = Ok (filter (fun k => q (fst k)) m).
Proof.
  revert m. induction l as [|[n v] l IH]; intros m H; [injection H as <-; reflexivity|]. cbn in H. apply andthen_ok in H. destruct H as [w [W H]]. apply andthen_ok in H. destruct H as [ws [E H]].
  injection H as <-. cbn. destruct (q n); [cbn; rewrite W; cbn; now rewrite (IH _ E)|now apply IH].
Qed.
Lemma mapK_combine f ns l m : mapO f l = Ok m -> mapK f (combine ns l) = Ok (combine ns m).
Proof.
  revert ns m. induction l as [|v l IH]; intros ns m H.
  - injection H as <-. now destruct ns.
  - cbn in H. apply andthen_ok in H. destruct H as [w [W H]]. apply andthen_ok in H. destruct H as [ws [E H]]. injection H as <-. destruct ns as [|n ns]; [reflexivity|]. cbn. rewrite W. cbn.
    now rewrite (IH ns _ E).
Qed.
Lemma mapK_combine_inv f ns l m : length l <= length ns -> mapK f (combine ns l) = Ok m -> exists l', mapO f l = Ok l' /\ m = combine ns l'.
Proof.
  revert ns m. induction l as [|v l IH]; intros [|n ns] m L H; cbn in *; try lia.
  - injection H as <-. now exists [].
  - injection H as <-. now exists [].
  - apply andthen_ok in H. destruct H as [w [W H]]. apply andthen_ok in H. destruct H as [ws [E H]]. injection H as <-. destruct (IH ns ws) as [l' [Q ->]]; [lia|assumption|].
    exists (w :: l'). rewrite W. cbn. rewrite Q. split; reflexivity.
Qed.
Section Denote.
Variable f : val -> outcome val.
Definition fixed (ps : list (string * option val)) : Prop := forall n d, In (n, Some d) ps -> f d = Ok d.
Lemma fill_map ps kw mkw : fixed ps -> mapK f kw = Ok mkw ->
  match fill ps kw with Ok vs => exists ms, mapO f vs = Ok ms /\ fill ps mkw = Ok ms | _ => fill ps mkw = TypeError end.
Proof.
  intros F K. induction ps as [|[n d] ps IH]; [exists []; now split|]. cbn [fill]. assert (G := mapK_get f kw mkw n K).
  assert (IH' := IH (fun m x H => F m x (or_intror H))). clear IH. destruct (get kw n) as [v|].
  - destruct G as [w [-> W]]. destruct (fill_outcome ps kw) as [[vs E] | E]; rewrite E in *; cbn [andthen].
    + destruct IH' as [ms [M Q]]. exists (w :: ms). cbn. rewrite W. cbn. rewrite M, Q. split; reflexivity.
    + now rewrite IH'.
  - rewrite G. destruct d as [d|]; [|reflexivity]. assert (D := F n d (or_introl eq_refl)). destruct (fill_outcome ps kw) as [[vs E] | E]; rewrite E in *; cbn [andthen].
    + destruct IH' as [ms [M Q]]. exists (d :: ms). cbn. rewrite D. cbn. rewrite M, Q. split; reflexivity.
    + now rewrite IH'.
Qed.
Lemma bind_map ps pos kw mpos mkw : fixed ps -> mapO f pos = Ok mpos -> mapK f kw = Ok mkw ->
  match bind ps pos kw with
  | Ok (vs, ex) => exists ms mex, mapO f vs = Ok ms /\ mapK f ex = Ok mex /\ bind ps mpos mkw = Ok (ms, mex)
  | _ => bind ps mpos mkw = TypeError
  end.
Proof.
  intros F O K. unfold bind. rewrite (mapO_length _ _ _ O). destruct (Nat.ltb _ _); [reflexivity|].
  replace (existsb (fun k : string * val => mem (fst k) (map fst (firstn (length pos) ps))) mkw) with (existsb (fun k : string * val => mem (fst k) (map fst (firstn (length pos) ps))) kw).
  2:{ assert (N := mapK_names _ _ _ K). clear - N. revert mkw N. induction kw as [|k kw IH]; intros [|m mkw] N; try discriminate; [reflexivity|]. cbn in N |- *. injection N as -> N. f_equal. now apply IH. }
  destruct (existsb _ kw); [reflexivity|]. assert (M := fill_map (skipn (length pos) ps) kw mkw). destruct (fill_outcome (skipn (length pos) ps) kw) as [[vs E] | E]; rewrite E in *; cbn [andthen].
  - destruct M as [ms [M Q]]; [|assumption|]; [intros n d H; apply (F n d); rewrite <- (firstn_skipn (length pos) ps); apply in_or_app; now right|].
    exists (mpos ++ ms), (others ps mkw). rewrite mapO_app, O. cbn. rewrite M, Q. cbn. split; [reflexivity|]. split; [|reflexivity]. now apply (mapK_filter f (fun a => negb (mem a (map fst ps)))).
  - rewrite M; [reflexivity| |assumption]. intros n d H. apply (F n d). rewrite <- (firstn_skipn (length pos) ps). apply in_or_app. now right.
Qed.
End Denote.

(** Reading back *)
Lemma get_combine_In (ns : list string) (vs : list val) a v : get (combine ns vs) a = Some v -> In v vs.
Proof. intros H. apply get_In in H. now apply in_combine_r in H. Qed.
Lemma read_prefix ns ms vs ws l : NoDup (l ++ ns ++ ms) -> length vs = length ns ->
  forall us, length us = length l -> read (combine (l ++ ns ++ ms) (us ++ vs ++ ws)) ns = Ok vs.
Proof.
  revert l vs. induction ns as [|n ns IH]; intros l [|v vs] ND L us LU; try discriminate; [reflexivity|]. cbn [read].
  assert (G : get (combine (l ++ (n :: ns) ++ ms) (us ++ (v :: vs) ++ ws)) n = Some v).
  { clear IH. revert us LU. induction l as [|x l IHl]; intros [|u us] LU; try discriminate; cbn.
    - now rewrite String.eqb_refl.
    - cbn in ND. apply NoDup_cons_iff in ND. destruct ND as [N1 N2]. destruct (String.eqb_spec x n) as [->|_]; [exfalso; apply N1; apply in_or_app; right; now left|].
      apply IHl; [assumption|now injection LU]. }
  rewrite G. specialize (IH (l ++ [n]) vs). rewrite <- app_assoc in IH. specialize (IH ND). injection L as L. specialize (IH L (us ++ [v])).
  rewrite <- app_assoc in IH. cbn [app] in IH |- *. rewrite IH; [reflexivity|]. rewrite !app_length. cbn. lia.
Qed.
Lemma read_all ns vs : NoDup ns -> length vs = length ns -> read (combine ns vs) ns = Ok vs.
Proof. intros ND L. assert (H := read_prefix ns [] vs [] []). cbn [app] in H. rewrite !app_nil_r in H. now apply (H ND L []). Qed.
Lemma req_names l : map fst (map req l) = l.
Proof. rewrite map_map. cbn. apply map_id. Qed.

(** What the proofs use of the tables *)
Definition same (a b : list string) : bool := if list_eq_dec string_dec a b then true else false.
Definition data (v : val) : bool := match v with Raw _ _ _ | Tm _ _ _ => false | _ => true end.
Definition dflt (p : string * option val) : bool := match snd p with Some v => data v | None => true end.
Fixpoint nodup (l : list string) : bool := match l with [] => true | a :: l' => negb (mem a l') && nodup l' end.
Definition eqv (a b : val) : bool := match a, b with Null, Null => true | Num x, Num y => Z.eqb x y | Txt s, Txt t => String.eqb s t | _, _ => false end.
Definition eqp (p q : string * option val) : bool :=
  String.eqb (fst p) (fst q) && match snd p, snd q with None, None => true | Some a, Some b => eqv a b | _, _ => false end.
Fixpoint prefix (a b : list (string * option val)) : bool :=
  match a, b with [], _ => true | x :: a', y :: b' => eqp x y && prefix a' b' | _, _ => false end.
Definition shaped (e : entry) : bool :=
  let ns := map fst (params e) in
  same (init e) ns && same (up e) ns && same (passed e) ns && nodup ns && forallb dflt (params e) && forallb (fun a => mem a ns) (sets e).
Definition matches (e : entry) : bool :=
  match get constructors (cls e) with
  | Some (ps, _) => prefix (params e) ps && nodup (map fst ps) && forallb dflt ps &&
                    forallb (fun p : string * option val => match snd p with Some _ => true | None => false end) (skipn (length (params e)) ps) &&
                    implb (by_matrix (cls e)) (Nat.eqb (length (params e)) 4 && Nat.eqb (length ps) 4)
  | None => false
  end.
Lemma nodup_ok l : nodup l = true -> NoDup l.
Proof. induction l as [|a l IH]; intros H; constructor; cbn in H; apply andb_prop in H; destruct H as [H1 H2]; [apply negb_true_iff in H1; now apply mem_notIn|now apply IH]. Qed.
Lemma eqv_ok a b : eqv a b = true -> a = b.
Proof. destruct a, b; cbn; intros H; try discriminate; try reflexivity; [apply Z.eqb_eq in H|apply String.eqb_eq in H]; now subst. Qed.
Lemma prefix_ok a b : prefix a b = true -> b = a ++ skipn (length a) b.
Proof.
  revert b. induction a as [|[x d] a IH]; intros b H; [reflexivity|]. destruct b as [|[y d'] b]; [discriminate|]. cbn in H. apply andb_prop in H. destruct H as [H1 H2]. unfold eqp in H1. cbn in H1.
  apply andb_prop in H1. destruct H1 as [E H1]. apply String.eqb_eq in E. subst y. cbn. f_equal; [|now apply IH]. f_equal. destruct d, d'; try discriminate; [|reflexivity]. f_equal. symmetry. now apply eqv_ok.
Qed.
Lemma table_shaped e : In e table -> shaped e = true /\ lookup (cls e) = Some e.
Proof.
  assert (T1 : forallb shaped table = true) by reflexivity. rewrite forallb_forall in T1. intros H. split; [now apply T1|].
  revert e H. assert (U : nodup (map cls table) = true) by reflexivity. apply nodup_ok in U. unfold lookup. revert U. generalize table. intros l. induction l as [|x l IH]; intros U e H; [destruct H|].
  cbn in U. apply NoDup_cons_iff in U. destruct U as [U1 U2]. cbn [find]. destruct H as [->|H]; [now rewrite String.eqb_refl|]. destruct (String.eqb_spec (cls x) (cls e)) as [E|_]; [exfalso; apply U1; rewrite E; now apply in_map|now apply IH].
Qed.
Lemma table_matches e : In e table -> cls e <> "Wishart" -> matches e = true.
Proof.
  intros H N. assert (T : forallb (fun e => String.eqb (cls e) "Wishart" || matches e) table = true) by reflexivity. rewrite forallb_forall in T. specialize (T e H). cbv beta in T.
  destruct (String.eqb_spec (cls e) "Wishart"); [contradiction|exact T].
Qed.
Lemma lookup_In c e : lookup c = Some e -> In e table /\ cls e = c.
Proof. unfold lookup. intros H. apply find_some in H. destruct H as [H E]. apply String.eqb_eq in E. now split. Qed.
Record shape (e : entry) : Prop := Shape {
  sh_init : init e = names e; sh_up : up e = names e; sh_passed : passed e = names e; sh_nodup : NoDup (names e);
  sh_dflt : forall n d, In (n, Some d) (params e) -> data d = true; sh_sets : incl (sets e) (names e) }.
Lemma shaped_shape e : In e table -> shape e.
Proof.
  intros H. apply table_shaped in H. destruct H as [H _]. unfold shaped in H. cbv zeta in H. rewrite !andb_true_iff in H. destruct H as [[[[[H1 H2] H3] H4] H5] H6]. unfold same in H1, H2, H3.
  destruct (list_eq_dec string_dec (init e) (map fst (params e))); [|discriminate]. destruct (list_eq_dec string_dec (up e) (map fst (params e))); [|discriminate]. destruct (list_eq_dec string_dec (passed e) (map fst (params e))); [|discriminate].
  constructor; try assumption; [now apply nodup_ok| |].
  - intros n d I. rewrite forallb_forall in H5. apply (H5 (n, Some d) I).
  - intros a Ha. rewrite forallb_forall in H6. apply mem_In. now apply H6.
Qed.
Lemma names_length e : length (names e) = length (params e).
Proof. unfold names. apply map_length. Qed.
(** A term from a full list of arguments *)
Lemma mk_full e args kw : In e table -> length args = length (params e) -> (forall k, In k (map fst kw) -> ~ In k (names e)) -> mk e args kw = Ok (Tm (cls e) args kw).
Proof.
  intros I L K. destruct (shaped_shape e I) as [Si Su _ ND _ _]. unfold mk. rewrite Si, Su. rewrite bind_full; [|now rewrite map_length, names_length|now rewrite req_names].
  cbn [andthen fst snd]. rewrite read_all; [reflexivity|assumption|]. now rewrite names_length.
Qed.
