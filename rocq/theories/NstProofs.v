From Coq Require Import List Bool Arith Lia Permutation.
From Verif Require Import NstModel NstSpec.
Import ListNotations.

Section Ind.
Variable P : value -> Prop.
Hypothesis Ha : forall c, P (VAtom c).
Hypothesis Hs : forall s, P (VStr s).
Hypothesis Ht : forall l, Forall P l -> P (VTuple l).
Hypothesis Hn : forall c l, Forall P l -> P (VNamed c l).
Hypothesis Hc : forall c l, Forall P l -> P (VColl c l).
Hypothesis Hm : forall c l, Forall (fun kx => P (fst kx) /\ P (snd kx)) l -> P (VMap c l).
Hypothesis Hf : forall c g, P (VCall c g).
Hypothesis Ho : forall g, P (VOp g).
Hypothesis Hx : forall b, P (VTerm b).
Fixpoint value_all (v : value) : P v :=
  let go := fix go (l : list value) : Forall P l := match l with [] => Forall_nil P | x :: l' => Forall_cons x (value_all x) (go l') end in
  match v with
  | VAtom c => Ha c | VStr s => Hs s | VTuple l => Ht l (go l) | VNamed c l => Hn c l (go l) | VColl c l => Hc c l (go l)
  | VMap c l => Hm c l ((fix go2 (l : list (value * value)) : Forall (fun kx => P (fst kx) /\ P (snd kx)) l :=
      match l with [] => Forall_nil _ | kx :: l' => Forall_cons kx (conj (value_all (fst kx)) (value_all (snd kx))) (go2 l') end) l)
  | VCall c g => Hf c g | VOp g => Ho g | VTerm b => Hx b
  end.
End Ind.

Section TyInd.
Variable P : ty -> Prop.
Hypothesis H1 : forall c, P (TCls c).
Hypothesis H2 : forall l, Forall P l -> P (TTuple l).
Hypothesis H3 : forall c t, P t -> P (TColl c t).
Hypothesis H4 : forall c k v, P k -> P v -> P (TMap c k v).
Hypothesis H5 : forall fs, P (TTyped fs).
Hypothesis H6 : forall ps r, match ps with Some l => Forall P l | None => True end -> P r -> P (TCall ps r).
Hypothesis H7 : forall ps r, match ps with Some l => Forall P l | None => True end -> P r -> P (TOp ps r).
Hypothesis H8 : P TInterp.
Fixpoint ty_all (t : ty) : P t :=
  let go := fix go (l : list ty) : Forall P l := match l with [] => Forall_nil P | x :: l' => Forall_cons x (ty_all x) (go l') end in
  match t with
  | TCls c => H1 c | TTuple l => H2 l (go l) | TColl c t => H3 c t (ty_all t) | TMap c k v => H4 c k v (ty_all k) (ty_all v)
  | TTyped fs => H5 fs
  | TCall ps r => H6 ps r (match ps with Some l => go l | None => Logic.I end) (ty_all r)
  | TOp ps r => H7 ps r (match ps with Some l => go l | None => Logic.I end) (ty_all r)
  | TInterp => H8
  end.
End TyInd.

Lemma cls_eqb_eq a b : cls_eqb a b = true <-> a = b.
Proof.
  destruct a, b; cbn [cls_eqb]; split; intros H; try discriminate; try reflexivity.
  - apply Nat.eqb_eq in H. congruence.
  - injection H as H. apply Nat.eqb_eq. exact H.
Qed.
Definition all_eqb := fix all (l m : list ty) : bool := match l, m with [], [] => true | x :: l', y :: m' => ty_eqb x y && all l' m' | _, _ => false end.
Lemma all_sound l : Forall (fun a => forall b, ty_eqb a b = true -> a = b) l -> forall m, all_eqb l m = true -> l = m.
Proof.
  induction 1 as [|x l Hx Hl IH]; intros [|y m] H; cbn [all_eqb] in H; try discriminate; [reflexivity|].
  apply andb_prop in H. destruct H as [A B]. rewrite (Hx _ A), (IH _ B). reflexivity.
Qed.
Lemma eqb_sound : forall a b, ty_eqb a b = true -> a = b.
Proof.
  induction a as [c|l Hl|c t IH|c k v IHk IHv|fs|ps r Hl IH|ps r Hl IH|] using ty_all; intros b H; destruct b; cbn [ty_eqb] in H; try discriminate; fold all_eqb in H.
  - apply cls_eqb_eq in H. congruence.
  - f_equal. exact (all_sound _ Hl _ H).
  - apply andb_prop in H. destruct H as [A B]. apply cls_eqb_eq in A. rewrite (IH _ B). congruence.
  - apply andb_prop in H. destruct H as [A B]. apply andb_prop in A. destruct A as [A C]. apply cls_eqb_eq in A. rewrite (IHk _ C), (IHv _ B). congruence.
  - apply andb_prop in H. destruct H as [A B]. rewrite (IH _ B). destruct ps, ps0; try discriminate; [|reflexivity]. rewrite (all_sound _ Hl _ A). reflexivity.
  - apply andb_prop in H. destruct H as [A B]. rewrite (IH _ B). destruct ps, ps0; try discriminate; [|reflexivity]. rewrite (all_sound _ Hl _ A). reflexivity.
  - reflexivity.
Qed.
Definition all_settled := fix all l := match l with [] => True | t :: l' => settled t /\ all l' end.
Lemma all_refl l : Forall (fun a => settled a -> ty_eqb a a = true) l -> all_settled l -> all_eqb l l = true.
Proof. induction 1 as [|x l Hx Hl IH]; [reflexivity|]. intros [A B]. cbn [all_eqb]. rewrite (Hx A), (IH B). reflexivity. Qed.
Lemma cls_refl c : cls_eqb c c = true. Proof. apply cls_eqb_eq. reflexivity. Qed.
Lemma eqb_refl : forall a, settled a -> ty_eqb a a = true.
Proof.
  induction a as [c|l Hl|c t IH|c k v IHk IHv|fs|ps r Hl IH|ps r Hl IH|] using ty_all; intros H; cbn [settled] in H; cbn [ty_eqb]; fold all_eqb; fold all_settled in H.
  - apply cls_refl.
  - exact (all_refl _ Hl H).
  - rewrite cls_refl, (IH H). reflexivity.
  - rewrite cls_refl, (IHk (proj1 H)), (IHv (proj2 H)). reflexivity.
  - destruct H.
  - destruct H as [A B]. rewrite (IH B). destruct ps; [|reflexivity]. rewrite (all_refl _ Hl A). reflexivity.
  - destruct H as [A B]. rewrite (IH B). destruct ps; [|reflexivity]. rewrite (all_refl _ Hl A). reflexivity.
  - reflexivity.
Qed.

Lemma joined_some ts t : joined ts = Some t -> forall u, In u ts -> u = t.
Proof.
  destruct ts as [|t0 ts]; [discriminate|]. cbn [joined]. destruct (forallb (ty_eqb t0) ts) eqn:F; [|discriminate].
  intros H. injection H as <-. intros u [<-|Hu]; [reflexivity|]. symmetry. apply eqb_sound. rewrite forallb_forall in F. exact (F _ Hu).
Qed.

Lemma mapM_ok A B (f : A -> option B) l ts : mapM f l = Some ts -> Forall2 (fun x t => f x = Some t) l ts.
Proof.
  revert ts. induction l as [|x l IH]; intros ts H; cbn [mapM] in H.
  - injection H as <-. constructor.
  - destruct (f x) as [y|] eqn:E; [|discriminate]. fold (mapM f) in H. destruct (mapM f l) as [ys|]; [|discriminate]. injection H as <-.
    constructor; [exact E|]. exact (IH _ eq_refl).
Qed.
Lemma mapM_make A B (f : A -> option B) l ts : Forall2 (fun x t => f x = Some t) l ts -> mapM f l = Some ts.
Proof. induction 1 as [|x t l ts E _ IH]; [reflexivity|]. cbn [mapM]. fold (mapM f). rewrite E, IH. reflexivity. Qed.
Lemma mapM_none A B (f : A -> option B) l : mapM f l = None <-> exists x, In x l /\ f x = None.
Proof.
  induction l as [|x l IH]; cbn [mapM]; [split; [discriminate|intros (? & [] & _)]|]. fold (mapM f).
  destruct (f x) as [y|] eqn:E.
  - destruct (mapM f l) as [ys|]; cbn [option_map].
    + split; [discriminate|]. intros (z & [<-|Hz] & F); [congruence|]. assert (@Some (list B) ys = None) by (apply IH; exists z; split; [exact Hz|exact F]). discriminate.
    + split; [|reflexivity]. intros _. destruct (proj1 IH eq_refl) as (z & Hz & F). exists z. split; [right; exact Hz|exact F].
  - split; [|reflexivity]. intros _. exists x. split; [left; reflexivity|exact E].
Qed.
Lemma each2 A B (Q : A -> B -> Prop) l m : Forall2 Q l m -> forall x, In x l -> exists y, In y m /\ Q x y.
Proof. induction 1 as [|a b l m Hab _ IH]; intros x Hx; [destruct Hx|]. destruct Hx as [<-|Hx]; [exists b; split; [left; reflexivity|exact Hab]|]. destruct (IH _ Hx) as (y & Hy & E). exists y. split; [right; exact Hy|exact E]. Qed.
Lemma len2 A B (Q : A -> B -> Prop) l m : Forall2 Q l m -> length l = length m.
Proof. induction 1; cbn [length]; congruence. Qed.

Lemma takes_listed ps : forallb listed ps = true -> takes ps (flat_map (fun p => match ann p with Some t => [t] | None => [] end) ps).
Proof.
  induction ps as [|p ps IH]; cbn [forallb flat_map]; [intros _; constructor; intros p []|].
  intros H. apply andb_prop in H. destruct H as [A B]. unfold listed in A. destruct (kind p) eqn:K; try discriminate. destruct (ann p) as [t|] eqn:N; [|discriminate].
  cbn [app]. constructor; [exact K|exact N|]. exact (IH B).
Qed.

Section Sound.
Variable coll : nat -> collk.
Variable mapping : option nat -> mapk.
Variable typed : nat -> bool.
Variable sub : cls -> cls -> Prop.
Hypothesis L : library coll mapping sub.
Notation nested := (nested coll mapping typed).
Notation has := (has sub).

Lemma call_ok c g v : signature v = g -> sub (class_of v) c -> has (call_type c g) v.
Proof.
  intros E S. unfold call_type. destruct g as [g|]; [|exact S]. destruct (ret g) as [r|] eqn:R; [|exact S].
  destruct (forallb listed (params g)) eqn:F; cbn [NstSpec.has].
  - split; [exists g; split; [exact E|exact R]|]. exists g. split; [exact E|]. exact (takes_listed _ F).
  - split; [exists g; split; [exact E|exact R]|exact Logic.I].
Qed.
Lemma op_ok g : has (op_type g) (VOp g).
Proof.
  pose proof (call_ok COp g (VOp g) eq_refl (lib_refl _ _ _ L COp)) as H. unfold op_type. destruct (call_type COp g) eqn:E; try exact H.
  cbn [NstSpec.has] in H |- *. split; [reflexivity|exact H].
Qed.
Definition all_has := fix all ts l := match ts, l with [], [] => True | t :: ts', x :: l' => has t x /\ all ts' l' | _, _ => False end.
Lemma all_has_ok l ts : Forall2 (fun x t => has t x) l ts -> all_has ts l.
Proof. induction 1; cbn [all_has]; auto. Qed.
Definition all_fields := fix all fields l := match fields, l with
  | [], [] => True
  | (s, u) :: fs', (k, x) :: l' => (k = VStr s /\ has u x) /\ all fs' l'
  | _, _ => False
  end.
Lemma items_ok l : Forall (fun v => forall t, (forall w, inside w v -> plain sub w) -> nested v = Some t -> has t v) l ->
  (forall x w, In x l -> inside w x -> plain sub w) -> forall ts, Forall2 (fun x t => nested x = Some t) l ts -> Forall2 (fun x t => has t x) l ts.
Proof.
  induction 1 as [|x l Hx Hl IH]; intros Hp ts H; inversion H as [|? t ? ts' E R]; subst; [constructor|].
  constructor; [apply Hx; [intros w; apply Hp; left; reflexivity|exact E]|]. apply IH; [intros y w Hy; apply Hp; right; exact Hy|exact R].
Qed.
Lemma str_key k : nested k = Some (TCls CStr) -> exists s, k = VStr s.
Proof.
  destruct k as [c|s|l|c l|c l|c l|c g|g|b]; cbn [NstModel.nested].
  - discriminate.
  - intros _. exists s. reflexivity.
  - destruct l; [discriminate|]. destruct (mapM _ _); discriminate.
  - destruct (typed c); [discriminate|]. destruct (mapM _ _) as [ts|]; [|discriminate]. cbn [option_map]. unfold items_type. destruct (joined ts); discriminate.
  - pose proof (lib_str _ _ _ L c) as H. destruct (coll c) as [d|d].
    + destruct (mapM _ _) as [ts|]; [|discriminate]. cbn [option_map]. unfold items_type. destruct (joined ts); [discriminate|]. intros E. injection E as ->. destruct (H eq_refl).
    + intros E. injection E as ->. destruct (H eq_refl).
  - destruct l as [|kx l]; [destruct c; discriminate|]. destruct (is_interp _); [discriminate|]. destruct (mapM _ _) as [ks|]; [|discriminate]. destruct (mapM _ _) as [vs|]; [|discriminate].
    unfold map_type, given. destruct ks as [|k1 ks]; [destruct c; discriminate|]. destruct vs as [|v1 vs]; [destruct ks; destruct c; discriminate|].
    destruct ks as [|k2 ks], vs as [|v2 vs]; [destruct (is_str k1 && is_typed v1); [discriminate|]; destruct (mapping c); discriminate| | |];
      (destruct (joined (k1 :: _)) as [k'|]; [|destruct c; discriminate]); (destruct (joined (v1 :: _)); [destruct (mapping c); discriminate|]); (destruct c; [discriminate|]; destruct (is_str k'); discriminate).
  - unfold call_type. destruct g as [g|]; [|discriminate]. destruct (ret g); [|discriminate]. destruct (forallb _ _); discriminate.
  - unfold op_type, call_type. destruct g as [g|]; [|discriminate]. destruct (ret g); [|discriminate]. destruct (forallb _ _); discriminate.
  - discriminate.
Qed.
Lemma is_str_ok k : is_str k = true -> k = TCls CStr.
Proof. destruct k as [[]| | | | | | |]; cbn [is_str]; congruence. Qed.
Lemma interp_ok l : is_interp l = true <-> interpretation l.
Proof.
  unfold is_interp, interpretation. rewrite forallb_forall. split.
  - intros H k x Hk. specialize (H _ Hk). cbn [fst snd] in H. apply andb_prop in H. destruct H as [A B]. split; [destruct k; try discriminate; reflexivity|].
    destruct x as [| | | | | | | |b]; try discriminate; try exact Logic.I. destruct b; [exact Logic.I|discriminate].
  - intros H [k x] Hk. destruct (H _ _ Hk) as [A B]. cbn [fst snd]. apply andb_true_intro. split; [destruct k; try discriminate A; try reflexivity; destruct c; discriminate A|].
    destruct x as [| | | | | | | |[]]; try destruct B; reflexivity.
Qed.
Lemma fields_ok l : forall vs, Forall2 (fun kx t => has t (snd kx)) l vs -> (forall kx, In kx l -> exists s, fst kx = VStr s) ->
  all_fields (combine (map (fun kv => key_of (fst kv)) l) vs) l.
Proof.
  induction l as [|[k x] l IH]; intros vs H Hk; inversion H as [|? t ? vs' E R]; subst; cbn [map combine all_fields]; [exact Logic.I|].
  destruct (Hk _ (or_introl eq_refl)) as [s Es]. cbn [fst snd] in *. subst k. split; [split; [reflexivity|exact E]|]. apply IH; [exact R|]. intros kx Hx. apply Hk. right. exact Hx.
Qed.
Lemma map_items A (f : A -> value) l : Forall (fun kx => forall t, (forall w, inside w (f kx) -> plain sub w) -> nested (f kx) = Some t -> has t (f kx)) l ->
  (forall x w, In x l -> inside w (f x) -> plain sub w) -> forall ts, Forall2 (fun x t => nested (f x) = Some t) l ts -> Forall2 (fun x t => has t (f x)) l ts.
Proof.
  induction 1 as [|x l Hx Hl IH]; intros Hp ts H; inversion H as [|? t ? ts' E R]; subst; [constructor|].
  constructor; [apply Hx; [intros w; apply Hp; left; reflexivity|exact E]|]. apply IH; [intros y w Hy; apply Hp; right; exact Hy|exact R].
Qed.
Lemma given_ok c l k v t : given mapping c k v = Some t -> (forall kx, In kx l -> has k (fst kx) /\ has v (snd kx)) -> has t (VMap c l).
Proof.
  unfold given. destruct (mapping c) as [d|] eqn:M; [|discriminate]. intros H. injection H as <-. intros Hl. cbn [NstSpec.has class_of]. split; [|exact Hl].
  exact (lib_map _ _ _ L _ _ M).
Qed.
Lemma uniform A (f : A -> value) l ts t : joined ts = Some t -> Forall2 (fun x t => has t (f x)) l ts -> forall x, In x l -> has t (f x).
Proof.
  intros J F x Hx. destruct (each2 _ _ _ _ _ F _ Hx) as (u & Hu & E). rewrite <- (joined_some _ _ J _ Hu). exact E.
Qed.
Lemma bare_map c l : has (TCls (map_cls c)) (VMap c l).
Proof. cbn [NstSpec.has class_of]. destruct c; apply (lib_refl _ _ _ L). Qed.

Theorem sound : forall v t, (forall w, inside w v -> plain sub w) -> nested v = Some t -> has t v.
Proof.
  induction v as [c|s|l Hl|c l Hl|c l Hl|c l Hl|c g|g|b] using value_all; intros t Hp H; cbn [NstModel.nested] in H.
  - injection H as <-. exact (lib_refl _ _ _ L _).
  - injection H as <-. exact (lib_refl _ _ _ L _).
  - destruct l as [|x l]; [injection H as <-; exact (lib_refl _ _ _ L _)|].
    destruct (mapM nested (x :: l)) as [ts|] eqn:E; [|discriminate]. injection H as <-.
    cbn [NstSpec.has]. apply (all_has_ok (x :: l) ts). apply (items_ok _ Hl); [|exact (mapM_ok _ _ _ _ _ E)]. intros y w Hy Hw. apply Hp. exact (in_tuple _ _ _ Hy Hw).
  - destruct (typed c); [discriminate|]. pose proof (Hp _ (in_self _)) as P. cbn [plain] in P. destruct P as [Pc Pl].
    destruct (mapM nested l) as [ts|] eqn:E; [|discriminate]. injection H as <-. apply mapM_ok in E.
    assert (F : Forall2 (fun x t => has t x) l ts) by (apply (items_ok _ Hl); [intros y w Hy Hw; apply Hp; exact (in_named _ _ _ _ Hy Hw)|exact E]).
    destruct l as [|x [|y l]]; [| |cbn [length] in Pl; lia].
    + inversion F; subst. exact Pc.
    + inversion F as [|? u ? us Fu Fs]; subst. inversion Fs; subst. unfold items_type. cbn [joined forallb NstSpec.has]. split; [exact Fu|exact Logic.I].
  - pose proof (lib_coll _ _ _ L c) as Lc. destruct (coll c) as [d|d]; [|injection H as <-; exact Lc].
    destruct (mapM nested l) as [ts|] eqn:E; [|discriminate]. injection H as <-. apply mapM_ok in E.
    assert (F : Forall2 (fun x t => has t x) l ts) by (apply (items_ok _ Hl); [intros y w Hy Hw; apply Hp; exact (in_coll _ _ _ _ Hy Hw)|exact E]).
    unfold items_type. destruct (joined ts) as [u|] eqn:J; [|exact Lc]. cbn [NstSpec.has class_of]. split; [exact Lc|]. exact (uniform _ (fun x => x) _ _ _ J F).
  - destruct l as [|kx0 l0] eqn:El; [injection H as <-; apply bare_map|]. rewrite <- El in *. assert (Ne : l <> []) by (rewrite El; discriminate). clear El kx0 l0.
    destruct (is_interp l) eqn:Ip; [injection H as <-; cbn [NstSpec.has]; apply interp_ok; exact Ip|].
    destruct (mapM _ l) as [ks|] eqn:Ek; [|discriminate]. destruct (mapM (fun kv => nested (snd kv)) l) as [vs|] eqn:Ev; [|discriminate]. apply mapM_ok in Ek. apply mapM_ok in Ev.
    assert (Fk : Forall2 (fun kx t => has t (fst kx)) l ks).
    { apply (map_items _ fst); [|intros [k x] w Hy Hw; apply Hp; exact (in_key _ _ _ _ _ Hy Hw)|exact Ek]. eapply Forall_impl; [|exact Hl]. intros a [A _]. exact A. }
    assert (Fv : Forall2 (fun kx t => has t (snd kx)) l vs).
    { apply (map_items _ snd); [|intros [k x] w Hy Hw; apply Hp; exact (in_value _ _ _ _ _ Hy Hw)|exact Ev]. eapply Forall_impl; [|exact Hl]. intros a [_ A]. exact A. }
    assert (Strs : forall k, joined ks = Some k -> is_str k = true -> forall kx, In kx l -> exists s, fst kx = VStr s).
    { intros k J S kx Hx. apply str_key. destruct (each2 _ _ _ _ _ Ek _ Hx) as (u & Hu & E). rewrite E. rewrite (joined_some _ _ J _ Hu), (is_str_ok _ S). reflexivity. }
    assert (Two : length l = length ks /\ length l = length vs) by (split; [exact (len2 _ _ _ _ _ Ek)|exact (len2 _ _ _ _ _ Ev)]).
    assert (Gen : forall k v, joined ks = Some k -> joined vs = Some v -> given mapping c k v = Some t -> has t (VMap c l)).
    { intros k v Jk Jv G. apply (given_ok _ _ _ _ _ G). intros kx Hx. split; [exact (uniform _ fst _ _ _ Jk Fk _ Hx)|exact (uniform _ snd _ _ _ Jv Fv _ Hx)]. }
    unfold map_type in H.
    destruct ks as [|k1 ks]; [injection H as <-; apply bare_map|]. destruct vs as [|v1 vs]; [destruct ks; injection H as <-; apply bare_map|].
    destruct ks as [|k2 ks].
    + destruct vs as [|v2 vs]; [|cbn [length] in Two; lia].
      destruct (is_str k1 && is_typed v1) eqn:B.
      * apply andb_prop in B. destruct B as [B _]. injection H as <-. cbn [NstSpec.has]. split; [|apply (fields_ok _ _ Fv (Strs k1 eq_refl B))].
        cbn [class_of]. destruct c as [c|]; [|apply (lib_refl _ _ _ L)]. pose proof (Hp _ (in_self _)) as P. destruct l as [|a [|b l]]; [contradiction| |cbn [length] in Two; lia]. exact P.
      * exact (Gen _ _ eq_refl eq_refl H).
    + destruct vs as [|v2 vs]; [cbn [length] in Two; lia|].
      destruct (joined (k1 :: k2 :: ks)) as [k|] eqn:Jk; [|injection H as <-; apply bare_map].
      destruct (joined (v1 :: v2 :: vs)) as [v|] eqn:Jv; [exact (Gen _ _ eq_refl eq_refl H)|].
      destruct c as [c|]; [injection H as <-; apply bare_map|].
      destruct (is_str k) eqn:B; [|injection H as <-; exact (bare_map None l)]. injection H as <-. cbn [NstSpec.has]. split; [apply (lib_refl _ _ _ L)|].
      apply (fields_ok _ _ Fv (Strs _ eq_refl B)).
  - injection H as <-. apply call_ok; [reflexivity|apply (lib_refl _ _ _ L)].
  - injection H as <-. apply op_ok.
  - discriminate.
Qed.
End Sound.

Section Fails.
Variable coll : nat -> collk.
Variable mapping : option nat -> mapk.
Variable typed : nat -> bool.
Hypothesis Free : forall c, mapping c <> MapFixed.
Notation nested := (nested coll mapping typed).
Notation refused := (refused coll typed).

Lemma map_type_some c l ks vs : map_type mapping c l ks vs <> None.
Proof.
  unfold map_type, given. pose proof (Free c) as Fc. destruct ks as [|k1 ks]; [discriminate|]. destruct vs as [|v1 vs]; [destruct ks; discriminate|].
  destruct ks as [|k2 ks], vs as [|v2 vs]; [destruct (is_str k1 && is_typed v1); [discriminate|]; destruct (mapping c); [discriminate|congruence]| | |];
    (destruct (joined (k1 :: _)) as [k'|]; [|destruct c; discriminate]); (destruct (joined (v1 :: _)); [destruct (mapping c); [discriminate|congruence]|]); (destruct c; [discriminate|]; destruct (is_str k'); discriminate).
Qed.
Lemma mapped_none A B (f : A -> B) (o : option A) : option_map f o = None <-> o = None.
Proof. destruct o; split; cbn; congruence. Qed.
Theorem fails_iff : forall v, nested v = None <-> refused v.
Proof.
  induction v as [c|s|l Hl|c l Hl|c l Hl|c l Hl|c g|g|b] using value_all; cbn [NstModel.nested].
  - split; [discriminate|intros H; inversion H].
  - split; [discriminate|intros H; inversion H].
  - rewrite Forall_forall in Hl. destruct l as [|x0 l0] eqn:El; [split; [discriminate|intros H; inversion H as [| |? ? F| | |]; destruct F]|]. rewrite <- El in *. clear El.
    rewrite mapped_none, mapM_none. split.
    + intros (x & Hx & E). apply (ref_tuple _ _ _ _ Hx). apply (Hl _ Hx). exact E.
    + intros H. inversion H as [| |? x Hx R| | |]; subst. exists x. split; [exact Hx|]. apply (Hl _ Hx). exact R.
  - rewrite Forall_forall in Hl. destruct (typed c) eqn:T; [split; [intros _; constructor; exact T|reflexivity]|]. rewrite mapped_none, mapM_none. split.
    + intros (x & Hx & E). apply (ref_item _ _ _ _ _ Hx). apply (Hl _ Hx). exact E.
    + intros H. inversion H as [|? ? T'| |? ? x Hx R| |]; subst; [congruence|]. exists x. split; [exact Hx|]. apply (Hl _ Hx). exact R.
  - rewrite Forall_forall in Hl. destruct (coll c) as [d|d] eqn:C.
    + rewrite mapped_none, mapM_none. split.
      * intros (x & Hx & E). apply (ref_coll _ _ _ _ _ _ C Hx). apply (Hl _ Hx). exact E.
      * intros H. inversion H as [| | | |? ? ? x C' Hx R|]; subst. exists x. split; [exact Hx|]. apply (Hl _ Hx). exact R.
    + split; [discriminate|]. intros H. inversion H as [| | | |? ? ? x C' Hx R|]; subst. congruence.
  - rewrite Forall_forall in Hl. destruct l as [|x0 l0] eqn:El; [split; [discriminate|intros H; inversion H as [| | | | |? ? ? ? ? F]; destruct F]|]. rewrite <- El in *. clear El.
    destruct (is_interp l) eqn:Ip.
    + split; [discriminate|]. intros H. inversion H as [| | | | |? ? k x w F N W R]; subst. destruct (N (proj1 (interp_ok l) Ip)).
    + assert (N : ~ interpretation l) by (intros N; apply interp_ok in N; congruence). split.
      * intros H. destruct (mapM _ l) as [ks|] eqn:Ek.
        -- destruct (mapM (fun kv => nested (snd kv)) l) as [vs|] eqn:Ev; [destruct (map_type_some _ _ _ _ H)|]. apply mapM_none in Ev. destruct Ev as ([k x] & Hx & E).
           apply (ref_map _ _ _ _ _ _ x Hx N (or_intror eq_refl)). apply (Hl _ Hx). exact E.
        -- apply mapM_none in Ek. destruct Ek as ([k x] & Hx & E). apply (ref_map _ _ _ _ _ _ k Hx N (or_introl eq_refl)). apply (Hl _ Hx). exact E.
      * intros H. inversion H as [| | | | |? ? k x w F _ W R]; subst. destruct (Hl _ F) as [A B]. cbn [fst snd] in A, B. destruct W as [->| ->].
        -- rewrite (proj2 (mapM_none _ _ (fun kv => nested (fst kv)) l)); [reflexivity|]. exists (k, x). split; [exact F|]. apply A. exact R.
        -- destruct (mapM (fun kv => nested (fst kv)) l); [|reflexivity].
           rewrite (proj2 (mapM_none _ _ (fun kv => nested (snd kv)) l)); [reflexivity|]. exists (k, x). split; [exact F|]. apply B. exact R.
  - split; [discriminate|intros H; inversion H].
  - split; [discriminate|intros H; inversion H].
  - split; [intros _; constructor|reflexivity].
Qed.
End Fails.

Section More.
Variable coll : nat -> collk.
Variable mapping : option nat -> mapk.
Variable typed : nat -> bool.
Notation nested := (nested coll mapping typed).

Lemma mapM_perm A B (f : A -> option B) l l' : Permutation l l' -> forall ts, mapM f l = Some ts -> exists ts', mapM f l' = Some ts' /\ Permutation ts ts'.
Proof.
  induction 1 as [|x l l' P IH|x y l|l l' l'' P IH P' IH']; intros ts H.
  - exists ts. split; [exact H|apply Permutation_refl].
  - cbn [mapM] in H |- *. fold (mapM f) in H |- *. destruct (f x) as [y|]; [|discriminate]. destruct (mapM f l) as [us|]; [|discriminate]. injection H as <-.
    destruct (IH _ eq_refl) as (us' & -> & Q). exists (y :: us'). split; [reflexivity|]. constructor. exact Q.
  - cbn [mapM] in H |- *. fold (mapM f) in H |- *. destruct (f y) as [b|]; [|discriminate]. destruct (f x) as [a|]; [|discriminate]. destruct (mapM f l) as [us|]; [|discriminate]. injection H as <-.
    eexists. split; [reflexivity|]. constructor.
  - destruct (IH _ H) as (us & E & Q). destruct (IH' _ E) as (ws & E' & Q'). exists ws. split; [exact E'|]. exact (Permutation_trans Q Q').
Qed.
Lemma joined_two t u ts : joined (t :: u :: ts) = Some t <-> forall x, In x (t :: u :: ts) -> x = t /\ ty_eqb x x = true.
Proof.
  cbn [joined]. destruct (forallb (ty_eqb t) (u :: ts)) eqn:F.
  - split; [|reflexivity]. intros _ x Hx. rewrite forallb_forall in F.
    assert (Eu : t = u) by (apply eqb_sound, F; left; reflexivity). assert (R : ty_eqb t t = true) by (rewrite Eu at 2; apply F; left; reflexivity).
    destruct Hx as [<-|Hx]; [split; [reflexivity|exact R]|]. pose proof (F _ Hx) as E. apply eqb_sound in E. subst x. split; [reflexivity|exact R].
  - split; [discriminate|]. intros H. exfalso. assert (forallb (ty_eqb t) (u :: ts) = true); [|congruence]. apply forallb_forall. intros x Hx.
    destruct (H x (or_intror Hx)) as [-> R]. exact R.
Qed.
Lemma joined_perm ts ts' : Permutation ts ts' -> joined ts = joined ts'.
Proof.
  intros P. destruct ts as [|t [|u ts]].
  - apply Permutation_nil in P. subst. reflexivity.
  - apply Permutation_length_1_inv in P. subst. reflexivity.
  - pose proof (Permutation_length P) as Ln. destruct ts' as [|t' [|u' ts']]; try discriminate.
    assert (forall a b, joined (a :: b) = None \/ joined (a :: b) = Some a) as J by (intros a b; cbn [joined]; destruct (forallb _ _); [right|left]; reflexivity).
    assert (M : forall t u ts t' u' ts', Permutation (t :: u :: ts) (t' :: u' :: ts') -> joined (t :: u :: ts) = Some t -> joined (t' :: u' :: ts') = Some t).
    { clear. intros t u ts t' u' ts' P J. rewrite joined_two in J.
      assert (E : t' = t) by (apply J; apply (Permutation_in _ (Permutation_sym P)); left; reflexivity). subst t'. apply joined_two. intros x Hx. apply J. exact (Permutation_in _ (Permutation_sym P) Hx). }
    destruct (J t (u :: ts)) as [E|E].
    + destruct (J t' (u' :: ts')) as [E'|E']; [congruence|]. pose proof (M _ _ _ _ _ _ (Permutation_sym P) E') as E''. congruence.
    + rewrite E. symmetry. exact (M _ _ _ _ _ _ P E).
Qed.
Theorem order_free c l l' : Permutation l l' -> nested (VColl c l) = nested (VColl c l').
Proof.
  intros P. cbn [NstModel.nested]. destruct (coll c) as [d|d]; [|reflexivity].
  destruct (mapM nested l) as [ts|] eqn:E.
  - destruct (mapM_perm _ _ _ _ _ P _ E) as (ts' & -> & Q). cbn [option_map]. unfold items_type. rewrite (joined_perm _ _ Q). reflexivity.
  - destruct (mapM nested l') as [ts'|] eqn:E'; [|reflexivity]. destruct (mapM_perm _ _ _ _ _ (Permutation_sym P) _ E') as (? & E'' & _). congruence.
Qed.
Lemma same_joined ts t : ts <> [] -> (forall u, In u ts -> u = t) -> settled t \/ length ts = 1 -> joined ts = Some t.
Proof.
  intros Ne H S. destruct ts as [|u ts]; [contradiction|]. assert (u = t) by (apply H; left; reflexivity). subst u. cbn [joined].
  destruct S as [S|S].
  - assert (forallb (ty_eqb t) ts = true) as ->; [|reflexivity]. apply forallb_forall. intros x Hx. rewrite (H x (or_intror Hx)). exact (eqb_refl _ S).
  - destruct ts; [reflexivity|discriminate].
Qed.
Lemma mapM_same A (f : A -> option ty) l t : (forall x, In x l -> f x = Some t) -> exists ts, mapM f l = Some ts /\ (forall u, In u ts -> u = t) /\ length ts = length l.
Proof.
  induction l as [|x l IH]; intros H; [exists []; split; [reflexivity|split; [intros u []|reflexivity]]|].
  destruct IH as (ts & E & U & Ln); [intros y Hy; apply H; right; exact Hy|]. exists (t :: ts). cbn [mapM]. fold (mapM f). rewrite (H x (or_introl eq_refl)), E.
  split; [reflexivity|]. split; [intros u [<-|Hu]; [reflexivity|exact (U _ Hu)]|cbn [length]; congruence].
Qed.
Theorem uniform_items c d l t : coll c = CollGen d -> l <> [] -> (forall x, In x l -> nested x = Some t) -> settled t -> nested (VColl c l) = Some (TColl d t).
Proof.
  intros C Ne H S. cbn [NstModel.nested]. rewrite C. destruct (mapM_same _ _ _ _ H) as (ts & -> & U & Ln). cbn [option_map]. unfold items_type.
  rewrite (same_joined ts t); [reflexivity| |exact U|left; exact S]. destruct l; [contradiction|]. destruct ts; [discriminate|discriminate].
Qed.
Theorem mixed_items c d l x y t u : coll c = CollGen d -> In x l -> In y l -> nested x = Some t -> nested y = Some u -> t <> u ->
  (forall z, In z l -> nested z <> None) -> nested (VColl c l) = Some (TCls d).
Proof.
  intros C Hx Hy Ex Ey N Al. cbn [NstModel.nested]. rewrite C. destruct (mapM nested l) as [ts|] eqn:E.
  - cbn [option_map]. unfold items_type. destruct (joined ts) as [w|] eqn:J; [|reflexivity]. exfalso. apply mapM_ok in E.
    destruct (each2 _ _ _ _ _ E _ Hx) as (t' & Ht & Et). destruct (each2 _ _ _ _ _ E _ Hy) as (u' & Hu & Eu).
    pose proof (joined_some _ _ J _ Ht). pose proof (joined_some _ _ J _ Hu). congruence.
  - apply mapM_none in E. destruct E as (z & Hz & Ez). destruct (Al _ Hz Ez).
Qed.
Theorem named_never sub c l t : nested (VNamed c l) = Some t -> 2 <= length l -> t <> TCls CTuple -> ~ has sub t (VNamed c l).
Proof.
  cbn [NstModel.nested]. destruct (typed c); [discriminate|]. destruct (mapM nested l) as [ts|]; [|discriminate]. intros H. injection H as <-. unfold items_type.
  destruct (joined ts); [|congruence]. intros Ln _ H. cbn [NstSpec.has] in H. destruct l as [|x [|y l]]; cbn [length] in Ln; try lia.
Qed.
End More.
