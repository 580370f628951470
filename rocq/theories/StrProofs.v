(** Proofs about [Term.__str__]. *)
From Coq Require Import List String Ascii Bool Arith DecimalString DecimalNat Lia.
From Verif Require Import StrModel StrSpec.
Import ListNotations.
Open Scope list_scope.

(** ** Numbers and suffixes *)

Lemma to_uint_nil n : Nat.to_uint n <> Decimal.Nil.
Proof.
  intros E. pose proof (Unsigned.of_to n) as H. rewrite E in H. cbn in H. subst n. discriminate E.
Qed.

Lemma show_inj n m : show n = show m -> n = m.
Proof.
  unfold show. intros E. assert (H : NilZero.uint_of_string (NilZero.string_of_uint (Nat.to_uint n)) = NilZero.uint_of_string (NilZero.string_of_uint (Nat.to_uint m))) by (rewrite E; reflexivity).
  rewrite !NilZero.usu in H by apply to_uint_nil. inversion H. apply Unsigned.to_uint_inj. assumption.
Qed.

Fixpoint bangs (s : string) : nat :=
  match s with EmptyString => 0 | String a s' => (if Ascii.eqb a "!"%char then 1 else 0) + bangs s' end.

Lemma bangs_app s t : bangs (s ++ t) = bangs s + bangs t.
Proof. induction s as [|a s IH]; cbn [append bangs]; [reflexivity|]. rewrite IH. lia. Qed.

Lemma bangs_show n : bangs (show n) = 0.
Proof.
  unfold show. assert (H : forall d, bangs (NilEmpty.string_of_uint d) = 0) by (induction d; cbn; assumption || reflexivity).
  unfold NilZero.string_of_uint. destruct (Nat.to_uint n); try apply H. reflexivity.
Qed.

Lemma app_inv (s t a b : string) : bangs a = 0 -> bangs b = 0 ->
  (s ++ String "!" a)%string = (t ++ String "!" b)%string -> s = t /\ a = b.
Proof.
  intros Ha Hb. revert t. induction s as [|c s IH]; intros [|d t] E; cbn [append] in E.
  - inversion E. auto.
  - exfalso. inversion E; subst. rewrite bangs_app in Ha. cbn in Ha. lia.
  - exfalso. inversion E; subst. rewrite bangs_app in Hb. cbn in Hb. lia.
  - inversion E as [[E1 E2]]. subst. destruct (IH _ E2). subst. auto.
Qed.

(** ** The table of names *)

Section Names.
Variable name : nat -> string.
Variable repr : nat -> string.

Definition ext (f f' : fresh) : Prop := forall n, exists t, ops_of f' n = ops_of f n ++ t.
Definition known (f : fresh) (o : nat) : Prop := position o (ops_of f (name o)) <> None.
Definition nm_of (f : fresh) (o : nat) : string :=
  match position o (ops_of f (name o)) with Some n => numbered (name o) n | None => name o end.

Lemma ext_refl f : ext f f.
Proof. intros n. exists []. symmetry. apply app_nil_r. Qed.
Lemma ext_trans f g h : ext f g -> ext g h -> ext f h.
Proof. intros H1 H2 n. destruct (H1 n) as [t1 E1], (H2 n) as [t2 E2]. exists (t1 ++ t2). rewrite E2, E1, app_assoc. reflexivity. Qed.

Lemma position_app o l t n : position o l = Some n -> position o (l ++ t) = Some n.
Proof.
  revert n. induction l as [|x l IH]; intros n H; cbn [position app] in *; [discriminate H|]. destruct (Nat.eqb x o); [exact H|].
  destruct (position o l) as [i|]; [|discriminate H]. rewrite (IH i eq_refl). exact H.
Qed.

Lemma position_new o l : position o l = None -> position o (l ++ [o]) = Some (List.length l).
Proof.
  induction l as [|x l IH]; intros H; cbn [position app List.length] in *; [rewrite Nat.eqb_refl; reflexivity|].
  destruct (Nat.eqb x o); [discriminate H|]. destruct (position o l); [discriminate H|]. rewrite IH; reflexivity.
Qed.

Lemma known_ext f f' o : ext f f' -> known f o -> known f' o /\ nm_of f' o = nm_of f o.
Proof.
  intros He Hk. unfold known, nm_of in *. destruct (He (name o)) as [t E]. rewrite E.
  destruct (position o (ops_of f (name o))) as [n|] eqn:Ep; [|contradiction]. rewrite (position_app _ _ _ _ Ep). split; [discriminate|reflexivity].
Qed.

Lemma ops_of_add f n o m : ops_of (add_op f n o) m = if String.eqb n m then ops_of f m ++ [o] else ops_of f m.
Proof.
  induction f as [|[x l] f IH]; cbn [add_op ops_of]; [destruct (String.eqb n m); reflexivity|].
  destruct (String.eqb x n) eqn:E; cbn [ops_of].
  - apply String.eqb_eq in E. subst x. destruct (String.eqb n m); reflexivity.
  - rewrite IH. destruct (String.eqb x m) eqn:E2; [|reflexivity]. apply String.eqb_eq in E2. subst x.
    destruct (String.eqb n m) eqn:E3; [|reflexivity]. apply String.eqb_eq in E3. subst n. rewrite String.eqb_refl in E. discriminate E.
Qed.

(** A computation that only extends the table, whose result is given by the final
    names and after which the operations [os] have names. *)
Definition names_by {A} (g : fresh -> A * fresh) (r : (nat -> string) -> A) (os : list nat) : Prop :=
  forall f, let (s, f') := g f in ext f f' /\ (forall f'', ext f' f'' -> s = r (nm_of f'')) /\ (forall o, In o os -> known f' o).

Lemma op_str_names o : names_by (op_str name o) (fun nm => nm o) [o].
Proof.
  intros f. unfold op_str. destruct (position o (ops_of f (name o))) as [n|] eqn:E.
  - assert (Hk : known f o) by (unfold known; congruence). split; [apply ext_refl|]. split; [|intros x [<-|[]]; exact Hk].
    intros f'' He. destruct (known_ext _ _ _ He Hk) as [_ ->]. unfold nm_of. rewrite E. reflexivity.
  - set (f1 := add_op f (name o) o). assert (Hp : position o (ops_of f1 (name o)) = Some (List.length (ops_of f (name o)))).
    { unfold f1. rewrite ops_of_add, String.eqb_refl. apply position_new. exact E. }
    assert (Hk : known f1 o) by (unfold known; congruence). split; [|split; [|intros x [<-|[]]; exact Hk]].
    + intros n. unfold f1. rewrite ops_of_add. destruct (String.eqb (name o) n); [exists [o]; reflexivity|exists []; symmetry; apply app_nil_r].
    + intros f'' He. destruct (known_ext _ _ _ He Hk) as [_ ->]. unfold nm_of. rewrite Hp. reflexivity.
Qed.

Lemma names_pair {A B} (g : fresh -> A * fresh) rg osg (h : fresh -> B * fresh) rh osh :
  names_by g rg osg -> names_by h rh osh ->
  names_by (fun f => let (a, f1) := g f in let (b, f2) := h f1 in ((a, b), f2)) (fun nm => (rg nm, rh nm)) (osg ++ osh).
Proof.
  intros Hg Hh f. specialize (Hg f). destruct (g f) as [a f1]. destruct Hg as (G1 & G2 & G3).
  specialize (Hh f1). destruct (h f1) as [b f2]. destruct Hh as (H1 & H2 & H3).
  split; [eapply ext_trans; eassumption|]. split.
  - intros f'' He. rewrite <- (G2 f''), <- (H2 f''); [reflexivity|exact He|eapply ext_trans; eassumption].
  - intros o Ho. apply in_app_or in Ho. destruct Ho as [Ho|Ho]; [|apply H3; exact Ho]. exact (proj1 (known_ext _ _ _ H1 (G3 o Ho))).
Qed.

Lemma names_map {A B} (g : fresh -> A * fresh) r os (h : A -> B) :
  names_by g r os -> names_by (fun f => let (a, f1) := g f in (h a, f1)) (fun nm => h (r nm)) os.
Proof.
  intros Hg f. specialize (Hg f). destruct (g f) as [a f1]. destruct Hg as (G1 & G2 & G3). split; [exact G1|]. split; [|exact G3].
  intros f'' He. rewrite (G2 f'' He). reflexivity.
Qed.

Lemma names_ext {A} (g g' : fresh -> A * fresh) r r' os : (forall f, g f = g' f) -> (forall nm, r nm = r' nm) -> names_by g r os -> names_by g' r' os.
Proof.
  intros H1 H2 Hg f. specialize (Hg f). rewrite <- H1. destruct (g f) as [a f1]. destruct Hg as (G1 & G2 & G3). split; [exact G1|]. split; [|exact G3].
  intros f'' He. rewrite <- H2. apply G2. exact He.
Qed.

Lemma names_ret {A} (a : A) : names_by (fun f => (a, f)) (fun _ => a) [].
Proof. intros f. split; [apply ext_refl|]. split; [reflexivity|intros o []]. Qed.

(** Lists *)
Definition mapf {X A} (g : X -> fresh -> A * fresh) :=
  fix go (l : list X) (f : fresh) : list A * fresh :=
    match l with [] => ([], f) | x :: l' => let (a, f1) := g x f in let (r, f2) := go l' f1 in (a :: r, f2) end.

Lemma names_list {X A} (g : X -> fresh -> A * fresh) (r : (nat -> string) -> X -> A) (os : X -> list nat) l :
  (forall x, In x l -> names_by (g x) (fun nm => r nm x) (os x)) ->
  names_by (mapf g l) (fun nm => map (r nm) l) (flat_map os l).
Proof.
  induction l as [|x l IH]; intros H; [apply names_ret|]. cbn [flat_map map].
  apply names_ext with (g := fun f => let (p, f2) := (let (a, f1) := g x f in let (b, f2) := mapf g l f1 in ((a, b), f2)) in (fst p :: snd p, f2))
    (r := fun nm => fst (r nm x, map (r nm) l) :: snd (r nm x, map (r nm) l)).
  - intros f. cbn [mapf]. destruct (g x f) as [a f1]. fold (mapf g). destruct (mapf g l f1); reflexivity.
  - intros nm. reflexivity.
  - apply (names_map _ _ _ (fun p => fst p :: snd p)). apply names_pair; [apply H; left; reflexivity|].
    apply IH. intros y Hy. apply H. right. exact Hy.
Qed.

Lemma maps_mapf g l f : maps g l f = mapf g l f.
Proof. revert f. induction l as [|x l IH]; intros f; cbn; [reflexivity|]. destruct (g x f). rewrite IH. reflexivity. Qed.
Lemma mapsk_mapf g l f : mapsk g l f = mapf (fun x f => let (s, f1) := g (snd x) f in ((fst x ++ "=" ++ s)%string, f1)) l f.
Proof. revert f. induction l as [|x l IH]; intros f; cbn; [reflexivity|]. destruct (g (snd x) f). rewrite IH. reflexivity. Qed.
Lemma mapsd_mapf g l f : mapsd g l f = mapf (fun x f => let (p, f2) := (let (s, f1) := g (fst x) f in let (s', f2) := g (snd x) f1 in ((s, s'), f2)) in ((fst p ++ ":" ++ snd p)%string, f2)) l f.
Proof. revert f. induction l as [|x l IH]; intros f; cbn; [reflexivity|]. destruct (g (fst x) f) as [s f1]. destruct (g (snd x) f1) as [s' f2]. rewrite IH. reflexivity. Qed.
Lemma mape_mapf g l f : mape g l f = mapf g l f.
Proof. revert f. induction l as [|x l IH]; intros f; cbn; [reflexivity|]. destruct (g x f). rewrite IH. reflexivity. Qed.
Lemma mapek_mapf g l f : mapek g l f = mapf (fun x f => let (s, f1) := g (snd x) f in ((fst x, s), f1)) l f.
Proof. revert f. induction l as [|x l IH]; intros f; cbn; [reflexivity|]. destruct (g (snd x) f). rewrite IH. reflexivity. Qed.
Lemma maped_mapf g l f : maped g l f = mapf (fun x f => let (s, f1) := g (fst x) f in let (s', f2) := g (snd x) f1 in ((s, s'), f2)) l f.
Proof. revert f. induction l as [|x l IH]; intros f; cbn; [reflexivity|]. destruct (g (fst x) f) as [s f1]. destruct (g (snd x) f1) as [s' f2]. rewrite IH. reflexivity. Qed.

(** ** Induction *)
Section Ind.
Variable P : pexpr -> Prop.
Hypothesis HText : forall s, P (PText s).
Hypothesis HOp : forall o, P (POp o).
Hypothesis HTerm : forall o a k, (forall e, In e a -> P e) -> (forall x, In x k -> P (snd x)) -> P (PTerm o a k).
Hypothesis HList : forall l, (forall e, In e l -> P e) -> P (PList l).
Hypothesis HTuple : forall l, (forall e, In e l -> P e) -> P (PTuple l).
Hypothesis HDict : forall l, (forall x, In x l -> P (fst x) /\ P (snd x)) -> P (PDict l).
Hypothesis HOther : forall s l, (forall e, In e l -> P e) -> P (POther s l).
Fixpoint pexpr_ind2 (e : pexpr) : P e.
Proof.
  destruct e as [s|o|o a k|l|l|l|s l].
  - apply HText.
  - apply HOp.
  - apply HTerm.
    + induction a as [|x a IH]; intros e He; [destruct He|]. destruct He as [<-|He]; [apply pexpr_ind2|apply IH; exact He].
    + induction k as [|x k IH]; intros e He; [destruct He|]. destruct He as [<-|He]; [apply pexpr_ind2|apply IH; exact He].
  - apply HList. induction l as [|x a IH]; intros e He; [destruct He|]. destruct He as [<-|He]; [apply pexpr_ind2|apply IH; exact He].
  - apply HTuple. induction l as [|x a IH]; intros e He; [destruct He|]. destruct He as [<-|He]; [apply pexpr_ind2|apply IH; exact He].
  - apply HDict. induction l as [|x a IH]; intros e He; [destruct He|]. destruct He as [<-|He]; [split; apply pexpr_ind2|apply IH; exact He].
  - apply HOther. induction l as [|x a IH]; intros e He; [destruct He|]. destruct He as [<-|He]; [apply pexpr_ind2|apply IH; exact He].
Qed.
End Ind.

(** Values after evaluation: no terms inside. *)
Fixpoint flat (e : pexpr) : bool :=
  match e with
  | PText _ | POp _ => true
  | PTerm _ _ _ => false
  | PList l | PTuple l | POther _ l => forallb flat l
  | PDict l => forallb (fun x => flat (fst x) && flat (snd x)) l
  end.

Fixpoint evalp (nm : nat -> string) (e : pexpr) : pexpr :=
  match e with
  | PText s => PText s
  | POp o => POp o
  | PTerm o a k => PText (render nm repr false (PTerm o a k))
  | PList l => PList (map (evalp nm) l)
  | PTuple l => PTuple (map (evalp nm) l)
  | PDict l => PDict (map (fun x => (evalp nm (fst x), evalp nm (snd x))) l)
  | POther s l => POther s (map (evalp nm) l)
  end.

Lemma flat_evalp nm e : flat (evalp nm e) = true.
Proof.
  induction e as [s|o|o a k _ _|l IH|l IH|l IH|s l IH] using pexpr_ind2; cbn [evalp flat]; try reflexivity;
    apply forallb_forall; intros x Hx; apply in_map_iff in Hx; destruct Hx as (y & <- & Hy); try (apply IH; exact Hy).
  cbn [fst snd]. destruct (IH y Hy) as [-> ->]. reflexivity.
Qed.

Lemma render_evalp nm e : forall deep, render nm repr deep (evalp nm e) = render nm repr deep e.
Proof.
  assert (M : forall l deep, (forall e, In e l -> forall d, render nm repr d (evalp nm e) = render nm repr d e) ->
    map (render nm repr deep) (map (evalp nm) l) = map (render nm repr deep) l).
  { intros l deep H. rewrite map_map. apply map_ext_in. intros u He. apply H. exact He. }
  induction e as [s|o|o a k _ _|l IH|l IH|l IH|s l IH] using pexpr_ind2; intros deep; cbn [evalp]; try reflexivity.
  - cbn [render]. rewrite M by exact IH. reflexivity.
  - cbn [render]. rewrite M by exact IH. reflexivity.
  - cbn [render]. rewrite map_map. do 2 f_equal. f_equal. apply map_ext_in. intros x Hx. cbn [fst snd].
    destruct (IH x Hx) as [E1 E2]. rewrite E1, E2. reflexivity.
  - cbn [render]. rewrite M by exact IH. reflexivity.
Qed.

Lemma repr_render nm e : flat e = true -> repr_str repr e = render nm repr true e.
Proof.
  assert (M : forall l, (forall e, In e l -> flat e = true -> repr_str repr e = render nm repr true e) -> forallb flat l = true ->
    map (repr_str repr) l = map (render nm repr true) l).
  { intros l H F. apply map_ext_in. intros u He. apply H; [exact He|]. rewrite forallb_forall in F. apply F. exact He. }
  induction e as [s|o|o a k _ _|l IH|l IH|l IH|s l IH] using pexpr_ind2; intros F; cbn [flat] in F; try reflexivity; try discriminate F;
    cbn [repr_str render]; try (rewrite M by assumption; reflexivity).
  do 2 f_equal. f_equal. apply map_ext_in. intros x Hx. rewrite forallb_forall in F. specialize (F x Hx). apply andb_prop in F.
  destruct F as [F1 F2]. destruct (IH x Hx) as [E1 E2]. rewrite E1, E2 by assumption. reflexivity.
Qed.

(** Operations of a flat value that are printed by name. *)
Lemma term_str_names e : flat e = true ->
  names_by (term_str name repr e) (fun nm => render nm repr false e) (shown false e).
Proof.
  induction e as [s|o|o a k _ _|l IH|l IH|l IH|s l IH] using pexpr_ind2; intros F; cbn [flat] in F; try discriminate F.
  - apply names_ret.
  - apply op_str_names.
  - rewrite forallb_forall in F. apply names_ext with (g := fun f => let (r, f') := mapf (term_str name repr) l f in (("[" ++ join r ++ "]")%string, f'))
      (r := fun nm => ("[" ++ join (map (render nm repr false) l) ++ "]")%string).
    + intros f. cbn [term_str]. first [reflexivity|symmetry; rewrite maps_mapf; reflexivity].
    + reflexivity.
    + apply (names_map _ _ _ (fun r => ("[" ++ join r ++ "]")%string)). cbn [shown]. apply names_list. intros x Hx. apply IH; auto.
  - rewrite forallb_forall in F. apply names_ext with (g := fun f => let (r, f') := mapf (term_str name repr) l f in (("(" ++ join r ++ ")")%string, f'))
      (r := fun nm => ("(" ++ join (map (render nm repr false) l) ++ ")")%string).
    + intros f. cbn [term_str]. first [reflexivity|symmetry; rewrite maps_mapf; reflexivity].
    + reflexivity.
    + apply (names_map _ _ _ (fun r => ("(" ++ join r ++ ")")%string)). cbn [shown]. apply names_list. intros x Hx. apply IH; auto.
  - rewrite forallb_forall in F.
    assert (H : names_by (mapf (fun x f => let (p, f2) := (let (s, f1) := term_str name repr (fst x) f in let (s', f2) := term_str name repr (snd x) f1 in ((s, s'), f2)) in ((fst p ++ ":" ++ snd p)%string, f2)) l)
      (fun nm => map (fun x => (render nm repr false (fst x) ++ ":" ++ render nm repr false (snd x))%string) l) (flat_map (fun x => shown false (fst x) ++ shown false (snd x)) l)).
    { apply (names_list _ (fun nm x => (render nm repr false (fst x) ++ ":" ++ render nm repr false (snd x))%string) (fun x => shown false (fst x) ++ shown false (snd x))).
      intros x Hx. specialize (F x Hx). apply andb_prop in F. destruct F as [F1 F2]. destruct (IH x Hx) as [I1 I2].
      exact (names_map _ _ _ (fun p => (fst p ++ ":" ++ snd p)%string) (names_pair _ _ _ _ _ _ (I1 F1) (I2 F2))). }
    refine (names_ext _ _ _ _ _ _ _ (names_map _ _ _ (fun r => ("{" ++ join r ++ "}")%string) H)).
    + intros f. cbn [term_str]. rewrite (mapsd_mapf (term_str name repr) l f). reflexivity.
    + reflexivity.
  - cbn [shown]. assert (E : flat_map (shown true) l = []).
    { rewrite forallb_forall in F. clear -F. assert (G : forall e, flat e = true -> shown true e = []).
      { induction e as [s|o|o a k _ _|l' IH|l' IH|l' IH|s l' IH] using pexpr_ind2; intros Fe; cbn [flat shown] in *; try reflexivity; try discriminate Fe;
          rewrite forallb_forall in Fe; induction l' as [|x l' IHl]; try reflexivity; cbn [flat_map].
        1,2,4: rewrite IH by (try (left; reflexivity); apply Fe; left; reflexivity); apply IHl; intros; [apply IH; [right; assumption|assumption]|apply Fe; right; assumption].
        destruct (IH x (or_introl eq_refl)) as [I1 I2]. specialize (Fe x (or_introl eq_refl)) as Fx. apply andb_prop in Fx. destruct Fx as [F1 F2].
        rewrite I1, I2 by assumption. apply IHl; intros; [apply IH; right; assumption|apply Fe; right; assumption]. }
      induction l as [|x l IHl]; [reflexivity|]. cbn [flat_map]. rewrite G by (apply F; left; reflexivity). apply IHl. intros y Hy. apply F. right. exact Hy. }
    rewrite E. eapply names_ext; [| |apply (names_ret (repr_str repr (POther s l)))].
    + intros f. reflexivity.
    + intros nm. cbn beta. rewrite (repr_render nm); [reflexivity|]. exact F.
Qed.

Lemma apply_str_names o a k : forallb flat a = true -> forallb (fun x => flat (snd x)) k = true ->
  names_by (apply_str name repr o a k) (fun nm => render nm repr false (PTerm o a k)) (shown false (PTerm o a k)).
Proof.
  intros Fa Fk. rewrite forallb_forall in Fa, Fk.
  assert (Ha : names_by (mapf (term_str name repr) a) (fun nm => map (render nm repr false) a) (flat_map (shown false) a)).
  { apply names_list. intros x Hx. apply term_str_names. apply Fa. exact Hx. }
  assert (Hk : names_by (mapf (fun x f => let (s, f1) := term_str name repr (snd x) f in ((fst x ++ "=" ++ s)%string, f1)) k)
      (fun nm => map (fun x => (fst x ++ "=" ++ render nm repr false (snd x))%string) k) (flat_map (fun x => shown false (snd x)) k)).
  { apply (names_list _ (fun nm x => (fst x ++ "=" ++ render nm repr false (snd x))%string)). intros x Hx.
    apply (names_map _ (fun nm => render nm repr false (snd x)) _ (fun s => (fst x ++ "=" ++ s)%string)). apply term_str_names. apply Fk. exact Hx. }
  pose proof (names_pair _ _ _ _ _ _ (names_pair _ _ _ _ _ _ Ha Hk) (op_str_names o)) as H.
  apply (names_map _ _ _ (fun p => (snd p ++ "(" ++ join (fst (fst p)) ++ (if nonempty k then (if nonempty a then ", " else "") else "") ++ join (snd (fst p)) ++ ")")%string)) in H.
  intros f. specialize (H f). cbv beta in H. unfold apply_str. rewrite (maps_mapf (term_str name repr) a f). destruct (mapf (term_str name repr) a f) as [ra f1].
  rewrite mapsk_mapf. destruct (mapf _ k f1) as [rk f2]. destruct (op_str name o f2) as [s f3]. cbn [fst snd] in H.
  cbv beta iota in H. destruct H as (H1 & H2 & H3). split; [exact H1|]. split.
  - intros f'' He. rewrite (H2 f'' He). cbn [render]. unfold sep. destruct a as [|e a], k as [|x k]; reflexivity.
  - intros v Hv. apply H3. cbn [shown] in Hv. rewrite <- !app_assoc. destruct Hv as [<-|Hv]; rewrite !in_app_iff; [right; right; left; reflexivity|].
    apply in_app_or in Hv. tauto.
Qed.

(** Operations named while evaluating. *)
Fixpoint inner (e : pexpr) : list nat :=
  match e with
  | PText _ | POp _ => []
  | PTerm o a k => shown false (PTerm o a k)
  | PList l | PTuple l | POther _ l => flat_map inner l
  | PDict l => flat_map (fun x => inner (fst x) ++ inner (snd x)) l
  end.

Lemma shown_evalp nm e : forall deep v, In v (shown deep e) -> In v (inner e) \/ In v (shown deep (evalp nm e)).
Proof.
  induction e as [s|o|o a k _ _|l IH|l IH|l IH|s l IH] using pexpr_ind2; intros deep v Hv; cbn [evalp inner].
  - destruct Hv.
  - right. exact Hv.
  - left. exact Hv.
  - cbn [shown] in *. apply in_flat_map in Hv. destruct Hv as (x & Hx & Hv). destruct (IH x Hx _ _ Hv) as [H|H].
    + left. apply in_flat_map. exists x. auto.
    + right. apply in_flat_map. exists (evalp nm x). split; [apply in_map; exact Hx|exact H].
  - cbn [shown] in *. apply in_flat_map in Hv. destruct Hv as (x & Hx & Hv). destruct (IH x Hx _ _ Hv) as [H|H].
    + left. apply in_flat_map. exists x. auto.
    + right. apply in_flat_map. exists (evalp nm x). split; [apply in_map; exact Hx|exact H].
  - cbn [shown] in *. apply in_flat_map in Hv. destruct Hv as (x & Hx & Hv). destruct (IH x Hx) as [I1 I2].
    apply in_app_or in Hv. destruct Hv as [Hv|Hv].
    + destruct (I1 _ _ Hv) as [H|H]; [left|right]; apply in_flat_map.
      * exists x. split; [exact Hx|]. apply in_or_app. left. exact H.
      * exists (evalp nm (fst x), evalp nm (snd x)). split; [apply (in_map (fun x => (evalp nm (fst x), evalp nm (snd x)))); exact Hx|]. apply in_or_app. left. exact H.
    + destruct (I2 _ _ Hv) as [H|H]; [left|right]; apply in_flat_map.
      * exists x. split; [exact Hx|]. apply in_or_app. right. exact H.
      * exists (evalp nm (fst x), evalp nm (snd x)). split; [apply (in_map (fun x => (evalp nm (fst x), evalp nm (snd x)))); exact Hx|]. apply in_or_app. right. exact H.
  - cbn [shown] in *. apply in_flat_map in Hv. destruct Hv as (x & Hx & Hv). destruct (IH x Hx _ _ Hv) as [H|H].
    + left. apply in_flat_map. exists x. auto.
    + right. apply in_flat_map. exists (evalp nm x). split; [apply in_map; exact Hx|exact H].
Qed.

Lemma eval_str_names e : names_by (eval_str name repr e) (fun nm => evalp nm e) (inner e).
Proof.
  induction e as [s|o|o a k IHa IHk|l IH|l IH|l IH|s l IH] using pexpr_ind2.
  - apply names_ret.
  - apply names_ret.
  - assert (Ha : names_by (mapf (eval_str name repr) a) (fun nm => map (evalp nm) a) (flat_map inner a)) by (apply names_list; exact IHa).
    assert (Hk : names_by (mapf (fun x f => let (s, f1) := eval_str name repr (snd x) f in ((fst x, s), f1)) k)
      (fun nm => map (fun x => (fst x, evalp nm (snd x))) k) (flat_map (fun x => inner (snd x)) k)).
    { apply (names_list _ (fun nm x => (fst x, evalp nm (snd x)))). intros x Hx.
      apply (names_map _ (fun nm => evalp nm (snd x)) _ (fun s => (fst x, s))). apply IHk. exact Hx. }
    intros f. pose proof (names_pair _ _ _ _ _ _ Ha Hk f) as H. cbv beta in H. cbn [eval_str].
    rewrite mape_mapf. destruct (mapf (eval_str name repr) a f) as [a' f1].
    rewrite mapek_mapf. destruct (mapf _ k f1) as [k' f2]. destruct H as (H1 & H2 & H3).
    pose proof (H2 f2 (ext_refl f2)) as E. pose proof (f_equal fst E) as Ea. pose proof (f_equal snd E) as Ek. cbn [fst snd] in Ea, Ek. clear E.
    assert (Fa : forallb flat a' = true).
    { rewrite Ea. apply forallb_forall. intros x Hx. apply in_map_iff in Hx. destruct Hx as (y & <- & _). apply flat_evalp. }
    assert (Fk : forallb (fun x => flat (snd x)) k' = true).
    { rewrite Ek. apply forallb_forall. intros x Hx. apply in_map_iff in Hx. destruct Hx as (y & <- & _). apply flat_evalp. }
    pose proof (apply_str_names o a' k' Fa Fk f2) as A. destruct (apply_str name repr o a' k' f2) as [s f3]. destruct A as (A1 & A2 & A3).
    split; [eapply ext_trans; eassumption|]. split.
    + intros f'' He. rewrite (A2 f'' He). cbn [evalp]. f_equal.
      assert (He2 : ext f2 f'') by (eapply ext_trans; eassumption). specialize (H2 f'' He2). pose proof (f_equal fst H2) as Ea2. pose proof (f_equal snd H2) as Ek2. cbn [fst snd] in Ea2, Ek2.
      change (PTerm o a' k') with (PTerm o a' k'). cbn [render]. rewrite Ea2, Ek2, !map_map. cbn [fst snd].
      assert (R1 : map (fun x => render (nm_of f'') repr false (evalp (nm_of f'') x)) a = map (render (nm_of f'') repr false) a) by (apply map_ext; intros x; apply render_evalp).
      assert (R2 : map (fun x : string * pexpr => (fst x ++ "=" ++ render (nm_of f'') repr false (evalp (nm_of f'') (snd x)))%string) k = map (fun x => (fst x ++ "=" ++ render (nm_of f'') repr false (snd x))%string) k) by (apply map_ext; intros x; rewrite render_evalp; reflexivity).
      rewrite R1, R2. unfold sep. destruct a, k; reflexivity.
    + intros v Hv. cbn [inner] in Hv. cbn [shown] in Hv, A3.
      assert (K : forall w, In w (flat_map inner a ++ flat_map (fun x => inner (snd x)) k) -> known f3 w) by (intros w Hw; exact (proj1 (known_ext _ _ _ A1 (H3 w Hw)))).
      destruct Hv as [<-|Hv]; [apply A3; left; reflexivity|]. apply in_app_or in Hv. destruct Hv as [Hv|Hv].
      * apply in_flat_map in Hv. destruct Hv as (x & Hx & Hv). destruct (shown_evalp (nm_of f2) x _ _ Hv) as [H|H].
        -- apply K. apply in_or_app. left. apply in_flat_map. exists x. auto.
        -- apply A3. right. apply in_or_app. left. apply in_flat_map. exists (evalp (nm_of f2) x). split; [rewrite Ea; apply in_map; exact Hx|exact H].
      * apply in_flat_map in Hv. destruct Hv as (x & Hx & Hv). destruct (shown_evalp (nm_of f2) (snd x) _ _ Hv) as [H|H].
        -- apply K. apply in_or_app. right. apply in_flat_map. exists x. auto.
        -- apply A3. right. apply in_or_app. right. apply in_flat_map. exists (fst x, evalp (nm_of f2) (snd x)). split; [|exact H].
           rewrite Ek. apply (in_map (fun x => (fst x, evalp (nm_of f2) (snd x)))). exact Hx.
  - refine (names_ext _ _ _ _ _ _ _ (names_map _ _ _ PList (names_list (eval_str name repr) (fun nm e => evalp nm e) inner l IH))).
    + intros f. cbn [eval_str]. first [reflexivity|symmetry; rewrite mape_mapf; reflexivity].
    + reflexivity.
  - refine (names_ext _ _ _ _ _ _ _ (names_map _ _ _ PTuple (names_list (eval_str name repr) (fun nm e => evalp nm e) inner l IH))).
    + intros f. cbn [eval_str]. first [reflexivity|symmetry; rewrite mape_mapf; reflexivity].
    + reflexivity.
  - assert (H : names_by (mapf (fun x f => let (s, f1) := eval_str name repr (fst x) f in let (s', f2) := eval_str name repr (snd x) f1 in ((s, s'), f2)) l)
      (fun nm => map (fun x => (evalp nm (fst x), evalp nm (snd x))) l) (flat_map (fun x => inner (fst x) ++ inner (snd x)) l)).
    { apply (names_list _ (fun nm x => (evalp nm (fst x), evalp nm (snd x))) (fun x => inner (fst x) ++ inner (snd x))).
      intros x Hx. destruct (IH x Hx) as [I1 I2]. exact (names_pair _ _ _ _ _ _ I1 I2). }
    refine (names_ext _ _ _ _ _ _ _ (names_map _ _ _ PDict H)).
    + intros f. cbn [eval_str]. rewrite (maped_mapf (eval_str name repr) l f). reflexivity.
    + reflexivity.
  - refine (names_ext _ _ _ _ _ _ _ (names_map _ _ _ (POther s) (names_list (eval_str name repr) (fun nm e => evalp nm e) inner l IH))).
    + intros f. cbn [eval_str]. first [reflexivity|symmetry; rewrite mape_mapf; reflexivity].
    + reflexivity.
Qed.

(** ** The result *)

Lemma nm_inj f o o' : (forall x y, known f x -> known f y -> ~ suffixed (name x) (name y)) ->
  known f o -> known f o' -> nm_of f o = nm_of f o' -> o = o'.
Proof.
  intros Hs Ho Ho'. unfold nm_of. pose proof Ho as K. pose proof Ho' as K'. unfold known in K, K'.
  destruct (position o (ops_of f (name o))) as [n|] eqn:E; [|contradiction].
  destruct (position o' (ops_of f (name o'))) as [n'|] eqn:E'; [|contradiction]. intros H.
  assert (P : forall l x y i, position x l = Some i -> position y l = Some i -> x = y).
  { clear. induction l as [|z l IH]; intros x y i Hx Hy; cbn [position] in *; [discriminate Hx|].
    destruct (Nat.eqb z x) eqn:E1, (Nat.eqb z y) eqn:E2.
    - apply Nat.eqb_eq in E1, E2. congruence.
    - inversion Hx; subst. destruct (position y l); discriminate Hy.
    - inversion Hy; subst. destruct (position x l); discriminate Hx.
    - destruct (position x l) as [a|] eqn:A; [|discriminate Hx]. destruct (position y l) as [b|] eqn:B; [|discriminate Hy].
      inversion Hx; inversion Hy; subst. apply (IH x y a); congruence. }
  assert (Q : name o = name o' /\ n = n').
  { destruct n as [|n], n' as [|n']; cbn [numbered] in H.
    - auto.
    - exfalso. apply (Hs o' o Ho' Ho). exists (S n'). exact H.
    - exfalso. apply (Hs o o' Ho Ho'). exists (S n). symmetry. exact H.
    - cbn [append] in H. apply app_inv in H; [|apply bangs_show|apply bangs_show]. destruct H as [H1 H2]. apply show_inj in H2. auto. }
  destruct Q as [Q1 Q2]. subst n'. rewrite <- Q1 in E'. exact (P _ _ _ _ E E').
Qed.

Definition only_known (f : fresh) (os : list nat) := forall o, known f o -> In o os.

(** Nothing else gets into the table. *)
Definition only {A} (g : fresh -> A * fresh) (os : list nat) : Prop :=
  forall f, let (s, f') := g f in forall o, known f' o -> known f o \/ In o os.

Lemma only_ret {A} (a : A) : only (fun f => (a, f)) [].
Proof. intros f o H. left. exact H. Qed.

Lemma only_op o : only (op_str name o) [o].
Proof.
  intros f. unfold op_str. destruct (position o (ops_of f (name o))) as [n|] eqn:E; [intros v H; left; exact H|].
  intros v Hv. unfold known in *. rewrite ops_of_add in Hv. destruct (String.eqb (name o) (name v)) eqn:En; [|left; exact Hv].
  destruct (Nat.eq_dec o v) as [->|Hne]; [right; left; reflexivity|left]. intros Hn. apply Hv.
  revert Hn. generalize (ops_of f (name v)). intros l. induction l as [|x l IH]; cbn [position app]; intros Hn.
  - rewrite (proj2 (Nat.eqb_neq _ _) Hne). reflexivity.
  - destruct (Nat.eqb x v); [discriminate Hn|]. destruct (position v l); [discriminate Hn|]. rewrite IH; reflexivity.
Qed.

Lemma only_weaken {A} (g : fresh -> A * fresh) os os' : incl os os' -> only g os -> only g os'.
Proof. intros Hi Hg f. specialize (Hg f). destruct (g f) as [a f1]. intros o Ho. destruct (Hg o Ho) as [H|H]; [left; exact H|right; apply Hi; exact H]. Qed.

Lemma only_list {X A} (g : X -> fresh -> A * fresh) (os : X -> list nat) l :
  (forall x, In x l -> only (g x) (os x)) -> only (mapf g l) (flat_map os l).
Proof.
  induction l as [|x l IH]; intros H; [apply only_ret|]. intros f. cbn [mapf]. pose proof (H x (or_introl eq_refl) f) as Hx.
  destruct (g x f) as [a f1]. fold (mapf g). assert (IH' : only (mapf g l) (flat_map os l)) by (apply IH; intros y Hy; apply H; right; exact Hy).
  specialize (IH' f1). destruct (mapf g l f1) as [r f2]. intros o Ho. cbn [flat_map]. rewrite in_app_iff.
  destruct (IH' o Ho) as [K|K]; [destruct (Hx o K); tauto|tauto].
Qed.

Lemma term_str_only e : flat e = true -> only (term_str name repr e) (shown false e).
Proof.
  induction e as [s|o|o a k _ _|l IH|l IH|l IH|s l IH] using pexpr_ind2; intros F; cbn [flat] in F; try discriminate F.
  - apply only_ret.
  - apply only_op.
  - rewrite forallb_forall in F. intros f. cbn [term_str shown]. rewrite maps_mapf.
    assert (H : only (mapf (term_str name repr) l) (flat_map (shown false) l)) by (apply only_list; intros; apply IH; auto).
    specialize (H f). destruct (mapf _ l f). exact H.
  - rewrite forallb_forall in F. intros f. cbn [term_str shown]. rewrite maps_mapf.
    assert (H : only (mapf (term_str name repr) l) (flat_map (shown false) l)) by (apply only_list; intros; apply IH; auto).
    specialize (H f). destruct (mapf _ l f). exact H.
  - rewrite forallb_forall in F. intros f. cbn [term_str shown]. rewrite mapsd_mapf.
    match goal with |- context [mapf ?g l f] => assert (H : only (mapf g l) (flat_map (fun x => shown false (fst x) ++ shown false (snd x)) l)) end.
    { apply (only_list _ (fun x => shown false (fst x) ++ shown false (snd x))). intros x Hx. specialize (F x Hx). apply andb_prop in F. destruct F as [F1 F2].
      destruct (IH x Hx) as [I1 I2]. specialize (I1 F1). specialize (I2 F2). intros g. specialize (I1 g). destruct (term_str name repr (fst x) g) as [s g1].
      specialize (I2 g1). destruct (term_str name repr (snd x) g1) as [s' g2]. intros o Ho. rewrite in_app_iff. destruct (I2 o Ho) as [K|K]; [destruct (I1 o K); tauto|tauto]. }
    specialize (H f). destruct (mapf _ l f). exact H.
  - intros f o H. left. exact H.
Qed.

Lemma apply_str_only o a k : forallb flat a = true -> forallb (fun x => flat (snd x)) k = true ->
  only (apply_str name repr o a k) (shown false (PTerm o a k)).
Proof.
  intros Fa Fk. rewrite forallb_forall in Fa, Fk.
  assert (Ha : only (mapf (term_str name repr) a) (flat_map (shown false) a)) by (apply only_list; intros x Hx; apply term_str_only; auto).
  assert (Hk : only (mapf (fun x f => let (s, f1) := term_str name repr (snd x) f in ((fst x ++ "=" ++ s)%string, f1)) k) (flat_map (fun x => shown false (snd x)) k)).
  { apply (only_list _ (fun x => shown false (snd x))). intros x Hx f. pose proof (term_str_only (snd x) (Fk x Hx) f) as H. destruct (term_str name repr (snd x) f). exact H. }
  intros f. unfold apply_str. rewrite maps_mapf. specialize (Ha f). destruct (mapf (term_str name repr) a f) as [ra f1].
  rewrite mapsk_mapf. specialize (Hk f1). destruct (mapf _ k f1) as [rk f2]. pose proof (only_op o f2) as Ho. destruct (op_str name o f2) as [s f3].
  intros v Hv. cbn [shown]. destruct (Ho v Hv) as [K|[<-|[]]]; [|right; left; reflexivity].
  destruct (Hk v K) as [K2|K2]; [|right; right; apply in_or_app; right; exact K2].
  destruct (Ha v K2) as [K3|K3]; [left; exact K3|right; right; apply in_or_app; left; exact K3].
Qed.

Lemma shown_back nm e : forall deep v, In v (shown deep (evalp nm e)) -> In v (shown deep e).
Proof.
  induction e as [s|o|o a k _ _|l IH|l IH|l IH|s l IH] using pexpr_ind2; intros deep v Hv; cbn [evalp shown] in *; try exact Hv; try (destruct Hv; fail).
  1,2,4: apply in_flat_map in Hv; destruct Hv as (x & Hx & Hv); apply in_map_iff in Hx; destruct Hx as (y & <- & Hy); apply in_flat_map; exists y; split; [exact Hy|apply IH; assumption].
  apply in_flat_map in Hv. destruct Hv as (x & Hx & Hv). apply in_map_iff in Hx. destruct Hx as (y & <- & Hy). cbn [fst snd] in Hv.
  apply in_flat_map. exists y. split; [exact Hy|]. destruct (IH y Hy) as [I1 I2]. apply in_app_or in Hv. apply in_or_app. destruct Hv as [Hv|Hv]; [left; apply I1|right; apply I2]; exact Hv.
Qed.

Lemma inner_shown e : forall deep, incl (inner e) (shown deep e).
Proof.
  induction e as [s|o|o a k _ _|l IH|l IH|l IH|s l IH] using pexpr_ind2; intros deep v Hv; cbn [inner shown] in *; try (destruct Hv; fail); try exact Hv.
  1,2,4: apply in_flat_map in Hv; destruct Hv as (x & Hx & Hv); apply in_flat_map; exists x; split; [exact Hx|apply IH; assumption].
  apply in_flat_map in Hv. destruct Hv as (x & Hx & Hv). apply in_flat_map. exists x. split; [exact Hx|].
  destruct (IH x Hx) as [I1 I2]. apply in_app_or in Hv. apply in_or_app. destruct Hv as [Hv|Hv]; [left; apply I1|right; apply I2]; exact Hv.
Qed.

Lemma eval_str_only e : only (eval_str name repr e) (inner e).
Proof.
  induction e as [s|o|o a k IHa IHk|l IH|l IH|l IH|s l IH] using pexpr_ind2.
  - apply only_ret.
  - apply only_ret.
  - assert (Na : names_by (mapf (eval_str name repr) a) (fun nm => map (evalp nm) a) (flat_map inner a)) by (apply names_list; intros x _; apply eval_str_names).
    assert (Nk : names_by (mapf (fun x f => let (s, f1) := eval_str name repr (snd x) f in ((fst x, s), f1)) k)
      (fun nm => map (fun x => (fst x, evalp nm (snd x))) k) (flat_map (fun x => inner (snd x)) k)).
    { apply (names_list _ (fun nm x => (fst x, evalp nm (snd x)))). intros x Hx.
      apply (names_map _ (fun nm => evalp nm (snd x)) _ (fun s => (fst x, s))). apply eval_str_names. }
    assert (Ha : only (mapf (eval_str name repr) a) (flat_map inner a)) by (apply only_list; exact IHa).
    assert (Hk : only (mapf (fun x f => let (s, f1) := eval_str name repr (snd x) f in ((fst x, s), f1)) k) (flat_map (fun x => inner (snd x)) k)).
    { apply (only_list _ (fun x => inner (snd x))). intros x Hx f. pose proof (IHk x Hx f) as H. destruct (eval_str name repr (snd x) f). exact H. }
    intros f. cbn [eval_str]. rewrite mape_mapf. specialize (Ha f). specialize (Na f). destruct (mapf (eval_str name repr) a f) as [a' f1].
    rewrite mapek_mapf. specialize (Hk f1). specialize (Nk f1). destruct (mapf _ k f1) as [k' f2].
    destruct Na as (_ & Na & _), Nk as (_ & Nk & _). specialize (Na f1 (ext_refl _)). specialize (Nk f2 (ext_refl _)).
    assert (Fa : forallb flat a' = true).
    { rewrite Na. apply forallb_forall. intros x Hx. apply in_map_iff in Hx. destruct Hx as (y & <- & _). apply flat_evalp. }
    assert (Fk : forallb (fun x => flat (snd x)) k' = true).
    { rewrite Nk. apply forallb_forall. intros x Hx. apply in_map_iff in Hx. destruct Hx as (y & <- & _). apply flat_evalp. }
    pose proof (apply_str_only o a' k' Fa Fk f2) as A. destruct (apply_str name repr o a' k' f2) as [s f3].
    intros v Hv. cbn [inner shown].
    assert (IA : forall w, In w (flat_map inner a) -> In w (flat_map (shown false) a)).
    { intros w Hw. apply in_flat_map in Hw. destruct Hw as (x & Hx & Hw). apply in_flat_map. exists x. split; [exact Hx|]. apply inner_shown. exact Hw. }
    assert (IK : forall w, In w (flat_map (fun x => inner (snd x)) k) -> In w (flat_map (fun x => shown false (snd x)) k)).
    { intros w Hw. apply in_flat_map in Hw. destruct Hw as (x & Hx & Hw). apply in_flat_map. exists x. split; [exact Hx|]. apply inner_shown. exact Hw. }
    destruct (A v Hv) as [K|K].
    + destruct (Hk v K) as [K2|K2]; [|right; right; apply in_or_app; right; apply IK; exact K2].
      destruct (Ha v K2) as [K3|K3]; [left; exact K3|right; right; apply in_or_app; left; apply IA; exact K3].
    + right. cbn [shown] in K. destruct K as [<-|K]; [left; reflexivity|right]. apply in_app_or in K. apply in_or_app. destruct K as [K|K].
      * left. apply in_flat_map in K. destruct K as (x & Hx & K). rewrite Na in Hx. apply in_map_iff in Hx. destruct Hx as (y & <- & Hy).
        apply in_flat_map. exists y. split; [exact Hy|]. eapply shown_back; exact K.
      * right. apply in_flat_map in K. destruct K as (x & Hx & K). rewrite Nk in Hx. apply in_map_iff in Hx. destruct Hx as (y & <- & Hy).
        apply in_flat_map. exists y. split; [exact Hy|]. eapply shown_back; exact K.
  - intros f. cbn [eval_str inner]. rewrite mape_mapf. pose proof (only_list _ _ l IH f) as H. destruct (mapf _ l f). exact H.
  - intros f. cbn [eval_str inner]. rewrite mape_mapf. pose proof (only_list _ _ l IH f) as H. destruct (mapf _ l f). exact H.
  - intros f. cbn [eval_str inner]. rewrite maped_mapf.
    match goal with |- context [mapf ?g l f] => assert (H : only (mapf g l) (flat_map (fun x => inner (fst x) ++ inner (snd x)) l)) end.
    { apply (only_list _ (fun x => inner (fst x) ++ inner (snd x))). intros x Hx.
      destruct (IH x Hx) as [I1 I2]. intros g. specialize (I1 g). destruct (eval_str name repr (fst x) g) as [s g1].
      specialize (I2 g1). destruct (eval_str name repr (snd x) g1) as [s' g2]. intros o Ho. rewrite in_app_iff. destruct (I2 o Ho) as [K|K]; [destruct (I1 o K); tauto|tauto]. }
    specialize (H f). destruct (mapf _ l f). exact H.
  - intros f. cbn [eval_str inner]. rewrite mape_mapf. pose proof (only_list _ _ l IH f) as H. destruct (mapf _ l f). exact H.
Qed.

(** Printing a term is rendering it with names that tell the printed operations apart
    and are the operations' own names with a number added where needed. *)
Theorem str_render o a k : let t := PTerm o a k in
  (forall x y, In x (shown false t) -> In y (shown false t) -> ~ suffixed (name x) (name y)) ->
  exists nm, str name repr t = render nm repr false t /\
    (forall x y, In x (shown false t) -> In y (shown false t) -> nm x = nm y -> x = y) /\
    (forall x, In x (shown false t) -> nm x = name x \/ suffixed (name x) (nm x)).
Proof.
  intros t Hs. pose proof (eval_str_names t []) as H. pose proof (eval_str_only t []) as Ho. unfold str.
  destruct (eval_str name repr t []) as [e f]. destruct H as (H1 & H2 & H3).
  specialize (H2 f (ext_refl f)). subst e. exists (nm_of f). change (inner t) with (shown false t) in *.
  split; [reflexivity|]. split.
  - intros x y Hx Hy. apply nm_inj; [|apply H3; exact Hx|apply H3; exact Hy].
    intros u v Hu Hv. apply Hs.
    + destruct (Ho u Hu) as [K|K]; [exfalso; apply K; reflexivity|exact K].
    + destruct (Ho v Hv) as [K|K]; [exfalso; apply K; reflexivity|exact K].
  - intros x Hx. unfold nm_of. destruct (position x (ops_of f (name x))) as [[|n]|]; [left; reflexivity|right; exists (S n); reflexivity|left; reflexivity].
Qed.
End Names.
