From Coq Require Import String List Bool Arith ZArith Lia.
From Verif Require Import TadModel TadSpec.
Import ListNotations.
Local Open Scope list_scope.

Section P.
Variable codec : nat -> json -> option value.
Variable holds : nat -> value -> bool.
Variable item : nat -> string.
Notation pyd := (pydantic codec holds item).
Notation rd := (reads codec holds item).
Definition agree (t : ty) : Prop := forall j v, pyd t j = Some v <-> rd t j v.

Lemma find_has : forall x o y, find x o = Some y <-> has x o y.
Proof.
  intros x o. induction o as [|[k i] o IH]; intros y; cbn [find].
  - split; [discriminate|intros H; inversion H].
  - destruct (String.eqb_spec x k) as [E|E].
    + split.
      * intros H. inversion H; subst. constructor.
      * intros H. inversion H; subst; [reflexivity|contradiction].
    + rewrite IH. split.
      * intros H. constructor; assumption.
      * intros H. inversion H; subst; [contradiction|assumption].
Qed.
Lemma place_member : forall i j y, place item i j = Some y <-> member (item i) i j y.
Proof.
  intros i j y. unfold member. destruct j as [z|s|l|o]; cbn [place].
  - split; [discriminate|intros [[o [H _]]|[l [H _]]]; discriminate].
  - split; [discriminate|intros [[o [H _]]|[l [H _]]]; discriminate].
  - split; [intros H; right; exists l; split; [reflexivity|exact H]|intros [[o [H _]]|[l' [H H1]]]; inversion H; subst; exact H1].
  - rewrite find_has. split; [intros H; left; exists o; split; [reflexivity|exact H]|intros [[o' [H H1]]|[l' [H _]]]; inversion H; subst; exact H1].
Qed.
Lemma field_member : forall x i j y, field x i j = Some y <-> member x i j y.
Proof.
  intros x i j y. unfold member. destruct j as [z|s|l|o]; cbn [field].
  - split; [discriminate|intros [[o [H _]]|[l [H _]]]; discriminate].
  - split; [discriminate|intros [[o [H _]]|[l [H _]]]; discriminate].
  - split; [intros H; right; exists l; split; [reflexivity|exact H]|intros [[o [H _]]|[l' [H H1]]]; inversion H; subst; exact H1].
  - rewrite find_has. split; [intros H; left; exists o; split; [reflexivity|exact H]|intros [[o' [H H1]]|[l' [H _]]]; inversion H; subst; exact H1].
Qed.
Lemma member_det : forall x i j y z, member x i j y -> member x i j z -> y = z.
Proof. intros x i j y z H1 H2. apply field_member in H1. apply field_member in H2. rewrite H1 in H2. inversion H2. reflexivity. Qed.
Lemma each_iff : forall (h : json -> option value) (Rl : json -> value -> Prop),
  (forall j v, h j = Some v <-> Rl j v) -> forall l vs, each h l = Some vs <-> Forall2 Rl l vs.
Proof.
  intros h Rl H l. induction l as [|j l IH]; intros vs; cbn [each].
  - split; [intros E; inversion E; constructor|intros E; inversion E; reflexivity].
  - split.
    + destruct (h j) as [v|] eqn:E; [|discriminate]. destruct (each h l) as [ws|] eqn:E1; [|discriminate].
      cbn. intros E2. inversion E2; subst. constructor; [apply H; exact E|apply IH; reflexivity].
    + intros E. inversion E as [|a b la lb Ha Hb]; subst. apply H in Ha. rewrite Ha. apply IH in Hb. rewrite Hb. reflexivity.
Qed.
(** From the type adapted ([f]) to what is read for the type *)
Definition via (u t : ty) : Prop := forall j v, pyd u j = Some v <-> rd t j v.
Lemma places_iff : forall us ts, Forall2 via us ts -> forall i j vs,
  places item pyd i us j = Some vs <->
  (fix go (i : nat) (l : list ty) (vs : list value) : Prop :=
       match l, vs with
       | [], [] => True
       | u :: l', w :: vs' => (exists y, member (item i) i j y /\ rd u y w) /\ go (S i) l' vs'
       | _, _ => False
       end) i ts vs.
Proof.
  intros us ts HF. induction HF as [|u t us ts Hut HF IH]; intros i j vs; cbn [places].
  - destruct vs; split; intros H; try reflexivity; try exact Logic.I; try discriminate; try contradiction.
  - split.
    + destruct (place item i j) as [y|] eqn:E; [|discriminate]. destruct (pyd u y) as [w|] eqn:E1; [|discriminate].
      destruct (places item pyd (S i) us j) as [ws|] eqn:E2; [|discriminate]. cbn. intros H. inversion H; subst.
      split; [exists y; split; [apply place_member; exact E|apply Hut; exact E1]|apply IH; exact E2].
    + destruct vs as [|w ws]; [contradiction|]. intros [[y [H1 H2]] H3]. apply place_member in H1. rewrite H1.
      apply Hut in H2. rewrite H2. apply IH in H3. rewrite H3. reflexivity.
Qed.
Lemma first_iff : forall us ts, Forall2 via us ts -> forall j v,
  first pyd us j = Some v <->
  (fix go (l : list ty) : Prop :=
       match l with [] => False | u :: l' => rd u j v \/ ((forall w, ~ rd u j w) /\ go l') end) ts.
Proof.
  intros us ts HF. induction HF as [|u t us ts Hut HF IH]; intros j v; cbn [first].
  - split; [discriminate|contradiction].
  - destruct (pyd u j) as [w|] eqn:E.
    + split.
      * intros H. inversion H; subst. left. apply Hut. exact E.
      * intros [H|[H _]]; [apply Hut in H; rewrite E in H; exact H|]. exfalso. apply (H w). apply Hut. exact E.
    + rewrite IH. split.
      * intros H. right. split; [|exact H]. intros w Hw. apply Hut in Hw. rewrite E in Hw. discriminate.
      * intros [H|[_ H]]; [apply Hut in H; rewrite E in H; discriminate|exact H].
Qed.
Lemma fields_iff : forall fs, Forall (fun f => agree (snd f)) fs -> forall o vs,
  fields pyd fs o = Some vs <->
    (fix go (fs : list (string * ty)) (vs : list (string * value)) : Prop :=
       match fs, vs with
       | [], [] => True
       | (x, u) :: fs', (x', w) :: vs' => x = x' /\ (exists y, has x o y /\ rd u y w) /\ go fs' vs'
       | _, _ => False
       end) fs vs.
Proof.
  intros fs HF. induction HF as [|[x u] fs Hu HF IH]; intros o vs; cbn [fields].
  - destruct vs; split; intros H; try reflexivity; try exact Logic.I; try discriminate; try contradiction.
  - cbn in Hu. split.
    + destruct (find x o) as [y|] eqn:E; [|discriminate]. destruct (pyd u y) as [w|] eqn:E1; [|discriminate].
      destruct (fields pyd fs o) as [ws|] eqn:E2; [|discriminate]. cbn. intros H. inversion H; subst.
      split; [reflexivity|]. split; [exists y; split; [apply find_has; exact E|apply Hu; exact E1]|apply IH; exact E2].
    + destruct vs as [|[x' w] ws]; [contradiction|]. intros [Hx [[y [H1 H2]] H3]]. subst x'. apply find_has in H1. rewrite H1.
      apply Hu in H2. rewrite H2. apply IH in H3. rewrite H3. reflexivity.
Qed.
Lemma nt_fields_iff : forall fs, Forall (fun f => agree (snd f)) fs -> forall i j vs,
  nt_fields pyd i fs j = Some vs <->
    (fix go (i : nat) (fs : list (string * ty)) (vs : list (string * value)) : Prop :=
       match fs, vs with
       | [], [] => True
       | (x, u) :: fs', (x', w) :: vs' => x = x' /\ (exists y, member x i j y /\ rd u y w) /\ go (S i) fs' vs'
       | _, _ => False
       end) i fs vs.
Proof.
  intros fs HF. induction HF as [|[x u] fs Hu HF IH]; intros i j vs; cbn [nt_fields].
  - destruct vs; split; intros H; try reflexivity; try exact Logic.I; try discriminate; try contradiction.
  - cbn in Hu. split.
    + destruct (field x i j) as [y|] eqn:E; [|discriminate]. destruct (pyd u y) as [w|] eqn:E1; [|discriminate].
      destruct (nt_fields pyd (S i) fs j) as [ws|] eqn:E2; [|discriminate]. cbn. intros H. inversion H; subst.
      split; [reflexivity|]. split; [exists y; split; [apply field_member; exact E|apply Hu; exact E1]|apply IH; exact E2].
    + destruct vs as [|[x' w] ws]; [contradiction|]. intros [Hx [[y [H1 H2]] H3]]. subst x'. apply field_member in H1. rewrite H1.
      apply Hu in H2. rewrite H2. apply IH in H3. rewrite H3. reflexivity.
Qed.
Lemma checks_iff : forall m v, forallb (ok_meta holds v) m = true <-> (forall p, In (Check p) m -> holds p v = true).
Proof.
  intros m v. rewrite forallb_forall. split.
  - intros H p Hp. apply (H (Check p) Hp).
  - intros H x Hx. destruct x as [p|s|l]; [apply H; exact Hx|reflexivity|reflexivity].
Qed.
Lemma list_iff : forall u t j vs, via u t ->
  (each (pyd u) j = Some vs <-> Forall2 (rd t) j vs).
Proof. intros u t j vs H. apply each_iff. exact H. Qed.
Lemma rec_via : forall c fs, Forall (fun f => agree (snd f)) fs -> via (Rec c fs) (Rec c fs).
Proof.
  intros c fs H j v. cbn [pydantic reads]. split.
  - destruct j as [z|s|l|o]; try discriminate. destruct (fields pyd fs o) as [vs|] eqn:E; [|discriminate].
    cbn. intros E1. inversion E1; subst. exists o, vs. split; [reflexivity|]. split; [reflexivity|]. apply fields_iff; assumption.
  - intros [o [vs [-> [-> E]]]]. apply (fields_iff fs H) in E. rewrite E. reflexivity.
Qed.
Lemma nt_reads : forall c fs, Forall (fun f => agree (snd f)) fs -> forall j v,
  option_map (VNt c) (nt_fields pyd 0 fs j) = Some v <-> rd (Nt c fs) j v.
Proof.
  intros c fs H j v. cbn [reads]. split.
  - destruct (nt_fields pyd 0 fs j) as [vs|] eqn:E; [|discriminate]. cbn. intros E1. inversion E1; subst.
    exists vs. split; [reflexivity|]. apply nt_fields_iff; assumption.
  - intros [vs [-> E]]. apply (nt_fields_iff fs H) in E. rewrite E. reflexivity.
Qed.
Lemma listy_via : forall k u t, via u t -> via (Listy k u) (Listy k t).
Proof.
  intros k u t H j v. cbn [pydantic reads]. split.
  - destruct j as [z|s|l|o]; try discriminate. destruct (each (pyd u) l) as [vs|] eqn:E; [|discriminate].
    cbn. intros E1. inversion E1; subst. exists l, vs. split; [reflexivity|]. split; [reflexivity|]. apply (list_iff u t); assumption.
  - intros [l [vs [-> [-> E]]]]. apply (list_iff u t l vs H) in E. rewrite E. reflexivity.
Qed.
Lemma tupvar_via : forall u t, via u t -> via (TupVar u) (TupVar t).
Proof.
  intros u t H j v. cbn [pydantic reads]. split.
  - destruct j as [z|s|l|o]; try discriminate. destruct (each (pyd u) l) as [vs|] eqn:E; [|discriminate].
    cbn. intros E1. inversion E1; subst. exists l, vs. split; [reflexivity|]. split; [reflexivity|]. apply (list_iff u t); assumption.
  - intros [l [vs [-> [-> E]]]]. apply (list_iff u t l vs H) in E. rewrite E. reflexivity.
Qed.
Lemma union_via : forall us ts, Forall2 via us ts -> via (Union us) (Union ts).
Proof. intros us ts H j v. cbn [pydantic reads]. apply first_iff. exact H. Qed.
Lemma lit_via : forall s, via (Lit s) (Lit s).
Proof.
  intros s j v. cbn [pydantic reads]. destruct j as [z|x|l|o]; try (split; [discriminate|intros [H _]; discriminate]).
  destruct (String.eqb_spec s x) as [E|E].
  - subst. split; [intros H; inversion H; split; reflexivity|intros [_ ->]; reflexivity].
  - split; [discriminate|intros [H _]; inversion H; subst; contradiction].
Qed.
Lemma int_via : via TInt TInt.
Proof.
  intros j v. cbn [pydantic reads]. destruct j as [z|x|l|o]; try (split; [discriminate|intros [y [H _]]; discriminate]).
  split; [intros H; inversion H; exists z; split; reflexivity|intros [y [H ->]]; inversion H; reflexivity].
Qed.
Lemma str_via : via TStr TStr.
Proof.
  intros j v. cbn [pydantic reads]. destruct j as [z|x|l|o]; try (split; [discriminate|intros [y [H _]]; discriminate]).
  split; [intros H; inversion H; exists x; split; reflexivity|intros [y [H ->]]; inversion H; reflexivity].
Qed.
Lemma annot_via : forall u t m, via u t -> via (Annot u m) (Annot t m).
Proof.
  intros u t m H j v. cbn [pydantic reads]. split.
  - destruct (pyd u j) as [w|] eqn:E; [|discriminate]. destruct (forallb (ok_meta holds w) m) eqn:E1; [|discriminate].
    intros E2. inversion E2; subst. split; [apply H; exact E|]. apply checks_iff. exact E1.
  - intros [E E1]. apply H in E. rewrite E. apply checks_iff in E1. rewrite E1. reflexivity.
Qed.
Lemma atup_via : forall us ts, us <> [] -> Forall2 via us ts -> via (ATup us) (Tup ts).
Proof.
  intros us ts Hne H j v. cbn [pydantic reads]. split.
  - destruct (places item pyd 0 us j) as [vs|] eqn:E; [|discriminate]. cbn. intros E1. inversion E1; subst. split.
    + destruct us as [|u us]; [contradiction|]. cbn [places] in E. destruct j as [z|s|l|o]; cbn [place] in E; try discriminate.
      * right. exists l. reflexivity.
      * left. exists o. reflexivity.
    + exists vs. split; [reflexivity|]. apply (places_iff us ts H). exact E.
  - intros [_ [vs [-> E]]]. apply (places_iff us ts H) in E. rewrite E. reflexivity.
Qed.
Fixpoint plain_agree (t : ty) (H : plain t) {struct H} : agree t.
Proof.
  assert (HL : forall l, Forall plain l -> Forall2 via l l).
  { fix IH 2. intros l Hl. destruct Hl as [|x l Hx Hl]; constructor; [apply plain_agree; exact Hx|apply IH; exact Hl]. }
  assert (HF : forall fs : list (string * ty), Forall (fun f => plain (snd f)) fs -> Forall (fun f => agree (snd f)) fs).
  { fix IH 2. intros fs Hl. destruct Hl as [|x l Hx Hl]; constructor; [apply plain_agree; exact Hx|apply IH; exact Hl]. }
  destruct H as [| |s|k t H|t H|l H|t m H|n t H|t H|t H|c fs H|c fs H].
  - apply int_via.
  - apply str_via.
  - apply lit_via.
  - apply listy_via. apply plain_agree. exact H.
  - apply tupvar_via. apply plain_agree. exact H.
  - apply union_via. apply HL. exact H.
  - apply annot_via. apply plain_agree. exact H.
  - exact (plain_agree t H).
  - exact (plain_agree t H).
  - exact (plain_agree t H).
  - apply rec_via. apply HF. exact H.
  - intros j v. exact (nt_reads c fs (HF fs H) j v).
Qed.
Lemma fields_agree : forall fs : list (string * ty), Forall (fun f => plain (snd f)) fs -> Forall (fun f => agree (snd f)) fs.
Proof. intros fs H. induction H as [|x l Hx Hl IH]; constructor; [apply plain_agree; exact Hx|exact IH]. Qed.
Lemma free_checks : forall m, Forall free m -> forall p, ~ In (Check p) m.
Proof. intros m H p Hp. rewrite Forall_forall in H. apply (H _ Hp). Qed.
Fixpoint good_adapt (t : ty) (H : good t) {struct H} : exists u, adapt t = Some u /\ via u t.
Proof.
  assert (HL : forall l, Forall good l -> exists us, mapM adapt l = Some us /\ Forall2 via us l).
  { fix IH 2. intros l Hl. destruct Hl as [|x l Hx Hl].
    - exists []. split; [reflexivity|constructor].
    - destruct (good_adapt x Hx) as [u [E Hu]]. destruct (IH l Hl) as [us [E1 Hus]]. exists (u :: us). cbn [mapM].
      rewrite E, E1. split; [reflexivity|constructor; assumption]. }
  destruct H as [| |s|c|k t H|t H|t l H|l H|t m H Hm|n t H|t H|t H|c fs H|c fs H].
  - exists TInt. split; [reflexivity|apply int_via].
  - exists TStr. split; [reflexivity|apply str_via].
  - exists (Lit s). split; [reflexivity|apply lit_via].
  - exists (Adapted c). split; [reflexivity|]. intros j v. reflexivity.
  - destruct (good_adapt t H) as [u [E Hu]]. exists (Listy k u). cbn [adapt]. rewrite E. split; [reflexivity|apply listy_via; exact Hu].
  - destruct (good_adapt t H) as [u [E Hu]]. exists (TupVar u). cbn [adapt]. rewrite E. split; [reflexivity|apply tupvar_via; exact Hu].
  - destruct (HL _ H) as [us [E Hus]]. exists (ATup us). cbn [adapt]. rewrite E. split; [reflexivity|].
    apply atup_via; [|exact Hus]. intros E1. subst us. inversion Hus.
  - destruct (HL _ H) as [us [E Hus]]. exists (Union us). cbn [adapt]. rewrite E. split; [reflexivity|]. apply union_via. exact Hus.
  - destruct (good_adapt t H) as [u [E Hu]]. exists (Annot u [Nested m]). cbn [adapt]. rewrite E. split; [reflexivity|].
    intros j v. cbn [pydantic reads forallb ok_meta andb]. rewrite <- (Hu j v). split.
    + destruct (pyd u j) as [w|]; [|discriminate]. intros E1. split; [exact E1|]. intros p Hp. destruct (free_checks m Hm p Hp).
    + intros [E1 _]. rewrite E1. reflexivity.
  - destruct (good_adapt t H) as [u [E Hu]]. exists (NewT n u). cbn [adapt]. rewrite E. split; [reflexivity|exact Hu].
  - destruct (good_adapt t H) as [u [E Hu]]. exists u. split; [exact E|exact Hu].
  - exists (GAlias t). split; [reflexivity|]. exact (plain_agree t H).
  - exists (Rec c fs). split; [reflexivity|]. apply rec_via. apply fields_agree. exact H.
  - exists (ANt c fs). split; [reflexivity|]. intros j v. exact (nt_reads c fs (fields_agree fs H) j v).
Qed.
Lemma encodable_reads : forall t, good t -> forall j v, encodable codec holds item t j = Some v <-> rd t j v.
Proof. intros t H j v. destruct (good_adapt t H) as [u [E Hu]]. unfold encodable. rewrite E. apply Hu. Qed.
End P.


Lemma mapM_none : forall f l, mapM f l = None <-> Exists (fun t => f t = None) l.
Proof.
  intros f l. induction l as [|t l IH]; cbn [mapM].
  - split; [discriminate|intros H; inversion H].
  - destruct (f t) as [u|] eqn:E.
    + destruct (mapM f l) as [us|] eqn:E1; cbn.
      * split; [discriminate|]. intros H. inversion H as [a b Ha|a b Hb]; subst; [rewrite E in Ha; discriminate|].
        apply IH in Hb. discriminate.
      * split; [intros _; apply Exists_cons_tl; apply IH; reflexivity|reflexivity].
    + split; [intros _; apply Exists_cons_hd; exact E|reflexivity].
Qed.
Lemma map_none : forall (f : ty -> ty) o, option_map f o = None <-> o = None.
Proof. intros f o. destruct o; cbn; split; try discriminate; reflexivity. Qed.
Lemma map_none' : forall (f : list ty -> ty) o, option_map f o = None <-> o = None.
Proof. intros f o. destruct o; cbn; split; try discriminate; reflexivity. Qed.
Fixpoint mentions_refused (t : ty) (H : mentions t) {struct H} : adapt t = None.
Proof.
  assert (HL : forall l, Exists mentions l -> Exists (fun t => adapt t = None) l).
  { fix IH 2. intros l Hl. destruct Hl as [x l Hx|x l Hl]; [apply Exists_cons_hd; apply mentions_refused; exact Hx|apply Exists_cons_tl; apply IH; exact Hl]. }
  destruct H as [c|k t H|t H|l H|l H|t m H|n t H|t H]; cbn [adapt].
  - reflexivity.
  - rewrite (mentions_refused t H). reflexivity.
  - rewrite (mentions_refused t H). reflexivity.
  - apply map_none'. apply mapM_none. apply HL. exact H.
  - apply map_none'. apply mapM_none. apply HL. exact H.
  - rewrite (mentions_refused t H). reflexivity.
  - rewrite (mentions_refused t H). reflexivity.
  - exact (mentions_refused t H).
Qed.
Fixpoint refused_mentions (t : ty) {struct t} : adapt t = None -> mentions t.
Proof.
  assert (HL : forall l, (fix ok (l : list ty) : Prop := match l with [] => True | x :: l' => (adapt x = None -> mentions x) /\ ok l' end) l ->
                Exists (fun t => adapt t = None) l -> Exists mentions l).
  { clear. induction l as [|x l IH]; intros Hok H; [inversion H|]. destruct Hok as [Hx Hok].
    inversion H as [a b Ha|a b Hb]; subst; [apply Exists_cons_hd; auto|apply Exists_cons_tl; auto]. }
  destruct t as [| |c|c|k t|l|t|l|t m|s|n t|t|t|c fs|c fs|c|l|c fs]; cbn [adapt]; intros H; try discriminate.
  - constructor.
  - apply map_none in H. constructor. apply refused_mentions. exact H.
  - apply map_none' in H. apply mapM_none in H. constructor. apply HL; [|exact H]. clear H.
    induction l as [|x l IH]; [exact Logic.I|]. split; [apply refused_mentions|exact IH].
  - apply map_none in H. constructor. apply refused_mentions. exact H.
  - apply map_none' in H. apply mapM_none in H. constructor. apply HL; [|exact H]. clear H.
    induction l as [|x l IH]; [exact Logic.I|]. split; [apply refused_mentions|exact IH].
  - apply map_none in H. constructor. apply refused_mentions. exact H.
  - apply map_none in H. constructor. apply refused_mentions. exact H.
  - constructor. apply refused_mentions. exact H.
Qed.
Lemma refused_iff : forall t, adapt t = None <-> mentions t.
Proof. intros t. split; [apply refused_mentions|apply mentions_refused]. Qed.

(** A concrete registered encoding: type 0 is [complex], an object with [real] and [imag] *)
Definition cpx (c : nat) (j : json) : option value :=
  match c, j with 0, JObj [("real"%string, JNum _); ("imag"%string, JNum _)] => Some (VSpecial 0 j) | _, _ => None end.
Definition positive (p : nat) (v : value) : bool := match v with VNum z => Z.ltb 0 z | _ => true end.
Definition items (i : nat) : string := match i with 0 => "item_0" | 1 => "item_1" | _ => "item_n" end%string.
Definition i_unit : json := JObj [("real"%string, JNum 0); ("imag"%string, JNum 1)].
Notation enc := (encodable cpx positive items).
Notation red := (reads cpx positive items).

Lemma constraint_refuted : exists t j v, enc t j = Some v /\ (forall w, ~ red t j w).
Proof.
  exists (Annot TInt [Check 0]), (JNum 0), (VNum 0). split; [reflexivity|].
  intros w [[z [E ->]] H]. inversion E; subst. specialize (H 0 (or_introl eq_refl)). discriminate.
Qed.
Lemma class_refuted : exists t j v, red t j v /\ enc t j = None.
Proof.
  exists (Rec 7 [("z"%string, Special 0)]), (JObj [("z"%string, i_unit)]), (VObj 7 [("z"%string, VSpecial 0 i_unit)]).
  split; [|reflexivity]. eexists _, _. split; [reflexivity|]. split; [reflexivity|]. split; [reflexivity|].
  split; [|exact Logic.I]. exists i_unit. split; [constructor|reflexivity].
Qed.
Lemma class_tuple_refuted : exists t j v, red t j v /\ enc t j = None /\ (exists j', enc (Tup [TInt]) j' = Some (VTup [VNum 5]) /\ enc t (JObj [("p"%string, j')]) = None).
Proof.
  exists (Rec 7 [("p"%string, Tup [TInt])]), (JObj [("p"%string, JObj [("item_0"%string, JNum 5)])]), (VObj 7 [("p"%string, VTup [VNum 5])]).
  split.
  { eexists _, _. split; [reflexivity|]. split; [reflexivity|]. split; [reflexivity|].
    split; [|exact Logic.I]. eexists. split; [constructor|]. split; [left; eexists; reflexivity|]. eexists. split; [reflexivity|].
    split; [|exact Logic.I]. exists (JNum 5). split; [left; eexists; split; [reflexivity|constructor]|]. exists 5%Z. split; reflexivity. }
  split; [reflexivity|]. exists (JObj [("item_0"%string, JNum 5)]). split; reflexivity.
Qed.
Lemma named_tuple_refuted : exists t j v, red t j v /\ enc t j = None.
Proof.
  exists (Nt 7 [("z"%string, Special 0)]), (JObj [("z"%string, i_unit)]), (VNt 7 [("z"%string, VSpecial 0 i_unit)]).
  split; [|reflexivity]. eexists. split; [reflexivity|]. split; [reflexivity|].
  split; [|exact Logic.I]. exists i_unit. split; [left; eexists; split; [reflexivity|constructor]|reflexivity].
Qed.
Lemma generic_refuted : exists t j v, red (GAlias t) j v /\ enc (GAlias t) j = None /\ enc (Alias t) j = Some v.
Proof.
  exists (Listy 0 (Special 0)), (JList [i_unit]), (VList 0 [VSpecial 0 i_unit]). split; [|split; reflexivity].
  eexists _, _. split; [reflexivity|]. split; [reflexivity|]. repeat constructor.
Qed.
Lemma empty_tuple_reads_all : forall codec holds item j, encodable codec holds item (Tup []) j = Some (VTup []).
Proof. reflexivity. Qed.
Lemma empty_tuple_refuted : exists t j v, enc t j = Some v /\ (forall w, ~ red t j w).
Proof.
  exists (Tup []), (JNum 5), (VTup []). split; [reflexivity|].
  intros w [[[o E]|[js E]] _]; discriminate.
Qed.
(** [type json = list[json]] *)
Definition itself (n : nat) : nty := NList (NAlias 0).
Lemma recursive_any : forall fuel t, (t = NAlias 0 \/ t = NList (NAlias 0)) -> adapt_alias fuel itself t = None.
Proof.
  intros fuel. induction fuel as [|fuel IH]; intros t H; [reflexivity|]. destruct H as [-> | ->]; cbn [adapt_alias].
  - apply IH. right. reflexivity.
  - rewrite (IH (NAlias 0)); [reflexivity|left; reflexivity].
Qed.
Lemma recursive_refuted : exists env n, (forall k, env k <> NAlias k) /\ forall fuel, adapt_alias fuel env (NAlias n) = None.
Proof. exists itself, 0. split; [discriminate|]. intros fuel. apply recursive_any. left. reflexivity. Qed.

(** list[tuple[complex, Annotated[int, "a remark"]] | str] *)
Definition sample : ty := Listy 0 (Union [Tup [Special 0; Annot TInt [Note "a remark"%string]]; Alias TStr]).
Lemma sample_good : good sample.
Proof. repeat constructor. Qed.
