(** A table of classes and the values over it, used in the examples. *)
From Coq Require Import List Bool Arith Lia.
From Verif Require Import UnifModel UnifSpec UnifSubst UnifProofs UnifCanon UnifSound UnifExamples TypModel TypSpec TypProofs.
Import ListNotations.

(** As [zoo], without the classes of ranges and functions and without a class for which variables are
    confused; [Float] besides. *)
Definition Float := CUser 4.
Definition kin (c : cls) : list cls :=
  match c with
  | CSequence | CMapping => [CIterable; CObject]
  | COperation => [CGeneric; CCallable; CObject]
  | CTuple => [CSequence; CIterable; CObject]
  | CUser 2 => [CSequence; CIterable; CObject]
  | CUser 3 => [MutableSequence; CSequence; CIterable; CObject]
  | CUser 5 => [CGeneric; CObject]
  | CUser 6 => [Box; CGeneric; CObject]
  | CUser 8 => [Int; CObject]
  | CUser 11 => [Dog; CObject]
  | _ => [CObject]
  end.
Definition farm : table := Table
  (fun c d => cls_eqb c d || existsb (cls_eqb d) (kin c))
  (fun c => match c with
            | CSequence => [TCon CIterable]
            | CMapping => [TCon CIterable]
            | COperation => [TApp CGeneric [TVar 90; TVar 91]]
            | CUser 2 => [TCon CSequence]
            | CUser 5 => [TApp CGeneric [TVar 7]]
            | CUser 6 => [TApp Box [TVar 7]]
            | CUser 11 => [TCon Dog]
            | CUser 10 => [TCon CObject]
            | _ => []
            end)
  (fun c => match c with
            | CUser 3 => Some (TCon MutableSequence)
            | CUser 0 | CUser 1 | CUser 2 | CUser 4 | CUser 8 => Some (TCon c)
            | CUser _ => None
            | _ => Some (TCon c)
            end)
  (fun c => match c with
            | CObject => false
            | CUser 2 | CUser 3 | CUser 5 | CUser 6 => true
            | CUser _ => false
            | _ => true
            end)
  (fun _ => false) None.
Ltac split_user m := destruct m as [|[|[|[|[|[|[|[|[|[|[|[|m]]]]]]]]]]]].

Lemma farm_box : fixed farm Box.
Proof. right. split; [reflexivity|]. constructor; [|constructor]. left. now eexists. Qed.
Lemma farm_regular : regular farm.
Proof.
  constructor; try (split; reflexivity); try reflexivity; try discriminate.
  - intros c t H. cbn in H.
    destruct c as [ | | | | | | | | |m]; try (injection H as <-; split; [apply nf_con; now left|split; [constructor|discriminate]]).
    split_user m; try discriminate H; injection H as <-; (split; [apply nf_con; now left|split; [constructor|discriminate]]).
  - intros c. cbn. destruct c as [ | | | | | | | | |m]; try (apply Forall_nil);
      try (apply Forall_cons; [split; [apply eo_con|discriminate]|apply Forall_nil]).
    + apply Forall_cons; [|apply Forall_nil]. split; [|discriminate]. apply eo_app; [repeat constructor|auto].
    + split_user m; try (apply Forall_nil); try (apply Forall_cons; [split; [apply eo_con|discriminate]|apply Forall_nil]);
        (apply Forall_cons; [|apply Forall_nil]); (split; [|discriminate]);
        (apply eo_app; [repeat constructor|]); try tauto; do 3 right; left; (constructor; [discriminate|constructor]).
Qed.
Lemma farm_no_ell : forall c ys, tidy farm (TApp c ys) -> c <> CCallable -> c <> COperation -> c <> CGeneric -> c <> CTuple -> Forall (fun a => a <> TEll) ys.
Proof.
  intros c ys [_ [_ E]] A B C D. remember (TApp c ys) as e eqn:Ee. destruct E as [| | | |c' l' E K| |]; try discriminate.
  injection Ee as -> ->. destruct K as [K|[K|[K|[K|[K _]]]]]; tauto.
Qed.
Lemma farm_parts : forall c ys, tidy farm (TApp c ys) -> Forall ground ys /\ Forall (nf farm) ys /\ Forall ell_ok ys.
Proof.
  intros c ys [G [N E]]. split; [now apply ground_list|].
  remember (TApp c ys) as e eqn:Ee. destruct N as [| | | |c' l' F Gc N V| |]; try discriminate. injection Ee as -> ->.
  remember (TApp c ys) as e eqn:Ee. destruct E as [| | | |c' l' E K| |]; try discriminate. injection Ee as -> ->. auto.
Qed.
Lemma farm_again : forall c ys, Forall ground ys -> Forall (nf farm) ys -> Forall ell_ok ys -> fixed farm c -> generic farm c = true -> c <> CTuple ->
  Forall (fun a => a <> TEll) ys \/ c = CGeneric -> tidy farm (TApp c ys).
Proof.
  intros c ys A B C F G N K. split; [now apply ground_list|]. split; [apply nf_app; auto; tauto|]. apply eo_app; [exact C|]. tauto.
Qed.
(** As one of its bases a type has the same arguments. *)
Lemma farm_base : forall d b ys n y y', In b (bases farm d) -> tidy farm (TApp d ys) -> subscript farm b ys = Ok y -> canon farm n y = Ok y' ->
  tidy farm y' /\ exists c, y' = TApp c ys /\ In c (kin d) /\ generic farm c = true /\ c <> CTuple /\ c <> CCallable /\ c <> COperation.
Proof.
  intros d b ys n y y' I H S C. destruct (farm_parts d ys H) as [A [B D]].
  set (goal := tidy farm y' /\ exists c, y' = TApp c ys /\ In c (kin d) /\ generic farm c = true /\ c <> CTuple /\ c <> CCallable /\ c <> COperation).
  assert (Con : forall c, b = TCon c -> fixed farm c -> In c (kin d) -> generic farm c = true -> c <> CTuple /\ c <> CCallable /\ c <> COperation ->
    Forall (fun a => a <> TEll) ys \/ c = CGeneric -> goal).
  { intros c -> F Ik G N K. cbn [subscript] in S. rewrite G in S. injection S as <-.
    pose proof (farm_again c ys A B D F G (proj1 N) K) as Q. unfold goal. rewrite (nf_unique farm n _ y' (proj1 (proj2 Q)) C).
    split; [exact Q|]. exists c. auto. }
  assert (One : forall c v, b = TApp c [TVar v] -> fixed farm c -> In c (kin d) -> generic farm c = true -> c <> CTuple /\ c <> CCallable /\ c <> COperation ->
    Forall (fun a => a <> TEll) ys \/ c = CGeneric -> goal).
  { intros c v -> F Ik G N K. cbn in S. rewrite ?Nat.eqb_refl in S. destruct ys as [|y0 [|y1 ys]]; cbn in S; try discriminate. rewrite ?Nat.eqb_refl in S.
    injection S as <-. pose proof (farm_again c [y0] A B D F G (proj1 N) K) as Q. unfold goal. rewrite (nf_unique farm n _ y' (proj1 (proj2 Q)) C).
    split; [exact Q|]. exists c. auto. }
  cbn in I. destruct d as [ | | | | | | | | |m]; try (destruct I; fail).
  - destruct I as [<-|[]]. apply (Con CIterable eq_refl); [now left|cbn; auto|reflexivity|repeat split; discriminate|]. left. apply (farm_no_ell _ _ H); discriminate.
  - destruct I as [<-|[]]. apply (Con CIterable eq_refl); [now left|cbn; auto|reflexivity|repeat split; discriminate|]. left. apply (farm_no_ell _ _ H); discriminate.
  - destruct I as [<-|[]]. cbn in S. destruct ys as [|y0 [|y1 [|y2 ys]]]; cbn in S; try discriminate. injection S as <-.
    pose proof (farm_again CGeneric [y0; y1] A B D (or_introl eq_refl) eq_refl ltac:(discriminate) (or_intror eq_refl)) as Q.
    unfold goal. rewrite (nf_unique farm n _ y' (proj1 (proj2 Q)) C). split; [exact Q|]. exists CGeneric. cbn. repeat split; auto; discriminate.
  - split_user m; try (destruct I; fail).
    + destruct I as [<-|[]]. apply (Con CSequence eq_refl); [now left|cbn; auto|reflexivity|repeat split; discriminate|]. left. apply (farm_no_ell _ _ H); discriminate.
    + destruct I as [<-|[]]. apply (One CGeneric 7 eq_refl); [now left|cbn; auto|reflexivity|repeat split; discriminate|now right].
    + destruct I as [<-|[]]. apply (One Box 7 eq_refl); [apply farm_box|cbn; auto|reflexivity|repeat split; discriminate|]. left. apply (farm_no_ell _ _ H); discriminate.
    + destruct I as [<-|[]]. discriminate S.
    + destruct I as [<-|[]]. discriminate S.
Qed.
Lemma farm_plain : plain_table farm (fun _ => CObject).
Proof.
  constructor; try reflexivity; try discriminate.
  - exact farm_regular.
  - intros d b ys n y y' I H S C. exact (proj1 (farm_base d b ys n y y' I H S C)).
  - intros d b ys n y y' I H K S C. destruct (farm_base d b ys n y y' I H S C) as [_ [c [-> [_ [_ [_ [A B]]]]]]].
    apply strict_app in K. apply strict_app_intro; tauto.
Qed.

(** * Values *)
Inductive value := Atom (c : cls) | Tup (l : list value) | Coll (c : cls) (l : list value).
Definition class_of (v : value) : cls := match v with Atom c => c | Tup _ => CTuple | Coll c _ => c end.
Definition items (v : value) : list value := match v with Atom _ => [] | Tup l => l | Coll _ l => l end.
Fixpoint inh_in (T : table) (v : value) (t : ty) {struct t} : Prop :=
  match t with
  | TVar _ | TAny => True
  | TEll | TList _ => False
  | TCon c => issub T (class_of v) c = true
  | TUnion l => (fix some (l : list ty) : Prop := match l with [] => False | t :: l' => inh_in T v t \/ some l' end) l
  | TApp c l =>
      issub T (class_of v) c = true /\
      match c with
      | CTuple =>
          match v with
          | Tup vs =>
              (fix all (l : list ty) (vs : list value) : Prop :=
                 match l, vs with [], [] => True | t :: l', v :: vs' => inh_in T v t /\ all l' vs' | _, _ => False end) l vs \/
              match l with [a; TEll] => Forall (fun v => inh_in T v a) vs | _ => False end
          | _ => False
          end
      | _ => if generic T c then match l with [] => True | a :: _ => Forall (fun v => inh_in T v a) (items v) end else True
      end
  end.
Notation inh := (inh_in farm).
Lemma inh_union : forall v l, inh v (TUnion l) <-> exists t, In t l /\ inh v t.
Proof.
  intros v. induction l as [|a l IH]; cbn; [split; [intros []|intros [? [[] _]]]|]. split.
  - intros [H|H]; [exists a; auto|]. apply IH in H. destruct H as [t [I H]]. exists t. auto.
  - intros [t [[<-|I] H]]; [now left|]. right. apply IH. eauto.
Qed.
Definition all_of := fix all (l : list ty) (vs : list value) : Prop :=
  match l, vs with [], [] => True | t :: l', v :: vs' => inh v t /\ all l' vs' | _, _ => False end.
Lemma all_forall2 : forall vs l, all_of l vs <-> Forall2 inh vs l.
Proof.
  induction vs as [|v vs IH]; intros [|t l]; cbn; split; intros H.
  - constructor.
  - exact Logic.I.
  - destruct H.
  - destruct (forall2_cons_r _ _ _ _ _ _ H) as [? [? [E _]]]. discriminate E.
  - destruct H.
  - discriminate (forall2_nil_r _ _ _ _ H).
  - destruct H as [H H']. constructor; [exact H|now apply IH].
  - destruct (forall2_cons_r _ _ _ _ _ _ H) as [v' [vs' [E [H1 H2]]]]. injection E as <- <-. split; [exact H1|now apply IH].
Qed.
Lemma inh_tuple : forall v l, inh v (TApp CTuple l) <->
  exists vs, v = Tup vs /\ (Forall2 inh vs l \/ exists a, l = [a; TEll] /\ Forall (fun v => inh v a) vs).
Proof.
  intros v l. split.
  - intros [_ H]. destruct v as [c|vs|c vs]; try destruct H; exists vs; (split; [reflexivity|]).
    + left. now apply all_forall2.
    + right. destruct l as [|a [|[ | | | | | | ] [|? ?]]]; try contradiction. eauto.
  - intros [vs [-> H]]. split; [reflexivity|]. destruct H as [H|[a [-> H]]]; [left; now apply all_forall2|right; exact H].
Qed.
Definition heads (v : value) (l : list ty) : Prop := match l with [] => True | a :: _ => Forall (fun v => inh v a) (items v) end.
Lemma inh_app : forall v c l, c <> CTuple -> inh v (TApp c l) <-> issub farm (class_of v) c = true /\ (generic farm c = true -> heads v l).
Proof.
  intros v c l N. assert (L : forall (b : bool) (P Q : Prop), P /\ (if b then Q else True) <-> P /\ (b = true -> Q)).
  { intros [|] P Q; split; intros [H K]; split; auto. discriminate. }
  destruct c as [ | | | | | | | | |m]; try congruence; try exact (L true _ (heads v l)); try exact (L false _ (heads v l)). exact (L (generic farm (CUser m)) _ (heads v l)).
Qed.
(** What is a subclass of [c] is one of its ancestors. *)
Lemma kin_up : forall a c d, issub farm a c = true -> In d (kin c) -> issub farm a d = true.
Proof.
  intros a c d H I. cbn [issub farm] in *. apply orb_true_iff in H. destruct H as [H|H].
  - apply cls_eqb_eq in H. subst c. apply orb_true_iff. right. apply existsb_exists. exists d. split; [exact I|now apply cls_eqb_eq].
  - apply existsb_exists in H. destruct H as [e [Ie He]]. apply cls_eqb_eq in He. subst e.
    destruct a as [ | | | | | | | | |m]; try split_user m; cbn in Ie;
      repeat (destruct Ie as [<-|Ie]; [cbn in I; repeat (destruct I as [<-|I]; [reflexivity|]); destruct I|]); destruct Ie.
Qed.
Lemma kin_trans : forall a c d, issub farm a c = true -> issub farm c d = true -> issub farm a d = true.
Proof.
  intros a c d H K. cbn [issub farm] in K. apply orb_true_iff in K. destruct K as [K|K].
  - apply cls_eqb_eq in K. now subst d.
  - apply existsb_exists in K. destruct K as [e [Ie He]]. apply cls_eqb_eq in He. subst e. now apply kin_up with c.
Qed.
Lemma kin_generic : forall c d, issub farm d c = true -> generic farm d = false -> generic farm c = false.
Proof.
  intros c d H G. cbn [issub farm] in H. apply orb_true_iff in H. destruct H as [H|H]; [apply cls_eqb_eq in H; now subst|].
  apply existsb_exists in H. destruct H as [e [Ie He]]. apply cls_eqb_eq in He. subst e.
  destruct d as [ | | | | | | | | |m]; try split_user m; try discriminate G; cbn in Ie; repeat (destruct Ie as [<-|Ie]; [reflexivity|]); destruct Ie.
Qed.
Lemma object_top : forall c, issub farm c CObject = true.
Proof. intros c. destruct c as [ | | | | | | | | |m]; try reflexivity. split_user m; reflexivity. Qed.
Lemma tuple_bottom : forall c, issub farm c CTuple = true -> c = CTuple.
Proof. intros c H. destruct c as [ | | | | | | | | |m]; try discriminate; [reflexivity|]. split_user m; discriminate. Qed.
Lemma inh_class : forall v c l, inh v (TApp c l) -> inh v (TCon c).
Proof. intros v c l H. destruct c; exact (proj1 H). Qed.

(** * They are a universe *)
Lemma inh_equal : forall t v x, ty_eqb t x = true -> inh v x <-> inh v t.
Proof.
  induction t as [w| | |c|c l IH|l IH|l IH] using ty_ind2; intros v x H; destruct x as [w'| | |d|d l'|l'|l']; try discriminate H; try tauto.
  - cbn [ty_eqb] in H. apply cls_eqb_eq in H. now subst d.
  - rewrite ty_eqb_app in H. apply andb_true_iff in H. destruct H as [H1 H2]. apply cls_eqb_eq in H1. subst d.
    assert (F : Forall2 (fun b a => ty_eqb a b = true /\ forall v, inh v b <-> inh v a) l' l).
    { clear - IH H2. revert l' H2. induction IH as [|a l Ha _ IHl]; intros [|b l'] H; cbn in H; try discriminate; constructor.
      - apply andb_true_iff in H. split; [apply H|]. intros v. now apply Ha.
      - apply andb_true_iff in H. now apply IHl. }
    assert (Q : c = CTuple \/ c <> CTuple) by (destruct c; try (now left); right; discriminate).
    destruct Q as [->|N].
    + rewrite !inh_tuple. split; intros [vs [-> H]]; exists vs; (split; [reflexivity|]).
      * destruct H as [H|[a [-> H]]].
        { left. clear - F H. revert vs H. induction F as [|b a l' l [_ E] _ IH]; intros vs H; [rewrite (forall2_nil_r _ _ _ _ H); constructor|].
          destruct (forall2_cons_r _ _ _ _ _ _ H) as [v [vs' [-> [H1 H3]]]]. constructor; [now apply E|now apply IH]. }
        { right. destruct l as [|a1 [|a2 [|a3 l]]]; cbn in H2; try discriminate H2; try (rewrite ?andb_false_r in H2; discriminate H2).
          apply andb_true_iff in H2. destruct H2 as [E1 E2]. apply andb_true_iff in E2. destruct E2 as [E2 _]. destruct a2; try discriminate E2.
          exists a1. split; [reflexivity|]. revert H. apply Forall_impl. intros w. apply (Forall_inv IH w a E1). }
      * destruct H as [H|[a [-> H]]].
        { left. clear - F H. revert vs H. induction F as [|b a l' l [_ E] _ IH]; intros vs H; [rewrite (forall2_nil_r _ _ _ _ H); constructor|].
          destruct (forall2_cons_r _ _ _ _ _ _ H) as [v [vs' [-> [H1 H3]]]]. constructor; [now apply E|now apply IH]. }
        { right. destruct l' as [|a1 [|a2 [|a3 l]]]; cbn in H2; try discriminate H2; try (rewrite ?andb_false_r in H2; discriminate H2).
          apply andb_true_iff in H2. destruct H2 as [E1 E2]. apply andb_true_iff in E2. destruct E2 as [E2 _]. destruct a2; try discriminate E2.
          exists a1. split; [reflexivity|]. revert H. apply Forall_impl. intros w. apply (Forall_inv IH w a1 E1). }
    + rewrite !inh_app by exact N.
      assert (Hd : heads v l' <-> heads v l).
      { destruct F as [|b a l' l [_ E] _]; [tauto|]. cbn. split; apply Forall_impl; intros w; apply E. }
      tauto.
  - rewrite ty_eqb_union in H. apply andb_true_iff in H. destruct H as [H1 H2]. rewrite Forall_forall in IH. rewrite !inh_union. split; intros [t [I H]].
    + rewrite forallb_forall in H2. specialize (H2 t I). apply some_eq_spec in H2. destruct H2 as [a [Ia Ea]]. exists a. split; [exact Ia|]. now apply (IH a Ia v t Ea).
    + rewrite each_in_spec in H1. destruct (H1 t I) as [b [Ib Eb]]. exists b. split; [exact Ib|]. now apply (IH t I v b Eb).
Qed.
Lemma inh_mk_union : forall v l t, In t l -> inh v t -> inh v (mk_union l).
Proof.
  intros v l t I H.
  assert (M : exists m, In m (members t) /\ inh v m).
  { destruct t; try (eexists; split; [left; reflexivity|exact H]). now apply inh_union in H. }
  destruct M as [m [Im Hm]].
  destruct (dedupe_in (flat_map members l) [] m ltac:(apply in_flat_map; eauto)) as [u [Iu E]]. cbn in Iu.
  assert (Hu : inh v u) by (destruct E as [->|E]; [exact Hm|apply (inh_equal u v m E); exact Hm]).
  unfold mk_union. destruct (dedupe [] (flat_map members l)) as [|u' [|u2 q]]; [destruct Iu|destruct Iu as [<-|[]]; exact Hu|].
  apply inh_union. eauto.
Qed.
(** The canonical form of a class: itself, or a class or type above it. *)
Lemma canon_class : forall n c t, canon farm n (TCon c) = Ok t ->
  t = TCon c \/ (c = List_ /\ t = TCon MutableSequence) \/ (c = Puppy /\ t = TCon Dog) \/ (c = Crate /\ t = TApp Box [TVar 7]).
Proof.
  intros n c t H. destruct n as [|n]; [discriminate|]. rewrite canon_con in H.
  destruct c as [ | | | | | | | | |m]; try (injection H as <-; now left).
  split_user m; try (cbn in H; injection H as <-; now left).
  - cbn in H. injection H as <-. right. now left.
  - cbn in H. destruct n as [|[|n]]; cbn in H; try discriminate. injection H as <-. do 3 right. split; reflexivity.
  - cbn in H. destruct n as [|[|n]]; cbn in H; try discriminate; injection H as <-; now left.
  - cbn in H. destruct n as [|[|[|n]]]; cbn in H; try discriminate; injection H as <-; right; right; left; split; reflexivity.
Qed.
Lemma inh_canon : forall n t t' v, canon farm n t = Ok t' -> inh v t -> inh v t'.
Proof.
  induction n as [|n IH]; intros t t' v H I; [discriminate|].
  assert (L : forall l l', map_res (canon farm n) l = Ok l' -> Forall2 (fun a a' => forall v, inh v a -> inh v a') l l').
  { intros l l' M. apply map_res_forall2 in M. induction M as [|a b l l' Ha M IHM]; constructor; [|exact IHM]. intros w Iw. now apply (IH a b). }
  destruct t as [w| | |c|c l|l|l]; try (injection H as <-; exact I); try (destruct I; fail).
  - apply canon_class in H. destruct H as [->|[[-> ->]|[[-> ->]|[-> ->]]]]; [exact I| | |].
    + now apply (kin_trans _ List_ MutableSequence).
    + now apply (kin_trans _ Puppy Dog).
    + apply inh_app; [discriminate|]. split; [now apply (kin_trans _ Crate Box)|]. intros _. apply Forall_forall. intros; exact Logic.I.
  - rewrite canon_app in H. destruct (variadic c l) as [a|] eqn:Va.
    + apply variadic_some in Va. destruct Va as [-> ->]. destruct (canon farm n a) as [a'| |] eqn:Ca; try discriminate. injection H as <-.
      apply inh_tuple in I. destruct I as [vs [-> I]]. apply inh_app; [discriminate|]. split; [reflexivity|]. intros _. cbn.
      destruct I as [I|[b [E I]]].
      * destruct (forall2_cons_r _ _ _ _ _ _ I) as [v1 [vs1 [-> [_ I1]]]]. destruct (forall2_cons_r _ _ _ _ _ _ I1) as [v2 [vs2 [-> [[] _]]]].
      * injection E as <-. revert I. apply Forall_impl. intros w. now apply IH.
    + destruct (canon farm n (TCon c)) as [o| |] eqn:Co; try discriminate. cbn [bind] in H.
      destruct (map_res (canon farm n) l) as [l'| |] eqn:Ml; try discriminate. cbn [bind] in H. apply L in Ml.
      assert (Hd : heads v l -> heads v l').
      { destruct Ml as [|a a' l l' Ha _]; [trivial|]. apply Forall_impl. exact Ha. }
      apply canon_class in Co. destruct Co as [->|[[-> ->]|[[-> ->]|[-> ->]]]].
      * cbn [subscript] in H. destruct (generic farm c) eqn:Gc; [|discriminate]. injection H as <-.
        assert (Q : c = CTuple \/ c <> CTuple) by (destruct c; try (now left); right; discriminate). destruct Q as [->|N].
        -- apply inh_tuple in I. apply inh_tuple. destruct I as [vs [-> I]]. exists vs. split; [reflexivity|].
           destruct I as [I|[b [-> _]]]; [|discriminate Va]. left. clear - I Ml. revert vs I.
           induction Ml as [|a a' l l' Ha _ IHl]; intros vs I; [rewrite (forall2_nil_r _ _ _ _ I); constructor|].
           destruct (forall2_cons_r _ _ _ _ _ _ I) as [w [vs' [-> [I1 I2]]]]. constructor; [now apply Ha|now apply IHl].
        -- apply inh_app in I; [|exact N]. apply inh_app; [exact N|]. tauto.
      * injection H as <-. apply inh_app in I; [|discriminate]. apply inh_app; [discriminate|]. destruct I as [I1 I2].
        split; [now apply (kin_trans _ List_ MutableSequence)|]. intros _. apply Hd. now apply I2.
      * discriminate H.
      * cbn in H. destruct l' as [|a' [|? ?]]; try discriminate H. injection H as <-. apply inh_app in I; [|discriminate]. apply inh_app; [discriminate|].
        destruct I as [I1 I2]. split; [now apply (kin_trans _ Crate Box)|]. intros _. apply Hd. now apply I2.
  - cbn in H. destruct (map_res (canon farm n) l) as [l'| |] eqn:Ml; try discriminate. injection H as <-. apply L in Ml.
    apply inh_union in I. destruct I as [t [It I]].
    assert (E : exists t', In t' l' /\ inh v t').
    { clear - Ml It I. induction Ml as [|a a' l l' Ha _ IHl]; [destruct It|]. destruct It as [<-|It]; [exists a'; split; [now left|now apply Ha]|].
      destruct (IHl It) as [t' [I1 I2]]. exists t'. split; [now right|exact I2]. }
    destruct E as [t' [I1 I2]]. now apply inh_mk_union with t'.
Qed.
Lemma accepts_con : forall T c d, accepts T (TCon c) (TCon d) -> c = d \/ issub T d c = true.
Proof.
  intros T c d A. remember (TCon c) as t eqn:Et. remember (TCon d) as x eqn:Ex. destruct A; try discriminate; injection Et as ->; injection Ex as ->; auto.
Qed.
Lemma issub_refl : forall c, issub farm c c = true.
Proof. intros c. cbn [issub farm]. apply orb_true_iff. left. now apply cls_eqb_eq. Qed.
Lemma inh_accepts : forall t x, accepts farm t x -> forall v, ground t -> tidy farm x -> strict farm t = true -> strict farm x = true -> inh v x -> inh v t.
Proof.
  intros t x A. induction A as [w|x|t|x|t|c|c d E|c d ys A IH|c d xs E|c xs ys F|xs ys F|t l F|l a x I A IH|c xs ys E F
     |c d a xs b ys D E A IH|c xs ys E A IH|c xs d ys b y n y' I S C A IH|d j a xs J E A IH] using accepts_ind2; intros v G X St Sx H; try discriminate; try exact H.
  - now apply kin_trans with d.
  - apply accepts_con in A. apply inh_class in H. destruct A as [->|A]; [exact H|now apply kin_trans with d].
  - cbn in Sx. apply negb_true_iff in Sx.
    assert (N : c <> CTuple). { intros ->. apply kin_generic in E; [discriminate E|exact Sx]. }
    apply inh_app; [exact N|]. split; [now apply kin_trans with d|]. intros K. rewrite (kin_generic _ _ E Sx) in K. discriminate.
  - apply strict_app in St. destruct St as [St _]. apply strict_app in Sx. destruct Sx as [Sx _]. apply ground_list in G.
    apply tidy_app in X. destruct X as [X _].
    assert (Q : Forall2 (fun a b => forall v, inh v b -> inh v a) xs ys).
    { clear - F St Sx G X. induction F as [|a b xs ys [_ H] _ IH]; constructor.
      - intros v. apply H; [now apply Forall_inv in G|now apply Forall_inv in X|now apply Forall_inv in St|now apply Forall_inv in Sx].
      - apply IH; [now apply Forall_inv_tail in G|now apply Forall_inv_tail in X|now apply Forall_inv_tail in St|now apply Forall_inv_tail in Sx]. }
    assert (K : c = CTuple \/ c <> CTuple) by (destruct c; try (now left); right; discriminate). destruct K as [->|N].
    + apply inh_tuple in H. apply inh_tuple. destruct H as [vs [-> H]]. exists vs. split; [reflexivity|]. left. destruct H as [H|[a [-> _]]].
      * clear - H Q. revert vs H. induction Q as [|a b xs ys Ha _ IH]; intros vs H; [rewrite (forall2_nil_r _ _ _ _ H); constructor|].
        destruct (forall2_cons_r _ _ _ _ _ _ H) as [w [vs' [-> [H1 H2]]]]. constructor; [now apply Ha|now apply IH].
      * apply Forall_inv_tail, Forall_inv in Sx. discriminate Sx.
    + apply inh_app in H; [|exact N]. apply inh_app; [exact N|]. destruct H as [H1 H2]. split; [exact H1|]. intros Gc. specialize (H2 Gc).
      destruct Q as [|a b xs ys Ha _]; [exact H2|]. revert H2. apply Forall_impl. exact Ha.
  - apply inh_union in H. destruct H as [t' [It H]]. rewrite Forall_forall in F. destruct (F t' It) as [_ Ft]. apply Ft; auto.
    + apply tidy_union in X. rewrite Forall_forall in X. auto.
    + cbn in Sx. rewrite forallb_forall in Sx. auto.
  - apply inh_union. exists a. split; [exact I|]. apply IH; auto.
    + unfold ground in G. cbn in G. apply ground_list in G. rewrite Forall_forall in G. auto.
    + cbn in St. rewrite forallb_forall in St. auto.
  - destruct E as [N E]. pose proof (tidy_tuple farm farm_regular ys X) as Xs. pose proof (strict_app _ _ _ Sx) as [Ss _].
    apply inh_app; [exact N|]. apply inh_tuple in H. destruct H as [vs [-> H]]. split; [exact E|]. intros Gc.
    destruct H as [H|[a [-> _]]]; [|apply Forall_inv_tail, Forall_inv in Ss; discriminate Ss].
    destruct xs as [|a xs]; [exact Logic.I|]. cbn. clear - F H Xs Ss G St N Gc. revert ys F H Xs Ss.
    induction vs as [|w vs IH]; intros ys F H Xs Ss; [constructor|]. destruct ys as [|y ys]; [discriminate (forall2_nil_r _ _ _ _ H)|].
    destruct (forall2_cons_r _ _ _ _ _ _ H) as [w' [vs' [Ew [H1 H2]]]]. injection Ew as <- <-. constructor.
    + pose proof (Forall_inv F) as [_ F1]. specialize (F1 (Tup [w]) G (Forall_inv Xs) St).
      assert (J : inh (Tup [w]) (TApp c (a :: xs))).
      { apply F1; [cbn; now rewrite (Forall_inv Ss)|]. apply inh_app; [discriminate|]. split; [reflexivity|]. intros _. constructor; [exact H1|constructor]. }
      apply inh_app in J; [|exact N]. exact (Forall_inv (proj2 J Gc)).
    + apply IH with ys; [now apply Forall_inv_tail in F|exact H2|now apply Forall_inv_tail in Xs|now apply Forall_inv_tail in Ss].
  - destruct E as [E E']. assert (Nd : d <> CTuple) by (destruct D as [->| ->]; discriminate).
    assert (N : c <> CTuple). { intros ->. apply tuple_bottom in E. congruence. }
    apply inh_app in H; [|exact Nd]. apply inh_app; [exact N|]. destruct H as [H1 H2]. split; [now apply kin_trans with d|]. intros _.
    assert (Gd : generic farm d = true) by (destruct D as [->| ->]; reflexivity). specialize (H2 Gd). cbn in H2 |- *. revert H2. apply Forall_impl.
    intros w. apply strict_app in St. apply strict_app in Sx. apply tidy_app in X. apply ground_list in G.
    apply IH; [exact (Forall_inv G)|exact (Forall_inv (proj1 X))|exact (Forall_inv (proj1 St))|exact (Forall_inv (proj1 Sx))].
  - destruct (farm_base d b ys n y y' I X S C) as [X' [e [-> [Ie [Ge [Ne [Nc No]]]]]]].
    assert (Nd : d <> CTuple) by (intros ->; destruct I).
    apply IH; auto.
    + apply strict_app in Sx. apply strict_app_intro; tauto.
    + apply inh_app in H; [|exact Nd]. apply inh_app; [exact Ne|]. destruct H as [H1 H2]. split; [now apply kin_up with d|]. intros _. apply H2.
      destruct (generic farm d) eqn:Gd; [reflexivity|]. destruct X as [_ [X _]]. remember (TApp d ys) as q eqn:Eq.
      destruct X as [| | | |c' l' F' G' X V| |]; try discriminate. injection Eq as -> ->. congruence.
Qed.
Theorem farm_universe : universe farm inh Tup Coll.
Proof.
  constructor.
  - intros v t x A G X St Sx H. now apply (inh_accepts t x A).
  - intros v n t t' C _ _. now apply inh_canon with n.
  - intros v t x E H. now apply (inh_equal t v x E).
  - exact inh_class.
  - intros v. apply object_top.
  - intros v l [].
  - exact inh_union.
  - intros vs ts F. apply inh_tuple. exists vs. auto.
  - intros vs. reflexivity.
  - intros c d n vs t C G N F. apply inh_app; [exact N|]. split; [|intros _; exact F].
    apply canon_class in C. destruct C as [C|[[-> C]|[[-> C]|[-> C]]]]; try discriminate C; injection C as ->; [apply issub_refl|reflexivity|reflexivity].
  - intros c vs. apply issub_refl.
Qed.

(** * Operations *)
(** [first[A](xs: Sequence[A], d: A) -> A], [pair[A, B](a: A, b: B) -> tuple[A, B]], [dog() -> Puppy],
    [wrap[A](x: A) -> Box[A]], [add(self, other: A) -> A], [many[A]( *xs: A) -> A] *)
Definition ops (o : nat) : tsig :=
  match o with
  | 0 => TSig [Some (TApp CSequence [TVar 0]); Some (TVar 0)] None (Some (TVar 0))
  | 1 => TSig [Some (TVar 0); Some (TVar 1)] None (Some (TApp CTuple [TVar 0; TVar 1]))
  | 2 => TSig [] None (Some (TCon Puppy))
  | 3 => TSig [Some (TVar 0)] None (Some (TApp Box [TVar 0]))
  | 4 => TSig [None; Some (TVar 0)] None (Some (TVar 0))
  | 5 => TSig [] (Some (Some (TVar 0))) (Some (TVar 0))
  | _ => TSig [] None None
  end.
Definition runs (o : nat) (vs : list value) (v : value) : Prop :=
  match o, vs with
  | 0, [xs; d] => v = d \/ In v (items xs)
  | 1, [a; b] => v = Tup [a; b]
  | 2, [] => v = Atom Puppy
  | 3, [x] => v = Coll Box [x]
  | 5, _ => In v vs
  | _, _ => False
  end.
Lemma fits_var : forall T f v w, fits T value (inh_in T) f v (Some (TVar w)) -> inh_in T v (f w).
Proof. intros T f v w [n [p [C H]]]. destruct n; [discriminate|]. injection C as <-. exact H. Qed.
Lemma runs_respects : respects farm value inh ops runs.
Proof.
  intros o vs v H. destruct o as [|[|[|[|[|[|o]]]]]]; cbn [ops ret params varpos].
  - split; [discriminate|]. intros f _ A. destruct vs as [|xs [|d [|? ?]]]; try destruct H; cbn [apply].
    + subst v. remember [Some (TApp CSequence [TVar 0]); Some (TVar 0)] as ps eqn:Ep. remember [xs; d] as q eqn:Eq.
      destruct A as [p ps v vs Hf A| |]; try discriminate. injection Ep as -> ->. injection Eq as -> ->.
      remember [Some (TVar 0)] as ps eqn:Ep. remember [d] as q eqn:Eq.
      destruct A as [p ps v vs Hf' A| |]; try discriminate. injection Ep as -> ->. injection Eq as -> ->. now apply fits_var in Hf'.
    + remember [Some (TApp CSequence [TVar 0]); Some (TVar 0)] as ps eqn:Ep. remember [xs; d] as q eqn:Eq.
      destruct A as [p ps w vs Hf A| |]; try discriminate. injection Ep as -> ->. injection Eq as -> ->.
      destruct Hf as [n [p [C Hf]]]. destruct n as [|[|n]]; try discriminate. injection C as <-. cbn [apply map] in Hf.
      apply inh_app in Hf; [|discriminate]. pose proof (proj2 Hf eq_refl) as Q. cbn in Q. rewrite Forall_forall in Q. now apply Q.
  - split; [discriminate|]. intros f _ A. destruct vs as [|a [|b [|? ?]]]; try contradiction. cbn in H. subst v.
    remember [Some (TVar 0); Some (TVar 1)] as ps eqn:Ep. remember [a; b] as q eqn:Eq.
    destruct A as [p ps w vs Hf A| |]; try discriminate. injection Ep as -> ->. injection Eq as -> ->.
    remember [Some (TVar 1)] as ps eqn:Ep. remember [b] as q eqn:Eq.
    destruct A as [p ps w vs Hf' A| |]; try discriminate. injection Ep as -> ->. injection Eq as -> ->.
    apply fits_var in Hf. apply fits_var in Hf'. apply inh_tuple. eexists. split; [reflexivity|]. left. cbn. auto.
  - destruct vs; try contradiction. cbn in H. subst v. split; intros; reflexivity.
  - split; [discriminate|]. intros f _ A. destruct vs as [|a [|? ?]]; try contradiction. cbn in H. subst v.
    remember [Some (TVar 0)] as ps eqn:Ep. remember [a] as q eqn:Eq.
    destruct A as [p ps w vs Hf A| |]; try discriminate. injection Ep as -> ->. injection Eq as -> ->.
    apply fits_var in Hf. apply inh_app; [discriminate|]. split; [reflexivity|]. intros _. constructor; [exact Hf|constructor].
  - destruct H.
  - split; [discriminate|]. intros f _ A. cbn [apply]. remember (@nil (option ty)) as ps eqn:Ep.
    destruct A as [| |p vs E F]; try discriminate; [destruct H|]. injection E as <-. cbn in H. rewrite Forall_forall in F. now apply fits_var, F.
  - destruct H.
Qed.

Lemma settled_by : forall n t t0, canon farm n t = Ok t0 -> ground t -> ell_ok t -> ground t0 -> strict farm t0 = true -> settled farm t.
Proof.
  intros n t t0 C G E G0 S. split; [exact G|]. split; [exact E|]. intros m t' C'.
  pose proof (canon_mono farm _ _ _ C (n + m) ltac:(lia)) as A. rewrite (canon_mono farm _ _ _ C' (n + m) ltac:(lia)) in A. injection A as ->. auto.
Qed.
Lemma canon_is : forall T n t t0 m t', canon T n t = Ok t0 -> canon T m t = Ok t' -> t' = t0.
Proof.
  intros T n t t0 m t' C C'.
  pose proof (canon_mono T _ _ _ C (n + m) ltac:(lia)) as A. rewrite (canon_mono T _ _ _ C' (n + m) ltac:(lia)) in A. now injection A.
Qed.
(** [wrap(first((1, True), 2))] *)
Definition wrapped : expr := ECall 3 [ECall 0 [ETuple [EVal Int; EVal Bool]; EVal Int]].
Lemma wrapped_tame : tame farm ops 9 wrapped.
Proof.
  apply tm_call.
  - apply Forall_cons; [|apply Forall_nil]. apply tm_call; [apply Forall_cons; [apply tm_tuple; repeat apply Forall_cons; try apply tm_val; apply Forall_nil|apply Forall_cons; [apply tm_val|apply Forall_nil]]|].
    intros r H _. injection H as <-. split; [apply pl_var|]. split.
    + intros p n p' I C. destruct I as [<-|[<-|[]]].
      * rewrite (canon_is farm 9 (TApp CSequence [TVar 0]) (TApp CSequence [TVar 0]) n p' eq_refl C). reflexivity.
      * rewrite (canon_is farm 9 (TVar 0) (TVar 0) n p' eq_refl C). reflexivity.
    + intros e n t n' I H. destruct I as [<-|[<-|[]]].
      * cbn in H. injection H as <- <-. apply (settled_by 9 _ (TApp CTuple [TCon Int; TCon Bool])); try reflexivity.
        apply eo_app; [repeat constructor|]. do 3 right. left. repeat constructor; discriminate.
      * cbn in H. injection H as <- <-. apply (settled_by 9 _ (TCon Int)); try reflexivity. apply eo_con.
  - intros r H _. injection H as <-. split; [apply pl_app; repeat constructor|]. split.
    + intros p n p' [<-|[]] C. rewrite (canon_is farm 9 (TVar 0) (TVar 0) n p' eq_refl C). reflexivity.
    + intros e n t n' [<-|[]] H. cbn in H. injection H as <- <-. apply (settled_by 9 _ (TCon Int)); try reflexivity. apply eo_con.
Qed.
Lemma wrapped_evals : evals value inh Tup Coll runs wrapped (Coll Box [Atom Bool]).
Proof.
  apply ev_call with [Atom Bool]; [|reflexivity]. constructor; [|constructor].
  apply ev_call with [Tup [Atom Int; Atom Bool]; Atom Int]; [|right; right; now left].
  constructor; [|constructor; [|constructor]].
  - apply ev_tuple. repeat constructor.
  - now constructor.
Qed.

(** * Where it fails *)
(** Python's [+] on integers and floats *)
Definition python (o : nat) (vs : list value) (v : value) : Prop :=
  match o, vs with
  | 4, [Atom a; Atom b] => v = Atom (if cls_eqb a Float || cls_eqb b Float then Float else Int)
  | _, _ => False
  end.
(** As [farm], with texts that are sequences of texts *)
Definition town : table := Table
  (fun c d => issub farm c d || cls_eqb c Str && (cls_eqb d CSequence || cls_eqb d CIterable)) (bases farm) (special farm) (generic farm) (bounded farm) None.
Definition takes (o : nat) (vs : list value) (v : value) : Prop :=
  match o, vs with 0, [xs; d] => v = d \/ In v (items xs) | _, _ => False end.
Lemma takes_respects : respects town value (inh_in town) ops takes.
Proof.
  intros o vs v H. destruct o as [|o]; [|destruct o as [|[|[|[|[|o]]]]]; destruct H]. cbn [ops ret params varpos].
  split; [discriminate|]. intros f _ A. destruct vs as [|xs [|d [|? ?]]]; try contradiction. cbn [apply].
  remember [Some (TApp CSequence [TVar 0]); Some (TVar 0)] as ps eqn:Ep. remember [xs; d] as q eqn:Eq.
  destruct A as [p ps w vs Hf A| |]; try discriminate. injection Ep as -> ->. injection Eq as -> ->. destruct H as [H|H].
  - subst v. remember [Some (TVar 0)] as ps eqn:Ep. remember [d] as q eqn:Eq.
    destruct A as [p ps v vs Hf' A| |]; try discriminate. injection Ep as -> ->. injection Eq as -> ->. now apply fits_var in Hf'.
  - destruct Hf as [n [p [C Hf]]]. destruct n as [|[|n]]; try discriminate. injection C as <-. destruct Hf as [_ Hf]. cbn in Hf. rewrite Forall_forall in Hf. now apply Hf.
Qed.
