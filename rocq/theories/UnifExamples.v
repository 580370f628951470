(** A table of classes used in the examples. *)
From Coq Require Import List Bool Arith Lia.
From Verif Require Import UnifModel UnifSpec UnifSubst UnifProofs UnifCanon.
Import ListNotations.

Definition Int := CUser 0.
Definition Str := CUser 1.
Definition MutableSequence := CUser 2.
Definition List_ := CUser 3.
Definition Function := CUser 4.
Definition Box := CUser 5.          (* class Box(Generic[T7]) *)
Definition Crate := CUser 6.        (* class Crate(Box[T7]) *)
Definition Bool := CUser 8.
Definition Bin := CUser 9.          (* class Bin(Box[T0]) *)
Definition Dog := CUser 10.         (* class Dog *)
Definition Puppy := CUser 11.       (* class Puppy(Dog) *)
Definition Kitten := CUser 12.      (* class Kitten(Dog) *)
Definition Range := CUser 13.
Definition parents (c : cls) : list cls :=
  match c with
  | CSequence | CMapping => [CIterable; CObject]
  | COperation => [CGeneric; CCallable; CObject]
  | CTuple => [CSequence; CIterable; CObject]
  | CUser 2 => [CSequence; CIterable; CObject]
  | CUser 3 => [MutableSequence; CSequence; CIterable; CObject]
  | CUser 5 => [CGeneric; CObject]
  | CUser 6 => [Box; CGeneric; CObject]
  | CUser 8 => [Int; CObject]
  | CUser 9 => [Box; CGeneric; CObject]
  | CUser 11 => [Dog; CObject]
  | CUser 12 => [Dog; CObject]
  | CUser 13 => [CSequence; CIterable; CObject]
  | _ => [CObject]
  end.
Definition zoo : table := Table
  (fun c d => cls_eqb c d || existsb (cls_eqb d) (parents c))
  (fun c => match c with
            | CSequence => [TCon CIterable]
            | CMapping => [TCon CIterable]
            | COperation => [TApp CGeneric [TVar 90; TVar 91]]
            | CUser 2 => [TCon CSequence]
            | CUser 5 => [TApp CGeneric [TVar 7]]
            | CUser 6 => [TApp Box [TVar 7]]
            | CUser 9 => [TApp Box [TVar 0]]
            | CUser 11 => [TCon Dog]
            | CUser 12 => [TCon Dog]
            | CUser 10 => [TCon CObject]
            | _ => []
            end)
  (fun c => match c with
            | CUser 3 => Some (TCon MutableSequence)
            | CUser 4 => Some (TApp CCallable [TEll; TAny])
            | CUser 13 => Some (TApp CSequence [TCon Int])
            | CUser 0 | CUser 1 | CUser 2 | CUser 8 => Some (TCon c)
            | CUser _ => None
            | _ => Some (TCon c)
            end)
  (fun c => match c with
            | CObject => false
            | CUser 2 | CUser 3 | CUser 5 | CUser 6 | CUser 9 => true
            | CUser _ => false
            | _ => true
            end)
  (fun _ => false) None.

Lemma nf_unique : forall T n t t', nf T t -> canon T n t = Ok t' -> t' = t.
Proof.
  intros T n t t' N H. destruct (nf_canon T t N) as [n0 K]. specialize (K (n + n0) ltac:(lia)).
  rewrite (canon_mono T n t t' H (n + n0) ltac:(lia)) in K. now injection K.
Qed.
Lemma fixed_dog : fixed zoo Dog.
Proof. right. split; [reflexivity|]. constructor; [|constructor]. right. now exists 1. Qed.
Lemma fixed_box : fixed zoo Box.
Proof. right. split; [reflexivity|]. constructor; [|constructor]. left. now eexists. Qed.
Lemma zoo_regular : regular zoo.
Proof.
  constructor; try (split; reflexivity); try reflexivity; try discriminate.
  - intros c t H. cbn in H.
    destruct c as [ | | | | | | | | |m]; try (injection H as <-; split; [apply nf_con; now left|split; [constructor|discriminate]]).
    destruct m as [|[|[|[|[|[|[|[|[|[|[|[|[|[|m]]]]]]]]]]]]]]; try discriminate H; injection H as <-; (split; [|split; [|discriminate]]);
      try (apply nf_con; now left); try (now constructor).
    + apply nf_app; [now left|reflexivity| |discriminate]. repeat constructor.
    + apply eo_app; [repeat constructor|auto].
    + apply nf_app; [now left|reflexivity| |discriminate]. constructor; [apply nf_con; now left|constructor].
    + apply eo_app; [repeat constructor|]. do 3 right. left. constructor; [discriminate|constructor].
  - intros c. cbn. destruct c as [ | | | | | | | | |m]; try (apply Forall_nil);
      try (apply Forall_cons; [split; [apply eo_con|discriminate]|apply Forall_nil]).
    + apply Forall_cons; [|apply Forall_nil]. split; [|discriminate]. apply eo_app; [repeat constructor|auto].
    + destruct m as [|[|[|[|[|[|[|[|[|[|[|[|[|[|m]]]]]]]]]]]]]]; try (apply Forall_nil); try (apply Forall_cons; [split; [apply eo_con|discriminate]|apply Forall_nil]);
        (apply Forall_cons; [|apply Forall_nil]); (split; [|discriminate]);
        (apply eo_app; [repeat constructor|]); try tauto; do 3 right; left; (constructor; [discriminate|constructor]).
Qed.
Lemma zoo_founded : founded zoo.
Proof.
  exists (fun c => match c with CUser m => S m | _ => 0 end). intros c b d I D S N. cbn in I, S.
  destruct c as [ | | | | | | | | |m]; try discriminate S.
  destruct m as [|[|[|[|[|[|[|[|[|[|[|[|[|[|m]]]]]]]]]]]]]];
    try discriminate S; try (destruct I; fail);
    destruct I as [<-|[]]; try (exfalso; eapply N; reflexivity); cbn in D; repeat (destruct D as [<-|D]; [cbn; lia|]); destruct D.
Qed.
Lemma no_ell : forall c ys, tidy zoo (TApp c ys) -> c <> CCallable -> c <> COperation -> c <> CGeneric -> c <> CTuple -> Forall (fun a => a <> TEll) ys.
Proof.
  intros c ys [_ [_ E]] A B C D. remember (TApp c ys) as e eqn:Ee. destruct E as [| | | |c' l' E K| |]; try discriminate.
  injection Ee as -> ->. destruct K as [K|[K|[K|[K|[K _]]]]]; tauto.
Qed.
Lemma tidy_parts : forall c ys, tidy zoo (TApp c ys) -> Forall ground ys /\ Forall (nf zoo) ys /\ Forall ell_ok ys.
Proof.
  intros c ys [G [N E]]. split; [now apply ground_list|].
  remember (TApp c ys) as e eqn:Ee. destruct N as [| | | |c' l' F Gc N V| |]; try discriminate. injection Ee as -> ->.
  remember (TApp c ys) as e eqn:Ee. destruct E as [| | | |c' l' E K| |]; try discriminate. injection Ee as -> ->. auto.
Qed.
Lemma tidy_again : forall c ys, Forall ground ys -> Forall (nf zoo) ys -> Forall ell_ok ys -> fixed zoo c -> generic zoo c = true -> c <> CTuple ->
  Forall (fun a => a <> TEll) ys \/ c = CGeneric -> tidy zoo (TApp c ys).
Proof.
  intros c ys A B C F G N K. split; [now apply ground_list|]. split; [apply nf_app; auto; tauto|]. apply eo_app; [exact C|]. tauto.
Qed.
Lemma zoo_bases : tidy_bases zoo.
Proof.
  intros d b ys n y y' I H S C. destruct (tidy_parts d ys H) as [A [B D]].
  assert (Con : forall c, b = TCon c -> fixed zoo c -> generic zoo c = true -> c <> CTuple -> Forall (fun a => a <> TEll) ys \/ c = CGeneric -> tidy zoo y').
  { intros c -> F G N K. cbn [subscript] in S. rewrite G in S. injection S as <-.
    pose proof (tidy_again c ys A B D F G N K) as Q. rewrite (nf_unique zoo n _ y' (proj1 (proj2 Q)) C). exact Q. }
  assert (One : forall c v, b = TApp c [TVar v] -> fixed zoo c -> generic zoo c = true -> c <> CTuple -> Forall (fun a => a <> TEll) ys \/ c = CGeneric -> tidy zoo y').
  { intros c v -> F G N K. cbn in S. rewrite ?Nat.eqb_refl in S. destruct ys as [|y0 [|y1 ys]]; cbn in S; try discriminate. rewrite ?Nat.eqb_refl in S.
    injection S as <-. pose proof (tidy_again c [y0] A B D F G N K) as Q. rewrite (nf_unique zoo n _ y' (proj1 (proj2 Q)) C). exact Q. }
  cbn in I. destruct d as [ | | | | | | | | |m]; try (destruct I; fail).
  - destruct I as [<-|[]]. apply (Con CIterable eq_refl); [now left|reflexivity|discriminate|]. left. apply (no_ell _ _ H); discriminate.
  - destruct I as [<-|[]]. apply (Con CIterable eq_refl); [now left|reflexivity|discriminate|]. left. apply (no_ell _ _ H); discriminate.
  - destruct I as [<-|[]]. cbn in S. destruct ys as [|y0 [|y1 [|y2 ys]]]; cbn in S; try discriminate. injection S as <-.
    pose proof (tidy_again CGeneric [y0; y1] A B D (or_introl eq_refl) eq_refl ltac:(discriminate) (or_intror eq_refl)) as Q.
    rewrite (nf_unique zoo n _ y' (proj1 (proj2 Q)) C). exact Q.
  - destruct m as [|[|[|[|[|[|[|[|[|[|[|[|[|[|m]]]]]]]]]]]]]]; try (destruct I; fail).
    + destruct I as [<-|[]]. apply (Con CSequence eq_refl); [now left|reflexivity|discriminate|]. left. apply (no_ell _ _ H); discriminate.
    + destruct I as [<-|[]]. apply (One CGeneric 7 eq_refl); [now left|reflexivity|discriminate|now right].
    + destruct I as [<-|[]]. apply (One Box 7 eq_refl); [apply fixed_box|reflexivity|discriminate|]. left. apply (no_ell _ _ H); discriminate.
    + destruct I as [<-|[]]. apply (One Box 0 eq_refl); [apply fixed_box|reflexivity|discriminate|]. left. apply (no_ell _ _ H); discriminate.
    + destruct I as [<-|[]]. discriminate S.
    + destruct I as [<-|[]]. discriminate S.
    + destruct I as [<-|[]]. discriminate S.
Qed.

(** * Functions *)
(** Instances of a class [c] of [zoo] among a type's values; [object] besides all. *)
Fixpoint has (c : cls) (t : ty) : bool :=
  match t with
  | TCon d => issub zoo c d
  | TUnion l => existsb (has c) l
  | _ => false
  end.
Lemma zoo_trans : forall a c d, issub zoo a c = true -> issub zoo c d = true -> issub zoo a d = true.
Proof.
  intros a c d H K. cbn [issub zoo] in *. apply orb_true_iff in H. destruct H as [H|H]; [apply cls_eqb_eq in H; now subst c|].
  apply orb_true_iff in K. destruct K as [K|K]; [apply cls_eqb_eq in K; subst d; now rewrite H, orb_true_r|].
  apply existsb_exists in H. destruct H as [e [Ie He]]. apply cls_eqb_eq in He. subst e.
  apply existsb_exists in K. destruct K as [e [Ig Hg]]. apply cls_eqb_eq in Hg. subst e.
  apply orb_true_iff. right. apply existsb_exists. exists d. split; [|now apply cls_eqb_eq].
  destruct a as [ | | | | | | | | |m]; try destruct m as [|[|[|[|[|[|[|[|[|[|[|[|[|[|m]]]]]]]]]]]]]]; cbn in Ie;
    repeat (destruct Ie as [<-|Ie]; [cbn in Ig; repeat (destruct Ig as [<-|Ig]; [cbn; tauto|]); destruct Ig|]); destruct Ie.
Qed.
Section BelowInd.
Variable P : ty -> ty -> Prop.
Variable T : table.
Hypothesis H1 : forall t, P t t.
Hypothesis H2 : forall t u w, P t u -> P u w -> P t w.
Hypothesis H3 : forall c d, issub T d c = true -> P (TCon d) (TCon c).
Hypothesis H4 : forall ps qs r r', Forall2 (below T) qs ps -> P (TApp CCallable [TList ps; r]) (TApp CCallable [TList qs; r']).
Hypothesis H5 : forall l t, Forall (fun a => P a t) l -> P (TUnion l) t.
Hypothesis H6 : forall l t a, In a l -> P t a -> P t (TUnion l).
Fixpoint below_ind2 (t x : ty) (H : below T t x) {struct H} : P t x.
Proof.
  destruct H as [t|t u w A B|c d E|ps qs r r' F A|l t F|l t a I A].
  - apply H1.
  - apply H2 with u; apply below_ind2; assumption.
  - now apply H3.
  - now apply H4.
  - apply H5. induction F as [|b l A F IH]; constructor; [apply below_ind2; exact A|exact IH].
  - apply H6 with a; [exact I|apply below_ind2; exact A].
Qed.
End BelowInd.
Lemma below_has : forall c t u, below zoo t u -> has c t = true -> has c u = true.
Proof.
  intros c. refine (below_ind2 (fun t u => has c t = true -> has c u = true) zoo _ _ _ _ _ _); cbv beta.
  - intros t H. exact H.
  - intros t u w A B H. now apply B, A.
  - intros a d E H. now apply zoo_trans with d.
  - intros ps qs r r' _ H. discriminate H.
  - intros l t F H. cbn in H. apply existsb_exists in H. destruct H as [a [I H]]. rewrite Forall_forall in F. now apply (F a I).
  - intros l t a I A H. cbn. apply existsb_exists. exists a. auto.
Qed.
(** Functions that do not take integers *)
Fixpoint shy (t : ty) : Prop :=
  match t with
  | TApp CCallable [TList [p]; _] => has Int p = false
  | TUnion l => (fix some (l : list ty) : Prop := match l with [] => False | a :: l' => shy a \/ some l' end) l
  | _ => False
  end.
Lemma shy_union : forall l, shy (TUnion l) <-> exists a, In a l /\ shy a.
Proof.
  induction l as [|a l IH]; cbn; [split; [intros []|intros [? [[] _]]]|]. split.
  - intros [H|H]; [exists a; auto|]. apply IH in H. destruct H as [t [I H]]. exists t. auto.
  - intros [t [[<-|I] H]]; [now left|]. right. apply IH. eauto.
Qed.
Lemma below_shy : forall t u, below zoo t u -> shy t -> shy u.
Proof.
  refine (below_ind2 (fun t u => shy t -> shy u) zoo _ _ _ _ _ _); cbv beta.
  - intros t H. exact H.
  - intros t u w A B H. now apply B, A.
  - intros c d _ [].
  - intros ps qs r r' F H. destruct F as [|q p qs ps B F]; [exact H|]. destruct F as [|? ? ? ? ? ?]; [|destruct H]. cbn in *.
    destruct (has Int q) eqn:E; [|reflexivity]. rewrite (below_has Int q p B E) in H. discriminate.
  - intros l t F H. apply shy_union in H. destruct H as [a [I H]]. rewrite Forall_forall in F. now apply (F a I).
  - intros l t a I A H. apply shy_union. exists a. auto.
Qed.
Lemma function_parameter : forall a, ~ (below zoo (TCon Int) a /\ below zoo (TApp CCallable [TList [TCon Bool]; TCon Bool]) (TApp CCallable [TList [a]; TCon Bool])).
Proof.
  intros a [A B]. apply (below_has Int) in A; [|reflexivity]. apply below_shy in B; [|reflexivity]. cbn in B. congruence.
Qed.
