(** [==] and comparisons of terms (C58). *)
From Coq Require Import List Bool Arith.
From Verif Require Import NumModel NumSpec.
Import ListNotations.

Section More.
Variable V : Type.
Variable vkind : V -> kind.
Variable prim : bop -> V -> V -> out V.
Variable unary : uop -> V -> option (out V).
Variable meth : cop -> V -> V -> option V.
Variable below : V -> V -> bool.
Variable truth : V -> bool.
Variable same : V -> V -> bool.
Variable of_bool : bool -> V.
Notation build := (build V vkind prim unary meth below truth same of_bool).
Notation alike := (alike V same).

Lemma bop_eqb_iff : forall a b, bop_eqb a b = true <-> a = b.
Proof. intros [] []; cbn; split; intro H; try reflexivity; discriminate. Qed.
Lemma cop_eqb_iff : forall a b, cop_eqb a b = true <-> a = b.
Proof. intros [] []; cbn; split; intro H; try reflexivity; discriminate. Qed.
Lemma uop_eqb_iff : forall a b, uop_eqb a b = true <-> a = b.
Proof. intros [] []; cbn; split; intro H; try reflexivity; discriminate. Qed.

Scheme operand_mut := Induction for operand Sort Prop
with term_mut := Induction for term Sort Prop.

Lemma syn_eq_iff : forall a b, syn_eq V same a b = true <-> alike a b.
Proof.
  refine (operand_mut V (fun a => forall b, syn_eq V same a b = true <-> alike a b)
    (fun t => forall u, syn_teq V same t u = true <-> alike (Term V t) (Term V u)) _ _ _ _ _ _ _).
  - intros v [w| |u]; cbn [syn_eq]; split; intro H; try discriminate; try (inversion H; assumption); constructor; assumption.
  - intros [w| |u]; cbn [syn_eq]; split; intro H; try discriminate; try (inversion H; assumption); constructor; assumption.
  - intros t IH [w| |u]; cbn [syn_eq]; try (split; intro H; [discriminate|inversion H]). apply IH.
  - intros x k [y l|o a b|c a b|o a]; cbn [syn_teq]; split; intro H; try discriminate; try (inversion H; fail).
    + apply Nat.eqb_eq in H. subst. constructor.
    + inversion H. apply Nat.eqb_refl.
  - intros o a IHa b IHb [y l|o' a' b'|c a' b'|o' a']; cbn [syn_teq]; split; intro H; try discriminate; try (inversion H; fail).
    + apply andb_prop in H. destruct H as [H H3]. apply andb_prop in H. destruct H as [H1 H2].
      apply bop_eqb_iff in H1. subst o'. constructor; [apply IHa|apply IHb]; assumption.
    + inversion H. rewrite (proj2 (bop_eqb_iff o' o') eq_refl). cbn [andb].
      apply andb_true_intro. split; [apply IHa|apply IHb]; assumption.
  - intros o a IHa b IHb [y l|o' a' b'|c a' b'|o' a']; cbn [syn_teq]; split; intro H; try discriminate; try (inversion H; fail).
    + apply andb_prop in H. destruct H as [H H3]. apply andb_prop in H. destruct H as [H1 H2].
      apply cop_eqb_iff in H1. subst c. constructor; [apply IHa|apply IHb]; assumption.
    + inversion H. rewrite (proj2 (cop_eqb_iff c c) eq_refl). cbn [andb].
      apply andb_true_intro. split; [apply IHa|apply IHb]; assumption.
  - intros o a IHa [y l|o' a' b'|c a' b'|o' a']; cbn [syn_teq]; split; intro H; try discriminate; try (inversion H; fail).
    + apply andb_prop in H. destruct H as [H1 H2]. apply uop_eqb_iff in H1. subst o'. constructor. apply IHa. assumption.
    + inversion H. rewrite (proj2 (uop_eqb_iff o' o') eq_refl). cbn [andb]. apply IHa. assumption.
Qed.

Lemma equal_alike : forall a b r, build (Eq V a b) = Ok r ->
  exists a' b', build a = Ok a' /\ build b = Ok b' /\
  (r = Plain V (of_bool true) /\ alike a' b' \/ r = Plain V (of_bool false) /\ ~ alike a' b').
Proof.
  intros a b r H. cbn [NumModel.build] in H.
  destruct (build a) as [a'|e]; [|discriminate]. destruct (build b) as [b'|e]; [|discriminate].
  cbn [bind] in H. injection H as <-. exists a', b'. split; [reflexivity|]. split; [reflexivity|].
  destruct (syn_eq V same a' b') eqn:E.
  - left. split; [reflexivity|]. apply syn_eq_iff. exact E.
  - right. split; [reflexivity|]. intro A. apply syn_eq_iff in A. congruence.
Qed.

Lemma alike_eval : (forall v w, same v w = true -> v = w) ->
  forall env a b, alike a b -> eval V prim unary meth (handled V env) a = eval V prim unary meth (handled V env) b.
Proof.
  intros S env a b H.
  set (ev := eval V prim unary meth (handled V env)).
  assert (B : forall o x y, ev (Term V (NBin V o x y)) = bind (ev x) (fun x' => bind (ev y) (fun y' => call_bin V prim o x' y'))) by reflexivity.
  assert (C : forall c x y, ev (Term V (NCmp V c x y)) = bind (ev x) (fun x' => bind (ev y) (fun y' => call_cmp V meth c x' y'))) by reflexivity.
  assert (U : forall u x, ev (Term V (NUn V u x)) = bind (ev x) (call_un V unary u)) by reflexivity.
  induction H.
  - rewrite (S v w); [reflexivity|assumption].
  - reflexivity.
  - reflexivity.
  - rewrite !B, IHalike1, IHalike2. reflexivity.
  - rewrite !C, IHalike1, IHalike2. reflexivity.
  - rewrite !U, IHalike. reflexivity.
Qed.

(** Comparing variables of number types: mirrored exactly if the class of the right one is a proper subclass. *)
Lemma compare_vars : forall c x k y l, number k = true -> number l = true ->
  build (Cmp V c (Var V x k) (Var V y l)) =
  Ok (Term V (if rank l <? rank k then NCmp V (swap c) (Term V (NVar V y l)) (Term V (NVar V x k))
              else NCmp V c (Term V (NVar V x k)) (Term V (NVar V y l)))).
Proof. intros c x [] y [] Hk Hl; try discriminate; reflexivity. Qed.
(** A comparison is of type bool, so that another comparison with it on the right is mirrored unless that is one too. *)
Lemma compare_bool : forall c d z l x y, number l = true -> l <> KBool ->
  build (Cmp V c (Var V z l) (Cmp V d (Var V x KReal) (Var V y KReal))) =
  Ok (Term V (NCmp V (swap c) (Term V (NCmp V d (Term V (NVar V x KReal)) (Term V (NVar V y KReal)))) (Term V (NVar V z l)))).
Proof. intros c d z [] x y Hl Hb; try discriminate; try reflexivity. contradiction Hb. reflexivity. Qed.
(** With a term of no number type: the method of the other, if it is of one. *)
Lemma compare_untyped : forall c x y l,
  build (Cmp V c (Var V x KObject) (Var V y l)) =
  if number l then Ok (Term V (NCmp V (swap c) (Term V (NVar V y l)) (Term V (NVar V x KObject)))) else Exc TypeError.
Proof. intros c x y []; reflexivity. Qed.
End More.
