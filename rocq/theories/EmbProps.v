(** Property C61: embedding a Pyro distribution as a term and building it again. *)
From Coq Require Import String List Bool.
From Verif Require Import EmbModel EmbSpec EmbProofs.
Import ListNotations.
Open Scope string_scope.
Open Scope list_scope.

(** For every class but two and all parameters, the distribution built from the term has all the parameters of the
    distribution. Missing: StudentT and Wishart, for which it is false. *)
Theorem C61_rebuild_partial : forall V convert default e given, In e table -> cls e <> "StudentT" -> cls e <> "Wishart" ->
  (forall a, In a (params e) -> attr V convert default (cls e) given a <> None) ->
  exists given', rebuild V convert default e given = Done given' /\
    forall a, In a (params e) -> attr V convert default (cls e) given' a = attr V convert default (cls e) given a.
Proof. exact table_rebuild. Qed.
Print Assumptions C61_rebuild_partial.

(** A [MultivariateNormal] given by its covariance *)
Example C61_example : exists e, In e table /\ cls e = "MultivariateNormal" /\
  let given := [("loc", 3); ("covariance_matrix", 16)] in
  (forall a, In a (params e) -> attr nat (fun _ _ => Nat.sqrt) (fun _ _ => None) (cls e) given a <> None) /\
  rebuild nat (fun _ _ => Nat.sqrt) (fun _ _ => None) e given = Done [("loc", 3); ("scale_tril", 4)].
Proof.
  eexists. split; [|split; [|cbn zeta; split]].
  - unfold table, others. do 3 (apply in_or_app; right). do 12 right. left. reflexivity.
  - reflexivity.
  - intros a [<-|[<-|[]]]; discriminate.
  - reflexivity.
Qed.

(** [StudentT(df, loc, scale)]: [loc] and [scale] are passed as [df] and [loc]. *)
Theorem C61_student_refuted : exists e given given', In e table /\ cls e = "StudentT" /\ given = [("df", 5); ("loc", 1); ("scale", 2)] /\
  rebuild nat (fun _ _ x => x) (fun _ a => if String.eqb a "scale" then Some 1 else None) e given = Done given' /\
  attr nat (fun _ _ x => x) (fun _ a => if String.eqb a "scale" then Some 1 else None) (cls e) given' "df" = Some 1.
Proof.
  eexists. eexists. eexists. split; [|split; [|split; [|split]]].
  - unfold table, loc_scale. apply in_or_app. right. apply in_or_app. left. do 7 right. left. reflexivity.
  - reflexivity.
  - reflexivity.
  - reflexivity.
  - reflexivity.
Qed.
Print Assumptions C61_student_refuted.

(** [Wishart]: its Cholesky factor is passed as its covariance, and factored again. *)
Theorem C61_wishart_refuted : exists e given given', In e table /\ cls e = "Wishart" /\ given = [("df", 5); ("covariance_matrix", 81)] /\
  attr nat (fun _ _ => Nat.sqrt) (fun _ _ => None) (cls e) given "scale_tril" = Some 9 /\
  rebuild nat (fun _ _ => Nat.sqrt) (fun _ _ => None) e given = Done given' /\
  attr nat (fun _ _ => Nat.sqrt) (fun _ _ => None) (cls e) given' "scale_tril" = Some 3.
Proof.
  eexists. eexists. eexists. split; [|split; [|split; [|split; [|split]]]].
  - unfold table, others. do 3 (apply in_or_app; right). do 21 right. left. reflexivity.
  - reflexivity.
  - reflexivity.
  - reflexivity.
  - reflexivity.
  - reflexivity.
Qed.
Print Assumptions C61_wishart_refuted.
