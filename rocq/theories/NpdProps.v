(** Property C86: NumPyro distributions as terms. *)
From Coq Require Import String ZArith List Bool Arith.
From Verif Require Import NpdModel NpdSpec NpdProofs NpdLaws.
Import ListNotations.
Local Open Scope string_scope.
Local Open Scope list_scope.

(** Calling the operation of a class, in any mixture of positional and keyword arguments and with any left out, gives a
    term that stands for exactly what the library's constructor gives for the same call, errors included.
    Missing: [Wishart], and positional arguments beyond the operation's parameters; false for both. *)
Theorem C86_calls_partial : forall chol chol_inv cov prec e pos kw mpos mkw, coherent chol chol_inv cov prec -> In e table -> cls e <> "Wishart" ->
  length pos <= length (params e) -> Forall (object chol chol_inv cov prec) pos -> Forall (object chol chol_inv cov prec) (map snd kw) ->
  mapO (mat chol chol_inv cov prec) pos = Ok mpos -> mapK (mat chol chol_inv cov prec) kw = Ok mkw ->
  andthen (call none e pos kw) (mat chol chol_inv cov prec) = lib_new chol chol_inv cov prec (cls e) mpos mkw.
Proof. exact (fun c ci co p e pos kw mpos mkw L I N A B D E F => proj1 (call_serves c ci co p L e pos kw mpos mkw I N A B D E F)). Qed.
Print Assumptions C86_calls_partial.

(** The attributes of the term are the arguments of the call, whichever way they were given. *)
Theorem C86_attributes_partial : forall chol chol_inv cov prec e pos kw t, coherent chol chol_inv cov prec -> In e table -> cls e <> "Wishart" ->
  Forall (object chol chol_inv cov prec) pos -> Forall (object chol chol_inv cov prec) (map snd kw) -> call none e pos kw = Ok t ->
  forall a, In a (sets e) -> exists v x, argument (params e) pos kw a = Some v /\ tattr t a = Ok x /\
    (forall w, mat chol chol_inv cov prec v = Ok w -> mat chol chol_inv cov prec x = Ok w) /\ (data v = true -> x = v).
Proof. exact (fun c ci co p e pos kw t L I N A B C => call_attributes c ci co p L e pos kw t I N A B C). Qed.
Print Assumptions C86_attributes_partial.

(** Evaluating a value, any number of times, does not change the distribution it stands for; each time, objects of the
    library turn into terms two levels deeper. *)
Theorem C86_evaluate_partial : forall chol chol_inv cov prec m v w, coherent chol chol_inv cov prec -> object chol chol_inv cov prec v ->
  mat chol chol_inv cov prec v = Ok w ->
  exists t, passes m v = Ok t /\ mat chol chol_inv cov prec t = Ok w /\ object chol chol_inv cov prec t /\ depth t <= depth v - 2 * m.
Proof. exact (fun c ci co p m v w L => passes_serves c ci co p L m v w). Qed.
Print Assumptions C86_evaluate_partial.

(** In a term without objects of the library, a handler of a constructor replaces every term of that constructor. *)
Theorem C86_handled : forall a f v, (forall args kw, Forall whole args -> Forall whole (map snd kw) -> whole (f args kw)) -> whole v ->
  evaluate (handle a f) v = Ok (replace a f v).
Proof. exact (fun a f v F W => proj1 (handle_replaces a f v F W)). Qed.
Print Assumptions C86_handled.

(** A case: the conversions of numbers and their squares; [Gamma(rate=a, concentration=b)], a normal distribution given
    by its factor, and one within two [Independent]s *)
Definition squares : coherent Nat.sqrt (fun p => p) (fun l => l * l) (fun l => l).
Proof. constructor; intros x; [apply Nat.sqrt_square|reflexivity]. Qed.
Definition normal : entry := plain "Normal" loc_scale.
Definition independent : entry := plain "Independent" [req "base_dist"; req "reinterpreted_batch_ndims"].
Definition gamma : entry := plain "Gamma" [req "concentration"; opt "rate" (Num 1)].
Definition mvn : entry := plain "MultivariateNormal" [opt "loc" (Num 0); opt "covariance_matrix" Null; opt "precision_matrix" Null; opt "scale_tril" Null].
Definition new := lib_new Nat.sqrt (fun p => p) (fun l => l * l) (fun l => l).
Definition stands := mat Nat.sqrt (fun p => p) (fun l => l * l) (fun l => l).
Definition raw_normal : val := Raw "Normal" [("loc", Num 0); ("scale", Arr 3)] [].
Definition wrap (v : val) : val := Raw "Independent" [("base_dist", v); ("reinterpreted_batch_ndims", Num 1)] [].
Lemma table_has e c : lookup c = Some e -> In e table.
Proof. intros H. now apply lookup_In in H. Qed.
Example C86_example :
  (In gamma table /\ call none gamma [] [("rate", Arr 1); ("concentration", Arr 2)] = Ok (Tm "Gamma" [Arr 2; Arr 1] []) /\
   andthen (call none gamma [] [("rate", Arr 1); ("concentration", Arr 2)]) stands = new "Gamma" [] [("rate", Arr 1); ("concentration", Arr 2)]) /\
  (In mvn table /\ new "MultivariateNormal" [] [("scale_tril", Arr 3)] =
     Ok (Raw "MultivariateNormal" [("loc", Num 0); ("covariance_matrix", Arr 9); ("precision_matrix", Arr 3); ("scale_tril", Arr 3)] [])) /\
  (object Nat.sqrt (fun p => p) (fun l => l * l) (fun l => l) (wrap (wrap raw_normal)) /\ depth (wrap (wrap raw_normal)) = 3 /\
   stands (wrap (wrap raw_normal)) = Ok (wrap (wrap raw_normal)) /\
   passes 2 (wrap (wrap raw_normal)) = Ok (Tm "Independent" [Tm "Independent" [Tm "Normal" [Num 0; Arr 3] []; Num 1] []; Num 1] [])) /\
  (whole (Tm "Independent" [Tm "Normal" [Num 0; Arr 3] []; Num 1] []) /\
   evaluate (handle "Normal" (fun args kw => Tm "Cauchy" [Num 7; Num 8] [])) (Tm "Independent" [Tm "Normal" [Num 0; Arr 3] []; Num 1] []) =
     Ok (Tm "Independent" [Tm "Cauchy" [Num 7; Num 8] []; Num 1] [])).
Proof.
  assert (IN : In normal table) by (now apply (table_has normal "Normal")). assert (II : In independent table) by (now apply (table_has independent "Independent")).
  assert (ON : object Nat.sqrt (fun p => p) (fun l => l * l) (fun l => l) raw_normal).
  { apply (o_lib _ _ _ _ normal [] [("scale", Arr 3)]); try assumption; try reflexivity; [discriminate|auto with arith|intros x [<-|[]]; right; now left|constructor|repeat constructor]. }
  assert (OW : forall v, object Nat.sqrt (fun p => p) (fun l => l * l) (fun l => l) v -> object Nat.sqrt (fun p => p) (fun l => l * l) (fun l => l) (wrap v)).
  { intros v O. apply (o_lib _ _ _ _ independent [v; Num 1] []); try assumption; try reflexivity; [discriminate|intros x []|repeat constructor; assumption|constructor]. }
  repeat split; try reflexivity.
  - now apply (table_has gamma "Gamma").
  - now apply (table_has mvn "MultivariateNormal").
  - now apply OW, OW.
  - apply (w_term independent); try assumption; try reflexivity; try (intros k []); [|constructor]. repeat constructor. apply (w_term normal); try assumption; try reflexivity; try (intros k []); repeat constructor.
Qed.

(** One evaluation does not turn a distribution within two others into a term. *)
Theorem C86_once_refuted : exists v t, object Nat.sqrt (fun p => p) (fun l => l * l) (fun l => l) v /\ evaluate none v = Ok t /\ depth t <> 0.
Proof.
  exists (wrap (wrap raw_normal)), (Tm "Independent" [Tm "Independent" [raw_normal; Num 1] []; Num 1] []). split; [apply C86_example|]. split; [reflexivity|discriminate].
Qed.
Print Assumptions C86_once_refuted.

(** A handler is not asked about a distribution of the library within another one, though it is about one that stands
    alone, and about the same one when it is a term. *)
Theorem C86_inner_refuted : exists f t, evaluate (handle "Normal" f) raw_normal = Ok (f [Num 0; Arr 3] []) /\
  evaluate (handle "Normal" f) (wrap raw_normal) = Ok t /\ t = Tm "Independent" [Tm "Normal" [Num 0; Arr 3] []; Num 1] [] /\
  evaluate (handle "Normal" f) t = Ok (Tm "Independent" [f [Num 0; Arr 3] []; Num 1] []).
Proof. exists (fun args kw => Tm "Cauchy" args kw). eexists. repeat split; reflexivity. Qed.
Print Assumptions C86_inner_refuted.

(** No [Wishart] of the library can be embedded: it has no attribute [df]. *)
Theorem C86_wishart_refuted : (exists v, new "Wishart" [Num 5; Arr 9] [] = Ok v) /\
  forall chol chol_inv cov prec pos kw v, lib_new chol chol_inv cov prec "Wishart" pos kw = Ok v -> evaluate none v = AttributeError.
Proof.
  split; [eexists; reflexivity|]. intros chol chol_inv cov prec pos kw v H. unfold lib_new in H. change (get constructors "Wishart") with
    (Some ([req "concentration"; opt "scale_matrix" Null; opt "rate_matrix" Null; opt "scale_tril" Null], ["validate_args"])) in H. cbv beta iota in H.
  apply andthen_ok in H. destruct H as [[vs ex] [B H]]. cbn [fst snd] in H. destruct (forallb _ ex); [|discriminate]. unfold finish in H. change (by_matrix "Wishart") with true in H. cbv iota in H.
  destruct vs as [|x [|a [|b [|l [|? ?]]]]]; try discriminate. apply andthen_ok in H. destruct H as [[[a' b'] l'] [_ H]]. injection H as <-. reflexivity.
Qed.
Print Assumptions C86_wishart_refuted.

(** The factor in the term [Wishart(df, scale_tril)] becomes the scale matrix, and is factored again. *)
Theorem C86_wishart_term_refuted : exists e, In e table /\ cls e = "Wishart" /\ names e = ["df"; "scale_tril"] /\
  forall chol chol_inv cov prec d l, andthen (call none e [Arr d; Arr l] []) (mat chol chol_inv cov prec) =
    Ok (Raw "Wishart" [("concentration", Arr d); ("scale_matrix", Arr l); ("rate_matrix", Arr (prec (chol l))); ("scale_tril", Arr (chol l))] []).
Proof.
  exists (plain "Wishart" [req "df"; req "scale_tril"]). split; [now apply (table_has _ "Wishart")|]. repeat split; reflexivity.
Qed.
Print Assumptions C86_wishart_term_refuted.

(** Options of the library are lost by the embedding. *)
Theorem C86_options_refuted : exists v t w, new "Poisson" [Arr 0] [("is_sparse", Num 1)] = Ok v /\ evaluate none v = Ok t /\
  stands v = Ok v /\ stands t = Ok w /\ v = Raw "Poisson" [("rate", Arr 0)] [("is_sparse", Num 1)] /\ w = Raw "Poisson" [("rate", Arr 0)] [].
Proof. do 3 eexists. repeat split; reflexivity. Qed.
Print Assumptions C86_options_refuted.

(** [LKJCholesky(3, 1, "cvine")] is a call of the library only. *)
Theorem C86_positional_refuted : exists e v, In e table /\ cls e = "LKJCholesky" /\
  new (cls e) [Num 3; Num 1; Txt "cvine"] [] = Ok v /\ call none e [Num 3; Num 1; Txt "cvine"] [] = TypeError.
Proof.
  exists (plain "LKJCholesky" [req "dim"; opt "concentration" (Num 1)]). eexists. split; [now apply (table_has _ "LKJCholesky")|]. repeat split; reflexivity.
Qed.
Print Assumptions C86_positional_refuted.

(** A multivariate normal term given by its factor has no covariance matrix, unlike the distribution it stands for. *)
Theorem C86_matrices_refuted : exists t w attrs, call none mvn [] [("scale_tril", Arr 3)] = Ok t /\ tattr t "covariance_matrix" = Ok Null /\
  stands t = Ok w /\ w = Raw "MultivariateNormal" attrs [] /\ get attrs "covariance_matrix" = Some (Arr 9).
Proof. do 3 eexists. repeat split; reflexivity. Qed.
Print Assumptions C86_matrices_refuted.
