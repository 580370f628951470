(** Model of the embedding of Pyro distributions as terms (effectful/handlers/pyro.py 504-850): [evaluate] of a
    distribution reads some of its attributes and passes them to the constructor of its class. *)
From Coq Require Import String List Bool.
Import ListNotations.
Open Scope string_scope.
Open Scope list_scope.

(** What the embedding of a class passes to its constructor: the attributes it passes by position and by keyword *)
Record entry := Entry { cls : string; by_pos : list string; by_key : list (string * string) }.
(** [_embed_independent] (542-551), [_embed_folded] (554-561), [_embed_masked] (564-573) *)
Definition wrappers : list entry := [
  Entry "Independent" ["base_dist"; "reinterpreted_batch_ndims"] [];
  Entry "FoldedDistribution" ["base_dist"] [];
  Entry "MaskedDistribution" ["base_dist"; "mask"] []].
(** [_embed_loc_scale] (576-592): eight classes *)
Definition loc_scale : list entry :=
  map (fun c => Entry c ["loc"; "scale"] []) ["Cauchy"; "Gumbel"; "Laplace"; "LogNormal"; "Logistic"; "LogisticNormal"; "Normal"; "StudentT"].
(** [_embed_probs] (595-607) *)
Definition probs : list entry :=
  map (fun c => Entry c ["probs"] []) ["Bernoulli"; "Categorical"; "ContinuousBernoulli"; "Geometric"; "OneHotCategorical"; "OneHotCategoricalStraightThrough"].
(** The others (610-850), in the order of the source *)
Definition others : list entry := [
  Entry "Beta" ["concentration1"; "concentration0"] [];
  Entry "Kumaraswamy" ["concentration1"; "concentration0"] [];
  Entry "Binomial" ["total_count"; "probs"] [];
  Entry "Chi2" ["df"] [];
  Entry "Dirichlet" ["concentration"] [];
  Entry "Exponential" ["rate"] [];
  Entry "FisherSnedecor" ["df1"; "df2"] [];
  Entry "Gamma" ["concentration"; "rate"] [];
  Entry "HalfCauchy" ["scale"] [];
  Entry "HalfNormal" ["scale"] [];
  Entry "LKJCholesky" ["dim"] [("concentration", "concentration")];
  Entry "Multinomial" ["total_count"; "probs"] [];
  Entry "MultivariateNormal" ["loc"] [("scale_tril", "scale_tril")];
  Entry "NegativeBinomial" ["total_count"; "probs"] [];
  Entry "Pareto" ["scale"; "alpha"] [];
  Entry "Poisson" ["rate"] [];
  Entry "RelaxedBernoulli" ["temperature"; "probs"] [];
  Entry "RelaxedOneHotCategorical" ["temperature"; "probs"] [];
  Entry "Uniform" ["low"; "high"] [];
  Entry "VonMises" ["loc"; "concentration"] [];
  Entry "Weibull" ["scale"; "concentration"] [];
  Entry "Wishart" ["df"; "scale_tril"] [];
  Entry "Delta" ["v"] [("log_density", "log_density"); ("event_dim", "event_dim")]].
Definition table : list entry := wrappers ++ loc_scale ++ probs ++ others.

(** The constructors of PyTorch and Pyro (not part of the repository): their parameters in order *)
Definition constructors : list (string * list string) :=
  [("Independent", ["base_dist"; "reinterpreted_batch_ndims"]); ("FoldedDistribution", ["base_dist"]); ("MaskedDistribution", ["base_dist"; "mask"])]
  ++ map (fun c => (c, ["loc"; "scale"])) ["Cauchy"; "Gumbel"; "Laplace"; "LogNormal"; "Logistic"; "LogisticNormal"; "Normal"]
  ++ [("StudentT", ["df"; "loc"; "scale"])]
  ++ map (fun c => (c, ["probs"; "logits"])) ["Bernoulli"; "Categorical"; "ContinuousBernoulli"; "Geometric"; "OneHotCategorical"; "OneHotCategoricalStraightThrough"]
  ++ map (fun c => (c, ["concentration1"; "concentration0"])) ["Beta"; "Kumaraswamy"]
  ++ map (fun c => (c, ["total_count"; "probs"; "logits"])) ["Binomial"; "Multinomial"; "NegativeBinomial"]
  ++ [("Chi2", ["df"]); ("Dirichlet", ["concentration"]); ("Exponential", ["rate"]); ("FisherSnedecor", ["df1"; "df2"]);
      ("Gamma", ["concentration"; "rate"]); ("HalfCauchy", ["scale"]); ("HalfNormal", ["scale"]); ("LKJCholesky", ["dim"; "concentration"]);
      ("MultivariateNormal", ["loc"; "covariance_matrix"; "precision_matrix"; "scale_tril"]); ("Pareto", ["scale"; "alpha"]); ("Poisson", ["rate"]);
      ("RelaxedBernoulli", ["temperature"; "probs"; "logits"]); ("RelaxedOneHotCategorical", ["temperature"; "probs"; "logits"]);
      ("Uniform", ["low"; "high"]); ("VonMises", ["loc"; "concentration"]); ("Weibull", ["scale"; "concentration"]);
      ("Wishart", ["df"; "covariance_matrix"; "precision_matrix"; "scale_tril"]); ("Delta", ["v"; "log_density"; "event_dim"])].
Fixpoint signature (l : list (string * list string)) (c : string) : list string :=
  match l with [] => [] | (n, s) :: l' => if String.eqb n c then s else signature l' c end.
Definition sig (e : entry) : list string := signature constructors (cls e).

Section Emb.
Variable V : Type.
(** PyTorch's conversions between parametrisations, and defaults of constructors *)
Variable convert : string -> string -> V -> V.
Variable default : string -> string -> option V.
Fixpoint get (l : list (string * V)) (a : string) : option V :=
  match l with [] => None | (n, v) :: l' => if String.eqb n a then Some v else get l' a end.
(** The other parameters an attribute can come from *)
Definition sources (a : string) : list string :=
  if String.eqb a "scale_tril" then ["covariance_matrix"; "precision_matrix"] else if String.eqb a "probs" then ["logits"] else [].
Fixpoint first_source (given : list (string * V)) (a : string) (l : list string) : option V :=
  match l with [] => None | s :: l' => match get given s with Some v => Some (convert s a v) | None => first_source given a l' end end.
(** An attribute of the distribution built with the parameters [given]: the parameter, or one computed from another,
    or a default *)
Definition attr (c : string) (given : list (string * V)) (a : string) : option V :=
  match get given a with
  | Some v => Some v
  | None => match first_source given a (sources a) with Some v => Some v | None => default c a end
  end.
Inductive outcome (A : Type) := Done (a : A) | AttributeError | TypeError.
Arguments Done {A}. Arguments AttributeError {A}. Arguments TypeError {A}.
Fixpoint read (c : string) (given : list (string * V)) (l : list string) : outcome (list V) :=
  match l with
  | [] => Done []
  | a :: l' => match attr c given a with
               | None => AttributeError
               | Some v => match read c given l' with Done vs => Done (v :: vs) | e => e end
               end
  end.
(** The arguments of the term (520-850) *)
Definition embed (e : entry) (given : list (string * V)) : outcome (list V * list (string * V)) :=
  match read (cls e) given (by_pos e), read (cls e) given (map snd (by_key e)) with
  | Done vs, Done ks => Done (vs, combine (map fst (by_key e)) ks)
  | Done _, AttributeError | AttributeError, _ => AttributeError
  | _, _ => TypeError
  end.
Definition mem (a : string) (l : list string) : bool := existsb (String.eqb a) l.
(** Calling the constructor: Python binds the arguments to the signature. *)
Definition construct (e : entry) (vs : list V) (ks : list (string * V)) : outcome (list (string * V)) :=
  if Nat.ltb (length (sig e)) (length vs) then TypeError
  else if forallb (fun k : string * V => mem (fst k) (skipn (length vs) (sig e))) ks then Done (combine (sig e) vs ++ ks)
  else TypeError.
(** Embedding and building the distribution again *)
Definition rebuild (e : entry) (given : list (string * V)) : outcome (list (string * V)) :=
  match embed e given with Done (vs, ks) => construct e vs ks | AttributeError => AttributeError | TypeError => TypeError end.
End Emb.
Arguments Done {A}. Arguments AttributeError {A}. Arguments TypeError {A}.
