(** Model of NumPyro distributions as terms (effectful/handlers/numpyro.py 192-233 and 428-1177): for every class an
    operation, a class of terms and an embedding of the library's objects. *)
From Coq Require Import String ZArith List Bool Arith.
Import ListNotations.
Local Open Scope string_scope.
Local Open Scope list_scope.

(** [None], numbers, text, arrays (by name), distributions of the library (their class, their attributes and the
    options they were made with), and terms (their constructor, positional and keyword arguments) *)
Inductive val :=
  | Null
  | Num (z : Z)
  | Txt (s : string)
  | Arr (n : nat)
  | Raw (c : string) (attrs opts : list (string * val))
  | Tm (c : string) (args : list val) (kw : list (string * val)).
Inductive outcome (A : Type) := Ok (a : A) | TypeError | AttributeError | ValueError.
Arguments Ok {A}. Arguments TypeError {A}. Arguments AttributeError {A}. Arguments ValueError {A}.
Definition andthen {A B} (o : outcome A) (f : A -> outcome B) : outcome B :=
  match o with Ok a => f a | TypeError => TypeError | AttributeError => AttributeError | ValueError => ValueError end.

(** What the source says of one class: the parameters of the operation with their defaults ([**kwargs] apart), the
    parameters of the [__init__] of its terms after [ty] and [op], the ones of these handed to
    [_DistributionTerm.__init__], the attributes set, and the attributes its embedding reads *)
Record entry := Entry { cls : string; params : list (string * option val); init : list string; up : list string;
                        sets : list string; passed : list string }.
(** Most classes use the same names in the same order throughout. *)
Definition plain (c : string) (ps : list (string * option val)) : entry :=
  Entry c ps (map fst ps) (map fst ps) (map fst ps) (map fst ps).
Definition req (n : string) : string * option val := (n, None).
Definition opt (n : string) (v : val) : string * option val := (n, Some v).
Definition loc_scale : list (string * option val) := [opt "loc" (Num 0); opt "scale" (Num 1)].
(** numpyro.py 428-1177, in the order of the source; [DeltaTerm] (1101-1105) keeps [event_dim] among its arguments
    only. *)
Definition table : list entry :=
  map (fun c => plain c loc_scale) ["Cauchy"; "Gumbel"; "Laplace"; "LogNormal"; "Logistic"; "Normal"]
  ++ [plain "StudentT" (req "df" :: loc_scale)]
  ++ map (fun c => plain c [req "probs"]) ["BernoulliProbs"; "CategoricalProbs"; "GeometricProbs"]
  ++ map (fun c => plain c [req "logits"]) ["BernoulliLogits"; "CategoricalLogits"; "GeometricLogits"]
  ++ map (fun c => plain c [req "concentration1"; req "concentration0"]) ["Beta"; "Kumaraswamy"]
  ++ [plain "BinomialProbs" [req "probs"; opt "total_count" (Num 1)];
      plain "NegativeBinomialProbs" [req "total_count"; req "probs"];
      plain "MultinomialProbs" [req "probs"; opt "total_count" (Num 1)];
      plain "BinomialLogits" [req "logits"; opt "total_count" (Num 1)];
      plain "NegativeBinomialLogits" [req "total_count"; req "logits"];
      plain "MultinomialLogits" [req "logits"; opt "total_count" (Num 1)];
      plain "Chi2" [req "df"];
      plain "Dirichlet" [req "concentration"];
      plain "DirichletMultinomial" [req "concentration"; opt "total_count" (Num 1)];
      plain "Exponential" [opt "rate" (Num 1)];
      plain "Poisson" [req "rate"];
      plain "Gamma" [req "concentration"; opt "rate" (Num 1)];
      plain "HalfCauchy" [opt "scale" (Num 1)];
      plain "HalfNormal" [opt "scale" (Num 1)];
      plain "LKJCholesky" [req "dim"; opt "concentration" (Num 1)];
      plain "MultivariateNormal" [opt "loc" (Num 0); opt "covariance_matrix" Null; opt "precision_matrix" Null; opt "scale_tril" Null];
      plain "Pareto" [req "scale"; req "alpha"];
      plain "Uniform" [opt "low" (Num 0); opt "high" (Num 1)];
      plain "VonMises" [req "loc"; req "concentration"];
      plain "Weibull" [req "scale"; req "concentration"];
      plain "Wishart" [req "df"; req "scale_tril"];
      Entry "Delta" [opt "v" (Num 0); opt "log_density" (Num 0); opt "event_dim" (Num 0)]
        ["v"; "log_density"; "event_dim"] ["v"; "log_density"; "event_dim"] ["v"; "log_density"] ["v"; "log_density"; "event_dim"];
      plain "LowRankMultivariateNormal" [req "loc"; req "cov_factor"; req "cov_diag"];
      plain "RelaxedBernoulliLogits" [req "temperature"; req "logits"];
      plain "Independent" [req "base_dist"; req "reinterpreted_batch_ndims"]].
Definition lookup (c : string) : option entry := find (fun e => String.eqb (cls e) c) table.

(** Python's binding of positional and keyword arguments to named parameters and a [**kwargs]: the values in the
    order of the parameters, and the keywords that name none of them *)
Definition mem (a : string) (l : list string) : bool := existsb (String.eqb a) l.
Fixpoint get {B} (l : list (string * B)) (a : string) : option B :=
  match l with [] => None | (n, v) :: l' => if String.eqb n a then Some v else get l' a end.
Fixpoint fill (ps : list (string * option val)) (kw : list (string * val)) : outcome (list val) :=
  match ps with
  | [] => Ok []
  | (n, d) :: ps' =>
      match (match get kw n with Some v => Some v | None => d end) with
      | Some v => andthen (fill ps' kw) (fun vs => Ok (v :: vs))
      | None => TypeError
      end
  end.
Definition others (ps : list (string * option val)) (kw : list (string * val)) : list (string * val) :=
  filter (fun k => negb (mem (fst k) (map fst ps))) kw.
Definition bind (ps : list (string * option val)) (pos : list val) (kw : list (string * val)) : outcome (list val * list (string * val)) :=
  if Nat.ltb (length ps) (length pos) then TypeError
  else if existsb (fun k : string * val => mem (fst k) (map fst (firstn (length pos) ps))) kw then TypeError
  else andthen (fill (skipn (length pos) ps) kw) (fun vs => Ok (pos ++ vs, others ps kw)).

(** The library's constructors (NumPyro, not part of the repository): parameters that may be given by position, and
    options that are given by keyword only *)
Definition constructors : list (string * (list (string * option val) * list string)) :=
  map (fun c => (c, (loc_scale, ["validate_args"]))) ["Cauchy"; "Gumbel"; "Laplace"; "LogNormal"; "Logistic"; "Normal"]
  ++ [("StudentT", ([req "df"; opt "loc" (Num 0); opt "scale" (Num 1)], ["validate_args"]))]
  ++ map (fun c => (c, ([req "probs"], ["validate_args"]))) ["BernoulliProbs"; "CategoricalProbs"; "GeometricProbs"]
  ++ map (fun c => (c, ([req "logits"], ["validate_args"]))) ["BernoulliLogits"; "CategoricalLogits"; "GeometricLogits"]
  ++ [("Beta", ([req "concentration1"; req "concentration0"], ["validate_args"]));
      ("Kumaraswamy", ([req "concentration1"; req "concentration0"], ["validate_args"]));
      ("BinomialProbs", ([req "probs"; opt "total_count" (Num 1)], ["validate_args"]));
      ("NegativeBinomialProbs", ([req "total_count"; req "probs"], ["validate_args"]));
      ("MultinomialProbs", ([req "probs"; opt "total_count" (Num 1)], ["total_count_max"; "validate_args"]));
      ("BinomialLogits", ([req "logits"; opt "total_count" (Num 1)], ["validate_args"]));
      ("NegativeBinomialLogits", ([req "total_count"; req "logits"], ["validate_args"]));
      ("MultinomialLogits", ([req "logits"; opt "total_count" (Num 1)], ["total_count_max"; "validate_args"]));
      ("Chi2", ([req "df"], ["validate_args"]));
      ("Dirichlet", ([req "concentration"], ["validate_args"]));
      ("DirichletMultinomial", ([req "concentration"; opt "total_count" (Num 1)], ["total_count_max"; "validate_args"]));
      ("Exponential", ([opt "rate" (Num 1)], ["validate_args"]));
      ("Poisson", ([req "rate"], ["is_sparse"; "validate_args"]));
      ("Gamma", ([req "concentration"; opt "rate" (Num 1)], ["validate_args"]));
      ("HalfCauchy", ([opt "scale" (Num 1)], ["validate_args"]));
      ("HalfNormal", ([opt "scale" (Num 1)], ["validate_args"]));
      ("LKJCholesky", ([req "dim"; opt "concentration" (Num 1); opt "sample_method" (Txt "onion")], ["validate_args"]));
      ("MultivariateNormal", ([opt "loc" (Num 0); opt "covariance_matrix" Null; opt "precision_matrix" Null; opt "scale_tril" Null], ["validate_args"]));
      ("Pareto", ([req "scale"; req "alpha"], ["validate_args"]));
      ("Uniform", ([opt "low" (Num 0); opt "high" (Num 1)], ["validate_args"]));
      ("VonMises", ([req "loc"; req "concentration"], ["validate_args"]));
      ("Weibull", ([req "scale"; req "concentration"], ["validate_args"]));
      ("Wishart", ([req "concentration"; opt "scale_matrix" Null; opt "rate_matrix" Null; opt "scale_tril" Null], ["validate_args"]));
      ("Delta", ([opt "v" (Num 0); opt "log_density" (Num 0); opt "event_dim" (Num 0)], ["validate_args"]));
      ("LowRankMultivariateNormal", ([req "loc"; req "cov_factor"; req "cov_diag"], ["validate_args"]));
      ("RelaxedBernoulliLogits", ([req "temperature"; req "logits"], ["validate_args"]));
      ("Independent", ([req "base_dist"; req "reinterpreted_batch_ndims"], ["validate_args"]))].

Section Npd.
(** The library's conversions: the Cholesky factor of a matrix, the one of the inverse of a matrix, the matrix with a
    given factor, and the inverse of the matrix with a given factor *)
Variables chol chol_inv cov prec : nat -> nat.

(** A class given by one of three matrices has all three as attributes: the first one that is given counts, the
    others are computed. *)
Definition three (a b c : val) : outcome (val * val * val) :=
  match a, b, c with
  | Arr x, _, _ => Ok (Arr x, Arr (prec (chol x)), Arr (chol x))
  | Null, Arr p, _ => Ok (Arr (cov (chol_inv p)), Arr p, Arr (chol_inv p))
  | Null, Null, Arr l => Ok (Arr (cov l), Arr (prec l), Arr l)
  | Null, Null, Null => ValueError
  | _, _, _ => TypeError
  end.
Definition by_matrix (c : string) : bool := mem c ["MultivariateNormal"; "Wishart"].
Definition finish (c : string) (ns : list string) (vs : list val) (opts : list (string * val)) : outcome val :=
  if by_matrix c then
    match vs with
    | [x; a; b; l] => andthen (three a b l) (fun t => let '(a', b', l') := t in Ok (Raw c (combine ns [x; a'; b'; l']) opts))
    | _ => TypeError
    end
  else Ok (Raw c (combine ns vs) opts).
(** Calling the constructor of a class *)
Definition lib_new (c : string) (pos : list val) (kw : list (string * val)) : outcome val :=
  match get constructors c with
  | None => TypeError
  | Some (ps, only) =>
      andthen (bind ps pos kw) (fun b =>
        if forallb (fun k : string * val => mem (fst k) only) (snd b) then finish c (map fst ps) (fst b) (snd b) else TypeError)
  end.

(** Attributes by name, as the embeddings read them *)
Fixpoint read (attrs : list (string * val)) (l : list string) : outcome (list val) :=
  match l with
  | [] => Ok []
  | a :: l' => match get attrs a with
               | None => AttributeError
               | Some v => andthen (read attrs l') (fun vs => Ok (v :: vs))
               end
  end.
(** The class of terms: [XTerm.__init__] and [_DistributionTerm.__init__] (207-213) *)
Definition mk (e : entry) (args : list val) (kw : list (string * val)) : outcome val :=
  andthen (bind (map req (init e)) args kw) (fun b =>
    andthen (read (combine (init e) (fst b)) (up e)) (fun vs => Ok (Tm (cls e) vs (snd b)))).

Section Map.
Variable f : val -> outcome val.
Fixpoint mapO (l : list val) : outcome (list val) :=
  match l with [] => Ok [] | v :: l' => andthen (f v) (fun w => andthen (mapO l') (fun ws => Ok (w :: ws))) end.
Fixpoint mapK (l : list (string * val)) : outcome (list (string * val)) :=
  match l with [] => Ok [] | (n, v) :: l' => andthen (f v) (fun w => andthen (mapK l') (fun ws => Ok ((n, w) :: ws))) end.
End Map.

(** [evaluate] under the interpretation [defdata] uses for the arguments of a new term (effectful/ops/syntax.py
    502-546): it makes terms directly ([apply_cast], 504-508), so the attributes read from an object of the library
    go into the term as they are. Objects of classes not in the table are left alone. *)
Fixpoint settle (v : val) : outcome val :=
  match v with
  | Raw c attrs opts => match lookup c with Some e => andthen (read attrs (passed e)) (fun vs => mk e vs []) | None => Ok v end
  | Tm c args kw => match lookup c with
                    | Some e => andthen (mapO settle args) (fun args' => andthen (mapK settle kw) (fun kw' => mk e args' kw'))
                    | None => Ok v
                    end
  | _ => Ok v
  end.
Definition handlers := string -> option (list val -> list (string * val) -> outcome val).
Definition none : handlers := fun _ => None.
(** Calling the operation: a handler, or else the free rule, which binds the arguments to the signature, applies the
    defaults and evaluates all of them (effectful/ops/types.py 361-373, effectful/ops/syntax.py 533-550) *)
Definition call (h : handlers) (e : entry) (pos : list val) (kw : list (string * val)) : outcome val :=
  match h (cls e) with
  | Some f => f pos kw
  | None => andthen (bind (params e) pos kw) (fun b =>
              andthen (mapO settle (fst b)) (fun args => andthen (mapK settle (snd b)) (fun kw' => mk e args kw')))
  end.
(** [evaluate] (effectful/ops/semantics.py 151-173): the embedding of an object, or the operation of a term on its
    evaluated arguments *)
Fixpoint evaluate (h : handlers) (v : val) : outcome val :=
  match v with
  | Raw c attrs opts => match lookup c with Some e => andthen (read attrs (passed e)) (fun vs => call h e vs []) | None => Ok v end
  | Tm c args kw => match lookup c with
                    | Some e => andthen (mapO (evaluate h) args) (fun args' => andthen (mapK (evaluate h) kw) (fun kw' => call h e args' kw'))
                    | None => Ok v
                    end
  | _ => Ok v
  end.
(** An attribute of a term: one of those set by its [__init__] *)
Definition tattr (t : val) (a : string) : outcome val :=
  match t with
  | Tm c args kw => match lookup c with
                    | Some e => if mem a (sets e) then match get (combine (init e) args) a with Some v => Ok v | None => AttributeError end
                                else AttributeError
                    | None => AttributeError
                    end
  | _ => AttributeError
  end.
(** The distribution a value stands for: [_pos_base_dist] (219-222) of a term without named dimensions, and of the
    distributions among its arguments; [bind_dims] (103-141) without names gives the term itself. *)
Fixpoint mat (v : val) : outcome val :=
  match v with
  | Raw c attrs opts => andthen (mapK mat attrs) (fun attrs' => Ok (Raw c attrs' opts))
  | Tm c args kw => andthen (mapO mat args) (fun args' => andthen (mapK mat kw) (fun kw' => lib_new c args' kw'))
  | _ => Ok v
  end.
End Npd.
