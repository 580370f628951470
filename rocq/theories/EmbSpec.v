(** The parameters that determine a distribution: those of its constructor, where of several parametrisations of one
    parameter ([probs] or [logits]; a matrix by covariance, precision or Cholesky factor) one is enough. *)
From Coq Require Import String List Bool.
From Verif Require Import EmbModel.
Import ListNotations.
Open Scope string_scope.
Open Scope list_scope.

Definition alternative (a : string) : bool := existsb (String.eqb a) ["logits"; "covariance_matrix"; "precision_matrix"].
Definition params (e : entry) : list string := filter (fun a => negb (alternative a)) (sig e).
