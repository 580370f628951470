(** What [to_event] of a distribution with named dimensions stands for. *)
From Coq Require Import List Bool Arith.
From Verif Require Import ArrModel ArrSpec DistModel DistSpec UnbModel UnbSpec EvtModel.
Import ListNotations.

Section Spec.
Variable V : Type.
Variable total : list nat -> (list nat -> V) -> V.
(** The distribution at the positions [env], made by NumPyro without names *)
Fixpoint plain (env : nat -> nat) (d : dterm V) : option (pos V) :=
  match d with
  | TDist _ F args => lib_pos V F (member V env args)
  | TEvent _ d n => match plain env d with Some p => lib_to_event V total n p | None => None end
  end.
(** Sums depend on the elements. *)
Definition sums : Prop := forall sh f g, (forall j, within sh j -> f j = g j) -> total sh f = total sh g.
(** The distribution underneath has parameters of full rank, as in C59; [to_event] is given a number, unless there are
    no names. *)
Fixpoint good (b : nat) (m : list (nat * nat)) (d : dterm V) : Prop :=
  match d with
  | TDist _ F args => lawful V F /\ full V b F args /\ all_proper V args
  | TEvent _ d n => good b m d /\ (n = None -> m = [])
  end.
(** The distribution [q] is [p] at the position [i] of its leading batch axes: shapes, mean, and the density of values
    with these axes. *)
Definition cut_of (i : list nat) (p q : pos V) : Prop :=
  length i <= length (pbatch V p) /\ pbatch V q = skipn (length i) (pbatch V p) /\ pevent V q = pevent V p /\
  same_arr (pmean V q) (at_front V i (pmean V p)) /\
  forall v, length (shape v) = length (pbatch V p) + length (pevent V p) -> firstn (length i) (shape v) = firstn (length i) (pbatch V p) ->
    front_of V i (plog V p v) (plog V q (at_front V i v)).
(** Parameters whose leading batch axes can be named, as in C72 *)
Fixpoint nameable (k b : nat) (d : dterm V) : Prop :=
  match d with
  | TDist _ F args => lawful V F /\ all_ranked V NumPyro k b F args
  | TEvent _ d _ => nameable k b d
  end.
(** Every [to_event] has a number. *)
Fixpoint numbered (d : dterm V) : Prop := match d with TDist _ _ _ => True | TEvent _ d n => n <> None /\ numbered d end.
(** A parameter is an array. *)
Fixpoint arrays (d : dterm V) : Prop := match d with TDist _ _ args => Exists (is_array V) args | TEvent _ d _ => arrays d end.
End Spec.
