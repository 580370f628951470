(** What naming the leading batch axes of a distribution means: at each position of the names, the distribution at
    that position of these axes. *)
From Coq Require Import List Bool Arith.
From Verif Require Import ArrModel ArrSpec DistModel DistSpec UnbModel.
Import ListNotations.

Section Spec.
Variable V : Type.
(** The array at the position [i] of its leading axes *)
Definition at_front (i : list nat) (a : arr V) : arr V := Arr (skipn (length i) (shape a)) (fun idx => at_ a (i ++ idx)).
(** [g] is [f] at the position [i] of the leading axes, or both are undefined. *)
Definition front_of (i : list nat) (f g : option (arr V)) : Prop :=
  match f, g with Some a, Some b => same_arr b (at_front i a) | None, None => True | _, _ => False end.
(** A parameter with [k + b] batch axes beside its [r] event axes; numbers. In NumPyro, arrays have no names, and
    those without axes are allowed for parameters without event axes. *)
Definition ranked (l : lib) (k b r : nat) (x : arg V) : Prop :=
  match x with
  | ANum _ _ => r = 0
  | AArr _ a => (length (nshape V a) = k + b + r \/ (l = NumPyro /\ nshape V a = [] /\ r = 0)) /\ (l = NumPyro -> nsizes V a = [])
  end.
Definition batched (x : arg V) : Prop := match x with ANum _ _ => False | AArr _ a => nshape V a <> [] end.
Definition all_ranked (l : lib) (k b : nat) (F : family V) (args : list (arg V)) : Prop :=
  Forall2 (ranked l k b) (pranks V F) args /\ Exists batched args.
(** The distribution with the parameters [qs] is the one with the parameters [ps] at the position [i] of the
    leading batch axes: batch shape, mean and entropy; the density of values with these axes at the position, and of
    values without them. *)
Definition restricts (F : family V) (b : nat) (i : list nat) (ps qs : list (arr V)) : Prop :=
  match lib_batch V (pranks V F) ps, lib_batch V (pranks V F) qs with
  | Some A, Some B => length A = length i + b /\ B = skipn (length i) A
  | None, None => True
  | _, _ => False
  end /\
  front_of i (lib_mean V F ps) (lib_mean V F qs) /\
  front_of i (lib_entropy V F ps) (lib_entropy V F qs) /\
  (forall v B, lib_batch V (pranks V F) ps = Some B -> length (shape v) = length B + erank V F -> firstn (length i) (shape v) = firstn (length i) B ->
     front_of i (lib_log_prob V F ps v) (lib_log_prob V F qs (at_front i v))) /\
  (forall v, length (shape v) <= b + erank V F -> front_of i (lib_log_prob V F ps v) (lib_log_prob V F qs v)).
(** The same parameter: names, shape and elements *)
Definition same_arg (x y : arg V) : Prop :=
  match x, y with
  | ANum _ v, ANum _ w => v = w
  | AArr _ a, AArr _ a' =>
      (forall p, In p (nsizes V a) <-> In p (nsizes V a')) /\ nshape V a = nshape V a' /\
      forall env idx, within (nshape V a) idx -> nelt V a env idx = nelt V a' env idx
  | _, _ => False
  end.
(** Names that no parameter has *)
Definition fresh (names : list nat) (args : list (arg V)) : Prop :=
  NoDup names /\ forall a n d, In (AArr V a) args -> In (n, d) (nsizes V a) -> ~ In n names.
(** All parameters that are arrays have these leading sizes. *)
Definition starts (sizes : list nat) (args : list (arg V)) : Prop :=
  forall a, In (AArr V a) args -> nshape V a <> [] -> firstn (length sizes) (nshape V a) = sizes.
(** The names of a distribution, with their sizes *)
Definition has_size (args : list (arg V)) (p : nat * nat) : Prop := exists a, In (AArr V a) args /\ In p (nsizes V a).
End Spec.
