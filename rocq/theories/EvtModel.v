(** Model of [to_event] on distributions with named dimensions (effectful/handlers/numpyro.py 54-145, 188-425, 1161-1177):
    [_DistributionMethodTerm], and [batch_shape], [event_shape], [log_prob], [mean] and [expand] of the terms it makes, and their [unbind_dims] and [bind_dims].
    Extends DistModel, whose simplifications hold here too. [Independent(d, n)] binds the names of [d] and wraps the
    result (127, 222-225), which is the same positional distribution. *)
From Coq Require Import List Bool Arith.
From Verif Require Import ArrModel DistModel UnbModel.
Import ListNotations.

Section Evt.
Variable V : Type.
Variable order : list (nat * nat) -> list (nat * nat).
(** The sum of an array, by its shape and elements *)
Variable total : list nat -> (list nat -> V) -> V.

(** ** NumPyro *)

(** A distribution object: shapes, log density and mean *)
Record pos := Pos { pbatch : list nat; pevent : list nat; plog : arr V -> option (arr V); pmean : arr V }.
Definition lib_pos (F : family V) (ps : list (arr V)) : option pos :=
  match lib_batch V (pranks V F) ps, lib_mean V F ps with
  | Some b, Some mu => Some (Pos b (lib_event V F ps) (lib_log_prob V F ps) mu)
  | _, _ => None
  end.
(** [sum_rightmost] *)
Definition sum_last (n : nat) (a : arr V) : arr V :=
  let k := length (shape a) - n in
  Arr (firstn k (shape a)) (fun idx => total (skipn k (shape a)) (fun j => at_ a (idx ++ j))).
(** NumPyro's [to_event] and [Independent]: without a number all batch dimensions; more than there are raise. *)
Definition lib_to_event (n : option nat) (p : pos) : option pos :=
  let k := match n with Some k => k | None => length (pbatch p) end in
  if length (pbatch p) <? k then None
  else Some (Pos (firstn (length (pbatch p) - k) (pbatch p)) (skipn (length (pbatch p) - k) (pbatch p) ++ pevent p)
               (fun v => option_map (sum_last k) (plog p v)) (pmean p)).

(** ** Terms *)
Inductive dterm :=
| TDist (F : family V) (args : list (arg V))
| TEvent (d : dterm) (n : option nat).          (* [to_event] (357-359), [_DistributionMethodTerm] (402-414) *)

(** [_indices] (218-220) *)
Fixpoint tindices (d : dterm) : res (list (nat * nat)) :=
  match d with TDist _ args => indices V args | TEvent d _ => tindices d end.
(** [_pos_base_dist] (222-225, 416-425): the method of the positional receiver *)
Fixpoint tpos (d : dterm) : res pos :=
  match d with
  | TDist F args => bindr (indices V args) (fun m => bindr (pos_args V order args m) (fun ps => of_lib (lib_pos F ps)))
  | TEvent d n => bindr (tpos d) (fun p => of_lib (lib_to_event n p))
  end.
(** [batch_shape] (248-253), [event_shape] (262-267) *)
Definition tbatch (d : dterm) : res (list nat) :=
  bindr (tindices d) (fun m => bindr (tpos d) (fun p => Ok (skipn (length m) (pbatch p)))).
Definition tevent (d : dterm) : res (list nat) := bindr (tpos d) (fun p => Ok (pevent p)).
(** [log_prob] (292-316) *)
Definition tlog_prob (d : dterm) (value : narr V) : res (narr V) :=
  bindr (tindices d) (fun m =>
  bindr (tbatch d) (fun b =>
  bindr (tevent d) (fun e =>
  let n := length b + length e in
  let sample := if Nat.eqb n 0 then length (nshape V value) else length (nshape V value) - n in
  bindr (broadcast_to_named V order value m) (fun v1 =>
  bindr (bind_names V v1 m) (fun v2 =>
  let rank := length (nshape V v2) in
  bindr (permute_dims V v2 (seq (length m) sample ++ seq 0 (length m) ++ seq (length m + sample) (rank - (length m + sample)))) (fun v3 =>
  bindr (tpos d) (fun p =>
  bindr (lift V (plog p) v3) (fun r => reindex_sample V m r sample)))))))).
(** [mean] (318-326) *)
Definition tmean (d : dterm) : res (narr V) :=
  bindr (tindices d) (fun m => bindr (tpos d) (fun p => reindex_sample V m (positional V (pmean p)) 0)).
(** [expand] (361-379): only arrays among the arguments are expanded, and the receiver of [to_event] is none. *)
Definition texpand (d : dterm) (s : list nat) : res dterm :=
  match d with
  | TDist F args => bindr (expand V order F args s) (fun args' => Ok (TDist F args'))
  | TEvent d0 n => bindr (tbatch d) (fun b => if list_eqb b s then Ok d else Ok (TEvent d0 n))
  end.
(** [unbind_dims] (54-102) and [bind_dims] (105-145): the receiver is a distribution among the arguments (84-85, 122-126) *)
Fixpoint tunbind (d : dterm) (names : list nat) : res dterm :=
  match d with
  | TDist F args => bindr (unbind V NumPyro F args names) (fun args' => Ok (TDist F args'))
  | TEvent d n => bindr (tunbind d names) (fun d' => Ok (TEvent d' n))
  end.
Fixpoint tbind (d : dterm) (names : list nat) : res dterm :=
  match d with
  | TDist F args => bindr (bind V order NumPyro F args names) (fun args' => Ok (TDist F args'))
  | TEvent d n => bindr (tbind d names) (fun d' => Ok (TEvent d' n))
  end.
End Evt.
