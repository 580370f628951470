(** Model of [unbind_dims] and [bind_dims] of distributions (effectful/handlers/numpyro.py 54-145,
    effectful/handlers/pyro.py 336-421), on the distributions of DistModel.
    Not modelled: distributions as parameters ([Independent] and others), parameters that are unevaluated terms,
    distributions without an embedding, the same name twice in [bind_dims]. Keyword parameters are treated by the
    code as the positional ones are, and are in the same list here. *)
From Coq Require Import List Bool Arith.
From Verif Require Import ArrModel DistModel.
Import ListNotations.

Inductive lib := NumPyro | Pyro.

Section Unbind.
Variable V : Type.
Variable order : list (nat * nat) -> list (nat * nat).
Notation narr := (narr V).
Notation arg := (arg V).

(** The parameters that are indexed: numpyro.py 83, [isinstance(a, jax.Array) and a.shape != ()], where an array with
    names is a term and no [jax.Array] (jax/_terms.py 408); pyro.py 362, [isinstance(a, torch.Tensor)], which a tensor
    with names is too (torch.py, [EagerTensorTerm]). *)
Definition indexed (l : lib) (a : narr) : bool :=
  match l with
  | NumPyro => match nsizes V a, nshape V a with [], _ :: _ => true | _, _ => false end
  | Pyro => true
  end.
(** [_validate_batch_shape] (numpyro.py 60-74, pyro.py 345-359): the batch shape from then on *)
Definition validate (k : nat) (seen : option (list nat)) (sh : list nat) : res (list nat) :=
  if length sh <? k then ValueError
  else let b := match seen with Some b => b | None => firstn k sh end in
       if (length sh <? length b) || negb (list_eqb (firstn (length b) sh) b) then ValueError else Ok b.
(** [_to_named] (numpyro.py 76-88, pyro.py 361-369) of all parameters in turn *)
Fixpoint to_named (l : lib) (names : list nat) (seen : option (list nat)) (args : list arg) : res (list arg) :=
  match args with
  | [] => Ok []
  | AArr _ a :: args' =>
      if indexed l a then
        bindr (validate (length names) seen (nshape V a)) (fun b =>
        bindr (index_names V a 0 names) (fun r =>
        bindr (to_named l names (Some b) args') (fun rest => Ok (AArr V r :: rest))))
      else bindr (to_named l names seen args') (fun rest => Ok (AArr V a :: rest))
  | ANum _ v :: args' => bindr (to_named l names seen args') (fun rest => Ok (ANum V v :: rest))
  end.
(** [event_shape] of Pyro's distributions with named tensors (pyro.py 470-482): the library's, by the positional
    shapes *)
Definition pyro_event (F : family V) (args : list arg) : res (list nat) :=
  let ps := map (arg_at V (fun _ => 0)) args in
  match lib_batch V (pranks V F) ps with Some _ => Ok (lib_event V F ps) | None => ValueError end.
(** [assert new_d.event_shape == d.event_shape] (pyro.py 382, 420); NumPyro's have no such check. *)
Definition finish (l : lib) (F : family V) (args new : list arg) : res (list arg) :=
  match l with
  | NumPyro => Ok new
  | Pyro => bindr (pyro_event F new) (fun e' => bindr (pyro_event F args) (fun e => if list_eqb e' e then Ok new else AssertionError))
  end.
(** [_unbind_distribution] (numpyro.py 54-102), [_unbind_dims_distribution] (pyro.py 336-383): the new parameters *)
Definition unbind (l : lib) (F : family V) (args : list arg) (names : list nat) : res (list arg) :=
  bindr (to_named l names None args) (finish l F args).
(** [{k: sizes[k] for k in names}] (numpyro.py 139, pyro.py 414); [KeyError] is written [IndexError]. *)
Fixpoint sizes_of_names (m : list (nat * nat)) (names : list nat) : res (list (nat * nat)) :=
  match names with
  | [] => Ok []
  | n :: names' =>
      match lookup m n with
      | Some d => bindr (sizes_of_names m names') (fun rest => Ok ((n, d) :: rest))
      | None => IndexError
      end
  end.
(** [_bind_dims_distribution] (numpyro.py 105-145, pyro.py 386-421) *)
Definition bind (l : lib) (F : family V) (args : list arg) (names : list nat) : res (list arg) :=
  bindr (indices V args) (fun m => bindr (sizes_of_names m names) (fun ix =>
  bindr (mapr (to_positional V order ix) args) (finish l F args))).
End Unbind.
