(** Model of distributions with named dimensions (effectful/handlers/numpyro.py 1-400): [sizesof], [bind_dims],
    [batch_shape], [log_prob], [mean], [entropy], [enumerate_support], [expand] of distribution terms.
    Not modelled: sampling, distributions as parameters ([Independent]), parameters that are unevaluated terms,
    handlers of the constructors and methods. *)
From Coq Require Import List Bool Arith.
From Verif Require Import ArrModel.
Import ListNotations.

Section Dist.
Variable V : Type.

(** ** Arrays with named dimensions *)

(** An eager array term, by the sizes of its names, its positional shape and its elements for all positions of the
    names (the representation is modelled in ArrModel; C32, C33 and C46 say that indexing, [bind_dims] and [sizesof]
    act on it in this way; see also [DistBridge]). Numbers are not arrays. *)
Record narr := NArr { nsizes : list (nat * nat); nshape : list nat; nelt : (nat -> nat) -> list nat -> V }.
Inductive arg := ANum (v : V) | AArr (a : narr).

(** Sizes of several arrays together; [ValueError] if a name has two. *)
Fixpoint add_sizes (m l : list (nat * nat)) : res (list (nat * nat)) :=
  match l with [] => Ok m | (n, d) :: l' => bindr (add_size m n d) (fun m' => add_sizes m' l') end.

(** NumPy's broadcasting: shapes are aligned at the last axis, axes of size one are stretched. *)
Definition bdim (a b : nat) : option nat :=
  if Nat.eqb a b then Some a else if Nat.eqb a 1 then Some b else if Nat.eqb b 1 then Some a else None.
Fixpoint bzip (a b : list nat) : option (list nat) :=
  match a, b with
  | [], [] => Some []
  | x :: a', y :: b' => match bdim x y, bzip a' b' with Some z, Some c => Some (z :: c) | _, _ => None end
  | _, _ => None
  end.
Definition pad (n : nat) (a : list nat) : list nat := repeat 1 (n - length a) ++ a.
Definition bshape (a b : list nat) : option (list nat) := bzip (pad (length b) a) (pad (length a) b).
(** The position in an array of shape [sh] of a position in what it is broadcast to *)
Definition bindex (sh idx : list nat) : list nat :=
  map (fun di : nat * nat => if Nat.eqb (fst di) 1 then 0 else snd di) (combine sh (skipn (length idx - length sh) idx)).
(** [jnp.broadcast_to] *)
Definition list_eqb (a b : list nat) : bool := if list_eq_dec Nat.eq_dec a b then true else false.
Definition broadcast_to (a : narr) (sh : list nat) : res narr :=
  match bshape (nshape a) sh with
  | Some s => if list_eqb s sh then Ok (NArr (nsizes a) sh (fun env idx => nelt a env (bindex (nshape a) idx))) else ValueError
  | None => ValueError
  end.
(** [jax_getitem(a, (slice(None),) * k + names)] *)
Definition index_names (a : narr) (k : nat) (names : list nat) : res narr :=
  if length (nshape a) <? k + length names then IndexError else
  bindr (add_sizes (nsizes a) (combine names (skipn k (nshape a)))) (fun m =>
  Ok (NArr m (firstn k (nshape a) ++ skipn (k + length names) (nshape a))
        (fun env idx => nelt a env (firstn k idx ++ map env names ++ skipn k idx)))).
(** [bind_dims] to all the names of [names], which [a] has, with their sizes *)
Definition bind_names (a : narr) (names : list (nat * nat)) : res narr :=
  if forallb (fun n => match lookup (nsizes a) (fst n) with Some d => Nat.eqb d (snd n) | None => false end) names then
    Ok (NArr (filter (fun p => negb (mem (fst p) (map fst names))) (nsizes a)) (map snd names ++ nshape a)
          (fun env idx => nelt a (assign env (map fst names) (firstn (length names) idx)) (skipn (length names) idx)))
  else NotHandled.
(** [jnp.permute_dims] *)
Definition permute_dims (a : narr) (p : list nat) : res narr :=
  if is_perm (length (nshape a)) p
  then Ok (NArr (nsizes a) (map (fun i => nth i (nshape a) 0) p)
             (fun env idx => nelt a env (map (fun j => nth (position j p) idx 0) (seq 0 (length p)))))
  else ValueError.
(** The value for given positions of the names *)
Definition at_env (env : nat -> nat) (a : narr) : arr V := Arr (nshape a) (nelt a env).
Definition arg_at (env : nat -> nat) (x : arg) : arr V := match x with ANum v => Arr [] (fun _ => v) | AArr a => at_env env a end.

(** ** NumPyro *)

(** A distribution class: the number of event axes of each parameter, the event shape by the shapes of the
    parameters' event parts, and density, mean and entropy for single parameters. *)
Record family := Family {
  pranks : list nat;
  erank : nat;
  eshape : list (list nat) -> list nat;
  dens : list (arr V) -> arr V -> V;
  avg : list (arr V) -> list nat -> V;
  entr : list (arr V) -> V;
  supp : nat -> V;                    (* the values of a discrete distribution, [nsupp] of them *)
  nsupp : nat
}.
Definition part (r : nat) (a : arr V) : nat := length (shape a) - r.
(** The parameter at a position of the batch *)
Definition slice (r : nat) (a : arr V) (b : list nat) : arr V :=
  Arr (skipn (part r a) (shape a)) (fun e => at_ a (bindex (firstn (part r a) (shape a)) b ++ e)).
(** The batch shape: that of the parameters, broadcast *)
Fixpoint lib_batch (rs : list nat) (ps : list (arr V)) : option (list nat) :=
  match rs, ps with
  | [], [] => Some []
  | r :: rs', p :: ps' =>
      if length (shape p) <? r then None
      else match lib_batch rs' ps' with Some b => bshape (firstn (part r p) (shape p)) b | None => None end
  | _, _ => None
  end.
Definition slices (rs : list nat) (ps : list (arr V)) (b : list nat) : list (arr V) :=
  map (fun rp : nat * arr V => slice (fst rp) (snd rp) b) (combine rs ps).
Definition lib_event (F : family) (ps : list (arr V)) : list nat :=
  eshape F (map (fun rp : nat * arr V => skipn (part (fst rp) (snd rp)) (shape (snd rp))) (combine (pranks F) ps)).
Definition lib_log_prob (F : family) (ps : list (arr V)) (v : arr V) : option (arr V) :=
  match lib_batch (pranks F) ps with
  | Some b =>
      if length (shape v) <? erank F then None
      else match bshape (firstn (part (erank F) v) (shape v)) b with
           | Some s => Some (Arr s (fun idx => dens F (slices (pranks F) ps idx) (slice (erank F) v idx)))
           | None => None
           end
  | None => None
  end.
Definition lib_mean (F : family) (ps : list (arr V)) : option (arr V) :=
  match lib_batch (pranks F) ps with
  | Some b => Some (Arr (b ++ lib_event F ps) (fun idx => avg F (slices (pranks F) ps (firstn (length b) idx)) (skipn (length b) idx)))
  | None => None
  end.
Definition lib_entropy (F : family) (ps : list (arr V)) : option (arr V) :=
  match lib_batch (pranks F) ps with Some b => Some (Arr b (fun idx => entr F (slices (pranks F) ps idx))) | None => None end.
Definition lib_enumerate (F : family) (ps : list (arr V)) : option (arr V) :=
  match lib_batch (pranks F) ps with Some b => Some (Arr (nsupp F :: b) (fun idx => supp F (hd 0 idx))) | None => None end.

(** ** Distribution terms *)

(** Python's sets come in any order. *)
Variable order : list (nat * nat) -> list (nat * nat).
Definition arg_sizes (x : arg) : list (nat * nat) := match x with ANum _ => [] | AArr a => nsizes a end.
(** [_indices] (218-220) *)
Fixpoint indices_from (m : list (nat * nat)) (args : list arg) : res (list (nat * nat)) :=
  match args with [] => Ok m | x :: args' => bindr (add_sizes m (arg_sizes x)) (fun m' => indices_from m' args') end.
Definition indices (args : list arg) : res (list (nat * nat)) := indices_from [] args.
Definition missing (m : list (nat * nat)) (a : narr) : list (nat * nat) :=
  order (filter (fun p => negb (mem (fst p) (map fst (nsizes a)))) m).
(** [_broadcast_to_named] (148-153), the same in [_to_positional] (111-121) *)
Definition broadcast_to_named (a : narr) (m : list (nat * nat)) : res narr :=
  bindr (broadcast_to a (map snd (missing m a) ++ nshape a)) (fun t => index_names t 0 (map fst (missing m a))).
(** [_to_positional] (109-129) *)
Definition to_positional (m : list (nat * nat)) (x : arg) : res arg :=
  match x with
  | ANum v => Ok (ANum v)
  | AArr a => bindr (broadcast_to_named a m) (fun t => bindr (bind_names t m) (fun r => Ok (AArr r)))
  end.
Fixpoint mapr {A B} (f : A -> res B) (l : list A) : res (list B) :=
  match l with [] => Ok [] | x :: l' => bindr (f x) (fun y => bindr (mapr f l') (fun ys => Ok (y :: ys))) end.
(** [_bind_dims_distribution] of all indices (105-145) and [_pos_base_dist] (222-225): the parameters have no
    names left. *)
Definition pos_args (args : list arg) (m : list (nat * nat)) : res (list (arr V)) :=
  bindr (mapr (to_positional m) args) (fun l => Ok (map (arg_at (fun _ => 0)) l)).
Definition of_lib {A} (x : option A) : res A := match x with Some a => Ok a | None => ValueError end.
(** [batch_shape] (248-253) *)
Definition batch_shape (F : family) (args : list arg) : res (list nat) :=
  bindr (indices args) (fun m => bindr (pos_args args m) (fun ps =>
  bindr (of_lib (lib_batch (pranks F) ps)) (fun b => Ok (skipn (length m) b)))).
(** [event_shape] (262-267) *)
Definition event_shape (F : family) (args : list arg) : res (list nat) :=
  bindr (indices args) (fun m => bindr (pos_args args m) (fun ps =>
  bindr (of_lib (lib_batch (pranks F) ps)) (fun _ => Ok (lib_event F ps)))).
(** [_reindex_sample] (269-272) *)
Definition reindex_sample (m : list (nat * nat)) (a : narr) (sample : nat) : res narr := index_names a sample (map fst m).
Definition positional (a : arr V) : narr := NArr [] (shape a) (fun _ => at_ a).
(** [_register_jax_op(f)(value)]: [f] for all positions of the names of [value] *)
Definition lift (f : arr V -> option (arr V)) (a : narr) : res narr :=
  match f (at_env (fun _ => 0) a) with
  | Some r => Ok (NArr (nsizes a) (shape r) (fun env idx => match f (at_env env a) with Some b => at_ b idx | None => at_ r idx end))
  | None => ValueError
  end.
(** [log_prob] (292-316) *)
Definition log_prob (F : family) (args : list arg) (value : narr) : res narr :=
  bindr (indices args) (fun m =>
  bindr (batch_shape F args) (fun b =>
  bindr (event_shape F args) (fun e =>
  let n := length b + length e in
  let sample := if Nat.eqb n 0 then length (nshape value) else length (nshape value) - n in
  bindr (broadcast_to_named value m) (fun v1 =>
  bindr (bind_names v1 m) (fun v2 =>
  let rank := length (nshape v2) in
  bindr (permute_dims v2 (seq (length m) sample ++ seq 0 (length m) ++ seq (length m + sample) (rank - (length m + sample)))) (fun v3 =>
  bindr (pos_args args m) (fun ps =>
  bindr (lift (lib_log_prob F ps) v3) (fun r => reindex_sample m r sample)))))))).
(** [mean] (318-326), [variance] likewise *)
Definition mean (F : family) (args : list arg) : res narr :=
  bindr (indices args) (fun m => bindr (pos_args args m) (fun ps =>
  bindr (of_lib (lib_mean F ps)) (fun r => reindex_sample m (positional r) 0))).
(** [entropy] (351-355): not indexed *)
Definition entropy (F : family) (args : list arg) : res narr :=
  bindr (indices args) (fun m => bindr (pos_args args m) (fun ps => bindr (of_lib (lib_entropy F ps)) (fun r => Ok (positional r)))).
(** [enumerate_support] (345-349) *)
Definition enumerate_support (F : family) (args : list arg) : res narr :=
  bindr (indices args) (fun m => bindr (pos_args args m) (fun ps =>
  bindr (of_lib (lib_enumerate F ps)) (fun r => reindex_sample m (positional r) 0))).
(** [expand_to_batch_shape] (156-186) *)
Definition expand_to_batch_shape (a : narr) (n : nat) (s : list nat) : res narr :=
  if length (nshape a) <? n then AssertionError
  else if length s <? n then ValueError
  else bindr (of_lib (bshape (firstn n (nshape a)) s)) (fun s' => broadcast_to a (s' ++ skipn n (nshape a))).
(** [expand] (361-379): the new parameters; numbers are not arrays *)
Definition expand (F : family) (args : list arg) (s : list nat) : res (list arg) :=
  bindr (batch_shape F args) (fun b =>
  if list_eqb b s then Ok args
  else mapr (fun x => match x with ANum v => Ok x | AArr a => bindr (expand_to_batch_shape a (length b) s) (fun r => Ok (AArr r)) end) args).
End Dist.
