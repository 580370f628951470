(** Model of how [PyroShim] takes the names off observations and puts them on samples again (effectful/handlers/pyro.py
    55-80, 130-170, 193-250, 270-310). Not modelled: the two passes of a message through Pyro's stack, masks, guides. *)
From Coq Require Import List Bool Arith.
From Verif Require Import ArrModel DistModel.
Import ListNotations.

(** [Naming] (55-80): names to axes, counted from the right, here as positive numbers (1 is the last axis). *)
Definition naming := list (nat * nat).
(** [Naming.from_shape] (66-76) *)
Definition from_shape (names : list nat) (event_dims : nat) : naming :=
  map (fun i => (nth i names 0, event_dims + length names - i)) (seq 0 (length names)).

Section Shim.
Variable V : Type.
(** An index tuple of names and whole axes *)
Fixpoint set_nth (l : list (option nat)) (i : nat) (x : option nat) : list (option nat) :=
  match l, i with [], _ => [] | _ :: l', 0 => x :: l' | y :: l', S i' => y :: set_nth l' i' x end.
Fixpoint fill (key : list (option nat)) (env : nat -> nat) (idx : list nat) : list nat :=
  match key with
  | [] => []
  | Some n :: key' => env n :: fill key' env idx
  | None :: key' => hd 0 idx :: fill key' env (tl idx)
  end.
Fixpoint kept (key : list (option nat)) (sh : list nat) : list nat :=
  match key, sh with
  | Some _ :: key', _ :: sh' => kept key' sh'
  | None :: key', d :: sh' => d :: kept key' sh'
  | _, _ => []
  end.
Fixpoint named (key : list (option nat)) (sh : list nat) : list (nat * nat) :=
  match key, sh with
  | Some n :: key', d :: sh' => (n, d) :: named key' sh'
  | None :: key', _ :: sh' => named key' sh'
  | _, _ => []
  end.
(** [value[tuple(indexes)]], one index for each axis *)
Definition index_key (a : narr V) (key : list (option nat)) : res (narr V) :=
  bindr (add_sizes (nsizes V a) (named key (nshape V a))) (fun m =>
  Ok (NArr V m (kept key (nshape V a)) (fun env idx => nelt V a env (fill key env idx)))).
(** The index list of [Naming.apply] (77-80); a position before the first axis counts from the end again, or is an error. *)
Fixpoint apply_key (r : nat) (nm : naming) (key : list (option nat)) : res (list (option nat)) :=
  match nm with
  | [] => Ok key
  | (n, d) :: nm' =>
      if d <=? r then apply_key r nm' (set_nth key (r - d) (Some n))
      else if d <=? r + r then apply_key r nm' (set_nth key (r + r - d) (Some n))
      else IndexError
  end.
(** [Naming.apply] (77-82) *)
Definition apply (nm : naming) (value : narr V) : res (narr V) :=
  let r := length (nshape V value) in
  bindr (apply_key r nm (repeat None r)) (fun key => index_key value key).

(** [bind_dims(t, k)]: of an array that does not have [k], the array *)
Definition bind1 (t : narr V) (k : nat) : res (narr V) :=
  match lookup (nsizes V t) k with Some d => bind_names V t [(k, d)] | None => Ok t end.
(** The first loop of [_broadcast_to_named] (147-154); [have] are the names of [t] at the start. *)
Fixpoint add_indices (have : list nat) (n i : nat) (l : list (nat * nat)) (t : narr V) : res (narr V * naming) :=
  match l with
  | [] => Ok (t, [])
  | (k, v) :: l' =>
      bindr (if mem k have then bind1 t k else broadcast_to V t (v :: nshape V t)) (fun t' =>
      bindr (add_indices have n (S i) l' t') (fun r => Ok (fst r, (k, n + i + 1) :: snd r)))
  end.
(** The second loop (157-160) *)
Fixpoint add_rest (n i : nat) (l : list nat) (t : narr V) : res (narr V * naming) :=
  match l with
  | [] => Ok (t, [])
  | k :: l' => bindr (bind1 t k) (fun t' => bindr (add_rest n (S i) l' t') (fun r => Ok (fst r, (k, n + i + 1) :: snd r)))
  end.
(** [_broadcast_to_named] (125-162) of a tensor *)
Definition broadcast_named (t : narr V) (shape : list nat) (indices : list (nat * nat)) : res (narr V * naming) :=
  let have := map fst (nsizes V t) in
  bindr (if length (nshape V t) <? length shape then broadcast_to V t shape else Ok t) (fun t0 =>
  bindr (add_indices have (length shape) 0 (rev indices) t0) (fun r1 =>
  bindr (add_rest (length (nshape V (fst r1))) 0 (rev (map fst (nsizes V (fst r1)))) (fst r1)) (fun r2 =>
  Ok (fst r2, snd r1 ++ snd r2)))).
(** The value after sampling (303-310): broadcast to the shape of the positional distribution, then named. *)
Definition post_sample (nm : naming) (dist_shape : list nat) (value : narr V) : res (narr V) :=
  bindr (if length (nshape V value) <? length dist_shape
         then match bshape (nshape V value) dist_shape with Some s => broadcast_to V value s | None => RuntimeError end
         else Ok value) (fun v => apply nm v).
(** The frames (225-238): for each name of the distribution, the axis counted from the right of the batch shape *)
Definition frames (nm : naming) (event : nat) (indices : list (nat * nat)) : list (nat * nat * nat) :=
  flat_map (fun p : nat * nat => match lookup indices (fst p) with Some d => [(fst p, snd p - event, d)] | None => [] end) nm.
End Shim.
