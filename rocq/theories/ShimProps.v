(** Property C62: [PyroShim] takes names off and puts them back. *)
From Coq Require Import List Bool Arith Lia.
From Verif Require Import ArrModel ArrSpec DistModel DistSpec DistExamples ShimModel ShimProofs.
Import ListNotations.

(** An observation with no more axes than the distribution: what is handed to Pyro has no names, the sizes of the
    distribution's names before the axes of the distribution, and putting the names back gives at each position the
    elements of the observation there. Missing: observations with more axes. *)
Theorem C62_observation_partial : forall V (t : narr V) sh indices, proper V t -> NoDup (map fst indices) -> compatible indices (nsizes V t) ->
  (length (nshape V t) = length sh \/ (length (nshape V t) < length sh /\ bshape (nshape V t) sh = Some sh)) ->
  exists p nm rest, broadcast_named V t sh indices = Ok (p, nm) /\ nsizes V p = [] /\
    nshape V p = rest ++ map snd indices ++ (if length (nshape V t) <? length sh then sh else nshape V t) /\
    exists r, apply V nm p = Ok r /\ nshape V r = (if length (nshape V t) <? length sh then sh else nshape V t) /\
      (forall q, In q (nsizes V r) <-> In q indices \/ In q (nsizes V t)) /\
      forall env idx, valid env (indices ++ nsizes V t) -> within (nshape V r) idx -> nelt V r env idx = nelt V t env (bindex (nshape V t) idx).
Proof. exact observe_law. Qed.
Print Assumptions C62_observation_partial.

(** [obs[i(), j()]] for a distribution with the names [i] (3) and [k] (4) of shape (2,) *)
Example C62_observation_example : proper nat (along_ij [2]) /\ compatible [(1, 3); (5, 4)] (nsizes nat (along_ij [2])) /\
  exists p nm, broadcast_named nat (along_ij [2]) [2] [(1, 3); (5, 4)] = Ok (p, nm) /\ nshape nat p = [2; 3; 4; 2] /\ nm = [(5, 2); (1, 3); (2, 4)] /\
    nelt nat p (fun _ => 0) [1; 2; 3; 1] = 26.
Proof.
  split; [apply along_ij_proper|]. split; [intros n d d' [H|[H|[]]] [K|[K|[]]]; congruence|]. eexists. eexists. split; [vm_compute; reflexivity|]. repeat split; reflexivity.
Qed.

(** A sample of the positional distribution, of sample shape [s]: the value named at each position is the sample at this
    position of the axes of the names. *)
Theorem C62_sample : forall V (x : narr V) indices b e s dist_shape, NoDup (map fst indices) -> nsizes V x = [] ->
  dist_shape = map snd indices ++ b ++ e -> nshape V x = s ++ dist_shape ->
  exists r, post_sample V (from_shape (map fst indices) (length (b ++ e))) dist_shape x = Ok r /\ nsizes V r = indices /\ nshape V r = s ++ b ++ e /\
    forall env i idx, length i = length s -> length idx = length (b ++ e) -> nelt V r env (i ++ idx) = nelt V x env (i ++ map env (map fst indices) ++ idx).
Proof. exact sample_law. Qed.
Print Assumptions C62_sample.

Example C62_sample_example : exists r, post_sample nat (from_shape [1; 5] 2) [3; 4; 2; 6] (unnamed [7; 3; 4; 2; 6]) = Ok r /\ nsizes nat r = [(1, 3); (5, 4)] /\ nshape nat r = [7; 2; 6].
Proof. eexists. split; [vm_compute; reflexivity|]. split; reflexivity. Qed.

(** Each plate stands for the axis of its name in the batch shape of the positional distribution and has its size. *)
Theorem C62_frames : forall indices b e n d z, NoDup (map fst indices) ->
  In (n, d, z) (frames (from_shape (map fst indices) (length (b ++ e))) (length e) indices) ->
  In (n, z) indices /\ 1 <= d <= length (map snd indices ++ b) /\ nth_error (map snd indices ++ b) (length (map snd indices ++ b) - d) = Some z.
Proof. exact frames_law. Qed.
Print Assumptions C62_frames.

Example C62_frames_example : frames (from_shape [1; 5] 2) 1 [(1, 3); (5, 4)] = [(1, 3, 3); (5, 2, 4)].
Proof. reflexivity. Qed.

(** An observation with more axes than the distribution: [obs[i()]] of shape [(5, 2)], distribution of shape [(2,)] and
    with the name [i] of size 3. The name goes to the wrong axis: it comes back with size 5. *)
Theorem C62_long_observation_refuted : exists t sh indices p nm r, proper nat t /\ NoDup (map fst indices) /\ compatible indices (nsizes nat t) /\
  bshape (nshape nat t) sh = Some (nshape nat t) /\ broadcast_named nat t sh indices = Ok (p, nm) /\ nsizes nat t = [(1, 3)] /\ nshape nat t = [5; 2] /\
  apply nat nm p = Ok r /\ nsizes nat r = [(1, 5)] /\ nshape nat r = [3; 2].
Proof.
  exists (along_i [5; 2]), [2], [(1, 3)]. eexists. eexists. eexists. split; [apply along_i_proper|]. split; [repeat constructor; intros []|].
  split; [intros n d d' [H|[]] [K|[]]; congruence|]. split; [reflexivity|]. split; [vm_compute; reflexivity|]. split; [reflexivity|]. split; [reflexivity|].
  split; [vm_compute; reflexivity|]. split; reflexivity.
Qed.
Print Assumptions C62_long_observation_refuted.

(** Putting names back fails exactly if a name is to go to an axis before twice the number of axes from the end. *)
Theorem C62_apply_fails : forall V nm (p : narr V),
  apply V nm p = IndexError <-> exists n d, In (n, d) nm /\ length (nshape V p) + length (nshape V p) < d.
Proof. exact apply_fails. Qed.
Print Assumptions C62_apply_fails.
Example C62_apply_fails_example : apply nat [(1, 5)] (along_i [5; 2]) = IndexError.
Proof. reflexivity. Qed.
