(** Properties C59 and C60: a distribution with named parameters is a family of distributions. *)
From Coq Require Import List Bool Arith Lia Permutation.
From Verif Require Import ArrModel ArrSpec DistModel DistSpec DistLaws DistExpand DistBridge DistExamples.
Import ListNotations.

(** ** C59 *)

(** [log_prob]: at all positions of the names, the result is the log density of the distribution with the parameters
    there of the value there; it has the names of parameters and value. The order of Python's sets does not matter.
    Missing: parameters with different numbers of batch axes, values with fewer axes than an event. *)
Theorem C59_log_prob_partial : forall V order, (forall l, Permutation (order l) l) ->
  forall b F args m value env0, lawful V F -> full V b F args -> all_proper V args -> proper V value -> indices V args = Ok m ->
  compatible m (nsizes V value) -> b + erank V F <= length (nshape V value) ->
  lib_log_prob V F (member V env0 args) (at_env V env0 value) <> None ->
  exists r, log_prob V order F args value = Ok r /\
    pointwise V (m ++ nsizes V value) r (fun env => lib_log_prob V F (member V env args) (at_env V env value)).
Proof. exact log_prob_law. Qed.
Print Assumptions C59_log_prob_partial.

Example C59_log_prob_example : let args := [AArr nat (along_i [2]); AArr nat (along_j [1])] in let value := along_ij [4; 2] in
  lawful nat normal /\ full nat 1 normal args /\ all_proper nat args /\ proper nat value /\ indices nat args = Ok [(1, 3); (2, 2)] /\
  compatible [(1, 3); (2, 2)] (nsizes nat value) /\ lib_log_prob nat normal (member nat (fun _ => 0) args) (at_env nat (fun _ => 0) value) <> None /\
  exists r, log_prob nat rev_order normal args value = Ok r /\ nshape nat r = [4; 2] /\
    nelt nat r (fun n => if Nat.eqb n 1 then 2 else 1) [3; 1] = 100 * 21 + 10 * 5 + 29.
Proof.
  cbn zeta. split; [apply normal_lawful|]. split; [split; [repeat constructor|right; left; exact Logic.I]|].
  split; [intros a [H|[H|[]]]; injection H as <-; [apply along_i_proper|apply along_j_proper]|]. split; [apply along_ij_proper|]. split; [reflexivity|].
  split; [intros n d d' [H|[H|[]]] [K|[K|[]]]; congruence|]. split; [discriminate|].
  destruct (found (log_prob nat rev_order normal [AArr nat (along_i [2]); AArr nat (along_j [1])] (along_ij [4; 2]))
    (fun r => list_eqb (nshape nat r) [4; 2] && (nelt nat r (fun n => if Nat.eqb n 1 then 2 else 1) [3; 1] =? 100 * 21 + 10 * 5 + 29))) as [r [E H]]; [vm_compute; reflexivity|].
  apply andb_prop in H. destruct H as [H1 H2]. exists r. split; [exact E|]. split; [now apply eqb_list|now apply Nat.eqb_eq].
Qed.
(** Parameters and values with event axes *)
Example C59_event_example : let args := [AArr nat (along_i [2; 4])] in let value := along_j [5; 1; 4] in
  lawful nat dirichlet /\ full nat 1 dirichlet args /\ 1 + erank nat dirichlet <= length (nshape nat value) /\
  exists r, log_prob nat rev_order dirichlet args value = Ok r /\ nshape nat r = [5; 2] /\ map fst (nsizes nat r) = [2; 1].
Proof.
  cbn zeta. split; [apply dirichlet_lawful|]. split; [split; [repeat constructor|right; left; exact Logic.I]|]. split; [cbn; lia|].
  destruct (found (log_prob nat rev_order dirichlet [AArr nat (along_i [2; 4])] (along_j [5; 1; 4]))
    (fun r => list_eqb (nshape nat r) [5; 2] && list_eqb (map fst (nsizes nat r)) [2; 1])) as [r [E H]]; [vm_compute; reflexivity|].
  apply andb_prop in H. destruct H as [H1 H2]. exists r. split; [exact E|]. split; now apply eqb_list.
Qed.

(** [mean] *)
Theorem C59_mean_partial : forall V order, (forall l, Permutation (order l) l) ->
  forall b F args m env0, lawful V F -> full V b F args -> all_proper V args -> indices V args = Ok m ->
  lib_mean V F (member V env0 args) <> None ->
  exists r, mean V order F args = Ok r /\ pointwise V m r (fun env => lib_mean V F (member V env args)).
Proof. exact mean_law. Qed.
Print Assumptions C59_mean_partial.

Example C59_mean_example : let args := [AArr nat (along_i [2]); AArr nat (along_j [1])] in
  lib_mean nat normal (member nat (fun _ => 0) args) <> None /\
  exists r, mean nat rev_order normal args = Ok r /\ nshape nat r = [2] /\ nelt nat r (fun n => if Nat.eqb n 1 then 2 else 1) [1] = 21.
Proof. cbn zeta. split; [discriminate|]. eexists. split; [vm_compute; reflexivity|]. split; reflexivity. Qed.

(** [batch_shape], [event_shape] *)
Theorem C59_shapes_partial : forall V order, (forall l, Permutation (order l) l) ->
  forall b F args m env B, full V b F args -> all_proper V args -> indices V args = Ok m ->
  lib_batch V (pranks V F) (member V env args) = Some B ->
  batch_shape V order F args = Ok B /\ event_shape V order F args = Ok (lib_event V F (member V env args)).
Proof. exact batch_law. Qed.
Print Assumptions C59_shapes_partial.

Example C59_shapes_example : let args := [AArr nat (along_i [2; 4])] in
  batch_shape nat rev_order dirichlet args = Ok [2] /\ event_shape nat rev_order dirichlet args = Ok [4].
Proof. split; reflexivity. Qed.

(** The arrays with names are what indexed arrays stand for: [bind_dims] of an indexed array *)
Theorem C59_bind_arrays : forall V (x : arr V) dims a names r, built x dims -> consistent (shape x) dims ->
  NoDup (map fst (nsizes V a)) -> (forall n d, In (n, d) (nsizes V a) <-> indexes (shape x) dims n d) -> (exists env, valid env (nsizes V a)) ->
  stands V (TGet x dims) a -> NoDup (map fst names) -> bind_names V a names = Ok r ->
  exists v, bind_dims_jax (TGet x dims) (map fst names) = Ok v /\ stands V v r.
Proof. exact bridge_bind. Qed.
Print Assumptions C59_bind_arrays.

Example C59_bind_example : let x := Arr [3; 2] (fun idx => 10 * nth 0 idx 0 + nth 1 idx 0) in
  let a := NArr nat [(1, 3)] [2] (fun env idx => 10 * env 1 + nth 0 idx 0) in
  built x [KName 1; KAll] /\ stands nat (TGet x [KName 1; KAll]) a /\ exists r, bind_names nat a [(1, 3)] = Ok r /\ nshape nat r = [3; 2].
Proof.
  cbn zeta. split; [split; [reflexivity|intros k [<-|[<-|[]]]; reflexivity]|]. split; [|eexists; split; reflexivity].
  intros env W. cbn [den index_arr index_axes pick shape]. assert (L : env 1 < 3) by (apply W; now left). unfold index_arr. cbn [shape index_axes pick].
  rewrite (proj2 (Nat.ltb_lt _ _) L). cbn. eexists. split; [reflexivity|]. split; [reflexivity|]. cbn. intros idx H. inversion H as [|? ? i ? Hi H']; subst. inversion H'; subst. cbn. lia.
Qed.

(** Indexing an array with names *)
Theorem C59_index_arrays : forall V (x : arr V) k names r v, index_names V (positional V x) k names = Ok r ->
  getitem x (repeat KAll k ++ map KName names) = Ok v -> stands V v r.
Proof. exact bridge_index. Qed.
Print Assumptions C59_index_arrays.

Example C59_index_example : exists r v, index_names nat (positional nat (Arr [4; 3; 2] (fun idx => list_sum idx))) 1 [7] = Ok r /\
  getitem (Arr [4; 3; 2] (fun idx => list_sum idx)) (repeat KAll 1 ++ map KName [7]) = Ok v /\ nshape nat r = [4; 2].
Proof. eexists. eexists. split; [reflexivity|]. split; [vm_compute; reflexivity|reflexivity]. Qed.

(** Parameters with different numbers of batch axes: [Normal(loc[i()], scale)] with [loc[i()]] of shape [()] and [scale] of shape [(3,)].
    The named axis of [loc] is taken for the axis of [scale]: the log density at position 2 is that of position 0. *)
Theorem C59_ranks_refuted : exists args value r c env, all_proper nat args /\ proper nat value /\ indices nat args = Ok [(1, 3)] /\ valid env [(1, 3)] /\
  lib_log_prob nat normal (member nat env args) (at_env nat env value) = Some c /\ shape c = [3] /\
  log_prob nat rev_order normal args value = Ok r /\ nshape nat r = [3] /\ at_ c [0] = 2000 /\ nelt nat r env [0] = 0.
Proof.
  destruct (found_some (lib_log_prob nat normal (member nat (fun _ => 2) [AArr nat (along_i []); AArr nat (unnamed [3])]) (at_env nat (fun _ => 2) (unnamed [1])))
    (fun c => list_eqb (shape c) [3] && (at_ c [0] =? 2000))) as [c [Ec Hc]]; [vm_compute; reflexivity|].
  destruct (found (log_prob nat rev_order normal [AArr nat (along_i []); AArr nat (unnamed [3])] (unnamed [1])) (fun r => list_eqb (nshape nat r) [3] && (nelt nat r (fun _ => 2) [0] =? 0))) as [r [Er Hr]]; [vm_compute; reflexivity|].
  apply andb_prop in Hc, Hr. destruct Hc as [C1 C2], Hr as [R1 R2]. apply eqb_list in C1, R1. apply Nat.eqb_eq in C2, R2.
  exists [AArr nat (along_i []); AArr nat (unnamed [3])], (unnamed [1]), r, c, (fun _ => 2).
  split; [intros a [H|[H|[]]]; injection H as <-; [apply along_i_proper|apply unnamed_proper]|]. split; [apply unnamed_proper|]. split; [reflexivity|].
  split; [intros n d [H|[]]; injection H as <- <-; lia|]. now repeat split.
Qed.
Print Assumptions C59_ranks_refuted.

(** A value with fewer axes than the batch, [value[i()]] of shape [()]: its named axis is taken for the batch axis. *)
Theorem C59_short_value_refuted : exists args value r c env, full nat 1 normal args /\ all_proper nat args /\ proper nat value /\ indices nat args = Ok [(1, 3)] /\
  valid env [(1, 3)] /\ lib_log_prob nat normal (member nat env args) (at_env nat env value) = Some c /\ shape c = [3] /\
  log_prob nat rev_order normal args value = Ok r /\ nshape nat r = [3] /\ at_ c [0] = 2020 /\ nelt nat r env [0] = 2000.
Proof.
  destruct (found_some (lib_log_prob nat normal (member nat (fun _ => 2) [AArr nat (along_i [3]); AArr nat (unnamed [3])]) (at_env nat (fun _ => 2) (along_i [])))
    (fun c => list_eqb (shape c) [3] && (at_ c [0] =? 2020))) as [c [Ec Hc]]; [vm_compute; reflexivity|].
  destruct (found (log_prob nat rev_order normal [AArr nat (along_i [3]); AArr nat (unnamed [3])] (along_i [])) (fun r => list_eqb (nshape nat r) [3] && (nelt nat r (fun _ => 2) [0] =? 2000))) as [r [Er Hr]]; [vm_compute; reflexivity|].
  apply andb_prop in Hc, Hr. destruct Hc as [C1 C2], Hr as [R1 R2]. apply eqb_list in C1, R1. apply Nat.eqb_eq in C2, R2.
  exists [AArr nat (along_i [3]); AArr nat (unnamed [3])], (along_i []), r, c, (fun _ => 2).
  split; [split; [repeat constructor|right; left; exact Logic.I]|].
  split; [intros a [H|[H|[]]]; injection H as <-; [apply along_i_proper|apply unnamed_proper]|]. split; [apply along_i_proper|]. split; [reflexivity|].
  split; [intros n d [H|[]]; injection H as <- <-; lia|]. now repeat split.
Qed.
Print Assumptions C59_short_value_refuted.

(** [entropy] comes without the names: an array with one axis more than the entropy at a position of the names. *)
Theorem C59_entropy_refuted : exists args r env c, full nat 1 normal args /\ all_proper nat args /\ indices nat args = Ok [(1, 3)] /\ valid env [(1, 3)] /\
  lib_entropy nat normal (member nat env args) = Some c /\ shape c = [2] /\ entropy nat rev_order normal args = Ok r /\ nsizes nat r = [] /\ nshape nat r = [3; 2].
Proof.
  exists [AArr nat (along_i [2]); AArr nat (along_i [2])]. eexists. exists (fun _ => 2). eexists. split; [split; [repeat constructor|right; left; exact Logic.I]|].
  split; [intros a [H|[H|[]]]; injection H as <-; apply along_i_proper|]. split; [reflexivity|]. split; [intros n d [H|[]]; injection H as <- <-; lia|].
  split; [vm_compute; reflexivity|]. split; [reflexivity|]. split; [vm_compute; reflexivity|]. split; reflexivity.
Qed.
Print Assumptions C59_entropy_refuted.

(** [enumerate_support]: the name is put on the axis of the values, its size is that of the support. *)
Theorem C59_support_refuted : exists args r env c, full nat 0 normal args /\ all_proper nat args /\ indices nat args = Ok [(1, 3)] /\ valid env [(1, 3)] /\
  lib_enumerate nat normal (member nat env args) = Some c /\ shape c = [2] /\ enumerate_support nat rev_order normal args = Ok r /\
  nsizes nat r = [(1, 2)] /\ nshape nat r = [3].
Proof.
  exists [AArr nat (along_i []); AArr nat (along_i [])]. eexists. exists (fun _ => 2). eexists. split; [split; [repeat constructor|now left]|].
  split; [intros a [H|[H|[]]]; injection H as <-; apply along_i_proper|]. split; [reflexivity|]. split; [intros n d [H|[]]; injection H as <- <-; lia|].
  split; [vm_compute; reflexivity|]. split; [reflexivity|]. split; [vm_compute; reflexivity|]. split; reflexivity.
Qed.
Print Assumptions C59_support_refuted.

(** ** C60 *)

(** [expand(s)]: the batch shape is [s], and at every position of it the parameters are those of the distribution there.
    Missing: numbers among the parameters, parameters with different numbers of batch axes. *)
Theorem C60_expand_partial : forall V order, (forall l, Permutation (order l) l) ->
  forall b F args m env0 B s, Forall (is_array V) args -> args <> [] -> full V b F args -> all_proper V args -> indices V args = Ok m ->
  lib_batch V (pranks V F) (member V env0 args) = Some B -> bshape B s = Some s ->
  exists args', expand V order F args s = Ok args' /\ all_proper V args' /\ full V (length s) F args' /\ indices V args' = Ok m /\
    batch_shape V order F args' = Ok s /\
    forall env idx, within s idx -> Forall2 same_arr (slices V (pranks V F) (member V env args') idx) (slices V (pranks V F) (member V env args) idx).
Proof. exact expand_law. Qed.
Print Assumptions C60_expand_partial.

Example C60_example : let args := [AArr nat (along_i [2]); AArr nat (along_j [1])] in
  Forall (is_array nat) args /\ full nat 1 normal args /\ indices nat args = Ok [(1, 3); (2, 2)] /\
  lib_batch nat (pranks nat normal) (member nat (fun _ => 0) args) = Some [2] /\ bshape [2] [5; 2] = Some [5; 2] /\
  exists args', expand nat rev_order normal args [5; 2] = Ok args' /\ batch_shape nat rev_order normal args' = Ok [5; 2].
Proof.
  cbn zeta. split; [repeat constructor|]. split; [split; [repeat constructor|right; left; exact Logic.I]|]. split; [reflexivity|]. split; [reflexivity|]. split; [reflexivity|].
  eexists. split; [vm_compute; reflexivity|]. reflexivity.
Qed.

(** Numbers are not expanded: [Normal(0.0, 1.0).expand((3,))] keeps the batch shape [()]. *)
Theorem C60_numbers_refuted : exists args s args' B, bshape [] s = Some s /\ lib_batch nat (pranks nat normal) (member nat (fun _ => 0) args) = Some [] /\
  expand nat rev_order normal args s = Ok args' /\ batch_shape nat rev_order normal args' = Ok B /\ B <> s.
Proof.
  exists [ANum nat 0; ANum nat 1], [3]. eexists. eexists. split; [reflexivity|]. split; [reflexivity|]. split; [vm_compute; reflexivity|]. split; [vm_compute; reflexivity|discriminate].
Qed.
Print Assumptions C60_numbers_refuted.

(** Parameters with different numbers of batch axes cannot be expanded. *)
Theorem C60_ranks_refuted : exists args B s, Forall (is_array nat) args /\ all_proper nat args /\ batch_shape nat rev_order normal args = Ok B /\ bshape B s = Some s /\
  expand nat rev_order normal args s = AssertionError.
Proof.
  exists [AArr nat (unnamed [3]); AArr nat (unnamed [])], [3], [2; 3]. split; [repeat constructor|].
  split; [intros a [H|[H|[]]]; injection H as <-; apply unnamed_proper|]. split; [reflexivity|]. split; [reflexivity|]. vm_compute. reflexivity.
Qed.
Print Assumptions C60_ranks_refuted.

(** A shape the batch cannot be expanded to is no error: [expand((1,))] of a batch [(3,)] has the batch shape [(3,)]. *)
Theorem C60_unfit_refuted : exists args B s args', Forall (is_array nat) args /\ full nat 1 normal args /\ all_proper nat args /\ batch_shape nat rev_order normal args = Ok B /\
  bshape B s <> Some s /\ expand nat rev_order normal args s = Ok args' /\ batch_shape nat rev_order normal args' = Ok B /\ B <> s.
Proof.
  exists [AArr nat (unnamed [3]); AArr nat (unnamed [3])], [3], [1]. eexists. split; [repeat constructor|]. split; [split; [repeat constructor|right; left; exact Logic.I]|].
  split; [intros a [H|[H|[]]]; injection H as <-; apply unnamed_proper|]. split; [reflexivity|]. split; [discriminate|]. split; [vm_compute; reflexivity|]. split; [vm_compute; reflexivity|discriminate].
Qed.
Print Assumptions C60_unfit_refuted.
