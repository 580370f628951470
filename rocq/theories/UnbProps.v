(** Property C72: [unbind_dims] of a distribution names its leading batch axes; [bind_dims] undoes it. *)
From Coq Require Import List Bool Arith Lia Permutation.
From Verif Require Import ArrModel ArrSpec DistModel DistSpec DistExamples UnbModel UnbSpec UnbProofs UnbLaws.
Import ListNotations.

Definition grid (sh : list nat) : narr nat := NArr nat [] sh (fun _ idx => fold_left (fun a i => 10 * a + S i) idx 0).
Lemma grid_proper sh : proper nat (grid sh).
Proof. split; [constructor|]. reflexivity. Qed.

(** At each position of the names, the new distribution is the given one at that position of its leading batch axes:
    batch shape, mean, entropy and density, for both libraries. Missing: parameters of fewer batch axes (but for
    NumPyro's arrays without axes), parameters with names in NumPyro. *)
Theorem C72_unbind_partial : forall V l F args names args' b env, lawful V F -> all_ranked V l (length names) b F args ->
  unbind V l F args names = Ok args' ->
  (forall A, lib_batch V (pranks V F) (member V env args) = Some A -> within (firstn (length names) A) (map env names)) ->
  restricts V F b (map env names) (member V env args) (member V env args').
Proof. exact unbind_law. Qed.
Print Assumptions C72_unbind_partial.

(** It succeeds when the parameters have the same leading sizes, and the result has the names with these sizes. *)
Theorem C72_succeeds_partial : forall V l F args names s b, length s = length names -> all_ranked V l (length names) b F args ->
  fresh V names args -> starts V s args -> lib_batch V (pranks V F) (member V (fun _ => 0) args) <> None ->
  exists args', unbind V l F args names = Ok args' /\
    forall p, has_size V args' p <-> has_size V args p \/ In p (combine names s).
Proof. exact unbind_succeeds. Qed.
Print Assumptions C72_succeeds_partial.

Example C72_unbind_example : let args := [AArr nat (grid [2; 3]); AArr nat (grid [2; 1])] in
  lawful nat normal /\ all_ranked nat NumPyro 1 1 normal args /\ all_ranked nat Pyro 1 1 normal args /\ fresh nat [7] args /\ starts nat [2] args /\
  lib_batch nat (pranks nat normal) (member nat (fun _ => 0) args) = Some [2; 3] /\
  exists args', unbind nat NumPyro normal args [7] = Ok args' /\ unbind nat Pyro normal args [7] = Ok args' /\
    map (arg_sizes nat) args' = [[(7, 2)]; [(7, 2)]] /\
    match lib_mean nat normal (member nat (fun _ => 1) args') with Some c => shape c = [3] /\ at_ c [2] = 23 | None => False end.
Proof.
  cbn zeta. split; [apply normal_lawful|].
  assert (R : forall l, all_ranked nat l 1 1 normal [AArr nat (grid [2; 3]); AArr nat (grid [2; 1])]).
  { intros l. split; [|left; cbn; discriminate]. constructor; [split; [now left|reflexivity]|]. constructor; [split; [now left|reflexivity]|]. constructor. }
  split; [apply R|]. split; [apply R|]. split; [split; [repeat constructor; intros []|intros a n d [H|[H|[]]]; injection H as <-; intros []]|].
  split; [intros a [H|[H|[]]] _; injection H as <-; reflexivity|]. split; [reflexivity|].
  eexists. split; [cbn; reflexivity|]. split; [vm_compute; reflexivity|]. split; [reflexivity|]. cbn. split; reflexivity.
Qed.
(** Parameters with event axes, all batch axes named; NumPyro's arrays without axes *)
Example C72_event_example : let args := [AArr nat (grid [2; 3; 4])] in
  all_ranked nat Pyro 2 0 dirichlet args /\ all_ranked nat NumPyro 1 0 normal [AArr nat (grid [2]); AArr nat (grid [])] /\
  exists args', unbind nat Pyro dirichlet args [7; 8] = Ok args' /\ lib_batch nat (pranks nat dirichlet) (member nat (fun _ => 0) args') = Some [].
Proof.
  cbn zeta. split; [split; [constructor; [split; [now left|discriminate]|constructor]|left; cbn; discriminate]|].
  split; [split; [constructor; [split; [now left|reflexivity]|constructor; [split; [right; auto|reflexivity]|constructor]]|left; cbn; discriminate]|].
  eexists. split; [vm_compute; reflexivity|reflexivity].
Qed.

(** [bind_dims]: at each position of the names, the new distribution is the given one, which has these batch axes in
    front; the names are gone. Missing: parameters with different numbers of batch axes. *)
Theorem C72_bind_partial : forall V order, (forall l, Permutation (order l) l) ->
  forall l F args names args' b m env, lawful V F -> full V b F args -> all_proper V args -> NoDup names -> Exists (is_array V) args ->
  bind V order l F args names = Ok args' -> indices V args = Ok m -> valid env m ->
  restricts V F b (map env names) (member V env args') (member V env args).
Proof. exact bind_law. Qed.
Print Assumptions C72_bind_partial.
Theorem C72_bind_succeeds_partial : forall V order, (forall l, Permutation (order l) l) ->
  forall l F args names b m, full V b F args -> all_proper V args -> NoDup names -> indices V args = Ok m ->
  (forall n, In n names -> In n (map fst m)) -> lib_batch V (pranks V F) (member V (fun _ => 0) args) <> None ->
  exists args', bind V order l F args names = Ok args' /\ forall p, has_size V args' p <-> has_size V args p /\ ~ In (fst p) names.
Proof. exact bind_succeeds. Qed.
Print Assumptions C72_bind_succeeds_partial.

Example C72_bind_example : let args := [AArr nat (along_ij [4]); AArr nat (along_j [1])] in
  full nat 1 normal args /\ all_proper nat args /\ indices nat args = Ok [(1, 3); (2, 2)] /\
  exists args', bind nat rev_order NumPyro normal args [1] = Ok args' /\ bind nat rev_order Pyro normal args [1] = Ok args' /\
    map (arg_sizes nat) args' = [[(2, 2)]; [(2, 2)]] /\ lib_batch nat (pranks nat normal) (member nat (fun _ => 0) args') = Some [3; 4].
Proof.
  cbn zeta. split; [split; [repeat constructor|right; left; exact Logic.I]|].
  split; [intros a [H|[H|[]]]; injection H as <-; [apply along_ij_proper|apply along_j_proper]|]. split; [reflexivity|].
  eexists. split; [vm_compute; reflexivity|]. split; [vm_compute; reflexivity|]. split; reflexivity.
Qed.

(** [bind_dims(unbind_dims(d, *names), *names)] has the parameters of [d]. *)
Theorem C72_unbind_bind_partial : forall V order, (forall l, Permutation (order l) l) ->
  forall l F args names args1 args2, all_proper V args -> fresh V names args -> (l = NumPyro -> forall p, ~ has_size V args p) ->
  (forall a, In (AArr V a) args -> nshape V a <> []) -> unbind V l F args names = Ok args1 -> bind V order l F args1 names = Ok args2 ->
  Forall2 (same_arg V) args2 args.
Proof. exact unbind_bind. Qed.
Print Assumptions C72_unbind_bind_partial.

Example C72_unbind_bind_example : let args := [AArr nat (grid [2; 3]); AArr nat (grid [2; 1])] in
  fresh nat [7] args /\ exists args1 args2, unbind nat NumPyro normal args [7] = Ok args1 /\ bind nat rev_order NumPyro normal args1 [7] = Ok args2 /\
    map (fun x => shape (arg_at nat (fun _ => 0) x)) args2 = [[2; 3]; [2; 1]].
Proof.
  cbn zeta. split; [split; [repeat constructor; intros []|intros a n d [H|[H|[]]]; injection H as <-; intros []]|].
  do 2 eexists. split; [cbn; reflexivity|]. split; [vm_compute; reflexivity|]. reflexivity.
Qed.

(** [unbind_dims(bind_dims(d, *names), *names)] has the parameters of [d] at all positions. Missing: in NumPyro,
    distributions with further names. *)
Theorem C72_bind_unbind_partial : forall V order, (forall l, Permutation (order l) l) ->
  forall l F args names m args1 args2 b, full V b F args -> all_proper V args -> NoDup names -> names <> [] -> indices V args = Ok m ->
  (l = NumPyro -> forall n, In n (map fst m) -> In n names) -> bind V order l F args names = Ok args1 -> unbind V l F args1 names = Ok args2 ->
  Forall2 (fun x y => forall env, valid env m -> same_arr (arg_at V env y) (arg_at V env x)) args args2 /\
  forall p, has_size V args2 p -> In p m.
Proof. exact bind_unbind. Qed.
Print Assumptions C72_bind_unbind_partial.

Example C72_bind_unbind_example : let args := [AArr nat (along_i [4]); AArr nat (along_i [1])] in
  full nat 1 normal args /\ all_proper nat args /\ indices nat args = Ok [(1, 3)] /\
  exists args1 args2, bind nat rev_order NumPyro normal args [1] = Ok args1 /\ unbind nat NumPyro normal args1 [1] = Ok args2 /\
    map (arg_sizes nat) args2 = [[(1, 3)]; [(1, 3)]].
Proof.
  cbn zeta. split; [split; [repeat constructor|right; left; exact Logic.I]|].
  split; [intros a [H|[H|[]]]; injection H as <-; apply along_i_proper|]. split; [reflexivity|].
  do 2 eexists. split; [vm_compute; reflexivity|]. split; [vm_compute; reflexivity|]. reflexivity.
Qed.

(** Pyro: naming axes in two steps is naming them in one. *)
Theorem C72_pyro_steps : forall V F args n1 n2 args1 args2, unbind V Pyro F args n1 = Ok args1 -> unbind V Pyro F args1 n2 = Ok args2 ->
  exists args3, unbind V Pyro F args (n1 ++ n2) = Ok args3 /\ Forall2 (same_arg V) args2 args3.
Proof. exact pyro_twice. Qed.
Print Assumptions C72_pyro_steps.

Example C72_pyro_steps_example : let args := [AArr nat (grid [2; 3]); AArr nat (grid [2; 3])] in
  exists args1 args2, unbind nat Pyro normal args [7] = Ok args1 /\ unbind nat Pyro normal args1 [8] = Ok args2 /\
    map (arg_sizes nat) args2 = [[(7, 2); (8, 3)]; [(7, 2); (8, 3)]].
Proof. cbn zeta. do 2 eexists. split; [vm_compute; reflexivity|]. split; [vm_compute; reflexivity|]. reflexivity. Qed.

(** Pyro: whatever the parameters, what results is a distribution over events of the same shape. *)
Theorem C72_pyro_events : forall V order F args names args' env,
  unbind V Pyro F args names = Ok args' \/ bind V order Pyro F args names = Ok args' ->
  lib_event V F (member V env args') = lib_event V F (member V env args) /\ lib_batch V (pranks V F) (member V env args') <> None.
Proof. exact pyro_events_kept. Qed.
Print Assumptions C72_pyro_events.

Example C72_pyro_events_example : let args := [AArr nat (grid [2; 3; 4])] in
  exists args', unbind nat Pyro dirichlet args [7; 8] = Ok args' /\ lib_event nat dirichlet (member nat (fun _ => 0) args') = [4] /\
    unbind nat Pyro dirichlet args [7; 8; 9] = ValueError.
Proof. cbn zeta. eexists. split; [vm_compute; reflexivity|]. split; reflexivity. Qed.

(** NumPyro: mean and density of the new distribution are arrays with the names, at each position those of the given
    distribution. *)
Theorem C72_mean_partial : forall V order, (forall l, Permutation (order l) l) ->
  forall F args names s b args' m, lawful V F -> length s = length names -> names <> [] -> full V (length names + b) F args ->
  all_proper V args -> (forall p, ~ has_size V args p) -> NoDup names -> starts V s args -> Exists (is_array V) args ->
  unbind V NumPyro F args names = Ok args' -> indices V args' = Ok m -> lib_mean V F (member V (fun _ => 0) args) <> None ->
  exists r, mean V order F args' = Ok r /\ pointwise V m r (fun env => option_map (at_front V (map env names)) (lib_mean V F (member V env args))).
Proof. exact unbound_mean. Qed.
Print Assumptions C72_mean_partial.
Theorem C72_log_prob_partial : forall V order, (forall l, Permutation (order l) l) ->
  forall F args names s b args' m value, lawful V F -> length s = length names -> names <> [] -> full V (length names + b) F args ->
  all_proper V args -> (forall p, ~ has_size V args p) -> NoDup names -> starts V s args -> Exists (is_array V) args ->
  unbind V NumPyro F args names = Ok args' -> indices V args' = Ok m ->
  proper V value -> compatible m (nsizes V value) -> length (nshape V value) = b + erank V F ->
  lib_log_prob V F (member V (fun _ => 0) args) (at_env V (fun _ => 0) value) <> None -> valid (fun _ => 0) m ->
  exists r, log_prob V order F args' value = Ok r /\
    pointwise V (m ++ nsizes V value) r (fun env => option_map (at_front V (map env names)) (lib_log_prob V F (member V env args) (at_env V env value))).
Proof. exact unbound_log_prob. Qed.
Print Assumptions C72_log_prob_partial.

Example C72_mean_example : let args := [AArr nat (grid [2; 3]); AArr nat (grid [2; 1])] in
  full nat (1 + 1) normal args /\ starts nat [2] args /\ (forall p, ~ has_size nat args p) /\
  exists args', unbind nat NumPyro normal args [7] = Ok args' /\ indices nat args' = Ok [(7, 2)] /\
    (exists r, mean nat rev_order normal args' = Ok r /\ list_eqb (nshape nat r) [3] && (nelt nat r (fun _ => 1) [2] =? 23) = true) /\
    (exists r, log_prob nat rev_order normal args' (along_i [3]) = Ok r /\
       list_eqb (nshape nat r) [3] && (nelt nat r (fun _ => 1) [2] =? 100 * 23 + 10 * 21 + 12) = true).
Proof.
  cbn zeta. split; [split; [repeat constructor|right; left; exact Logic.I]|].
  split; [intros a [H|[H|[]]] _; injection H as <-; reflexivity|]. split; [intros p [a [[H|[H|[]]] K]]; injection H as <-; destruct K|].
  eexists. split; [cbn; reflexivity|]. split; [reflexivity|]. split; apply found; vm_compute; reflexivity.
Qed.

(** ** What is not so *)

(** NumPyro: naming axes in two steps: the second step is ignored without an error, so the distribution keeps its
    second batch axis and has no second name. *)
Theorem C72_numpyro_steps_refuted : exists args args1 args2 args3, full nat 2 normal args /\ all_proper nat args /\ (forall p, ~ has_size nat args p) /\
  unbind nat NumPyro normal args [7] = Ok args1 /\ unbind nat NumPyro normal args1 [8] = Ok args2 /\ unbind nat NumPyro normal args [7; 8] = Ok args3 /\
  lib_batch nat (pranks nat normal) (member nat (fun _ => 0) args2) = Some [3] /\ lib_batch nat (pranks nat normal) (member nat (fun _ => 0) args3) = Some [] /\
  has_size nat args3 (8, 3) /\ ~ has_size nat args2 (8, 3).
Proof.
  exists [AArr nat (grid [2; 3]); AArr nat (grid [2; 3])]. do 3 eexists. split; [split; [repeat constructor|right; left; exact Logic.I]|].
  split; [intros a [H|[H|[]]]; injection H as <-; apply grid_proper|]. split; [intros p [a [[H|[H|[]]] K]]; injection H as <-; destruct K|].
  split; [cbn; reflexivity|]. split; [cbn; reflexivity|]. split; [cbn; reflexivity|]. split; [reflexivity|]. split; [reflexivity|]. split.
  - eexists. split; [left; reflexivity|]. cbn. auto.
  - intros [a [[H|[H|[]]] K]]; injection H as <-; cbn in K; destruct K as [K|[]]; discriminate.
Qed.
Print Assumptions C72_numpyro_steps_refuted.

(** NumPyro: [unbind_dims(bind_dims(d, i), i)] is not [d] when [d] has another name: [i] stays a batch axis. *)
Theorem C72_numpyro_other_names_refuted : exists args args1 args2, full nat 0 normal args /\ all_proper nat args /\ indices nat args = Ok [(1, 3); (2, 2)] /\
  bind nat rev_order NumPyro normal args [1] = Ok args1 /\ unbind nat NumPyro normal args1 [1] = Ok args2 /\
  lib_batch nat (pranks nat normal) (member nat (fun _ => 0) args) = Some [] /\ lib_batch nat (pranks nat normal) (member nat (fun _ => 0) args2) = Some [3] /\
  ~ has_size nat args2 (1, 3).
Proof.
  exists [AArr nat (along_ij []); AArr nat (along_ij [])]. do 2 eexists. split; [split; [repeat constructor|now left]|].
  split; [intros a [H|[H|[]]]; injection H as <-; apply along_ij_proper|]. split; [reflexivity|]. split; [vm_compute; reflexivity|]. split; [vm_compute; reflexivity|].
  split; [reflexivity|]. split; [reflexivity|]. intros [a [[H|[H|[]]] K]]; injection H as <-; cbn in K; destruct K as [K|[]]; discriminate.
Qed.
Print Assumptions C72_numpyro_other_names_refuted.

(** Parameters that are broadcast: [ValueError], though the distribution has the batch axis (as for NumPyro's
    [Normal(zeros((2, 3)), ones(3))], whose scale is kept with the shape (1, 3)). *)
Theorem C72_broadcast_refuted : exists args A, full nat 2 normal args /\ all_proper nat args /\
  lib_batch nat (pranks nat normal) (member nat (fun _ => 0) args) = Some A /\ length A = 2 /\
  forall l, unbind nat l normal args [7] = ValueError.
Proof.
  exists [AArr nat (grid [2; 3]); AArr nat (grid [1; 3])], [2; 3]. split; [split; [repeat constructor|right; left; exact Logic.I]|].
  split; [intros a [H|[H|[]]]; injection H as <-; apply grid_proper|]. split; [reflexivity|]. split; [reflexivity|]. intros []; reflexivity.
Qed.
Print Assumptions C72_broadcast_refuted.

(** Parameters of fewer axes whose sizes agree: the wrong axis is named without an error, and the density is another. *)
Theorem C72_ranks_refuted : exists args args' v c d, all_proper nat args /\ (forall p, ~ has_size nat args p) /\
  lib_batch nat (pranks nat normal) (member nat (fun _ => 0) args) = Some [3; 3] /\
  unbind nat NumPyro normal args [7] = Ok args' /\
  lib_log_prob nat normal (member nat (fun _ => 0) args) v = Some c /\ lib_log_prob nat normal (member nat (fun _ => 0) args') v = Some d /\
  at_ c [0; 1] <> at_ d [1].
Proof.
  exists [AArr nat (grid [3; 3]); AArr nat (grid [3])]. eexists. exists (Arr [] (fun _ => 0)). do 2 eexists.
  split; [intros a [H|[H|[]]]; injection H as <-; apply grid_proper|]. split; [intros p [a [[H|[H|[]]] K]]; injection H as <-; destruct K|].
  split; [reflexivity|]. split; [cbn; reflexivity|]. split; [cbn; reflexivity|]. split; [cbn; reflexivity|]. vm_compute. discriminate.
Qed.
Print Assumptions C72_ranks_refuted.

(** More names than batch axes: NumPyro names an event axis without an error; what results is no distribution. *)
Theorem C72_event_axes_refuted : exists args args', full nat 0 dirichlet args /\ all_proper nat args /\
  lib_batch nat (pranks nat dirichlet) (member nat (fun _ => 0) args) = Some [] /\ unbind nat NumPyro dirichlet args [7] = Ok args' /\
  lib_batch nat (pranks nat dirichlet) (member nat (fun _ => 0) args') = None /\ unbind nat Pyro dirichlet args [7] = ValueError.
Proof.
  exists [AArr nat (grid [3])]. eexists. split; [split; [repeat constructor|now left]|]. split; [intros a [H|[]]; injection H as <-; apply grid_proper|].
  split; [reflexivity|]. split; [cbn; reflexivity|]. split; reflexivity.
Qed.
Print Assumptions C72_event_axes_refuted.

(** NumPyro, with an array without axes: [bind_dims(unbind_dims(d, i), i)] is no distribution. *)
Theorem C72_scalar_refuted : exists args args1 args2, all_ranked nat NumPyro 1 1 normal args /\ all_proper nat args /\
  lib_batch nat (pranks nat normal) (member nat (fun _ => 0) args) = Some [2; 3] /\
  unbind nat NumPyro normal args [7] = Ok args1 /\ bind nat rev_order NumPyro normal args1 [7] = Ok args2 /\
  lib_batch nat (pranks nat normal) (member nat (fun _ => 0) args2) = None.
Proof.
  exists [AArr nat (grid [2; 3]); AArr nat (grid [])]. do 2 eexists.
  split; [split; [constructor; [split; [now left|reflexivity]|constructor; [split; [right; auto|reflexivity]|constructor]]|left; cbn; discriminate]|].
  split; [intros a [H|[H|[]]]; injection H as <-; apply grid_proper|]. split; [reflexivity|]. split; [cbn; reflexivity|]. split; [vm_compute; reflexivity|]. reflexivity.
Qed.
Print Assumptions C72_scalar_refuted.
