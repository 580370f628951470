(** C66: [gather], [indices_of] and [stack]. *)
From Coq Require Import String List Bool Arith ZArith Lia.
From Verif Require Import ArrModel ArrSpec NopModel NopSpec NopProofs NopLaws GatModel GatSpec GatProofs GatLaws.
From Verif Require IdxModel.
Import ListNotations.

Definition sym (s : string) : nat := if String.eqb s "T" then 1 else if String.eqb s "X" then 2 else 0.
(** Dimension 5 is another one of name ["T"] *)
Definition name_of (n : nat) : string := if Nat.eqb n 1 then "T" else if Nat.eqb n 2 then "X" else if Nat.eqb n 5 then "T" else "other".
(** [Y], of two worlds, and [M], of three by two *)
Definition Y : val nat := VGet nat (Arr [2] (fun idx => 10 + hd 0 idx)) [KName 1].
Definition M : val nat := VGet nat (Arr [3; 2; 4] (fun idx => 100 * nth 0 idx 0 + 10 * nth 1 idx 0 + nth 2 idx 0)) [KName 1; KName 2; KAll].
Definition single_T (l : list Z) : IdxModel.indexset := [("T"%string, l)].

(** Gathering looks up positions: the new value at position [i] of a dimension in the index set is the old one at the
    [i]-th index of the set; other dimensions stay as they are. *)
Theorem C66_gather : forall V sym s (v r : val V), proper sym s -> normal v -> gather V sym v s = Ok r ->
  normal r /\
  (forall n d, has_dim r n d <-> exists d0, has_dim v n d0 /\ (forall l, picks sym s n l -> d = length l) /\ ((forall l, ~ picks sym s n l) -> d = d0)) /\
  forall env env', (forall n d, has_dim v n d -> moves sym s n d (env n) (env' n)) -> same (at_pos env r) (at_pos env' v).
Proof. exact gather_law. Qed.
Print Assumptions C66_gather.

(** Indices 2 and -3 of the first dimension of [M] *)
Example C66_gather_example : proper sym (single_T [2; -3]%Z) /\ normal M /\ exists a, gather nat sym M (single_T [2; -3]%Z) = Ok (VGet nat a [KName 1; KName 2; KAll]) /\
  shape a = [2; 2; 4] /\ at_ a [0; 1; 3] = 213 /\ at_ a [1; 1; 3] = 13 /\ moves sym (single_T [2; -3]%Z) 1 3 1 0 /\ moves sym (single_T [2; -3]%Z) 2 2 1 1.
Proof.
  split; [repeat constructor; cbn; tauto|]. split.
  - split; [split; [reflexivity|intros k [<-|[<-|[<-|[]]]]; reflexivity]|]. constructor; [right; exists 1; reflexivity|]. constructor; [right; exists 2; reflexivity|]. constructor; [left; reflexivity|constructor].
  - eexists. split; [vm_compute; reflexivity|]. split; [reflexivity|]. split; [vm_compute; reflexivity|]. split; [vm_compute; reflexivity|]. split.
    + split; [|intros X; exfalso; apply (X [2; -3]%Z); exists "T"%string; split; [left; reflexivity|reflexivity]].
      intros l (name & [E|[]] & _). injection E as <- <-. exists (-3)%Z. split; [reflexivity|]. split; lia.
    + split; [|reflexivity]. intros l (name & [E|[]] & Hs). injection E as <- <-. discriminate Hs.
Qed.

(** It succeeds if every index is in range, and is an [IndexError] if one is not. *)
Theorem C66_gather_ok : forall V sym s (v : val V), proper sym s -> normal v -> well_sized V v ->
  (forall n d l, has_dim v n d -> picks sym s n l -> l <> [] /\ forall z, In z l -> exists j, index_is d z j) ->
  exists r, gather V sym v s = Ok r.
Proof. exact gather_ok. Qed.
Print Assumptions C66_gather_ok.

Theorem C66_gather_range : forall V sym s (v : val V) n d l z, proper sym s -> normal v -> well_sized V v ->
  (forall n d l, has_dim v n d -> picks sym s n l -> l <> []) ->
  has_dim v n d -> picks sym s n l -> In z l -> (forall j, ~ index_is d z j) -> gather V sym v s = IndexError.
Proof. exact gather_range. Qed.
Print Assumptions C66_gather_range.

Example C66_gather_range_example : well_sized nat Y /\ has_dim Y 1 2 /\ picks sym (single_T [0; 2]%Z) 1 [0; 2]%Z /\ (forall j, ~ index_is 2 2 j) /\ (exists j, index_is 2 (-2) j) /\
  gather nat sym Y (single_T [0; 2]%Z) = IndexError.
Proof.
  assert (U : forall n d, has_dim Y n d -> n = 1 /\ d = 2) by (intros n d ([|[|i]] & A & B); inversion A; inversion B; auto).
  split; [split; [intros n d d' A B; apply U in A, B; destruct A, B; congruence|intros n d A; apply U in A; lia]|]. split; [exists 0; auto|]. split; [exists "T"%string; cbn; auto|].
  split; [intros j [A [B|B]]; lia|]. split; [exists 0; split; lia|reflexivity].
Qed.

(** Names outside the support are ignored. *)
Theorem C66_gather_ignores : forall V sym s (v r : val V), proper sym s -> normal v -> gather V sym v s = Ok r ->
  (forall n d l, has_dim v n d -> ~ picks sym s n l) -> forall env, same (at_pos env r) (at_pos env v).
Proof. exact gather_ignores. Qed.
Print Assumptions C66_gather_ignores.

Example C66_gather_ignores_example : exists a, gather nat sym Y [("X"%string, [7]%Z)] = Ok (VGet nat a [KName 1]) /\ at_ a [1] = 11.
Proof. eexists. split; vm_compute; reflexivity. Qed.

(** Gathering all the indices that [indices_of] gives changes nothing. *)
Theorem C66_gather_all : forall V sym name_of (v : val V) s r, normal v -> well_sized V v -> (forall n d, has_dim v n d -> sym (name_of n) = n) ->
  indices_of V name_of v = Ok (IdxModel.Ok s) -> gather V sym v s = Ok r ->
  (forall n d, has_dim r n d <-> has_dim v n d) /\ forall env, same (at_pos env r) (at_pos env v).
Proof. exact gather_all. Qed.
Print Assumptions C66_gather_all.

Example C66_gather_all_example : indices_of nat name_of M = Ok (IdxModel.Ok [("T"%string, [0; 1; 2]%Z); ("X"%string, [0; 1]%Z)]) /\
  (forall n d, has_dim M n d -> sym (name_of n) = n) /\ exists r, gather nat sym M [("T"%string, [0; 1; 2]%Z); ("X"%string, [0; 1]%Z)] = Ok r.
Proof.
  split; [reflexivity|]. split; [intros n d ([|[|[|[|i]]]] & A & B); inversion A; reflexivity|]. eexists. vm_compute. reflexivity.
Qed.

(** [stack]: position [i] of the new dimension is the [i]-th value, the values being broadcast to one shape. *)
Theorem C66_stack : forall V num sym vs name (r : val V), Forall normal vs -> stack V num sym vs name = Ok r ->
  forall env, same (value_at V num (library V) (fun _ => None) env r) (stacked V (values V num (library V) (fun _ => None) env vs) (env (sym name))).
Proof. exact stack_law. Qed.
Print Assumptions C66_stack.

(** With values of one shape, the [i]-th value itself. *)
Theorem C66_stack_same : forall V num sym vs name (r : val V) env ps sh, Forall normal vs -> stack V num sym vs name = Ok r ->
  values V num (library V) (fun _ => None) env vs = Some ps -> (forall p, In p ps -> shape p = sh) ->
  same (value_at V num (library V) (fun _ => None) env r) (nth_error ps (env (sym name))).
Proof. exact stack_same. Qed.
Print Assumptions C66_stack_same.

Definition number (n : nat) : val nat := VArr nat (Arr [] (fun _ => n)).
Example C66_stack_example : exists a, stack nat id sym [Y; number 3; Y] "X" = Ok (VGet nat a [KName 1; KName 2]) /\ shape a = [2; 3] /\ at_ a [1; 0] = 11 /\ at_ a [1; 1] = 3.
Proof. eexists. split; [vm_compute; reflexivity|]. repeat split. Qed.
Example C66_stack_errors : stack nat id sym [] "X" = RuntimeError /\ stack nat id sym [Y; Y; Y] "T" = ValueError /\
  stack nat id sym [VArr nat (Arr [2] (fun _ => 0)); VArr nat (Arr [3] (fun _ => 0))] "X" = RuntimeError.
Proof. repeat split; vm_compute; reflexivity. Qed.

(** Documented: a strict subset of the indices binds the variable, so that the result has it no longer. The result still has
    the variable, with as many positions as indices. *)
Theorem C66_binds_refuted : exists v s r : _, indices_of nat name_of v = Ok (IdxModel.Ok (single_T [0; 1]%Z)) /\ s = single_T [0]%Z /\
  gather nat sym v s = Ok r /\ indices_of nat name_of r = Ok (IdxModel.Ok (single_T [0]%Z)) /\ indices_of nat name_of r <> Ok (IdxModel.Ok []).
Proof.
  exists Y, (single_T [0]%Z). destruct (gather nat sym Y (single_T [0]%Z)) as [r| | | | |] eqn:E; try (vm_compute in E; discriminate E). exists r. split; [reflexivity|]. split; [reflexivity|]. split; [reflexivity|].
  assert (X : indices_of nat name_of r = Ok (IdxModel.Ok (single_T [0]%Z))) by (vm_compute in E; injection E as <-; reflexivity). rewrite X. split; [reflexivity|discriminate].
Qed.
Print Assumptions C66_binds_refuted.

(** The indices are not kept: world 1 of [Y] is world 0 of [gather(Y, {1})], and gathering it again is an error. *)
Theorem C66_twice_refuted : exists (v r : val nat) s, gather nat sym v s = Ok r /\ gather nat sym r s = IndexError /\
  s = single_T [1]%Z /\ indices_of nat name_of r = Ok (IdxModel.Ok (single_T [0]%Z)) /\
  same (at_pos (fun _ => 0) r) (at_pos (fun _ => 1) v) /\ at_pos (fun _ => 1) r = None.
Proof.
  exists Y. destruct (gather nat sym Y (single_T [1]%Z)) as [r| | | | |] eqn:E; try (vm_compute in E; discriminate E). exists r, (single_T [1]%Z). split; [exact E|].
  vm_compute in E. injection E as <-. split; [vm_compute; reflexivity|]. split; [reflexivity|]. split; [reflexivity|]. split; [|reflexivity]. split; [reflexivity|]. intros idx W. inversion W. reflexivity.
Qed.
Print Assumptions C66_twice_refuted.

(** So the factual value cannot be combined with the value it was taken from, by no operation. *)
Theorem C66_mixed_refuted : exists (v r : val nat), gather nat sym v (single_T [0]%Z) = Ok r /\
  forall num lib f i, apply_op nat num lib f i [r; v] = ValueError.
Proof.
  exists Y. destruct (gather nat sym Y (single_T [0]%Z)) as [r| | | | |] eqn:E; try (vm_compute in E; discriminate E). exists r. split; [reflexivity|].
  vm_compute in E. injection E as <-. reflexivity.
Qed.
Print Assumptions C66_mixed_refuted.

(** [indices_of] goes by the names of dimensions, [gather] by the dimensions [name_to_sym] makes: a value may have index ["T"]
    in its support and not be gathered; two dimensions of one name are one index, of the size of the last. *)
Theorem C66_names_refuted : exists (v w r : val nat), indices_of nat name_of v = Ok (IdxModel.Ok (single_T [0; 1]%Z)) /\ gather nat sym v (single_T [1]%Z) = Ok r /\
  (forall env, same (at_pos env r) (at_pos env v)) /\ ~ same (at_pos (fun _ => 0) v) (at_pos (fun _ => 1) v) /\
  has_dim w 1 2 /\ has_dim w 5 3 /\ indices_of nat name_of w = Ok (IdxModel.Ok (single_T [0; 1; 2]%Z)).
Proof.
  exists (VGet nat (Arr [2] (fun idx => 10 + hd 0 idx)) [KName 5]), (VGet nat (Arr [2; 3] (fun _ => 0)) [KName 1; KName 5]).
  destruct (gather nat sym (VGet nat (Arr [2] (fun idx => 10 + hd 0 idx)) [KName 5]) (single_T [1]%Z)) as [r| | | | |] eqn:E; try (vm_compute in E; discriminate E). exists r. split; [reflexivity|]. split; [reflexivity|]. split.
  - assert (N : normal (VGet nat (Arr [2] (fun idx => 10 + hd 0 idx)) [KName 5])).
    { split; [split; [reflexivity|intros k [<-|[]]; reflexivity]|]. constructor; [right; exists 5; reflexivity|constructor]. }
    assert (P : proper sym (single_T [1]%Z)) by (repeat constructor; cbn; tauto).
    intros env. apply (gather_law nat sym _ _ _ P N E). intros n d ([|[|i]] & A & B); inversion A; subst. split; [|reflexivity]. intros l (name & [X|[]] & Hs). injection X as <- <-. discriminate Hs.
  - split; [intros [_ X]; specialize (X [] ltac:(constructor)); discriminate X|]. split; [exists 0; auto|]. split; [exists 1; auto|reflexivity].
Qed.
Print Assumptions C66_names_refuted.
