(** Properties C31-C33 and C46: indexing, named dimensions, their sizes. *)
From Coq Require Import List Bool Arith ZArith Lia.
From Verif Require Import ArrModel ArrSpec ArrProofs ArrNames ArrBind ArrSizes ArrUnbind.
Import ListNotations.

(** ** C31 *)

(** The new key has one element per axis of the new shape, no [None] and no ellipsis; the
    new shape has as many elements; indexing the reshaped array with the new key is indexing
    the array with the key, by NumPy's rules, for all values of the names. *)
Theorem C31_desugar_meaning : forall V (a : arr V) key,
  ellipses key <= 1 -> used key <= length (shape a) ->
  exists nsh nkey, desugar (shape a) key = Ok (nsh, nkey) /\
    prod nsh = prod (shape a) /\ length nkey = length nsh /\ plain nkey /\
    forall env, same (index_arr env (reshape a nsh) nkey) (index_full_arr env a key).
Proof. exact desugar_meaning. Qed.
Print Assumptions C31_desugar_meaning.

(** Keys with two ellipses or more elements than axes are rejected. *)
Theorem C31_desugar_rejects : forall sh key, 1 < ellipses key \/ length sh < used key ->
  desugar sh key = IndexError \/ desugar sh key = AssertionError.
Proof. exact desugar_rejects. Qed.
Print Assumptions C31_desugar_rejects.

(** [x[None, 0, ..., n()]] for [x] of shape [2, 3, 4, 5]. *)
Example C31_example :
  ellipses [KNone; KInt 0; KEll; KName 7] <= 1 /\ used [KNone; KInt 0; KEll; KName 7] <= 4 /\
  desugar [2; 3; 4; 5] [KNone; KInt 0; KEll; KName 7] = Ok ([1; 2; 3; 4; 5], [KAll; KInt 0; KAll; KAll; KName 7]) /\
  exists g, index_full (fun _ => 4) [2; 3; 4; 5] [KNone; KInt 0; KEll; KName 7] = Some ([1; 3; 4], g) /\ g [0; 2; 3] = [0; 2; 3; 4].
Proof. split; [repeat constructor|]. split; [repeat constructor|]. split; [reflexivity|]. eexists. split; reflexivity. Qed.

Example C31_rejects_example : 3 < used [KInt 0; KInt 0; KName 1; KNone; KInt 2] /\ desugar [2; 3; 4] [KInt 0; KInt 0; KName 1; KNone; KInt 2] = IndexError
  /\ 1 < ellipses [KEll; KInt 0; KEll] /\ desugar [2; 3; 4] [KEll; KInt 0; KEll] = AssertionError.
Proof. repeat split; cbn; lia. Qed.

(** ** C46 *)

(** Partial evaluation does not change the value, for any values of the names. *)
Theorem C46_partial_eval : forall V (a : arr V) dims r, built a dims -> partial_eval a dims = Ok r ->
  forall env, same (den env r) (den env (TGet a dims)).
Proof. exact partial_eval_meaning. Qed.
Print Assumptions C46_partial_eval.

(** Indexing with names and other elements has the value NumPy's rules give once the names
    have values. *)
Theorem C46_getitem : forall V (a : arr V) key v, getitem a key = Ok v ->
  forall env, same (den env v) (index_full_arr env a key).
Proof. exact getitem_meaning. Qed.
Print Assumptions C46_getitem.

(** Partial evaluation succeeds if the term has a value and its sizes agree; each name then
    indexes one axis, of the same size. *)
Theorem C46_partial_eval_ok : forall V (a : arr V) dims env, built a dims -> index_axes env (shape a) dims <> None ->
  consistent (shape a) dims ->
  exists a' dims', partial_eval a dims = Ok (TGet a' dims') /\ built a' dims' /\
    (forall n, In (KName n) dims' <-> In (KName n) dims) /\
    ((exists n, In (KName n) dims) -> forall i j n, nth_error dims' i = Some (KName n) -> nth_error dims' j = Some (KName n) -> i = j) /\
    (forall n d, indexes (shape a') dims' n d <-> indexes (shape a) dims n d).
Proof. exact partial_eval_ok. Qed.
Print Assumptions C46_partial_eval_ok.

Definition grid : arr nat := Arr [2; 3; 3] (fun idx => match idx with [i; j; k] => 100 * i + 10 * j + k | _ => 0 end).

Example C46_example : exists r, getitem grid [KInt 1; KName 5; KName 5] = Ok r /\
  (forall d, indexes [2; 3; 3] [KInt 1; KName 5; KName 5] 5 d -> d = 3) /\
  match den (fun _ => 2) r with Some b => shape b = [] /\ at_ b [] = 122 | None => False end.
Proof.
  eexists. split; [vm_compute; reflexivity|]. split; [|vm_compute; split; reflexivity].
  intros d (i & H1 & H2). destruct i as [|[|[|[|i]]]]; cbn in H1, H2; congruence.
Qed.

(** ** C32 *)

(** Binding turns the names into leading axes, in the order given: torch, each bound name
    indexing one axis. Missing: a name indexing several axes; named axes without elements. *)
Theorem C32_bind_torch_partial : forall V (a : arr V) dims names szs env0,
  built a dims -> NoDup names -> once dims names -> consistent (shape a) dims ->
  Forall2 (fun n d => indexes (shape a) dims n d) names szs -> den env0 (TGet a dims) <> None ->
  exists r, bind_dims_torch (TGet a dims) names = Ok r /\ stacked szs names r (TGet a dims).
Proof. exact bind_torch_meaning. Qed.
Print Assumptions C32_bind_torch_partial.

(** jax: also for a name indexing several axes. *)
Theorem C32_bind_jax_partial : forall V (a : arr V) dims names szs env0,
  built a dims -> NoDup names -> consistent (shape a) dims ->
  Forall2 (fun n d => indexes (shape a) dims n d) names szs -> den env0 (TGet a dims) <> None ->
  exists r, bind_dims_jax (TGet a dims) names = Ok r /\ stacked szs names r (TGet a dims).
Proof. exact bind_jax_meaning. Qed.
Print Assumptions C32_bind_jax_partial.

(** Unbinding: the value for the names at [is] is the array at [is]. *)
Theorem C32_unbind : forall V (a : arr V) names, NoDup names -> length names <= length (shape a) ->
  exists v, unbind_dims a names = Ok v /\
    forall env is, within (firstn (length names) (shape a)) is ->
      exists c, den (assign env names is) v = Some c /\ shape c = skipn (length names) (shape a) /\
        forall idx, within (shape c) idx -> at_ c idx = at_ a (is ++ idx).
Proof. exact unbind_meaning. Qed.
Print Assumptions C32_unbind.

(** Binding what was unbound gives the array back. *)
Theorem C32_bind_unbind_torch : forall V (a : arr V) names,
  NoDup names -> length names <= length (shape a) -> 0 < prod (firstn (length names) (shape a)) ->
  exists v r, unbind_dims a names = Ok v /\ bind_dims_torch v names = Ok r /\ forall env, same (den env r) (Some a).
Proof. exact bind_unbind_torch. Qed.
Print Assumptions C32_bind_unbind_torch.

Theorem C32_bind_unbind_jax : forall V (a : arr V) names,
  NoDup names -> length names <= length (shape a) -> 0 < prod (firstn (length names) (shape a)) ->
  exists v r, unbind_dims a names = Ok v /\ bind_dims_jax v names = Ok r /\ forall env, same (den env r) (Some a).
Proof. exact bind_unbind_jax. Qed.
Print Assumptions C32_bind_unbind_jax.

(** [x[a(), b()]] bound in the order [b, a]. *)
Example C32_example : built grid [KName 5; KName 6; KAll] /\ NoDup [6; 5] /\ once [KName 5; KName 6; KAll] [6; 5] /\
  Forall2 (fun n d => indexes (shape grid) [KName 5; KName 6; KAll] n d) [6; 5] [3; 2] /\
  exists b, bind_dims_torch (TGet grid [KName 5; KName 6; KAll]) [6; 5] = Ok (TArr b) /\ shape b = [3; 2; 3] /\ at_ b [2; 0; 1] = at_ grid [0; 2; 1].
Proof.
  split; [split; [reflexivity|intros k [<-|[<-|[<-|[]]]]; reflexivity]|]. split; [repeat constructor; cbn; intuition lia|].
  split; [unfold KAll; intros n [|[|[|[|i]]]] [|[|[|[|j]]]] _ H1 H2; cbn in H1, H2; congruence|].
  split; [constructor; [exists 1; auto|constructor; [exists 0; auto|constructor]]|]. eexists. split; [vm_compute; reflexivity|]. split; vm_compute; reflexivity.
Qed.

Example C32_diagonal_example : exists b, bind_dims_jax (TGet grid [KAll; KName 5; KName 5]) [5] = Ok (TArr b) /\ shape b = [3; 2] /\ at_ b [2; 1] = at_ grid [1; 2; 2].
Proof. eexists. split; [vm_compute; reflexivity|]. split; vm_compute; reflexivity. Qed.

(** torch: binding a name twice is refused; binding names of which one does not occur leaves a term. *)
Theorem C32_twice : forall (V : Type) (v : tval V) names, ~ NoDup names -> bind_dims_torch v names = ValueError.
Proof. exact bind_twice. Qed.
Print Assumptions C32_twice.
Theorem C32_missing : forall (V : Type) (a : arr V) dims names sizes n m, NoDup names -> sizes1 (TGet a dims) = Ok sizes ->
  In n names -> In n (map fst sizes) -> In m names -> ~ In (KName m) dims -> bind_dims_torch (TGet a dims) names = NotHandled.
Proof. exact bind_missing. Qed.
Print Assumptions C32_missing.
Example C32_missing_example : sizes1 (TGet grid [KAll; KName 5; KAll]) = Ok [(5, 3)] /\ NoDup [5; 6] /\ ~ In (KName 6) [KAll; KName 5; KAll].
Proof. split; [vm_compute; reflexivity|]. split; [repeat constructor; cbn; intuition lia|]. unfold KAll. cbn. intuition discriminate. Qed.

(** torch: binding a name that indexes two axes of the same size fails. *)
Theorem C32_repeated_name_refuted : exists (a : arr nat) dims names szs env0,
  built a dims /\ NoDup names /\ consistent (shape a) dims /\
  Forall2 (fun n d => indexes (shape a) dims n d) names szs /\ den env0 (TGet a dims) <> None /\
  bind_dims_torch (TGet a dims) names = RuntimeError.
Proof.
  exists (Arr [3; 3] (fun idx => prod idx)), [KName 5; KName 5], [5], [3], (fun _ => 0).
  split; [split; [reflexivity|intros k [<-|[<-|[]]]; reflexivity]|]. split; [repeat constructor; intros []|].
  split; [intros n d d' ([|[|[|i]]] & H1 & H2) ([|[|[|j]]] & H3 & H4); cbn in H1, H2, H3, H4; congruence|].
  split; [constructor; [exists 0; auto|constructor]|]. split; [discriminate|reflexivity].
Qed.
Print Assumptions C32_repeated_name_refuted.

(** ** C33 *)

(** torch: the sizes are those of the axes the names are used for; if a name is used for
    axes of different sizes, and only then, an error is raised. *)
Theorem C33_sizesof_torch : forall e, wf e ->
  match sizesof_torch e with
  | Ok m => forall n d, lookup m n = Some d <-> uses e n d
  | ValueError => exists n d d', d <> d' /\ uses e n d /\ uses e n d'
  | _ => False
  end.
Proof. exact sizesof_torch_meaning. Qed.
Print Assumptions C33_sizesof_torch.

(** jax: the same for keys without [None] and ellipsis. Missing: keys with them. *)
Theorem C33_sizesof_jax_partial : forall e, wf e -> plain_keys e ->
  match sizesof_jax e with
  | Ok m => forall n d, lookup m n = Some d <-> uses e n d
  | ValueError => exists n d d', d <> d' /\ uses e n d /\ uses e n d'
  | _ => False
  end.
Proof. exact sizesof_jax_meaning. Qed.
Print Assumptions C33_sizesof_jax_partial.

(** [x[a()] + y[b(), :][..., a()]] *)
Definition sum_expr : texpr :=
  XOp [XEager [2; 4] [KName 1; KAll]; XGet (XEager [3; 5; 2] [KName 2; KAll; KAll]) [KEll; KName 1]].

Lemma sum_expr_wf : wf sum_expr.
Proof.
  assert (Sb : forall sh, shape_of (XEager [3; 5; 2] [KName 2; KAll; KAll]) sh -> length sh = 2).
  { intros sh H. inversion H as [|? ? env s g E|]; subst. cbn [index_axes pick KAll] in E. destruct (env 2 <? 3); [|discriminate E]. cbn in E. inversion E; subst. reflexivity. }
  apply wf_op. constructor; [|constructor; [|constructor]].
  - eapply wf_eager; [reflexivity|intros k [<-|[<-|[]]]; reflexivity| |eapply (shape_eager _ _ (fun _ => 0)); reflexivity].
    repeat (apply Forall_cons; [first [left; reflexivity | right; right; right; eexists; reflexivity]|]); apply Forall_nil.
  - apply wf_get; [|cbn; lia| |discriminate].
    + eapply wf_eager; [reflexivity|intros k [<-|[<-|[<-|[]]]]; reflexivity| |eapply (shape_eager _ _ (fun _ => 0)); reflexivity].
      repeat (apply Forall_cons; [first [left; reflexivity | right; right; right; eexists; reflexivity]|]); apply Forall_nil.
    + intros sh H. rewrite (Sb sh H). cbn. lia.
Qed.

Example C33_example : wf sum_expr /\ sizesof_torch sum_expr = Ok [(1, 2); (2, 3)].
Proof. split; [exact sum_expr_wf|reflexivity]. Qed.

Example C33_conflict_example :
  sizesof_torch (XOp [XEager [2] [KName 1]; XGet (XEager [3; 4] [KName 2; KAll]) [KNone; KName 1]]) = ValueError.
Proof. reflexivity. Qed.

Example C33_jax_example : sizesof_jax (XOp [XEager [2; 4] [KName 1; KAll]; XGet (XEager [3; 5; 2] [KName 2; KAll; KAll]) [KAll; KName 1]]) = Ok [(1, 2); (2, 3)].
Proof. reflexivity. Qed.

(** jax, [x[a()][None, b()]] for [x] of shape [2, 3, 4]: the key is not desugared, so [b] is
    given the size of the wrong axis; for [x] of shape [2, 3] there is an [IndexError]. *)
Theorem C33_jax_none_refuted :
  (exists e m n d d', wf e /\ sizesof_jax e = Ok m /\ lookup m n = Some d /\ uses e n d' /\ d <> d' /\ ~ uses e n d) /\
  (exists e, wf e /\ sizesof_jax e = IndexError /\ forall n d d', uses e n d -> uses e n d' -> d = d').
Proof.
  assert (S1 : forall sh, shape_of (XEager [2; 3; 4] [KName 1; KAll; KAll]) sh -> sh = [3; 4]).
  { intros sh H. inversion H as [|? ? env s g E|]; subst. cbn [index_axes pick KAll] in E. destruct (env 1 <? 2); [|discriminate E]. cbn in E. inversion E; subst. reflexivity. }
  assert (S2 : forall sh, shape_of (XEager [2; 3] [KName 1; KAll]) sh -> sh = [3]).
  { intros sh H. inversion H as [|? ? env s g E|]; subst. cbn [index_axes pick KAll] in E. destruct (env 1 <? 2); [|discriminate E]. cbn in E. inversion E; subst. reflexivity. }
  assert (U : forall l n d, uses (XEager (2 :: l) (KName 1 :: map (fun _ => KAll) l)) n d -> n = 1 /\ d = 2).
  { intros l n d H. inversion H as [? ? ? ? (i & H1 & H2)| | |]; subst. destruct i as [|i]; [cbn in H1, H2; inversion H1; inversion H2; auto|].
    cbn in H1. apply nth_error_In, in_map_iff in H1. destruct H1 as (x & Hx & _). discriminate Hx. }
  split.
  - exists (XGet (XEager [2; 3; 4] [KName 1; KAll; KAll]) [KNone; KName 2]), [(1, 2); (2, 4)], 2, 4, 3.
    split; [|split; [reflexivity|split; [reflexivity|split; [|split; [lia|]]]]].
    + apply wf_get; [|cbn; lia| |discriminate].
      * eapply wf_eager; [reflexivity|intros k [<-|[<-|[<-|[]]]]; reflexivity| |eapply (shape_eager _ _ (fun _ => 0)); reflexivity].
        repeat (apply Forall_cons; [first [left; reflexivity | right; right; right; eexists; reflexivity]|]); apply Forall_nil.
      * intros sh H. rewrite (S1 sh H). cbn. lia.
    + eapply uses_get; [eapply (shape_eager _ _ (fun _ => 0)); reflexivity|]. apply applies_none. apply applies_here.
    + intros H. inversion H as [|? ? sh ? ? Hs Ha|? ? ? ? Hx|]; subst.
      * rewrite (S1 sh Hs) in Ha. inversion Ha; subst; [discriminate|]. match goal with H : applies _ [KName 2] _ _ _ |- _ => inversion H; subst end.
        match goal with H : applies _ [] _ _ _ |- _ => inversion H end.
      * apply (U [3; 4]) in Hx. lia.
  - exists (XGet (XEager [2; 3] [KName 1; KAll]) [KNone; KName 2]). split; [|split; [reflexivity|]].
    + apply wf_get; [|cbn; lia| |discriminate].
      * eapply wf_eager; [reflexivity|intros k [<-|[<-|[]]]; reflexivity| |eapply (shape_eager _ _ (fun _ => 0)); reflexivity].
        repeat (apply Forall_cons; [first [left; reflexivity | right; right; right; eexists; reflexivity]|]); apply Forall_nil.
      * intros sh H. rewrite (S2 sh H). cbn. lia.
    + assert (G : forall n d, uses (XGet (XEager [2; 3] [KName 1; KAll]) [KNone; KName 2]) n d -> (n = 1 /\ d = 2) \/ (n = 2 /\ d = 3)).
      { intros n d H. inversion H as [|? ? sh ? ? Hs Ha|? ? ? ? Hx|]; subst.
        - right. rewrite (S2 sh Hs) in Ha. inversion Ha; subst; [discriminate|]. match goal with H : applies _ [KName 2] _ _ _ |- _ => inversion H; subst end; [auto|].
          match goal with H : applies _ [] _ _ _ |- _ => inversion H end.
        - left. apply (U [3]) in Hx. exact Hx. }
      intros n d d' H1 H2. apply G in H1, H2. lia.
Qed.
Print Assumptions C33_jax_none_refuted.
