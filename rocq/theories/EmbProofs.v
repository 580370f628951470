(** Proofs about the embedding of Pyro distributions. *)
From Coq Require Import String List Bool Arith Lia.
From Verif Require Import EmbModel EmbSpec.
Import ListNotations.
Open Scope string_scope.
Open Scope list_scope.

Definition fits (e : entry) : bool :=
  (if list_eq_dec string_dec (firstn (length (by_pos e)) (sig e)) (by_pos e) then true else false) &&
  forallb (fun k : string * string => String.eqb (fst k) (snd k)) (by_key e) &&
  forallb (fun k : string * string => mem (fst k) (skipn (length (by_pos e)) (sig e))) (by_key e) &&
  forallb (fun a => mem a (by_pos e) || mem a (map fst (by_key e))) (params e) &&
  forallb (fun a => mem a (params e)) (by_pos e ++ map fst (by_key e)) &&
  forallb (fun a => negb (mem a (map fst (by_key e)))) (by_pos e).
Lemma mem_In a l : mem a l = true <-> In a l.
Proof.
  unfold mem. rewrite existsb_exists. split; [intros [x [H E]]; apply String.eqb_eq in E; now subst|intros H; exists a; split; [assumption|apply String.eqb_refl]].
Qed.
Section Emb.
Variable V : Type.
Variable convert : string -> string -> V -> V.
Variable default : string -> string -> option V.
Notation attr := (attr V convert default).
Notation read := (read V convert default).
Notation rebuild := (rebuild V convert default).
Lemma read_ok c given l : (forall a, In a l -> attr c given a <> None) -> exists vs, read c given l = Done vs /\ Forall2 (fun a v => attr c given a = Some v) l vs.
Proof.
  induction l as [|a l IH]; intros H; [exists []; split; [reflexivity|constructor]|]. destruct IH as [vs [E F]]; [intros x Hx; apply H; now right|].
  cbn [EmbModel.read]. destruct (attr c given a) as [v|] eqn:Q; [|exfalso; apply (H a); [now left|assumption]]. rewrite E. exists (v :: vs). split; [reflexivity|]. now constructor.
Qed.
Lemma get_app l l' a : get V (l ++ l') a = match get V l a with Some v => Some v | None => get V l' a end.
Proof. induction l as [|[n v] l IH]; [reflexivity|]. cbn. destruct (String.eqb n a); [reflexivity|assumption]. Qed.
Lemma get_none l (vs : list V) a : ~ In a l -> get V (combine l vs) a = None.
Proof.
  revert vs. induction l as [|n l IH]; intros [|v vs] H; try reflexivity. cbn. destruct (String.eqb_spec n a) as [->|_]; [exfalso; apply H; now left|].
  apply IH. intros Q. apply H. now right.
Qed.
Lemma get_some (P : string -> option V) l vs a : Forall2 (fun x v => P x = Some v) l vs -> In a l -> get V (combine l vs) a = P a.
Proof.
  induction 1 as [|x v l vs H _ IH]; intros K; [destruct K|]. cbn. destruct (String.eqb_spec x a) as [->|N]; [now symmetry|]. apply IH. now destruct K.
Qed.
Lemma combine_longer (a b : list string) (vs : list V) : length a = length vs -> combine (a ++ b) vs = combine a vs.
Proof. revert vs. induction a as [|x a IH]; intros [|v vs] H; try discriminate; cbn; [now destruct b|]. f_equal. apply IH. now injection H. Qed.
Lemma F2_length {A B} (R : A -> B -> Prop) l l' : Forall2 R l l' -> length l = length l'.
Proof. induction 1; cbn; congruence. Qed.
Theorem fits_rebuild e given : fits e = true -> (forall a, In a (params e) -> attr (cls e) given a <> None) ->
  exists given', rebuild e given = Done given' /\ forall a, In a (params e) -> attr (cls e) given' a = attr (cls e) given a.
Proof.
  intros F H. unfold fits in F. rewrite !andb_true_iff in F. destruct F as [[[[[F1 F2] F3] F4] F5] F6].
  destruct (list_eq_dec string_dec (firstn (length (by_pos e)) (sig e)) (by_pos e)) as [ES|]; [|discriminate]. clear F1.
  assert (EK : map snd (by_key e) = map fst (by_key e)).
  { clear - F2. induction (by_key e) as [|[x y] l IH]; [reflexivity|]. cbn in F2 |- *. apply andb_prop in F2. destruct F2 as [Q F2]. apply String.eqb_eq in Q. subst y. f_equal. now apply IH. }
  rewrite forallb_forall in F5.
  destruct (read_ok (cls e) given (by_pos e)) as [vs [R1 A1]]; [intros a Ha; apply H, mem_In, F5, in_app_iff; now left|].
  destruct (read_ok (cls e) given (map fst (by_key e))) as [ks [R2 A2]]; [intros a Ha; apply H, mem_In, F5, in_app_iff; now right|].
  unfold EmbModel.rebuild, embed. rewrite EK, R1, R2. unfold construct. assert (L1 := F2_length _ _ _ A1). assert (L2 := F2_length _ _ _ A2).
  assert (LS : length (by_pos e) <= length (sig e)).
  { rewrite <- ES at 1. rewrite firstn_length. lia. }
  destruct (Nat.ltb_spec (length (sig e)) (length vs)); [lia|].
  replace (forallb (fun k : string * V => mem (fst k) (skipn (length vs) (sig e))) (combine (map fst (by_key e)) ks)) with true.
  2:{ symmetry. apply forallb_forall. intros [k v] Hk. apply in_combine_l in Hk. cbn [fst]. rewrite <- L1. rewrite forallb_forall in F3.
      apply in_map_iff in Hk. destruct Hk as [p [<- Hp]]. now apply F3. }
  eexists. split; [reflexivity|]. intros a Ha. unfold EmbModel.attr at 1. rewrite get_app.
  assert (SG : combine (sig e) vs = combine (by_pos e) vs).
  { rewrite <- (firstn_skipn (length (by_pos e)) (sig e)) at 1. rewrite ES. now apply combine_longer. }
  rewrite SG. rewrite forallb_forall in F4. specialize (F4 a Ha). apply orb_prop in F4.
  destruct (in_dec string_dec a (by_pos e)) as [I|I].
  - rewrite (get_some (attr (cls e) given) _ _ _ A1 I). specialize (H a Ha). destruct (attr (cls e) given a); [reflexivity|contradiction].
  - rewrite get_none by assumption. destruct F4 as [F4|F4]; [apply mem_In in F4; contradiction|]. apply mem_In in F4.
    rewrite (get_some (attr (cls e) given) _ _ _ A2 F4). specialize (H a Ha). destruct (attr (cls e) given a); [reflexivity|contradiction].
Qed.
Theorem table_rebuild e given : In e table -> cls e <> "StudentT" -> cls e <> "Wishart" -> (forall a, In a (params e) -> attr (cls e) given a <> None) ->
  exists given', rebuild e given = Done given' /\ forall a, In a (params e) -> attr (cls e) given' a = attr (cls e) given a.
Proof.
  intros I N1 N2. apply fits_rebuild.
  assert (T : forallb (fun e => String.eqb (cls e) "StudentT" || String.eqb (cls e) "Wishart" || fits e) table = true) by reflexivity.
  rewrite forallb_forall in T. specialize (T e I). cbv beta in T. destruct (String.eqb_spec (cls e) "StudentT"); [contradiction|]. destruct (String.eqb_spec (cls e) "Wishart"); [contradiction|exact T].
Qed.
End Emb.
