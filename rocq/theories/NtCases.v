From Coq Require Import List Bool Arith Reals Lia Lra.
Import ListNotations.
From Verif Require Import NtModel NtSpec NtProofs NtLaws.

(** Tensors with names only *)
Definition full (l : list (nat * nat)) (f : env -> R) : tensor := {| dims := l; shape := []; val := fun e _ => f e |}.
Definition sizes (l : list (nat * nat)) : axes := fun n => lookup n l.
Lemma full_is : forall l f, local (sizes l) f -> is (full l f) (sizes l) f.
Proof. intros l f H. split; try reflexivity. exact H. Qed.
Lemma local_const : forall z c, local z (fun _ => c).
Proof. intros z c e e' _. reflexivity. Qed.
Lemma local_at : forall l n (g : nat -> R), lookup n l <> None -> local (sizes l) (fun e => g (e n)).
Proof. intros l n g H e e' He. now rewrite (He n H). Qed.
Lemma sizes_sized : forall S l, (forall n s, In (n, s) l -> s = S n) -> sized S (sizes l).
Proof.
  intros S l H n s. unfold sizes. induction l as [|[k x] l IH]; cbn; [easy|]. destruct (Nat.eqb_spec k n) as [-> | Hk]; intros E.
  - injection E as <-. apply H. now left.
  - apply IH; [|exact E]. intros m y Hm. apply H. now right.
Qed.
Ltac allsizes := apply sizes_sized; intros ? ? Hin; cbn in Hin; repeat (destruct Hin as [Hin | Hin]; [injection Hin as <- <-; reflexivity|]); destruct Hin.

Lemma logistic_0 : logistic 0 = (1 / 2)%R.
Proof. unfold logistic. rewrite exp_0. lra. Qed.
(** [FullConn] is not the formula: zeros, a layer of size 2 *)
Lemma fullconn_wrong : exists S x W b layer zx zW zb fx fW fb y, sized S zx /\ sized S zW /\ sized S zb /\ is x zx fx /\ is W zW fW /\ is b zb fb /\ FullConn x W b layer = Some y
  /\ ~ is y (join (without (join zW zx) [layer]) zb) (fun e => logistic (Sigma (join zW zx) [layer] (fun e => fW e * fx e)%R e + fb e)%R).
Proof.
  pose (S := fun n => if n =? 0 then 2 else 1). pose (o := fun _ : env => 0%R).
  assert (Hx := full_is [(0, 2)] o (local_const _ _)). assert (HW := full_is [(0, 2); (1, 1)] o (local_const _ _)). assert (Hb := full_is [(1, 1)] o (local_const _ _)).
  assert (S1 : sized S (sizes [(0, 2)])) by allsizes. assert (S2 : sized S (sizes [(0, 2); (1, 1)])) by allsizes. assert (S3 : sized S (sizes [(1, 1)])) by allsizes.
  destruct (fullconn_is S _ _ _ 0 _ _ _ _ _ _ S1 S2 S3 Hx HW Hb) as [y [Hy Hi]].
  exists S, (full [(0, 2)] o), (full [(0, 2); (1, 1)] o), (full [(1, 1)] o), 0, (sizes [(0, 2)]), (sizes [(0, 2); (1, 1)]), (sizes [(1, 1)]), o, o, o, y.
  do 7 (split; [assumption|]). intros Hf. assert (H1 := is_val _ _ _ Hi (fun _ => 0)). rewrite (is_val _ _ _ Hf) in H1. unfold Sigma, o in H1. cbn in H1.
  rewrite !Rmult_0_l, !Rplus_0_r, !logistic_0 in H1. lra.
Qed.
(** [Attention]: names key 0, seq 1, val 2, seq2 3 *)
Definition Q1 := full [(0, 4)] (fun _ => 1%R).
Definition K1 := full [(1, 2); (0, 4)] (fun e => INR (e 1)).
Definition V1 := full [(1, 2); (2, 1)] (fun e => INR (e 1)).
Definition M1 := full [(1, 2)] (fun _ => 0%R).
Definition S1 (n : nat) : nat := match n with 0 => 4 | 2 => 1 | _ => 2 end.
Lemma Q1_is : is Q1 (sizes [(0, 4)]) (fun _ => 1%R).
Proof. apply full_is, local_const. Qed.
Lemma K1_is : is K1 (sizes [(1, 2); (0, 4)]) (fun e => INR (e 1)).
Proof. apply full_is. now apply (local_at _ 1 INR). Qed.
Lemma V1_is : is V1 (sizes [(1, 2); (2, 1)]) (fun e => INR (e 1)).
Proof. apply full_is. now apply (local_at _ 1 INR). Qed.
Lemma M1_is : is M1 (sizes [(1, 2)]) (fun _ => 0%R).
Proof. apply full_is, local_const. Qed.
Lemma Q1_sized : sized S1 (sizes [(0, 4)]). Proof. allsizes. Qed.
Lemma K1_sized : sized S1 (sizes [(1, 2); (0, 4)]). Proof. allsizes. Qed.
Lemma V1_sized : sized S1 (sizes [(1, 2); (2, 1)]). Proof. allsizes. Qed.
Lemma M1_sized : sized S1 (sizes [(1, 2)]). Proof. allsizes. Qed.
Lemma attention_axes : exists Q K V M key seq seq2 zQ zK zV zM q k v m y, is Q zQ q /\ is K zK k /\ is V zV v /\ is M zM m /\ seq2 <> seq /\ zQ seq2 = None /\ zK seq2 = None /\ zV seq2 = None /\ zM seq2 = None
  /\ Attention Q K V M key seq seq2 = Some y /\ size y seq2 <> None.
Proof.
  destruct (attention_is S1 Q1 K1 V1 M1 0 1 3 _ _ _ _ _ _ _ _ 4 2 Q1_sized K1_sized V1_sized M1_sized Q1_is K1_is V1_is M1_is eq_refl eq_refl ltac:(lia) eq_refl eq_refl) as [y [Hy Hi]].
  exists Q1, K1, V1, M1, 0, 1, 3. do 8 eexists. exists y. split; [exact Q1_is|]. split; [exact K1_is|]. split; [exact V1_is|]. split; [exact M1_is|]. do 5 (split; [easy|]). split; [exact Hy|].
  rewrite (is_axes _ _ _ Hi). discriminate.
Qed.
Lemma attention_scale : exists Q K V M key seq zQ zK zV zM q k v m nk n y, is Q zQ q /\ is K zK k /\ is V zV v /\ is M zM m /\ zQ key = Some nk /\ zK seq = Some n /\ Attention Q K V M key seq seq = Some y
  /\ let zx := join (without (join zQ zK) [key]) zM in ~ is y (without (join zx zV) [seq]) (Sigma (join zx zV) [seq] (fun e => softmax zx [seq] (score zQ zK key (sqrt (INR nk)) q k m) e * v e)%R).
Proof.
  destruct (attention_is S1 Q1 K1 V1 M1 0 1 1 _ _ _ _ _ _ _ _ 4 2 Q1_sized K1_sized V1_sized M1_sized Q1_is K1_is V1_is M1_is eq_refl eq_refl ltac:(lia) eq_refl eq_refl) as [y [Hy Hi]].
  exists Q1, K1, V1, M1, 0, 1. do 8 eexists. exists 4, 2, y. split; [exact Q1_is|]. split; [exact K1_is|]. split; [exact V1_is|]. split; [exact M1_is|]. do 2 (split; [reflexivity|]). split; [exact Hy|].
  intros zx Hf. assert (H1 := is_val _ _ _ Hi (fun _ => 0)). rewrite (is_val _ _ _ Hf) in H1. unfold Sigma, softmax, score, zx in H1. unfold Sigma in H1. cbn in H1.
  replace (1 + 1 + 1 + 1)%R with 4%R in H1 by lra. replace (sqrt 4) with 2%R in H1. 2: { replace 4%R with (2 * 2)%R by lra. rewrite sqrt_square; lra. }
  rewrite !Rmult_0_r, !Rmult_1_r, !Rplus_0_l, !Rplus_0_r in H1. replace (0 / 2)%R with 0%R in H1 by lra. replace (0 / 4)%R with 0%R in H1 by lra. rewrite exp_0 in H1.
  match type of H1 with context [exp (?a / 2)] => replace (a / 2)%R with 2%R in H1 by lra end. match type of H1 with context [exp (?a / 4)] => replace (a / 4)%R with 1%R in H1 by lra end.
  assert (P1 := exp_pos 1). assert (P2 := exp_increasing 1 2 ltac:(lra)).
  assert (E : (exp 2 * (1 + exp 1) = exp 1 * (1 + exp 2))%R).
  { replace (exp 2 * (1 + exp 1))%R with (exp 2 / (1 + exp 2) * ((1 + exp 1) * (1 + exp 2)))%R by (field; lra). rewrite H1. field. lra. }
  lra.
Qed.
(** Max-pooling: seq 0, kernel 1, seq2 2 *)
Definition X4 := full [(0, 4)] (fun e => INR (e 0)).
Lemma X4_is : is X4 (sizes [(0, 4)]) (fun e => INR (e 0)).
Proof. apply full_is. now apply (local_at _ 0 INR). Qed.
Lemma maxpool_wrong : exists x z f seq k kernel seq2 y, is x z f /\ MaxPool1d x seq k kernel seq2 = Some y /\ forall z' g, ~ is y z' g.
Proof.
  destruct (maxpool1d_is X4 _ _ 0 2 1 2 2 X4_is) as [y (Hy & Hs & _)]; [lia|reflexivity|reflexivity|reflexivity|easy|].
  exists X4, (sizes [(0, 4)]), (fun e => INR (e 0)), 0, 2, 1, 2, y. split; [exact X4_is|]. split; [exact Hy|]. intros z' g H. rewrite (is_shape _ _ _ H) in Hs. discriminate.
Qed.
Lemma maxpool_then_conv : forall X seq k kernel seq2 z f m, is X z f -> 0 < k -> z seq = Some (m * k) -> without z [seq] seq2 = None -> without z [seq] kernel = None -> kernel <> seq2 ->
  exists p, MaxPool1d X seq k kernel seq2 = Some p /\ forall W b chans k' kernel' seq3, size W kernel' = Some k' -> k' <> 1 -> Conv1d p W b chans k' kernel' seq2 seq3 = None.
Proof.
  intros X seq k kernel seq2 z f m Hi Hk Hz H2 H3 Hne. destruct (maxpool1d_is X z f seq k kernel seq2 m Hi Hk Hz H2 H3 Hne) as [p (Hp & Hs & _)]. exists p. split; [exact Hp|].
  intros W b chans k' kernel' seq3 HW Hk'. now apply conv_of_max.
Qed.
(** The layer norm with weights on [chans] (0) and [layer] (1); chans2 is 2, layer2 is 3 *)
Lemma layernorm_axes : exists eps X gamma beta chans layer chans2 layer2 z zg f g y, is X z f /\ is gamma zg g /\ is beta zg g /\ (forall n, zg n <> None <-> n = chans \/ n = layer) /\ (forall n, z n = zg n) /\ NoDup [chans; layer; chans2; layer2]
  /\ LayerNorm eps X gamma beta chans layer chans2 layer2 = Some y /\ (forall n, size y n <> None <-> In n [chans; layer; chans2; layer2]).
Proof.
  pose (l := [(0, 2); (1, 3)]). pose (S := fun n => match n with 0 | 2 => 2 | _ => 3 end).
  assert (HX := full_is l (fun e => INR (e 0)) (local_at l 0 INR ltac:(discriminate))). assert (Sl : sized S (sizes l)) by allsizes.
  destruct (batchnorm_is S 1%R _ _ _ 0 1 2 3 _ _ _ _ _ _ 2 3 Sl Sl Sl HX HX HX) as [y [Hy Hi]]; try easy.
  exists 1%R. do 3 eexists. exists 0, 1, 2, 3, (sizes l), (sizes l). do 2 eexists. exists y. split; [exact HX|]. split; [exact HX|]. split; [exact HX|].
  split. { intros n. unfold sizes, l. destruct n as [|[|n]]; cbn; (split; [intros; try tauto; try congruence|intros [H | H]; congruence]). }
  split; [reflexivity|]. split. { repeat constructor; cbn; intuition lia. }
  split; [exact Hy|]. intros n. rewrite (is_axes _ _ _ Hi). unfold join, plus, without, sizes, l. destruct n as [|[|[|[|n]]]]; cbn; (split; [intros; try tauto; try congruence|intros H; intuition congruence]).
Qed.
