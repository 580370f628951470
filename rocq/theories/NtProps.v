(** C85: the networks of the notebook on named tensors compute the formulas written above them, whatever further axes their
    arguments have. [is t z f]: the tensor [t] has the axes [z] and the entries [f]. *)
From Coq Require Import List Bool Arith Reals Lia Lra.
Import ListNotations.
From Verif Require Import NtModel NtSpec NtProofs NtLaws NtCases.

(** [reduce] reduces the axes among the given names and no other dimension, if there is one among them. *)
Theorem C85_reduce_partial : forall ns t, NoDup ns -> (exists n, In n ns /\ size t n <> None) ->
  (exists u, reduce ns t Sum = Some u /\ (forall m, size u m = without (size t) ns m) /\ shape u = shape t /\ forall e js, val u e js = Sigma (size t) ns (fun e => val t e js) e)
  /\ (exists u, reduce ns t Prod = Some u /\ (forall m, size u m = without (size t) ns m) /\ shape u = shape t /\ forall e js, val u e js = fold_right Rmult 1%R (map (fun e => val t e js) (positions (along (size t) ns) e)))
  /\ (0 < count (size t) ns -> exists u, reduce ns t Amax = Some u /\ (forall m, size u m = without (size t) ns m) /\ shape u = shape t /\ forall e js, Largest (size t) ns (fun e => val t e js) e (val u e js)).
Proof. exact reduce_all. Qed.
Print Assumptions C85_reduce_partial.

(** Else it reduces the positional dimensions. *)
Theorem C85_unnamed_refuted : forall ns t, (forall n, In n ns -> size t n = None) -> shape t <> [] ->
  exists u, reduce ns t Sum = Some u /\ shape u = [] /\ (forall m, size u m = size t m) /\ forall e, val u e [] = fold_right Rplus 0%R (map (val t e) (indices (shape t))).
Proof. exact reduce_none. Qed.
Print Assumptions C85_unnamed_refuted.
Example C85_unnamed_example : exists t u, shape t = [2; 2] /\ size t 0 = None /\ reduce [0] t Sum = Some u /\ shape u = [].
Proof. exists {| dims := [(1, 3)]; shape := [2; 2]; val := fun _ js => INR (hd 0 js) |}. eexists. repeat split. Qed.

(** Recurrent networks and rectified linear units *)
Theorem C85_rnn : forall S x Wh Wi b h hidden layer zx zWh zWi zb zh fx fWh fWi fb fh, sized S zx -> sized S zWh -> sized S zWi -> sized S zb -> sized S zh ->
  is x zx fx -> is Wh zWh fWh -> is Wi zWi fWi -> is b zb fb -> is h zh fh ->
  exists y, RNN x Wh Wi b h hidden layer = Some y
    /\ is y (join (join (without (join zWh zh) [hidden]) (without (join zWi zx) [layer])) zb)
         (fun e => logistic (Sigma (join zWh zh) [hidden] (fun e => (fWh e * fh e)%R) e + Sigma (join zWi zx) [layer] (fun e => (fWi e * fx e)%R) e + fb e)%R).
Proof. exact rnn_is. Qed.
Print Assumptions C85_rnn.
Theorem C85_relu : forall x z f, is x z f -> is (Relu x) z (fun e => Rmax (f e) 0).
Proof. exact relu_is. Qed.
Print Assumptions C85_relu.

(** The softmax along an axis, which gets another name; its entries are positive and their sum is one. *)
Theorem C85_softmax : forall x z f ax ax2 n, is x z f -> z ax = Some n -> 0 < n -> without z [ax] ax2 = None ->
  exists y, Softmax x ax ax2 = Some y
    /\ is y (plus (without z [ax]) ax2 n) (fun e => softmax z [ax] f (upd e ax (e ax2)))
    /\ (forall e, (0 < val y e [])%R) /\ forall e, Sigma (plus (without z [ax]) ax2 n) [ax2] (fun e => val y e []) e = 1%R.
Proof. exact softmax_full. Qed.
Print Assumptions C85_softmax.
Example C85_softmax_example : is K1 (sizes [(1, 2); (0, 4)]) (fun e => INR (e 1)) /\ sizes [(1, 2); (0, 4)] 1 = Some 2 /\ without (sizes [(1, 2); (0, 4)]) [1] 3 = None
  /\ softmax (sizes [(1, 2); (0, 4)]) [1] (fun e => INR (e 1)) (upd (fun _ => 0) 1 1) = (exp 1 / (1 + exp 1))%R.
Proof. split; [exact K1_is|]. do 2 (split; [reflexivity|]). unfold softmax, Sigma. cbn. rewrite exp_0. now rewrite Rplus_0_r. Qed.

(** Windows of size [k]: an error exactly if the axis is shorter. *)
Theorem C85_unroll : forall x z f seq k kernel seq2 n, is x z f -> z seq = Some n -> without z [seq] seq2 = None -> without z [seq] kernel = None -> kernel <> seq2 ->
  (k <= n -> exists y, Unroll x seq k kernel seq2 = Some y /\ is y (windows z seq n k seq2 kernel) (fun e => f (upd e seq (e seq2 + e kernel))))
  /\ (Unroll x seq k kernel seq2 = None <-> n < k).
Proof. intros x z f seq k kernel seq2 n Hi Hz H2 H3 Hne. split; [intros Hk; now apply unroll_is|now apply (unroll_error x z f)]. Qed.
Print Assumptions C85_unroll.
(** Blocks of size [k]: an error exactly if [k] does not divide the axis. *)
Theorem C85_pool : forall x z f seq k kernel seq2 n, is x z f -> z seq = Some n -> without z [seq] seq2 = None -> without z [seq] kernel = None -> kernel <> seq2 ->
  (forall m, 0 < k -> n = m * k -> exists y, Pool x seq k kernel seq2 = Some y /\ is y (blocks z seq m k seq2 kernel) (fun e => f (upd e seq (e seq2 * k + e kernel))))
  /\ (Pool x seq k kernel seq2 = None <-> k = 0 \/ n mod k <> 0).
Proof. intros x z f seq k kernel seq2 n Hi Hz H2 H3 Hne. split; [intros m Hk ->; now apply pool_is|now apply (pool_error x z f)]. Qed.
Print Assumptions C85_pool.

(** Convolutions *)
Theorem C85_conv1d : forall S X W b chans k kernel seq seq2 zX zW zb fX fW fb n, sized S zX -> sized S zW -> sized S zb -> is X zX fX -> is W zW fW -> is b zb fb ->
  zX seq = Some n -> k <= n -> without zX [seq] seq2 = None -> without zX [seq] kernel = None -> kernel <> seq2 -> chans <> kernel -> S seq2 = n - k + 1 -> S kernel = k ->
  let z := join zW (windows zX seq n k seq2 kernel) in
  exists y, Conv1d X W b chans k kernel seq seq2 = Some y /\ is y (join (without z [chans; kernel]) zb) (fun e => (Sigma z [chans; kernel] (fun e => (fW e * fX (upd e seq (e seq2 + e kernel)%nat))%R) e + fb e)%R).
Proof. exact conv1d_is. Qed.
Print Assumptions C85_conv1d.
Theorem C85_conv2d : forall S X W b chans khs kh height height2 kws kw width width2 zX zW zb fX fW fb nh nw, sized S zX -> sized S zW -> sized S zb -> is X zX fX -> is W zW fW -> is b zb fb ->
  zX width = Some nw -> zX height = Some nh -> kws <= nw -> khs <= nh ->
  NoDup [width; height; width2; height2; kw; kh; chans] -> zX width2 = None -> zX height2 = None -> zX kw = None -> zX kh = None ->
  S width2 = nw - kws + 1 -> S height2 = nh - khs + 1 -> S kw = kws -> S kh = khs ->
  let z := join zW (windows (windows zX width nw kws width2 kw) height nh khs height2 kh) in
  exists y, Conv2d X W b chans khs kh height height2 kws kw width width2 = Some y
    /\ is y (join (without z [chans; kh; kw]) zb)
         (fun e => (Sigma z [chans; kh; kw] (fun e => (fW e * fX (upd (upd e height (e height2 + e kh)%nat) width (e width2 + e kw)%nat))%R) e + fb e)%R).
Proof. exact conv2d_is. Qed.
Print Assumptions C85_conv2d.
(** 0, 1, 2, 3 convolved with 1, 1 over no channels: 1, 3, 5 *)
Example C85_conv_example : exists y, Conv1d X4 (full [(1, 2)] (fun _ => 1%R)) (full [] (fun _ => 0%R)) 7 2 1 0 2 = Some y
  /\ size y 2 = Some 3 /\ size y 0 = None /\ size y 1 = None /\ forall e, val y e [] = (INR (e 2%nat) + INR (e 2%nat + 1)%nat)%R.
Proof.
  pose (S := fun n => match n with 0 => 4 | 1 => 2 | _ => 3 end).
  destruct (C85_conv1d S X4 (full [(1, 2)] (fun _ => 1%R)) (full [] (fun _ => 0%R)) 7 2 1 0 2 (sizes [(0, 4)]) (sizes [(1, 2)]) (sizes []) (fun e => INR (e 0)) (fun _ => 1%R) (fun _ => 0%R) 4) as [y [Hy Hi]]; try exact X4_is; try (apply full_is, local_const); try easy; try allsizes; try lia.
  exists y. split; [exact Hy|]. rewrite !(is_axes _ _ _ Hi). do 3 (split; [reflexivity|]). intros e. rewrite (is_val _ _ _ Hi). unfold Sigma. cbn -[INR Nat.add]. unfold upd. cbn -[INR Nat.add]. rewrite Nat.add_0_r. lra.
Qed.

(** Means and variances; standardized entries, of the mean zero *)
Theorem C85_mean : forall X z f ax n, is X z f -> z ax = Some n -> 0 < n ->
  (exists u, Mean X ax = Some u /\ is u (without z [ax]) (mean z [ax] f)) /\ exists u, Variance X ax = Some u /\ is u (without z [ax]) (variance z [ax] f).
Proof. intros X z f ax n Hi Hz _. split; [exact (mean_is X z f ax n Hi Hz)|exact (variance_is X z f ax n Hi Hz)]. Qed.
Print Assumptions C85_mean.
Theorem C85_mean2 : forall X z f ax ay n m, is X z f -> ax <> ay -> z ax = Some n -> z ay = Some m -> 0 < n -> 0 < m ->
  (exists u, Mean2 X ax ay = Some u /\ is u (without z [ax; ay]) (mean z [ax; ay] f)) /\ exists u, Variance2 X ax ay = Some u /\ is u (without z [ax; ay]) (variance z [ax; ay] f).
Proof. intros X z f ax ay n m Hi Hne Hz Hy _ _. split; [exact (mean2_is X z f ax ay n m Hi Hne Hz Hy)|exact (variance2_is X z f ax ay n m Hi Hne Hz Hy)]. Qed.
Print Assumptions C85_mean2.
Theorem C85_standardize : forall eps X z f ax new n, is X z f -> z ax = Some n -> 0 < n -> without z [ax] new = None ->
  exists y, Standardize eps X ax new = Some y
    /\ is y (plus (without z [ax]) new n) (fun e => standard eps z [ax] f (upd e ax (e new)))
    /\ forall e, mean (plus (without z [ax]) new n) [new] (fun e => val y e []) e = 0%R.
Proof. exact standardize_full. Qed.
Print Assumptions C85_standardize.
Theorem C85_standardize2 : forall eps X z f ax ay nx ny n m, is X z f -> ax <> ay -> nx <> ny -> z ax = Some n -> z ay = Some m -> without z [ax; ay] nx = None -> without z [ax; ay] ny = None ->
  exists y, Standardize2 eps X ax ay nx ny = Some y /\ is y (plus (plus (without z [ax; ay]) nx n) ny m) (fun e => standard eps z [ax; ay] f (upd (upd e ax (e nx)) ay (e ny))).
Proof. exact standardize2_is. Qed.
Print Assumptions C85_standardize2.
Theorem C85_instancenorm : forall S eps X gamma beta layer layer2 z zg zb f g b n, sized S z -> sized S zg -> sized S zb -> is X z f -> is gamma zg g -> is beta zb b ->
  z layer = Some n -> without z [layer] layer2 = None -> S layer2 = n ->
  exists y, InstanceNorm eps X gamma beta layer layer2 = Some y
    /\ is y (join (join (plus (without z [layer]) layer2 n) zg) zb) (fun e => standard eps z [layer] f (upd e layer (e layer2)) * g e + b e)%R.
Proof. exact instancenorm_is. Qed.
Print Assumptions C85_instancenorm.
Theorem C85_batchnorm : forall S eps X gamma beta batch layer batch2 layer2 z zg zb f g b n m, sized S z -> sized S zg -> sized S zb -> is X z f -> is gamma zg g -> is beta zb b ->
  batch <> layer -> batch2 <> layer2 -> z batch = Some n -> z layer = Some m -> without z [batch; layer] batch2 = None -> without z [batch; layer] layer2 = None -> S batch2 = n -> S layer2 = m ->
  exists y, BatchNorm eps X gamma beta batch layer batch2 layer2 = Some y
    /\ is y (join (join (plus (plus (without z [batch; layer]) batch2 n) layer2 m) zg) zb) (fun e => standard eps z [batch; layer] f (upd (upd e batch (e batch2)) layer (e layer2)) * g e + b e)%R.
Proof. exact batchnorm_is. Qed.
Print Assumptions C85_batchnorm.
(** 0, 1, 2, 3: the mean is 3/2 and the variance 5/4 *)
Example C85_mean_example : is X4 (sizes [(0, 4)]) (fun e => INR (e 0)) /\ mean (sizes [(0, 4)]) [0] (fun e => INR (e 0)) (fun _ => 0) = (3 / 2)%R /\ variance (sizes [(0, 4)]) [0] (fun e => INR (e 0)) (fun _ => 0) = (5 / 4)%R.
Proof. split; [exact X4_is|]. split; [|unfold variance]; unfold mean, Sigma, count; cbn; lra. Qed.

(** The layer norm, if the axes keep their names: it is the formula then. *)
Theorem C85_layernorm_partial : forall S eps X gamma beta chans layer z zg zb f g b n m, sized S z -> sized S zg -> sized S zb -> is X z f -> is gamma zg g -> is beta zb b -> chans <> layer -> z chans = Some n -> z layer = Some m ->
  exists y, LayerNorm eps X gamma beta chans layer chans layer = Some y /\ is y (join (join z zg) zb) (fun e => standard eps z [chans; layer] f e * g e + b e)%R.
Proof. exact layernorm_same. Qed.
Print Assumptions C85_layernorm_partial.
(** With new names, weights on [chans] and [layer] are not multiplied with the entries at the same position: the result has
    all four axes. *)
Theorem C85_layernorm_refuted : exists eps X gamma beta chans layer chans2 layer2 z zg f g y, is X z f /\ is gamma zg g /\ is beta zg g /\ (forall n, zg n <> None <-> n = chans \/ n = layer) /\ (forall n, z n = zg n) /\ NoDup [chans; layer; chans2; layer2]
  /\ LayerNorm eps X gamma beta chans layer chans2 layer2 = Some y /\ (forall n, size y n <> None <-> In n [chans; layer; chans2; layer2]).
Proof. exact layernorm_axes. Qed.
Print Assumptions C85_layernorm_refuted.

(** The fully connected layer: the logistic function of every product, not of their sum with the bias. *)
Theorem C85_fullconn_partial : forall S x W b layer zx zW zb fx fW fb, sized S zx -> sized S zW -> sized S zb -> is x zx fx -> is W zW fW -> is b zb fb ->
  exists y, FullConn x W b layer = Some y /\ is y (join (without (join zW zx) [layer]) zb) (fun e => (Sigma (join zW zx) [layer] (fun e => logistic (fW e * fx e)) e + fb e)%R).
Proof. exact fullconn_is. Qed.
Print Assumptions C85_fullconn_partial.
Theorem C85_fullconn_refuted : exists S x W b layer zx zW zb fx fW fb y, sized S zx /\ sized S zW /\ sized S zb /\ is x zx fx /\ is W zW fW /\ is b zb fb /\ FullConn x W b layer = Some y
  /\ ~ is y (join (without (join zW zx) [layer]) zb) (fun e => logistic (Sigma (join zW zx) [layer] (fun e => fW e * fx e)%R e + fb e)%R).
Proof. exact fullconn_wrong. Qed.
Print Assumptions C85_fullconn_refuted.

(** Attention: scaled by the size of [key] and not by its root; contracted over [seq] after the weights have got the name [seq2]. If
    both names are the same it is the formula but for the scale. *)
Theorem C85_attention_partial : forall S Q K V M key seq seq2 zQ zK zV zM q k v m nk n, sized S zQ -> sized S zK -> sized S zV -> sized S zM ->
  is Q zQ q -> is K zK k -> is V zV v -> is M zM m -> zQ key = Some nk ->
  let zx := join (without (join zQ zK) [key]) zM in
  zx seq = Some n -> 0 < n -> without zx [seq] seq2 = None -> S seq2 = n ->
  let z := join (plus (without zx [seq]) seq2 n) zV in
  exists y, Attention Q K V M key seq seq2 = Some y
    /\ is y (without z [seq]) (Sigma z [seq] (fun e => (softmax zx [seq] (score zQ zK key (INR nk) q k m) (upd e seq (e seq2)) * v e)%R)).
Proof. exact attention_is. Qed.
Print Assumptions C85_attention_partial.
Theorem C85_attention_same_partial : forall S Q K V M key seq zQ zK zV zM q k v m nk n, sized S zQ -> sized S zK -> sized S zV -> sized S zM ->
  is Q zQ q -> is K zK k -> is V zV v -> is M zM m -> zQ key = Some nk ->
  let zx := join (without (join zQ zK) [key]) zM in
  zx seq = Some n -> 0 < n ->
  exists y, Attention Q K V M key seq seq = Some y
    /\ is y (without (join zx zV) [seq]) (Sigma (join zx zV) [seq] (fun e => (softmax zx [seq] (score zQ zK key (INR nk) q k m) e * v e)%R)).
Proof. exact attention_same. Qed.
Print Assumptions C85_attention_same_partial.
Theorem C85_attention_axes_refuted : exists Q K V M key seq seq2 zQ zK zV zM q k v m y, is Q zQ q /\ is K zK k /\ is V zV v /\ is M zM m /\ seq2 <> seq /\ zQ seq2 = None /\ zK seq2 = None /\ zV seq2 = None /\ zM seq2 = None
  /\ Attention Q K V M key seq seq2 = Some y /\ size y seq2 <> None.
Proof. exact attention_axes. Qed.
Print Assumptions C85_attention_axes_refuted.
Theorem C85_attention_scale_refuted : exists Q K V M key seq zQ zK zV zM q k v m nk n y, is Q zQ q /\ is K zK k /\ is V zV v /\ is M zM m /\ zQ key = Some nk /\ zK seq = Some n /\ Attention Q K V M key seq seq = Some y
  /\ let zx := join (without (join zQ zK) [key]) zM in ~ is y (without (join zx zV) [seq]) (Sigma (join zx zV) [seq] (fun e => softmax zx [seq] (score zQ zK key (sqrt (INR nk)) q k m) e * v e)%R).
Proof. exact attention_scale. Qed.
Print Assumptions C85_attention_scale_refuted.

(** Max-pooling: the maxima of the blocks, under a further dimension of size one, so that no convolution with a longer kernel can
    follow. *)
Theorem C85_maxpool1d_partial : forall x z f seq k kernel seq2 m, is x z f -> 0 < k -> z seq = Some (m * k) -> without z [seq] seq2 = None -> without z [seq] kernel = None -> kernel <> seq2 ->
  exists y, MaxPool1d x seq k kernel seq2 = Some y /\ shape y = [1] /\ (forall n, size y n = without (blocks z seq m k seq2 kernel) [kernel] n)
    /\ forall e, Largest (blocks z seq m k seq2 kernel) [kernel] (fun e => f (upd e seq (e seq2 * k + e kernel))) e (val y e [0]).
Proof. exact maxpool1d_is. Qed.
Print Assumptions C85_maxpool1d_partial.
Theorem C85_maxpool2d_partial : forall x z f height khs kh height2 width kws kw width2 mh mw, is x z f -> 0 < khs -> 0 < kws -> z height = Some (mh * khs) -> z width = Some (mw * kws) ->
  NoDup [height; width; height2; width2; kh; kw] -> z height2 = None -> z width2 = None -> z kh = None -> z kw = None ->
  let z' := blocks (blocks z height mh khs height2 kh) width mw kws width2 kw in
  exists y, MaxPool2d x height khs kh height2 width kws kw width2 = Some y /\ shape y = [1] /\ (forall n, size y n = without z' [kh; kw] n)
    /\ forall e, Largest z' [kh; kw] (fun e => f (upd (upd e width (e width2 * kws + e kw)) height (e height2 * khs + e kh))) e (val y e [0]).
Proof. exact maxpool2d_is. Qed.
Print Assumptions C85_maxpool2d_partial.
Theorem C85_maxpool_refuted : exists x z f seq k kernel seq2 y, is x z f /\ MaxPool1d x seq k kernel seq2 = Some y /\ forall z' g, ~ is y z' g.
Proof. exact maxpool_wrong. Qed.
Print Assumptions C85_maxpool_refuted.
Theorem C85_maxpool_then_conv_refuted : forall X seq k kernel seq2 z f m, is X z f -> 0 < k -> z seq = Some (m * k) -> without z [seq] seq2 = None -> without z [seq] kernel = None -> kernel <> seq2 ->
  exists p, MaxPool1d X seq k kernel seq2 = Some p /\ forall W b chans k' kernel' seq3, size W kernel' = Some k' -> k' <> 1 -> Conv1d p W b chans k' kernel' seq2 seq3 = None.
Proof. exact maxpool_then_conv. Qed.
Print Assumptions C85_maxpool_then_conv_refuted.
Example C85_maxpool_example : is X4 (sizes [(0, 4)]) (fun e => INR (e 0)) /\ sizes [(0, 4)] 0 = Some (2 * 2) /\ exists y, MaxPool1d X4 0 2 1 2 = Some y /\ val y (fun _ => 1) [0] = 3%R.
Proof.
  split; [exact X4_is|]. split; [reflexivity|]. eexists. split; [reflexivity|]. cbn. unfold upd. cbn. unfold Rmax. destruct (Rle_dec _ _); lra.
Qed.

(** Broadcasting of further dimensions, from the right. *)
Theorem C85_broadcast : forall g a b u, zip g a b = Some u -> length (shape u) = Nat.max (length (shape a)) (length (shape b)) /\
  forall i, from_right (shape u) i = (if from_right (shape a) i =? 1 then from_right (shape b) i else from_right (shape a) i).
Proof. exact zip_shape. Qed.
Print Assumptions C85_broadcast.
Theorem C85_broadcasts : forall g a b, (exists u, zip g a b = Some u) <->
  agrees a b = true /\ forall i, from_right (shape a) i = from_right (shape b) i \/ from_right (shape a) i = 1 \/ from_right (shape b) i = 1.
Proof. exact zip_defined. Qed.
Print Assumptions C85_broadcasts.
Example C85_broadcast_example : exists u, zip Rplus {| dims := []; shape := [2; 1; 4]; val := fun _ _ => 1%R |} {| dims := []; shape := [3; 1]; val := fun _ _ => 2%R |} = Some u /\ shape u = [2; 3; 4].
Proof. eexists. split; reflexivity. Qed.
