(** Proofs about [torch_getitem]. *)
From Coq Require Import List Bool Arith ZArith Lia.
From Verif Require Import ArrModel ArrSpec ArrProofs TgetModel TgetSpec.
From Verif Require IdxModel.
Import ListNotations.

(** ** Places *)
Definition flat (l : list (option nat)) : list bool := flat_map (fun o => match o with None => [true] | Some w => repeat false w end) l.
Lemma lead_repeat w l : lead (repeat false w ++ l) = w + lead l.
Proof. induction w; cbn; auto. Qed.
Lemma lead_flat l : lead (flat l) = before l.
Proof. induction l as [|[w|] l IH]; cbn; [reflexivity| |reflexivity]. rewrite lead_repeat. unfold flat in IH. now rewrite IH. Qed.
Lemma up_to_none l : forallb is_some l = true -> up_to l = 0.
Proof. destruct l as [|[w|] l]; cbn; [reflexivity| |discriminate]. now intros ->. Qed.
Lemma flat_marks l : forallb negb (flat l) = forallb is_some l.
Proof.
  induction l as [|[w|] l IH]; cbn; [reflexivity| |reflexivity]. rewrite forallb_app. unfold flat in IH. rewrite IH.
  replace (forallb negb (repeat false w)) with true; [reflexivity|]. induction w; cbn; auto.
Qed.
Lemma block_flat l : forallb negb (block (flat l)) = Nat.eqb (up_to l) 0.
Proof.
  induction l as [|[w|] l IH]; cbn [flat flat_map app block up_to]; [reflexivity| |exact IH]. fold (flat l). destruct w as [|w].
  - cbn [repeat app]. rewrite IH. destruct (forallb is_some l) eqn:E; [|reflexivity]. now rewrite (up_to_none l E).
  - cbn [repeat app block]. change (false :: repeat false w ++ flat l) with (flat (Some (S w) :: l)). rewrite flat_marks. cbn [forallb is_some andb]. destruct (forallb is_some l); reflexivity.
Qed.
Lemma skip_repeat w (l : list bool) n : skipn (w + n) (repeat false w ++ l) = skipn n l.
Proof. induction w; cbn; auto. Qed.
Lemma contiguous_flat l : contiguous (flat l) = Nat.eqb (between l) 0.
Proof.
  unfold contiguous. induction l as [|[w|] l IH]; [reflexivity| |].
  - cbn [flat flat_map between]. fold (flat l). rewrite lead_repeat, skip_repeat. exact IH.
  - cbn [flat flat_map app between lead skipn block]. fold (flat l). apply block_flat.
Qed.
Lemma place_flat l : place (flat l) = goes l.
Proof. unfold place, goes. now rewrite contiguous_flat, lead_flat. Qed.

(** Fewer marks, between those there were *)
Definition finer (c s : option nat) : Prop := match c, s with None, None | None, Some 0 => True | Some w, Some w' => w = w' | _, _ => False end.
Lemma finer_marks lc ls : Forall2 finer lc ls -> forallb is_some ls = false -> forallb is_some lc = false.
Proof.
  induction 1 as [|[w|] [w'|] lc ls F _ IH]; cbn; try contradiction; auto.
Qed.
Lemma finer_up_to lc ls : Forall2 finer lc ls -> up_to ls <= up_to lc.
Proof.
  induction 1 as [|[w|] [w'|] lc ls F H IH]; cbn in *; try contradiction; auto.
  - subst w'. destruct (forallb is_some ls) eqn:E; [lia|]. rewrite (finer_marks _ _ H E). lia.
  - destruct w'; [|contradiction]. destruct (forallb is_some ls); lia.
Qed.
Lemma between_up_to l : between l <= up_to l.
Proof.
  induction l as [|[w|] l IH]; cbn; auto. destruct (forallb is_some l) eqn:E; [|lia]. rewrite (up_to_none l E) in IH. exact IH.
Qed.
Lemma finer_before lc ls : Forall2 finer lc ls -> forallb is_some ls = false -> up_to lc = 0 -> before ls = 0.
Proof.
  induction 1 as [|[w|] [w'|] lc ls F H IH]; cbn in *; intros M U; try contradiction; auto.
  - subst w'. rewrite (finer_marks _ _ H M) in U. rewrite IH; [lia|exact M|lia].
  - destruct w'; [|contradiction]. cbn. now apply IH.
Qed.
Lemma finer_goes lc ls : Forall2 finer lc ls -> forallb is_some ls = false -> between lc = 0 -> goes lc = goes ls.
Proof.
  intros H M B. assert (G : before ls = before lc /\ between ls = 0).
  { induction H as [|[w|] [w'|] lc ls F H IH]; cbn in *; try contradiction.
    - discriminate.
    - subst w'. destruct (IH M B). lia.
    - destruct w'; [|contradiction]. rewrite (finer_before _ _ H M B). split; [reflexivity|]. assert (A := between_up_to ls). assert (C := finer_up_to _ _ H). lia.
    - split; [reflexivity|]. assert (C := finer_up_to _ _ H). lia. }
  destruct G as [G1 G2]. unfold goes. rewrite B, G2. cbn. now rewrite G1.
Qed.

(** ** Positions *)
Lemma in_positions sh b : In b (positions sh) <-> within sh b.
Proof.
  unfold positions. rewrite in_map_iff. split.
  - intros [n [<- H]]. apply in_seq in H. apply unravel_within. lia.
  - intros W. exists (ravel sh b). split; [now apply unravel_ravel|]. apply in_seq. assert (H := ravel_lt _ _ W). lia.
Qed.

Section Keys.
Variable tens : nat -> index.
Definition conv (k : kelem) : option (arr Z) :=
  match k with KInt z => Some (Arr [] (fun _ => z)) | KName n => Some (numbers_of (tens n)) | _ => None end.
Lemma convert_simple : forall nsh nkey i, simple tens nkey -> length nkey = length nsh -> convert_all tens i nsh nkey = Ok (map conv nkey).
Proof.
  induction nsh as [|d nsh IH]; intros [|k nkey] i P L; cbn in L; try discriminate; [reflexivity|]. cbn [convert_all map].
  assert (C : convert tens i d k = Ok (conv k)).
  { assert (Q := P k (or_introl eq_refl)). destruct k as [| |z|a b c|n]; try reflexivity; [now rewrite Q|]. destruct Q as [t Q]. cbn. now rewrite Q. }
  rewrite C. cbn [bindr]. rewrite IH; [reflexivity| |lia]. intros x X. apply P. now right.
Qed.
Lemma axes_conv b : forall nsh nkey, simple tens nkey -> plain nkey -> length nkey = length nsh ->
  match index_axes (fun _ => 0) nsh (at_position tens b nkey) with
  | Some (s, g) => ranges nsh (map conv nkey) b = true /\ s = kept nsh (map conv nkey) /\ forall rest, g rest = source nsh (map conv nkey) b rest
  | None => ranges nsh (map conv nkey) b = false
  end.
Proof.
  induction nsh as [|d nsh IH]; intros [|k nkey] S P L; cbn in L; try discriminate; [cbn; auto|].
  assert (S' : simple tens nkey) by (intros x X; apply S; now right). assert (P' : plain nkey) by (intros x X; apply P; now right).
  injection L as L. specialize (IH nkey S' P' L). assert (Q := S k (or_introl eq_refl)). assert (U := P k (or_introl eq_refl)).
  assert (I : forall z, match pick (fun _ => 0) (KInt z) d with Some (Drop i) => in_range d z = true /\ i = wrap d z | Some _ => False | None => in_range d z = false end).
  { intros z. cbn [pick]. unfold in_range, wrap. destruct ((- Z.of_nat d <=? z)%Z && (z <? Z.of_nat d)%Z); auto. }
  unfold at_position in *. destruct k as [| |z|x y w|n]; try discriminate U; cbn [map index_axes conv kept source ranges].
  - specialize (I z). change (bat (Arr [] (fun _ : list nat => z)) b) with z.
    destruct (pick (fun _ => 0) (KInt z) d) as [[i|]|]; [|contradiction|].
    + destruct I as [I1 ->]. rewrite I1. cbn [andb]. destruct (index_axes _ nsh _) as [[s g]|]; [|exact IH]. destruct IH as (A & B & C). split; [assumption|]. split; [assumption|]. intros rest. now rewrite C.
    + now rewrite I.
  - rewrite Q. destruct (pick_all (fun _ => 0) d) as [f [F1 F2]]. rewrite F1. destruct (index_axes _ nsh _) as [[s g]|]; [|exact IH]. destruct IH as (A & B & C).
    split; [assumption|]. split; [now rewrite B|]. intros rest. now rewrite F2, C.
  - specialize (I (bat (numbers_of (tens n)) b)). destruct (pick (fun _ => 0) (KInt _) d) as [[i|]|]; [|contradiction|].
    + destruct I as [I1 ->]. rewrite I1. cbn [andb]. destruct (index_axes _ nsh _) as [[s g]|]; [|exact IH]. destruct IH as (A & B & C). split; [assumption|]. split; [assumption|]. intros rest. now rewrite C.
    + now rewrite I.
Qed.

(** ** What desugaring keeps *)
Lemma dwalk_case e k key sh nsh nkey : uses_axis k = true -> dwalk e (k :: key) sh = Some (nsh, nkey) ->
  exists d sh' nsh' nkey', sh = d :: sh' /\ nsh = d :: nsh' /\ nkey = k :: nkey' /\ dwalk e key sh' = Some (nsh', nkey').
Proof.
  intros U H. rewrite dwalk_plain in H by exact U. destruct sh as [|d sh]; [discriminate|]. destruct (dwalk e key sh) as [[s l]|] eqn:E; [|discriminate]. injection H as <- <-. now exists d, sh, s, l.
Qed.
Lemma dwalk_position b e : forall key sh nsh nkey, dwalk e key sh = Some (nsh, nkey) -> dwalk e (at_position tens b key) sh = Some (nsh, at_position tens b nkey).
Proof.
  induction key as [|k key IH]; intros sh nsh nkey H.
  - cbn in *. destruct sh; [|discriminate]. now injection H as <- <-.
  - destruct (kind_cases k) as [->|[->|U]].
    + cbn [dwalk at_position map] in *. destruct (dwalk e key sh) as [[s l]|] eqn:E; [|discriminate]. injection H as <- <-. unfold at_position in IH. now rewrite (IH _ _ _ E).
    + cbn [dwalk at_position map] in *. destruct (e <=? length sh); [|discriminate]. destruct (dwalk e key (skipn e sh)) as [[s l]|] eqn:E; [|discriminate]. injection H as <- <-.
      unfold at_position in *. rewrite (IH _ _ _ E), map_app. f_equal. f_equal. f_equal. clear. induction e; cbn; [reflexivity|now f_equal].
    + destruct (dwalk_case _ _ _ _ _ _ U H) as (d & sh' & nsh' & nkey' & -> & -> & -> & H'). apply IH in H'.
      unfold at_position in *. cbn [map]. destruct k; try discriminate U; cbn [dwalk]; rewrite H'; reflexivity.
Qed.
Lemma dwalk_simple e : forall key sh nsh nkey, simple tens key -> dwalk e key sh = Some (nsh, nkey) -> simple tens nkey.
Proof.
  induction key as [|k key IH]; intros sh nsh nkey P H.
  - cbn in H. destruct sh; [|discriminate]. injection H as <- <-. intros x [].
  - assert (P' : simple tens key) by (intros x X; apply P; now right). destruct (kind_cases k) as [->|[->|U]].
    + cbn [dwalk] in H. destruct (dwalk e key sh) as [[s l]|] eqn:E; [|discriminate]. injection H as <- <-. intros x [<-|X]; [reflexivity|exact (IH _ _ _ P' E x X)].
    + cbn [dwalk] in H. destruct (e <=? length sh); [|discriminate]. destruct (dwalk e key (skipn e sh)) as [[s l]|] eqn:E; [|discriminate]. injection H as <- <-.
      intros x X. apply in_app_or in X. destruct X as [X|X]; [apply repeat_spec in X; now subst x|exact (IH _ _ _ P' E x X)].
    + destruct (dwalk_case _ _ _ _ _ _ U H) as (d & sh' & nsh' & nkey' & -> & -> & -> & H'). intros x [<-|X]; [apply P; now left|exact (IH _ _ _ P' H' x X)].
Qed.
Lemma dwalk_tensors e : forall key sh nsh nkey, dwalk e key sh = Some (nsh, nkey) -> tensors tens nkey = tensors tens key.
Proof.
  induction key as [|k key IH]; intros sh nsh nkey H.
  - cbn in H. destruct sh; [|discriminate]. now injection H as <- <-.
  - destruct (kind_cases k) as [->|[->|U]].
    + cbn [dwalk] in H. destruct (dwalk e key sh) as [[s l]|] eqn:E; [|discriminate]. injection H as <- <-. exact (IH _ _ _ E).
    + cbn [dwalk] in H. destruct (e <=? length sh); [|discriminate]. destruct (dwalk e key (skipn e sh)) as [[s l]|] eqn:E; [|discriminate]. injection H as <- <-.
      unfold tensors in *. rewrite flat_map_app. rewrite (IH _ _ _ E). replace (flat_map _ (repeat KAll e)) with (@nil (arr Z)); [reflexivity|]. clear. induction e; cbn; auto.
    + destruct (dwalk_case _ _ _ _ _ _ U H) as (d & sh' & nsh' & nkey' & -> & -> & -> & H'). unfold tensors in *. cbn [flat_map]. now rewrite (IH _ _ _ H').
Qed.
Definition cpart (e : nat) (k : kelem) : option nat := match k with KInt _ | KName _ => None | _ => part tens e k end.
Lemma dwalk_marks e : forall key sh nsh nkey, simple tens key -> dwalk e key sh = Some (nsh, nkey) ->
  map is_some (map conv nkey) = flat (map (cpart e) key).
Proof.
  induction key as [|k key IH]; intros sh nsh nkey P H.
  - cbn in H. destruct sh; [|discriminate]. now injection H as <- <-.
  - assert (P' : simple tens key) by (intros x X; apply P; now right). destruct (kind_cases k) as [->|[->|U]].
    + cbn [dwalk] in H. destruct (dwalk e key sh) as [[s l]|] eqn:E; [|discriminate]. injection H as <- <-. cbn. now rewrite (IH _ _ _ P' E).
    + cbn [dwalk] in H. destruct (e <=? length sh); [|discriminate]. destruct (dwalk e key (skipn e sh)) as [[s l]|] eqn:E; [|discriminate]. injection H as <- <-.
      rewrite !map_app, (IH _ _ _ P' E). cbn [map cpart part flat flat_map]. f_equal. clear. induction e; cbn; [reflexivity|now f_equal].
    + destruct (dwalk_case _ _ _ _ _ _ U H) as (d & sh' & nsh' & nkey' & -> & -> & -> & H'). cbn [map]. rewrite (IH _ _ _ P' H').
      assert (Q := P k (or_introl eq_refl)). destruct k; try discriminate U; reflexivity.
Qed.
Lemma bshape_nil b : IdxModel.bshape [] b = Some b.
Proof. unfold IdxModel.bshape. cbn. now rewrite rev_involutive. Qed.
Lemma bshape_opt o : match o with Some b => IdxModel.bshape [] b | None => None end = o.
Proof. destruct o; [apply bshape_nil|reflexivity]. Qed.
Lemma shapes_conv nkey : bshapes (map shape (somes (map conv nkey))) = bshapes (map shape (tensors tens nkey)).
Proof.
  unfold somes, tensors in *. induction nkey as [|k nkey IH]; [reflexivity|]. destruct k as [| |z|x y w|n]; cbn [map conv flat_map app]; try exact IH.
  - cbn [map shape bshapes]. rewrite IH. apply bshape_opt.
  - cbn [map bshapes]. now rewrite IH.
Qed.

(** ** Indexing *)
Lemma kept_length : forall nsh keys, length keys = length nsh -> length (kept nsh keys) = length (filter negb (map is_some keys)).
Proof. induction nsh as [|d nsh IH]; intros [|[t|] keys] L; cbn in *; try discriminate; auto. Qed.
Lemma lead_le l : lead l <= length (filter negb l).
Proof. induction l as [|[|] l IH]; cbn; lia. Qed.
Lemma place_le l : place l <= length (filter negb l).
Proof. unfold place. destruct (contiguous l); [apply lead_le|lia]. Qed.
Lemma aten_value {V} (a : arr V) keys : length keys = length (shape a) ->
  match aten_index a keys with
  | Ok r => exists B, bshapes (map shape (somes keys)) = Some B /\ (forall b, within B b -> ranges (shape a) keys b = true) /\
      let p := place (map is_some keys) in let s := kept (shape a) keys in
      shape r = firstn p s ++ B ++ skipn p s /\
      forall b idx, within B b -> within s idx -> at_ r (firstn p idx ++ b ++ skipn p idx) = at_ a (source (shape a) keys b idx)
  | _ => forall B, bshapes (map shape (somes keys)) = Some B -> exists b, within B b /\ ranges (shape a) keys b = false
  end.
Proof.
  intros L. unfold aten_index. rewrite L, Nat.ltb_irrefl, Nat.sub_diag. cbn [repeat]. rewrite app_nil_r.
  destruct (bshapes _) as [B|]; [|discriminate]. destruct (forallb (ranges (shape a) keys) (positions B)) eqn:E.
  - exists B. split; [reflexivity|]. rewrite forallb_forall in E. split; [intros b W; apply E; now apply in_positions|]. cbn [shape at_]. split; [reflexivity|].
    intros b idx W1 W2. assert (L1 := within_length _ _ W1). assert (L2 := within_length _ _ W2). rewrite kept_length in L2 by exact L. assert (P := place_le (map is_some keys)). set (p := place (map is_some keys)) in *.
    assert (F : length (firstn p idx) = p) by (apply firstn_length_le; lia).
    assert (E1 : skipn p (firstn p idx ++ b ++ skipn p idx) = b ++ skipn p idx).
    { rewrite skipn_app, F, Nat.sub_diag. rewrite skipn_all2 by lia. reflexivity. }
    rewrite E1, firstn_app, <- L1, L1, Nat.sub_diag, firstn_all. cbn [firstn]. rewrite app_nil_r.
    rewrite firstn_app, F, Nat.sub_diag. cbn [firstn]. rewrite app_nil_r, firstn_firstn, Nat.min_id.
    assert (E2 : skipn (p + length b) (firstn p idx ++ b ++ skipn p idx) = skipn p idx).
    { rewrite skipn_app, F. rewrite skipn_all2 by lia. cbn [app]. replace (p + length b - p) with (length b) by lia. rewrite skipn_app, Nat.sub_diag, skipn_all. reflexivity. }
    rewrite E2, firstn_skipn. reflexivity.
  - intros B' HB. injection HB as <-. assert (N : ~ Forall (fun b => ranges (shape a) keys b = true) (positions B)).
    { intros N. rewrite Forall_forall in N. rewrite (proj2 (forallb_forall _ _) N) in E. discriminate. }
    apply neg_Forall_Exists_neg in N; [|intros b; decide equality]. apply Exists_exists in N. destruct N as [b [I N]]. exists b. split; [now apply in_positions|]. now destruct (ranges (shape a) keys b).
Qed.

Lemma position_counts b key : ellipses (at_position tens b key) = ellipses key /\ used (at_position tens b key) = used key /\ existsb is_ell (at_position tens b key) = existsb is_ell key.
Proof.
  induction key as [|k key (I1 & I2 & I3)]; [auto|]. unfold at_position in *. cbn [map]. rewrite !ellipses_cons, !used_cons, I1, I2. cbn [existsb]. rewrite I3. now destruct k.
Qed.
Lemma full_position b key : full (at_position tens b key) = at_position tens b (full key).
Proof. unfold full. destruct (position_counts b key) as (_ & _ & ->). destruct (existsb is_ell key); [reflexivity|]. unfold at_position. now rewrite map_app. Qed.
Lemma simple_full key : simple tens key -> simple tens (full key).
Proof. intros P. unfold full. destruct (existsb is_ell key); [exact P|]. intros k K. apply in_app_or in K. destruct K as [K|[<-|[]]]; [now apply P|exact Logic.I]. Qed.
Lemma tensors_full key : tensors tens (full key) = tensors tens key.
Proof. unfold full. destruct (existsb is_ell key); [reflexivity|]. unfold tensors. rewrite flat_map_app. apply app_nil_r. Qed.

(** The place chosen by the code *)
Lemma scalar_shapes key : scalars tens key -> bshapes (map shape (tensors tens key)) = Some [].
Proof.
  induction key as [|k key IH]; intros S; [reflexivity|]. assert (S' : scalars tens key) by (intros n N; apply S; now right). specialize (IH S').
  destruct k as [| |z|x y w|n]; try exact IH. unfold tensors in *. cbn [flat_map app map bshapes]. rewrite IH. assert (R := S n (or_introl eq_refl)). unfold rank in R.
  destruct (shape (numbers_of (tens n))); [apply bshape_nil|discriminate].
Qed.
Lemma settled_place {V} (x : arr V) key B : settled tens x key -> bshapes (map shape (tensors tens key)) = Some B ->
  B = [] \/ goes (map (cpart (length (shape x) - used key)) (full key)) = goes (parts tens x key).
Proof.
  intros [S|[S|S]] E.
  - left. rewrite (scalar_shapes key S) in E. congruence.
  - right. unfold parts. change (whole_key key) with (full key). f_equal. apply map_ext_in. intros k K. unfold full in K.
    assert (C : In k key \/ k = KEll) by (destruct (existsb is_ell key); [now left|]; apply in_app_or in K; destruct K as [K|[K|[]]]; auto).
    destruct C as [C| ->]; [|reflexivity]. specialize (S k C). destruct k as [| |z|a b c|n]; try reflexivity; [contradiction|]. cbn. destruct (Nat.eqb_spec (rank tens n) 0); [contradiction|reflexivity].
  - destruct (forallb is_some (parts tens x key)) eqn:M.
    + left. assert (Sc : scalars tens key).
      { intros n N. rewrite forallb_forall in M. assert (I : In (part tens (length (shape x) - used key) (KName n)) (parts tens x key)).
        { unfold parts. apply in_map. unfold whole_key. destruct (existsb is_ell key); [exact N|apply in_or_app; now left]. }
        specialize (M _ I). cbn in M. destruct (Nat.eqb_spec (rank tens n) 0); [assumption|discriminate]. }
      rewrite (scalar_shapes key Sc) in E. congruence.
    + right. unfold together in S. apply finer_goes; [|exact M|exact S]. unfold parts. change (whole_key key) with (full key). clear. induction (full key) as [|k l IH]; cbn [map]; [constructor|]. constructor; [|exact IH].
      destruct k as [| |z|a b c|n]; cbn; auto. now destruct (Nat.eqb (rank tens n) 0).
Qed.

(** From an array with the elements of [x] in the desugared shape *)
Lemma core {V} (x a : arr V) key nsh nkey : let e := length (shape x) - used key in
  ellipses key <= 1 -> used key <= length (shape x) -> dwalk e (full key) (shape x) = Some (nsh, nkey) -> simple tens key -> shape a = nsh ->
  (forall i j, within (shape x) i -> within nsh j -> ravel nsh j = ravel (shape x) i -> at_ a j = at_ x i) ->
  match aten_index a (map conv nkey) with
  | Ok r => settled tens x key -> indexed tens x key r
  | _ => ~ fits tens x key
  end.
Proof.
  cbn zeta. set (e := length (shape x) - used key). intros He Hu D P Sa Hat.
  assert (Pn := dwalk_simple _ _ _ _ _ (simple_full key P) D). destruct (walk_dwalk (fun _ => 0) _ _ _ _ _ D) as (_ & Ln & Pl & _).
  assert (La : length (map conv nkey) = length (shape a)) by (rewrite map_length, Sa; exact Ln).
  assert (Sh : bshapes (map shape (somes (map conv nkey))) = bshapes (map shape (tensors tens key))).
  { rewrite shapes_conv, (dwalk_tensors _ _ _ _ _ D), tensors_full. reflexivity. }
  assert (At : forall b, match index_full_arr (fun _ => 0) x (at_position tens b key) with
     | Some y => ranges nsh (map conv nkey) b = true /\ shape y = kept nsh (map conv nkey) /\ forall idx, within (shape y) idx -> at_ y idx = at_ a (source nsh (map conv nkey) b idx)
     | None => ranges nsh (map conv nkey) b = false end).
  { intros b. unfold index_full_arr, index_full. destruct (position_counts b key) as (C1 & C2 & C3). rewrite C1, C2.
    rewrite (proj2 (Nat.ltb_ge 1 _)) by exact He. rewrite (proj2 (Nat.ltb_ge (length (shape x)) _)) by exact Hu. cbn [orb]. fold e. fold (full (at_position tens b key)). rewrite full_position.
    assert (Db := dwalk_position b _ _ _ _ _ D). destruct (walk_dwalk (fun _ => 0) _ _ _ _ _ Db) as (_ & _ & _ & W). assert (X := axes_conv b nsh nkey Pn Pl Ln).
    destruct (walk (fun _ => 0) e (at_position tens b (full key)) (shape x)) as [[s g]|], (index_axes (fun _ => 0) nsh (at_position tens b nkey)) as [[s' g']|]; try contradiction; [|exact X].
    destruct W as [-> W], X as (X1 & X2 & X3). split; [exact X1|]. cbn [shape at_]. split; [exact X2|]. intros idx I. destruct (W idx I) as (A & B & C). rewrite <- X3. symmetry. now apply Hat. }
  assert (Av := aten_value a (map conv nkey) La). rewrite Sh, Sa in Av. destruct (aten_index a (map conv nkey)) as [r| | | | |].
  - intros St. destruct Av as (B & EB & R & Sr & Er). exists B, (kept nsh (map conv nkey)). split; [exact EB|]. cbn zeta in *.
    rewrite (dwalk_marks _ _ _ _ _ (simple_full key P) D), place_flat in Sr, Er. fold e in Sr, Er.
    assert (G : B = [] \/ goes (map (cpart e) (full key)) = goes (parts tens x key)) by (exact (settled_place x key B St EB)).
    split; [destruct G as [-> | G]; [rewrite Sr; cbn [app]; now rewrite !firstn_skipn|now rewrite Sr, G]|].
    intros b Wb. specialize (At b). specialize (R b Wb). destruct (index_full_arr (fun _ => 0) x (at_position tens b key)) as [y|]; [|congruence]. destruct At as (_ & A2 & A3).
    exists y. split; [reflexivity|]. split; [exact A2|]. intros idx I. rewrite A3 by (now rewrite A2). rewrite <- (Er b idx Wb I).
    destruct G as [-> | G]; [|now rewrite G]. inversion Wb. cbn [app]. now rewrite !firstn_skipn.
  - intros (_ & _ & B & EB & F); destruct (Av B EB) as (b & Wb & N); specialize (At b); specialize (F b Wb); destruct (index_full_arr (fun _ => 0) x (at_position tens b key)); [destruct At; congruence|congruence].
  - intros (_ & _ & B & EB & F); destruct (Av B EB) as (b & Wb & N); specialize (At b); specialize (F b Wb); destruct (index_full_arr (fun _ => 0) x (at_position tens b key)); [destruct At; congruence|congruence].
  - intros (_ & _ & B & EB & F); destruct (Av B EB) as (b & Wb & N); specialize (At b); specialize (F b Wb); destruct (index_full_arr (fun _ => 0) x (at_position tens b key)); [destruct At; congruence|congruence].
  - intros (_ & _ & B & EB & F); destruct (Av B EB) as (b & Wb & N); specialize (At b); specialize (F b Wb); destruct (index_full_arr (fun _ => 0) x (at_position tens b key)); [destruct At; congruence|congruence].
  - intros (_ & _ & B & EB & F); destruct (Av B EB) as (b & Wb & N); specialize (At b); specialize (F b Wb); destruct (index_full_arr (fun _ => 0) x (at_position tens b key)); [destruct At; congruence|congruence].
Qed.
Lemma reshaped {V} (x : arr V) nsh i j : within (shape x) i -> within nsh j -> ravel nsh j = ravel (shape x) i -> at_ (reshape x nsh) j = at_ x i.
Proof. intros W _ E. exact (reshape_at x nsh j i W E). Qed.
Lemma all_tensors {V} (x : arr V) key : forallb (is_tensor tens) key = true ->
  simple tens key /\ ellipses key = 0 /\ used key = length key /\ full key = key ++ [KEll] /\
  (length key <= length (shape x) -> dwalk (length (shape x) - length key) (key ++ [KEll]) (shape x) = Some (shape x, key ++ repeat KAll (length (shape x) - length key))) /\
  map (fun k => match k with KName n => Some (numbers_of (tens n)) | _ => None end) key = map conv key.
Proof.
  intros H. rewrite forallb_forall in H.
  assert (N : forall k, In k key -> exists n t, k = KName n /\ tens n = Tensor t).
  { intros k K. specialize (H k K). destruct k as [| |z|a b c|n]; try discriminate. cbn in H. destruct (tens n) as [t|] eqn:E; [|discriminate]. now exists n, t. }
  clear H. split; [intros k K; destruct (N k K) as (n & t & -> & E); now exists t|].
  assert (F : ellipses key = 0 /\ used key = length key /\ existsb is_ell key = false).
  { clear x. induction key as [|k key IH]; [auto|]. destruct IH as (A & B & C); [intros k' K; apply N; now right|]. destruct (N k (or_introl eq_refl)) as (n & t & -> & E). rewrite ellipses_cons, used_cons, A, B. cbn. now rewrite C. }
  destruct F as (A & B & C). split; [exact A|]. split; [exact B|]. unfold full. rewrite C. split; [reflexivity|]. split.
  - clear A B C. generalize (shape x) as sh. clear x. induction key as [|k key IH]; intros sh L.
    + cbn [app dwalk length]. rewrite Nat.sub_0_r, Nat.leb_refl, skipn_all, firstn_all, !app_nil_r. reflexivity.
    + destruct sh as [|d sh]; [cbn in L; lia|]. cbn [length] in L |- *. destruct (N k (or_introl eq_refl)) as (n & t & -> & E). cbn [app dwalk].
      replace (S (length sh) - S (length key)) with (length sh - length key) by lia. rewrite IH; [reflexivity| |lia]. intros k' K. apply N. now right.
  - apply map_ext_in. intros k K. now destruct (N k K) as (n & t & -> & E).
Qed.
Lemma bad_counts {V} (x : arr V) key : 1 < ellipses key \/ length (shape x) < used key -> ~ fits tens x key.
Proof. intros H (A & B & _). lia. Qed.
Theorem getitem_cases {V} (lib : arr V -> list kelem -> res (arr V)) (x : arr V) key : existsb (is_tensor tens) key = true -> simple tens key ->
  match torch_getitem tens lib x key with
  | Ok r => settled tens x key -> indexed tens x key r
  | _ => ~ fits tens x key
  end.
Proof.
  intros T P. unfold torch_getitem. destruct key as [|k key]; [discriminate|]. remember (k :: key) as K. clear HeqK k key. rewrite T. cbn [negb]. destruct (forallb (is_tensor tens) K) eqn:A.
  - destruct (all_tensors x K A) as (_ & A1 & A2 & A3 & A4 & A5). rewrite A5. destruct (Nat.le_gt_cases (length K) (length (shape x))) as [L|L].
    + assert (D := core x x K (shape x) (K ++ repeat KAll (length (shape x) - length K))). cbn zeta in D. rewrite A2, A3 in D. specialize (D ltac:(lia) L (A4 L) P eq_refl).
      assert (E : aten_index x (map conv (K ++ repeat KAll (length (shape x) - length K))) = aten_index x (map conv K)).
      { unfold aten_index. rewrite map_app, app_length, !map_length, repeat_length. replace (length K + (length (shape x) - length K)) with (length (shape x)) by lia.
        rewrite Nat.ltb_irrefl. rewrite (proj2 (Nat.ltb_ge (length (shape x)) (length K)) L). rewrite Nat.sub_diag. cbn [repeat]. rewrite app_nil_r.
        replace (map conv (repeat KAll (length (shape x) - length K))) with (repeat (@None (arr Z)) (length (shape x) - length K)); [reflexivity|]. generalize (length (shape x) - length K) as n. clear. induction n; cbn; [reflexivity|now f_equal]. }
      rewrite <- E. apply D. intros i j Wi Wj R. f_equal. rewrite <- (unravel_ravel _ _ Wi), <- (unravel_ravel _ _ Wj). now f_equal.
    + unfold aten_index. rewrite map_length. rewrite (proj2 (Nat.ltb_lt _ _) L). apply bad_counts. right. now rewrite A2.
  - clear A. destruct (Nat.le_gt_cases (ellipses K) 1) as [He|He]; [destruct (Nat.le_gt_cases (used K) (length (shape x))) as [Hu|Hu]|].
    + destruct (desugar_ok _ _ He Hu) as (nsh & nkey & E & D). rewrite E. cbn [bindr fst snd]. destruct (walk_dwalk (fun _ => 0) _ _ _ _ _ D) as (_ & Ln & _ & _).
      rewrite (convert_simple nsh nkey 0 (dwalk_simple _ _ _ _ _ (simple_full K P) D) Ln). cbn [bindr].
      exact (core x (reshape x nsh) K nsh nkey He Hu D P eq_refl (reshaped x nsh)).
    + destruct (desugar_rejects (shape x) K (or_intror Hu)) as [-> | ->]; cbn [bindr]; apply bad_counts; now right.
    + destruct (desugar_rejects (shape x) K (or_introl He)) as [-> | ->]; cbn [bindr]; apply bad_counts; now left.
Qed.
Theorem getitem_indexed {V} (lib : arr V -> list kelem -> res (arr V)) (x r : arr V) key : existsb (is_tensor tens) key = true -> simple tens key -> settled tens x key ->
  torch_getitem tens lib x key = Ok r -> indexed tens x key r.
Proof. intros T P S E. assert (H := getitem_cases lib x key T P). rewrite E in H. now apply H. Qed.
Theorem getitem_fits {V} (lib : arr V -> list kelem -> res (arr V)) (x : arr V) key : existsb (is_tensor tens) key = true -> simple tens key -> fits tens x key ->
  exists r, torch_getitem tens lib x key = Ok r.
Proof. intros T P F. assert (H := getitem_cases lib x key T P). destruct (torch_getitem tens lib x key) as [r| | | | |]; [now exists r| | | | |]; contradiction. Qed.
Lemma within_nil_inv b : within [] b -> b = [].
Proof. intros H. now inversion H. Qed.
(** Tensors without axes *)
Lemma indexed_scalars {V} (lib : arr V -> list kelem -> res (arr V)) (x : arr V) key : existsb (is_tensor tens) key = true -> simple tens key -> scalars tens key ->
  match torch_getitem tens lib x key with
  | Ok r => match index_full_arr (fun _ => 0) x (at_position tens [] key) with Some y => same_arr r y | None => False end
  | _ => index_full_arr (fun _ => 0) x (at_position tens [] key) = None
  end.
Proof.
  intros T P S. assert (H := getitem_cases lib x key T P). assert (B := scalar_shapes key S).
  assert (N : ~ fits tens x key -> index_full_arr (fun _ => 0) x (at_position tens [] key) = None).
  { intros F. destruct (index_full_arr (fun _ => 0) x (at_position tens [] key)) as [y|] eqn:E; [|reflexivity]. exfalso. apply F.
    unfold index_full_arr, index_full in E. destruct (position_counts [] key) as (C1 & C2 & _). rewrite C1, C2 in E.
    destruct (1 <? ellipses key) eqn:E1; [discriminate|]. destruct (length (shape x) <? used key) eqn:E2; [discriminate|]. apply Nat.ltb_ge in E1. apply Nat.ltb_ge in E2.
    split; [exact E1|]. split; [exact E2|]. exists []. split; [exact B|]. intros b W. apply within_nil_inv in W. subst b. unfold index_full_arr, index_full. rewrite C1, C2.
    rewrite (proj2 (Nat.ltb_ge _ _) E1), (proj2 (Nat.ltb_ge _ _) E2). cbn [orb] in E |- *. destruct (walk _ _ _ _) as [[s g]|]; discriminate. }
  destruct (torch_getitem tens lib x key) as [r'| | | | |]; try exact (N H). specialize (H (or_introl S)). destruct H as (B' & s & EB & Sr & Er). rewrite B in EB. injection EB as <-.
  destruct (Er [] within_nil) as (y & -> & Sy & Ey). cbn [app] in Sr, Ey. rewrite firstn_skipn in Sr. split; [congruence|]. intros idx W. rewrite Sr in W. specialize (Ey idx W). now rewrite firstn_skipn in Ey.
Qed.
End Keys.

(** ** Named dimensions *)
Definition scalar (env : nat -> nat) (n : nat) : index := Tensor (Arr [] (fun _ => Z.of_nat (env n))).
Lemma pick_scalar env n d : pick (fun _ => 0) (KInt (Z.of_nat (env n))) d = pick env (KName n) d.
Proof.
  cbn [pick]. destruct (env n <? d) eqn:E.
  - apply Nat.ltb_lt in E. replace ((- Z.of_nat d <=? Z.of_nat (env n))%Z && (Z.of_nat (env n) <? Z.of_nat d)%Z) with true by (symmetry; apply andb_true_intro; split; [apply Z.leb_le|apply Z.ltb_lt]; lia).
    replace (Z.of_nat (env n) <? 0)%Z with false by (symmetry; apply Z.ltb_ge; lia). now rewrite Nat2Z.id.
  - apply Nat.ltb_ge in E. replace (Z.of_nat (env n) <? Z.of_nat d)%Z with false by (symmetry; apply Z.ltb_ge; lia). now rewrite andb_false_r.
Qed.
Lemma walk_scalar env e : forall key sh, walk (fun _ => 0) e (at_position (scalar env) [] key) sh = walk env e key sh.
Proof.
  induction key as [|k key IH]; intros sh; [reflexivity|]. unfold at_position in *. destruct k as [| |z|a b c|n]; cbn [map walk].
  - now rewrite IH.
  - now rewrite IH.
  - destruct sh as [|d sh]; [reflexivity|]. now rewrite IH.
  - destruct sh as [|d sh]; [reflexivity|]. now rewrite IH.
  - destruct sh as [|d sh]; [reflexivity|]. change (bat (numbers_of (scalar env n)) []) with (Z.of_nat (env n)). now rewrite pick_scalar, IH.
Qed.
Theorem getitem_named {V} (lib : arr V -> list kelem -> res (arr V)) (env : nat -> nat) (x : arr V) key :
  existsb is_name key = true -> (forall a b c, In (KSlice a b c) key -> KSlice a b c = KAll) ->
  match torch_getitem (scalar env) lib x key with
  | Ok r => same (Some r) (index_full_arr env x key)
  | _ => index_full_arr env x key = None
  end.
Proof.
  intros N W. assert (T : existsb (is_tensor (scalar env)) key = true).
  { apply existsb_exists in N. destruct N as [k [K N]]. apply existsb_exists. exists k. split; [exact K|]. now destruct k. }
  assert (P : simple (scalar env) key).
  { intros k K. destruct k as [| |z|a b c|n]; try exact Logic.I; [now apply W|eexists; reflexivity]. }
  assert (S : scalars (scalar env) key) by (intros n _; reflexivity).
  assert (H := indexed_scalars (scalar env) lib x key T P S).
  assert (E : index_full_arr (fun _ => 0) x (at_position (scalar env) [] key) = index_full_arr env x key).
  { unfold index_full_arr, index_full. destruct (position_counts (scalar env) [] key) as (C1 & C2 & C3). rewrite C1, C2. fold (full (at_position (scalar env) [] key)). fold (full key). now rewrite full_position, walk_scalar. }
  rewrite E in H. destruct (torch_getitem (scalar env) lib x key); try exact H.
Qed.

(** ** What to compute for a counterexample *)
Lemma indexed_at tens {V} (x r : arr V) key B b : bshapes (map shape (tensors tens key)) = Some B -> within B b -> indexed tens x key r ->
  match index_full_arr (fun _ => 0) x (at_position tens b key) with
  | Some y => let p := goes (parts tens x key) in shape r = firstn p (shape y) ++ B ++ skipn p (shape y) /\
              forall idx, within (shape y) idx -> at_ r (firstn p idx ++ b ++ skipn p idx) = at_ y idx
  | None => False
  end.
Proof. intros E W (B' & s & E' & Sr & Er). rewrite E in E'. injection E' as <-. destruct (Er b W) as (y & -> & <- & Q). cbn zeta. split; [exact Sr|exact Q]. Qed.
Lemma wrong_shape tens {V} (lib : arr V -> list kelem -> res (arr V)) (x : arr V) key B b sh : bshapes (map shape (tensors tens key)) = Some B -> within B b ->
  match torch_getitem tens lib x key with Ok r => shape r = sh | _ => False end ->
  match index_full_arr (fun _ => 0) x (at_position tens b key) with
  | Some y => let p := goes (parts tens x key) in sh <> firstn p (shape y) ++ B ++ skipn p (shape y)
  | None => True
  end ->
  exists r, torch_getitem tens lib x key = Ok r /\ shape r = sh /\ ~ indexed tens x key r.
Proof.
  intros E W H1 H2. destruct (torch_getitem tens lib x key) as [r| | | | |]; try contradiction. exists r. split; [reflexivity|]. split; [exact H1|].
  intros I. assert (I' := indexed_at tens x r key B b E W I). destruct (index_full_arr (fun _ => 0) x (at_position tens b key)) as [y|]; [|exact I']. apply H2. rewrite <- H1. exact (proj1 I').
Qed.
Lemma ok_some {V} (lib : arr V -> list kelem -> res (arr V)) tens x key (P : arr V -> Prop) :
  match torch_getitem tens lib x key with Ok r => P r | _ => False end -> exists r, torch_getitem tens lib x key = Ok r /\ P r.
Proof. destruct (torch_getitem tens lib x key) as [r| | | | |]; try contradiction. intros H. now exists r. Qed.
