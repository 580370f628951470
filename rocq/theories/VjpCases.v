(** Proofs about [vjp]: cotangents that are accepted, and cases where it is wrong. *)
From Coq Require Import List Bool Arith ZArith Lia.
From Verif Require Import ArrModel ArrSpec ArrNames ArrBind NopModel NopSpec FunModel FunSpec FunProofs FunTrans FunExpr VjpModel VjpSpec VjpProofs VjpLaws VjpExpr.
Import ListNotations.

Section Vjp.
Variable V : Type.
Variables (zero : V) (add mul : V -> V -> V).
Variable D : V -> (V -> V) -> V.
Notation bindt := (@bind_dims_torch V).

Lemma vjp_accepts func primals r bk cts : nice V func -> Forall (good V) primals -> Forall (inhabited V) primals -> vjp V zero add mul D func primals = Ok (r, bk) -> Forall (inhabited V) (leaves r) ->
  is_node cts = is_node r -> Forall2 (alike V) (leaves r) (leaves cts) -> exists gs, bk cts = Ok gs.
Proof.
  intros N G I H Ir En A. destruct (vjp_inv V zero add mul D func primals r bk G I H) as (ms & ys & ws & outs & S & Er & Ef & Et & ->).
  unfold tmap in Et. destruct (rmap (unpacked V) (leaves r)) as [os| | | | |] eqn:Eo; try discriminate Et. cbn [bindr] in Et. injection Et as <-.
  pose proof (strip_prefix V primals ms ys G S) as P. pose proof (repack_good V ms ys ws P Er) as Gw. pose proof (nice_good V func N ws r Gw Ef) as Gr.
  destruct (unpacked_all V (leaves r) os Gr Ir Eo) as (mr & So). pose proof (alike_goods V _ _ A Gr) as Gc.
  destruct (strip_ext V (leaves r) (leaves cts) mr os A (goods_regular V _ Gr) (goods_regular V _ Gc) So) as (cs & Sc & Sh & _).
  unfold vjpfunc, tmap. rewrite (strip_unpacked V _ _ _ Sc). cbn [bindr is_node leaves]. rewrite En, Bool.eqb_reflx. unfold torch_vjp.
  assert (Ew : wrapped V func (map (map fst) ms) ys = Some os) by (unfold wrapped, wrapper; rewrite Er; cbn [bindr]; rewrite Ef; cbn [bindr]; unfold tmap; rewrite Eo; reflexivity).
  rewrite Ew. unfold VjpModel.same_shapes. assert (Es : map shape os = map shape cs) by (clear -Sh; induction Sh as [|a b os cs E Sh IH]; [reflexivity|]; cbn [map]; rewrite E, IH; reflexivity).
  destruct (list_eq_dec (list_eq_dec Nat.eq_dec) (map shape os) (map shape cs)) as [_|X]; [|destruct (X Es)].
  set (F := wrapped V func (map (map fst) ms)). assert (Q : forall s l, Forall2 same_shape l (map (fun kx => pullback V zero add mul D F ys cs (fst kx) (snd kx)) (combine (seq s (length l)) l))).
  { intros s l. revert s. induction l as [|a l IH]; intros s; cbn [length seq combine map]; constructor; [reflexivity|apply IH]. }
  destruct (repack_like V (map (map fst) ms) ys _ ws (Q 0 ys) Er) as (us & Eu & _). exists us. exact Eu.
Qed.

Lemma aux_never func primals x : vjp_aux V func primals <> Ok x.
Proof.
  unfold vjp_aux. destruct (rmap (unpack V) primals) as [ups| | | | |]; try discriminate. cbn [bindr]. destruct (wrapper V func (map snd ups) (map fst ups)); discriminate.
Qed.
Lemma sizes_nodup : forall (v : val V) m m', NoDup (map fst m) -> sizes_val V v m = Ok m' -> NoDup (map fst m').
Proof.
  fix IH 1. intros [a|a dims|n|f i vs|v key] m m' N E; cbn [sizes_val] in E.
  - injection E as <-. exact N.
  - pose proof (add_names_spec (shape a) dims m) as S. rewrite E in S. apply S. exact N.
  - injection E as <-. exact N.
  - revert m m' N E. induction vs as [|v vs IHs]; intros m m' N E; [injection E as <-; exact N|]. destruct (sizes_val V v m) as [m1| | | | |] eqn:E1; try discriminate E. cbn [bindr] in E.
    apply (IHs m1 m' (IH v m m1 N E1) E).
  - apply (IH v m m' N E).
Qed.
Lemma terms_refused func v m rest : match v with VArr _ _ | VGet _ _ _ => False | _ => True end -> sizes_val V v [] = Ok m -> vjp V zero add mul D func (v :: rest) = RuntimeError.
Proof.
  intros H E. pose proof (sizes_nodup v [] m (NoDup_nil _) E) as N. unfold vjp. cbn [rmap]. unfold unpack. rewrite E. cbn [bindr].
  assert (X : to_tval V v = TLazy) by (destruct v; try contradiction; reflexivity). rewrite X. unfold bind_dims_torch. rewrite (proj2 (nodupb_NoDup _) N). cbn [negb sizes1 map].
  match goal with |- context [if ?c then _ else _] => destruct c end; reflexivity.
Qed.
End Vjp.

(** ** Cases *)
Definition diff (x : Z) (f : Z -> Z) : Z := (f (x + 1) - f x)%Z.
Notation Zvjp := (vjp Z 0%Z Z.add Z.mul diff).
(** Function 0 multiplies arrays of one shape, function 1 adds the elements of an array. *)
Definition lib (f : nat) (l : list (arr Z)) : option (list (arr Z)) :=
  match f, l with
  | 0, [x; y] => if list_eq_dec Nat.eq_dec (shape x) (shape y) then Some [Arr (shape x) (fun i => (at_ x i * at_ y i)%Z)] else None
  | 1, [x] => Some [Arr [] (fun _ => fold_right Z.add 0%Z (map (at_ x) (indices (shape x))))]
  | _, _ => None
  end.
Definition zn (n : nat) : Z := Z.of_nat n.
Lemma lib_lawful : lawful lib.
Proof.
  split; intros f ps qs F.
  - destruct f as [|[|f]]; cbn [lib].
    + destruct F as [|x x' ? ? [Sx Ax] F]; [exact Logic.I|]. destruct F as [|y y' ? ? [Sy Ay] F]; [exact Logic.I|]. destruct F; [|exact Logic.I]. rewrite <- Sx, <- Sy. destruct (list_eq_dec Nat.eq_dec (shape x) (shape y)) as [E|]; [|exact Logic.I].
      constructor; [|constructor]. split; [reflexivity|]. cbn [shape at_]. intros idx W. rewrite (Ax idx W), (Ay idx); [reflexivity|]. rewrite <- E. exact W.
    + destruct F as [|x x' ? ? [Sx Ax] F]; [exact Logic.I|]. destruct F; [|exact Logic.I]. constructor; [|constructor]. split; [reflexivity|]. cbn [at_]. intros _ _. rewrite <- Sx. f_equal. apply map_ext_in. intros idx Hi. apply Ax. apply in_indices. exact Hi.
    + destruct F; exact Logic.I.
  - destruct f as [|[|f]]; cbn [lib].
    + destruct F as [|x x' ? ? Sx F]; [exact Logic.I|]. destruct F as [|y y' ? ? Sy F]; [exact Logic.I|]. destruct F; [|exact Logic.I]. rewrite <- Sx, <- Sy. destruct (list_eq_dec Nat.eq_dec (shape x) (shape y)); [|exact Logic.I]. constructor; [reflexivity|constructor].
    + destruct F as [|x x' ? ? Sx F]; [exact Logic.I|]. destruct F; [|exact Logic.I]. constructor; [reflexivity|constructor].
    + destruct F; exact Logic.I.
Qed.
Definition program (node : bool) (ps : list (nprog Z)) : nfun Z := nprogram Z zn lib node ps.
Lemma program_nice node ps : nice Z (program node ps).
Proof. apply nprogram_nice. exact lib_lawful. Qed.
Lemma good_get (a : arr Z) dims : length dims = length (shape a) -> Forall (fun k => k = KAll \/ exists n, k = KName n) dims -> (exists n, In (KName n) dims) -> good Z (VGet Z a dims).
Proof. intros L F C. split; [exact C|]. split; assumption. Qed.

(** [x] has rows 1 2 and 3 4; its rows are at [a]. [y] has rows 5 6 and 7 8. *)
Definition matrix (l : list Z) : arr Z := Arr [2; 2] (fun i => nth (nth 0 i 0 * 2 + nth 1 i 0) l 0%Z).
Definition xa : val Z := VGet Z (matrix [1; 2; 3; 4]%Z) [KName 0; KAll].
Definition ya : val Z := VGet Z (matrix [5; 6; 7; 8]%Z) [KAll; KName 0].
(** lambda x, y: [x * y, (x * y).sum()] *)
Definition dot : nfun Z := program true [NOp Z 0 0 [NArg Z 0; NArg Z 1]; NOp Z 1 0 [NOp Z 0 0 [NArg Z 0; NArg Z 1]]].
Definition cts : tree (val Z) := Tree true [VGet Z (matrix [10; 20; 30; 40]%Z) [KName 0; KAll]; VGet Z (Arr [2] (fun i => Z.mul 100 (zn (nth 0 i 0)))) [KName 0]].
Definition elements (v : val Z) : list Z := match v with VArr _ a | VGet _ a _ => map (at_ a) (indices (shape a)) | _ => [] end.

(** A function of one argument that returns it *)
Definition same_fun : nfun Z := program false [NArg Z 0].
Definition mab : val Z := VGet Z (matrix [1; 2; 3; 4]%Z) [KName 0; KName 1].
Definition cba : val Z := VGet Z (matrix [10; 20; 30; 40]%Z) [KName 1; KName 0].
Definition maa : val Z := VGet Z (matrix [1; 2; 3; 4]%Z) [KName 0; KName 0].
Ltac goods := repeat (apply Forall_cons || apply Forall_nil); try (split; exact Logic.I);
  (apply good_get; [reflexivity|repeat (apply Forall_cons || apply Forall_nil); ((left; reflexivity) || (right; eexists; reflexivity))|exists 0; cbn; tauto]).

(** What [vjp] returned, in examples *)
Definition is_ok {A} (x : res A) : bool := match x with Ok _ => true | _ => false end.
Definition result_of (f : nfun Z) ps : tree (val Z) := match Zvjp f ps with Ok (r, _) => r | _ => Tree false [] end.
Definition back_of (f : nfun Z) ps (c : tree (val Z)) : res (list (val Z)) := match Zvjp f ps with Ok (_, bk) => bk c | _ => RuntimeError end.
Definition grads_of (f : nfun Z) ps (c : tree (val Z)) : list (val Z) := match back_of f ps c with Ok gs => gs | _ => [] end.
Lemma ran f ps c : is_ok (back_of f ps c) = true -> exists bk, Zvjp f ps = Ok (result_of f ps, bk) /\ bk c = Ok (grads_of f ps c).
Proof.
  unfold grads_of. unfold result_of, back_of. destruct (Zvjp f ps) as [[r bk]| | | | |]; cbn [is_ok]; try discriminate. intros H. exists bk. split; [reflexivity|]. destruct (bk c); try discriminate H. reflexivity.
Qed.
Lemma okay {A} (x : res A) : is_ok x = true -> exists a, x = Ok a.
Proof. destruct x; try discriminate. eauto. Qed.
Lemma ran_any f ps : is_ok (Zvjp f ps) = true -> exists bk, Zvjp f ps = Ok (result_of f ps, bk) /\ forall c, bk c = back_of f ps c.
Proof. unfold result_of, back_of. destruct (Zvjp f ps) as [[r bk]| | | | |]; cbn [is_ok]; try discriminate. intros _. exists bk. split; reflexivity. Qed.
