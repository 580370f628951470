(** The miniature Pyro: cases that go another way, and a small instance. *)
From Coq Require Import List Bool Arith Lia ZArith.
Import ListNotations.
From Verif Require Import MpModel MpSpec MpProofs MpLaws.

Section Cases.
Variables V B G U C : Type.
Variable draw : B -> list nat -> G -> V * G.
Variable to_c : C -> U -> V.
Variable from_c : C -> V -> U.

(** Data given to a distribution that a plate expands is not used: a value is drawn *)
Theorem plate_drops sz j n d y : 1 <= j -> grows (shape d) (inside [(sz, j)] (shape d)) -> shape d <> inside [(sz, j)] (shape d) ->
  forall fuel i rest r (s : store_t U C) tr x r1, 2 <= fuel -> draw (fam d) (inside [(sz, j)] (shape d)) r = (x, r1) ->
  run draw to_c from_c fuel (HTracer i :: HNative :: rest) (Plate sz j (Sample n d (Keyword (Some y)) Ret) Ret) (fresh (mks r s tr) i) =
  Ok x (mks r1 s (fun k => if k =? i then [(n, MSample (mkd (fam d) (inside [(sz, j)] (shape d))) x None)] else (if k =? i then [] else tr k))).
Proof.
  intros J GR NE fuel i rest r s tr x r1 L HD.
  assert (A : apart [(sz, j)]) by (split; [repeat constructor; intros [] | repeat constructor; exact J]).
  cbn [run]. change (HPlate sz j :: HTracer i :: HNative :: rest) with (walls V B [(sz, j)] ++ (replay V B None ++ HTracer i :: HNative :: rest)).
  rewrite (sample_plates V B G U C draw [(sz, j)]); [|exact A | pose proof (unfits_length [(sz, j)] (shape d)); cbn [length] in *; lia | discriminate | exact GR
    | intros; apply (tail_again V B G U C draw to_c from_c None i (HNative :: rest) None); apply native_base].
  destruct (unfits [(sz, j)] (shape d) =? 0) eqn:E.
  { exfalso. apply NE. symmetry. apply (all_fit_inside _ _ A). intros p [<- | []]. apply Nat.eqb_eq in E. unfold unfits in E. cbn [filter] in E. destruct (fits (sz, j) (shape d)); [reflexivity | discriminate]. }
  cbn [replay app down data bindo]. unfold native_sample. cbn [data fam shape rng fresh]. rewrite HD. cbn [bindo store traces fresh]. unfold write. cbn [rng store traces]. rewrite Nat.eqb_refl. cbn [put]. reflexivity.
Qed.
(** No stack of handlers makes [set_rng_seed] return *)
Lemma set_rng_raises stk r (st : state V B G U C) : do_set_rng stk r st = Raise RuntimeErr.
Proof. revert st. induction stk as [|h stk IH]; intros st; [reflexivity|]. destruct h; cbn [do_set_rng]; apply IH. Qed.
Theorem seed_raises fuel stk r body (st : state V B G U C) : with_seed draw to_c from_c fuel stk r body st = Raise RuntimeErr.
Proof. unfold with_seed. rewrite set_rng_raises. reflexivity. Qed.
(** A function given for the value of a new parameter is not called *)
Theorem function_raises fuel i rest n y c k r (s : store_t U C) tr : find s n = None ->
  run draw to_c from_c fuel (HTracer i :: HNative :: rest) (Param n (IFunction y) c k) (mks r s tr) = Raise AttributeErr.
Proof. intros H. cbn [run do_param]. unfold native_param. cbn [store]. rewrite H. reflexivity. Qed.
(** [obs] by position is refused *)
Theorem position_raises fuel i rest n d o k (st : state V B G U C) : 1 <= fuel ->
  run draw to_c from_c fuel (HTracer i :: HNative :: rest) (Sample n d (Positional o) k) st = Raise TypeErr.
Proof. intros L. destruct fuel; [lia|]. reflexivity. Qed.
End Cases.

(** A small instance: values, families and random states are numbers; a constraint adds a number or does nothing; the density
    of a value counts its elements *)
Definition tdraw (b : nat) (s : list nat) (r : nat) : nat * nat := (b + r, S r).
Definition tto (c : option nat) (u : nat) : nat := match c with Some k => k + u | None => u end.
Definition tfrom (c : option nat) (v : nat) : nat := match c with Some k => v - k | None => v end.
Definition tlogp (d : dist nat) (v : nat) : Z := Z.of_nat (fam d + v * fold_right Nat.mul 1 (shape d)).
Definition tgoes := @goes nat nat nat nat (option nat) tdraw tto tfrom.
Definition trun := @run nat nat nat nat (option nat) tdraw tto tfrom.
Definition telbo := @elbo nat nat nat nat (option nat) Z tdraw tto tfrom 0%Z Z.add Z.sub Z.opp tlogp.
Definition tstep := @step nat nat nat nat (option nat) Z tdraw tto tfrom 0%Z Z.add Z.sub Z.opp tlogp.
Definition tloss := @loss nat nat Z 0%Z Z.add Z.sub Z.opp tlogp.
Definition tprog := prog nat nat (option nat).
Definition none : nat -> list (nat * msg nat nat) := fun _ => [].

(** A guide with a parameter and a latent, a model with the latent, a parameter read twice, and data in a plate *)
Definition guide1 : tprog := Param 7 (ITensor 12) (Some 10) (fun p => Sample 0 (mkd p []) Omitted Ret).
Definition model1 : tprog :=
  Sample 0 (mkd 3 []) Omitted (fun z => Param 8 (ITensor 5) None (fun a => Param 8 (ITensor 6) None (fun b =>
  Plate 4 1 (Sample 1 (mkd (z + a + b) [4]) (Keyword (Some 9)) (fun _ => Sample 2 (mkd 1 []) Omitted Ret)) Ret))).
Definition eg1 : list (event nat nat) := [EParam 7 12 false; ESample 0 (mkd 12 []) (mkd 12 []) Omitted 13 []].
Definition em1 : list (event nat nat) :=
  [ESample 0 (mkd 3 []) (mkd 3 []) Omitted 13 []; EParam 8 5 false; EParam 8 5 false; ESample 1 (mkd 23 [4]) (mkd 23 [4]) (Keyword (Some 9)) 9 [(4, 1)]; ESample 2 (mkd 1 []) (mkd 1 [4]) Omitted 3 [(4, 1)]].
Ltac grow := split; [cbn; lia | intros [|[|i]]; cbn; intros; try lia; auto].
Ltac axes := split; [repeat constructor; cbn; intuition lia | repeat constructor; cbn; lia].
Lemma guide1_goes : tgoes nothing [] guide1 1 [] 13 eg1 2 [(7, (2, Some 10))].
Proof.
  unfold guide1, eg1. apply (G_param_new _ _ _ _ _ tdraw tto tfrom nothing [] 7 12 false (Some 10) _ 1 [] 13 _ 2 _); [reflexivity|].
  eapply (G_sample _ _ _ _ _ tdraw tto tfrom nothing [] 0 (mkd 12 []) Omitted _ 1); [grow | axes | reflexivity | constructor].
Qed.
Lemma model1_goes : tgoes (sampled eg1) [] model1 2 [(7, (2, Some 10))] 3 em1 3 [(7, (2, Some 10)); (8, (5, None))].
Proof.
  unfold model1, em1. eapply (G_sample _ _ _ _ _ tdraw tto tfrom _ [] 0 (mkd 3 []) Omitted _ 2 _ _ _ _ _ 13); [grow | axes | split; reflexivity|].
  apply (G_param_new _ _ _ _ _ tdraw tto tfrom _ [] 8 5 false None); [reflexivity|].
  apply (G_param_old _ _ _ _ _ tdraw tto tfrom _ [] 8 _ _ _ _ _ _ _ _ _ 5 None); [reflexivity|].
  rewrite <- (app_nil_r [ESample 1 _ _ _ _ _; ESample 2 _ _ _ _ _]).
  eapply G_plate; [|constructor].
  eapply (G_sample _ _ _ _ _ tdraw tto tfrom _ [(4, 1)] 1 (mkd 23 [4])); [grow | axes | split; reflexivity|].
  eapply (G_sample _ _ _ _ _ tdraw tto tfrom _ [(4, 1)] 2 (mkd 1 [])); [grow | axes | reflexivity | constructor].
Qed.
Lemma handled1 : Forall (handled nothing) eg1 /\ Forall (handled (sampled eg1)) em1.
Proof. split; repeat constructor; cbn; intros; try discriminate; try reflexivity; congruence. Qed.
Lemma distinct1 : distinct eg1 /\ distinct em1 /\ forall n, In n (sample_names em1) -> ~ In n (param_names eg1).
Proof. repeat split; cbn; try (repeat constructor; cbn; intuition lia); intuition lia. Qed.
Lemma loss1 : tloss em1 eg1 = (-63)%Z.
Proof. reflexivity. Qed.

(** Two samples of one name *)
Definition model2 : tprog := Sample 0 (mkd 3 []) (Keyword (Some 5)) (fun _ => Sample 0 (mkd 4 []) (Keyword (Some 6)) Ret).
Definition em2 : list (event nat nat) := [ESample 0 (mkd 3 []) (mkd 3 []) (Keyword (Some 5)) 5 []; ESample 0 (mkd 4 []) (mkd 4 []) (Keyword (Some 6)) 6 []].
Lemma model2_goes : tgoes (sampled (@nil (event nat nat))) [] model2 1 [] 6 em2 1 [].
Proof.
  eapply (G_sample _ _ _ _ _ tdraw tto tfrom _ [] 0 (mkd 3 []) _ _ _ _ _ _ _ _ 5); [grow | axes | split; reflexivity|].
  eapply (G_sample _ _ _ _ _ tdraw tto tfrom _ [] 0 (mkd 4 []) _ _ _ _ _ _ _ _ 6); [grow | axes | split; reflexivity | constructor].
Qed.
Theorem twice_counted_once : exists (model guide : tprog) em, tgoes nothing [] guide 1 [] 0 [] 1 [] /\ tgoes (sampled (@nil (event nat nat))) [] model 1 [] 6 em 1 [] /\ Forall (handled (sampled (@nil (event nat nat)))) em /\
  forall fuel, 1 <= fuel -> exists l st, telbo fuel [HNative] model guide (mks 1 [] none) = Ok l st /\ l <> tloss em [].
Proof.
  exists model2, (Ret 0), em2. split; [constructor|]. split; [exact model2_goes|]. split; [repeat constructor; cbn; intros; try discriminate; reflexivity|].
  intros [|fuel] L; [lia|]. eexists. eexists. split; [reflexivity | discriminate].
Qed.
(** A parameter of the guide with the name of a sample of the model *)
Definition guide3 : tprog := Param 0 (ITensor 8) None Ret.
Definition model3 : tprog := Sample 0 (mkd 3 []) (Keyword (Some 5)) Ret.
Definition eg3 : list (event nat nat) := [EParam 0 8 false].
Definition em3 : list (event nat nat) := [ESample 0 (mkd 3 []) (mkd 3 []) (Keyword (Some 5)) 5 []].
Theorem param_replayed : exists (model guide : tprog) eg em s, tgoes nothing [] guide 1 [] 8 eg 1 s /\ tgoes (sampled eg) [] model 1 s 5 em 1 s /\
  Forall (handled nothing) eg /\ Forall (handled (sampled eg)) em /\ distinct eg /\ distinct em /\
  forall fuel, 1 <= fuel -> exists l st, telbo fuel [HNative] model guide (mks 1 [] none) = Ok l st /\ l <> tloss em eg.
Proof.
  exists model3, guide3, eg3, em3, [(0, (8, None))]. split; [|split; [|split; [|split; [|split; [|split]]]]].
  - apply (G_param_new _ _ _ _ _ tdraw tto tfrom nothing [] 0 8 false None _ 1 []); [reflexivity | constructor].
  - eapply (G_sample _ _ _ _ _ tdraw tto tfrom _ [] 0 (mkd 3 []) _ _ _ _ _ _ _ _ 5); [grow | axes | split; reflexivity | constructor].
  - repeat constructor.
  - repeat constructor; cbn; intros; try discriminate; reflexivity.
  - split; cbn; [constructor | contradiction].
  - split; cbn; [repeat constructor; intros [] | intros n _ []].
  - intros [|fuel] L; [lia|]. eexists. eexists. split; [reflexivity | discriminate].
Qed.
(** Data in a plate that expands the distribution: another value, and another loss *)
Definition model4 : tprog := Plate 4 1 (Sample 0 (mkd 3 []) (Keyword (Some 5)) Ret) Ret.
Theorem data_dropped : exists (model : tprog) em, tgoes nothing [] model 1 [] 5 em 1 [] /\ distinct em /\
  (forall fuel, 2 <= fuel -> exists v st, trun fuel [HTracer 0; HNative] model (mks 1 [] none) = Ok v st /\ v <> 5) /\
  (forall fuel, 2 <= fuel -> exists l st, telbo fuel [HNative] model (Ret 0) (mks 1 [] none) = Ok l st /\ l <> tloss em []).
Proof.
  exists model4, ([ESample 0 (mkd 3 []) (mkd 3 [4]) (Keyword (Some 5)) 5 [(4, 1)]] ++ []). split; [|split; [|split]].
  - eapply G_plate; [|constructor]. eapply (G_sample _ _ _ _ _ tdraw tto tfrom _ [(4, 1)] 0 (mkd 3 [])); [grow | axes | split; reflexivity | constructor].
  - split; cbn; [repeat constructor; intros [] | intros n _ []].
  - intros [|[|fuel]] L; [lia | lia|]. eexists. eexists. split; [reflexivity | discriminate].
  - intros [|[|fuel]] L; [lia | lia|]. eexists. eexists. split; [reflexivity | discriminate].
Qed.
(** A trace inside a plate: the distribution recorded is not the one the value was drawn from *)
Theorem trace_inside : exists p : tprog, (exists v es r' s', tgoes nothing [(4, 1)] p 1 [] v es r' s' /\ Forall (handled nothing) es /\
  forall fuel, 2 <= fuel -> exists st, trun fuel [HTracer 0; HPlate 4 1; HNative] p (mks 1 [] none) = Ok v st /\ traces st 0 <> recorded nothing es).
Proof.
  exists (Sample 0 (mkd 3 []) Omitted Ret), 4, [ESample 0 (mkd 3 []) (mkd 3 [4]) Omitted 4 [(4, 1)]], 2, []. split; [|split].
  - eapply (G_sample _ _ _ _ _ tdraw tto tfrom _ [(4, 1)] 0 (mkd 3 [])); [grow | axes | reflexivity | constructor].
  - repeat constructor; cbn; intros; try discriminate; congruence.
  - intros [|[|fuel]] L; [lia | lia|]. eexists. split; [reflexivity | discriminate].
Qed.
