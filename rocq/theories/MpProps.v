(** C78: the docs' miniature Pyro. *)
From Coq Require Import List Bool Arith ZArith.
Import ListNotations.
From Verif Require Import MpModel MpSpec MpProofs MpLaws MpCases.

(** Under [trace()] a program goes through the sites its meaning says, with the distributions its plates say, and the trace
    holds the last message of each name; nothing else is recorded. What is missing: data under plates that expand, data by
    position, functions as initial values (below). *)
Theorem C78_trace_partial : forall (V B G U C : Type) draw to_c from_c (p : prog V B C) (r : G) (s : store_t U C) v es r' s',
  goes draw to_c from_c nothing [] p r s v es r' s' -> Forall (handled nothing) es ->
  forall i rest, exists F, forall fuel tr, F <= fuel ->
  exists st : state V B G U C, run draw to_c from_c fuel (HTracer i :: HNative :: rest) p (fresh (mks r s tr) i) = Ok v st /\
    rng st = r' /\ store st = s' /\ traces st i = recorded nothing es /\ forall k, k <> i -> traces st k = tr k.
Proof. exact trace_ok. Qed.
Print Assumptions C78_trace_partial.
Example C78_trace_partial_example : exists v es r' s', tgoes nothing [] guide1 1 [] v es r' s' /\ Forall (handled nothing) es /\
  recorded nothing es = [(7, MParam 12); (0, MSample (mkd 12 []) 13 None)].
Proof. exists 13, eg1, 2, [(7, (2, Some 10))]. split; [exact guide1_goes|]. split; [exact (proj1 handled1) | reflexivity]. Qed.

(** [elbo] is minus the densities of the model's samples, at the guide's values, plus those of the guide's *)
Theorem C78_elbo_partial : forall (V B G U C R : Type) draw to_c from_c (zero : R) add sub neg logp (model guide : prog V B C) (r : G) (s : store_t U C) v eg r1 s1 w em r2 s2,
  goes draw to_c from_c nothing [] guide r s v eg r1 s1 -> goes draw to_c from_c (sampled eg) [] model r1 s1 w em r2 s2 ->
  Forall (handled nothing) eg -> Forall (handled (sampled eg)) em -> distinct eg -> distinct em -> (forall n, In n (sample_names em) -> ~ In n (param_names eg)) ->
  forall rest, exists F, forall fuel tr, F <= fuel -> exists st,
  elbo draw to_c from_c zero add sub neg logp fuel (HNative :: rest) model guide (mks r s tr) = Ok (loss zero add sub neg logp em eg) st /\ rng st = r2 /\ store st = s2.
Proof. exact elbo_ok. Qed.
Print Assumptions C78_elbo_partial.
Example C78_elbo_partial_example : exists v eg r1 s1 w em r2 s2, tgoes nothing [] guide1 1 [] v eg r1 s1 /\ tgoes (sampled eg) [] model1 r1 s1 w em r2 s2 /\
  Forall (handled nothing) eg /\ Forall (handled (sampled eg)) em /\ distinct eg /\ distinct em /\ (forall n, In n (sample_names em) -> ~ In n (param_names eg)) /\
  tloss em eg = (-63)%Z /\ exists st, telbo 3 [HNative] model1 guide1 (mks 1 [] none) = Ok (-63)%Z st.
Proof.
  exists 13, eg1, 2, [(7, (2, Some 10))], 3, em1, 3, [(7, (2, Some 10)); (8, (5, None))]. split; [exact guide1_goes|]. split; [exact model1_goes|].
  split; [exact (proj1 handled1)|]. split; [exact (proj2 handled1)|]. destruct distinct1 as [D1 [D2 D3]]. split; [exact D1|]. split; [exact D2|]. split; [exact D3|]. split; [exact loss1|].
  eexists. vm_compute. reflexivity.
Qed.

(** [SVI.step] optimises the parameters of guide and model, each once, and no sample *)
Theorem C78_step_partial : forall (V B G U C R : Type) draw to_c from_c (zero : R) add sub neg logp (model guide : prog V B C) (r : G) (s : store_t U C) v eg r1 s1 w em r2 s2,
  goes draw to_c from_c nothing [] guide r s v eg r1 s1 -> goes draw to_c from_c (sampled eg) [] model r1 s1 w em r2 s2 ->
  Forall (handled nothing) eg -> Forall (handled (sampled eg)) em -> distinct eg -> distinct em -> (forall n, In n (sample_names em) -> ~ In n (param_names eg)) ->
  forall rest, exists F, forall fuel tr, F <= fuel -> exists st,
  step draw to_c from_c zero add sub neg logp fuel (HNative :: rest) model guide (mks r s tr) =
    Ok (loss zero add sub neg logp em eg, map (fun p => (fst p, MParam (snd p))) (params (eg ++ em))) st /\ rng st = r2 /\ store st = s2.
Proof. exact step_ok. Qed.
Print Assumptions C78_step_partial.
Example C78_step_partial_example : params (eg1 ++ em1) = [(7, 12); (8, 5)] /\ exists st, tstep 3 [HNative] model1 guide1 (mks 1 [] none) = Ok ((-63)%Z, [(7, MParam 12); (8, MParam 5)]) st.
Proof. split; [reflexivity|]. eexists. vm_compute. reflexivity. Qed.

(** Data given inside a plate is dropped whenever the plate expands the distribution: a value is drawn, and recorded as not
    observed *)
Theorem C78_data_in_plates_drawn : forall (V B G U C : Type) draw to_c from_c sz j n (d : dist B) (y : V),
  1 <= j -> grows (shape d) (inside [(sz, j)] (shape d)) -> shape d <> inside [(sz, j)] (shape d) ->
  forall fuel i rest (r : G) (s : store_t U C) tr x r1, 2 <= fuel -> draw (fam d) (inside [(sz, j)] (shape d)) r = (x, r1) ->
  run draw to_c from_c fuel (HTracer i :: HNative :: rest) (Plate sz j (Sample n d (Keyword (Some y)) Ret) Ret) (fresh (mks r s tr) i) =
  Ok x (mks r1 s (fun k => if k =? i then [(n, MSample (mkd (fam d) (inside [(sz, j)] (shape d))) x None)] else (if k =? i then [] else tr k))).
Proof. exact plate_drops. Qed.
Print Assumptions C78_data_in_plates_drawn.
Theorem C78_data_in_plates_refuted : exists (model : tprog) em, tgoes nothing [] model 1 [] 5 em 1 [] /\ distinct em /\
  (forall fuel, 2 <= fuel -> exists v st, trun fuel [HTracer 0; HNative] model (mks 1 [] none) = Ok v st /\ v <> 5) /\
  (forall fuel, 2 <= fuel -> exists l st, telbo fuel [HNative] model (Ret 0) (mks 1 [] none) = Ok l st /\ l <> tloss em []).
Proof. exact data_dropped. Qed.
Print Assumptions C78_data_in_plates_refuted.

(** Two samples of one name count once in the loss *)
Theorem C78_duplicates_refuted : exists (model guide : tprog) em, tgoes nothing [] guide 1 [] 0 [] 1 [] /\ tgoes (sampled (@nil (event nat nat))) [] model 1 [] 6 em 1 [] /\ Forall (handled (sampled (@nil (event nat nat)))) em /\
  forall fuel, 1 <= fuel -> exists l st, telbo fuel [HNative] model guide (mks 1 [] none) = Ok l st /\ l <> tloss em [].
Proof. exact twice_counted_once. Qed.
Print Assumptions C78_duplicates_refuted.

(** The value of a guide's parameter replaces the data of a sample of that name in the model *)
Theorem C78_replay_refuted : exists (model guide : tprog) eg em s, tgoes nothing [] guide 1 [] 8 eg 1 s /\ tgoes (sampled eg) [] model 1 s 5 em 1 s /\
  Forall (handled nothing) eg /\ Forall (handled (sampled eg)) em /\ distinct eg /\ distinct em /\
  forall fuel, 1 <= fuel -> exists l st, telbo fuel [HNative] model guide (mks 1 [] none) = Ok l st /\ l <> tloss em eg.
Proof. exact param_replayed. Qed.
Print Assumptions C78_replay_refuted.

(** [seed] raises, whatever the handlers and the program *)
Theorem C78_seed_refuted : forall (V B G U C : Type) draw to_c from_c fuel stk r body (st : state V B G U C), with_seed draw to_c from_c fuel stk r body st = Raise RuntimeErr.
Proof. exact seed_raises. Qed.
Print Assumptions C78_seed_refuted.

(** A function given for the value of a new parameter raises; so does [obs] by position *)
Theorem C78_function_refuted : forall (V B G U C : Type) draw to_c from_c fuel i rest n y c k r (s : store_t U C) tr, find s n = None ->
  @run V B G U C draw to_c from_c fuel (HTracer i :: HNative :: rest) (Param n (IFunction y) c k) (mks r s tr) = Raise AttributeErr.
Proof. exact function_raises. Qed.
Print Assumptions C78_function_refuted.
Example C78_function_example : tgoes nothing [] (Param 0 (IFunction 8) None Ret) 1 [] 8 [EParam 0 8 true] 1 [(0, (8, None))].
Proof. apply (G_param_new _ _ _ _ _ tdraw tto tfrom nothing [] 0 8 true None _ 1 []); [reflexivity | constructor]. Qed.
Theorem C78_position_refuted : forall (V B G U C : Type) draw to_c from_c fuel i rest n d o k (st : state V B G U C), 1 <= fuel ->
  run draw to_c from_c fuel (HTracer i :: HNative :: rest) (Sample n d (Positional o) k) st = Raise TypeErr.
Proof. exact position_raises. Qed.
Print Assumptions C78_position_refuted.

(** A trace inside a plate records the distribution as it was before the plate *)
Theorem C78_trace_inside_refuted : exists p : tprog, (exists v es r' s', tgoes nothing [(4, 1)] p 1 [] v es r' s' /\ Forall (handled nothing) es /\
  forall fuel, 2 <= fuel -> exists st, trun fuel [HTracer 0; HPlate 4 1; HNative] p (mks 1 [] none) = Ok v st /\ traces st 0 <> recorded nothing es).
Proof. exact trace_inside. Qed.
Print Assumptions C78_trace_inside_refuted.
