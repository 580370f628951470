(** Proofs: traces, the loss and the captured parameters. *)
From Coq Require Import List Bool Arith Lia.
Import ListNotations.
From Verif Require Import MpModel MpSpec MpProofs.

Section Laws.
Variables V B G U C R : Type.
Variable draw : B -> list nat -> G -> V * G.
Variable to_c : C -> U -> V.
Variable from_c : C -> V -> U.
Variable zero : R.
Variables add sub : R -> R -> R.
Variable neg : R -> R.
Variable logp : dist B -> V -> R.
Notation trace := (list (nat * msg V B)).
Notation hd := (hd V B).

Definition keep (known : nat -> option V) (t : trace) (e : event V B) : trace := put t (name_of e) (message known e).
Definition keep_param (t : trace) (e : event V B) : trace := match e with EParam n v _ => put t n (MParam v) | _ => t end.
Lemma log_at i cap known es : cap <> Some i -> forall tr, fold_left (log V B i cap known) es tr i = fold_left (keep known) es (tr i).
Proof.
  intros N. induction es as [|e es IH]; intros tr; [reflexivity|]. cbn [fold_left]. rewrite IH. f_equal. unfold keep.
  destruct e; cbn [log name_of]; unfold upd; rewrite Nat.eqb_refl; [reflexivity|]. f_equal. destruct cap as [c|]; [|reflexivity]. cbn [capture]. unfold upd.
  destruct (Nat.eqb_spec i c) as [->|]; [destruct (N eq_refl) | reflexivity].
Qed.
Lemma log_else i cap known k es : k <> i -> cap <> Some k -> forall tr, fold_left (log V B i cap known) es tr k = tr k.
Proof.
  intros N N'. induction es as [|e es IH]; intros tr; [reflexivity|]. cbn [fold_left]. rewrite IH. apply Nat.eqb_neq in N.
  destruct e; cbn [log]; unfold upd; rewrite N; [reflexivity|]. destruct cap as [c|]; [|reflexivity]. cbn [capture]. unfold upd.
  destruct (Nat.eqb_spec k c) as [->|]; [destruct (N' eq_refl) | reflexivity].
Qed.
Lemma log_captured i c known es : c <> i -> forall tr, fold_left (log V B i (Some c) known) es tr c = fold_left keep_param es (tr c).
Proof.
  intros N. induction es as [|e es IH]; intros tr; [reflexivity|]. cbn [fold_left]. rewrite IH. f_equal. apply Nat.eqb_neq in N.
  destruct e; cbn [log keep_param capture]; unfold upd; rewrite N; [reflexivity|]. rewrite Nat.eqb_refl. reflexivity.
Qed.
Lemma put_map {A A'} (f : A -> A') l n a : put (map (fun p => (fst p, f (snd p))) l) n (f a) = map (fun p => (fst p, f (snd p))) (put l n a).
Proof. induction l as [|[m b] l IH]; cbn [put map fst snd]; [reflexivity|]. destruct (m =? n); cbn [map fst snd]; [reflexivity|]. rewrite IH. reflexivity. Qed.
Definition as_messages (l : list (nat * V)) : trace := map (fun p => (fst p, MParam (snd p))) l.
Lemma keep_params es : fold_left keep_param es [] = as_messages (params es).
Proof.
  unfold params. change (@nil (nat * msg V B)) with (as_messages []). generalize (@nil (nat * V)) as l. induction es as [|e es IH]; intros l; [reflexivity|].
  cbn [fold_left]. rewrite <- IH. f_equal. destruct e; [reflexivity|]. cbn [keep_param]. apply (put_map (fun v => MParam v)).
Qed.

(** Finding in dictionaries *)
Lemma find_put {A} (t : list (nat * A)) n a m : find (put t n a) m = if n =? m then Some a else find t m.
Proof.
  induction t as [|[k b] t IH]; cbn [put find]; [reflexivity|]. destruct (Nat.eqb_spec k n) as [->|N]; cbn [find].
  - destruct (n =? m); reflexivity.
  - rewrite IH. destruct (Nat.eqb_spec k m) as [->|]; [|reflexivity]. destruct (Nat.eqb_spec n m) as [->|]; [contradiction | reflexivity].
Qed.
Lemma find_kept known es n : forall t, ~ In n (sample_names es) -> ~ In n (param_names es) -> find (fold_left (keep known) es t) n = find t n.
Proof.
  induction es as [|e es IH]; intros t S P; [reflexivity|]. cbn [fold_left].
  assert (NE : name_of e <> n) by (destruct e; cbn [name_of]; intros ->; [apply S | apply P]; left; reflexivity).
  rewrite IH; [|intros I; apply S; cbn [sample_names flat_map]; apply in_or_app; right; exact I | intros I; apply P; cbn [param_names flat_map]; apply in_or_app; right; exact I].
  unfold keep. rewrite find_put. apply Nat.eqb_neq in NE. rewrite NE. reflexivity.
Qed.
Lemma find_sampled known es n : NoDup (sample_names es) -> ~ In n (param_names es) -> forall t, find t n = None ->
  match find (fold_left (keep known) es t) n with Some m => Some (val_of m) | None => None end = sampled es n.
Proof.
  induction es as [|e es IH]; intros D P t E; [cbn [fold_left sampled]; rewrite E; reflexivity|]. cbn [fold_left].
  destruct e as [m own used g v ps | m v fn]; cbn [sampled].
  - cbn [sample_names flat_map app] in D. inversion D as [|? ? NI D']. subst. destruct (Nat.eqb_spec m n) as [->|N].
    + rewrite find_kept; [|exact NI | exact P]. unfold keep. cbn [name_of message]. rewrite find_put, Nat.eqb_refl. reflexivity.
    + apply IH; [exact D' | exact P|]. unfold keep. cbn [name_of]. rewrite find_put. apply Nat.eqb_neq in N. rewrite N. exact E.
  - apply IH; [exact D | intros I; apply P; right; exact I|]. unfold keep. cbn [name_of]. rewrite find_put. destruct (Nat.eqb_spec m n) as [->|]; [destruct P; left; reflexivity | exact E].
Qed.

(** Sums over traces *)
Definition summed (op : R -> R -> R) (t : trace) (acc : R) : R :=
  fold_left (fun acc (m : nat * msg V B) => match snd m with MSample d v _ => op acc (logp d v) | MParam _ => acc end) t acc.
Definition param_at (t : trace) (n : nat) : Prop := match find t n with Some (MSample _ _ _) => False | _ => True end.
Lemma summed_put_param op t n v : param_at t n -> forall acc, summed op (put t n (MParam v)) acc = summed op t acc.
Proof.
  unfold param_at, summed. induction t as [|[k m] t IH]; cbn [find put fold_left]; [reflexivity|]. destruct (k =? n); cbn [fold_left snd].
  - destruct m; [contradiction | reflexivity].
  - intros H acc. apply IH. exact H.
Qed.
Lemma summed_keep op known es : NoDup (sample_names es) -> (forall n, In n (sample_names es) -> ~ In n (param_names es)) ->
  forall t acc, (forall n, In n (sample_names es) -> find t n = None) -> (forall n, In n (param_names es) -> param_at t n) ->
  summed op (fold_left (keep known) es t) acc = total logp op es (summed op t acc).
Proof.
  induction es as [|e es IH]; intros D A t acc HS HP; [reflexivity|]. cbn [fold_left]. destruct e as [m own used g v ps | m v fn].
  - cbn [sample_names flat_map app] in D. inversion D as [|? ? NI D']. subst. rewrite IH.
    + unfold total. cbn [fold_left]. f_equal. unfold keep. cbn [name_of message]. rewrite (put_absent t m) by (apply HS; left; reflexivity). unfold summed. rewrite fold_left_app. reflexivity.
    + exact D'.
    + intros n I. apply A. right. exact I.
    + intros n I. unfold keep. cbn [name_of]. rewrite find_put. destruct (Nat.eqb_spec m n) as [->|]; [contradiction|]. apply HS. right. exact I.
    + intros n I. unfold keep, param_at. cbn [name_of]. rewrite find_put. destruct (Nat.eqb_spec m n) as [->|]; [|apply HP; exact I]. exfalso. apply (A n); [left; reflexivity | exact I].
  - rewrite IH.
    + unfold total. cbn [fold_left]. f_equal. unfold keep. cbn [name_of message]. apply summed_put_param. apply HP. left. reflexivity.
    + exact D.
    + intros n I J. apply (A n I). right. exact J.
    + intros n I. unfold keep. cbn [name_of]. rewrite find_put. destruct (Nat.eqb_spec m n) as [->|]; [|apply HS; exact I]. exfalso. apply (A n I). left. reflexivity.
    + intros n I. unfold keep, param_at. cbn [name_of message]. rewrite find_put. destruct (m =? n); [exact Logic.I|]. apply HP. right. exact I.
Qed.

(** One run below a [Tracer] *)
Lemma traced rep i base cap known p r s v es r' s' : runs_below V B G U C draw to_c from_c base cap -> goes draw to_c from_c known [] p r s v es r' s' -> Forall (handled known) es ->
  (forall n, In n (sample_names es) -> known_of V B rep n = known n) ->
  exists F, forall fuel tr, F <= fuel -> run draw to_c from_c fuel (replay V B rep ++ HTracer i :: base) p (mks r s tr) = Ok v (mks r' s' (fold_left (log V B i cap known) es tr)).
Proof. intros HB HG HA HK. exact (run_goes V B G U C draw to_c from_c rep i base cap HB known [] p r s v es r' s' HG HA HK). Qed.

Theorem trace_ok p r s v es r' s' : goes draw to_c from_c nothing [] p r s v es r' s' -> Forall (handled nothing) es ->
  forall i rest, exists F, forall fuel tr, F <= fuel -> exists st, run draw to_c from_c fuel (HTracer i :: HNative :: rest) p (fresh (mks r s tr) i) = Ok v st /\
    rng st = r' /\ store st = s' /\ traces st i = recorded nothing es /\ forall k, k <> i -> traces st k = tr k.
Proof.
  intros HG HA i rest. destruct (traced None i (HNative :: rest) None nothing p r s v es r' s' (native_base V B G U C draw to_c from_c rest) HG HA (fun _ _ => eq_refl)) as [F H].
  exists F. intros fuel tr L. unfold fresh. cbn [rng store traces]. cbn [replay app] in H. rewrite (H fuel _ L). eexists. split; [reflexivity|]. cbn [rng store traces].
  split; [reflexivity|]. split; [reflexivity|]. split.
  - rewrite log_at by discriminate. rewrite Nat.eqb_refl. reflexivity.
  - intros k N. rewrite log_else by (exact N || discriminate). apply Nat.eqb_neq in N. rewrite N. reflexivity.
Qed.

Section Elbo.
Variables (base : list hd) (cap : option nat).
Hypothesis HB : runs_below V B G U C draw to_c from_c base cap.
Hypothesis C0 : cap <> Some 0.
Hypothesis C1 : cap <> Some 1.
Variables (model guide : prog V B C) (r : G) (s : store_t U C) (v : V) (eg : list (event V B)) (r1 : G) (s1 : store_t U C) (w : V) (em : list (event V B)) (r2 : G) (s2 : store_t U C).
Hypothesis GG : goes draw to_c from_c nothing [] guide r s v eg r1 s1.
Hypothesis GM : goes draw to_c from_c (sampled eg) [] model r1 s1 w em r2 s2.
Hypothesis HG : Forall (handled nothing) eg.
Hypothesis HM : Forall (handled (sampled eg)) em.
Hypothesis DG : distinct eg.
Hypothesis DM : distinct em.
Hypothesis AP : forall n, In n (sample_names em) -> ~ In n (param_names eg).

Lemma elbo_runs : exists F, forall fuel tr, F <= fuel -> exists st,
  elbo draw to_c from_c zero add sub neg logp fuel base model guide (mks r s tr) = Ok (loss zero add sub neg logp em eg) st /\
  rng st = r2 /\ store st = s2 /\ (forall c, cap = Some c -> traces st c = fold_left keep_param (eg ++ em) (tr c)).
Proof.
  destruct (traced None 0 base cap nothing guide r s v eg r1 s1 HB GG HG (fun _ _ => eq_refl)) as [F1 H1].
  destruct (traced (Some (fold_left (keep nothing) eg [])) 1 base cap (sampled eg) model r1 s1 w em r2 s2 HB GM HM) as [F2 H2].
  { intros n I. cbn [known_of]. apply find_sampled; [exact (proj1 DG) | exact (AP n I) | reflexivity]. }
  exists (Nat.max F1 F2). intros fuel tr L. unfold elbo. unfold fresh at 1. cbn [rng store traces].
  cbn [replay app] in H1, H2. rewrite H1 by lia. cbn [bindo]. unfold fresh. cbn [rng store traces].
  rewrite (log_at 0 cap nothing eg C0). cbn [Nat.eqb]. rewrite H2 by lia. cbn [bindo].
  match goal with |- exists st, Ok _ ?x = _ /\ _ => exists x end. split; [|cbn [rng store traces]; split; [reflexivity|]; split; [reflexivity|]].
  - f_equal. cbn [traces]. rewrite (log_at 1 cap _ em C1), (log_else 1 cap _ 0 em) by (discriminate || exact C0). cbn [Nat.eqb]. rewrite (log_at 0 cap nothing eg C0). cbn [Nat.eqb].
    unfold loss. f_equal.
    change (summed sub (fold_left (keep nothing) eg []) (summed add (fold_left (keep (sampled eg)) em []) zero) = total logp sub eg (total logp add em zero)).
    rewrite (summed_keep sub nothing eg (proj1 DG) (proj2 DG)) by (intros; try exact Logic.I; reflexivity).
    rewrite (summed_keep add (sampled eg) em (proj1 DM) (proj2 DM)) by (intros; try exact Logic.I; reflexivity). reflexivity.
  - intros c ->. assert (c <> 0) by (intros ->; apply C0; reflexivity). assert (c <> 1) by (intros ->; apply C1; reflexivity).
    rewrite log_captured by assumption. rewrite fold_left_app. f_equal. destruct (Nat.eqb_spec c 1); [contradiction|]. rewrite log_captured by assumption. destruct (Nat.eqb_spec c 0); [contradiction | reflexivity].
Qed.
End Elbo.

Theorem elbo_ok model guide r s v eg r1 s1 w em r2 s2 :
  goes draw to_c from_c nothing [] guide r s v eg r1 s1 -> goes draw to_c from_c (sampled eg) [] model r1 s1 w em r2 s2 ->
  Forall (handled nothing) eg -> Forall (handled (sampled eg)) em -> distinct eg -> distinct em -> (forall n, In n (sample_names em) -> ~ In n (param_names eg)) ->
  forall rest, exists F, forall fuel tr, F <= fuel -> exists st,
  elbo draw to_c from_c zero add sub neg logp fuel (HNative :: rest) model guide (mks r s tr) = Ok (loss zero add sub neg logp em eg) st /\ rng st = r2 /\ store st = s2.
Proof.
  intros GG GM HG HM DG DM AP rest.
  destruct (elbo_runs (HNative :: rest) None (native_base V B G U C draw to_c from_c rest) ltac:(discriminate) ltac:(discriminate) model guide r s v eg r1 s1 w em r2 s2 GG GM HG HM DG DM AP) as [F H].
  exists F. intros fuel tr L. destruct (H fuel tr L) as [st [E [E1 [E2 _]]]]. exists st. auto.
Qed.
Theorem step_ok model guide r s v eg r1 s1 w em r2 s2 :
  goes draw to_c from_c nothing [] guide r s v eg r1 s1 -> goes draw to_c from_c (sampled eg) [] model r1 s1 w em r2 s2 ->
  Forall (handled nothing) eg -> Forall (handled (sampled eg)) em -> distinct eg -> distinct em -> (forall n, In n (sample_names em) -> ~ In n (param_names eg)) ->
  forall rest, exists F, forall fuel tr, F <= fuel -> exists st,
  step draw to_c from_c zero add sub neg logp fuel (HNative :: rest) model guide (mks r s tr) =
    Ok (loss zero add sub neg logp em eg, map (fun p => (fst p, MParam (snd p))) (params (eg ++ em))) st /\ rng st = r2 /\ store st = s2.
Proof.
  intros GG GM HG HM DG DM AP rest.
  destruct (elbo_runs _ (Some 2) (step_base V B G U C draw to_c from_c rest) ltac:(discriminate) ltac:(discriminate) model guide r s v eg r1 s1 w em r2 s2 GG GM HG HM DG DM AP) as [F H].
  exists F. intros fuel tr L. unfold step, fresh. cbn [rng store traces]. destruct (H fuel (fun k => if k =? 2 then [] else tr k) L) as [st [E [E1 [E2 E3]]]]. exists st. rewrite E. cbn [bindo].
  rewrite (E3 2 eq_refl). cbn [Nat.eqb]. rewrite keep_params. auto.
Qed.
End Laws.
