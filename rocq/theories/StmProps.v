(** C93: a for-expression [defstream(body, {x: xs, ...})] binds just its variables. *)
From Coq Require Import List ZArith String Bool Arith Lia.
From Verif Require Import TermModel TermSpec TermProofs TermScopes TermData TermEval TermSubst TermUser TermFvs TermBeta TermTrace TermRun TermExamples StmModel StmSpec StmProofs.
Import ListNotations.
Local Open Scope list_scope.

(** With no operations as values in the body or among the streams, just the keys are bound, in the body and in the streams. *)
Theorem C93_stream_binds :
  forall body bs, (forall w, ~ holds w body) -> (forall b w, In b bs -> ~ holds w (snd b)) ->
  exists B S, fvs_rule stream_sig [body; streams_of bs] [] = Ok ([B; S], []) /\
    (forall v, In v B <-> In v (map fst bs)) /\ (forall v, In v S <-> In v (map fst bs)).
Proof. exact stream_binds. Qed.
Print Assumptions C93_stream_binds.

(** Whatever the arguments: all operations held as values count as bound, and one held by both is an error. *)
Theorem C93_stream_bound_exactly :
  forall body s,
  (exists v, holds v body /\ holds v s) /\ fvs_rule stream_sig [body; s] [] = Err EAssert \/
  ~ (exists v, holds v body /\ holds v s) /\ exists B S, fvs_rule stream_sig [body; s] [] = Ok ([B; S], []) /\
    (forall v, In v B <-> holds v body \/ holds v s) /\ (forall v, In v S <-> holds v s).
Proof. exact stream_exact. Qed.
Print Assumptions C93_stream_bound_exactly.

(** Free variables of a for-expression: those of the body and of the streams except the keys. *)
Theorem C93_stream_free_variables :
  forall sigs, (forall b, wf_sig (sigs b)) -> forall o, sigs (base o) = stream_sig -> forall body bs n t n',
  (forall w, ~ holds w body) -> (forall b w, In b bs -> ~ holds w (snd b)) ->
  walkable body = true -> (forall b, In b bs -> walkable (snd b) = true) -> below n body -> below n (streams_of bs) ->
  defdata sigs o [body; streams_of bs] [] n = Ok (t, n') -> forall v,
  In v (fv sigs t) <-> v = o \/ ~ In v (map fst bs) /\ (In v (fv sigs body) \/ exists b, In b bs /\ In v (fv sigs (snd b))).
Proof. exact stream_free. Qed.
Print Assumptions C93_stream_free_variables.

Definition st_sigs (b : nat) : sig := match b with 9 => stream_sig | _ => ex_sigs b end.
Definition st_op := mkop 9 0.
Lemma st_wf : forall b, wf_sig (st_sigs b).
Proof. intros b. do 9 (destruct b as [|b]; [apply (ex_wf _)|]). destruct b as [|b]; [|apply (ex_wf _)]. cbn. unfold wf_sig. repeat constructor; cbn; intuition discriminate. Qed.
(** [defstream((x(), y()), {x: [y(), 1]})] *)
Example C93_stream_example :
  let body := pair (var x) (var y) in let bs := [(x, EColl KList [var y; EConst 1])] in
  exists t n', defdata st_sigs st_op [body; streams_of bs] [] 1 = Ok (t, n') /\ fv st_sigs t = [st_op; pair_op; y; y] /\
  walkable body = true /\ below 1 body /\ below 1 (streams_of bs) /\ (forall w, ~ holds w body) /\ (forall b w, In b bs -> ~ holds w (snd b)).
Proof.
  cbv zeta. do 2 eexists. split; [vm_compute; reflexivity|]. split; [vm_compute; reflexivity|]. split; [reflexivity|].
  split; [intros v Hv; cbn in Hv; intuition (subst; cbn; lia)|]. split; [intros v Hv; cbn in Hv; intuition (subst; cbn; lia)|].
  split; [intros w H; rewrite <- extract_holds in H; destruct H|]. intros b w [<-|[]] H. rewrite <- extract_holds in H. destruct H.
Qed.

(** A for-expression over an operation's value: [defstream(g(), {x: [g]})] binds [g] as well, which is no key. *)
Theorem C93_stream_values_refuted :
  exists sigs o g bs t n', (forall b, wf_sig (sigs b)) /\ sigs (base o) = stream_sig /\ ~ In g (map fst bs) /\
    defdata sigs o [var g; streams_of bs] [] 1 = Ok (t, n') /\ In g (fv sigs (var g)) /\ ~ In g (fv sigs t).
Proof.
  exists st_sigs, st_op, y, [(x, EColl KList [EOp y])]. do 2 eexists. split; [exact st_wf|]. split; [reflexivity|]. split; [intros [H|[]]; discriminate|].
  split; [vm_compute; reflexivity|]. split; [now left|]. intros H. vm_compute in H. intuition discriminate.
Qed.
Print Assumptions C93_stream_values_refuted.

(** The stream of a variable is in the scope of that variable: in [defstream(x(), {x: [x()]})] the [x] of the stream is not the one
    outside, as it is in [(x for x in [x])]. *)
Theorem C93_stream_outer_refuted :
  exists sigs o v bs t n', (forall b, wf_sig (sigs b)) /\ sigs (base o) = stream_sig /\ bs = [(v, EColl KList [var v])] /\
    defdata sigs o [var v; streams_of bs] [] 1 = Ok (t, n') /\ ~ In v (fv sigs t).
Proof.
  exists st_sigs, st_op, x, [(x, EColl KList [var x])]. do 2 eexists. split; [exact st_wf|]. split; [reflexivity|]. split; [reflexivity|].
  split; [vm_compute; reflexivity|]. intros H. vm_compute in H. intuition discriminate.
Qed.
Print Assumptions C93_stream_outer_refuted.

(** Evaluation never turns a for-expression into its elements, even over lists: it has no rule. *)
Theorem C93_stream_stays :
  forall sigs h o a k n v n', h o = None -> eval_under sigs h (ETerm o a k) n = Ok (v, n') -> exists a' k', v = ETerm o a' k'.
Proof. exact stays. Qed.
Print Assumptions C93_stream_stays.
Theorem C93_stream_elements_refuted :
  exists sigs o t n v n' x, (forall b, wf_sig (sigs b)) /\ sigs (base o) = stream_sig /\
    defdata sigs o [var x; streams_of [(x, EColl KList [EConst 1])]] [] 1 = Ok (t, n) /\
    eval_under sigs (fun _ => None) t n = Ok (v, n') /\ v <> EColl KList [EConst 1].
Proof.
  exists st_sigs, st_op. do 4 eexists. exists x. split; [exact st_wf|]. split; [reflexivity|]. split; [vm_compute; reflexivity|]. split; [vm_compute; reflexivity|]. discriminate.
Qed.
Print Assumptions C93_stream_elements_refuted.
