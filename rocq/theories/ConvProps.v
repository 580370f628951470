(** Histories and conversations (C37, C38, C39, C48). *)
From Coq Require Import List Bool Arith.
From Verif Require Import ConvModel ConvSpec ConvProofs.
Import ListNotations.

(** A template call that returns stores, for its agent and no other, what was there, a system
    message in front if there was none, the user message, and a conversation. The conclusion
    holds for the next call too. *)
Theorem C37_success_partial : forall rt n t w v h' w', unclashing w ->
  exec rt n (JCall false t) w = Some (Ok v, h', w') ->
  unclashing w' /\
  exists new pre user conv,
    new = pre ++ history_of t w ++ user :: conv /\ prefix_for (history_of t w) pre /\ mrole user = RUser /\
    user_prompt t = Ok (mtext user) /\ conversation conv /\
    forall a, stored w' a = if match agent t with Some b => Nat.eqb a b | None => false end then new else stored w a.
Proof. exact call_ok. Qed.
Print Assumptions C37_success_partial.

(** A call that raises stores nothing, whatever the responses and tools. *)
Theorem C37_failure : forall rt n nested t w e h' w',
  exec rt n (JCall nested t) w = Some (Exn e, h', w') -> stored w' = stored w.
Proof. exact call_fails. Qed.
Print Assumptions C37_failure.

(** A call made while another runs stores nothing, whatever it does. *)
Theorem C37_nested : forall rt n t w o h' w',
  exec rt n (JCall true t) w = Some (o, h', w') -> stored w' = stored w.
Proof. exact call_nested. Qed.
Print Assumptions C37_nested.

(** If a response repeats the id of a stored message, that message is overwritten in place. *)
Theorem C37_id_clash_refuted : exists rt n t w v h' w' a,
  exec rt n (JCall false t) w = Some (Ok v, h', w') /\
  ~ exists more, stored w' a = stored w a ++ more.
Proof.
  exists None, 9, tpl, w_clash, (Some 4).
  destruct clash_overwrites as (h' & w' & H). exists h', w', 0. exact H.
Qed.
Print Assumptions C37_id_clash_refuted.

(** Every tool call in every stored history stays answered, in order and at once, after any call. *)
Theorem C38_answered_partial : forall rt n nested t w o h' w', unclashing w ->
  exec rt n (JCall nested t) w = Some (o, h', w') ->
  forall a, answered (stored w a) -> answered (stored w' a).
Proof. exact call_answered. Qed.
Print Assumptions C38_answered_partial.

(** With a repeated id, a call's message is overwritten and its answer left alone. *)
Theorem C38_id_clash_refuted : exists rt n t w v h' w' a,
  exec rt n (JCall false t) w = Some (Ok v, h', w') /\
  (forall b, answered (stored w b)) /\ ~ answered (stored w' a).
Proof.
  exists None, 9, tpl, w_orphan, (Some 4).
  destruct clash_orphans as (h' & w' & H). exists h', w', 0. exact H.
Qed.
Print Assumptions C38_id_clash_refuted.

(** The retry handler: at most [stop] requests, all but the last for malformed responses, each
    showing the model the malformed message and the feedback; the answer of the last is the
    answer, its message the only one added; if it is an error that is what is raised, with
    nothing added, and a malformed response is only given up on at the last attempt. *)
Theorem C39_retry : forall rt h w o h' w', NoDup (given (coming w)) -> fresh_for w h ->
  assistant_with (Some rt) h w = (o, h', w') ->
  exists k reqs, S k <= max 1 (stop rt) /\ requests_of k h (coming w) reqs /\ sent w' = sent w ++ reqs /\
    coming w' = skipn (S k) (coming w) /\ stored w' = stored w /\
    match o with
    | Ok a => answer_of (nth k (coming w) None) a /\ h' = h ++ [fst (fst a)]
    | Exn e => h' = h /\
        ((S k = max 1 (stop rt) /\ error_of (nth k (coming w) None) e) \/
         (judge (nth k (coming w) None) = VFails /\ exists n, e = EOther n))
    end.
Proof. exact retry_spec. Qed.
Print Assumptions C39_retry.

(** Every request answers all tool calls before it: without the retry handler, or if a message
    with an undecodable call has no other call. *)
Theorem C48_requests_partial : forall rt n nested t w o h' w', unclashing w ->
  rt = None \/ lone_bad_calls (coming w) -> (forall a, answered (stored w a)) ->
  exec rt n (JCall nested t) w = Some (o, h', w') ->
  exists reqs, sent w' = sent w ++ reqs /\ Forall answered reqs.
Proof. intros rt n nested t w o h' w' U T S H. exact (exec_requests rt n _ w o h' w' H U T S I). Qed.
Print Assumptions C48_requests_partial.

(** When one of two calls cannot be decoded, the retry answers only that one. *)
Theorem C48_retry_refuted : exists rt n t w v h' w' req,
  exec (Some rt) n (JCall false t) w = Some (Ok v, h', w') /\
  unclashing w /\ (forall a, stored w a = []) /\ In req (sent w') /\ ~ answered req.
Proof.
  exists two_tries, 9, tpl, w_retry, (Some 4).
  destruct retry_unanswered as (h' & w' & req & H). exists h', w', req. exact H.
Qed.
Print Assumptions C48_retry_refuted.

(** A call with a malformed first answer, two tools, one calling a template of the same agent
    and one raising. *)
Definition a_world : world :=
  World 5 (fun _ => [])
    [calls None [(9, None)] 1;
     calls (Some 3) [(1, Some (TCall tpl (fun o => TRet (match o with Ok v => v | Exn _ => None end))));
                     (2, Some (TRaise (EOther 8)))] 2;
     value (Some 4) 6; value None 7] [].
Example C37_example :
  unclashing a_world /\ lone_bad_calls (coming a_world) /\
  match exec (Some two_tries) 20 (JCall false tpl) a_world with
  | Some (Ok (Some 7), _, w') =>
      map (fun m => (mrole m, mtext m)) (stored w' 0) =
        [(RSystem, 1); (RUser, 2); (RAssistant [1; 2], 2); (RTool 1, 6); (RTool 2, 0); (RAssistant [], 7)] /\
      length (sent w') = 4 /\ stored w' 1 = []
  | _ => False
  end.
Proof.
  split; [|split].
  - split; [|intros a m []]. cbn. repeat constructor; cbn; intuition discriminate.
  - intros r c [H|[H|[H|[H|[]]]]] F; injection H as <-; cbn in F; try discriminate F. injection F as <-. reflexivity.
  - vm_compute. repeat split.
Qed.
Example C37_failing_example :
  match exec None 20 (JCall false tpl) (World 0 (fun _ => []) [calls None [(1, Some (TRaise (EOther 8)))] 1] []) with
  | Some (Exn (EExec 1 (EOther 8)), _, w') => stored w' 0 = [] /\ length (sent w') = 1
  | _ => False
  end.
Proof. vm_compute. split; reflexivity. Qed.
Example C39_example :
  let w := World 3 (fun _ => []) [calls None [(9, None)] 1; Some {| rid := None; rcalls := []; rcontent := CBad; rtext := 2 |}; value None 4] [] in
  let h := [Msg (Drawn 0) RUser 2] in
  fresh_for w h /\
  match assistant_with (Some two_tries) h w with (Exn (EResult _), h', _) => h' = h | _ => False end /\
  match assistant_with (Some {| stop := 3; catches := fun _ => false |}) h w with
  | (Ok (m, [], Some 4), h', _) => h' = h ++ [m] | _ => False end.
Proof.
  split; [|split; reflexivity]. intros m [<-|[]]. cbn. intro H. inversion H.
Qed.
