(** C99: what a model is told about its errors (RetryLLMHandler, call_tool). *)
From Coq Require Import Ascii String List Bool Arith Lia.
From Verif Require Import FbModel FbSpec FbProofs.
Import ListNotations.
Open Scope list_scope.

(** a history, two malformed responses and a good one *)
Definition value_error : exn := Exn 2 "not an integer" "Traceback (most recent call last): @decode" None.
Definition question : message := Message User None "What is 6 times 7?".
Definition junk : message := Message Assistant None "forty-two".
Definition junk_call : message := Message Assistant None "multiply(6)".
Definition answer : message := Message Assistant None "42".
Definition three : list attempt :=
  [Bad (ResultDecodingError value_error junk) "@raise";
   Bad (ToolCallDecodingError value_error junk_call "id1" "multiply") "@raise"; Good answer].
Definition quiet : config := Config false [EXCEPTION] (Nat.leb 4).
Definition loud : config := Config true [EXCEPTION] (Nat.leb 4).
Definition is_sub (a b : nat) : bool := orb (Nat.eqb a b) (andb (Nat.eqb b EXCEPTION) (negb (Nat.eqb a 9))).

(** Each request after the first carries the history, and for every malformed response
    so far, in order, that response and a message telling of its error: one that answers
    the tool call concerned. *)
Theorem C99_told : forall cfg handling h attempts reqs h' o, Forall decodes attempts ->
  retry_call_assistant cfg handling h attempts = (reqs, h', o) ->
  forall i r, nth_error reqs i = Some r ->
  exists es, length es = i /\ errors_of (firstn i attempts) es /\ grows h es r.
Proof. exact retry_told. Qed.
Print Assumptions C99_told.

Example C99_told_example : Forall decodes three /\
  exists r0 r1 m1 m2, retry_call_assistant quiet [] [question] three =
    ([r0; r1; [question; junk; m1; junk_call; m2]], [question; answer], Returned answer) /\
  r0 = [question] /\ r1 = [question; junk; m1] /\ answers m1 = None /\ answers m2 = Some "id1"%string.
Proof. split; [repeat constructor|]. do 4 eexists. repeat split; reflexivity. Qed.

(** Attempts are made until one is decoded, another exception is raised or the condition
    of stopping holds; the last decoding error is then raised with its cause.  Only a
    decoded response is added to the history. *)
Theorem C99_ends : forall cfg handling h attempts reqs h' o,
  retry_call_assistant cfg handling h attempts = (reqs, h', o) ->
  ends cfg 1 h attempts reqs o /\
  h' = match o with Returned m => h ++ [m] | _ => h end.
Proof. exact retry_ends. Qed.
Print Assumptions C99_ends.

Example C99_ends_example :
  exists reqs, retry_call_assistant (Config false [] (Nat.leb 2)) [] [question] three =
    (reqs, [question], Raised (raised (ToolCallDecodingError value_error junk_call "id1" "multiply") "@raise")) /\
  length reqs = 2.
Proof. eexists. split; reflexivity. Qed.

(** Without tracebacks the message is the text of the error and no more. *)
Theorem C99_quiet : forall cfg handling h e, include_traceback cfg = false ->
  exists hist m, before_sleep cfg handling h e = hist ++ [m] /\ content m = str e.
Proof. exact before_quiet. Qed.
Print Assumptions C99_quiet.

Example C99_quiet_example : exists m,
  before_sleep quiet [] [question] (ResultDecodingError value_error junk) = [question; junk; m] /\
  content m = "Error decoding response: not an integer. Please provide a valid response and try again."%string.
Proof. eexists. split; reflexivity. Qed.

(** An exception of a tool that is to be caught is answered by a message telling of it,
    with the traceback of the tool if tracebacks are included; that message alone is
    appended. *)
Theorem C99_tool_caught : forall sub cfg handling id name f e, sub (class_of e) EXCEPTION = true ->
  (exists c, In c (catch_tool_errors cfg) /\ sub (class_of e) c = true) ->
  exists m, retry_call_tool sub cfg handling id name f (Raises e) = ([m], inl m) /\
    tells (ToolCallExecutionError e id name) m /\
    (include_traceback cfg = true -> traced e m) /\
    (include_traceback cfg = false -> content m = str (ToolCallExecutionError e id name)).
Proof. exact tool_caught. Qed.
Print Assumptions C99_tool_caught.

Example C99_tool_caught_example :
  is_sub (class_of value_error) EXCEPTION = true /\
  (exists c, In c (catch_tool_errors loud) /\ is_sub (class_of value_error) c = true) /\
  exists m, retry_call_tool is_sub quiet [] "id1" "multiply" "@raise" (Raises value_error) = ([m], inl m) /\
    content m = "Tool execution failed: Error executing tool 'multiply': not an integer"%string.
Proof.
  split; [reflexivity|]. split; [exists EXCEPTION; split; [now left | reflexivity]|].
  eexists. split; reflexivity.
Qed.

(** Any other exception is raised, as the cause of an execution error if it is an
    [Exception] and itself otherwise, and no message is appended. *)
Theorem C99_tool_uncaught : forall sub cfg handling id name f e,
  (forall c, In c (catch_tool_errors cfg) -> sub (class_of e) c = false) ->
  exists x, retry_call_tool sub cfg handling id name f (Raises e) = ([], inr x) /\
    (if sub (class_of e) EXCEPTION then x = raised (ToolCallExecutionError e id name) f else x = e).
Proof. exact tool_uncaught. Qed.
Print Assumptions C99_tool_uncaught.

Example C99_tool_uncaught_example :
  let cfg := Config true [7] (Nat.leb 4) in
  (forall c, In c (catch_tool_errors cfg) -> is_sub (class_of value_error) c = false) /\
  retry_call_tool is_sub cfg [] "id1" "multiply" "@raise" (Raises value_error) =
    ([], inr (raised (ToolCallExecutionError value_error "id1" "multiply") "@raise")).
Proof. split; [intros c [<-|[]]; reflexivity | reflexivity]. Qed.

(** What a tool returns is answered as it is. *)
Theorem C99_tool_returns : forall sub cfg handling id name f text,
  retry_call_tool sub cfg handling id name f (Returns text) =
  ([Message Tool (Some id) text], inl (Message Tool (Some id) text)).
Proof. exact tool_returns. Qed.
Print Assumptions C99_tool_returns.

Example C99_tool_returns_example :
  retry_call_tool is_sub loud [] "id1" "multiply" "" (Returns "42") =
  ([Message Tool (Some "id1"%string) "42"], inl (Message Tool (Some "id1"%string) "42")).
Proof. reflexivity. Qed.

(** With tracebacks included, the message about a decoding error has none: the callback
    runs when the exception is no longer handled, and prints "NoneType: None". *)
Theorem C99_untraced : forall cfg h e, include_traceback cfg = true ->
  exists hist m, before_sleep cfg [] h e = hist ++ [m] /\
    content m = (str e ++ nl ++ nl ++ "Traceback:" ++ nl ++ "```" ++ nl ++ "NoneType: None" ++ nl ++ "```")%string.
Proof. exact before_traceback. Qed.
Print Assumptions C99_untraced.

Example C99_untraced_example : include_traceback loud = true.
Proof. reflexivity. Qed.

Theorem C99_traceback_refuted : exists cfg h e frames m good reqs h' o,
  include_traceback cfg = true /\ decoding e /\
  retry_call_assistant cfg [] h [Bad e frames; Good good] = (reqs, h', o) /\
  nth_error reqs 1 = Some (h ++ raw_message e ++ [m]) /\
  ~ traced (original e) m /\ ~ traced (raised e frames) m.
Proof.
  exists loud, [question], (ResultDecodingError value_error junk), "@raise"%string.
  eexists. exists answer. do 3 eexists. split; [reflexivity|]. split; [exact Logic.I|]. split; [reflexivity|]. split; [reflexivity|].
  split; apply (absent "@"%char); vm_compute; reflexivity.
Qed.
Print Assumptions C99_traceback_refuted.

(** If the template is called while another exception is handled, the traceback of that
    one is sent to the model as if it were of its response. *)
Theorem C99_leaks : forall cfg x handling h e, include_traceback cfg = true ->
  exists hist m, before_sleep cfg (x :: handling) h e = hist ++ [m] /\ traced x m.
Proof. exact before_leaks. Qed.
Print Assumptions C99_leaks.

Example C99_leaks_example : include_traceback loud = true.
Proof. reflexivity. Qed.

Theorem C99_leak_refuted : exists cfg x h e frames m good reqs h' o,
  retry_call_assistant cfg [x] h [Bad e frames; Good good] = (reqs, h', o) /\
  nth_error reqs 1 = Some (h ++ raw_message e ++ [m]) /\
  traced x m /\ ~ traced (original e) m.
Proof.
  exists loud, (Exn 3 "secret" "password=hunter2" None), [question], (ResultDecodingError value_error junk), "@raise"%string.
  eexists. exists answer. do 3 eexists. split; [reflexivity|]. split; [reflexivity|].
  split; [apply feedback_traced|]. apply (absent "@"%char); vm_compute; reflexivity.
Qed.
Print Assumptions C99_leak_refuted.

(** Classes that are not subclasses of [Exception] can be asked for but are not caught. *)
Theorem C99_base_refuted : exists sub cfg id name frames e,
  (exists c, In c (catch_tool_errors cfg) /\ sub (class_of e) c = true) /\
  retry_call_tool sub cfg [] id name frames (Raises e) = ([], inr e).
Proof.
  exists is_sub, (Config true [9] (Nat.leb 4)), "id1"%string, "multiply"%string, ""%string, (Exn 9 "" "" None).
  split; [exists 9; split; [now left | reflexivity] | reflexivity].
Qed.
Print Assumptions C99_base_refuted.

(** Nor is an exception raised when the result is encoded. *)
Theorem C99_unencodable_refuted : exists sub cfg id name frames e,
  sub (class_of e) EXCEPTION = true /\
  (exists c, In c (catch_tool_errors cfg) /\ sub (class_of e) c = true) /\
  retry_call_tool sub cfg [] id name frames (Unencodable e) = ([], inr e).
Proof.
  exists is_sub, loud, "id1"%string, "multiply"%string, ""%string, value_error.
  split; [reflexivity|]. split; [exists EXCEPTION; split; [now left | reflexivity] | reflexivity].
Qed.
Print Assumptions C99_unencodable_refuted.
