(** What a model is told about its errors.

    effectful/handlers/llm/completions.py 101-178 (decoding and execution errors and
    their feedback messages), 463-487 (call_tool), 553-644 (RetryLLMHandler).

    Simplified: messages are a role, the id of the tool call answered, and a text; their
    own ids, which are keys of the history (86-92), are left out, so the second
    [append_message] of a malformed response (607), which finds its key, is none: repeated
    ids are the business of C37-C39.  The hook of the user (609-610) and waiting are left
    out.  Tracebacks are texts; only causes given with [raise ... from] are chained.
    [tenacity.Retrying] is modelled as its loop: an attempt runs within [try], which is
    left before the callback [before_sleep] runs. *)
From Coq Require Import String List Bool Arith.
Import ListNotations.
Open Scope string_scope.

Definition nl : string := String (Ascii.ascii_of_nat 10) "".

(** an exception: its class, [str(e)], its own traceback as printed, [__cause__] *)
Inductive exn := Exn (class : nat) (text frames : string) (cause : option exn).
Definition class_of (e : exn) := let (c, _, _, _) := e in c.
Definition text_of (e : exn) := let (_, t, _, _) := e in t.

(** [traceback.format_exc()], which prints the exception being handled, the innermost
    first in the list, with its causes before it *)
Fixpoint render (e : exn) : string :=
  match e with
  | Exn _ _ f None => f
  | Exn _ _ f (Some c) =>
      render c ++ nl ++ "The above exception was the direct cause of the following exception:" ++ nl ++ nl ++ f
  end.
Definition format_exc (handling : list exn) : string :=
  match handling with
  | e :: _ => render e
  | [] => "NoneType: None" ++ nl
  end.

Inductive role := Assistant | User | Tool.
Record message := Message { mrole : role; answers : option string; content : string }.

(** ** The errors (113-178) *)
Inductive derror :=
| ToolCallDecodingError (original : exn) (raw : message) (id name : string)
| ResultDecodingError (original : exn) (raw : message)
| ToolCallExecutionError (original : exn) (id name : string).

(** [__str__] (120-121, 144-145, 164-165) *)
Definition str (e : derror) : string :=
  match e with
  | ToolCallDecodingError o _ _ name =>
      "Error decoding tool call '" ++ name ++ "': " ++ text_of o ++ ". Please provide a valid response and try again."
  | ResultDecodingError o _ =>
      "Error decoding response: " ++ text_of o ++ ". Please provide a valid response and try again."
  | ToolCallExecutionError o _ name =>
      "Tool execution failed: Error executing tool '" ++ name ++ "': " ++ text_of o
  end.

Definition original (e : derror) : exn :=
  match e with
  | ToolCallDecodingError o _ _ _ => o
  | ResultDecodingError o _ => o
  | ToolCallExecutionError o _ _ => o
  end.

(** the classes of the three errors; [Exception] *)
Definition EXCEPTION := 0.
Definition DECODING := 1.

(** [raise E(...) from original] (426-430, 457, 476), with the frames of the raise *)
Definition raised (e : derror) (frames : string) : exn :=
  Exn DECODING (str e) frames (Some (original e)).

(** [to_feedback_message] (123-134, 147-154, 167-178) *)
Definition to_feedback_message (include_traceback : bool) (handling : list exn) (e : derror) : message :=
  let text := str e in
  let text := if include_traceback
              then text ++ nl ++ nl ++ "Traceback:" ++ nl ++ "```" ++ nl ++ format_exc handling ++ "```"
              else text in
  match e with
  | ToolCallDecodingError _ _ id _ => Message Tool (Some id) text
  | ResultDecodingError _ _ => Message User None text
  | ToolCallExecutionError _ id _ => Message Tool (Some id) text
  end.

(** [e.raw_message]; execution errors have none *)
Definition raw_message (e : derror) : list message :=
  match e with
  | ToolCallDecodingError _ raw _ _ => [raw]
  | ResultDecodingError _ raw => [raw]
  | ToolCallExecutionError _ _ _ => []
  end.

(** ** RetryLLMHandler (553-644) *)
Record config := Config {
  include_traceback : bool;
  catch_tool_errors : list nat;
  stop : nat -> bool               (* after attempt k, counted from 1 *)
}.

(** what one attempt of call_assistant gives: a decoded response, a decoding error, or
    another exception (of the connection, say) *)
Inductive attempt :=
| Good (m : message)
| Bad (e : derror) (frames : string)
| Fails (e : exn).

Inductive outcome :=
| Returned (m : message)
| Raised (e : exn)
| NoMoreAttempts.                  (* of the model only: the list of attempts ended *)

(** [_before_sleep] (604-610): at this point the exception is no longer being handled;
    [handling] is what the caller was handling all along *)
Definition before_sleep (cfg : config) (handling : list exn) (history : list message) (e : derror)
  : list message :=
  history ++ raw_message e ++ [to_feedback_message (include_traceback cfg) handling e].

(** [self.call_assistant_retryer(fwd)] (624): the requests sent and the outcome *)
Fixpoint retrying (cfg : config) (handling : list exn) (k : nat) (history : list message)
  (attempts : list attempt) : list (list message) * outcome :=
  match attempts with
  | [] => ([], NoMoreAttempts)
  | a :: rest =>
      match a with
      | Good m => ([history], Returned m)
      | Fails e => ([history], Raised e)
      | Bad e frames =>
          if stop cfg k then ([history], Raised (raised e frames))
          else
            let (reqs, o) := retrying cfg handling (S k) (before_sleep cfg handling history e) rest in
            (history :: reqs, o)
      end
  end.

(** [_call_assistant] (613-626): works on a copy; the history gets the good message only *)
Definition retry_call_assistant (cfg : config) (handling : list exn) (history : list message)
  (attempts : list attempt) : list (list message) * list message * outcome :=
  let (reqs, o) := retrying cfg handling 1 history attempts in
  match o with
  | Returned m => (reqs, app history [m], o)
  | _ => (reqs, history, o)
  end.

(** ** Tools (463-487, 628-644) *)
Inductive tool_run :=
| Returns (text : string)          (* a result that is encoded to this text *)
| Unencodable (e : exn)            (* a result whose encoding raises e (479-484) *)
| Raises (e : exn).

Section Classes.
Variable sub : nat -> nat -> bool. (* issubclass *)

(** [call_tool]: messages appended, and the outcome; an execution error is raised with
    the frames given *)
Definition call_tool (id name frames : string) (t : tool_run) : list message * (message + (exn * option derror)) :=
  match t with
  | Returns text => ([Message Tool (Some id) text], inl (Message Tool (Some id) text))
  | Unencodable e => ([], inr (e, None))
  | Raises e =>
      if sub (class_of e) EXCEPTION
      then ([], inr (raised (ToolCallExecutionError e id name) frames, Some (ToolCallExecutionError e id name)))
      else ([], inr (e, None))
  end.

(** [_call_tool]: within [except] the error is being handled *)
Definition retry_call_tool (cfg : config) (handling : list exn) (id name frames : string) (t : tool_run)
  : list message * (message + exn) :=
  match call_tool id name frames t with
  | (ms, inl m) => (ms, inl m)
  | (ms, inr (x, Some e)) =>
      if existsb (sub (class_of (original e))) (catch_tool_errors cfg)
      then let m := to_feedback_message (include_traceback cfg) (x :: handling) e in (app ms [m], inl m)
      else (ms, inr x)
  | (ms, inr (x, None)) => (ms, inr x)
  end.
End Classes.
