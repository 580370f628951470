(** Model of the conversation loop (effectful/handlers/llm/completions.py): message history
    (79-98), [call_assistant] (366-460), [call_tool] (463-488), [call_user] and [call_system]
    (491-550), [RetryLLMHandler] (553-644), [LiteLLMProvider._call] (658-702).
    The language model is any list of responses, with the outcome of decoding as part of the
    response; tools are any programs that may call templates. Simplified: the texts of messages
    are numbers; ids are those given by the model or drawn by [uuid1], which never repeats;
    the user's [before_sleep] hook and waiting between retries are not modelled; the user prompt
    is formatted without side effects. *)
From Coq Require Import List Bool Arith.
Import ListNotations.

(** Ids of messages: given by the model, or drawn by [uuid1] (97) *)
Inductive mident := Given (n : nat) | Drawn (n : nat).
Definition mident_eqb (a b : mident) : bool :=
  match a, b with
  | Given n, Given m => Nat.eqb n m
  | Drawn n, Drawn m => Nat.eqb n m
  | _, _ => false
  end.

(** Messages. An assistant message carries the ids of its tool calls. *)
Inductive role := RSystem | RUser | RAssistant (calls : list nat) | RTool (call : nat).
Record msg := Msg { mid : mident; mrole : role; mtext : nat }.
Definition hist : Type := list msg.      (* an OrderedDict from ids, 86-92 *)

(** Exceptions (101-178) *)
Inductive exn :=
| EOther (n : nat)                       (* any other exception *)
| EDecode (raw : msg) (call : nat)       (* ToolCallDecodingError *)
| EResult (raw : msg)                    (* ResultDecodingError *)
| EExec (call : nat) (orig : exn).       (* ToolCallExecutionError *)
Inductive outcome (A : Type) := Ok (a : A) | Exn (e : exn).
Arguments Ok {A}. Arguments Exn {A}.

(** A template: the agent whose history it uses, its system prompt, and the user prompt or the
    exception formatting it raises (llm/template.py 112-324, 327-378). *)
Record template := { agent : option nat; sys_prompt : nat; user_prompt : outcome nat }.

(** A tool: returns a value, [None] if it has no encoding; raises; or calls a template and goes
    on with what comes of it. *)
Inductive tool :=
| TRet (text : option nat)
| TRaise (e : exn)
| TCall (t : template) (k : outcome (option nat) -> tool).

(** A response (399-413): its own id if any, the tool calls each with what decoding gives
    ([None]: a failure), the content: a good value, one that fails to decode, or no string. *)
Inductive content := CGood (v : nat) | CBad | CNone.
Record response := { rid : option nat; rcalls : list (nat * option tool); rcontent : content; rtext : nat }.
(** [None]: the request itself fails. *)
Definition completion : Type := option response.

(** [drawn]: how many ids [uuid1] has given; [stored]: the agents' histories; [coming]: the
    responses to come; [sent]: the requests so far. *)
Record world := World { drawn : nat; stored : nat -> hist; coming : list completion; sent : list hist }.

(** The retry handler (572-599): its [stop_after_attempt], the errors of tools it catches. *)
Record retry := { stop : nat; catches : exn -> bool }.

(** [history[message["id"]] = message] (88): in place if the id is there *)
Fixpoint set (h : hist) (m : msg) : hist :=
  match h with
  | [] => [m]
  | x :: h' => if mident_eqb (mid x) (mid m) then m :: h' else x :: set h' m
  end.
(** [move_to_end(id, last=False)] (90) *)
Definition to_front (h : hist) (i : mident) : hist :=
  filter (fun x => mident_eqb (mid x) i) h ++ filter (fun x => negb (mident_eqb (mid x) i)) h.

(** [_make_message] (95-98) *)
Definition make (i : option nat) (r : role) (t : nat) (w : world) : msg * world :=
  match i with
  | Some n => (Msg (Given n) r t, w)
  | None => (Msg (Drawn (drawn w)) r t, World (S (drawn w)) (stored w) (coming w) (sent w))
  end.

(** [completion(messages=list(_get_history().values()))] (399-405) *)
Definition request (h : hist) (w : world) : outcome response * world :=
  let w' := World (drawn w) (stored w) (tl (coming w)) (sent w ++ [h]) in
  match coming w with
  | Some r :: _ => (Ok r, w')
  | _ => (Exn (EOther 0), w')
  end.

(** Decoding the tool calls, stopping at the first failure (422-436) *)
Fixpoint decode (raw : msg) (l : list (nat * option tool)) : outcome (list (nat * tool)) :=
  match l with
  | [] => Ok []
  | (c, Some t) :: l' => match decode raw l' with Ok ts => Ok ((c, t) :: ts) | Exn e => Exn e end
  | (c, None) :: _ => Exn (EDecode raw c)
  end.

(** [call_assistant] (366-460) on the history [h]: the outcome, the history, the world *)
Definition answer : Type := msg * list (nat * tool) * option nat.
Definition assistant (h : hist) (w : world) : outcome answer * hist * world :=
  match request h w with
  | (Exn e, w1) => (Exn e, h, w1)
  | (Ok r, w1) =>
      let (raw, w2) := make (rid r) (RAssistant (map fst (rcalls r))) (rtext r) w1 in
      let h1 := set h raw in
      match decode raw (rcalls r) with
      | Exn e => (Exn e, h1, w2)
      | Ok [] =>
          match rcontent r with
          | CGood v => (Ok (raw, [], Some v), h1, w2)
          | CBad => (Exn (EResult raw), h1, w2)
          | CNone => (Exn (EOther 1), h1, w2)            (* the assertion at 442-444 *)
          end
      | Ok (t :: ts) => (Ok (raw, t :: ts, None), h1, w2)
      end
  end.

(** [_before_sleep] (601-607), [to_feedback_message] (115-127, 142-151) *)
Definition feedback (e : exn) (h : hist) (w : world) : hist * world :=
  match e with
  | EDecode raw c => let (m, w1) := make None (RTool c) 0 w in (set (set h raw) m, w1)
  | EResult raw => let (m, w1) := make None RUser 0 w in (set (set h raw) m, w1)
  | _ => (h, w)
  end.
Definition retryable (e : exn) : bool := match e with EDecode _ _ | EResult _ => true | _ => false end.

(** [tenacity.Retrying] with [stop_after_attempt], [reraise] (589-597): [more] attempts are
    allowed after this one *)
Fixpoint attempts (more : nat) (h : hist) (w : world) : outcome answer * world :=
  match assistant h w with
  | (Ok a, _, w1) => (Ok a, w1)
  | (Exn e, h1, w1) =>
      if retryable e then
        match more with
        | 0 => (Exn e, w1)
        | S more' => let (h2, w2) := feedback e h1 w1 in attempts more' h2 w2
        end
      else (Exn e, w1)
  end.

(** [RetryLLMHandler._call_assistant] (609-624), working on a copy of the history *)
Definition assistant_with (rt : option retry) (h : hist) (w : world) : outcome answer * hist * world :=
  match rt with
  | None => assistant h w
  | Some rt =>
      match attempts (pred (stop rt)) h w with
      | (Ok (m, ts, v), w1) => (Ok (m, ts, v), set h m, w1)
      | (Exn e, w1) => (Exn e, h, w1)
      end
  end.

(** What the tool's exception becomes: an error (475-476), or under the retry handler a message
    if the handler catches it (626-644) *)
Definition caught (rt : option retry) (e : exn) : bool :=
  match rt with Some r => catches r e | None => false end.

(** The history at the start of a call: the agent's, with a system prompt (667-681) *)
Definition opening (t : template) (w : world) : hist * world :=
  let h := match agent t with Some a => stored w a | None => [] end in
  match h with
  | {| mrole := RSystem |} :: _ => (h, w)
  | _ => let (s, w1) := make None RSystem (sys_prompt t) w in (to_front (set h s) (mid s), w1)
  end.

(** [history.clear(); history.update(history_copy)] (697-701), only when no history is active *)
Definition store (nested : bool) (a : option nat) (h : hist) (w : world) : world :=
  match nested, a with
  | false, Some a => World (drawn w) (fun x => if Nat.eqb x a then h else stored w x) (coming w) (sent w)
  | _, _ => w
  end.

(** What runs: [_call] (658-702), [nested] telling whether a history is active around it; its
    loop (684-694) on the history so far; the tool calls of one message (693-694); one tool. *)
Inductive job :=
| JCall (nested : bool) (t : template)
| JLoop (h : hist)
| JTools (h : hist) (l : list (nat * tool))
| JTool (p : tool).

(** [None]: out of fuel. The history is that of the loop; calls and tools have none. *)
Fixpoint exec (rt : option retry) (n : nat) (j : job) (w : world) : option (outcome (option nat) * hist * world) :=
  match n with
  | 0 => None
  | S n =>
    match j with
    | JCall nested t =>
        let (h, w1) := opening t w in
        match user_prompt t with
        | Exn e => Some (Exn e, [], w1)
        | Ok u =>
            let (m, w2) := make None RUser u w1 in
            match exec rt n (JLoop (set h m)) w2 with
            | Some (Ok v, h1, w3) => Some (Ok v, [], store nested (agent t) h1 w3)
            | Some (Exn e, _, w3) => Some (Exn e, [], w3)
            | None => None
            end
        end
    | JLoop h =>
        match assistant_with rt h w with
        | (Exn e, h1, w1) => Some (Exn e, h1, w1)
        | (Ok (_, [], v), h1, w1) => Some (Ok v, h1, w1)
        | (Ok (_, ts, _), h1, w1) =>
            match exec rt n (JTools h1 ts) w1 with
            | Some (Ok _, h2, w2) => exec rt n (JLoop h2) w2
            | r => r
            end
        end
    | JTools h [] => Some (Ok None, h, w)
    | JTools h ((c, p) :: ts) =>
        match exec rt n (JTool p) w with
        | None => None
        | Some (Ok None, _, w1) => Some (Exn (EOther 2), h, w1)     (* the result has no encoding, 478-483 *)
        | Some (Ok (Some x), _, w1) =>
            let (m, w2) := make None (RTool c) x w1 in exec rt n (JTools (set h m) ts) w2
        | Some (Exn e, _, w1) =>
            if caught rt e
            then let (m, w2) := make None (RTool c) 0 w1 in exec rt n (JTools (set h m) ts) w2
            else Some (Exn (EExec c e), h, w1)
        end
    | JTool (TRet x) => Some (Ok x, [], w)
    | JTool (TRaise e) => Some (Exn e, [], w)
    | JTool (TCall t k) =>
        match exec rt n (JCall true t) w with
        | Some (o, _, w1) => exec rt n (JTool (k o)) w1
        | None => None
        end
    end
  end.
