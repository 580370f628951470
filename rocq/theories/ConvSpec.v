(** What a conversation is, independently of how it is produced. *)
From Coq Require Import List Bool Arith.
From Verif Require Import ConvModel.
Import ListNotations.

(** The tool messages answer the calls, one each, in order. *)
Definition answers (calls : list nat) (tools : hist) : Prop :=
  map mrole tools = map RTool calls.

(** Assistant messages with calls, each followed by its answers, up to one without calls. *)
Inductive conversation : hist -> Prop :=
| conv_end : forall m, mrole m = RAssistant [] -> conversation [m]
| conv_turn : forall m calls tools rest,
    mrole m = RAssistant calls -> calls <> [] -> answers calls tools ->
    conversation rest -> conversation (m :: tools ++ rest).

(** Every assistant message is followed at once by the answers to its calls, and no tool message
    answers anything else. *)
Inductive answered : hist -> Prop :=
| ans_nil : answered []
| ans_plain : forall m rest, mrole m = RSystem \/ mrole m = RUser -> answered rest -> answered (m :: rest)
| ans_turn : forall m calls tools rest,
    mrole m = RAssistant calls -> answers calls tools -> answered rest -> answered (m :: tools ++ rest).

(** The ids the model will give. *)
Fixpoint given (l : list completion) : list nat :=
  match l with
  | [] => []
  | Some {| rid := Some n |} :: l' => n :: given l'
  | _ :: l' => given l'
  end.
(** Ids do not clash: the model's are all different and not used yet, nor are those to be drawn. *)
Definition unused (w : world) (i : mident) : Prop :=
  match i with Given n => In n (given (coming w)) | Drawn k => drawn w <= k end.
Definition unclashing (w : world) : Prop :=
  NoDup (given (coming w)) /\ forall a m, In m (stored w a) -> ~ unused w (mid m).

(** None of the ids in [h] will come again. *)
Definition fresh_for (w : world) (h : hist) : Prop := forall m, In m h -> ~ unused w (mid m).
(** The history a template continues. *)
Definition history_of (t : template) (w : world) : hist :=
  match agent t with Some a => stored w a | None => [] end.

(** The system message a call adds: one if the history does not start with one. *)
Definition system_first (h : hist) : Prop := exists m h', h = m :: h' /\ mrole m = RSystem.
Definition prefix_for (h pre : hist) : Prop :=
  (system_first h /\ pre = []) \/ (~ system_first h /\ exists s, pre = [s] /\ mrole s = RSystem).

(** What the model's response amounts to. *)
Inductive verdict := VCalls | VValue (v : nat) | VBadCall (c : nat) | VBadValue | VFails.
Fixpoint first_bad (l : list (nat * option tool)) : option nat :=
  match l with [] => None | (c, None) :: _ => Some c | (_, Some _) :: l' => first_bad l' end.
Definition judge (r : completion) : verdict :=
  match r with
  | None => VFails
  | Some r =>
      match first_bad (rcalls r), rcalls r, rcontent r with
      | Some c, _, _ => VBadCall c
      | None, [], CGood v => VValue v
      | None, [], CBad => VBadValue
      | None, [], CNone => VFails
      | None, _, _ => VCalls
      end
  end.
Definition malformed (r : completion) : Prop :=
  match judge r with VBadCall _ | VBadValue => True | _ => False end.
(** The feedback to a malformed response: a tool message for the bad call, a user message. *)
Definition feedback_role (r : completion) (x : role) : Prop :=
  match judge r with VBadCall c => x = RTool c | VBadValue => x = RUser | _ => False end.
(** The message of a response. *)
Definition message_of (r : completion) (m : msg) : Prop :=
  exists s, r = Some s /\ mrole m = RAssistant (map fst (rcalls s)) /\ mtext m = rtext s.
(** The error a malformed response gives. *)
Definition error_of (r : completion) (e : exn) : Prop :=
  match judge r, e with
  | VBadCall c, EDecode raw c' => c' = c /\ message_of r raw
  | VBadValue, EResult raw => message_of r raw
  | _, _ => False
  end.
(** What a good response gives: its message, and its value or its calls. *)
Definition answer_of (r : completion) (a : answer) : Prop :=
  let '(m, ts, v) := a in
  message_of r m /\ mrole m = RAssistant (map fst ts) /\
  ((ts = [] /\ exists x, v = Some x /\ judge r = VValue x) \/
   (ts <> [] /\ v = None /\ judge r = VCalls)).

(** [k] failed attempts, then one that counts: the requests, each showing the model what went
    wrong before. *)
Definition requests_of (k : nat) (h : hist) (responses : list completion) (reqs : list hist) : Prop :=
  length reqs = S k /\ nth 0 reqs [] = h /\
  forall i, i < k ->
    malformed (nth i responses None) /\
    exists raw fb, nth (S i) reqs [] = nth i reqs [] ++ [raw; fb] /\
      message_of (nth i responses None) raw /\ feedback_role (nth i responses None) (mrole fb).

(** Responses with a bad tool call have no other call. *)
Definition lone_bad_calls (l : list completion) : Prop :=
  forall r c, In (Some r) l -> first_bad (rcalls r) = Some c -> map fst (rcalls r) = [c].
