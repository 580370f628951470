(** What feedback should say. *)
From Coq Require Import String List Bool Arith.
From Verif Require Import FbModel.
Import ListNotations.
Open Scope list_scope.

Definition contains (s t : string) : Prop :=
  exists a b, t = (a ++ s ++ b)%string.

(** errors of decoding a response *)
Definition decoding (e : derror) : Prop :=
  match e with ToolCallExecutionError _ _ _ => False | _ => True end.

(** the message [m] tells of the error [e]: it answers the tool call concerned, if
    there is one, naming the tool, and gives the text of what was raised *)
Definition tells (e : derror) (m : message) : Prop :=
  contains (text_of (original e)) (content m) /\
  match e with
  | ToolCallDecodingError _ _ id name => mrole m = Tool /\ answers m = Some id /\ contains name (content m)
  | ResultDecodingError _ _ => mrole m = User /\ answers m = None
  | ToolCallExecutionError _ id name => mrole m = Tool /\ answers m = Some id /\ contains name (content m)
  end.

(** a history that grows by each malformed response and a message telling of it *)
Inductive grows : list message -> list derror -> list message -> Prop :=
| grows_none : forall h, grows h [] h
| grows_tool : forall h o raw id name m es h',
    tells (ToolCallDecodingError o raw id name) m ->
    grows (h ++ [raw; m]) es h' -> grows h (ToolCallDecodingError o raw id name :: es) h'
| grows_result : forall h o raw m es h',
    tells (ResultDecodingError o raw) m ->
    grows (h ++ [raw; m]) es h' -> grows h (ResultDecodingError o raw :: es) h'.

(** the exception with all its causes is printed *)
Definition traced (e : exn) (m : message) : Prop := contains (render e) (content m).

Definition errors_of (l : list attempt) (es : list derror) : Prop :=
  exists fs, length fs = length es /\ l = map (fun p => Bad (fst p) (snd p)) (combine es fs).

(** the errors raised by attempts are errors of decoding *)
Definition decodes (a : attempt) : Prop := match a with Bad e _ => decoding e | _ => True end.

(** how the attempts end *)
Definition ends (cfg : config) (k : nat) (h : list message) (attempts : list attempt)
  (reqs : list (list message)) (o : outcome) : Prop :=
  exists n, (forall i e f, i < n -> nth_error attempts i = Some (Bad e f) -> stop cfg (k + i) = false) /\
    (exists es, length es = n /\ errors_of (firstn n attempts) es) /\
    match nth_error attempts n with
    | Some (Good m) => length reqs = S n /\ o = Returned m
    | Some (Fails e) => length reqs = S n /\ o = Raised e
    | Some (Bad e f) => length reqs = S n /\ stop cfg (k + n) = true /\ o = Raised (raised e f)
    | None => length reqs = n /\ n = length attempts /\ o = NoMoreAttempts
    end.
