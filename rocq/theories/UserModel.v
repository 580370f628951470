(** Model of [call_user] (effectful/handlers/llm/completions.py:491-541): formatting a prompt.
    The template is given as [string.Formatter.parse] splits it after [textwrap.dedent]; looking
    up and encoding a field, and Python's conversions and format specs on strings, are given. *)
From Coq Require Import String List Bool.
From Verif Require Import JsonModel.
Import ListNotations.

(** A field: its encoding, [None] if lookup or encoding raises (514-518); what conversion (521-525)
    and format spec (526) make of a text, [None] if they raise. *)
Record field := { encoded : option json; convert : string -> option string; format : string -> option string }.
Definition segment : Type := string * option field.

Section User.
Variable dumps_scalar : json -> string.
Variable block_types : list string.

(** One part of a field (519-529); [None]: an exception *)
Definition part (f : field) (b : block) (st : state) : option state :=
  let text (s : string) :=
    match convert f s with
    | Some s => match format f s with Some s => Some (put s st) | None => None end
    | None => None
    end in
  match b with
  | BText s => text s
  | BVal v =>
      match v with
      | JObj l =>
          match jget l "type" with
          | Some (JStr "text") => match jget l "text" with Some (JStr s) => text s | _ => None end
          | _ => let st := flush st in Some (fst st, snd st ++ [BVal v])
          end
      | _ => None
      end
  end.
Fixpoint parts_of (f : field) (l : list block) (st : state) : option state :=
  match l with
  | [] => Some st
  | b :: l' => match part f b st with Some st => parts_of f l' st | None => None end
  end.
(** The loop (505-529) *)
Fixpoint segments (l : list segment) (st : state) : option state :=
  match l with
  | [] => Some st
  | (lit, fd) :: l' =>
      let st := match lit with EmptyString => st | _ => put lit st end in
      match fd with
      | None => segments l' st
      | Some f =>
          match encoded f with
          | None => None
          | Some v =>
              match to_content_blocks dumps_scalar block_types v with
              | None => None
              | Some bs => match parts_of f bs st with Some st => segments l' st | None => None end
              end
          end
      end
  end.
(** The content of the user message (531-536) *)
Definition call_user (l : list segment) : option (list block) :=
  match segments l ([], []) with Some st => Some (snd (flush st)) | None => None end.
End User.
