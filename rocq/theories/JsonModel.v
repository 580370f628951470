(** Model of [to_content_blocks] (effectful/handlers/llm/encoding.py:64-111). Not modelled:
    the pydantic check of the returned list against the block types (line 64). *)
From Coq Require Import String List Bool ZArith.
Import ListNotations.

(** JSON values; floats by their text. *)
Inductive json :=
| JNull
| JBool (b : bool)
| JInt (z : Z)
| JFloat (repr : string)
| JStr (s : string)
| JArr (l : list json)
| JObj (l : list (string * json)).

(** A content block: a text made here, or a value passed through. *)
Inductive block := BText (s : string) | BVal (v : json).

Section Blocks.
(** [json.dumps] of a value that is neither an object nor an array. *)
Variable dumps_scalar : json -> string.
(** [CONTENT_BLOCK_TYPES] (57-62) *)
Variable block_types : list string.

(** [v.get(k)] *)
Fixpoint jget (l : list (string * json)) (k : string) : option json :=
  match l with [] => None | (x, v) :: l' => if String.eqb x k then Some v else jget l' k end.

(** [v.get("type") in CONTENT_BLOCK_TYPES] (88); [None]: the value is not hashable, TypeError. *)
Definition is_block_type (o : option json) : option bool :=
  match o with
  | Some (JStr s) => Some (existsb (String.eqb s) block_types)
  | Some (JArr _) | Some (JObj _) => None
  | _ => Some false
  end.

(** The buffer and the blocks (79-80), and [flush] (82-85) *)
Definition state : Type := list string * list block.
Definition flush (st : state) : state :=
  match fst st with
  | [] => st
  | buf => ([], snd st ++ [BText (String.concat "" buf)])
  end.
Definition put (s : string) (st : state) : state := (fst st ++ [s], snd st).

(** [walk] (87-107) *)
Fixpoint walk (v : json) (st : state) : option state :=
  match v with
  | JObj l =>
      match is_block_type (jget l "type") with
      | None => None
      | Some true => let st := flush st in Some (fst st, snd st ++ [BVal v])
      | Some false =>
          match (fix go (first : bool) (l : list (string * json)) (st : state) :=
                   match l with
                   | [] => Some st
                   | (k, x) :: l' =>
                       let st := if first then st else put ", " st in
                       let st := put (dumps_scalar (JStr k) ++ ": ") st in
                       match walk x st with Some st => go false l' st | None => None end
                   end) true l (put "{" st) with
          | Some st => Some (put "}" st)
          | None => None
          end
      end
  | JArr l =>
      match (fix go (first : bool) (l : list json) (st : state) :=
               match l with
               | [] => Some st
               | x :: l' =>
                   let st := if first then st else put ", " st in
                   match walk x st with Some st => go false l' st | None => None end
               end) true l (put "[" st) with
      | Some st => Some (put "]" st)
      | None => None
      end
  | _ => Some (put (dumps_scalar v) st)
  end.

Definition to_content_blocks (v : json) : option (list block) :=
  match v with
  | JStr s => Some [BText s]
  | _ => match walk v ([], []) with Some st => Some (snd (flush st)) | None => None end
  end.
End Blocks.
