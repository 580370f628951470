(** A prompt as texts and blocks in order, and merging texts. *)
From Coq Require Import String List Bool.
From Verif Require Import JsonModel JsonSpec UserModel.
Import ListNotations.

Inductive piece := PText (s : string) | PBlock (v : json).

(** The text of a block, if it is one of type "text". *)
Definition text_of (b : block) : option string :=
  match b with
  | BText s => Some s
  | BVal v => match typed v, v with
              | Some (JStr "text"), JObj l => match jget l "text" with Some (JStr s) => Some s | _ => None end
              | _, _ => None
              end
  end.
(** A block becomes its text converted and formatted, or stays. *)
Inductive piece_of (f : field) : block -> piece -> Prop :=
| po_text : forall b s s' s'', text_of b = Some s -> convert f s = Some s' -> format f s' = Some s'' ->
    piece_of f b (PText s'')
| po_block : forall v, typed v <> Some (JStr "text") -> piece_of f (BVal v) (PBlock v).

Section Spec.
Variable dumps_scalar : json -> string.
Variable block_types : list string.
(** The pieces of a template: literals where they stand, fields replaced by the pieces of their
    encoding. *)
Inductive pieces_of : list segment -> list piece -> Prop :=
| ps_nil : pieces_of [] []
| ps_literal : forall lit l ps, pieces_of l ps ->
    pieces_of ((lit, None) :: l) ((if String.eqb lit "" then [] else [PText lit]) ++ ps)
| ps_field : forall lit f v bs fs l ps,
    encoded f = Some v -> to_content_blocks dumps_scalar block_types v = Some bs -> Forall2 (piece_of f) bs fs ->
    pieces_of l ps ->
    pieces_of ((lit, Some f) :: l) ((if String.eqb lit "" then [] else [PText lit]) ++ fs ++ ps).
End Spec.

(** Merging: each run of texts becomes one, blocks stay where they are. *)
Definition starts_with_text (l : list piece) : Prop := exists s l', l = PText s :: l'.
Inductive merged : list piece -> list block -> Prop :=
| mg_nil : merged [] []
| mg_run : forall ts rest out, ts <> [] -> ~ starts_with_text rest -> merged rest out ->
    merged (map PText ts ++ rest) (BText (String.concat "" ts) :: out)
| mg_block : forall v rest out, merged rest out -> merged (PBlock v :: rest) (BVal v :: out).

(** A plain field: no conversion, no format spec, and no block in the value. *)
Definition plain (block_types : list string) (s : segment) : Prop :=
  match snd s with
  | None => True
  | Some f => (forall x, convert f x = Some x) /\ (forall x, format f x = Some x) /\
      exists v, encoded f = Some v /\ outermost block_types v = [] /\
        (forall x, reached block_types v x -> ~ unhashable_type x)
  end.
(** Its text: literal, then the string itself or the JSON. *)
Definition segment_text (dumps_scalar : json -> string) (s : segment) : string :=
  fst s ++ match snd s with
           | Some f => match encoded f with
                       | Some (JStr x) => x
                       | Some v => dumps dumps_scalar v
                       | None => ""
                       end
           | None => ""
           end.
