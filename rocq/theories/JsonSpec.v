(** [json.dumps] with its default separators, what a reader sees of a list of blocks, and the
    blocks inside a value. *)
From Coq Require Import String List Bool ZArith.
Import ListNotations.
From Verif Require Import JsonModel.
Open Scope string_scope.

Section Spec.
Variable dumps_scalar : json -> string.
Variable block_types : list string.

Definition separated (l : list string) : string := String.concat ", " l.

Fixpoint dumps (v : json) : string :=
  match v with
  | JArr l => "[" ++ separated (map dumps l) ++ "]"
  | JObj l => "{" ++ separated (map (fun kx => dumps_scalar (JStr (fst kx)) ++ ": " ++ dumps (snd kx)) l) ++ "}"
  | _ => dumps_scalar v
  end.

Definition typed (v : json) : option json := match v with JObj l => jget l "type" | _ => None end.
(** Content blocks are objects whose type is one of the block types. *)
Definition is_block (v : json) : Prop := exists s, typed v = Some (JStr s) /\ In s block_types.
Definition is_text (b : block) : Prop :=
  match b with BText _ => True | BVal v => typed v = Some (JStr "text") end.

(** What is shown of a block: the text of a text block, else its JSON. *)
Definition shown (b : block) : string :=
  match b with
  | BText s => s
  | BVal (JObj l) =>
      match jget l "type", jget l "text" with
      | Some (JStr "text"), Some (JStr s) => s
      | _, _ => dumps (JObj l)
      end
  | BVal v => dumps v
  end.
Definition linearize (bs : list block) : string := String.concat "" (map shown bs).

(** The outermost blocks of a value, from left to right. *)
Definition blockb (v : json) : bool := match typed v with Some (JStr s) => existsb (String.eqb s) block_types | _ => false end.
Fixpoint outermost (v : json) : list json :=
  if blockb v then [v] else
  match v with
  | JArr l => flat_map outermost l
  | JObj l => flat_map (fun kx => outermost (snd kx)) l
  | _ => []
  end.

(** [reached v x]: [x] is inside [v], not within a block. *)
Inductive reached : json -> json -> Prop :=
| R_here : forall v, reached v v
| R_item : forall l v x, In v l -> reached v x -> reached (JArr l) x
| R_field : forall l k v x, ~ is_block (JObj l) -> In (k, v) l -> reached v x -> reached (JObj l) x.
Definition unhashable_type (v : json) : Prop :=
  match typed v with Some (JArr _) | Some (JObj _) => True | _ => False end.

Inductive no_two_texts : list block -> Prop :=
| N_nil : no_two_texts []
| N_one : forall b, no_two_texts [b]
| N_cons : forall a b l, ~ (is_text a /\ is_text b) -> no_two_texts (b :: l) -> no_two_texts (a :: b :: l).
Definition values (bs : list block) : list json := flat_map (fun b => match b with BVal v => [v] | BText _ => [] end) bs.
End Spec.
