(** What [str] of a term should look like for given names of the operations. *)
From Coq Require Import List String Bool Arith.
From Verif Require Import StrModel.
Import ListNotations.
Open Scope string_scope.
Open Scope list_scope.

Section Render.
Variable nm : nat -> string.
Variable repr : nat -> string.

Definition sep {A B} (a : list A) (k : list B) : string :=
  match a, k with [], _ | _, [] => "" | _, _ => ", " end.

(** [deep] true: inside a container printed by [repr]. *)
Fixpoint render (deep : bool) (e : pexpr) : string :=
  (match e with
  | PText s => s
  | POp o => if deep then repr o else nm o
  | PTerm o a k =>
      nm o ++ "(" ++ join (map (render false) a) ++ sep a k ++
      join (map (fun x => fst x ++ "=" ++ render false (snd x)) k) ++ ")"
  | PList l => "[" ++ join (map (render deep) l) ++ "]"
  | PTuple l => "(" ++ join (map (render deep) l) ++ ")"
  | PDict l => "{" ++ join (map (fun x => render deep (fst x) ++ ":" ++ render deep (snd x)) l) ++ "}"
  | POther pre l => pre ++ "(" ++ join (map (render true) l) ++ ")"
  end)%string.
End Render.

(** Operations printed by name. *)
Fixpoint shown (deep : bool) (e : pexpr) : list nat :=
  match e with
  | PText s => []
  | POp o => if deep then [] else [o]
  | PTerm o a k => o :: flat_map (shown false) a ++ flat_map (fun x => shown false (snd x)) k
  | PList l | PTuple l => flat_map (shown deep) l
  | PDict l => flat_map (fun x => shown deep (fst x) ++ shown deep (snd x)) l
  | POther _ l => flat_map (shown true) l
  end.

(** [s] is [b!n] for some number [n]. *)
Definition suffixed (b s : string) : Prop := exists n, s = (b ++ "!" ++ show n)%string.
