(** What indexing with index tensors means: PyTorch's rule, by way of indexing with integers (ArrSpec). *)
From Coq Require Import List Bool Arith ZArith.
From Verif Require Import ArrModel ArrSpec TgetModel.
Import ListNotations.

Section Spec.
Variable tens : nat -> index.
Definition rank (n : nat) : nat := length (shape (numbers_of (tens n))).
(** The key with the integers at position [b] of the common shape of its tensors *)
Definition at_position (b : list nat) (key : list kelem) : list kelem :=
  map (fun k => match k with KName n => KInt (bat (numbers_of (tens n)) b) | _ => k end) key.
Definition tensors (key : list kelem) : list (arr Z) := flat_map (fun k => match k with KName n => [numbers_of (tens n)] | _ => [] end) key.

(** The axes of the result an element makes, [e] being those the ellipsis stands for; integers and tensors without axes
    make none. [None] for a tensor with axes. *)
Definition part (e : nat) (k : kelem) : option nat :=
  match k with
  | KNone | KSlice _ _ _ => Some 1
  | KEll => Some e
  | KInt _ => Some 0
  | KName n => if Nat.eqb (rank n) 0 then Some 0 else None
  end.
(** Axes before the first [None], up to the last, and from the first to the last *)
Fixpoint before (l : list (option nat)) : nat := match l with Some w :: l' => w + before l' | _ => 0 end.
Fixpoint up_to (l : list (option nat)) : nat :=
  match l with
  | [] => 0
  | None :: l' => up_to l'
  | Some w :: l' => if forallb is_some l' then 0 else w + up_to l'
  end.
Fixpoint between (l : list (option nat)) : nat := match l with [] => 0 | None :: l' => up_to l' | Some _ :: l' => between l' end.
(** The axes of the tensors go in the place of the tensors if nothing but integers is between them, else first. *)
Definition goes (l : list (option nat)) : nat := if Nat.eqb (between l) 0 then before l else 0.

Definition whole_key (key : list kelem) : list kelem := if existsb is_ell key then key else key ++ [KEll].
Definition parts {V} (x : arr V) (key : list kelem) : list (option nat) := map (part (length (shape x) - used key)) (whole_key key).

(** [r] is [x[key]]: at each position [b] of the index tensors lies [x] indexed with the integers there. *)
Definition indexed {V} (x : arr V) (key : list kelem) (r : arr V) : Prop :=
  exists B s, bshapes (map shape (tensors key)) = Some B /\ let p := goes (parts x key) in
    shape r = firstn p s ++ B ++ skipn p s /\
    forall b, within B b -> exists y, index_full_arr (fun _ => 0) x (at_position b key) = Some y /\ shape y = s /\
      forall idx, within s idx -> at_ r (firstn p idx ++ b ++ skipn p idx) = at_ y idx.
(** There is a value. *)
Definition fits {V} (x : arr V) (key : list kelem) : Prop :=
  ellipses key <= 1 /\ used key <= length (shape x) /\
  exists B, bshapes (map shape (tensors key)) = Some B /\ forall b, within B b -> index_full_arr (fun _ => 0) x (at_position b key) <> None.

(** Slices of whole axes and no lists *)
Definition simple (key : list kelem) : Prop :=
  forall k, In k key -> match k with KSlice _ _ _ => k = KAll | KName n => exists t, tens n = Tensor t | _ => True end.
(** No tensor has axes; or all have and there are no integers; or integers and tensors are next to each other. *)
Definition scalars (key : list kelem) : Prop := forall n, In (KName n) key -> rank n = 0.
Definition no_integers (key : list kelem) : Prop := forall k, In k key -> match k with KInt _ => False | KName n => rank n <> 0 | _ => True end.
Definition together {V} (x : arr V) (key : list kelem) : Prop :=
  between (map (fun k => match k with KInt _ | KName _ => None | _ => part (length (shape x) - used key) k end) (whole_key key)) = 0.
Definition settled {V} (x : arr V) (key : list kelem) : Prop := scalars key \/ no_integers key \/ together x key.
End Spec.
