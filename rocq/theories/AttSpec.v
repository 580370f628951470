(** What an array is said to have *)
From Coq Require Import List Arith ZArith.
From Verif Require Import ArrModel ArrSpec NopModel NopSpec.
Import ListNotations.

(** Row [i] of an array *)
Definition row {V} (i : nat) (b : arr V) : arr V := Arr (tl (shape b)) (fun idx => at_ b (i :: idx)).
(** [n] elements: as many positions *)
Definition has_elements {V} (b : arr V) (n : nat) : Prop :=
  exists l, NoDup l /\ (forall idx, In idx l <-> within (shape b) idx) /\ length l = n.
(** Position [d] of a list counted from the start, or from the end if negative *)
Definition at_position (l : list nat) (d : Z) (x : nat) : Prop :=
  (0 <= d)%Z /\ nth_error l (Z.to_nat d) = Some x \/ (d < 0)%Z /\ nth_error (rev l) (Z.to_nat (- d - 1)) = Some x.
(** Integers in an index *)
Fixpoint ints (key : list kelem) : nat := match key with KInt _ :: key' => S (ints key') | _ :: key' => ints key' | [] => 0 end.
