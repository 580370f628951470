(** What candidates of the beam search should be: prefixes of runs of the program. *)
From Coq Require Import List Bool Arith ZArith Permutation.
Import ListNotations.
From Verif Require Import BeamModel.

Section Spec.
Variables T A : Type.
Notation prog := (prog T A).
Notation cand := (cand T A).

(** [prefix p t z st]: making the choices [t] (each with the list it was taken from), the program [p] scores [z] and then
    waits for another choice, or is done *)
Inductive status := Waiting | Done (a : A).
Inductive prefix : prog -> list (list T * T) -> Z -> status -> Prop :=
| P_ret a : prefix (Ret a) [] 0 (Done a)
| P_wait cs k : prefix (Choose cs k) [] 0 Waiting
| P_choose cs k x t z st : In x cs -> prefix (k x) t z st -> prefix (Choose cs k) ((cs, x) :: t) z st
| P_score y k t z st : prefix k t z st -> prefix (Score y k) t (y + z) st.
(** A candidate tells of a prefix *)
Definition status_of (c : cand) (st : status) : Prop :=
  match st with Waiting => in_progress c = true /\ result c = None | Done a => in_progress c = false /\ result c = Some a end.
Definition real (p : prog) (c : cand) : Prop := exists st, prefix p (trace c) (score c) st /\ status_of c st.
(** Every list of choices offered has an element *)
Inductive offers : prog -> Prop :=
| O_ret a : offers (Ret a)
| O_score y k : offers k -> offers (Score y k)
| O_choose cs k : cs <> [] -> (forall x, In x cs -> offers (k x)) -> offers (Choose cs k).
(** Every choice (or the end, without choices) raises the score, which is 0 at the start *)
Definition rises (p : prog) : Prop :=
  (forall a z, prefix p [] z (Done a) -> (0 < z)%Z) /\
  (forall x z st, prefix p [x] z st -> (0 < z)%Z) /\
  (forall t x z z' st, prefix p t z Waiting -> prefix p (t ++ [x]) z' st -> (z < z')%Z).
(** No prefix scores above 0, as with logarithms of probabilities *)
Definition never_positive (p : prog) : Prop := forall t z st, prefix p t z st -> (z <= 0)%Z.

(** What the documentation promises of [heapq] on the lists it has made ([ok]): the first is the least; pushing adds;
    pushing and popping replaces the first if the new one is greater *)
Record heaps (ok : list cand -> Prop) (push pushpop : list cand -> cand -> list cand) : Prop := {
  heap_one : forall c, ok [c];
  heap_least : forall c h d, ok (c :: h) -> In d h -> (score c <= score d)%Z;
  heap_push : forall h c, ok h -> ok (push h c) /\ Permutation (push h c) (c :: h);
  heap_pushpop : forall m h c, ok (m :: h) -> ok (pushpop (m :: h) c) /\
     if less m c then Permutation (pushpop (m :: h) c) (c :: h) else Permutation (pushpop (m :: h) c) (m :: h) }.
(** [random.choice] returns an element *)
Definition picks {G} (pick : list T -> G -> T * G) : Prop := forall cs g, cs <> [] -> In (fst (pick cs g)) cs.
End Spec.

Arguments Waiting {A}.
Arguments Done {A} a.
Arguments prefix {T A} p t z st.
Arguments status_of {T A} c st.
Arguments real {T A} p c.
Arguments offers {T A} p.
Arguments rises {T A} p.
Arguments never_positive {T A} p.
Arguments heaps {T A} ok push pushpop.
Arguments picks {T G} pick.
