(** Number terms over small integers, booleans and floats counted in halves. *)
From Coq Require Import List Bool Arith ZArith.
From Verif Require Import NumModel NumSpec NumProofs.
Import ListNotations.
Open Scope Z_scope.

Inductive num := NI (z : Z) | NF (h : Z) | NB (b : bool).
Definition halves (v : num) : Z := match v with NI z => 2 * z | NF h => h | NB b => if b then 2 else 0 end.
Definition floating (v : num) : bool := match v with NF _ => true | _ => false end.
Definition nkind (v : num) : kind := match v with NI _ => KIntegral | NF _ => KReal | NB _ => KBool end.
Definition exact (f : bool) (h : Z) : num := if f then NF h else NI (h / 2).
(** Division by zero raises exception number 0. *)
Definition nprim (o : bop) (v w : num) : out num :=
  let f := floating v || floating w in
  match o with
  | Add => Ok (exact f (halves v + halves w))
  | Sub => Ok (exact f (halves v - halves w))
  | Mul => Ok (exact f (halves v * halves w / 2))
  | TrueDiv => if halves w =? 0 then Exc (Raised 0) else Ok (NF (2 * halves v / halves w))
  | _ => Exc TypeError
  end.
Definition nunary (u : uop) (v : num) : option (out num) :=
  match u with
  | Neg => Some (Ok (exact (floating v) (- halves v)))
  | Abs => Some (Ok (exact (floating v) (Z.abs (halves v))))
  | Index => if floating v then None else Some (Ok (exact false (halves v)))
  | _ => None
  end.
Definition ncmp (c : cop) (a b : Z) : bool := match c with Lt => a <? b | Gt => b <? a | Le => a <=? b | Ge => b <=? a end.
(** [int.__lt__] and [bool.__lt__] know no floats. *)
Definition nmeth (c : cop) (v w : num) : option num :=
  if negb (floating v) && floating w then None else Some (NB (ncmp c (halves v) (halves w))).
Definition nbelow (v w : num) : bool := match v, w with NI _, NB _ => true | _, _ => false end.
Definition ntruth (v : num) : bool := negb (halves v =? 0).
Definition nsame (v w : num) : bool := halves v =? halves w.
Definition nbuild := build num nkind nprim nunary nmeth nbelow ntruth nsame NB.
Definition ndirect := direct num nprim nunary nmeth nbelow ntruth nsame NB.
Definition neval := eval num nprim nunary nmeth.
Lemma nkind_number : forall v, number (nkind v) = true.
Proof. now destruct v. Qed.
(** Integers and booleans compare either way. *)
Definition whole (c : cop) (v w : num) : option num := Some (NB (ncmp c (halves v) (halves w))).
Lemma whole_comparable : comparable num whole.
Proof. intros c v w. split; [discriminate|]. now destruct c. Qed.
Definition env : nat -> num := fun x => match x with 0%nat => NI 3 | 1%nat => NF 3 | _ => NB true end.
