(** Model of [ObjectInterpretation] (effectful/ops/syntax.py:893-1003). *)
From Coq Require Import List Arith Bool.
Import ListNotations.

(** Operations, implementing functions and classes are numbers (object identities). *)
Definition dict := list (nat * nat).

Fixpoint dget (d : dict) (o : nat) : option nat :=
  match d with [] => None | (x, i) :: d' => if x =? o then Some i else dget d' o end.

(** [d[o] = i]: replaces in place or appends. *)
Fixpoint dset (d : dict) (o i : nat) : dict :=
  match d with
  | [] => [(o, i)]
  | (x, j) :: d' => if x =? o then (x, i) :: d' else (x, j) :: dset d' o i
  end.

Definition update (d e : dict) : dict := fold_left (fun acc p => dset acc (fst p) (snd p)) e d.

(** [{**d, **e}] *)
Definition merge (d e : dict) : dict := update (update [] d) e.

(** A class statement: the class made, what its body marks with [implements] in
    textual order, and whether the class is made without an exception after its
    attributes have been named (another attribute's [__set_name__], or an
    [__init_subclass__] further up, may raise). *)
Record stmt := mkstmt { cls : nat; own : dict; ok : bool }.

(** [implementations] of each class, and [ObjectInterpretation._temporary_implementations]. *)
Record world := mkworld { impls : nat -> option dict; temp : dict }.

Section Classes.
(** The method resolution order Python computes for each class, [cls.mro()]. Classes not
    deriving from [ObjectInterpretation] have no [implementations] here. *)
Variable mro : nat -> list nat.

(** [_ImplementedOperation.__set_name__] (syntax.py:987-990) for each marked attribute *)
Definition set_names (w : world) (d : dict) : world := mkworld (impls w) (update (temp w) d).

(** The loop of [__init_subclass__] (syntax.py:954-956); [sup] is the class itself first,
    whose [implementations] is the accumulator. *)
Fixpoint gather (w : world) (c : nat) (m : list nat) (acc : dict) : dict :=
  match m with
  | [] => acc
  | sup :: m' =>
      if sup =? c then gather w c m' (merge acc acc)
      else match impls w sup with
           | Some d => gather w c m' (merge d acc)
           | None => gather w c m' acc
           end
  end.

(** [__init_subclass__] (syntax.py:950-958) *)
Definition init_subclass (w : world) (c : nat) : world :=
  let d := gather w c (mro c) (temp w) in
  mkworld (fun x => if x =? c then Some d else impls w x) [].

Definition run_stmt (w : world) (s : stmt) : world :=
  let w1 := set_names w (own s) in
  if ok s then init_subclass w1 (cls s) else w1.

(** [ObjectInterpretation] itself is class 0 with no implementations (syntax.py:947-948). *)
Definition start : world := mkworld (fun x => if x =? 0 then Some [] else None) [].

Definition run (l : list stmt) : world := fold_left run_stmt l start.

(** [obj[o]] for an instance of class [c] (syntax.py:966-967): the function that gets
    bound to the instance, [None] for KeyError. *)
Definition getitem (w : world) (c o : nat) : option nat :=
  match impls w c with Some d => dget d o | None => None end.
End Classes.
