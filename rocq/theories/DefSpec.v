(** Which values have terms inside, and what the operations made should be. *)
From Coq Require Import String List Bool Arith.
From Verif Require Import ColModel ColSpec DefModel.
Import ListNotations.
Local Open Scope list_scope.

(** A term at some depth, outside sets *)
Inductive hasterm : val -> Prop :=
  | h_term o args kw : hasterm (Trm o args kw)
  | h_seq k l : Exists hasterm l -> hasterm (Seq k l)
  | h_key k l : Exists hasterm (map fst l) -> hasterm (Mapp k l)
  | h_value k l : Exists hasterm (map snd l) -> hasterm (Mapp k l)
  | h_keys l : Exists hasterm l -> hasterm (Keys l)
  | h_ikey l : Exists hasterm (map fst l) -> hasterm (Items l)
  | h_ivalue l : Exists hasterm (map snd l) -> hasterm (Items l)
  | h_vals l : Exists hasterm l -> hasterm (Vals l)
  | h_data c fs : Exists hasterm (map snd fs) -> hasterm (Data c fs).
(** Arguments of the collections that are kept (C87), as Python makes them *)
Definition ordinary (keyeq : val -> val -> bool) (hash_term : nat -> bool) (args : list val) (kw : kwargs) : Prop :=
  Forall (fun v => plain v /\ proper keyeq hash_term v) (args ++ map snd kw).
Definition with_term (args : list val) (kw : kwargs) : Prop := Exists hasterm (args ++ map snd kw).
(** No operation binds itself. *)
Definition sane (binds : nat -> list val -> kwargs -> list nat) : Prop := forall o args kw, ~ In o (binds o args kw).
(** The name the user gave last, if it is not empty *)
Fixpoint last_name (n : string) (names : list (option string)) : string :=
  match names with [] => n | Some EmptyString :: l | None :: l => last_name n l | Some x :: l => last_name x l end.
