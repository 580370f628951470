(** What is expected of distributions as terms: the arguments of a call by their names, the objects and terms a
    program can have made, how deep objects of the library still stand in a value, and the replacement of all terms of
    one constructor. *)
From Coq Require Import String ZArith List Bool Arith.
From Verif Require Import NpdModel.
Import ListNotations.
Local Open Scope string_scope.
Local Open Scope list_scope.

Definition names (e : entry) : list string := map fst (params e).
(** The argument of a call for a parameter: by position, else by keyword, else the default *)
Fixpoint argument (ps : list (string * option val)) (pos : list val) (kw : list (string * val)) (a : string) : option val :=
  match ps with
  | [] => None
  | (n, d) :: ps' =>
      if String.eqb n a then match pos with v :: _ => Some v | [] => match get kw a with Some v => Some v | None => d end end
      else argument ps' (tl pos) kw a
  end.

Section Spec.
Variables chol chol_inv cov prec : nat -> nat.
(** The conversions of the library agree with each other. *)
Record coherent := Coherent { chol_cov : forall l, chol (cov l) = l; prec_chol_inv : forall p, prec (chol_inv p) = p }.
(** Values a program can have: data, what the library makes of the parameters the operation of the class has too, and
    terms. Missing: [Wishart], and the library's further options. *)
Inductive object : val -> Prop :=
  | o_null : object Null
  | o_num z : object (Num z)
  | o_txt s : object (Txt s)
  | o_arr n : object (Arr n)
  | o_lib e pos kw v : In e table -> cls e <> "Wishart" -> length pos <= length (params e) -> incl (map fst kw) (names e) ->
      Forall object pos -> Forall object (map snd kw) -> lib_new chol chol_inv cov prec (cls e) pos kw = Ok v -> object v
  | o_term e args kw : In e table -> cls e <> "Wishart" -> length args = length (params e) ->
      (forall k, In k (map fst kw) -> ~ In k (names e)) -> Forall object args -> Forall object (map snd kw) -> object (Tm (cls e) args kw).
End Spec.

Definition maxl (l : list nat) : nat := fold_right Nat.max 0 l.
(** How deep objects of the library stand in each other *)
Fixpoint depth (v : val) : nat :=
  match v with
  | Raw _ attrs _ => S (maxl (map (fun k : string * val => depth (snd k)) attrs))
  | Tm _ args kw => Nat.max (maxl (map depth args)) (maxl (map (fun k : string * val => depth (snd k)) kw))
  | _ => 0
  end.
(** Evaluating again and again *)
Fixpoint passes (n : nat) (v : val) : outcome val :=
  match n with 0 => Ok v | S n' => andthen (evaluate none v) (passes n') end.

(** A term made of terms only, with all their arguments *)
Inductive whole : val -> Prop :=
  | w_null : whole Null
  | w_num z : whole (Num z)
  | w_txt s : whole (Txt s)
  | w_arr n : whole (Arr n)
  | w_term e args kw : In e table -> length args = length (params e) -> (forall k, In k (map fst kw) -> ~ In k (names e)) ->
      Forall whole args -> Forall whole (map snd kw) -> whole (Tm (cls e) args kw).
(** Replacing all terms of a constructor, from the inside *)
Fixpoint replace (a : string) (f : list val -> list (string * val) -> val) (v : val) : val :=
  match v with
  | Tm c args kw =>
      let args' := map (replace a f) args in
      let kw' := map (fun k : string * val => (fst k, replace a f (snd k))) kw in
      if String.eqb c a then f args' kw' else Tm c args' kw'
  | _ => v
  end.
Definition handle (a : string) (f : list val -> list (string * val) -> val) : handlers :=
  fun c => if String.eqb c a then Some (fun pos kw => Ok (f pos kw)) else None.
