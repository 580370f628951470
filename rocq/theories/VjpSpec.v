(** What a vector-Jacobian product of a function of arrays with named dimensions is: every element at every position of the
    names is an element. *)
From Coq Require Import List Bool Arith.
From Verif Require Import ArrModel ArrSpec NopModel NopSpec FunModel FunSpec VjpModel.
Import ListNotations.

Section Spec.
Variable V : Type.
Variables (zero : V) (add mul : V -> V -> V).
Variable D : V -> (V -> V) -> V.

(** A value with element [i] at position [env] of the names set to [t] *)
Definition set_at (env : nat -> nat) (i : list nat) (t : V) (v : val V) : val V :=
  match v with
  | VArr _ a => VArr V (set_elem V a i t)
  | VGet _ a dims => match index_axes env (shape a) dims with Some (_, g) => VGet V (set_elem V a (g i) t) dims | None => v end
  | _ => v
  end.
Fixpoint change {A} (k : nat) (f : A -> A) (l : list A) : list A :=
  match k, l with _, [] => [] | 0, x :: l' => f x :: l' | S k', x :: l' => x :: change k' f l' end.
(** Element [idx] of result [j] at position [rho] *)
Definition elem (r : res (tree (val V))) (j : nat) (rho : nat -> nat) (idx : list nat) : V :=
  match r with
  | Ok t => match nth_error (leaves t) j with Some v => match leaf_at V rho v with Some a => at_ a idx | None => zero end | None => zero end
  | _ => zero
  end.

(** The derivatives of the elements of result [j] at position [rho] in element [i] at position [env] of argument [k], where
    the argument is [x], each times the cotangent [ct] there *)
Definition contributions (func : nfun V) (primals : list (val V)) (k : nat) (env : nat -> nat) (i : list nat) (x : V) (j : nat) (ct : val V) (rho : nat -> nat) : list V :=
  match leaf_at V rho ct with
  | Some c => map (fun idx => mul (at_ c idx) (D x (fun t => elem (func (change k (set_at env i t) primals)) j rho idx))) (indices (shape c))
  | None => []
  end.
(** All positions of the names [m] that satisfy [here]; other names are where [env] has them. *)
Definition positions (env : nat -> nat) (here : (nat -> nat) -> bool) (m : list (nat * nat)) : list (nat -> nat) :=
  filter here (map (assign env (map fst m)) (indices (map snd m))).
(** The gradient: the sum over the results, the positions of their names and their elements. [ms] are the names of the
    results with their sizes. *)
Definition gradient (func : nfun V) (primals : list (val V)) (k : nat) (env : nat -> nat) (here : (nat -> nat) -> bool) (i : list nat) (x : V)
    (ms : list (list (nat * nat))) (cts : list (val V)) : V :=
  total V zero add (flat_map (fun jc : nat * (list (nat * nat) * val V) =>
    flat_map (contributions func primals k env i x (fst jc) (snd (snd jc))) (positions env here (fst (snd jc))))
    (combine (seq 0 (length cts)) (combine ms cts))).
Definition everywhere : (nat -> nat) -> bool := fun _ => true.
(** The positions where the names of [v] are as in [env] *)
Definition where_ (env : nat -> nat) (v : val V) (rho : nat -> nat) : bool :=
  match v with VGet _ _ dims => forallb (fun k => match k with KName n => Nat.eqb (rho n) (env n) | _ => true end) dims | _ => true end.

(** Functions made of array operations: errors, structure, names and shapes of the results depend on the names and shapes of
    the arguments; at each position of the names the results depend on the arguments there. *)
Definition good (v : val V) : Prop := concrete V v /\ regular V v.
Record nice (func : nfun V) : Prop := {
  nice_shape : forall vs ws, Forall good vs -> Forall good ws -> Forall2 (alike V) vs ws ->
    both (fun t u => is_node t = is_node u /\ Forall2 (alike V) (leaves t) (leaves u)) (func vs) (func ws);
  nice_at : forall vs ws t u rho, Forall good vs -> Forall good ws -> Forall2 (fun v w => same (leaf_at V rho v) (leaf_at V rho w)) vs ws ->
    func vs = Ok t -> func ws = Ok u -> is_node t = is_node u /\ Forall2 (fun v w => same (leaf_at V rho v) (leaf_at V rho w)) (leaves t) (leaves u);
  nice_good : forall vs t, Forall good vs -> func vs = Ok t -> Forall good (leaves t) }.
(** Values with at least one position *)
Definition inhabited (v : val V) : Prop := exists env, leaf_at V env v <> None.

(** Programs on named arrays: arguments, arrays, indexing and the library's functions *)
Inductive nprog := NArg (k : nat) | NArr (a : arr V) | NGet (p : nprog) (key : list kelem) | NOp (f i : nat) (ps : list nprog).
Variable num : nat -> V.
Variable lib : nat -> list (arr V) -> option (list (arr V)).
Fixpoint run (vs : list (val V)) (p : nprog) : res (val V) :=
  match p with
  | NArg k => match nth_error vs k with Some v => Ok v | None => IndexError end
  | NArr a => Ok (VArr V a)
  | NGet p key => bindr (run vs p) (fun v => index_val V v key)
  | NOp f i ps => bindr ((fix all ps := match ps with [] => Ok [] | p :: ps' => bindr (run vs p) (fun v => bindr (all ps') (fun l => Ok (v :: l))) end) ps)
                    (apply_op V num lib f i)
  end.
Definition nprogram (node : bool) (ps : list nprog) : nfun V := fun vs => bindr (rmap (run vs) ps) (fun l => Ok (Tree node l)).
End Spec.
