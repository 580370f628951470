(** What transforming a function of arrays means when its results have named dimensions. *)
From Coq Require Import List Bool Arith.
From Verif Require Import ArrModel ArrSpec NopModel NopSpec FunModel.
Import ListNotations.

Section Spec.
Variable V : Type.
(** The arrays at a position of the names ([None]: there is none, or it is a term) *)
Definition leaf_at (env : nat -> nat) (v : val V) : option (arr V) :=
  match v with VArr _ a => Some a | VGet _ a dims => index_arr env a dims | _ => None end.
Definition leaves_at (env : nat -> nat) (vs : list (val V)) : option (list (arr V)) := traverse (leaf_at env) vs.
(** The function that [func] is at a position of the names *)
Definition func_at (env : nat -> nat) (func : pyfun V) (args : list (arr V)) : option (list (arr V)) :=
  match func args with Ok t => leaves_at env (leaves t) | _ => None end.

(** Values as operations and indexing leave them: an index element per axis, a name or the whole axis *)
Definition regular (v : val V) : Prop :=
  match v with VGet _ a dims => length dims = length (shape a) /\ Forall (fun k => k = KAll \/ exists n, k = KName n) dims | _ => True end.
(** Arrays, with or without names *)
Definition concrete (v : val V) : Prop := match v with VArr _ _ => True | VGet _ _ dims => exists n, In (KName n) dims | _ => False end.
(** Values with the same names and shapes *)
Definition alike (v w : val V) : Prop :=
  match v, w with
  | VArr _ a, VArr _ b => shape a = shape b
  | VGet _ a dims, VGet _ b dims' => dims = dims' /\ shape a = shape b
  | VArr _ _, _ | VGet _ _ _, _ | _, VArr _ _ | _, VGet _ _ _ => False
  | _, _ => True
  end.
(** Functions that can be traced: errors, names and shapes of results depend on the shapes of the arguments, elements on
    the elements. *)
Definition both {A} (R : A -> A -> Prop) (x y : res A) : Prop :=
  match x, y with Ok a, Ok b => R a b | Ok _, _ | _, Ok _ => False | _, _ => True end.
Definition traceable (func : pyfun V) : Prop :=
  (forall xs ys, Forall2 same_shape xs ys -> both (fun t u => is_node t = is_node u /\ Forall2 alike (leaves t) (leaves u)) (func xs) (func ys)) /\
  (forall xs ys, Forall2 same_arr xs ys -> both (fun t u => Forall2 (fun v w => forall env, same (leaf_at env v) (leaf_at env w)) (leaves t) (leaves u)) (func xs) (func ys)) /\
  (forall xs t, func xs = Ok t -> Forall regular (leaves t)).

(** What is asked of a transformation of the library: it calls its function on arguments of the shapes of [probe xs] only
    and fails if the function does; its result depends on the elements of the arrays, its shapes on their shapes; and each
    part of the results of the function is transformed by itself, the leading axes of its results being the axes from
    [start] on of the transformed ones. *)
Definition called (T : transform V) (xs us : list (arr V)) : Prop := Forall2 same_shape us (probe V T xs).
Definition parts (start : nat) (poss : list (list nat)) (outs : list (arr V)) : list (arr V) :=
  map (fun po : list nat * arr V => slice_at V start (fst po) (snd po)) (combine poss outs).
Definition prefixed (start : nat) (sz : list nat) (o : arr V) : Prop :=
  start <= length (shape o) /\ exists rest, skipn start (shape o) = sz ++ rest.
Definition shapely (F : list (arr V) -> option (list (arr V))) : Prop := forall us vs, Forall2 same_shape us vs -> related same_shape (F us) (F vs).
Definition respectful (F : list (arr V) -> option (list (arr V))) : Prop := forall us vs, Forall2 same_arr us vs -> related same_arr (F us) (F vs).
Record lawful_transform (T : transform V) (start : nat) : Prop := {
  law_ext : forall F G xs ys, Forall2 same_arr xs ys -> shapely G ->
    (forall us vs, called T xs us -> Forall2 same_arr us vs -> related same_arr (F us) (G vs)) ->
    related same_arr (trans V T F xs) (trans V T G ys);
  law_shape : forall F, shapely F -> shapely (trans V T F);
  law_probe : forall xs ys, Forall2 same_shape xs ys -> Forall2 same_shape (probe V T xs) (probe V T ys);
  law_fails : forall F xs, (forall us, called T xs us -> F us = None) -> trans V T F xs = None;
  law_prefix : forall F xs szs outs,
    (forall us os, called T xs us -> F us = Some os -> Forall2 (prefixed 0) szs os) ->
    trans V T F xs = Some outs -> Forall2 (prefixed start) szs outs;
  law_parts : forall F xs szs poss outs, Forall2 within szs poss -> shapely F -> respectful F ->
    (forall us os, called T xs us -> F us = Some os -> Forall2 (prefixed 0) szs os) ->
    trans V T F xs = Some outs ->
    related same_arr (trans V T (fun us => option_map (parts 0 poss) (F us)) xs) (Some (parts start poss outs)) }.

(** Results that mean the same as those of the function *)
Definition agree (t u : tree (val V)) : Prop :=
  is_node t = is_node u /\ Forall2 (fun v w => forall env, same (leaf_at env v) (leaf_at env w)) (leaves t) (leaves u).
(** The names of results, in the order the wrapper finds them *)
Definition result_names (func : pyfun V) (args : list (arr V)) : option (bool * list (list nat)) :=
  match func args with
  | Ok t => match rmap (fun v => sizes_val V v []) (leaves t) with Ok l => Some (is_node t, map (map fst) l) | _ => None end
  | _ => None
  end.
(** [jit] after earlier calls: arguments of new shapes, or the names of the results are those of all earlier calls. *)
Definition settled (func : pyfun V) (history : list (list (arr V))) (args : list (arr V)) : Prop :=
  ~ In (map shape args) (map (map shape) history) \/
  forall xs, In xs history -> result_names func xs <> None -> result_names func xs = result_names func args.
(** Results with all names of one size each *)
Definition sound_leaf (v : val V) : Prop := concrete v /\ regular v /\ match v with VGet _ a dims => consistent (shape a) dims | _ => True end.

(** Programs on the arguments: array expressions with [PArg k] for argument [k]. Their results are a leaf or a tuple. *)
Inductive prog := PArg (k : nat) | PArr (a : arr V) | PName (n : nat) | PGet (p : prog) (key : list kelem) | POp (f i : nat) (ps : list prog).
Fixpoint fill (xs : list (arr V)) (p : prog) : option (expr V) :=
  match p with
  | PArg k => option_map (EArr V) (nth_error xs k)
  | PArr a => Some (EArr V a)
  | PName n => Some (EName V n)
  | PGet p key => option_map (fun e => EGet V e key) (fill xs p)
  | POp f i ps => option_map (EOp V f i) ((fix all ps := match ps with [] => Some [] | p :: ps' => match fill xs p, all ps' with Some e, Some es => Some (e :: es) | _, _ => None end end) ps)
  end.
Definition program (num : nat -> V) (lib : nat -> list (arr V) -> option (list (arr V))) (node : bool) (ps : list prog) : pyfun V :=
  fun xs => match traverse (fill xs) ps with Some es => bindr (rmap (build V num lib) es) (fun vs => Ok (Tree node vs)) | None => IndexError end.
End Spec.
