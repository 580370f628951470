(** Model of [indices_of], [gather] and [stack] (effectful/handlers/indexed.py 98-249) for arrays with named dimensions.
    Not modelled: values that are other terms or structures of tensors; numbers among the values of [stack]. *)
From Coq Require Import String List Bool Arith ZArith.
From Verif Require Import ArrModel TgetModel NopModel.
From Verif Require IdxModel.
Import ListNotations.
Notation iset := IdxModel.iset.
Notation indexset := IdxModel.indexset.

Section Indexed.
Variable V : Type.
Variable num : nat -> V.
(** [name_to_sym] (indexed.py:162-164), which is cached, and [__name__] of a named dimension *)
Variable sym : string -> nat.
Variable name_of : nat -> string.

(** [indices_of] (indexed.py:98-159). A dictionary comprehension: of the dimensions of one name the last gives the value,
    at the place of the first. A [set] of small numbers from 0 is iterated in ascending order. *)
Fixpoint dict_set {A} (d : list (string * A)) (k : string) (v : A) : list (string * A) :=
  match d with [] => [(k, v)] | (x, w) :: d' => if String.eqb x k then (x, v) :: d' else (x, w) :: dict_set d' k v end.
Definition range (d : nat) : list Z := map Z.of_nat (seq 0 d).
Definition sizes_of (v : val V) : res (list (nat * nat)) := sizes_val V v [].
Definition indices_of (v : val V) : res (IdxModel.res indexset) :=
  bindr (sizes_of v) (fun m => Ok (IdxModel.make (fold_left (fun d (p : nat * nat) => dict_set d (name_of (fst p)) (IdxModel.AIter (range (snd p)))) m []))).

(** [indexset_vars] (indexed.py:229); an index set holds its indices in the order in which they are iterated. *)
Definition vars (s : indexset) : list (nat * iset) := map (fun p => (sym (fst p), snd p)) s.
Fixpoint chosen (m : list (nat * iset)) (n : nat) : option iset :=
  match m with [] => None | (x, l) :: m' => if Nat.eqb x n then Some l else chosen m' n end.

(** The index [value] is built with, after [n()] is replaced by [torch.tensor(list(inds))[n()]] *)
Definition replaced (m : list (nat * iset)) (env : nat -> nat) (k : kelem) : kelem :=
  match k with
  | KName n => match chosen m n with Some l => KInt (nth (env n) l 0%Z) | None => k end
  | _ => k
  end.
(** Its sizes: first of the index tensors, then of the axes still indexed by a name (torch.py:53-74) *)
Fixpoint inner_sizes (m : list (nat * iset)) (dims : list kelem) (acc : list (nat * nat)) : res (list (nat * nat)) :=
  match dims with
  | [] => Ok acc
  | KName n :: dims' => match chosen m n with Some l => bindr (add_size acc n (length l)) (inner_sizes m dims') | None => inner_sizes m dims' acc end
  | _ :: dims' => inner_sizes m dims' acc
  end.
Definition gathered_sizes (m : list (nat * iset)) (sh : list nat) (dims : list kelem) : res (list (nat * nat)) :=
  bindr (inner_sizes m dims []) (add_names sh (map (replaced m (fun _ => 0)) dims)).

(** [gather] (indexed.py:167-237). With no variable to bind, the value is evaluated again. Otherwise the tensor is indexed
    again, at all positions of the names (torch.py:83-130), one out of range being an error. *)
Definition gather (v : val V) (s : indexset) : res (val V) :=
  match v with
  | VArr _ a => Ok v
  | VGet _ a dims =>
      bindr (sizes_of v) (fun sizes =>
      if existsb (fun p : nat * nat => is_some (chosen (vars s) (fst p))) sizes then
        bindr (gathered_sizes (vars s) (shape a) dims) (fun sized =>
        let run env := index_arr env a (map (replaced (vars s) env) dims) in
        if forallb (fun j => is_some (run (assign (fun _ => 0) (map fst sized) (unravel (map snd sized) j)))) (seq 0 (prod (map snd sized)))
        then bindr (vmapped V sized (fun env => option_map (fun b => [b]) (run env))) (fun l => match l with [w] => Ok w | _ => RuntimeError end)
        else IndexError)
      else index_val V (VArr V a) dims)
  | _ => NotHandled
  end.

(** [torch.broadcast_tensors] and [torch.stack] *)
Definition spread (B : list nat) (p : arr V) : arr V := Arr B (fun b => at_ p (IdxModel.squash (shape p) (skipn (length b - length (shape p)) b))).
Definition broadcast_tensors (ps : list (arr V)) : option (list (arr V)) :=
  match bshapes (map shape ps) with Some B => Some (map (spread B) ps) | None => None end.
Definition shape_eqb (a b : list nat) : bool := if list_eq_dec Nat.eq_dec a b then true else false.
Definition torch_stack (ps : list (arr V)) : option (list (arr V)) :=
  match ps with
  | [] => None
  | p :: _ => if forallb (fun q => shape_eqb (shape p) (shape q)) ps
              then Some [Arr (length ps :: shape p) (fun idx => at_ (nth (hd 0 idx) ps p) (tl idx))] else None
  end.
Definition library (f : nat) : list (arr V) -> option (list (arr V)) :=
  match f with 0 => broadcast_tensors | 1 => torch_stack | _ => fun _ => None end.
(** [stack] (indexed.py:240-249) *)
Definition stack (values : list (val V)) (name : string) : res (val V) :=
  bindr (run_op V num library 0 values) (fun r =>
  match r with
  | Some outs => bindr (apply_op V num library 1 0 outs) (fun w => index_val V w [KName (sym name)])
  | None => NotHandled
  end).
End Indexed.
