(** Model of what arrays with named dimensions say about themselves: [shape], [size], [numel], [ndim], [dim], [len], iteration,
    [item], [requires_grad_] (effectful/handlers/torch.py 544-590; effectful/handlers/jax/_terms.py 102-103, 408-431), and of the
    terms made by [defdata] alone while a function is traced (torch.py 322-337, _terms.py 59-68, 408-411; syntax.py 735-740).
    Values and indexing are those of NopModel. The methods of plain arrays are the library's; [len] and iteration of an array
    without axes are TypeErrors there. *)
From Coq Require Import List Bool Arith ZArith.
From Verif Require Import ArrModel NopModel.
Import ListNotations.

Inductive got (A : Type) := Got (a : A) | TypeErr | IndexErr | ValueErr | Other.
Arguments Got {A}. Arguments TypeErr {A}. Arguments IndexErr {A}. Arguments ValueErr {A}. Arguments Other {A}.

Section Att.
Variable V : Type.

(** [shape] (torch.py:544-547, _terms.py:417-423) *)
Definition shape_of (v : val V) : got (list nat) :=
  match v with VArr _ a => Got (shape a) | VGet _ a dims => Got (eager_shape (shape a) dims) | _ => Other end.
Definition fmap {A B} (f : A -> B) (x : got A) : got B :=
  match x with Got a => Got (f a) | TypeErr => TypeErr | IndexErr => IndexErr | ValueErr => ValueErr | Other => Other end.
(** [size] of JAX (_terms.py:425-427), [numel] of PyTorch (torch.py:554-555) *)
Definition size_of (v : val V) : got nat := fmap (fun s => fold_left Nat.mul s 1) (shape_of v).
(** [ndim], [dim], [ndimension] (torch.py:557-565, _terms.py:429-431) *)
Definition ndim_of (v : val V) : got nat := fmap (@length nat) (shape_of v).
(** [size(dim)] of PyTorch (torch.py:549-552) *)
Definition size_at (v : val V) (d : Z) : got nat :=
  match shape_of v with Got s => match py_get s d with Some n => Got n | None => IndexErr end | TypeErr => TypeErr | IndexErr => IndexErr | ValueErr => ValueErr | Other => Other end.
(** [len] of JAX (_terms.py:102-103) *)
Definition len_of (v : val V) : got nat :=
  match v with
  | VArr _ a => match shape a with [] => TypeErr | d :: _ => Got d end
  | VGet _ a dims => match eager_shape (shape a) dims with [] => IndexErr | d :: _ => Got d end
  | _ => Other
  end.
(** Iteration of JAX: [self[i] for i in range(len(self))] (_terms.py:413-415), for arrays the library's *)
Fixpoint rows_of (v : val V) (is : list nat) : got (list (val V)) :=
  match is with
  | [] => Got []
  | i :: is' =>
      match index_val V v [KInt (Z.of_nat i)] with
      | Ok w => match rows_of v is' with Got ws => Got (w :: ws) | r => r end
      | IndexError => IndexErr
      | _ => Other
      end
  end.
Definition iter_of (v : val V) : got (list (val V)) :=
  match len_of v with Got n => rows_of v (seq 0 n) | TypeErr => TypeErr | IndexErr => IndexErr | ValueErr => ValueErr | Other => Other end.
(** [item] of PyTorch (torch.py:567-568); of an array the library's: the element if there is just one, else an error *)
Definition item_of (v : val V) : got V :=
  match v with
  | VArr _ a => if prod (shape a) =? 1 then Got (at_ a (map (fun _ => 0) (shape a))) else Other
  | VGet _ _ _ => ValueErr
  | _ => Other
  end.
(** [requires_grad_] of PyTorch (torch.py:585-586): what it returns *)
Definition requires_grad_ (v : val V) : val V := match v with VGet _ a _ => VArr V a | _ => v end.
(** Indexing while a function is traced: the term alone, its array reshaped *)
Definition embedded (a : arr V) (key : list kelem) : res (val V) :=
  bindr (desugar (shape a) key) (fun r => Ok (VGet V (reshape a (fst r)) (snd r))).
End Att.
