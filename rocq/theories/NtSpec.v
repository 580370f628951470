(** Named tensors as in the paper of the notebook: axes with sizes, and an entry for every position along the axes. *)
From Coq Require Import List Bool Arith Reals.
Import ListNotations.
From Verif Require Import NtModel.

(** The sizes of the axes, [None] for names that are no axes *)
Definition axes := nat -> option nat.
(** [t] has the axes [z], no further dimensions, and the entries [f], which depend on the axes only *)
Definition local (z : axes) (f : env -> R) : Prop := forall e e', (forall n, z n <> None -> e n = e' n) -> f e = f e'.
Record is (t : tensor) (z : axes) (f : env -> R) : Prop := {
  is_shape : shape t = [];
  is_axes : forall n, size t n = z n;
  is_val : forall e, val t e [] = f e;
  is_local : local z f }.
(** Axes together; axes without some; with another one *)
Definition join (z y : axes) : axes := fun n => match z n with Some s => Some s | None => y n end.
Definition without (z : axes) (l : list nat) : axes := fun n => if existsb (Nat.eqb n) l then None else z n.
Definition plus (z : axes) (n s : nat) : axes := fun m => if m =? n then Some s else z m.
(** Every name has one size *)
Definition sized (S : nat -> nat) (z : axes) : Prop := forall n s, z n = Some s -> s = S n.
(** The axes among some names, with their sizes, and all positions along them, the others as in [e] *)
Definition along (z : axes) (l : list nat) : list (nat * nat) := flat_map (fun n => match z n with Some s => [(n, s)] | None => [] end) l.
Fixpoint positions (l : list (nat * nat)) (e : env) : list env :=
  match l with [] => [e] | (n, s) :: r => flat_map (fun i => positions r (upd e n i)) (seq 0 s) end.
(** The sum of a formula along the axes among some names: the paper's sum under which names are written *)
Definition Sigma (z : axes) (l : list nat) (f : env -> R) (e : env) : R := fold_right Rplus 0%R (map f (positions (along z l) e)).
Definition Largest (z : axes) (l : list nat) (f : env -> R) (e : env) (v : R) : Prop :=
  In v (map f (positions (along z l) e)) /\ forall v', In v' (map f (positions (along z l) e)) -> (v' <= v)%R.
(** The number of positions along the axes among some names *)
Definition count (z : axes) (l : list nat) : nat := fold_right (fun p n => snd p * n) 1 (along z l).
(** All indices of a shape *)
Fixpoint indices (ss : list nat) : list (list nat) := match ss with [] => [[]] | a :: r => flat_map (fun i => map (cons i) (indices r)) (seq 0 a) end.
Local Open Scope R_scope.
(** The logistic function *)
Definition logistic (x : R) : R := exp x / (exp x + 1).
(** The mean, the variance and the softmax along axes *)
Definition mean (z : axes) (l : list nat) (f : env -> R) (e : env) : R := Sigma z l f e / INR (count z l).
Definition variance (z : axes) (l : list nat) (f : env -> R) (e : env) : R := mean z l (fun e => (f e - mean z l f e) * (f e - mean z l f e)) e.
Definition softmax (z : axes) (l : list nat) (f : env -> R) (e : env) : R := exp (f e) / Sigma z l (fun e => exp (f e)) e.
Definition standard (eps : R) (z : axes) (l : list nat) (f : env -> R) (e : env) : R := (f e - mean z l f e) / sqrt (variance z l f e + eps).
(** The scores of attention: contraction over [key], scaled, with a mask *)
Definition score (zQ zK : axes) (key : nat) (scale : R) (q k m : env -> R) (e : env) : R := Sigma (join zQ zK) [key] (fun e => q e * k e) e / scale + m e.
(** The axes after windows of size [k] along an axis of size [n], and after [m] blocks of size [k] *)
Definition windows (z : axes) (seq n k seq2 kernel : nat) : axes := plus (plus (without z [seq]) seq2 (n - k + 1)) kernel k.
Definition blocks (z : axes) (seq m k seq2 kernel : nat) : axes := plus (plus (without z [seq]) seq2 m) kernel k.
(** Size [i] counted from the right, one if there are not so many. *)
Definition from_right (l : list nat) (i : nat) : nat := nth i (rev l) 1%nat.
