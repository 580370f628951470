(** What a distribution with named dimensions stands for: one distribution for each position of the names. *)
From Coq Require Import List Bool Arith Permutation.
From Verif Require Import ArrModel ArrSpec DistModel.
Import ListNotations.

Section Spec.
Variable V : Type.
(** Positions within the sizes of the names *)
Definition valid (env : nat -> nat) (m : list (nat * nat)) : Prop := forall n d, In (n, d) m -> env n < d.
(** Each name once, and the elements depend on the names only. *)
Definition proper (a : narr V) : Prop :=
  NoDup (map fst (nsizes V a)) /\
  forall env env', (forall n, In n (map fst (nsizes V a)) -> env n = env' n) -> forall idx, nelt V a env idx = nelt V a env' idx.
(** No name has two sizes. *)
Definition compatible (m l : list (nat * nat)) : Prop := forall n d d', In (n, d) m -> In (n, d') l -> d = d'.
(** The parameters at the positions [env] *)
Definition member (env : nat -> nat) (args : list (arg V)) : list (arr V) := map (arg_at V env) args.
Definition is_array (x : arg V) : Prop := match x with AArr _ _ => True | ANum _ _ => False end.
(** Every array among the parameters has [b] batch axes beside its event axes; numbers have no event axes. *)
Definition full_rank (b : nat) (r : nat) (x : arg V) : Prop :=
  match x with AArr _ a => length (nshape V a) = b + r | ANum _ _ => r = 0 end.
Definition full (b : nat) (F : family V) (args : list (arg V)) : Prop :=
  Forall2 (full_rank b) (pranks V F) args /\ (b = 0 \/ Exists is_array args).
Definition all_proper (args : list (arg V)) : Prop := forall a, In (AArr V a) args -> proper a.
(** Density, mean and entropy depend on the elements of the parameters; events have [erank] axes. *)
Definition lawful (F : family V) : Prop :=
  (forall ps qs v w, Forall2 same_arr ps qs -> same_arr v w -> dens V F ps v = dens V F qs w) /\
  (forall ps qs e, Forall2 same_arr ps qs -> avg V F ps e = avg V F qs e) /\
  (forall ps qs, Forall2 same_arr ps qs -> entr V F ps = entr V F qs) /\
  (forall l, length (eshape V F l) = erank V F).
(** [r] is the array with names that at all positions [env] is [f env], and that has the names of [m]. *)
Definition pointwise (m : list (nat * nat)) (r : narr V) (f : (nat -> nat) -> option (arr V)) : Prop :=
  (forall n d, In (n, d) (nsizes V r) <-> In (n, d) m) /\
  forall env, valid env m -> exists c, f env = Some c /\ same_arr (at_env V env r) c.
End Spec.
