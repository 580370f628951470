(** Model of the notebook on named tensors (docs/source/named_tensor_notation.ipynb, lines of the file): [subst] and [reduce] (42-73)
    and the neural networks (1273-2256) over the operations on tensors with named dimensions. Simplified: entries are real
    numbers; that operations act at each position of the names, and that [bind_dims] and indexing by names move dimensions, is
    taken from C32, C64 and C65; [None] is an exception (also for the logarithm of an empty sum, which is minus infinity);
    [subst] only by names. The order of the names of a tensor is not observable but in print. *)
From Coq Require Import List Bool Arith Reals.
Import ListNotations.

Definition env := nat -> nat.
Definition upd (e : env) (n i : nat) : env := fun m => if m =? n then i else e m.
(** Names with sizes, the positional shape, and the entry at a position of the names and a positional index *)
Record tensor := { dims : list (nat * nat); shape : list nat; val : env -> list nat -> R }.
Fixpoint lookup (n : nat) (l : list (nat * nat)) : option nat := match l with [] => None | (m, s) :: r => if m =? n then Some s else lookup n r end.
Definition size (t : tensor) (n : nat) : option nat := lookup n (dims t).
Definition bind {A B} (o : option A) (f : A -> option B) : option B := match o with Some a => f a | None => None end.
Notation "x <- a ; b" := (bind a (fun x => b)) (at level 60, a at next level, right associativity).

(** Pointwise functions; broadcasting of positional shapes from the right; sizes of common names must agree (C33) *)
Definition map1 (g : R -> R) (t : tensor) : tensor := {| dims := dims t; shape := shape t; val := fun e js => g (val t e js) |}.
Fixpoint cast_rev (a b : list nat) : option (list nat) :=
  match a, b with
  | [], _ => Some b
  | _, [] => Some a
  | x :: a', y :: b' => if (x =? y) || (y =? 1) then option_map (cons x) (cast_rev a' b') else if x =? 1 then option_map (cons y) (cast_rev a' b') else None
  end.
Definition cast (a b : list nat) : option (list nat) := option_map (@rev nat) (cast_rev (rev a) (rev b)).
Definition adapt (s js : list nat) : list nat := map (fun p => if fst p =? 1 then 0 else snd p) (combine s (skipn (length js - length s) js)).
Definition agrees (a b : tensor) : bool := forallb (fun p => match size a (fst p), size b (fst p) with Some s, Some s' => s =? s' | _, _ => true end) (dims a).
Definition zip (g : R -> R -> R) (a b : tensor) : option tensor :=
  if agrees a b then option_map (fun s => {| dims := dims a ++ dims b; shape := s; val := fun e js => g (val a e (adapt (shape a) js)) (val b e (adapt (shape b) js)) |}) (cast (shape a) (shape b))
  else None.

(** [subst(t, {a: b(), ...})] (42-46) *)
Fixpoint renamed (r : list (nat * nat)) (n : nat) : nat := match r with [] => n | (a, b) :: q => if a =? n then b else renamed q n end.
Definition fits (r : list (nat * nat)) (l : list (nat * nat)) : bool :=
  forallb (fun p => forallb (fun q => implb (renamed r (fst p) =? renamed r (fst q)) match lookup (fst p) l, lookup (fst q) l with Some s, Some s' => s =? s' | _, _ => true end) l) l.
Definition rename (t : tensor) (r : list (nat * nat)) : option tensor :=
  if fits r (dims t) then Some {| dims := map (fun p => (renamed r (fst p), snd p)) (dims t); shape := shape t; val := fun e js => val t (fun n => e (renamed r n)) js |} else None.

(** [bind_dims(t, n)]: the name becomes the first positional dimension *)
Definition bind1 (n : nat) (t : tensor) : option tensor :=
  s <- size t n; Some {| dims := filter (fun p => negb (fst p =? n)) (dims t); shape := s :: shape t;
    val := fun e js => match js with j :: js' => val t (upd e n j) js' | [] => 0%R end |}.
Definition bind_dims (t : tensor) (ns : list nat) : option tensor := fold_right (fun n o => t <- o; bind1 n t) (Some t) ns.
(** [t[n()]]: the first positional dimension gets a name *)
Definition name1 (n : nat) (t : tensor) : option tensor :=
  match shape t with
  | s :: sh => if match size t n with Some s' => s' =? s | None => true end then Some {| dims := (n, s) :: dims t; shape := sh; val := fun e js => val t e (e n :: js) |} else None
  | [] => None
  end.
Definition name2 (n m : nat) (t : tensor) : option tensor := t' <- name1 n t; name1 m t'.

(** [torch.flatten(t, 0, k - 1)]; for [k = 0] the end is [-1], the last dimension *)
Definition flatten2 (t : tensor) : tensor :=
  match shape t with
  | a :: b :: s => {| dims := dims t; shape := a * b :: s; val := fun e js => match js with i :: js' => val t e (i / b :: i mod b :: js') | [] => 0%R end |}
  | _ => t
  end.
Fixpoint iter (k : nat) (t : tensor) : tensor := match k with 0 => t | S k => iter k (flatten2 t) end.
Definition flatten (t : tensor) (k : nat) : tensor :=
  match k with
  | 0 => match shape t with
         | [] => {| dims := dims t; shape := [1]; val := fun e _ => val t e [] |}
         | s => iter (length s - 1) t
         end
  | S k => iter k t
  end.

(** The reducers along dimension 0 with [keepdim=True] *)
Inductive reducer := Sum | Prod | Amax | Max | LogSumExp.
Definition sum (l : list R) : R := fold_right Rplus 0%R l.
Definition maximum (l : list R) : R := match l with x :: r => fold_right Rmax x r | [] => 0%R end.
Definition entries (r : reducer) (l : list R) : R :=
  match r with Sum => sum l | Prod => fold_right Rmult 1%R l | Amax | Max => maximum l | LogSumExp => ln (sum (map exp l)) end.
Definition defined (r : reducer) (n : nat) : bool := match r with Sum | Prod => true | _ => negb (n =? 0) end.
(** [reducer(t, 0, keepdim=True)[0]]: [torch.max] returns a pair, whose first component is the tensor of maxima, its dimension kept *)
Definition reduced (r : reducer) (t : tensor) : option tensor :=
  match shape t with
  | [] => None
  | n :: s =>
      let row := fun e js => entries r (map (fun i => val t e (i :: js)) (seq 0 n)) in
      if defined r n then
        match r with
        | Max => Some {| dims := dims t; shape := 1 :: s; val := fun e js => row e (tl js) |}
        | _ => Some {| dims := dims t; shape := s; val := row |}
        end
      else None
  end.
(** [reduce] (49-73) *)
Definition present (t : tensor) (ns : list nat) : list nat := filter (fun n => match size t n with Some _ => true | None => false end) ns.
Definition reduce (ns : list nat) (t : tensor) (r : reducer) : option tensor :=
  let ns := present t ns in t' <- bind_dims t ns; reduced r (flatten t' (length ns)).

(** Rectified linear units (2255-2256), the logistic function *)
Definition sigmoid (x : R) : R := (/ (1 + exp (- x)))%R.
Definition Relu (x : tensor) : tensor := map1 (fun v => Rmax v 0) x.
Definition over (t : tensor) (n : nat) : tensor := map1 (fun v => (v / INR n)%R) t.
(** 1273-1279 *)
Definition FullConn (x W b : tensor) (layer : nat) : option tensor :=
  p <- zip Rmult W x; s <- reduce [layer] (map1 sigmoid p) Sum; zip Rplus s b.
(** 1343-1354 *)
Definition RNN (x Wh Wi b h : tensor) (hidden layer : nat) : option tensor :=
  p <- zip Rmult Wh h; u <- reduce [hidden] p Sum; q <- zip Rmult Wi x; v <- reduce [layer] q Sum;
  s <- zip Rplus u v; s <- zip Rplus s b; Some (map1 sigmoid s).
(** 1406-1413 *)
Definition Softmax (x : tensor) (ax ax2 : nat) : option tensor :=
  x <- rename x [(ax, ax2)]; l <- reduce [ax2] x LogSumExp; y <- zip Rminus x l; Some (map1 exp y).
(** 1433-1443 *)
Definition Attention (Q K V M : tensor) (key seq seq2 : nat) : option tensor :=
  p <- zip Rmult Q K; s <- reduce [key] p Sum; n <- size Q key; x <- zip Rplus (over s n) M;
  w <- Softmax x seq seq2; y <- zip Rmult w V; reduce [seq] y Sum.
(** 1503-1510: [unfold(0, k, 1)] puts the window last *)
Definition unfold0 (k : nat) (t : tensor) : option tensor :=
  match shape t with
  | n :: s => if k <=? n then Some {| dims := dims t; shape := (n - k + 1) :: s ++ [k]; val := fun e js => match js with i :: js' => val t e (i + last js' 0 :: removelast js') | [] => 0%R end |} else None
  | [] => None
  end.
Definition Unroll (x : tensor) (seq k kernel seq2 : nat) : option tensor :=
  t <- bind_dims x [seq]; u <- unfold0 k t; name2 seq2 kernel u.
(** 1540-1551 *)
Definition Conv1d (X W b : tensor) (chans k kernel seq seq2 : nat) : option tensor :=
  u <- Unroll X seq k kernel seq2; y <- zip Rmult W u; s <- reduce [chans; kernel] y Sum; zip Rplus s b.
(** 1615-1630 *)
Definition Conv2d (X W b : tensor) (chans kh_size kh height height2 kw_size kw width width2 : nat) : option tensor :=
  u <- Unroll X width kw_size kw width2; u <- Unroll u height kh_size kh height2; y <- zip Rmult W u; s <- reduce [chans; kh; kw] y Sum; zip Rplus s b.
(** 1703-1711: [reshape] of the first dimension *)
Definition Pool (x : tensor) (seq k kernel seq2 : nat) : option tensor :=
  t <- bind_dims x [seq];
  match shape t with
  | n :: s => if negb (k =? 0) && (n / k * k =? n)
      then name2 seq2 kernel {| dims := dims t; shape := n / k :: k :: s; val := fun e js => match js with i :: j :: js' => val t e (i * k + j :: js') | _ => 0%R end |}
      else None
  | [] => None
  end.
(** 1767-1774, 1813-1825 *)
Definition MaxPool1d (X : tensor) (seq k kernel seq2 : nat) : option tensor := p <- Pool X seq k kernel seq2; reduce [kernel] p Max.
Definition MaxPool2d (X : tensor) (height kh_size kh height2 width kw_size kw width2 : nat) : option tensor :=
  y <- Pool X height kh_size kh height2; y <- Pool y width kw_size kw width2; reduce [kh; kw] y Max.
(** 1888-1943 *)
Definition Mean (X : tensor) (ax : nat) : option tensor := s <- reduce [ax] X Sum; n <- size X ax; Some (over s n).
Definition Mean2 (X : tensor) (ax ax2 : nat) : option tensor := s <- reduce [ax; ax2] X Sum; n <- size X ax; m <- size X ax2; Some (over s (n * m)).
Definition square (t : tensor) : tensor := map1 (fun v => (v * v)%R) t.
Definition Variance (X : tensor) (ax : nat) : option tensor := m <- Mean X ax; d <- zip Rminus X m; Mean (square d) ax.
Definition Variance2 (X : tensor) (ax ax2 : nat) : option tensor := m <- Mean2 X ax ax2; d <- zip Rminus X m; Mean2 (square d) ax ax2.
Section Eps.
(** [torch.finfo(X.dtype).eps] *)
Variable eps : R.
Definition deviation (v : tensor) : tensor := map1 (fun x => sqrt (x + eps)) v.
Definition Standardize (X : tensor) (ax new_ax : nat) : option tensor :=
  y <- rename X [(ax, new_ax)]; m <- Mean X ax; d <- zip Rminus y m; v <- Variance X ax; zip Rdiv d (deviation v).
Definition Standardize2 (X : tensor) (ax ax2 new_ax new_ax2 : nat) : option tensor :=
  y <- rename X [(ax, new_ax); (ax2, new_ax2)]; m <- Mean2 X ax ax2; d <- zip Rminus y m; v <- Variance2 X ax ax2; zip Rdiv d (deviation v).
(** 1966-2003 *)
Definition BatchNorm (X gamma beta : tensor) (batch layer batch2 layer2 : nat) : option tensor :=
  s <- Standardize2 X batch layer batch2 layer2; p <- zip Rmult s gamma; zip Rplus p beta.
Definition InstanceNorm (X gamma beta : tensor) (layer layer2 : nat) : option tensor :=
  s <- Standardize X layer layer2; p <- zip Rmult s gamma; zip Rplus p beta.
Definition LayerNorm (X gamma beta : tensor) (chans layer chans2 layer2 : nat) : option tensor :=
  s <- Standardize2 X chans layer chans2 layer2; p <- zip Rmult s gamma; zip Rplus p beta.
End Eps.
