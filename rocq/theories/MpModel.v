(** Model of the docs' miniature Pyro (docs/source/minipyro.py 55-469): the operations [sample], [param] and
    [set_rng_seed], the handlers [Tracer], [Replay], [Plate], [block], [NativeSeed] and [NativeParam] (the default runner),
    [elbo] and the part of [SVI.step] that collects parameters. A stack of handlers is a list, the innermost first: a call
    starts at the innermost, [fwd] goes on with the next, and a call made by a handler starts at the innermost again (C10).
    Simplified: names and distributions are positional; [block] uses the installed runner's store; all of the random state
    is one; densities are of whole tensors (their sums). *)
From Coq Require Import List Bool Arith.
Import ListNotations.

Section Mp.
(** Tensors, families of distributions, random states, unconstrained values, constraints, numbers *)
Variables V B G U C R : Type.
(** [rsample] or [sample] of a distribution with the given batch shape (the last axis first) *)
Variable draw : B -> list nat -> G -> V * G.
(** [transform_to(c)] and its inverse *)
Variable to_c : C -> U -> V.
Variable from_c : C -> V -> U.

Record dist := mkd { fam : B; shape : list nat }.
(** [dist.expand] of PyTorch: axes of size 1 grow, axes are added in front; anything else raises *)
Fixpoint broad (a s : list nat) : bool :=
  match a, s with
  | [], _ => true
  | x :: a', y :: s' => ((x =? y) || (x =? 1)) && broad a' s'
  | _ :: _, [] => false
  end.
Definition expand (d : dist) (s : list nat) : option dist := if broad (shape d) s then Some (mkd (fam d) s) else None.

(** What a call of [sample] says about [obs] *)
Inductive given := Omitted | Keyword (o : option V) | Positional (o : option V).
Definition data (g : given) : option V := match g with Omitted => None | Keyword o => o | Positional o => o end.
(** [initial_value] of [param]: a tensor, or a function that computes one *)
Inductive initial := INone | ITensor (v : V) | IFunction (v : V).

(** [SampleMsg], [ParamMsg] and traces (55-71): dictionaries by name, in order of first insertion *)
Inductive msg := MSample (d : dist) (v : V) (obs : option V) | MParam (v : V).
Definition val_of (m : msg) : V := match m with MSample _ v _ => v | MParam v => v end.
Definition trace := list (nat * msg).
Fixpoint find {A} (t : list (nat * A)) (n : nat) : option A :=
  match t with [] => None | (k, m) :: t' => if k =? n then Some m else find t' n end.
Fixpoint put {A} (t : list (nat * A)) (n : nat) (m : A) : list (nat * A) :=
  match t with [] => [(n, m)] | (k, m') :: t' => if k =? n then (k, m) :: t' else (k, m') :: put t' n m end.

(** Handlers. [HPlate sz j] is [Plate(_, sz, dim=-j)]; [HBlock hide] is told whether the operation is [sample], and the
    name; [HNative] is the default runner *)
Inductive hd := HTracer (i : nat) | HReplay (t : trace) | HPlate (sz j : nat) | HBlock (hide : bool -> nat -> bool) | HNative.

Record state := mks { rng : G; store : list (nat * (U * C)); traces : nat -> trace }.
Definition write (st : state) (i : nat) (n : nat) (m : msg) : state :=
  mks (rng st) (store st) (fun k => if k =? i then put (traces st i) n m else traces st k).
Inductive exn := TypeErr | RuntimeErr | AssertErr | AttributeErr | ExpandErr.
Inductive out (A : Type) := Ok (a : A) (st : state) | Raise (e : exn) | OutOfFuel.
Arguments Ok {A} a st.
Arguments Raise {A} e.
Arguments OutOfFuel {A}.
Definition bindo {A A'} (o : out A) (f : A -> state -> out A') : out A' := match o with Ok a st => f a st | Raise e => Raise e | OutOfFuel => OutOfFuel end.

(** [NativeSeed.sample] (242-247) *)
Definition native_sample (d : dist) (g : given) (st : state) : out V :=
  match data g with
  | Some v => Ok v st
  | None => let (v, r) := draw (fam d) (shape d) (rng st) in Ok v (mks r (store st) (traces st))
  end.
(** [Plate.do_sample] (333-342) *)
Definition unfit (sz j : nat) (s : list nat) : bool := (length s <? j) || negb (nth (j - 1) s 1 =? sz).
Definition padded (j : nat) (s : list nat) : list nat := s ++ repeat 1 (j - length s).
Fixpoint set_nth (i x : nat) (s : list nat) : list nat := match s, i with [], _ => [] | _ :: s', 0 => x :: s' | y :: s', S i' => y :: set_nth i' x s' end.

Section Down.
(** A call of [sample] made by a handler: without [obs] *)
Variable again : dist -> state -> out V.
(** [Tracer.sample] (151-163), [Replay.sample] (192-196), [Plate.do_sample] (333-342), [block] (357-376); with no handler
    left the default raises (90-92). [Tracer] and [Plate] take [obs] by keyword only. *)
Fixpoint down (stk : list hd) (n : nat) (d : dist) (g : given) (st : state) : out V :=
  match stk with
  | [] => Raise RuntimeErr
  | HTracer i :: rest =>
      match g with
      | Positional _ => Raise TypeErr
      | _ => bindo (down rest n d g st) (fun v st1 => Ok v (write st1 i n (MSample d v (data g))))
      end
  | HReplay t :: rest =>
      match find t n with
      | Some m => match g with Positional _ => Raise TypeErr | _ => down rest n d (Keyword (Some (val_of m))) st end
      | None => down rest n d g st
      end
  | HPlate sz j :: rest =>
      match g with
      | Positional _ => Raise TypeErr
      | _ => if unfit sz j (shape d)
             then match expand d (set_nth (j - 1) sz (padded j (shape d))) with Some d' => again d' st | None => Raise ExpandErr end
             else down rest n d g st
      end
  | HBlock hide :: rest => if hide true n then native_sample d g st else down rest n d g st
  | HNative :: _ => native_sample d g st
  end.
End Down.
Fixpoint do_sample (fuel : nat) (stk : list hd) (n : nat) (d : dist) (g : given) (st : state) : out V :=
  match fuel with 0 => OutOfFuel | S fuel => down (fun d' st' => do_sample fuel stk n d' Omitted st') stk n d g st end.

(** [NativeParam.param] (276-309): a stored parameter keeps its constraint; a function is not called *)
Definition native_param (n : nat) (init : initial) (c : C) (st : state) : out V :=
  match find (store st) n with
  | Some (u, c') => Ok (to_c c' u) st
  | None => match init with
            | INone => Raise AssertErr
            | IFunction _ => Raise AttributeErr
            | ITensor v => let u := from_c c v in Ok (to_c c u) (mks (rng st) (put (store st) n (u, c)) (traces st))
            end
  end.
(** [Tracer.param] (165-178) *)
Fixpoint do_param (stk : list hd) (n : nat) (init : initial) (c : C) (st : state) : out V :=
  match stk with
  | [] => Raise RuntimeErr
  | HTracer i :: rest => bindo (do_param rest n init c st) (fun v st1 => Ok v (write st1 i n (MParam v)))
  | HReplay _ :: rest => do_param rest n init c st
  | HPlate _ _ :: rest => do_param rest n init c st
  | HBlock hide :: rest => if hide false n then native_param n init c st else do_param rest n init c st
  | HNative :: _ => native_param n init c st
  end.
(** [NativeSeed.set_rng_seed] (230-239) sets the states and forwards; the default (126-128) raises *)
Fixpoint do_set_rng (stk : list hd) (r : G) (st : state) : out unit :=
  match stk with
  | [] => Raise RuntimeErr
  | HNative :: rest => do_set_rng rest r (mks r (store st) (traces st))
  | _ :: rest => do_set_rng rest r st
  end.

(** Programs: what is done next may depend on the values *)
Inductive prog :=
| Ret (v : V)
| Sample (n : nat) (d : dist) (g : given) (k : V -> prog)
| Param (n : nat) (init : initial) (c : C) (k : V -> prog)
| Plate (sz j : nat) (body : prog) (k : V -> prog).                    (* [with plate(_, sz, dim=-j): body] *)
Fixpoint run (fuel : nat) (stk : list hd) (p : prog) (st : state) : out V :=
  match p with
  | Ret v => Ok v st
  | Sample n d g k => bindo (do_sample fuel stk n d g st) (fun v st1 => run fuel stk (k v) st1)
  | Param n init c k => bindo (do_param stk n init c st) (fun v st1 => run fuel stk (k v) st1)
  | Plate sz j body k => bindo (run fuel (HPlate sz j :: stk) body st) (fun v st1 => run fuel stk (k v) st1)
  end.
(** [with seed(r): body] (250-261); the first [set_rng_seed] decides *)
Definition with_seed (fuel : nat) (stk : list hd) (r : G) (body : prog) (st : state) : out V :=
  bindo (do_set_rng stk r st) (fun _ st1 => bindo (run fuel stk body st1) (fun v st2 => bindo (do_set_rng stk (rng st) st2) (fun _ st3 => Ok v st3))).
(** [with trace() as t: body] (208-211), [t] being the trace number [i] *)
Definition fresh (st : state) (i : nat) : state := mks (rng st) (store st) (fun k => if k =? i then [] else traces st k).

(** [elbo] (437-469) *)
Variable zero : R.
Variables add sub : R -> R -> R.
Variable neg : R -> R.
Variable logp : dist -> V -> R.
Definition plus_site (acc : R) (m : nat * msg) : R := match snd m with MSample d v _ => add acc (logp d v) | MParam _ => acc end.
Definition minus_site (acc : R) (m : nat * msg) : R := match snd m with MSample d v _ => sub acc (logp d v) | MParam _ => acc end.
Definition elbo (fuel : nat) (stk : list hd) (model guide : prog) (st : state) : out R :=
  bindo (run fuel (HTracer 0 :: stk) guide (fresh st 0)) (fun _ st1 =>
  bindo (run fuel (HReplay (traces st1 0) :: HTracer 1 :: stk) model (fresh st1 1)) (fun _ st2 =>
  Ok (neg (fold_left minus_site (traces st2 0) (fold_left plus_site (traces st2 1) zero))) st2)).
(** [SVI.step] (411-429) up to the gradient: the loss, and the trace whose values are optimised *)
Definition step (fuel : nat) (stk : list hd) (model guide : prog) (st : state) : out (R * trace) :=
  bindo (elbo fuel (HBlock (fun is_sample _ => is_sample) :: HTracer 2 :: stk) model guide (fresh st 2)) (fun l st1 => Ok (l, traces st1 2) st1).
End Mp.

Arguments mkd {B} fam shape.
Arguments fam {B} d.
Arguments shape {B} d.
Arguments expand {B} d s.
Arguments Omitted {V}.
Arguments Keyword {V} o.
Arguments Positional {V} o.
Arguments data {V} g.
Arguments INone {V}.
Arguments ITensor {V} v.
Arguments IFunction {V} v.
Arguments MSample {V B} d v obs.
Arguments MParam {V B} v.
Arguments val_of {V B} m.
Arguments HTracer {V B} i.
Arguments HReplay {V B} t.
Arguments HPlate {V B} sz j.
Arguments HBlock {V B} hide.
Arguments HNative {V B}.
Arguments mks {V B G U C} rng store traces.
Arguments rng {V B G U C} s.
Arguments store {V B G U C} s.
Arguments traces {V B G U C} s _.
Arguments write {V B G U C} st i n m.
Arguments Ok {V B G U C A} a st.
Arguments Raise {V B G U C A} e.
Arguments OutOfFuel {V B G U C A}.
Arguments bindo {V B G U C A A'} o f.
Arguments Ret {V B C} v.
Arguments Sample {V B C} n d g k.
Arguments Param {V B C} n init c k.
Arguments Plate {V B C} sz j body k.
Arguments fresh {V B G U C} st i.
Arguments native_sample {V B G U C} draw d g st.
Arguments native_param {V B G U C} to_c from_c n init c st.
Arguments down {V B G U C} draw again stk n d g st.
Arguments do_sample {V B G U C} draw fuel stk n d g st.
Arguments do_param {V B G U C} to_c from_c stk n init c st.
Arguments do_set_rng {V B G U C} stk r st.
Arguments run {V B G U C} draw to_c from_c fuel stk p st.
Arguments with_seed {V B G U C} draw to_c from_c fuel stk r body st.
Arguments elbo {V B G U C R} draw to_c from_c zero add sub neg logp fuel stk model guide st.
Arguments step {V B G U C R} draw to_c from_c zero add sub neg logp fuel stk model guide st.
Arguments plus_site {V B R} add logp acc m.
Arguments minus_site {V B R} sub logp acc m.
