(** Single dispatch: which registered rule an extensible function uses.

    [defdata], [evaluate], [syntactic_eq] and the other functions made with
    [_CustomSingleDispatchCallable] (effectful/ops/types.py 25-48) keep their
    rules in a [functools.singledispatch] registry (line 29) and hand its
    [dispatch] to the function (lines 33-43); [defdata] uses it on the type of
    an operation (effectful/ops/syntax.py 498-502) and [evaluate] on the type of
    a value (effectful/ops/semantics.py 95-230).  The registry itself is the
    standard library's; its algorithm is modelled here branch by branch
    (functools.py of CPython 3.11-3.13: _c3_merge, _c3_mro, _compose_mro,
    _find_impl, singledispatch).

    Simplified: classes are numbers, in the order they were made, [object] being
    0; what a class is (its bases, [__mro__], direct subclasses, whether it has
    [__abstractmethods__]) and [issubclass] are tables.  Keys of registries are
    classes, never generic aliases.  Weak references are not modelled: no class
    is collected. *)
From Coq Require Import List Arith Bool.
Import ListNotations.

Definition cls := nat.

Record world := World {
  bases : cls -> list cls;         (* c.__bases__ *)
  mro : cls -> list cls;           (* c.__mro__ *)
  subclasses : cls -> list cls;    (* c.__subclasses__() *)
  issub : cls -> cls -> bool;      (* issubclass(c, d) *)
  abstr : cls -> bool              (* hasattr(c, "__abstractmethods__") *)
}.

Inductive error :=
| Inconsistent                     (* RuntimeError("Inconsistent hierarchy") *)
| Ambiguous (a b : cls)            (* RuntimeError("Ambiguous dispatch: a or b") *)
| OutOfFuel.                       (* of the model only *)

Inductive res (A : Type) := Ok (a : A) | Err (e : error).
Arguments Ok {A} _.
Arguments Err {A} _.

Definition bind {A B} (r : res A) (f : A -> res B) : res B :=
  match r with Ok a => f a | Err e => Err e end.

Definition mapM {A B} (f : A -> res B) := fix go (l : list A) : res (list B) :=
  match l with
  | [] => Ok []
  | a :: l' => bind (f a) (fun b => bind (go l') (fun bs => Ok (b :: bs)))
  end.

Definition mem (x : cls) (l : list cls) : bool := existsb (Nat.eqb x) l.

(** * functools._c3_merge (used through effectful/ops/types.py 29) *)

(** the first head of a sequence that is in no tail *)
Fixpoint pick (all rest : list (list cls)) : option cls :=
  match rest with
  | [] => None
  | [] :: rest' => pick all rest'
  | (x :: _) :: rest' =>
      if existsb (fun s => mem x (tl s)) all then pick all rest' else Some x
  end.

(** [if seq[0] == candidate: del seq[0]] *)
Definition drop (x : cls) (s : list cls) : list cls :=
  match s with
  | [] => []
  | y :: s' => if Nat.eqb y x then s' else s
  end.

Definition nonempty (s : list cls) : bool :=
  match s with [] => false | _ => true end.

Fixpoint merge (fuel : nat) (seqs : list (list cls)) : res (list cls) :=
  match fuel with
  | 0 => Err OutOfFuel
  | S n =>
      let seqs := filter nonempty seqs in
      match seqs with
      | [] => Ok []
      | _ =>
          match pick seqs seqs with
          | None => Err Inconsistent
          | Some x => bind (merge n (map (drop x) seqs)) (fun r => Ok (x :: r))
          end
      end
  end.

Definition total (seqs : list (list cls)) : nat := list_sum (map (@length cls) seqs).

(** as many rounds as there are members *)
Definition c3_merge (seqs : list (list cls)) : res (list cls) :=
  merge (S (total seqs)) seqs.

(** * functools._c3_mro (used through effectful/ops/types.py 29) *)

(** how many bases come up to and with the last abstract one *)
Fixpoint boundary (abs : cls -> bool) (l : list cls) : nat :=
  match l with
  | [] => 0
  | b :: l' =>
      match boundary abs l' with
      | 0 => if abs b then 1 else 0
      | S n => S (S n)
      end
  end.

(** [list.remove] *)
Fixpoint remove_first (x : cls) (l : list cls) : list cls :=
  match l with
  | [] => []
  | y :: l' => if Nat.eqb y x then l' else y :: remove_first x l'
  end.

(** the abstract classes that [c] is the first to be a subclass of *)
Definition introduced (w : world) (c : cls) (abcs : list cls) : list cls :=
  filter (fun a => issub w c a && negb (existsb (fun b => issub w b a) (bases w c))) abcs.

Fixpoint c3_mro (w : world) (fuel : nat) (c : cls) (abcs : list cls) : res (list cls) :=
  match fuel with
  | 0 => Err OutOfFuel
  | S n =>
      let k := boundary (abstr w) (bases w c) in
      let explicit := firstn k (bases w c) in
      let other := skipn k (bases w c) in
      let abstract := introduced w c abcs in
      let rest := fold_left (fun l a => remove_first a l) abstract abcs in
      bind (mapM (fun b => c3_mro w n b rest) explicit) (fun es =>
      bind (mapM (fun b => c3_mro w n b rest) abstract) (fun xs =>
      bind (mapM (fun b => c3_mro w n b rest) other) (fun os =>
      c3_merge ([c] :: es ++ xs ++ os ++ [explicit; abstract; other]))))
  end.

(** * functools._compose_mro (used through effectful/ops/types.py 29) *)

Definition related (w : world) (c : cls) (t : cls) : bool :=
  negb (mem t (mro w c)) && issub w c t.

Definition strict_base (w : world) (types : list cls) (t : cls) : bool :=
  existsb (fun o => negb (Nat.eqb t o) && mem t (mro w o)) types.

(** [found.sort(key=len, reverse=True)]: stable, longest first *)
Fixpoint insert (s : list cls) (l : list (list cls)) : list (list cls) :=
  match l with
  | [] => [s]
  | x :: l' => if Nat.ltb (length x) (length s) then s :: l else x :: insert s l'
  end.
Definition by_length (l : list (list cls)) : list (list cls) :=
  fold_left (fun acc s => insert s acc) l [].

Definition add_new (acc : list cls) (x : cls) : list cls :=
  if mem x acc then acc else acc ++ [x].

(** what the implemented subclasses of [t] say about the order of [types] *)
Definition found (w : world) (c : cls) (types : list cls) (t : cls) : list (list cls) :=
  map (fun sub => filter (fun s => mem s types) (mro w sub))
      (filter (fun sub => negb (mem sub (mro w c)) && issub w c sub) (subclasses w t)).

Definition arrange (w : world) (c : cls) (types : list cls) : list cls :=
  fold_left (fun acc t =>
    match found w c types t with
    | [] => acc ++ [t]
    | f => fold_left add_new (concat (by_length f)) acc
    end) types [].

Definition virtual (w : world) (c : cls) (keys : list cls) : list cls :=
  let types := filter (related w c) keys in
  filter (fun t => negb (strict_base w types t)) types.

(** enough rounds for [c3_mro] *)
Definition enough (c : cls) (abcs : list cls) : nat :=
  S (length abcs) * S (list_max (c :: abcs)).

Definition compose_mro (w : world) (c : cls) (keys : list cls) : res (list cls) :=
  let abcs := arrange w c (virtual w c keys) in
  c3_mro w (enough c abcs) c abcs.

(** * functools._find_impl (used through effectful/ops/types.py 29) *)

(** the class whose rule is used, if any *)
Fixpoint scan (w : world) (c : cls) (keys : list cls) (l : list cls) : res (option cls) :=
  match l with
  | [] => Ok None
  | m :: l' =>
      if mem m keys then
        match l' with
        | [] => Ok (Some m)
        | t :: _ =>
            if mem t keys && negb (mem t (mro w c)) && negb (mem m (mro w c))
               && negb (issub w m t)
            then Err (Ambiguous m t)
            else Ok (Some m)
        end
      else scan w c keys l'
  end.

Definition find_class (w : world) (c : cls) (keys : list cls) : res (option cls) :=
  bind (compose_mro w c keys) (scan w c keys).

Section Rules.
Context {F : Type}.

(** dictionaries: the order is that of the first assignment *)
Fixpoint lookup {V} (x : cls) (d : list (cls * V)) : option V :=
  match d with
  | [] => None
  | (y, v) :: d' => if Nat.eqb y x then Some v else lookup x d'
  end.
Fixpoint assign {V} (x : cls) (v : V) (d : list (cls * V)) : list (cls * V) :=
  match d with
  | [] => [(x, v)]
  | (y, u) :: d' => if Nat.eqb y x then (y, v) :: d' else (y, u) :: assign x v d'
  end.

Definition find_impl (w : world) (c : cls) (registry : list (cls * F)) : res (option F) :=
  bind (find_class w c (map fst registry)) (fun m =>
  Ok (match m with Some t => lookup t registry | None => None end)).

(** the [try] of dispatch without its cache *)
Definition fresh (w : world) (c : cls) (registry : list (cls * F)) : res (option F) :=
  match lookup c registry with
  | Some f => Ok (Some f)
  | None => find_impl w c registry
  end.

(** * functools.singledispatch, with its cache (effectful/ops/types.py 25-48)

    [token] is [cache_token]; [now] is what [abc.get_cache_token()] gives, which
    every [ABC.register] changes.  What classes are may change with it. *)
Record state := State {
  registry : list (cls * F);
  cache : list (cls * option F);
  token : option nat
}.

Definition start (f : F) : state := State [(0, f)] [] None.

Definition dispatch (w : nat -> world) (now : nat) (s : state) (c : cls)
  : state * res (option F) :=
  let s := match token s with
           | Some k => if Nat.eqb k now then s else State (registry s) [] (Some now)
           | None => s
           end in
  match lookup c (cache s) with
  | Some r => (s, Ok r)
  | None =>
      match fresh (w now) c (registry s) with
      | Ok r => (State (registry s) (assign c r (cache s)) (token s), Ok r)
      | Err e => (s, Err e)
      end
  end.

Definition register (w : nat -> world) (now : nat) (s : state) (c : cls) (f : F) : state :=
  State (assign c f (registry s)) []
        (match token s with
         | Some k => Some k
         | None => if abstr (w now) c then Some now else None
         end).

(** [register(A | B)]: a union has no [__abstractmethods__] *)
Definition register_union (s : state) (cs : list cls) (f : F) : state :=
  State (fold_left (fun r c => assign c f r) cs (registry s)) [] (token s).

Inductive event :=
| Register (c : cls) (f : F)
| RegisterUnion (cs : list cls) (f : F)
| Dispatch (c : cls)
| AbcRegister.                     (* ABC.register, anywhere in the program *)

Definition step (w : nat -> world) (x : nat * state) (e : event) : nat * state :=
  let (now, s) := x in
  match e with
  | Register c f => (now, register w now s c f)
  | RegisterUnion cs f => (now, register_union s cs f)
  | Dispatch c => (now, fst (dispatch w now s c))
  | AbcRegister => (Datatypes.S now, s)
  end.

Definition run (w : nat -> world) (f : F) (l : list event) : nat * state :=
  fold_left (step w) l (0, start f).
End Rules.
