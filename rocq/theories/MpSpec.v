(** What programs of the miniature Pyro mean: which sites they go through, with which distributions and values. No handlers
    here. *)
From Coq Require Import List Bool Arith.
Import ListNotations.
From Verif Require Import MpModel.

Section Spec.
Variables V B G U C R : Type.
Variable draw : B -> list nat -> G -> V * G.
Variable to_c : C -> U -> V.
Variable from_c : C -> V -> U.
Notation dist := (dist B).
Notation prog := (prog V B C).

(** Plates in scope: size, and axis counted from the last (1). A distribution inside plates has their sizes at their axes,
    and otherwise its own *)
Definition plates := list (nat * nat).
Definition size_at (ps : plates) (s : list nat) (i : nat) : nat :=
  match List.find (fun p => snd p =? S i) ps with Some p => fst p | None => nth i s 1 end.
Definition depth (ps : plates) : nat := fold_right (fun p m => Nat.max (snd p) m) 0 ps.
Definition inside (ps : plates) (s : list nat) : list nat := map (size_at ps s) (seq 0 (Nat.max (length s) (depth ps))).
(** Axes can grow from 1, no axis is given to two plates *)
Definition grows (s s' : list nat) : Prop := length s <= length s' /\ forall i, i < length s -> nth i s 1 = nth i s' 1 \/ nth i s 1 = 1.
Definition apart (ps : plates) : Prop := NoDup (map snd ps) /\ Forall (fun p => 1 <= snd p) ps.

(** One site of an execution: a sample (the distribution as written and as used, what the call said of [obs], the plates
    around it), or a parameter (was its value computed by a function given as [initial_value]?) *)
Inductive event :=
| ESample (n : nat) (own : dist) (used : dist) (g : given V) (v : V) (ps : plates)
| EParam (n : nat) (v : V) (computed : bool).
Definition name_of (e : event) : nat := match e with ESample n _ _ _ _ _ => n | EParam n _ _ => n end.

(** [goes known ps p r s v es r' s']: from the random state [r] and parameter store [s], the program [p], inside the plates
    [ps], returns [v] after the sites [es]. A sample's value is the known one if there is one, else the data, else drawn. *)
Definition store_t := list (nat * (U * C)).
Inductive goes (known : nat -> option V) : plates -> prog -> G -> store_t -> V -> list event -> G -> store_t -> Prop :=
| G_ret ps v r s : goes known ps (Ret v) r s v [] r s
| G_sample ps n d g k r s v es r' s' x r1 :
    grows (shape d) (inside ps (shape d)) -> apart ps ->
    (match known n, data g with
     | Some y, _ => x = y /\ r1 = r
     | None, Some y => x = y /\ r1 = r
     | None, None => draw (fam d) (inside ps (shape d)) r = (x, r1)
     end) ->
    goes known ps (k x) r1 s v es r' s' ->
    goes known ps (Sample n d g k) r s v (ESample n d (mkd (fam d) (inside ps (shape d))) g x ps :: es) r' s'
| G_param_old ps n init c k r s v es r' s' u c' :
    find s n = Some (u, c') -> goes known ps (k (to_c c' u)) r s v es r' s' ->
    goes known ps (Param n init c k) r s v (EParam n (to_c c' u) false :: es) r' s'
| G_param_new ps n y fn c k r s v es r' s' :
    find s n = None -> goes known ps (k (to_c c (from_c c y))) r (s ++ [(n, (from_c c y, c))]) v es r' s' ->
    goes known ps (Param n (if fn : bool then IFunction y else ITensor y) c k) r s v (EParam n (to_c c (from_c c y)) fn :: es) r' s'
| G_plate ps sz j body k r s x es1 r1 s1 v es2 r' s' :
    goes known ((sz, j) :: ps) body r s x es1 r1 s1 -> goes known ps (k x) r1 s1 v es2 r' s' ->
    goes known ps (Plate sz j body k) r s v (es1 ++ es2) r' s'.

(** The cases that are right: [obs] is given by keyword, and data is not given to a distribution that the plates around it
    expand (unless the value is known), and initial values are tensors *)
Definition handled (known : nat -> option V) (e : event) : Prop :=
  match e with
  | ESample n own used g v ps => (forall o, g <> Positional o) /\ (data g <> None -> known n = None -> shape own = shape used)
  | EParam _ _ fn => fn = false
  end.
(** The value sampled at a name *)
Fixpoint sampled (es : list event) (n : nat) : option V :=
  match es with
  | [] => None
  | ESample m _ _ _ v _ :: es' => if m =? n then Some v else sampled es' n
  | EParam _ _ _ :: es' => sampled es' n
  end.
Definition nothing : nat -> option V := fun _ => None.

(** The trace of an execution: one message for every name, the last *)
Definition message (known : nat -> option V) (e : event) : msg V B :=
  match e with
  | ESample n _ d g v _ => MSample d v (match known n with Some y => Some y | None => data g end)
  | EParam _ v _ => MParam v
  end.
Definition recorded (known : nat -> option V) (es : list event) : list (nat * msg V B) :=
  fold_left (fun t e => put t (name_of e) (message known e)) es [].
(** No two samples have one name, and no sample has the name of a parameter *)
Definition sample_names (es : list event) : list nat := flat_map (fun e => match e with ESample n _ _ _ _ _ => [n] | EParam _ _ _ => [] end) es.
Definition param_names (es : list event) : list nat := flat_map (fun e => match e with EParam n _ _ => [n] | ESample _ _ _ _ _ _ => [] end) es.
Definition distinct (es : list event) : Prop := NoDup (sample_names es) /\ (forall n, In n (sample_names es) -> ~ In n (param_names es)).

(** The loss: minus the evidence lower bound *)
Variable zero : R.
Variables add sub : R -> R -> R.
Variable neg : R -> R.
Variable logp : dist -> V -> R.
Definition total (op : R -> R -> R) (es : list event) (acc : R) : R :=
  fold_left (fun acc e => match e with ESample _ _ d _ v _ => op acc (logp d v) | EParam _ _ _ => acc end) es acc.
Definition loss (model guide : list event) : R := neg (total sub guide (total add model zero)).
(** The parameters of an execution, each once *)
Definition params (es : list event) : list (nat * V) :=
  fold_left (fun l e => match e with EParam n v _ => put l n v | _ => l end) es [].
End Spec.

Arguments ESample {V B} n own used g v ps.
Arguments EParam {V B} n v computed.
Arguments name_of {V B} e.
Arguments goes {V B G U C} draw to_c from_c known.
Arguments handled {V B} known e.
Arguments sampled {V B} es n.
Arguments nothing {V} _.
Arguments total {V B R} logp op es acc.
Arguments loss {V B R} zero add sub neg logp model guide.
Arguments params {V B} es.
Arguments message {V B} known e.
Arguments recorded {V B} known es.
Arguments sample_names {V B} es.
Arguments param_names {V B} es.
Arguments distinct {V B} es.
