(** What is expected of the choice of a rule, told with [issubclass], the bases of
    classes and the registered classes only. *)
From Coq Require Import List Arith Bool.
From Verif Require Import SdModel.
Import ListNotations.

(** [t] is [c] or one of its bases, or a base of these, and so on *)
Inductive nominal (w : world) : cls -> cls -> Prop :=
| nominal_refl : forall c, nominal w c c
| nominal_base : forall c b t, In b (bases w c) -> nominal w b t -> nominal w c t.

(** What Python ensures of classes: bases are made before the class, [__mro__] lists
    a class and its bases, all the way up; what is inherited is a subclass; the
    direct subclasses have the class as a base; [object] is the root. *)
Record sound (w : world) : Prop := {
  older : forall c b, In b (bases w c) -> b < c;
  listed : forall c t, In t (mro w c) <-> nominal w c t;
  inherited : forall c t, nominal w c t -> issub w c t = true;
  children : forall t s, In s (subclasses w t) -> nominal w s t;
  rooted : forall c, nominal w c 0
}.

(** C3 as Python describes it for [__mro__]: take the first head that is in no tail,
    drop it from the heads, and go on. *)
Definition behead (x : cls) (s : list cls) : list cls :=
  match s with
  | y :: s' => if Nat.eq_dec y x then s' else s
  | [] => []
  end.
Inductive c3 : list (list cls) -> list cls -> Prop :=
| c3_done : forall seqs, (forall s, In s seqs -> s = []) -> c3 seqs []
| c3_next : forall seqs l x s r more,
    seqs = l ++ (x :: s) :: more ->
    (forall y s', In (y :: s') l -> exists q, In q seqs /\ In y (tl q)) ->
    (forall q, In q seqs -> ~ In x (tl q)) ->
    c3 (map (behead x) seqs) r ->
    c3 seqs (x :: r).

(** [__mro__] is the C3 order of the bases *)
Definition ordered (w : world) : Prop :=
  forall c, exists r, mro w c = c :: r /\
    c3 (map (mro w) (bases w c) ++ [bases w c]) r.

(** only abstract classes have subclasses that do not inherit from them *)
Definition plain (w : world) : Prop :=
  forall c t, abstr w t = false -> issub w c t = true -> nominal w c t.

(** no class on the way up lists a base that is not abstract after one that is *)
Definition unmixed (w : world) (c : cls) : Prop :=
  forall d, nominal w c d ->
    (forall b, In b (bases w d) -> abstr w b = false) \/
    (exists l b, bases w d = l ++ [b] /\ abstr w b = true).

(** every registered class that [c] is a subclass of is inherited *)
Definition no_virtual (w : world) (ks : list cls) (c : cls) : Prop :=
  forall t, In t ks -> issub w c t = true -> nominal w c t.

Definition keys {V} (registry : list (cls * V)) : list cls := map fst registry.

(** a registered class that is a superclass, none registered below it being one *)
Definition best (w : world) (ks : list cls) (c t : cls) : Prop :=
  In t ks /\ issub w c t = true /\
  forall u, In u ks -> issub w c u = true -> nominal w u t -> u = t.

(** the first of a list that is registered *)
Fixpoint first_in (ks : list cls) (l : list cls) : option cls :=
  match l with
  | [] => None
  | x :: l' => if in_dec Nat.eq_dec x ks then Some x else first_in ks l'
  end.

(** unions of classes that are not abstract *)
Definition direct {V} (w : nat -> world) (e : @event V) : Prop :=
  match e with
  | RegisterUnion cs _ => forall n c, In c cs -> abstr (w n) c = false
  | _ => True
  end.

(** worlds that differ only in what was registered with abstract classes *)
Definition steady (w : nat -> world) : Prop :=
  (forall n, sound (w n) /\ plain (w n)) /\
  (forall n c, bases (w n) c = bases (w 0) c) /\
  (forall n c, abstr (w n) c = abstr (w 0) c).

(** the rules given so far, first [f] for [object] *)
Definition given_step {V} (e : @event V) (r : list (cls * V)) : list (cls * V) :=
  match e with
  | Register c g => assign c g r
  | RegisterUnion cs g => fold_left (fun r c => assign c g r) cs r
  | _ => r
  end.
Definition given {V} (f : V) (l : list (@event V)) : list (cls * V) :=
  fold_left (fun r e => given_step e r) l [(0, f)].
(** how often something was registered with an abstract class *)
Definition bumps {V} (l : list (@event V)) : nat :=
  length (filter (fun e => match e with AbcRegister => true | _ => false end) l).
