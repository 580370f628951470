(** What typed dictionaries mean: values and their types, written from the typing specification and not from the unifier. *)
From Coq Require Import List Bool Arith.
Import ListNotations.
From Verif Require Import TdModel.

(** A value: of a class that is not generic, a list, or a dictionary with text as keys *)
Inductive val := VAtom (c : nat) | VSeq (l : list val) | VDict (d : list (nat * val)).
Definition env := nat -> val -> Prop.

Section All.
Context {A : Type} (P : A -> Prop).
Fixpoint all (l : list A) : Prop := match l with [] => True | a :: l' => P a /\ all l' end.
End All.

(** [issubclass] is transitive, and only [object] is above [object] *)
Definition classes (below : nat -> nat -> bool) : Prop :=
  (forall a b c, below a b = true -> below b c = true -> below a c = true) /\ (forall c, below object c = true -> c = object).
(** The parameters of a class stand for the arguments, however they are declared *)
Definition params (c : tdc) : list nat := match c with Root => [] | Cls _ ps _ _ _ => ps end.
Definition over (rho : env) (ps : list nat) (l : list (val -> Prop)) : env :=
  fun x => match get (combine ps l) x with Some P => P | None => rho x end.
(** A field: present unless [NotRequired], and of its type when present *)
Definition field_good (d : list (nat * val)) (n : nat) (o : bool) (P : val -> Prop) : Prop :=
  match get d n with Some x => P x | None => o = true end.

Section Has.
Variable below : nat -> nat -> bool.
(** [has e rho v t]: [v] is a [t] when the variables stand for [rho]. A typed dictionary may hold further keys; with [e] it
    holds only the declared keys, as when it is made by calling its class with arguments checked. *)
Fixpoint has (e : bool) (rho : env) (v : val) (t : ty) {struct t} : Prop :=
  match t with
  | TVar x => rho x v
  | TCon c => c = object \/ exists c', v = VAtom c' /\ (c' = c \/ below c' c = true)
  | TGen g [a] => is_map g = false /\ exists l, v = VSeq l /\ all (fun x => has e rho x a) l
  | TGen g [k; a] => is_map g = true /\ exists d, v = VDict d /\ forall n x, get d n = Some x -> has e rho (VAtom text) k /\ has e rho x a
  | TGen _ _ => False
  | TDict c a =>
      exists d, v = VDict d /\
        good e (match a with Some l => over rho (params c) (map (fun u x => has e rho x u) l) | None => rho end) d c /\
        (e = true -> forall n x, get d n = Some x -> In n (map fname (raw c)))
  end
with good (e : bool) (rho : env) (d : list (nat * val)) (c : tdc) {struct c} : Prop :=
  match c with
  | Root => True
  | Cls _ _ b ba fs =>
      good e (match ba with Some l => over rho (params b) (map (fun u x => has e rho x u) l) | None => rho end) d b /\
      all (fun f => fgood e rho d f) fs
  end
with fgood (e : bool) (rho : env) (d : list (nat * val)) (f : fld) {struct f} : Prop :=
  match f with Fld n t o _ => field_good d n o (fun x => has e rho x t) end.
(** [v] holds what is declared and no more, [v] may hold more *)
Definition made (rho : env) (v : val) (t : ty) : Prop := has true rho v t.
Definition held (rho : env) (v : val) (t : ty) : Prop := has false rho v t.

(** The fields as users see them: name, whether [NotRequired], whether [ReadOnly], and what the field may hold *)
Fixpoint slots (e : bool) (rho : env) (c : tdc) : list (nat * bool * bool * (val -> Prop)) :=
  match c with
  | Root => []
  | Cls _ _ b ba fs =>
      slots e (match ba with Some l => over rho (params b) (map (fun u x => has e rho x u) l) | None => rho end) b ++
      map (fun f => (fname f, fopt f, fread f, fun x => has e rho x (ftype f))) fs
  end.
Definition slots_of (e : bool) (rho : env) (c : tdc) (a : option (list ty)) : list (nat * bool * bool * (val -> Prop)) :=
  slots e (match a with Some l => over rho (params c) (map (fun u x => has e rho x u) l) | None => rho end) c.

(** A substitution, read as what the variables stand for *)
Definition fits (e : bool) (rho : env) (s : subst) : Prop := forall x t, get s x = Some t -> forall v, rho x v <-> has e rho v t.
Definition within (re rh : env) : Prop := forall x v, re x v -> rh x v.
End Has.

(** What the theorems ask of types. [formal] tells the parameters of classes from the variables of patterns. The variables of a
    type are all [B]; a class is used with as many arguments as it has parameters, declared by the class statement, its own
    parameters are distinct and do not occur in the arguments, its fields mention its parameters only, and those that it
    inherits mention no parameters, except that a class without parameters may derive from a class with parameters; and the
    fields of a class with parameters, or with a base that has some, are canonical. *)
Section Proper.
Variable formal : nat -> bool.
Fixpoint proper (B : nat -> Prop) (t : ty) {struct t} : Prop :=
  match t with
  | TVar x => B x
  | TCon _ => True
  | TGen _ l => all (proper B) l
  | TDict c a =>
      (settled_c c = true \/ a = None /\ plain c) /\ NoDup (map fname (raw c)) /\
      match a, c with
      | _, Root => False
      | Some l, Cls d ps b ba fs =>
          all (proper B) l /\ length l = length ps /\ d = true /\ NoDup ps /\ (forall x, In x ps -> formal x = true /\ ~ B x) /\
          plain b /\ ba = None /\ all (proper_f (fun x => In x ps)) fs
      | None, Cls _ ps b ba fs => ps = [] /\ all (proper_f (fun _ => False)) fs /\ match ba with None => plain b | Some l => all (proper (fun _ => False)) l /\ direct (length l) b end
      end
  end
with plain (c : tdc) : Prop :=
  match c with Root => True | Cls _ ps b ba fs => ps = [] /\ ba = None /\ plain b /\ all (proper_f (fun _ => False)) fs end
with direct (n : nat) (c : tdc) : Prop :=
  match c with
  | Root => False
  | Cls d ps b ba fs => d = true /\ n = length ps /\ ps <> [] /\ NoDup ps /\ (forall x, In x ps -> formal x = true) /\ ba = None /\ plain b /\ all (proper_f (fun x => In x ps)) fs
  end
with proper_f (B : nat -> Prop) (f : fld) : Prop := match f with Fld _ t _ _ => proper B t end.
(** A type with pattern variables, a type without variables *)
Definition pattern (t : ty) : Prop := proper (fun x => formal x = false) t.
Definition closed (t : ty) : Prop := proper (fun _ => False) t.
End Proper.

(** A write of key [n] and its deletion *)
Fixpoint write (d : list (nat * val)) (n : nat) (x : val) : list (nat * val) :=
  match d with [] => [(n, x)] | (m, y) :: d' => if m =? n then (n, x) :: d' else (m, y) :: write d' n x end.
Definition drop (d : list (nat * val)) (n : nat) : list (nat * val) := filter (fun p => negb (fst p =? n)) d.
