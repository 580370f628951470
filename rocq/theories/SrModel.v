(** Model of the semi-ring dictionaries of the docs (docs/source/semi_ring.py 1-201): [SemiRingDict], the operations, the
    interpretation [eager], the rule [vertical_fusion], and [evaluate] (effectful/ops/semantics.py 119-200) under them.
    Bound variables have no names (a building term renames them, C08): [Sum] binds the value (0) and the key (1), [Let]
    one variable (0). So a [Let] whose value mentions its own variable is left out, and handlers of variables that are no
    longer there are too. Simplified: keys are integers or strings (dictionaries as keys raise); [+] written by a user on
    terms of numbers is [add]. *)
From Coq Require Import String List Bool Arith ZArith.
Import ListNotations.
Local Open Scope list_scope.

Inductive atom := AInt (z : Z) | AStr (s : string).
Definition atom_eqb (a b : atom) : bool := match a, b with AInt x, AInt y => Z.eqb x y | AStr s, AStr t => String.eqb s t | _, _ => false end.
(** Values: numbers, strings; [SemiRingDict]s ([true]) and the dictionaries of records ([false]), in order of insertion *)
Inductive val := VAtom (a : atom) | VMap (sr : bool) (m : list (atom * val)).

Fixpoint get {A} (m : list (atom * A)) (k : atom) : option A :=
  match m with [] => None | (k', v) :: m' => if atom_eqb k' k then Some v else get m' k end.
(** [d[k] = v]: a key keeps its place *)
Fixpoint set {A} (m : list (atom * A)) (k : atom) (v : A) : list (atom * A) :=
  match m with [] => [(k, v)] | (k', v') :: m' => if atom_eqb k' k then (k', v) :: m' else (k', v') :: set m' k v end.
(** [dict(pairs)] *)
Definition of_pairs {A} (l : list (atom * A)) : list (atom * A) := fold_left (fun m kv => set m (fst kv) (snd kv)) l [].

(** Python's [+] on values, of dictionaries the loop of [__add__] (34-41) and [eager_add] (118-126); [None]: it raises. A [SemiRingDict] can be added to from the right only. *)
Fixpoint plus (x y : val) {struct y} : option val :=
  match x, y with
  | VAtom (AInt a), VAtom (AInt b) => Some (VAtom (AInt (a + b)))
  | VAtom (AStr s), VAtom (AStr t) => Some (VAtom (AStr (s ++ t)))
  | VMap true m, VMap _ n =>
      (fix go (m n : list (atom * val)) : option val :=
         match n with
         | [] => Some (VMap true m)
         | (k, v) :: n' => match get m k with
                           | Some u => match plus u v with Some s => go (set m k s) n' | None => None end
                           | None => go (set m k v) n'
                           end
         end) m n
  | _, _ => None
  end.

(** Expressions and terms *)
Inductive tm :=
| Val (v : val)
| Var (i : nat)
| Dict (l : list (tm * tm))
| Dict2 (a b : tm)                         (* [Dict(a, b)], with arguments that are not pairs *)
| Rec (l : list (string * tm))
| Field (r k : tm)
| Add (a b : tm)
| Sum (e b : tm)
| Let (e b : tm).

(** Variables moved past binders *)
Definition up (n : nat) (f : nat -> nat) : nat -> nat := fun i => if i <? n then i else n + f (i - n).
Fixpoint rename (f : nat -> nat) (t : tm) : tm :=
  match t with
  | Val v => Val v
  | Var i => Var (f i)
  | Dict l => Dict (map (fun kv => (rename f (fst kv), rename f (snd kv))) l)
  | Dict2 a b => Dict2 (rename f a) (rename f b)
  | Rec l => Rec (map (fun kv => (fst kv, rename f (snd kv))) l)
  | Field r k => Field (rename f r) (rename f k)
  | Add a b => Add (rename f a) (rename f b)
  | Sum e b => Sum (rename f e) (rename (up 2 f) b)
  | Let e b => Let (rename f e) (rename (up 1 f) b)
  end.
(** Handlers of variables, inside [n] binders *)
Definition lift (n : nat) (s : nat -> tm) : nat -> tm := fun i => if i <? n then Var i else rename (fun j => n + j) (s (i - n)).
(** Handlers of the first variables alone *)
Definition handle (l : list tm) : nat -> tm := fun i => match nth_error l i with Some t => t | None => Var (i - length l) end.

Inductive out := Ok (t : tm) | Raise | OutOfFuel.
Definition bindo (o : out) (f : tm -> out) : out := match o with Ok t => f t | Raise => Raise | OutOfFuel => OutOfFuel end.
Definition of_option (o : option val) : out := match o with Some v => Ok (Val v) | None => Raise end.

(** [eager_dict] (94-98): a dictionary if no key or value is a term *)
Fixpoint values (l : list (tm * tm)) : option (list (atom * val)) :=
  match l with
  | [] => Some []
  | (Val (VAtom a), Val v) :: l' => match values l' with Some l' => Some ((a, v) :: l') | None => None end
  | _ :: _ => None
  end.
Fixpoint has_term (l : list (tm * tm)) : bool :=
  match l with [] => false | (Val _, Val _) :: l' => has_term l' | _ :: _ => true end.
Definition make_dict (l : list (tm * tm)) : out :=
  if has_term l then Ok (Dict l)
  else match values l with Some m => Ok (Val (VMap true (of_pairs m))) | None => Raise end.
(** [eager_record] (101-105) *)
Fixpoint fields (l : list (string * tm)) : option (list (atom * val)) :=
  match l with
  | [] => Some []
  | (k, Val v) :: l' => match fields l' with Some m => Some ((AStr k, v) :: m) | None => None end
  | _ :: _ => None
  end.
Definition make_rec (l : list (string * tm)) : out := match fields l with Some m => Ok (Val (VMap false (of_pairs m))) | None => Ok (Rec l) end.
(** [eager_field] (133-140): a record is asked for strings only, and is left alone otherwise *)
Definition make_field (r k : tm) : out :=
  match r, k with
  | Val (VMap false m), Val (VAtom (AStr s)) => of_option (get m (AStr s))
  | Val (VMap true m), Val (VAtom a) => of_option (get m a)
  | Val (VMap true _), Val (VMap _ _) => Raise
  | _, _ => Ok (Field r k)
  end.
(** [eager_add] (118-130) and the rule of [add] (78-83) *)
Definition make_add (a b : tm) : out := match a, b with Val x, Val y => of_option (plus x y) | _, _ => Ok (Add a b) end.

(** The loops of [eager_sum] (143-161): over the items, with the body evaluated for each ([new_d += r]; a term has no
    [items]), and over a body that is a dictionary already *)
Section Loop.
Variable body : atom -> val -> out.
Fixpoint loop (acc : val) (m : list (atom * val)) : out :=
  match m with
  | [] => Ok (Val acc)
  | (k, v) :: m' => bindo (body k v) (fun r => match r with Val x => match plus acc x with Some acc' => loop acc' m' | None => Raise end | _ => Raise end)
  end.
End Loop.

(** Is a variable mentioned? *)
Fixpoint uses (i : nat) (t : tm) : bool :=
  match t with
  | Val _ => false
  | Var j => i =? j
  | Dict l => existsb (fun kv => uses i (fst kv) || uses i (snd kv)) l
  | Dict2 a b => uses i a || uses i b
  | Rec l => existsb (fun kv => uses i (snd kv)) l
  | Field r k => uses i r || uses i k
  | Add a b => uses i a || uses i b
  | Sum e b => uses i e || uses (2 + i) b
  | Let e b => uses i e || uses (1 + i) b
  end.
(** [vertical_fusion] (168-187): its pattern has a [Dict] of two arguments, the key and the value, where a [Dict] of one
    pair has one. The result is the rule's: the key of the second sum is bound to the value of the first in the inner
    [Let]. (A second body that mentions [x] is left out; the rule leaves that [x] free. The new term is evaluated once
    here, in place of by the calls that build it and again.) *)
Definition second (rhs : tm) : tm := rename (fun i => match i with 0 => 2 | 1 => 0 | S (S (S j)) => 5 + j | 2 => 2 end) rhs.
Definition fused (dict : tm -> tm -> tm) (es lhs rhs : tm) : tm :=
  Sum es (Let lhs (Let (Var 2) (dict (Var 0) (Let (rename (fun j => 2 + j) lhs) (second rhs))))).
Definition fuse (e1 e2 : tm) : option tm :=
  match e1, e2 with
  | Sum es (Dict2 (Var 1) lhs), Sum (Var 0) (Dict2 (Var 1) rhs) => if uses 2 rhs then None else Some (fused Dict2 es lhs rhs)
  | _, _ => None
  end.

Section Each.
Variable f : tm -> out.
Fixpoint pairs (l : list (tm * tm)) (g : list (tm * tm) -> out) : out :=
  match l with
  | [] => g []
  | (a, b) :: l' => bindo (f a) (fun a' => bindo (f b) (fun b' => pairs l' (fun r => g ((a', b') :: r))))
  end.
Fixpoint named (l : list (string * tm)) (g : list (string * tm) -> out) : out :=
  match l with
  | [] => g []
  | (k, b) :: l' => bindo (f b) (fun b' => named l' (fun r => g ((k, b') :: r)))
  end.
End Each.

(** [Dict(a, b)]: [eager_dict] asks for the parts of each argument; a variable can be asked (its type may be that of
    strings), a number cannot. (Literal strings are left out: they raise here.) *)
Definition make_dict2 (a b : tm) : out := match a with Val _ => Raise | _ => Ok (Dict2 a b) end.
(** [eager_sum] (143-161) *)
Definition make_sum (run : (nat -> tm) -> tm -> out) (e b : tm) : out :=
  match e, b with
  | Val (VMap true m), Val (VMap true d) => loop (fun _ _ => Ok (Val (VMap true d))) (VMap true []) m
  | Val (VMap true m), Val _ => Ok (Sum e b)
  | Val (VMap true m), _ => loop (fun k v => run (handle [Val v; Val (VAtom k)]) b) (VMap true []) m
  | _, _ => Ok (Sum e b)
  end.
(** [eager_let] (164-165), below [vertical_fusion] if [opt] is installed *)
Definition make_let (opt : bool) (run : (nat -> tm) -> tm -> out) (e b : tm) : out :=
  match (if opt then fuse e b else None) with Some t => run Var t | None => run (handle [e]) b end.

(** [evaluate] (effectful/ops/semantics.py 119-226) of a term, with handlers of variables and [eager] (190-197) installed *)
Fixpoint ev (opt : bool) (fuel : nat) (s : nat -> tm) (t : tm) : out :=
  match fuel with
  | 0 => OutOfFuel
  | S fuel =>
      let run := ev opt fuel in
      match t with
      | Val v => Ok (Val v)
      | Var i => Ok (s i)
      | Dict l => pairs (run s) l make_dict
      | Dict2 a b => bindo (run s a) (fun a' => bindo (run s b) (fun b' => make_dict2 a' b'))
      | Rec l => named (run s) l make_rec
      | Field r k => bindo (run s r) (fun r' => bindo (run s k) (fun k' => make_field r' k'))
      | Add a b => bindo (run s a) (fun a' => bindo (run s b) (fun b' => make_add a' b'))
      | Sum e b => bindo (run s e) (fun e' => bindo (run (lift 2 s) b) (fun b' => make_sum run e' b'))
      | Let e b => bindo (run s e) (fun e' => bindo (run (lift 1 s) b) (fun b' => make_let opt run e' b'))
      end
  end.
(** A program, run under [handler(eager)], or under [handler(opt)] too *)
Definition eager (fuel : nat) (t : tm) : out := ev false fuel Var t.
Definition eager_opt (fuel : nat) (t : tm) : out := ev true fuel Var t.
