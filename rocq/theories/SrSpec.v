(** What the expressions of docs/source/semi_ring.py mean, and what adding dictionaries means place by place. Nothing here
    evaluates terms or substitutes: a program has a meaning in an environment. *)
From Coq Require Import String List Bool Arith ZArith Permutation.
Import ListNotations.
From Verif Require Import SrModel.
Local Open Scope list_scope.

(** Values of variables; [None]: computing it raises *)
Definition env := nat -> option val.
Definition with1 (x : option val) (r : env) : env := fun i => match i with 0 => x | S j => r j end.
Definition with2 (v k : option val) (r : env) : env := fun i => match i with 0 => v | 1 => k | S (S j) => r j end.
Definition both {A B C} (f : A -> B -> option C) (x : option A) (y : option B) : option C :=
  match x, y with Some a, Some b => f a b | _, _ => None end.
Fixpoint every {A} (l : list (option A)) : option (list A) :=
  match l with [] => Some [] | x :: l' => both (fun a l => Some (a :: l)) x (every l') end.
Definition entry (k v : option val) : option (atom * val) := both (fun k v => match k with VAtom a => Some (a, v) | VMap _ _ => None end) k v.
Definition project (r k : val) : option val :=
  match r, k with
  | VMap true m, VAtom a => get m a
  | VMap false m, VAtom (AStr s) => get m (AStr s)
  | _, _ => None
  end.
(** The sum, over the entries of a dictionary, of what the body means for each *)
Definition sum_of (body : atom -> val -> option val) (m : list (atom * val)) : option val :=
  fold_left (fun acc kv => both plus acc (body (fst kv) (snd kv))) m (Some (VMap true [])).

Fixpoint den (r : env) (t : tm) : option val :=
  match t with
  | Val v => Some v
  | Var i => r i
  | Dict l => match every (map (fun kv => entry (den r (fst kv)) (den r (snd kv))) l) with Some m => Some (VMap true (of_pairs m)) | None => None end
  | Dict2 _ _ => None
  | Rec l => match every (map (fun kv => entry (Some (VAtom (AStr (fst kv)))) (den r (snd kv))) l) with Some m => Some (VMap false (of_pairs m)) | None => None end
  | Field a b => both project (den r a) (den r b)
  | Add a b => both plus (den r a) (den r b)
  | Sum e b => match den r e with
               | Some (VMap true m) => sum_of (fun k v => den (with2 (Some v) (Some (VAtom k)) r) b) m
               | _ => None
               end
  | Let e b => den (with1 (den r e) r) b
  end.
Definition nowhere : env := fun _ => None.

(** Programs whose every [Dict] is given pairs *)
Inductive paired : tm -> Prop :=
| P_val v : paired (Val v)
| P_var i : paired (Var i)
| P_dict l : Forall (fun kv => paired (fst kv) /\ paired (snd kv)) l -> paired (Dict l)
| P_rec l : Forall (fun kv => paired (snd kv)) l -> paired (Rec l)
| P_field r k : paired r -> paired k -> paired (Field r k)
| P_add a b : paired a -> paired b -> paired (Add a b)
| P_sum e b : paired e -> paired b -> paired (Sum e b)
| P_let e b : paired e -> paired b -> paired (Let e b).

(** Bodies without sums and lets, over the first [n] variables *)
Inductive simple (n : nat) : tm -> Prop :=
| S_val v : simple n (Val v)
| S_var i : i < n -> simple n (Var i)
| S_dict l : Forall (fun kv => simple n (fst kv) /\ simple n (snd kv)) l -> simple n (Dict l)
| S_rec l : Forall (fun kv => simple n (snd kv)) l -> simple n (Rec l)
| S_field r k : simple n r -> simple n k -> simple n (Field r k)
| S_add a b : simple n a -> simple n b -> simple n (Add a b).

(** What is at a place of a value: a path of keys leads to a number, a string or a dictionary *)
Inductive leaf := LInt (z : Z) | LStr (s : string) | LMap (sr : bool).
Fixpoint look (p : list atom) (v : val) : option leaf :=
  match p, v with
  | [], VAtom (AInt z) => Some (LInt z)
  | [], VAtom (AStr s) => Some (LStr s)
  | [], VMap sr _ => Some (LMap sr)
  | k :: p', VMap _ m => match get m k with Some u => look p' u | None => None end
  | _ :: _, VAtom _ => None
  end.
(** Numbers are added; dictionaries stay; what is at one side only stays *)
Definition together (a b : option leaf) : option leaf :=
  match a, b with
  | None, y => y
  | x, None => x
  | Some (LInt x), Some (LInt y) => Some (LInt (x + y))
  | Some (LStr s), Some (LStr t) => Some (LStr (s ++ t))
  | Some (LMap s), Some (LMap _) => Some (LMap s)
  | x, _ => x
  end.
Definition same_value (x y : val) : Prop := forall p, look p x = look p y.
(** Keys of a dictionary are different, at every depth *)
Inductive proper : val -> Prop :=
| proper_atom a : proper (VAtom a)
| proper_map sr m : NoDup (map fst m) -> Forall (fun kv => proper (snd kv)) m -> proper (VMap sr m).
(** Numbers and semi-ring dictionaries of such, at every depth: no strings, no records *)
Inductive numeric : val -> Prop :=
| numeric_int z : numeric (VAtom (AInt z))
| numeric_map m : Forall (fun kv => numeric (snd kv)) m -> numeric (VMap true m).
