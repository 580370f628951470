(** What going through a collection should give: a collection of the same type with what its members become. *)
From Coq Require Import String List Bool Arith.
From Verif Require Import ColModel.
Import ListNotations.
Local Open Scope list_scope.

Section Spec.
Variable keyeq : val -> val -> bool.
Record equality : Prop := Equality {
  eq_refl' : forall a, keyeq a a = true;
  eq_sym' : forall a b, keyeq a b = keyeq b a;
  eq_trans' : forall a b c, keyeq a b = true -> keyeq b c = true -> keyeq a c = true }.
(** Each member once, where it occurs first *)
Fixpoint once (l : list val) : list val :=
  match l with [] => [] | x :: l' => x :: filter (fun y => negb (keyeq x y)) (once l') end.
(** The last value paired with a key *)
Fixpoint last_value (k : val) (ps : list (val * val)) : option val :=
  match ps with
  | [] => None
  | (k', v) :: ps' => match last_value k ps' with Some w => Some w | None => if keyeq k' k then Some v else None end
  end.
(** A dictionary of pairs: its keys are the keys of the pairs, each once; its values are the last ones. *)
Definition dictionary (ps d : list (val * val)) : Prop :=
  map fst d = once (map fst ps) /\ forall k v, In (k, v) d -> last_value k ps = Some v.

Variable hash_term : nat -> bool.
Variable call : nat -> list val -> list (string * val) -> outcome val.
Variable ren : nat -> nat.
Definition all_hashable (l : list val) : Prop := Forall (fun k => hashable hash_term k = true) l.
(** What a value becomes, member by member *)
Inductive becomes : val -> val -> Prop :=
  | b_num n : becomes (Num n) (Num n)
  | b_str s : becomes (Str s) (Str s)
  | b_oper x : becomes (Oper x) (Oper (ren x))
  | b_term op args kw args' ws w : Forall2 becomes args args' -> Forall2 becomes (map snd kw) ws ->
      call op args' (combine (map fst kw) ws) = Ok w -> becomes (Trm op args kw) w
  | b_seq k l l' : Forall2 becomes l l' -> becomes (Seq k l) (Seq k l')
  | b_map k l ks vs d : Forall2 becomes (map fst l) ks -> Forall2 becomes (map snd l) vs -> all_hashable ks ->
      dictionary (combine ks vs) d -> becomes (Mapp k l) (Mapp k d)
  | b_set k l l' : Forall2 becomes l l' -> all_hashable l' -> becomes (Sets k l) (Sets k (once l'))
  | b_keys l l' : Forall2 becomes l l' -> all_hashable l' -> becomes (Keys l) (Sets KSet (once l'))
  | b_items l ks vs : Forall2 becomes (map fst l) ks -> Forall2 becomes (map snd l) vs ->
      all_hashable (map pair (combine ks vs)) -> becomes (Items l) (Sets KSet (once (map pair (combine ks vs))))
  | b_vals l l' : Forall2 becomes l l' -> becomes (Vals l) (Seq KList l')
  | b_data c fs ws : Forall2 becomes (map snd fs) ws -> becomes (Data c fs) (Data c (combine (map fst fs) ws)).

(** What [map_structure] should make of a value: the function is applied at the leaves. *)
Variable f : val -> outcome val.
Inductive mapped : val -> val -> Prop :=
  | m_num n w : f (Num n) = Ok w -> mapped (Num n) w
  | m_str s : mapped (Str s) (Str s)
  | m_oper x w : f (Oper x) = Ok w -> mapped (Oper x) w
  | m_term op args kw w : f (Trm op args kw) = Ok w -> mapped (Trm op args kw) w
  | m_seq k l l' : Forall2 mapped l l' -> mapped (Seq k l) (Seq k l')
  | m_map k l ks vs d : Forall2 mapped (map fst l) ks -> Forall2 mapped (map snd l) vs -> all_hashable ks ->
      dictionary (combine ks vs) d -> mapped (Mapp k l) (Mapp k d)
  | m_set k l l' : Forall2 mapped l l' -> all_hashable l' -> mapped (Sets k l) (Sets k (once l'))
  | m_keys l l' : Forall2 mapped l l' -> all_hashable l' -> mapped (Keys l) (Sets KSet (once l'))
  | m_items l ks vs : Forall2 mapped (map fst l) ks -> Forall2 mapped (map snd l) vs ->
      all_hashable (map pair (combine ks vs)) -> mapped (Items l) (Sets KSet (once (map pair (combine ks vs))))
  | m_vals l l' : Forall2 mapped l l' -> mapped (Vals l) (Seq KList l')
  | m_data c fs ws : Forall2 mapped (map snd fs) ws -> mapped (Data c fs) (Data c (combine (map fst fs) ws)).

(** The collections that are built again as they were: no [range], [array], [memoryview], bounded [deque],
    [Counter] and [ChainMap], and no fields outside [__init__] *)
Definition plain_seq (k : seqk) : Prop := match k with KRange | KArray | KMemoryview | KDeque (Some _) => False | _ => True end.
Definition plain_map (k : mapk) : Prop := match k with KCounter | KChain => False | _ => True end.
Inductive plain : val -> Prop :=
  | pl_num n : plain (Num n)
  | pl_str s : plain (Str s)
  | pl_oper x : plain (Oper x)
  | pl_term op args kw : Forall plain args -> Forall plain (map snd kw) -> plain (Trm op args kw)
  | pl_seq k l : plain_seq k -> Forall plain l -> plain (Seq k l)
  | pl_map k l : plain_map k -> Forall plain (map fst l) -> Forall plain (map snd l) -> plain (Mapp k l)
  | pl_set k l : Forall plain l -> plain (Sets k l)
  | pl_keys l : Forall plain l -> plain (Keys l)
  | pl_items l : Forall plain (map fst l) -> Forall plain (map snd l) -> plain (Items l)
  | pl_vals l : Forall plain l -> plain (Vals l)
  | pl_data c fs : Forall (fun x => snd (fst x) = true) fs -> Forall plain (map snd fs) -> plain (Data c fs).
(** As Python makes them: keys and members can be hashed and are different *)
Definition distinct (l : list val) : Prop := all_hashable l /\ once l = l.
Inductive proper : val -> Prop :=
  | p_num n : proper (Num n)
  | p_str s : proper (Str s)
  | p_oper x : proper (Oper x)
  | p_term op args kw : Forall proper args -> Forall proper (map snd kw) -> proper (Trm op args kw)
  | p_seq k l : Forall proper l -> proper (Seq k l)
  | p_map k l : Forall proper (map fst l) -> Forall proper (map snd l) -> distinct (map fst l) -> proper (Mapp k l)
  | p_set k l : Forall proper l -> distinct l -> proper (Sets k l)
  | p_data c fs : Forall proper (map snd fs) -> proper (Data c fs).
(** Sets at any depth have only members that become themselves. *)
Inductive settled : val -> Prop :=
  | sl_num n : settled (Num n)
  | sl_str s : settled (Str s)
  | sl_oper x : settled (Oper x)
  | sl_term op args kw : Forall settled args -> Forall settled (map snd kw) -> settled (Trm op args kw)
  | sl_seq k l : Forall settled l -> settled (Seq k l)
  | sl_map k l : Forall settled (map fst l) -> Forall settled (map snd l) -> settled (Mapp k l)
  | sl_set k l : distinct l -> Forall (fun x => forall w, becomes x w <-> w = x) l -> settled (Sets k l)
  | sl_keys l : Forall settled l -> settled (Keys l)
  | sl_items l : Forall settled (map fst l) -> Forall settled (map snd l) -> settled (Items l)
  | sl_vals l : Forall settled l -> settled (Vals l)
  | sl_data c fs : Forall settled (map snd fs) -> settled (Data c fs).
(** No operation and no term at any depth *)
Inductive inert : val -> Prop :=
  | i_num n : inert (Num n)
  | i_str s : inert (Str s)
  | i_seq k l : Forall inert l -> inert (Seq k l)
  | i_map k l : Forall inert (map fst l) -> Forall inert (map snd l) -> inert (Mapp k l)
  | i_set k l : Forall inert l -> inert (Sets k l)
  | i_data c fs : Forall inert (map snd fs) -> inert (Data c fs).
(** No set outside terms *)
Inductive setless : val -> Prop :=
  | n_num n : setless (Num n)
  | n_str s : setless (Str s)
  | n_oper x : setless (Oper x)
  | n_term op args kw : setless (Trm op args kw)
  | n_seq k l : Forall setless l -> setless (Seq k l)
  | n_map k l : Forall setless (map fst l) -> Forall setless (map snd l) -> setless (Mapp k l)
  | n_keys l : Forall setless l -> setless (Keys l)
  | n_items l : Forall setless (map fst l) -> Forall setless (map snd l) -> setless (Items l)
  | n_vals l : Forall setless l -> setless (Vals l)
  | n_data c fs : Forall setless (map snd fs) -> setless (Data c fs).
(** No handler is installed: terms are made again, operations are themselves. *)
Definition unhandled : Prop := (forall op args kw, call op args kw = Ok (Trm op args kw)) /\ (forall x, ren x = x).
End Spec.
