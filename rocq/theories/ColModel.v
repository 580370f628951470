(** Model of how [evaluate] (effectful/ops/semantics.py 148-228) and [map_structure] (effectful/internals/product_n.py
    61-103) go through Python's collections and dataclasses: each is built again by calling its type. *)
From Coq Require Import String List Bool Arith.
Import ListNotations.
Local Open Scope list_scope.

(** Types that are registered as [collections.abc.Sequence]: a named tuple has its class; a [deque] may have a
    maximal length. Left out: [str] and [bytes] (data), [UserString]. *)
Inductive seqk := KList | KTuple | KNamed (c : nat) | KUserList | KBytearray | KDeque (maxlen : option nat) | KRange | KArray | KMemoryview.
(** Types registered as [collections.abc.Mapping] *)
Inductive mapk := KDict | KOrdered | KDefault (factory : nat) | KProxy | KUserDict | KCounter | KChain.
Inductive setk := KSet | KFrozen.
(** Python values: numbers and text, operations, terms, collections with their contents in order, the three views of a
    mapping, dataclasses (each field with its name and whether it is an argument of [__init__]), and a [ChainMap] whose
    only map is a tuple *)
Inductive val :=
  | Num (n : nat)
  | Str (s : string)
  | Oper (x : nat)
  | Trm (op : nat) (args : list val) (kw : list (string * val))
  | Seq (k : seqk) (l : list val)
  | Mapp (k : mapk) (l : list (val * val))
  | Sets (k : setk) (l : list val)
  | Keys (l : list val)
  | Items (l : list (val * val))
  | Vals (l : list val)
  | Data (c : nat) (fs : list ((string * bool) * val))
  | Over (l : list val).
Inductive outcome (A : Type) := Ok (a : A) | TypeError | ValueError | Other (n : nat).
Arguments Ok {A}. Arguments TypeError {A}. Arguments ValueError {A}. Arguments Other {A}.
Definition andthen {A B} (o : outcome A) (f : A -> outcome B) : outcome B :=
  match o with Ok a => f a | TypeError => TypeError | ValueError => ValueError | Other n => Other n end.

Section Map.
Variable f : val -> outcome val.
Fixpoint mapO (l : list val) : outcome (list val) :=
  match l with [] => Ok [] | v :: l' => andthen (f v) (fun w => andthen (mapO l') (fun ws => Ok (w :: ws))) end.
Fixpoint mapS {K} (l : list (K * val)) : outcome (list (K * val)) :=
  match l with [] => Ok [] | (k, v) :: l' => andthen (f v) (fun w => andthen (mapS l') (fun ws => Ok ((k, w) :: ws))) end.
Fixpoint mapP (l : list (val * val)) : outcome (list (val * val)) :=
  match l with
  | [] => Ok []
  | (a, b) :: l' => andthen (f a) (fun a' => andthen (f b) (fun b' => andthen (mapP l') (fun ws => Ok ((a', b') :: ws))))
  end.
End Map.

Section Col.
(** Python's [==] on dictionary keys, and whether a term can be hashed (terms of numbers can, effectful/ops/syntax.py
    1011-1012; others define [__eq__] only) *)
Variable keyeq : val -> val -> bool.
Variable hash_term : nat -> bool.
Fixpoint hashable (v : val) : bool :=
  match v with
  | Num _ | Str _ | Oper _ => true
  | Trm op _ _ => hash_term op
  | Seq KTuple l | Seq (KNamed _) l => forallb hashable l
  | Seq KRange _ | Seq KMemoryview _ => true
  | Sets KFrozen _ => true
  | _ => false
  end.
(** A dictionary from pairs: an equal key keeps its place and gets the new value. *)
Fixpoint put (d : list (val * val)) (k v : val) : list (val * val) :=
  match d with [] => [(k, v)] | (k', v') :: d' => if keyeq k' k then (k', v) :: d' else (k', v') :: put d' k v end.
Fixpoint dict_from (d : list (val * val)) (ps : list (val * val)) : outcome (list (val * val)) :=
  match ps with [] => Ok d | (k, v) :: ps' => if hashable k then dict_from (put d k v) ps' else TypeError end.
Fixpoint set_from (s : list val) (l : list val) : outcome (list val) :=
  match l with
  | [] => Ok s
  | x :: l' => if hashable x then set_from (if existsb (fun y => keyeq y x) s then s else s ++ [x]) l' else TypeError
  end.
(** [Counter(iterable)]: how often each item occurs *)
Fixpoint count (d : list (val * val)) (x : val) : list (val * val) :=
  match d with
  | [] => [(x, Num 1)]
  | (k, v) :: d' => if keyeq k x then (k, match v with Num n => Num (S n) | _ => v end) :: d' else (k, v) :: count d' x
  end.
Fixpoint counter_from (d : list (val * val)) (l : list val) : outcome (list (val * val)) :=
  match l with [] => Ok d | x :: l' => if hashable x then counter_from (count d x) l' else TypeError end.

(** [type(expr)(...)] of a sequence on a generator of its items: [range], [array] and [memoryview] take none, a [deque] made so has no maximal length. *)
Definition new_seq (k : seqk) (items : outcome (list val)) : outcome val :=
  match k with
  | KRange | KArray | KMemoryview => TypeError
  | KDeque _ => andthen items (fun l => Ok (Seq (KDeque None) l))
  | _ => andthen items (fun l => Ok (Seq k l))
  end.
(** [type(expr)(...)] of a mapping on the tuple of its pairs; for [defaultdict] with the factory, for
    [MappingProxyType] on the dictionary of the pairs *)
Definition pair (p : val * val) : val := Seq KTuple [fst p; snd p].
Definition new_map (k : mapk) (ps : list (val * val)) : outcome val :=
  match k with
  | KCounter => andthen (counter_from [] (map pair ps)) (fun d => Ok (Mapp KCounter d))
  | KChain => Ok (Over (map pair ps))
  | _ => andthen (dict_from [] ps) (fun d => Ok (Mapp k d))
  end.
Definition new_set (k : setk) (l : list val) : outcome val := andthen (set_from [] l) (fun s => Ok (Sets k s)).
(** [dataclasses.replace] with all fields *)
Definition replace (c : nat) (fs : list ((string * bool) * val)) : outcome val :=
  if forallb (fun f => snd (fst f)) fs then Ok (Data c fs) else ValueError.

(** What the interpretation makes of an operation applied to arguments, and of an operation as a value (176-181) *)
Variable call : nat -> list val -> list (string * val) -> outcome val.
Variable ren : nat -> nat.
(** [evaluate] (151-228). There is no rule for sets: they are objects like any other (151-166). *)
Fixpoint evaluate (v : val) : outcome val :=
  match v with
  | Num _ | Str _ | Over _ | Sets _ _ => Ok v
  | Oper x => Ok (Oper (ren x))
  | Trm op args kw => andthen (mapO evaluate args) (fun args' => andthen (mapS evaluate kw) (fun kw' => call op args' kw'))
  | Seq k l => new_seq k (mapO evaluate l)
  | Mapp k l => andthen (mapP evaluate l) (new_map k)
  | Keys l => andthen (mapO evaluate l) (new_set KSet)
  | Items l => andthen (mapP evaluate l) (fun ps => new_set KSet (map pair ps))
  | Vals l => andthen (mapO evaluate l) (fun l' => Ok (Seq KList l'))
  | Data c fs => andthen (mapS evaluate fs) (replace c)
  end.
(** The free rule of an operation evaluates its arguments (effectful/ops/syntax.py 533-550) and makes the term. *)
Definition free (op : nat) (args : list val) (kw : list (string * val)) : outcome val :=
  andthen (mapO evaluate args) (fun args' => andthen (mapS evaluate kw) (fun kw' => Ok (Trm op args' kw'))).

(** [map_structure] (61-103): sets have a rule here; what is no collection is given to the function. *)
Variable f : val -> outcome val.
Fixpoint map_structure (v : val) : outcome val :=
  match v with
  | Num _ | Oper _ | Trm _ _ _ => f v
  | Str _ => Ok v
  | Over l => Ok v
  | Seq k l => new_seq k (mapO map_structure l)
  | Mapp k l => andthen (mapP map_structure l) (new_map k)
  | Sets k l => andthen (mapO map_structure l) (new_set k)
  | Keys l => andthen (mapO map_structure l) (new_set KSet)
  | Items l => andthen (mapP map_structure l) (fun ps => new_set KSet (map pair ps))
  | Vals l => andthen (mapO map_structure l) (fun l' => Ok (Seq KList l'))
  | Data c fs => andthen (mapS map_structure fs) (replace c)
  end.
End Col.
