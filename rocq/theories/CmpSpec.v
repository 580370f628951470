(** When values are the same structure, as documented for [syntactic_eq]. *)
From Coq Require Import List ZArith String Ascii Bool.
From Verif Require Import CmpModel.
Import ListNotations.

Definition keys {K V} (m : list (K * V)) : list K := map fst m.

(** Dictionaries have distinct keys, instances of one class the same fields. *)
Inductive wf (arity : nat -> nat) (fields : nat -> list string) : value -> Prop :=
| WAtom a : wf arity fields (VAtom a)
| WSet s : wf arity fields (VSet s)
| WSeq c l : (forall v, In v l -> wf arity fields v) -> wf arity fields (VSeq c l)
| WNT c l : List.length l = arity c -> (forall v, In v l -> wf arity fields v) -> wf arity fields (VNT c l)
| WMap m : NoDup (keys m) -> (forall v, In v (map snd m) -> wf arity fields v) -> wf arity fields (VMap m)
| WData c m : NoDup (keys m) -> keys m = fields c -> (forall v, In v (map snd m) -> wf arity fields v) -> wf arity fields (VData c m)
| WTerm n o a k : NoDup (keys k) -> (forall v, In v (a ++ map snd k) -> wf arity fields v) -> wf arity fields (VTerm n o a k).

(** [same false]: the documented relation, in which text is atomic. [same true] also
    relates a list or tuple to a text with the same characters or bytes. *)
Inductive same (text : bool) : value -> value -> Prop :=
| SAtom a : same text (VAtom a) (VAtom a)
| SSet s s' : (forall a, In a s <-> In a s') -> same text (VSet s) (VSet s')
| SSeq c c' l l' : Forall2 (same text) l l' -> same text (VSeq c l) (VSeq c' l')
| SText c l a l' : text = true -> elements (VAtom a) = Some l' -> Forall2 (same text) l l' -> same text (VSeq c l) (VAtom a)
| SNT c l l' : Forall2 (same text) l l' -> same text (VNT c l) (VNT c l')
| SMap m m' : (forall k, In k (keys m) <-> In k (keys m')) ->
    (forall k v v', In (k, v) m -> In (k, v') m' -> same text v v') -> same text (VMap m) (VMap m')
| SData c m m' : (forall k, In k (keys m) <-> In k (keys m')) ->
    (forall k v v', In (k, v) m -> In (k, v') m' -> same text v v') -> same text (VData c m) (VData c m')
| STerm n n' o a a' k k' : Forall2 (same text) a a' -> (forall x, In x (keys k) <-> In x (keys k')) ->
    (forall x v v', In (x, v) k -> In (x, v') k' -> same text v v') -> same text (VTerm n o a k) (VTerm n' o a' k').

(** Corresponding positions hold, on the left, something that is not a term, a
    sequence or a mapping and, on the right, a number term. *)
Inductive meets : value -> value -> Prop :=
| MHere x n o a k : n = true -> (exists a, x = VAtom a) \/ (exists s, x = VSet s) \/ (exists c m, x = VData c m) ->
    meets x (VTerm n o a k)
| MSeq c l y l' i v v' : elements y = Some l' -> nth_error l i = Some v -> nth_error l' i = Some v' -> meets v v' -> meets (VSeq c l) y
| MNT c c' l l' i v v' : nth_error l i = Some v -> nth_error l' i = Some v' -> meets v v' -> meets (VNT c l) (VNT c' l')
| MMap m m' k v v' : In (k, v) m -> In (k, v') m' -> meets v v' -> meets (VMap m) (VMap m')
| MData c c' m m' k v v' : In (k, v) m -> In (k, v') m' -> meets v v' -> meets (VData c m) (VData c' m')
| MArg n n' o o' a a' k k' i v v' : nth_error a i = Some v -> nth_error a' i = Some v' -> meets v v' -> meets (VTerm n o a k) (VTerm n' o' a' k')
| MKw n n' o o' a a' k k' x v v' : In (x, v) k -> In (x, v') k' -> meets v v' -> meets (VTerm n o a k) (VTerm n' o' a' k').

(** A list or tuple of one-character texts, or of small integers, somewhere inside. *)
Inductive has_text : value -> Prop :=
| TAtom a l : elements (VAtom a) = Some l -> has_text (VAtom a)
| TSeq c l v : In v l -> has_text v -> has_text (VSeq c l)
| TNT c l v : In v l -> has_text v -> has_text (VNT c l)
| TMap m v : In v (map snd m) -> has_text v -> has_text (VMap m)
| TData c m v : In v (map snd m) -> has_text v -> has_text (VData c m)
| TTerm n o a k v : In v (a ++ map snd k) -> has_text v -> has_text (VTerm n o a k).

(** A list or tuple that spells a text, somewhere inside. *)
Inductive spells : value -> Prop :=
| PHere c l a : (exists l', elements (VAtom a) = Some l' /\ Forall2 (same true) l l') -> spells (VSeq c l)
| PSeq c l v : In v l -> spells v -> spells (VSeq c l)
| PNT c l v : In v l -> spells v -> spells (VNT c l)
| PMap m v : In v (map snd m) -> spells v -> spells (VMap m)
| PData c m v : In v (map snd m) -> spells v -> spells (VData c m)
| PTerm n o a k v : In v (a ++ map snd k) -> spells v -> spells (VTerm n o a k).

(** A number term somewhere inside. *)
Inductive has_number : value -> Prop :=
| NHere o a k : has_number (VTerm true o a k)
| NSeq c l v : In v l -> has_number v -> has_number (VSeq c l)
| NNT c l v : In v l -> has_number v -> has_number (VNT c l)
| NMap m v : In v (map snd m) -> has_number v -> has_number (VMap m)
| NData c m v : In v (map snd m) -> has_number v -> has_number (VData c m)
| NTerm n o a k v : In v (a ++ map snd k) -> has_number v -> has_number (VTerm n o a k).
