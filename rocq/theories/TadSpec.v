(** What a value of a type looks like in JSON, said apart from how adapters are put together. *)
From Coq Require Import String List Bool Arith ZArith.
From Verif Require Import TadModel.
Import ListNotations.
Local Open Scope list_scope.

Section Spec.
Variable codec : nat -> json -> option value.
Variable holds : nat -> value -> bool.
Variable item : nat -> string.
(** The first pair with this key *)
Inductive has : string -> list (string * json) -> json -> Prop :=
  | has_here : forall x j l, has x ((x, j) :: l) j
  | has_later : forall x y i j l, x <> y -> has x l j -> has x ((y, i) :: l) j.
(** A member of an array or an object *)
Definition member (x : string) (i : nat) (j y : json) : Prop :=
  (exists o, j = JObj o /\ has x o y) \/ (exists l, j = JList l /\ nth_error l i = Some y).
(** The JSON [j] stands for the value [v] of the type. A type with a registered encoding is written in it wherever it occurs; tuples of fixed length
    and named tuples are objects, or arrays, having each of their members; a union is of the first type that
    fits; every constraint holds. *)
Fixpoint reads (t : ty) (j : json) (v : value) : Prop :=
  match t with
  | TInt => exists z, j = JNum z /\ v = VNum z
  | TStr => exists s, j = JStr s /\ v = VStr s
  | Lit s => j = JStr s /\ v = VStr s
  | Special c | Adapted c => codec c j = Some v
  | Forbidden _ => False
  | Listy k u => exists l vs, j = JList l /\ v = VList k vs /\ Forall2 (reads u) l vs
  | TupVar u => exists l vs, j = JList l /\ v = VTup vs /\ Forall2 (reads u) l vs
  | Tup l | ATup l =>
    ((exists o, j = JObj o) \/ (exists js, j = JList js)) /\
    exists vs, v = VTup vs /\
    (fix go (i : nat) (l : list ty) (vs : list value) : Prop :=
       match l, vs with
       | [], [] => True
       | u :: l', w :: vs' => (exists y, member (item i) i j y /\ reads u y w) /\ go (S i) l' vs'
       | _, _ => False
       end) 0 l vs
  | Union l =>
    (fix go (l : list ty) : Prop :=
       match l with [] => False | u :: l' => reads u j v \/ ((forall w, ~ reads u j w) /\ go l') end) l
  | Annot u m => reads u j v /\ forall p, In (Check p) m -> holds p v = true
  | NewT _ u | Alias u | GAlias u => reads u j v
  | Rec c fs =>
    exists o vs, j = JObj o /\ v = VObj c vs /\
    (fix go (fs : list (string * ty)) (vs : list (string * value)) : Prop :=
       match fs, vs with
       | [], [] => True
       | (x, u) :: fs', (x', w) :: vs' => x = x' /\ (exists y, has x o y /\ reads u y w) /\ go fs' vs'
       | _, _ => False
       end) fs vs
  | Nt c fs | ANt c fs =>
    exists vs, v = VNt c vs /\
    (fix go (i : nat) (fs : list (string * ty)) (vs : list (string * value)) : Prop :=
       match fs, vs with
       | [], [] => True
       | (x, u) :: fs', (x', w) :: vs' => x = x' /\ (exists y, member x i j y /\ reads u y w) /\ go (S i) fs' vs'
       | _, _ => False
       end) 0 fs vs
  end.
End Spec.

(** Types that Pydantic reads by itself: no registered type, and no tuple of fixed length, in them *)
Inductive plain : ty -> Prop :=
  | plain_int : plain TInt
  | plain_str : plain TStr
  | plain_lit : forall s, plain (Lit s)
  | plain_list : forall k t, plain t -> plain (Listy k t)
  | plain_tuple : forall t, plain t -> plain (TupVar t)
  | plain_union : forall l, Forall plain l -> plain (Union l)
  | plain_annot : forall t m, plain t -> plain (Annot t m)
  | plain_new : forall n t, plain t -> plain (NewT n t)
  | plain_alias : forall t, plain t -> plain (Alias t)
  | plain_generic : forall t, plain t -> plain (GAlias t)
  | plain_rec : forall c fs, Forall (fun f => plain (snd f)) fs -> plain (Rec c fs)
  | plain_nt : forall c fs, Forall (fun f => plain (snd f)) fs -> plain (Nt c fs).
Definition free (m : meta) : Prop := match m with Check _ => False | _ => True end.
(** Types to which the encoding is true: no constraint outside of classes; the fields of classes and of
    named tuples, and what generic aliases stand for, are plain; tuples are not empty *)
Inductive good : ty -> Prop :=
  | good_int : good TInt
  | good_str : good TStr
  | good_lit : forall s, good (Lit s)
  | good_special : forall c, good (Special c)
  | good_list : forall k t, good t -> good (Listy k t)
  | good_variadic : forall t, good t -> good (TupVar t)
  | good_tuple : forall t l, Forall good (t :: l) -> good (Tup (t :: l))
  | good_union : forall l, Forall good l -> good (Union l)
  | good_annot : forall t m, good t -> Forall free m -> good (Annot t m)
  | good_new : forall n t, good t -> good (NewT n t)
  | good_alias : forall t, good t -> good (Alias t)
  | good_generic : forall t, plain t -> good (GAlias t)
  | good_rec : forall c fs, Forall (fun f => plain (snd f)) fs -> good (Rec c fs)
  | good_nt : forall c fs, Forall (fun f => plain (snd f)) fs -> good (Nt c fs).
(** [Term] or [Operation] occurs outside of classes, named tuples and generic aliases *)
Inductive mentions : ty -> Prop :=
  | m_here : forall c, mentions (Forbidden c)
  | m_list : forall k t, mentions t -> mentions (Listy k t)
  | m_variadic : forall t, mentions t -> mentions (TupVar t)
  | m_tuple : forall l, Exists mentions l -> mentions (Tup l)
  | m_union : forall l, Exists mentions l -> mentions (Union l)
  | m_annot : forall t m, mentions t -> mentions (Annot t m)
  | m_new : forall n t, mentions t -> mentions (NewT n t)
  | m_alias : forall t, mentions t -> mentions (Alias t).
