(** What annotations should mean. *)
From Coq Require Import String List Bool Arith.
From Verif Require Import TermModel AnnModel.
Import ListNotations.
Local Open Scope list_scope.

(** A type variable occurs in a type, not counting what stands beside it in [Annotated[...]]. *)
Inductive occurs (x : nat) : ann -> Prop :=
| oc_var : occurs x (AVar x)
| oc_gen : forall c o l t, In t l -> occurs x t -> occurs x (AGen c o l)
| oc_union : forall b l t, In t l -> occurs x t -> occurs x (AUnion b l)
| oc_list : forall l t, In t l -> occurs x t -> occurs x (AList l)
| oc_annot : forall t ms, occurs x t -> occurs x (AAnnot t ms).

(** The scope declared by an annotation: the first one there is. *)
Inductive declares : ann -> list nat -> Prop :=
| de_first : forall t ms l ms', (forall l', ~ In (MScoped l') ms) -> declares (AAnnot t (ms ++ MScoped l :: ms')) l
| de_none : forall a, (forall t ms l, a = AAnnot t ms -> ~ In (MScoped l) ms) -> declares a [].
Definition at_most_one (a : ann) : Prop := forall t u l v l' w, a <> AAnnot t (u ++ MScoped l :: v ++ MScoped l' :: w).

(** The parameter is an operation: [Operation], [Operation[...]], a subclass, with or without marks. *)
Inductive an_operation : ann -> Prop :=
| ao_cls : forall c, an_operation (ACls c true)
| ao_gen : forall c l, an_operation (AGen c true l)
| ao_cls_marks : forall c ms, an_operation (AAnnot (ACls c true) ms)
| ao_gen_marks : forall c l ms, an_operation (AAnnot (AGen c true l) ms).

(** As Python keeps them: [Annotated] of an [Annotated] is one [Annotated]. *)
Inductive flat : ann -> Prop :=
| fl_empty : flat AEmpty
| fl_none : flat ANone
| fl_var : forall a, flat (AVar a)
| fl_cls : forall c o, flat (ACls c o)
| fl_gen : forall c o l, Forall flat l -> flat (AGen c o l)
| fl_union : forall b l, Forall flat l -> flat (AUnion b l)
| fl_list : forall l, Forall flat l -> flat (AList l)
| fl_annot : forall t m ms, flat t -> (forall u us, t <> AAnnot u us) -> flat (AAnnot t (m :: ms))
| fl_text : forall x, flat (AText x).

(** One annotation spells another, which has no text: some of its parts may be quoted. *)
Inductive spells (env : nat -> option ann) : ann -> ann -> Prop :=
| sp_empty : spells env AEmpty AEmpty
| sp_none : spells env ANone (ACls 0 false)
| sp_var : forall a, spells env (AVar a) (AVar a)
| sp_cls : forall c o, spells env (ACls c o) (ACls c o)
| sp_gen : forall c o l l', Forall2 (spells env) l l' -> spells env (AGen c o l) (AGen c o l')
| sp_union : forall b l l', Forall2 (spells env) l l' -> spells env (AUnion b l) (AUnion b l')
| sp_list : forall l l', Forall2 (spells env) l l' -> spells env (AList l) (AList l')
| sp_annot : forall t u m ms, spells env t u -> (forall w us, u <> AAnnot w us) -> spells env (AAnnot t (m :: ms)) (AAnnot u (m :: ms))
| sp_both : forall t u us m ms, spells env t (AAnnot u us) -> spells env (AAnnot t (m :: ms)) (AAnnot u (us ++ m :: ms))
| sp_text : forall x u, env x = Some u -> spells env (AText x) u.
Inductive spells_param (env : nat -> option ann) : aparam -> aparam -> Prop :=
| sp_param : forall n a b d, spells env a b -> spells_param env (AParam n a d) (AParam n b d).
Inductive spells_opt (env : nat -> option ann) : option aparam -> option aparam -> Prop :=
| so_none : spells_opt env None None
| so_some : forall p q, spells_param env p q -> spells_opt env (Some p) (Some q).
Inductive spells_sig (env : nat -> option ann) : asig -> asig -> Prop :=
| sp_sig : forall p k v o w r p' k' v' o' w' r',
    Forall2 (spells_param env) p p' -> Forall2 (spells_param env) k k' -> spells_opt env v v' ->
    Forall2 (spells_param env) o o' -> spells_opt env w w' -> spells env r r' ->
    spells_sig env (ASig p k v o w r) (ASig p' k' v' o' w' r').
(** A text that means nothing where it stands. *)
Inductive unknown (env : nat -> option ann) : ann -> Prop :=
| un_text : forall x, env x = None -> unknown env (AText x)
| un_gen : forall c o l t, In t l -> unknown env t -> unknown env (AGen c o l)
| un_union : forall b l t, In t l -> unknown env t -> unknown env (AUnion b l)
| un_list : forall l t, In t l -> unknown env t -> unknown env (AList l)
| un_annot : forall t ms, unknown env t -> unknown env (AAnnot t ms).

(** The same elements *)
Definition same_set (l l' : list nat) : Prop := forall x, In x l <-> In x l'.

(** What inference makes of an annotation, [r] being the root scope: the type and the other marks stay, in their order; the
    scope, now the first mark, is the declared one with the root. *)
Inductive other_marks : list meta -> list meta -> Prop :=
| om_nil : other_marks [] []
| om_scope : forall l ms os, other_marks ms os -> other_marks (MScoped l :: ms) os
| om_rec : forall ms os, other_marks ms os -> other_marks (MRec :: ms) (MRec :: os)
| om_other : forall n ms os, other_marks ms os -> other_marks (MOther n :: ms) (MOther n :: os).
Inductive joined (r : list nat) : ann -> ann -> Prop :=
| jn_annot : forall t ms os d o, declares (AAnnot t ms) d -> same_set o (d ++ r) -> other_marks ms os -> joined r (AAnnot t ms) (AAnnot t (MScoped o :: os))
| jn_plain : forall t o, (forall u us, t <> AAnnot u us) -> same_set o r -> joined r t (AAnnot t [MScoped o]).
Inductive joined_param (r : list nat) : aparam -> aparam -> Prop :=
| jp : forall n a b d, joined r a b -> joined_param r (AParam n a d) (AParam n b d).
Inductive joined_opt (r : list nat) : option aparam -> option aparam -> Prop :=
| jo_none : joined_opt r None None
| jo_some : forall p q, joined_param r p q -> joined_opt r (Some p) (Some q).
Inductive joined_sig (r : list nat) : asig -> asig -> Prop :=
| js : forall p k v o w t p' k' v' o' w' t',
    Forall2 (joined_param r) p p' -> Forall2 (joined_param r) k k' -> joined_opt r v v' ->
    Forall2 (joined_param r) o o' -> joined_opt r w w' -> joined r t t' ->
    joined_sig r (ASig p k v o w t) (ASig p' k' v' o' w' t').
(** In every declared scope *)
Definition everywhere (s : asig) (x : nat) : Prop := forall a d, In a (annos s) -> declares a d -> In x d.
(** Nowhere in the signature *)
Definition nowhere (s : asig) (x : nat) : Prop := forall a, In a (annos s) -> ~ occurs x a /\ forall d, declares a d -> ~ In x d.
Definition flat_sig (s : asig) : Prop := Forall flat (annos s).

(** Annotations that differ at most in how their scopes are listed *)
Definition same_meta (m m' : meta) : Prop := match m, m' with MScoped l, MScoped l' => same_set l l' | _, _ => m = m' end.
Definition same_ann (a b : ann) : Prop :=
  match a, b with AAnnot t ms, AAnnot u us => t = u /\ Forall2 same_meta ms us | _, _ => a = b end.
Definition same_param (p q : aparam) : Prop := a_name p = a_name q /\ a_dflt p = a_dflt q /\ same_ann (a_ann p) (a_ann q).
Definition same_opt (p q : option aparam) : Prop := match p, q with None, None => True | Some p, Some q => same_param p q | _, _ => False end.
Definition same_sig (s s' : asig) : Prop :=
  Forall2 same_param (a_posonly s) (a_posonly s') /\ Forall2 same_param (a_poskw s) (a_poskw s') /\ same_opt (a_varpos s) (a_varpos s') /\
  Forall2 same_param (a_kwonly s) (a_kwonly s') /\ same_opt (a_varkw s) (a_varkw s') /\ same_ann (a_ret s) (a_ret s').
