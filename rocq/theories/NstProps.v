(** C95: the type found for a value is a type the value has. *)
From Coq Require Import List Bool Arith Lia Permutation.
From Verif Require Import NstModel NstSpec NstProofs.
Import ListNotations.

(** [nested_type(v)] is a type of [v], whatever is inside, but for the values that are not [plain]. *)
Theorem C95_sound :
  forall coll mapping typed sub, library coll mapping sub ->
  forall v t, (forall w, inside w v -> plain sub w) -> nested coll mapping typed v = Some t -> has sub t v.
Proof. exact sound. Qed.
Print Assumptions C95_sound.

(** The TypeErrors: terms and [typing.NamedTuple]s where items are looked at, and no others if every mapping class takes parameters *)
Theorem C95_fails :
  forall coll mapping typed, (forall c, mapping c <> MapFixed) -> forall v, nested coll mapping typed v = None <-> refused coll typed v.
Proof. exact fails_iff. Qed.
Print Assumptions C95_fails.

(** The type of a collection does not depend on the order of its items (that of a set is arbitrary). *)
Theorem C95_order :
  forall coll mapping typed c l l', Permutation l l' -> nested coll mapping typed (VColl c l) = nested coll mapping typed (VColl c l').
Proof. exact order_free. Qed.
Print Assumptions C95_order.

(** Items of one type: the collection of that type, if it has no typed dictionaries *)
Theorem C95_items :
  forall coll mapping typed c d l t, coll c = CollGen d -> l <> [] -> (forall x, In x l -> nested coll mapping typed x = Some t) -> settled t ->
  nested coll mapping typed (VColl c l) = Some (TColl d t).
Proof. exact uniform_items. Qed.
Print Assumptions C95_items.

(** Items of several types: the collection without parameter *)
Theorem C95_mixed :
  forall coll mapping typed c d l x y t u, coll c = CollGen d -> In x l -> In y l ->
  nested coll mapping typed x = Some t -> nested coll mapping typed y = Some u -> t <> u -> (forall z, In z l -> nested coll mapping typed z <> None) ->
  nested coll mapping typed (VColl c l) = Some (TCls d).
Proof. exact mixed_items. Qed.
Print Assumptions C95_mixed.

(** Classes: 1 [int], 2 [list], 3 [MutableSequence], 4 a named tuple, 5 a [typing.NamedTuple], 6 [MappingProxyType], 7 a class with base
    [Mapping[str, int]], 8 [MutableMapping], 9 the class of functions *)
Definition colls (n : nat) : collk := if n =? 2 then CollGen (CUser 3) else CollBare (CUser n).
Definition maps (c : option nat) : mapk := match c with None => MapGen (CUser 8) | Some 7 => MapFixed | Some n => MapGen (CUser n) end.
Definition typeds (n : nat) : bool := n =? 5.
Definition subs (a b : cls) : Prop := a = b \/ (a = CUser 2 /\ b = CUser 3) \/ (a = CDict /\ b = CUser 8) \/ (a = CUser 4 /\ b = CTuple).
Notation nest := (nested colls maps typeds).
Lemma libs : library colls maps subs.
Proof.
  constructor.
  - intros c. left. reflexivity.
  - intros c. unfold colls. destruct (Nat.eqb_spec c 2) as [->|]; [right; left; split; reflexivity|left; reflexivity].
  - intros c. unfold colls. destruct (c =? 2); discriminate.
  - intros [n|] d H; cbn [maps] in H.
    + left. do 7 (destruct n as [|n]; [injection H as <-; reflexivity|]). destruct n as [|n]; [discriminate|]. injection H as <-. reflexivity.
    + injection H as <-. right. right. left. split; reflexivity.
Qed.
Definition int_ := VAtom 1.
(** [{"a": 1, "b": [1, 1]}], and a list of a function [f(x: int, y: int = 0) -> str] *)
Definition dict_ab := VMap None [(VStr 0, int_); (VStr 1, VColl 2 [int_; int_])].
Definition int_to_str := VCall 9 (Some (mkfsig [mkparam Positional (Some (TCls (CUser 1))) false; mkparam Positional (Some (TCls (CUser 1))) true] (Some (TCls CStr)))).
Example C95_example :
  library colls maps subs /\ (forall w, inside w (VTuple [dict_ab; VColl 2 [int_to_str]]) -> plain subs w) /\
  nest (VTuple [dict_ab; VColl 2 [int_to_str]]) =
    Some (TTuple [TTyped [(0, TCls (CUser 1)); (1, TColl (CUser 3) (TCls (CUser 1)))];
                  TColl (CUser 3) (TCall (Some [TCls (CUser 1); TCls (CUser 1)]) (TCls CStr))]) /\
  nest (VMap None [(VStr 0, int_); (VStr 1, int_)]) = Some (TMap (CUser 8) (TCls CStr) (TCls (CUser 1))) /\
  nest (VColl 2 [VTuple [VTerm false]]) = None.
Proof.
  split; [exact libs|]. split; [|repeat split; reflexivity].
  assert (B : forall v, (fix ok v := match v with VNamed _ _ => false | VMap (Some _) _ => false | VTuple l | VColl _ l => forallb ok l | VMap _ l => forallb (fun kx => ok (fst kx) && ok (snd kx)) l | _ => true end) v = true -> forall w, inside w v -> plain subs w).
  { intros v Hv w Hw. revert Hv. induction Hw as [v|l x w Hx _ IH|c l x w Hx _ IH|c l x w Hx _ IH|c l k x w Hx _ IH|c l k x w Hx _ IH]; intros Hv.
    - destruct v as [| | |c l|c l|[c|] l| | |]; try discriminate Hv; exact Logic.I.
    - apply IH. cbn beta iota in Hv. rewrite forallb_forall in Hv. exact (Hv _ Hx).
    - discriminate Hv.
    - apply IH. cbn beta iota in Hv. rewrite forallb_forall in Hv. exact (Hv _ Hx).
    - destruct c; [discriminate Hv|]. rewrite forallb_forall in Hv. specialize (Hv _ Hx). apply andb_prop in Hv. apply IH. exact (proj1 Hv).
    - destruct c; [discriminate Hv|]. rewrite forallb_forall in Hv. specialize (Hv _ Hx). apply andb_prop in Hv. apply IH. exact (proj2 Hv). }
  apply B. reflexivity.
Qed.

(** *** What differs *)
(** A named tuple of two or more items of one type is given the type of tuples with one item. *)
Theorem C95_named_never :
  forall coll mapping typed sub c l t, nested coll mapping typed (VNamed c l) = Some t -> 2 <= length l -> t <> TCls CTuple -> ~ has sub t (VNamed c l).
Proof. exact named_never. Qed.
Print Assumptions C95_named_never.
Theorem C95_named_refuted :
  exists v t, library colls maps subs /\ nest v = Some t /\ ~ has subs t v.
Proof.
  exists (VNamed 4 [int_; int_]). eexists. split; [exact libs|]. split; [reflexivity|]. cbn. tauto.
Qed.
Print Assumptions C95_named_refuted.
(** A mapping that is no dictionary, with one dictionary in it, is given the type of dictionaries with that key. *)
Theorem C95_proxy_refuted :
  exists v t, library colls maps subs /\ nest v = Some t /\ ~ has subs t v.
Proof.
  exists (VMap (Some 6) [(VStr 2, dict_ab)]). eexists. split; [exact libs|]. split; [reflexivity|]. cbn [has class_of]. intros [H _].
  destruct H as [H|[[H _]|[[H _]|[H _]]]]; discriminate H.
Qed.
Print Assumptions C95_proxy_refuted.
(** There is no type for mappings whose class has fixed parameters, nor for [typing.NamedTuple]s. *)
Theorem C95_fixed_refuted : exists v, (forall b, ~ inside (VTerm b) v) /\ nest v = None /\ forall c l, v <> VNamed c l.
Proof.
  exists (VMap (Some 7) [(VStr 0, int_)]). split; [|split; [reflexivity|discriminate]].
  intros b H. inversion H as [| | | |? ? k x ? I1 I2|? ? k x ? I1 I2]; subst; destruct I1 as [I1|[]]; injection I1 as <- <-; inversion I2.
Qed.
Print Assumptions C95_fixed_refuted.
Theorem C95_typed_refuted : exists v, (forall b, ~ inside (VTerm b) v) /\ nest v = None.
Proof.
  exists (VNamed 5 [int_]). split; [|reflexivity]. intros b H. inversion H as [| |? ? x ? I1 I2| | |]; subst. destruct I1 as [<-|[]]. inversion I2.
Qed.
Print Assumptions C95_typed_refuted.
(** The type of the items is lost when it is a typed dictionary, even if the items are one and the same. *)
Theorem C95_items_refuted :
  exists x t, nest x = Some t /\ nest (VColl 2 [x]) = Some (TColl (CUser 3) t) /\ nest (VColl 2 [x; x]) = Some (TCls (CUser 3)).
Proof. exists dict_ab. eexists. repeat split; reflexivity. Qed.
Print Assumptions C95_items_refuted.
