(** C80: unification of typed dictionaries. *)
From Coq Require Import List Bool Arith.
Import ListNotations.
From Verif Require Import TdModel TdSpec TdProofs TdLaws.

(** When a pattern unifies with a type, there is a reading of its variables that fits what was found, and under every such
    reading whatever is made as the type is held by the pattern: every field that the pattern promises is there with a value
    of the promised type. (Classes whose parameters are declared by the class statement and resolved one step up, with
    canonical fields where there are parameters; dictionaries without further keys.) *)
Theorem C80_reads_partial : forall below formal bounded, classes below -> forall n t t' s,
  unify below bounded n t t' [] = Ok s -> pattern formal t -> closed formal t' ->
  (exists rho, fits below false rho s) /\ (forall rho v, fits below false rho s -> made below rho v t' -> held below rho v t).
Proof. exact reads. Qed.
Print Assumptions C80_reads_partial.

(** What the pattern lets one write into a field, or delete, leaves a dictionary of the type. *)
Theorem C80_writes_partial : forall below formal bounded, classes below -> forall n c a c' a' s,
  unify below bounded n (TDict c a) (TDict c' a') [] = Ok s -> pattern formal (TDict c a) -> closed formal (TDict c' a') ->
  forall re rh d, within re rh -> fits below true re s -> fits below false rh s -> made below re (VDict d) (TDict c' a') ->
  (forall k o P x, In (k, o, false, P) (slots_of below true re c a) -> P x -> held below rh (VDict (write d k x)) (TDict c' a')) /\
  (forall k P, In (k, true, false, P) (slots_of below true re c a) -> held below rh (VDict (drop d k)) (TDict c' a')).
Proof. exact writing. Qed.
Print Assumptions C80_writes_partial.

(** What a mutable mapping lets one write leaves a dictionary of the type. *)
Theorem C80_mapping_writes_partial : forall below formal bounded, classes below -> forall n g k w c' a' s,
  unify below bounded n (TGen g [k; w]) (TDict c' a') [] = Ok s -> mutable_map g = true -> pattern formal (TGen g [k; w]) -> closed formal (TDict c' a') ->
  forall re rh d, within re rh -> fits below true re s -> fits below false rh s -> made below re (VDict d) (TDict c' a') ->
  forall m x, made below re x w -> held below rh (VDict (write d m x)) (TDict c' a').
Proof. exact writing_map. Qed.
Print Assumptions C80_mapping_writes_partial.

(** Numbers for the examples: every class is below [object]; [int]; fields; type variables, of which those from 10 belong to
    classes. *)
Definition le (a b : nat) : bool := b =? object.
Lemma le_classes : classes le.
Proof.
  unfold classes, le. split; [intros a b c _ H; exact H|]. intros c H. apply Nat.eqb_eq in H. exact H.
Qed.
Definition int := 2.
Definition free (_ : nat) : bool := false.
Definition of_class (x : nat) : bool := 10 <=? x.
(** [class Datum[T](TypedDict): value: T; note: NotRequired[str]; seen: ReadOnly[object]], [Datum[U]] and
    [class Row(Datum[Sequence[int]]): extra: int] with [seen] *)
Definition Datum : tdc := Cls true [10] Root None [Fld 0 (TVar 10) false false; Fld 1 (TCon text) true false; Fld 2 (TCon object) false true].
Definition Row : tdc := Cls false [] Datum (Some [TGen GSequence [TCon int]]) [Fld 3 (TCon int) false false].
Definition row : list (nat * val) := [(0, VSeq [VAtom int]); (2, VAtom int); (3, VAtom int)].
Ltac proper := repeat match goal with
  | |- _ /\ _ => split | |- true = true \/ _ => left; reflexivity | |- True => exact Logic.I | |- NoDup [] => constructor | |- NoDup (_ :: _) => constructor
  | |- _ = _ => reflexivity | |- ~ In _ _ => cbn; intuition discriminate | |- _ <> _ => discriminate
  | |- forall x, _ \/ False -> _ => let H := fresh in intros ? [<- | H]; [|destruct H] | |- In _ _ => left; reflexivity
  end; try (cbn; tauto); try (cbn; discriminate).
Lemma datum_pattern : pattern of_class (TDict Datum (Some [TVar 1])).
Proof. unfold pattern, Datum. cbn. proper. Qed.
Lemma row_closed : closed of_class (TDict Row None).
Proof. unfold closed, Row, Datum. cbn. proper. Qed.
Lemma row_made rho : made le rho (VDict row) (TDict Row None).
Proof.
  unfold made. cbn. exists row. split; [reflexivity|]. unfold row. split.
  - repeat split; cbn.
    + exists [VAtom int]. split; [reflexivity|]. split; [|exact Logic.I]. right. exists int. split; [reflexivity|left; reflexivity].
    + left; reflexivity.
    + right. exists int. split; [reflexivity|left; reflexivity].
  - intros _ n x H. do 4 (destruct n as [|n]; [cbn; tauto|]). discriminate H.
Qed.
Example C80_reads_example : classes le /\ pattern of_class (TDict Datum (Some [TVar 1])) /\ closed of_class (TDict Row None) /\
  unify le free 20 (TDict Datum (Some [TVar 1])) (TDict Row None) [] = Ok [(1, TGen GSequence [TCon int])] /\ (forall rho, made le rho (VDict row) (TDict Row None)).
Proof. split; [exact le_classes|]. split; [exact datum_pattern|]. split; [exact row_closed|]. split; [vm_compute; reflexivity|exact row_made]. Qed.
(** the pattern may write a sequence of numbers into [value] and leave out [note] *)
Example C80_writes_example : forall re, (forall v, re 1 v <-> has le true re v (TGen GSequence [TCon int])) ->
  exists P, In (0, false, false, P) (slots_of le true re Datum (Some [TVar 1])) /\ P (VSeq [VAtom int; VAtom int]) /\ exists Q, In (1, true, false, Q) (slots_of le true re Datum (Some [TVar 1])).
Proof.
  intros re H. eexists. split; [left; reflexivity|]. split; [|eexists; right; left; reflexivity]. unfold over. cbn -[has]. apply H. cbn. split; [reflexivity|].
  exists [VAtom int; VAtom int]. split; [reflexivity|]. repeat split; right; exists int; (split; [reflexivity|left; reflexivity]).
Qed.
(** lists and dictionaries as fields: [class Names(TypedDict): first: list[str]; last: dict[str, int]; next: Row] *)
Definition Names : tdc := Cls false [] Root None [Fld 0 (TGen GList [TCon text]) false false; Fld 1 (TGen GDict [TCon text; TCon int]) true false; Fld 2 (TDict Row None) false true].
Definition Names2 : tdc := Cls false [] Names None [Fld 4 (TCon int) false false].
Example C80_lists_example : closed of_class (TDict Names None) /\ closed of_class (TDict Names2 None) /\ settled_c Names = false /\
  unify le free 20 (TGen GSequence [TDict Names None]) (TGen GList [TDict Names2 None]) [] = Ok [].
Proof. split; [|split; [|split; [reflexivity|vm_compute; reflexivity]]]; unfold closed, Names2, Names, Row, Datum; cbn; proper; right; proper. Qed.
Example C80_mapping_writes_example : pattern of_class (TGen GDict [TCon text; TVar 1]) /\ mutable_map GDict = true /\
  exists c', closed of_class (TDict c' None) /\ unify le free 20 (TGen GDict [TCon text; TVar 1]) (TDict c' None) [] = Ok [(1, TCon int)].
Proof.
  split; [cbn; proper|]. split; [reflexivity|]. exists (Cls false [] Root None [Fld 0 (TCon int) false false; Fld 1 (TCon int) true false]).
  split; [unfold closed; cbn; proper|vm_compute; reflexivity].
Qed.
Ltac wrong := repeat match goal with
  | H : exists _, _ |- _ => destruct H | H : _ /\ _ |- _ => destruct H | H : VDict _ = VDict _ |- _ => injection H as <-
  | H : VSeq _ = VSeq _ |- _ => injection H as <- | H : VAtom _ = VAtom _ |- _ => injection H as <- | H : _ \/ _ |- _ => destruct H | H : False |- _ => destruct H | _ => discriminate | _ => progress cbn in *
  end; try discriminate.

(** A class of which a field is a list is replaced by a new class without the parameters: its arguments are lost, and what is
    made as [Datum[str]] passes as [Datum[int]]. *)
Definition Items : tdc := Cls true [10] Root None [Fld 0 (TGen GList [TVar 10]) false false].
Theorem C80_arguments_refuted : exists n s v,
  unify le free n (TDict Items (Some [TCon int])) (TDict Items (Some [TCon text])) [] = Ok s /\
  (forall rho, made le rho v (TDict Items (Some [TCon text]))) /\ (forall rho, ~ held le rho v (TDict Items (Some [TCon int]))).
Proof.
  exists 10, [], (VDict [(0, VSeq [VAtom text])]). split; [vm_compute; reflexivity|]. split; intros rho.
  - unfold made. cbn. eexists. split; [reflexivity|]. split.
    + repeat split. exists [VAtom text]. split; [reflexivity|]. split; [|exact Logic.I]. right. exists text. split; [reflexivity|left; reflexivity].
    + intros _ n x H. destruct n as [|n]; [left; reflexivity|discriminate H].
  - unfold held. cbn. intros H. wrong.
Qed.
Print Assumptions C80_arguments_refuted.

(** Parameters declared with [Generic[T]] are not found. *)
Definition Old : tdc := Cls false [10] Root None [Fld 0 (TVar 10) false false].
Theorem C80_old_generics_refuted : exists n s v,
  unify le free n (TDict Old (Some [TCon int])) (TDict Old (Some [TCon text])) [] = Ok s /\
  (forall rho, made le rho v (TDict Old (Some [TCon text]))) /\ (forall rho, ~ held le rho v (TDict Old (Some [TCon int]))).
Proof.
  exists 10, [], (VDict [(0, VAtom text)]). split; [vm_compute; reflexivity|]. split; intros rho.
  - unfold made. cbn. eexists. split; [reflexivity|]. split.
    + repeat split. right. exists text. split; [reflexivity|left; reflexivity].
    + intros _ n x H. destruct n as [|n]; [left; reflexivity|discriminate H].
  - unfold held. cbn. intros H. wrong.
Qed.
Print Assumptions C80_old_generics_refuted.

(** [class Texts(Items[str])] loses its base's argument as well, and passes for numbers: the variable of the base is left to be
    found. *)
Definition Numbers : tdc := Cls false [] Items (Some [TCon int]) [].
Definition Texts : tdc := Cls false [] Root None [Fld 0 (TGen GList [TCon text]) false false].
Theorem C80_base_refuted : exists n s v,
  unify le free n (TDict Numbers None) (TDict Texts None) [] = Ok s /\ s <> [] /\
  (forall rho, made le rho v (TDict Texts None)) /\ (forall rho, ~ held le rho v (TDict Numbers None)).
Proof.
  exists 10, [(10, TCon text)], (VDict [(0, VSeq [VAtom text])]). split; [vm_compute; reflexivity|]. split; [discriminate|]. split; intros rho.
  - unfold made. cbn. eexists. split; [reflexivity|]. split.
    + repeat split. exists [VAtom text]. split; [reflexivity|]. split; [|exact Logic.I]. right. exists text. split; [reflexivity|left; reflexivity].
    + intros _ n x H. destruct n as [|n]; [left; reflexivity|discriminate H].
  - unfold held. cbn. intros H. wrong.
Qed.
Print Assumptions C80_base_refuted.

(** So does a class whose base's base has the parameter: [class Mid[U](Top[U])], [class Low(Mid[int])]. *)
Definition Top : tdc := Cls true [10] Root None [Fld 0 (TVar 10) false false].
Definition Mid : tdc := Cls true [11] Top (Some [TVar 11]) [].
Definition Low : tdc := Cls false [] Mid (Some [TCon int]) [].
Definition Text : tdc := Cls false [] Root None [Fld 0 (TCon text) false false].
Theorem C80_grandparent_refuted : exists n s v,
  unify le free n (TDict Low None) (TDict Text None) [] = Ok s /\
  (forall rho, made le rho v (TDict Text None)) /\ (forall rho, ~ held le rho v (TDict Low None)).
Proof.
  exists 10, [(10, TCon text)], (VDict [(0, VAtom text)]). split; [vm_compute; reflexivity|]. split; intros rho.
  - unfold made. cbn. eexists. split; [reflexivity|]. split.
    + repeat split. right. exists text. split; [reflexivity|left; reflexivity].
    + intros _ n x H. destruct n as [|n]; [left; reflexivity|discriminate H].
  - unfold held. cbn. intros H. wrong.
Qed.
Print Assumptions C80_grandparent_refuted.

(** A field that is [ReadOnly] in the type may be written through the pattern. *)
Theorem C80_readonly_refuted : exists c c', unify le free 10 (TDict c None) (TDict c' None) [] = Ok [] /\ closed of_class (TDict c None) /\ closed of_class (TDict c' None) /\
  forall rho, exists P P', In (0, false, false, P) (slots_of le true rho c None) /\ In (0, false, true, P') (slots_of le true rho c' None).
Proof.
  exists (Cls false [] Root None [Fld 0 (TCon int) false false]), (Cls false [] Root None [Fld 0 (TCon int) false true]).
  split; [vm_compute; reflexivity|]. split; [unfold closed; cbn; proper|]. split; [unfold closed; cbn; proper|]. intros rho. eexists. eexists. split; left; reflexivity.
Qed.
Print Assumptions C80_readonly_refuted.

(** A [ReadOnly] field of the pattern may hold less in the type; a list elsewhere in the pattern makes the unifier forget that. *)
Theorem C80_forgets_refuted : exists f f' g, fread f = true /\
  unify le free 10 (TDict (Cls false [] Root None [f]) None) (TDict (Cls false [] Root None [f']) None) [] = Ok [] /\
  unify le free 10 (TDict (Cls false [] Root None [g]) None) (TDict (Cls false [] Root None [g]) None) [] = Ok [] /\
  unify le free 10 (TDict (Cls false [] Root None [f; g]) None) (TDict (Cls false [] Root None [f'; g]) None) [] = Err.
Proof. exists (Fld 0 (TCon object) false true), (Fld 0 (TCon int) false false), (Fld 1 (TGen GList [TCon int]) false false). vm_compute. repeat split. Qed.
Print Assumptions C80_forgets_refuted.

(** Typed dictionaries may hold further keys. Then a field that may be left out and that the type does not declare can hold
    anything, *)
Theorem C80_absent_refuted : exists c c' v, unify le free 10 (TDict c None) (TDict c' None) [] = Ok [] /\ closed of_class (TDict c None) /\ closed of_class (TDict c' None) /\
  forall rho, held le rho v (TDict c' None) /\ ~ held le rho v (TDict c None).
Proof.
  exists (Cls false [] Root None [Fld 0 (TCon int) true false]), (Cls false [] Root None [Fld 1 (TCon int) false false]), (VDict [(0, VAtom text); (1, VAtom int)]).
  split; [vm_compute; reflexivity|]. split; [unfold closed; cbn; proper|]. split; [unfold closed; cbn; proper|]. intros rho. split.
  - unfold held. cbn. eexists. split; [reflexivity|]. split; [|discriminate]. repeat split. right. exists int. split; [reflexivity|left; reflexivity].
  - unfold held. cbn. intros H. wrong.
Qed.
Print Assumptions C80_absent_refuted.
(** and a mapping does not know the values of the further keys. *)
Theorem C80_mapping_refuted : exists c' v, unify le free 10 (TGen GMapping [TCon text; TCon int]) (TDict c' None) [] = Ok [] /\ closed of_class (TDict c' None) /\
  forall rho, held le rho v (TDict c' None) /\ ~ held le rho v (TGen GMapping [TCon text; TCon int]).
Proof.
  exists (Cls false [] Root None [Fld 1 (TCon int) false false]), (VDict [(0, VAtom text); (1, VAtom int)]).
  split; [vm_compute; reflexivity|]. split; [unfold closed; cbn; proper|]. intros rho. split.
  - unfold held. cbn. eexists. split; [reflexivity|]. split; [|discriminate]. repeat split. right. exists int. split; [reflexivity|left; reflexivity].
  - unfold held. cbn. intros [_ [d [E H]]]. injection E as <-. destruct (H 0 (VAtom text) eq_refl) as [_ H']. clear H. wrong.
Qed.
Print Assumptions C80_mapping_refuted.

(** A mutable mapping lets one delete keys, a typed dictionary does not. *)
Theorem C80_delete_refuted : exists c' d, unify le free 10 (TGen GDict [TCon text; TCon int]) (TDict c' None) [] = Ok [] /\ closed of_class (TDict c' None) /\
  forall rho, made le rho (VDict d) (TDict c' None) /\ made le rho (VDict (drop d 0)) (TGen GDict [TCon text; TCon int]) /\ ~ held le rho (VDict (drop d 0)) (TDict c' None).
Proof.
  exists (Cls false [] Root None [Fld 0 (TCon int) false false]), [(0, VAtom int)].
  split; [vm_compute; reflexivity|]. split; [unfold closed; cbn; proper|]. intros rho. split; [|split].
  - unfold made. cbn. eexists. split; [reflexivity|]. split.
    + repeat split. right. exists int. split; [reflexivity|left; reflexivity].
    + intros _ n x H. destruct n as [|n]; [left; reflexivity|discriminate H].
  - unfold made. cbn. split; [reflexivity|]. eexists. split; [reflexivity|]. intros n x H. discriminate H.
  - unfold held. cbn. intros H. wrong.
Qed.
Print Assumptions C80_delete_refuted.

(** A mutable field whose type is a variable with a bound unifies with nothing that is not a variable: here [value: T] with
    [T] bounded, which [int] would meet. *)
Theorem C80_bounded_refuted : exists c c', unify le free 10 (TDict c (Some [TVar 1])) (TDict c' None) [] = Ok [(1, TCon int)] /\
  unify le (fun x => x =? 1) 10 (TDict c (Some [TVar 1])) (TDict c' None) [] = Err.
Proof. exists Top, (Cls false [] Root None [Fld 0 (TCon int) false false]). vm_compute. split; reflexivity. Qed.
Print Assumptions C80_bounded_refuted.
