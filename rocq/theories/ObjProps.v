(** Theorems about [ObjectInterpretation] (C24). [mro] is Python's method resolution
    order, [builtins] the classes that exist before the program and mark nothing. *)
From Coq Require Import List Arith Bool.
From Verif Require Import ObjModel ObjSpec ObjProofs.
Import ListNotations.

(** Exact: a class uses its own marked function, otherwise what the first class after
    it in the resolution order uses that has any, own or inherited. *)
Theorem C24_lookup_exact :
  forall mro l builtins, well_ordered mro l builtins ->
  forall s m o, In s l -> mro (cls s) = cls s :: m ->
  getitem (run mro l) (cls s) o =
    match marks l (cls s) o with Some i => Some i | None => first_known (run mro l) m o end.
Proof. exact lookup_exact. Qed.
Print Assumptions C24_lookup_exact.

(** With one parent per class: the first class in the resolution order. *)
Theorem C24_single_inheritance_partial :
  forall mro l builtins, well_ordered mro l builtins ->
  (forall b, In b builtins -> incl (mro b) builtins) -> monotone mro ->
  forall s o, In s l -> single mro (cls s) ->
  getitem (run mro l) (cls s) o = resolve l (mro (cls s)) o.
Proof. exact lookup_single. Qed.
Print Assumptions C24_single_inheritance_partial.

(** With several, when every class before the first implementer either has no
    implementing ancestor or derives from that implementer. *)
Theorem C24_no_diamond_partial :
  forall mro l builtins, well_ordered mro l builtins ->
  (forall b, In b builtins -> incl (mro b) builtins) -> monotone mro ->
  forall s o, In s l -> no_diamond mro l (cls s) o ->
  getitem (run mro l) (cls s) o = resolve l (mro (cls s)) o.
Proof. exact lookup_made. Qed.
Print Assumptions C24_no_diamond_partial.

(** Class 0 is [ObjectInterpretation], 9 is [object]. [Base] (1) implements operation 5
    with function 51, [B] (3) overrides it with 53, [A] (2) does not. [C] (4) derives from
    [A] and [B], [D] (6) only from [B], and implements operation 7. *)
Definition ex_mro (c : nat) : list nat :=
  match c with
  | 0 => [0; 9] | 1 => [1; 0; 9] | 2 => [2; 1; 0; 9] | 3 => [3; 1; 0; 9] | 4 => [4; 2; 3; 1; 0; 9]
  | 6 => [6; 3; 1; 0; 9] | n => [n]
  end.
Definition ex_prog : list stmt :=
  [mkstmt 1 [(5, 51); (8, 81)] true; mkstmt 2 [] true; mkstmt 3 [(5, 50); (5, 53)] true; mkstmt 4 [] true; mkstmt 6 [(7, 76)] true].

Example ex_ordered : well_ordered ex_mro ex_prog [0; 9].
Proof.
  repeat match goal with
  | |- well_ordered _ _ _ => econstructor
  | |- ~ In _ _ => cbn; intuition discriminate
  | |- NoDup _ => cbn; constructor
  | |- forall c, In c _ -> _ => intros c Hc; cbn in *; intuition
  | |- _ = _ => reflexivity
  end.
Qed.

Example ex_monotone : monotone ex_mro.
Proof.
  intros c s. assert (R : forall l, subseq l l) by (induction l; constructor; assumption).
  do 7 (destruct c as [|c]; [cbn; intros H; repeat (destruct H as [<-|H]; [cbn; repeat first [apply R | apply SubTake | apply SubSkip]|]); destruct H|]).
  cbn. intros [<-|[]]. apply R.
Qed.

Example ex_builtins : forall b, In b [0; 9] -> incl (ex_mro b) [0; 9].
Proof. intros b [<-|[<-|[]]] x Hx; cbn in *; intuition. Qed.

Example C24_example : single ex_mro 6 /\
  getitem (run ex_mro ex_prog) 6 5 = Some 53 /\ getitem (run ex_mro ex_prog) 6 7 = Some 76 /\
  getitem (run ex_mro ex_prog) 6 8 = Some 81 /\ getitem (run ex_mro ex_prog) 6 4 = None.
Proof.
  split; [|repeat split]. intros s Hs. cbn in Hs. repeat (destruct Hs as [<-|Hs]; [eexists; split; reflexivity|]). destruct Hs.
Qed.

(** A diamond that meets the condition: operation 8, only implemented at the top. *)
Example C24_no_diamond_example : no_diamond ex_mro ex_prog 4 8.
Proof.
  intros s l1 d l2 Hs Hm H1 H2 t e Ht He Hme.
  assert (D : d = 1). { destruct d as [|[|[|[|d]]]]; try reflexivity; exfalso; apply H2; cbn; try reflexivity. destruct d as [|[|[|d]]]; reflexivity. }
  assert (E : e = 1). { destruct e as [|[|[|[|d0]]]]; try reflexivity; exfalso; apply Hme; cbn; try reflexivity. destruct d0 as [|[|[|d0]]]; reflexivity. }
  subst. exact He.
Qed.

(** The diamond: [B] comes before [Base] in the resolution order of [C], yet [C] uses
    the function of [Base]. *)
Theorem C24_diamond_refuted :
  exists mro l builtins s o, well_ordered mro l builtins /\ (forall b, In b builtins -> incl (mro b) builtins) /\
    monotone mro /\ In s l /\ getitem (run mro l) (cls s) o <> resolve l (mro (cls s)) o.
Proof.
  exists ex_mro, ex_prog, [0; 9], (mkstmt 4 [] true), 5.
  split; [exact ex_ordered|]. split; [exact ex_builtins|]. split; [exact ex_monotone|]. split; [cbn; auto|]. discriminate.
Qed.
Print Assumptions C24_diamond_refuted.

(** A class statement that fails after naming its attributes leaves its marks to the
    next, unrelated class. *)
Theorem C24_failed_class_leaks_refuted :
  exists mro l s o i, In s l /\ ok s = true /\ own s = [] /\ mro (cls s) = [cls s; 0; 9] /\
    (forall c, In c [0; 9] -> marks l c o = None) /\
    getitem (run mro l) (cls s) o = Some i /\ resolve l (mro (cls s)) o = None.
Proof.
  exists (fun c => match c with 0 => [0; 9] | 9 => [9] | n => [n; 0; 9] end),
    [mkstmt 1 [(5, 51)] false; mkstmt 2 [] true], (mkstmt 2 [] true), 5, 51.
  split; [cbn; auto|]. repeat split. intros c [<-|[<-|[]]]; reflexivity.
Qed.
Print Assumptions C24_failed_class_leaks_refuted.
