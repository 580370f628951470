(** C70: inlining references keeps the meaning of a schema. *)
From Coq Require Import String Ascii List Bool Arith ZArith Lia.
Import ListNotations.
From Verif Require Import RefModel RefSpec RefProofs.
Local Open Scope string_scope.
Local Open Scope list_scope.

(** The inlined schema allows an instance exactly if the schema with its definitions does. *)
Theorem C70_inlining_keeps_meaning_partial : forall n s s' i b, clean_schema s -> inline_refs n s = Ok s' -> (decides s i b <-> decides s' i b).
Proof. exact inlined_decides. Qed.
Print Assumptions C70_inlining_keeps_meaning_partial.

(** No reference and no definitions are left. *)
Theorem C70_no_reference_left : forall n s s', clean_schema s -> inline_refs n s = Ok s' -> quiet s'.
Proof. exact inlined_quiet. Qed.
Print Assumptions C70_no_reference_left.

(** Inlining ends, and more room for recursion does not change the result. *)
Theorem C70_inlining_ends_partial : forall s, clean_schema s -> acyclic (definitions s) -> exists n s', forall m, n <= m -> inline_refs m s = Ok s'.
Proof. exact inline_ends. Qed.
Print Assumptions C70_inlining_ends_partial.

(** Once inlined, nothing changes any more. *)
Theorem C70_inlining_once : forall n m s s' s'', clean_schema s -> inline_refs n s = Ok s' -> inline_refs m s' = Ok s'' -> s'' = s'.
Proof. exact inlined_again. Qed.
Print Assumptions C70_inlining_once.

(** The only error is for want of room. *)
Theorem C70_no_other_error : forall n s, clean_schema s -> inline_refs n s <> AttributeError.
Proof. exact inline_no_error. Qed.
Print Assumptions C70_no_other_error.

(** References to no definition of the schema are left as they were. *)
Theorem C70_other_references_kept : forall n s, foreign [] s -> depth s <= n -> inline_refs n s = Ok s.
Proof. exact foreign_inline. Qed.
Print Assumptions C70_other_references_kept.
Example C70_other_references_example :
  let s := JObj [("items", JObj [("$ref", JStr "https://json-schema.org/draft/2020-12/schema")])] in foreign [] s /\ depth s = 3.
Proof.
  split; [|reflexivity]. apply F_obj; [|intros v [[=]|[]]]. intros k v [[= <- <-]|[]]. split; [discriminate|]. apply F_obj.
  - intros k v [[= <- <-]|[]]. split; [discriminate|constructor].
  - intros v [[= <-]|[]]. eexists. split; [reflexivity|]. intros name d [].
Qed.

Definition ref (name : string) : string * json := ("$ref", JStr (prefix ++ name)%string).
Definition typed (t : string) : json := JObj [("type", JStr t)].
(** A polygon of points and an optional centre. *)
Definition point : json := JObj [("type", JStr "object"); ("properties", JObj [("x", typed "integer"); ("y", typed "integer")]); ("required", JArr [JStr "x"; JStr "y"])].
Definition points : json := JObj [("type", JStr "array"); ("items", JObj [ref "Point"; ("title", JStr "vertex")])].
Definition polygon : json :=
  JObj [("$defs", JObj [("Point", point); ("Points", points)]); ("type", JStr "object");
        ("properties", JObj [("vertices", JObj [ref "Points"]); ("centre", JObj [("anyOf", JArr [JObj [ref "Point"]; typed "null"]); ("default", JNull)])]);
        ("additionalProperties", JBool false)].
Definition inlined : json :=
  JObj [("type", JStr "object");
        ("properties", JObj [("vertices", JObj [("type", JStr "array"); ("items", point)]); ("centre", JObj [("anyOf", JArr [point; typed "null"]); ("default", JNull)])]);
        ("additionalProperties", JBool false)].
Ltac each_in I := cbn [In] in I; repeat (destruct I as [[=]|I]; [subst|]); try destruct I.
Ltac clean_tac :=
  lazymatch goal with
  | |- clean _ (JBool _) => apply C_bool
  | |- clean _ (typed _) => unfold typed; clean_tac
  | |- clean _ (JObj (ref ?n :: _)) => eapply (C_ref _ _ n); [reflexivity|reflexivity|reflexivity|repeat constructor; cbn; intuition discriminate|intros k v I N; each_in I; cbn; intuition discriminate]
  | |- clean _ (JObj _) => apply C_obj; [intros k v I; each_in I; discriminate|intros k v I N; each_in I; try contradiction; clear N; clean_tac]
  | |- clean_keyword _ "properties" (JObj _) => apply K_properties; intros k v I; each_in I; (split; [discriminate|]); (split; [discriminate|]); clean_tac
  | |- clean_keyword _ "items" _ => apply K_schema; [cbn; auto|clean_tac]
  | |- clean_keyword _ "additionalProperties" _ => apply K_schema; [cbn; auto|clean_tac]
  | |- clean_keyword _ "anyOf" _ => apply K_schemas; [cbn; auto|intros v I; cbn [In] in I; repeat (destruct I as [<-|I]; [clean_tac|]); try destruct I]
  | |- clean_keyword _ _ _ => apply K_other; [cbn; intuition discriminate|quiet_tac]
  end
with quiet_tac :=
  lazymatch goal with
  | |- quiet (JArr _) => apply Q_arr; intros v I; cbn [In] in I; repeat (destruct I as [<-|I]; [quiet_tac|]); try destruct I
  | |- quiet (typed _) => unfold typed; quiet_tac
  | |- quiet (JObj _) => apply Q_obj; intros k v I; each_in I; (split; [discriminate|]); (split; [discriminate|]); quiet_tac
  | |- _ => once constructor
  end.
Lemma point_clean : forall defs, clean defs point.
Proof. intros defs. unfold point, typed. clean_tac. Qed.
Lemma polygon_clean : clean_schema polygon.
Proof.
  split.
  - unfold polygon. apply C_obj; [intros k v I; each_in I; discriminate|]. intros k v I N. each_in I; try contradiction; clear N; clean_tac.
  - intros x d I. each_in I; [apply point_clean|]. unfold points. clean_tac.
Qed.
Lemma point_quiet : quiet point.
Proof.
  unfold point. quiet_tac.
Qed.
Lemma points_mention : forall y, mentions points y -> y = "Point".
Proof.
  intros y M. unfold points in M. inversion M as [|l k v y' G I N Mv|l r y' G P]; subst; [|discriminate]. each_in I.
  - inversion Mv.
  - inversion Mv as [|l k v y' G' I N' Mv'|l r y' G' P]; subst; [discriminate|]. injection G' as <-. injection P as <-. reflexivity.
Qed.
Lemma polygon_acyclic : acyclic (definitions polygon).
Proof.
  exists (fun n => if String.eqb n "Points" then 1 else 0). intros x d y d' G M G'. cbn [definitions polygon jget] in G, G'.
  change (jget [("Point", point); ("Points", points)] x = Some d) in G. cbn [jget] in G.
  destruct (String.eqb_spec "Point" x) as [<-|]; [injection G as <-; destruct (quiet_silent _ point_quiet _ M)|].
  destruct (String.eqb_spec "Points" x) as [<-|]; [|discriminate]. injection G as <-. apply points_mention in M as ->. cbn. auto.
Qed.
Example C70_polygon :
  clean_schema polygon /\ acyclic (definitions polygon) /\ inline_refs 20 polygon = Ok inlined /\
  decides inlined (JObj [("vertices", JArr [JObj [("x", JNum 1); ("y", JNum 2)]])]) true /\
  decides inlined (JObj [("vertices", JArr [JObj [("x", JNum 1)]])]) false /\ decides inlined (JObj [("edges", JArr [])]) false.
Proof.
  split; [exact polygon_clean|]. split; [exact polygon_acyclic|]. repeat split; try reflexivity; try (exists 10; reflexivity).
Qed.

(** A definition that comes back to itself stands for no finite schema; inlining it fails whatever the room. *)
Theorem C70_recursive_definitions_fail : forall s x d, clean_schema s -> reaches (definitions s) s x -> jget (definitions s) x = Some d -> reaches (definitions s) d x ->
  forall n, inline_refs n s = RecursionError.
Proof. exact inline_loops. Qed.
Print Assumptions C70_recursive_definitions_fail.

(** A tree with a list of children. *)
Definition tree_body : json :=
  JObj [("type", JStr "object"); ("properties", JObj [("value", typed "integer"); ("children", JObj [("type", JStr "array"); ("items", JObj [ref "Tree"])])])].
Definition tree : json := JObj [ref "Tree"; ("$defs", JObj [("Tree", tree_body)])].
Lemma tree_clean : clean_schema tree.
Proof.
  split.
  - unfold tree. clean_tac.
  - intros x d I. each_in I. unfold tree_body. clean_tac.
Qed.
Lemma tree_mentions : mentions tree_body "Tree".
Proof.
  unfold tree_body. eapply M_obj; [reflexivity|right; left; reflexivity|discriminate|]. eapply M_obj; [reflexivity|right; left; reflexivity|discriminate|].
  eapply M_obj; [reflexivity|right; left; reflexivity|discriminate|]. eapply M_ref; reflexivity.
Qed.
Lemma tree_reached : reaches (definitions tree) tree "Tree".
Proof. apply R_here. eapply M_ref; reflexivity. Qed.
Example C70_tree_reached : clean_schema tree /\ reaches (definitions tree) tree "Tree" /\ jget (definitions tree) "Tree" = Some tree_body /\ reaches (definitions tree) tree_body "Tree".
Proof. split; [exact tree_clean|]. split; [exact tree_reached|]. split; [reflexivity|]. apply R_here. exact tree_mentions. Qed.

(** Meaningful schemas, such as that of a tree, cannot be inlined. *)
Theorem C70_recursive_types_refuted :
  exists s i j, clean_schema s /\ decides s i true /\ decides s j false /\ forall n, inline_refs n s = RecursionError.
Proof.
  exists tree, (JObj [("value", JNum 1); ("children", JArr [JObj [("value", JNum 2)]])]), (JObj [("value", JNum 1); ("children", JArr [JObj [("value", JStr "two")]])]).
  split; [exact tree_clean|]. split; [exists 10; reflexivity|]. split; [exists 10; reflexivity|].
  apply (inline_loops tree "Tree" tree_body tree_clean tree_reached eq_refl). apply R_here. exact tree_mentions.
Qed.
Print Assumptions C70_recursive_types_refuted.

(** Keywords beside a reference are lost: constraints ... *)
Theorem C70_constraints_beside_references_refuted :
  exists n s s' i, inline_refs n s = Ok s' /\ decides s i false /\ decides s' i true.
Proof.
  exists 10, (JObj [("$defs", JObj [("Colour", typed "string")]); ("properties", JObj [("c", JObj [ref "Colour"; ("enum", JArr [JStr "red"])])])]),
    (JObj [("properties", JObj [("c", typed "string")])]), (JObj [("c", JStr "green")]).
  split; [reflexivity|]. split; exists 10; reflexivity.
Qed.
Print Assumptions C70_constraints_beside_references_refuted.
(** ... and descriptions, even where the meaning is kept. *)
Theorem C70_descriptions_beside_references_refuted :
  exists n s s' text, clean_schema s /\ inline_refs n s = Ok s' /\ s = JObj [("$defs", JObj [("Colour", typed "string")]); ("properties", JObj [("c", JObj [ref "Colour"; ("description", JStr text)])])] /\
    s' = JObj [("properties", JObj [("c", typed "string")])].
Proof.
  exists 10. do 2 eexists. exists "the colour of the lid". split; [|split; [|split; reflexivity]]; [|reflexivity]. split.
  - apply C_obj; [intros k v I; each_in I; discriminate|]. intros k v I N. each_in I; try contradiction; clear N; clean_tac.
  - intros x d I. each_in I. clean_tac.
Qed.
Print Assumptions C70_descriptions_beside_references_refuted.

(** A property with the name of a keyword is lost, or taken for a reference. *)
Theorem C70_property_names_refuted :
  (exists n s s' i, inline_refs n s = Ok s' /\ decides s i false /\ decides s' i true /\ exists p, s = JObj [("properties", JObj [("$defs", p)])]) /\
  (exists s, forall n, inline_refs (2 + n) s = AttributeError /\ decides s (JObj []) true /\ exists p, s = JObj [("properties", JObj [("$ref", p)])]).
Proof.
  split.
  - exists 10, (JObj [("properties", JObj [("$defs", typed "string")])]), (JObj [("properties", JObj [])]), (JObj [("$defs", JNum 1)]).
    split; [reflexivity|]. split; [exists 10; reflexivity|]. split; [exists 10; reflexivity|]. eexists; reflexivity.
  - exists (JObj [("properties", JObj [("$ref", typed "string")])]). intros n. split; [reflexivity|]. split; [exists 10; reflexivity|]. eexists; reflexivity.
Qed.
Print Assumptions C70_property_names_refuted.
