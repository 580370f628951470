(** C35: content blocks linearise to the JSON encoding. *)
From Coq Require Import String List Bool ZArith.
Import ListNotations.
From Verif Require Import JsonModel JsonSpec JsonProofs.
Open Scope string_scope.
Open Scope list_scope.

(** For a value that is not a string and has no block of type "text" inside, whatever the block
    types and the printing of scalars: the blocks show the value's JSON, and no two texts are
    adjacent. Missing: text-typed values, refuted below. *)
Theorem C35_linearize_partial : forall dumps_scalar block_types v bs,
  (forall s, v <> JStr s) ->
  (forall x, reached block_types v x -> is_block block_types x -> typed x <> Some (JStr "text")) ->
  to_content_blocks dumps_scalar block_types v = Some bs ->
  linearize dumps_scalar bs = dumps dumps_scalar v /\ no_two_texts bs.
Proof. exact blocks_linear. Qed.
Print Assumptions C35_linearize_partial.

(** The blocks passed on are exactly the outermost blocks of the value, in order. *)
Theorem C35_extraction : forall dumps_scalar block_types v bs,
  to_content_blocks dumps_scalar block_types v = Some bs -> values bs = outermost block_types v.
Proof. exact blocks_values. Qed.
Print Assumptions C35_extraction.

(** It fails (TypeError) exactly if it meets an object whose "type" is an array or object. *)
Theorem C35_fails : forall dumps_scalar block_types v,
  to_content_blocks dumps_scalar block_types v = None <->
  exists x, reached block_types v x /\ unhashable_type x.
Proof. exact blocks_fail. Qed.
Print Assumptions C35_fails.

(** So not every JSON value is accepted: a JSON schema with a list of types is not. *)
Theorem C35_unhashable_refuted : exists v, forall dumps_scalar block_types,
  to_content_blocks dumps_scalar block_types v = None.
Proof. exists (JObj [("type", JArr [JStr "string"; JStr "null"])]). reflexivity. Qed.
Print Assumptions C35_unhashable_refuted.

(** A value with an object of type "text" inside: JSON is lost and texts are adjacent. *)
Theorem C35_text_refuted : forall dumps_scalar block_types, In "text" block_types ->
  exists v bs, (forall s, v <> JStr s) /\
  to_content_blocks dumps_scalar block_types v = Some bs /\
  linearize dumps_scalar bs <> dumps dumps_scalar v /\ ~ no_two_texts bs.
Proof. exact text_refuted. Qed.
Print Assumptions C35_text_refuted.

Definition ex_scalar (v : json) : string := match v with JStr s => """" ++ s ++ """" | JBool true => "true" | _ => "1" end%string.
Definition ex_image : json := JObj [("type", JStr "image_url"); ("image_url", JObj [("url", JStr "u")])].
Example C35_example :
  to_content_blocks ex_scalar ["text"; "image_url"] (JObj [("a", JArr [JInt 1; ex_image; JBool true]); ("b", ex_image)]) =
    Some [BText "{""a"": [1, "; BVal ex_image; BText ", true], ""b"": "; BVal ex_image; BText "}"] /\
  forall x, reached ["text"; "image_url"] (JArr [JInt 1; ex_image]) x -> is_block ["text"; "image_url"] x -> typed x <> Some (JStr "text").
Proof.
  split; [reflexivity|]. intros x R _. inversion R as [|? v ? H R'|]; subst; [discriminate|].
  destruct H as [<-|[<-|[]]]; inversion R' as [| |? ? ? ? N]; subst; try discriminate.
  exfalso. apply N. exists "image_url". split; [reflexivity|right; left; reflexivity].
Qed.
