(** C28: the product of interpretations projects to its components. C47: [argsof]. *)
From Coq Require Import List Bool Arith ZArith.
Import ListNotations.
From Verif Require Import ProdModel ProdSpec ProdProofs ProdCases.

(** C28, components without requests to each other. If handlers call only what their own
    component handles or nobody does, and every call inside the expression has a value under
    each component, then the p-component of the product's result is the result under
    component p by itself. Missing: the cases refuted below. *)
Theorem C28_projection_partial : forall defs intps,
  all_no_prompts defs intps -> all_tame defs intps -> no_copies intps ->
  forall m es p d n r, covered intps (EOp m es) -> inside_alone defs intps (EOp m es) ->
  assoc intps p = Some d -> alone defs intps n d (EOp m es) = Some r ->
  (exists n', project defs intps n' p (EOp m es) = Some r) /\
  forall n' r', project defs intps n' p (EOp m es) = Some r' -> r' = r.
Proof. exact projection. Qed.
Print Assumptions C28_projection_partial.

(** C28, with requests: each prompt is answered by that analysis' result for the same call. *)
Theorem C28_prompts_partial : forall defs intps, all_tame defs intps -> no_copies intps ->
  forall m es p r, covered intps (EOp m es) -> inside_ok defs intps (EOp m es) ->
  answer defs intps (SExpr p (EOp m es)) r ->
  (exists n, project defs intps n p (EOp m es) = Some r) /\
  forall n r', project defs intps n p (EOp m es) = Some r' -> r' = r.
Proof. exact projection_prompts. Qed.
Print Assumptions C28_prompts_partial.

(** C28, with [apply] handlers that see copies of operations: the result is the same up to
    the copies, if the handlers cannot tell them from the originals. *)
Theorem C28_apply_partial : forall defs intps, all_alike defs intps ->
  forall m es p r, covered intps (EOp m es) -> inside_ok defs intps (EOp m es) ->
  answer defs intps (SExpr p (EOp m es)) r ->
  exists r', same_outcome p r' r /\ (exists n, project defs intps n p (EOp m es) = Some r') /\
  forall n r'', project defs intps n p (EOp m es) = Some r'' -> r'' = r'.
Proof. exact projection_apply. Qed.
Print Assumptions C28_apply_partial.

(** A handler calling an operation that only another component handles gets a term of a copy
    of it instead of its default. *)
Theorem C28_other_handles_refuted : exists defs intps p d m r r',
  assoc intps p = Some d /\ alone defs intps 20 d (EOp m []) = Some r /\
  project defs intps 20 p (EOp m []) = Some r' /\ r' <> r.
Proof. exact other_handles. Qed.
Print Assumptions C28_other_handles_refuted.

(** If another component has an [apply] handler, a handler calling an unhandled operation
    never returns. *)
Theorem C28_apply_diverges_refuted : exists defs intps p d m r,
  assoc intps p = Some d /\ alone defs intps 20 d (EOp m []) = Some r /\
  forall n, project defs intps n p (EOp m []) = None.
Proof. exact apply_diverges. Qed.
Print Assumptions C28_apply_diverges_refuted.

(** An [apply] handler that uses the operation's default rule gets the copy's, which has none. *)
Theorem C28_copy_visible_refuted : exists defs intps p d m r r',
  assoc intps p = Some d /\ alone defs intps 20 d (EOp m []) = Some r /\
  project defs intps 20 p (EOp m []) = Some r' /\ r' <> r.
Proof. exact copy_visible. Qed.
Print Assumptions C28_copy_visible_refuted.

(** An exception of one component, on an argument, is raised for all components. *)
Theorem C28_exception_leaks_refuted : exists defs intps p d e v x,
  assoc intps p = Some d /\ alone defs intps 20 d e = Some (Ok v) /\
  project defs intps 20 p e = Some (Exn (EUser x)).
Proof. exact exception_leaks. Qed.
Print Assumptions C28_exception_leaks_refuted.

(** Handlers installed around the product are not seen by the components. *)
Theorem C28_enclosing_refuted : exists defs intps E0 p d m r r',
  assoc intps p = Some d /\ alone_in defs intps E0 20 d (EOp m []) = Some r /\
  project_in defs intps E0 20 p (EOp m []) = Some r' /\ r' <> r.
Proof. exact enclosing. Qed.
Print Assumptions C28_enclosing_refuted.

(** An operation that no component handles gives a term over products, not a product. *)
Theorem C28_uncovered_refuted : exists defs intps p d e v,
  assoc intps p = Some d /\ alone defs intps 20 d e = Some (Ok v) /\
  project defs intps 20 p e = Some (Exn EType).
Proof. exact uncovered. Qed.
Print Assumptions C28_uncovered_refuted.

(** C47, without [apply] handlers: [argsof(q)] gives the arguments of the current call in the
    analysis [q]. *)
Theorem C47_argsof_partial : forall defs intps, all_tame defs intps -> ~ In BApply (result_ops intps) ->
  forall m es p d q d' vs, covered intps (EOp m es) -> inside_ok defs intps (EOp m es) ->
  assoc intps p = Some d -> find d (BOp m) = Some (fun _ => Call OArgsOf [VOp (OPrompt q)] (fun r => match r with Ok v => Ret v | Exn e => Raise e end)) ->
  assoc intps q = Some d' -> answer defs intps (SArgs q es) (Ok (VTup vs)) ->
  (exists n, project defs intps n p (EOp m es) = Some (Ok (VTup [VTup vs; VTup []]))) /\
  forall n r, project defs intps n p (EOp m es) = Some r -> r = Ok (VTup [VTup vs; VTup []]).
Proof. exact argsof_partial. Qed.
Print Assumptions C47_argsof_partial.

(** For an analysis whose result comes from its [apply] handler the first argument is missing. *)
Theorem C47_argsof_apply_refuted : exists defs intps p q m es vs w,
  answer defs intps (SArgs q es) (Ok (VTup vs)) /\
  project defs intps 20 p (EOp m es) = Some (Ok (VTup [VTup w; VTup []])) /\ vs = VInt 10 :: w.
Proof. exact argsof_apply. Qed.
Print Assumptions C47_argsof_apply_refuted.

(** Two analyses of [plus(plus(1,2),4)]: the value, and the size, which asks for the value. *)
Example C28_example : forall m es, EOp m es = EOp 0 [EOp 0 [ELit 1; ELit 2]; ELit 4] ->
  all_tame ex_defs ex_intps /\ no_copies ex_intps /\ covered ex_intps (EOp m es) /\ inside_ok ex_defs ex_intps (EOp m es) /\
  answer ex_defs ex_intps (SExpr 1 (EOp m es)) (Ok (VTup [VInt 9; VInt 7])).
Proof. exact example. Qed.
Example C28_example_alone :
  all_no_prompts ex_defs ex_intps2 /\ all_tame ex_defs ex_intps2 /\ no_copies ex_intps2 /\
  covered ex_intps2 (EOp 0 [EOp 0 [ELit 1; ELit 2]; ELit 4]) /\ inside_alone ex_defs ex_intps2 (EOp 0 [EOp 0 [ELit 1; ELit 2]; ELit 4]) /\
  exists d, assoc ex_intps2 0 = Some d /\ alone ex_defs ex_intps2 9 d (EOp 0 [EOp 0 [ELit 1; ELit 2]; ELit 4]) = Some (Ok (VInt 7)).
Proof. exact example_alone. Qed.
Example C28_example_apply :
  all_alike ex_defs ex_intps3 /\ covered ex_intps3 (EOp 0 [ELit 1]) /\ inside_ok ex_defs ex_intps3 (EOp 0 [ELit 1]) /\
  answer ex_defs ex_intps3 (SExpr 1 (EOp 0 [ELit 1])) (Ok (VTup [VOp (OBase (BOp 0)); VInt 1])).
Proof. exact example_apply. Qed.
Example C47_example : project ex_defs ex_intps4 20 0 (EOp 0 [ELit 1; ELit 2]) = Some (Ok (VTup [VTup [VInt 1; VInt 2]; VTup []])) /\
  all_tame ex_defs ex_intps4 /\ ~ In BApply (result_ops ex_intps4).
Proof. exact example_argsof. Qed.
