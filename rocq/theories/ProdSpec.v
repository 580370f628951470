(** What the components of a product should be: each interpretation by itself, the prompts
    being answered by the other interpretations' results for the same call. *)
From Coq Require Import List Bool Arith ZArith.
Import ListNotations.
From Verif Require Import ProdModel.

Section Spec.
Variable defs : nat -> fn.
Variable intps : list (nat * intp).

Definition caught (m : nat) (vs : list value) (r : outcome) : outcome :=
  match r with Exn ENotHandled => Ok (VTerm (OBase (BOp m)) vs) | _ => r end.

(** [SExpr q e]: [e] in the analysis [q]. [SRun q m es c]: code [c] of [q], run for the call of
    [m] on [es]. [SNode q m es m' vs]: operation [m'] on [vs], called by [q] for the same call. *)
Inductive question :=
| SExpr (q : nat) (e : expr)
| SArgs (q : nat) (es : list expr)
| SNode (q m : nat) (es : list expr) (m' : nat) (vs : list value)
| SRun (q m : nat) (es : list expr) (c : comp).

Inductive answer : question -> outcome -> Prop :=
| A_lit : forall q z, answer (SExpr q (ELit z)) (Ok (VInt z))
| A_op : forall q m es vs r,
    answer (SArgs q es) (Ok (VTup vs)) -> answer (SNode q m es m vs) r -> answer (SExpr q (EOp m es)) r
| A_nil : forall q, answer (SArgs q []) (Ok (VTup []))
| A_cons : forall q e es v vs,
    answer (SExpr q e) (Ok v) -> answer (SArgs q es) (Ok (VTup vs)) -> answer (SArgs q (e :: es)) (Ok (VTup (v :: vs)))
| A_handled : forall q d m es m' vs f r,
    assoc intps q = Some d -> find d (BOp m') = Some f -> answer (SRun q m es (f vs)) r ->
    answer (SNode q m es m' vs) r
| A_apply : forall q d m es m' vs f r,
    assoc intps q = Some d -> find d (BOp m') = None -> find d BApply = Some f ->
    answer (SRun q m es (f (VOp (OBase (BOp m')) :: vs))) r ->
    answer (SNode q m es m' vs) r
| A_default : forall q d m es m' vs r,
    assoc intps q = Some d -> find d (BOp m') = None -> find d BApply = None ->
    answer (SRun q m es (defs m' vs)) r ->
    answer (SNode q m es m' vs) (caught m' vs r)
| A_ret : forall q m es v, answer (SRun q m es (Ret v)) (Ok v)
| A_raise : forall q m es e, answer (SRun q m es (Raise e)) (Exn e)
| A_call : forall q m es m' vs k r r',
    answer (SNode q m es m' vs) r -> answer (SRun q m es (k r)) r' ->
    answer (SRun q m es (Call (OBase (BOp m')) vs k)) r'
| A_prompt : forall q m es q' k r r',
    answer (SExpr q' (EOp m es)) r -> answer (SRun q m es (k r)) r' ->
    answer (SRun q m es (Call (OPrompt q') [] k)) r'
| A_argsof : forall q m es q' d' k vs r',
    assoc intps q' = Some d' -> answer (SArgs q' es) (Ok (VTup vs)) -> answer (SRun q m es (k (Ok (VTup [VTup vs; VTup []])))) r' ->
    answer (SRun q m es (Call OArgsOf [VOp (OPrompt q')] k)) r'.

(** Every call inside [e] has a value in every analysis. *)
Fixpoint inside_ok (e : expr) : Prop :=
  match e with
  | ELit _ => True
  | EOp m es =>
      (fix all es := match es with
                     | [] => True
                     | e :: es' => (inside_ok e /\ forall q d, assoc intps q = Some d -> exists v, answer (SExpr q e) (Ok v)) /\ all es'
                     end) es
  end.

(** Every operation of [e] is handled by some component. *)
Fixpoint covered (e : expr) : Prop :=
  match e with
  | ELit _ => True
  | EOp m es =>
      (In (BOp m) (result_ops intps) \/ In BApply (result_ops intps)) /\
      (fix all es := match es with [] => True | e :: es' => covered e /\ all es' end) es
  end.

(** The calls that code of [q] may make: what [q] handles itself, or what no component does. *)
Definition supported (q m : nat) : Prop :=
  exists d, assoc intps q = Some d /\
    (find d (BOp m) <> None \/ find d BApply <> None \/
     (~ In (BOp m) (result_ops intps) /\ ~ In BApply (result_ops intps))).

(** Code of [q] making only such calls, and requests to other analyses. *)
Inductive tame (q : nat) : comp -> Prop :=
| T_ret : forall v, tame q (Ret v)
| T_raise : forall e, tame q (Raise e)
| T_call : forall m a k, supported q m -> (forall r, tame q (k r)) -> tame q (Call (OBase (BOp m)) a k)
| T_prompt : forall q' k, (forall r, tame q (k r)) -> tame q (Call (OPrompt q') [] k)
| T_argsof : forall q' k, ~ In BApply (result_ops intps) -> (forall r, tame q (k r)) -> tame q (Call OArgsOf [VOp (OPrompt q')] k).

Definition all_tame : Prop :=
  forall q d, assoc intps q = Some d ->
    (forall b f a, find d b = Some f -> tame q (f a)) /\
    (find d BApply = None -> forall m a, find d (BOp m) = None -> tame q (defs m a)).

(** With an [apply] handler the product passes copies of the operations: the values of [q] are
    compared up to the names of the copies made for [q]. *)
Inductive same_op (q : nat) : op -> op -> Prop :=
| O_refl : forall o, same_op q o o
| O_ren : forall b, same_op q (ORen q b) (OBase b).
Inductive same (q : nat) : value -> value -> Prop :=
| V_int : forall z, same q (VInt z) (VInt z)
| V_op : forall o o', same_op q o o' -> same q (VOp o) (VOp o')
| V_tup : forall l l', Forall2 (same q) l l' -> same q (VTup l) (VTup l')
| V_term : forall o o' l l', same_op q o o' -> Forall2 (same q) l l' -> same q (VTerm o l) (VTerm o' l').
Definition same_outcome (q : nat) (r r' : outcome) : Prop :=
  match r, r' with Ok v, Ok v' => same q v v' | Exn e, Exn e' => e = e' | _, _ => False end.

(** Code of [q] that cannot tell a copy from the original. *)
Inductive alike (q : nat) : comp -> comp -> Prop :=
| L_ret : forall v v', same q v v' -> alike q (Ret v) (Ret v')
| L_raise : forall e, alike q (Raise e) (Raise e)
| L_call : forall o m a a' k k', supported q m -> (o = OBase (BOp m) \/ (o = ORen q (BOp m) /\ In (BOp m) (result_ops intps))) ->
    Forall2 (same q) a a' -> (forall r r', same_outcome q r r' -> alike q (k r) (k' r')) ->
    alike q (Call o a k) (Call (OBase (BOp m)) a' k')
| L_prompt : forall q' k k', (forall r r', same_outcome q' r r' -> alike q (k r) (k' r')) ->
    alike q (Call (OPrompt q') [] k) (Call (OPrompt q') [] k').
Definition all_alike : Prop :=
  forall q d, assoc intps q = Some d ->
    (forall b f a a', find d b = Some f -> Forall2 (same q) a a' -> alike q (f a) (f a')) /\
    (find d BApply = None -> forall m a a', find d (BOp m) = None -> Forall2 (same q) a a' -> alike q (defs m a) (defs m a')).

(** No operation reaches an [apply] handler as a copy: who has an [apply] handler handles by
    name all that the others handle by name. *)
Definition no_copies : Prop :=
  forall q d m, assoc intps q = Some d -> In (BOp m) (result_ops intps) -> find d (BOp m) = None -> find d BApply = None.

(** No requests to other analyses. *)
Inductive no_prompts : comp -> Prop :=
| N_ret : forall v, no_prompts (Ret v)
| N_raise : forall e, no_prompts (Raise e)
| N_call : forall m a k, (forall r, no_prompts (k r)) -> no_prompts (Call (OBase (BOp m)) a k).
Definition all_no_prompts : Prop :=
  (forall q d b f a, assoc intps q = Some d -> find d b = Some f -> no_prompts (f a)) /\
  (forall m a, no_prompts (defs m a)).

(** Every call inside [e] has a value under every interpretation by itself. *)
Fixpoint inside_alone (e : expr) : Prop :=
  match e with
  | ELit _ => True
  | EOp m es =>
      (fix all es := match es with
                     | [] => True
                     | e :: es' => (inside_alone e /\ forall q d, assoc intps q = Some d ->
                                      exists n v, alone defs intps n d e = Some (Ok v)) /\ all es'
                     end) es
  end.
End Spec.
