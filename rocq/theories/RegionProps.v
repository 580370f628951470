(** C41, C52: which errors are attributed to spliced code. *)
From Coq Require Import String List Bool Arith ZArith.
From Verif Require Import JsonModel RegionModel RegionSpec RegionProofs.
Import ListNotations.

(** C41. The errors reported are exactly the printed diagnostics of severity "error" whose line is
    within the bounds that are given, in the order printed. *)
Theorem C41_exact : forall loads blank lines lo hi errs, region_errors loads blank lines lo hi = Some errs ->
  exists ds, printed loads blank lines ds /\ selects (region_error lo hi) ds errs.
Proof. exact region_exact. Qed.
Print Assumptions C41_exact.

(** C41. Output made of diagnostics with a severity and a line number is always read. *)
Theorem C41_total : forall loads blank lines ds lo hi, printed loads blank lines ds -> Forall diagnostic ds ->
  exists errs, region_errors loads blank lines lo hi = Some errs.
Proof. exact region_total. Qed.
Print Assumptions C41_total.

(** C41. When the checker ran, the code passes exactly if none of its diagnostics is an error in the
    region; otherwise [TypeError] carries all of these and nothing else. *)
Theorem C41_verdict : forall loads blank status lines ds lo hi,
  (status < 2)%Z -> printed loads blank lines ds -> Forall diagnostic ds ->
  (check_region loads blank status lines lo hi = VPass <-> Forall (fun d => ~ region_error lo hi d) ds) /\
  (forall errs, check_region loads blank status lines lo hi = VTypeError errs <->
     errs <> [] /\ selects (region_error lo hi) ds errs).
Proof. exact verdict_exact. Qed.
Print Assumptions C41_verdict.

Definition diag (sev : string) (n : Z) : json := JObj [("line"%string, JInt n); ("severity"%string, JStr sev)].
Definition toy_loads (s : string) : option json :=
  if String.eqb s "e3" then Some (diag "error" 3) else
  if String.eqb s "n3" then Some (diag "note" 3) else
  if String.eqb s "e9" then Some (diag "error" 9) else None.
Example C41_example :
  let blank := String.eqb "" in
  let out := ["e9"; ""; "n3"; "e3"]%string in
  printed toy_loads blank out [diag "error" 9; diag "note" 3; diag "error" 3] /\
  Forall diagnostic [diag "error" 9; diag "note" 3; diag "error" 3] /\
  check_region toy_loads blank 1 out (Some 2%Z) (Some 5%Z) = VTypeError [diag "error" 3] /\
  check_region toy_loads blank 1 out (Some 4%Z) (Some 8%Z) = VPass.
Proof.
  cbv zeta. repeat split.
  - apply pr_diag; [reflexivity|reflexivity|]. apply pr_blank; [reflexivity|]. apply pr_diag; [reflexivity|reflexivity|].
    apply pr_diag; [reflexivity|reflexivity|]. apply pr_nil.
  - repeat constructor; (eexists; eexists; split; eexists; split; reflexivity).
Qed.

(** C52. A line of the checked source that belongs to some node is in the region [splice_into_source]
    gives exactly if it belongs to the generated code (with the added [return]), except that the
    decorator lines of the first generated statement are left out. *)
Theorem C52_source_partial : forall m n generated lo hi m', splice_into_source (Some m) n generated = Spliced lo hi m' ->
  exists p, find_def m n = Some p /\ m' = set_body m p (generated ++ [return_stmt]) /\
  forall i ln q, nth_error (source m') i = Some ln -> belongs ln q ->
    (lo <= S i <= hi <-> in_body p 0 q /\ ln <> Deco (p ++ [0])).
Proof. exact splice_source_lines. Qed.
Print Assumptions C52_source_partial.

(** C52. The same for the current snippet of a session: the lines of earlier snippets, of the
    template's header and of the rest of the module are out. *)
Theorem C52_repl_partial : forall m n prior snippet lo hi m', splice_repl (Some m) n prior snippet = Spliced lo hi m' ->
  exists p, find_def m n = Some p /\ m' = set_body m p (concat prior ++ snippet) /\
  forall i ln q, nth_error (source m') i = Some ln -> belongs ln q ->
    (lo <= S i <= hi <-> in_body p (length (concat prior)) q /\ ln <> Deco (p ++ [length (concat prior)])).
Proof. exact splice_repl_lines. Qed.
Print Assumptions C52_repl_partial.

(** C52. Once the template's definition is found, splicing succeeds. *)
Theorem C52_defined : forall m n p generated last prior snippet, find_def m n = Some p ->
  is_def (label last) = true -> snippet <> [] ->
  (exists lo hi m', splice_into_source (Some m) n (generated ++ [last]) = Spliced lo hi m') /\
  (exists lo hi m', splice_repl (Some m) n prior snippet = Spliced lo hi m').
Proof. exact splice_defined. Qed.
Print Assumptions C52_defined.

(** C52. The definition that is spliced into is one that starts at the template's line; if there is just one,
    that one; and there is none exactly if no definition starts there. *)
Theorem C52_template : forall m n,
  (forall p, find_def m n = Some p -> exists s, subnode m p = Some s /\ is_def (label s) = true /\ first (label s) = n) /\
  (forall p s, subnode m p = Some s -> is_def (label s) = true -> first (label s) = n ->
     (forall q u, subnode m q = Some u -> is_def (label u) = true -> first (label u) = n -> q = p) -> find_def m n = Some p) /\
  ((forall p s, subnode m p = Some s -> is_def (label s) = true -> first (label s) <> n) -> find_def m n = None).
Proof. exact (fun m n => conj (find_def_spec m n) (conj (find_def_only m n) (find_def_none m n))). Qed.
Print Assumptions C52_template.

(** A module: an import; a class with a decorated template (defined at line 4); a function. *)
Definition stmt : node := Node (Info false 0 0 0 1) [].
Definition def_ (n d : nat) : node := Node (Info true n 1 d 1) [stmt].
Definition module : node := Node (Info false 0 0 0 0) [stmt; Node (Info false 0 1 0 1) [def_ 4 1; stmt]; def_ 9 0].
Example C52_example : exists m',
  splice_into_source (Some module) 4 [stmt; def_ 1 1] = Spliced 7 12 m' /\
  source m' = [Own [0]; Blank; Own [1]; Blank; Deco [1; 0]; Own [1; 0];
               Own [1; 0; 0]; Blank; Deco [1; 0; 1]; Own [1; 0; 1]; Own [1; 0; 1; 0]; Own [1; 0; 2];
               Own [1; 1]; Blank; Own [2]; Own [2; 0]].
Proof. eexists. split; reflexivity. Qed.
Example C52_template_example : find_def module 4 = Some [1; 0] /\ find_def module 9 = Some [2] /\ find_def module 5 = None.
Proof. repeat split. Qed.
Example C52_repl_example : exists m', splice_repl (Some module) 4 [[stmt]; [stmt; stmt]] [stmt; stmt] = Spliced 10 11 m'.
Proof. eexists. reflexivity. Qed.

(** Refuted: an error on the decorator of the first generated statement is not attributed to it. *)
Theorem C52_decorator_refuted : exists m n generated lo hi m' p i q,
  splice_into_source (Some m) n generated = Spliced lo hi m' /\ find_def m n = Some p /\
  nth_error (source m') i = Some (Deco q) /\ in_body p 0 q /\ ~ (lo <= S i <= hi).
Proof.
  exists module, 4, [def_ 1 1], 9, 11. eexists. exists [1; 0], 7, [1; 0; 0].
  split; [reflexivity|]. split; [reflexivity|]. split; [reflexivity|]. split; [exists 0, []; split; [reflexivity|apply le_n]|].
  intros [H _]. apply (Nat.nle_succ_diag_l 8 H).
Qed.
Print Assumptions C52_decorator_refuted.
