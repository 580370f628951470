(** C102: a reader says what is in the object its variable held when it was offered. *)
From Coq Require Import String List Bool Arith ZArith.
From Verif Require Import RdrModel RdrSpec RdrProofs.
Import ListNotations.
Open Scope string_scope.
Open Scope list_scope.

(** In any round of a template call, what a reader says is what is, after all code run
    until then, in the value that its variable had when the round began. *)
Theorem C102_says : forall limit s batches pre n post o j, NoDup (map fst (fst s)) ->
  nth_error (rounds limit s (batches ++ [pre ++ Read n :: post])) (length batches) = Some (Ran o) ->
  nth_error o (length pre) = Some (Said j) ->
  exists v, lookup n (fst (reached s (concat batches))) = Some v /\
    Contents (snd (reached s (concat batches ++ pre))) limit v j.
Proof. exact said_contents. Qed.
Print Assumptions C102_says.
(** two rounds; the second sees the assignment of the first and a change in place of its own *)
Example C102_says_example :
  rounds 10 ([("x", VRef 0); ("y", VInt 7)], [[VInt 1]])
    [[Read "x"; Exec [New [VStr "a"]; Rebind "x" (VRef 1)]; Read "x"];
     [Read "x"; Exec [Mutate 1 [VInt 3; VRef 0]]; Read "x"; Read "y"]] =
  [Ran [Said (JList [JInt 1]); Did; Said (JList [JInt 1])];
   Ran [Said (JList [JStr "a"]); Did; Said (JList [JInt 3; JList [JInt 1]]); Said (JInt 7)]].
Proof. reflexivity. Qed.

(** Whatever has contents that can be written is said, if the round comes that far. *)
Theorem C102_is_said : forall limit s batches pre n post o v j, NoDup (map fst (fst s)) ->
  nth_error (rounds limit s (batches ++ [pre ++ Read n :: post])) (length batches) = Some (Ran o) ->
  (length pre < length o)%nat ->
  lookup n (fst (reached s (concat batches))) = Some v ->
  Contents (snd (reached s (concat batches ++ pre))) limit v j ->
  nth_error o (length pre) = Some (Said j).
Proof. exact contents_said. Qed.
Print Assumptions C102_is_said.
Example C102_is_said_example :
  Contents [[VInt 1; VRef 1]; []] 3 (VRef 0) (JList [JInt 1; JList []]) /\
  rounds 3 ([("x", VRef 0)], [[VInt 1]; []]) ([] ++ [[Exec [Mutate 0 [VInt 1; VRef 1]]] ++ Read "x" :: []]) =
  [Ran [Did; Said (JList [JInt 1; JList []])]].
Proof.
  split; [|reflexivity]. eapply c_ref; [reflexivity|].
  constructor; [constructor | constructor; [|constructor]]. eapply c_ref; [reflexivity | constructor].
Qed.

(** Assignments in a round change no answer of that round. *)
Theorem C102_assignments : forall limit caps s l,
  fst (run limit caps s l) = fst (run limit caps s (no_assignments l)).
Proof. exact (fun limit caps s l => run_no_assignments limit caps l s s eq_refl). Qed.
Print Assumptions C102_assignments.
Example C102_assignments_example :
  no_assignments [Exec [Rebind "x" (VInt 2); Mutate 0 [VInt 5]]; Read "x"] = [Exec [Mutate 0 [VInt 5]]; Read "x"] /\
  fst (run 5 [("x", VRef 0)] ([("x", VRef 0)], [[]]) [Exec [Rebind "x" (VInt 2); Mutate 0 [VInt 5]]; Read "x"]) =
  [Did; Said (JList [JInt 5])].
Proof. split; reflexivity. Qed.

(** Reading changes nothing: a round without errors leaves what its code alone leaves, and
    answers every call. *)
Theorem C102_only_reads : forall limit caps s l o s', run limit caps s l = (o, s') -> ~ In Broke o ->
  s' = snd (run limit caps s (only_code l)) /\ length o = length l.
Proof.
  exact (fun limit caps s l o s' R N =>
    conj (eq_trans (proj1 (run_fine_state limit caps l s o s' R N)) (eq_sym (run_only_code limit caps l s)))
         (proj2 (run_fine_state limit caps l s o s' R N))).
Qed.
Print Assumptions C102_only_reads.
Example C102_only_reads_example :
  let l := [Read "x"; Exec [Mutate 0 [VStr "b"]]; Read "x"] in
  run 5 [("x", VRef 0)] ([("x", VRef 0)], [[]]) l =
    ([Said (JList []); Did; Said (JList [JStr "b"])], ([("x", VRef 0)], [[VStr "b"]])) /\
  only_code l = [Exec [Mutate 0 [VStr "b"]]].
Proof. split; reflexivity. Qed.

(** An error comes last. *)
Theorem C102_error_last : forall limit caps l s o s', run limit caps s l = (o, s') -> In Broke o ->
  exists o', o = o' ++ [Broke] /\ ~ In Broke o'.
Proof. exact run_short. Qed.
Print Assumptions C102_error_last.
Example C102_error_last_example :
  fst (run 5 [("x", VRef 0)] ([], [[]]) [Read "x"; Exec [Mutate 0 [VOpaque]]; Read "x"; Read "x"]) =
  [Said (JList []); Did; Broke].
Proof. reflexivity. Qed.

(** Every variable with contents that can be written is offered, with its own value. *)
Theorem C102_offered : forall limit h e caps n v j, offer limit h e = Some caps ->
  In (n, v) e -> Contents h limit v j -> In (n, v) caps.
Proof. exact offer_readable. Qed.
Print Assumptions C102_offered.
Theorem C102_offered_own : forall limit h e caps n v, offer limit h e = Some caps -> In (n, v) caps -> In (n, v) e.
Proof. exact offer_sub. Qed.
Print Assumptions C102_offered_own.
Example C102_offered_example :
  offer 5 [[VInt 1]; [VOpaque; VOpaque]] [("x", VRef 0); ("lock", VOpaque); ("locks", VRef 1); ("s", VStr "t")] =
  Some [("x", VRef 0); ("s", VStr "t")].
Proof. reflexivity. Qed.

(** Assignments, changes in place and new lists are what they say, for any variables and lists. *)
Theorem C102_acts : forall s,
  (forall n v, let s' := do_act s (Rebind n v) in
     lookup n (fst s') = Some v /\ (forall m, m <> n -> lookup m (fst s') = lookup m (fst s)) /\ snd s' = snd s) /\
  (forall r vs, (r < length (snd s))%nat -> let s' := do_act s (Mutate r vs) in
     nth_error (snd s') r = Some vs /\ (forall q, q <> r -> nth_error (snd s') q = nth_error (snd s) q) /\ fst s' = fst s) /\
  (forall vs, let s' := do_act s (New vs) in
     nth_error (snd s') (length (snd s)) = Some vs /\
     (forall q, q <> length (snd s) -> nth_error (snd s') q = nth_error (snd s) q) /\ fst s' = fst s).
Proof. exact acts_do. Qed.
Print Assumptions C102_acts.
Example C102_acts_example :
  fold_left do_act [New [VInt 2]; Rebind "y" (VRef 1); Mutate 0 [VRef 1]] ([("x", VRef 0)], [[]]) =
  ([("x", VRef 0); ("y", VRef 1)], [[VRef 1]; [VInt 2]]).
Proof. reflexivity. Qed.

(** Objects without a schema and lists of them alone are not offered. *)
Theorem C102_skips : forall limit h e caps n v, offer limit h e = Some caps -> In (n, v) caps -> ~ Locked h v.
Proof. exact locked_skipped. Qed.
Print Assumptions C102_skips.
Example C102_skips_example : Locked [[VOpaque; VOpaque]] (VRef 0) /\
  offer 5 [[VOpaque; VOpaque]] [("a", VRef 0); ("b", VOpaque); ("c", VInt 0)] = Some [("c", VInt 0)].
Proof. split; [apply l_list with (k := 1) (vs := [VOpaque; VOpaque]); reflexivity | reflexivity]. Qed.

(** No request is made just if some variable is nested too deep to be gone through. *)
Theorem C102_no_request : forall limit h e,
  offer limit h e = None <-> exists n v, In (n, v) e /\ ~ Shallow h limit v.
Proof. exact offer_none. Qed.
Print Assumptions C102_no_request.
Example C102_no_request_example : offer 2 [[VRef 1]; [VInt 1]] [("x", VInt 1); ("y", VRef 0)] = None /\
  offer 3 [[VRef 1]; [VInt 1]] [("x", VInt 1); ("y", VRef 0)] = Some [("x", VInt 1); ("y", VRef 0)].
Proof. split; reflexivity. Qed.

(** A call of a reader that is not offered is found before any tool of the round runs. *)
Theorem C102_undecodable : forall limit s l caps, offer limit (snd s) (fst s) = Some caps ->
  (fst (round limit s l) = Undecodable <-> exists n, In (Read n) l /\ ~ In n (map fst caps)) /\
  (fst (round limit s l) = Undecodable -> snd (round limit s l) = s).
Proof. exact round_undecodable. Qed.
Print Assumptions C102_undecodable.
Example C102_undecodable_example :
  round 5 ([("x", VInt 1); ("lock", VOpaque)], []) [Exec [Rebind "x" (VInt 2)]; Read "lock"] =
  (Undecodable, ([("x", VInt 1); ("lock", VOpaque)], [])).
Proof. reflexivity. Qed.

(** A round that fails is the last, and if none fails all take place. *)
Theorem C102_stops : forall limit ls s k r, nth_error (rounds limit s ls) k = Some r ->
  r = NoRequest \/ r = Undecodable \/ (exists o, r = Ran o /\ In Broke o) ->
  length (rounds limit s ls) = S k.
Proof. exact rounds_stop. Qed.
Print Assumptions C102_stops.
Theorem C102_all_rounds : forall limit ls s,
  (forall r, In r (rounds limit s ls) -> exists o, r = Ran o /\ ~ In Broke o) ->
  length (rounds limit s ls) = length ls.
Proof. exact rounds_all. Qed.
Print Assumptions C102_all_rounds.
Example C102_stops_example :
  rounds 5 ([("x", VRef 0)], [[]]) [[Read "x"]; [Exec [Mutate 0 [VRef 0]]]; [Read "x"]; [Read "x"]] =
  [Ran [Said (JList [])]; Ran [Did]; NoRequest].
Proof. reflexivity. Qed.

(** The description of a reader says it "returns the current value": after an assignment
    by a call before it in the same round it does not. *)
Theorem C102_current_refuted : exists limit s pre n o j v,
  rounds limit s [pre ++ [Read n]] = [Ran o] /\ nth_error o (length pre) = Some (Said j) /\
  lookup n (fst (reached s pre)) = Some v /\ ~ Contents (snd (reached s pre)) limit v j.
Proof.
  exists 5, ([("x", VInt 1)], []), [Exec [Rebind "x" (VInt 2)]], "x", [Did; Said (JInt 1)], (JInt 1), (VInt 2).
  repeat split. intros C. inversion C.
Qed.
Print Assumptions C102_current_refuted.

(** A variable can be offered though reading it breaks the template call: a list of
    elements of different types, one without an encoding. *)
Theorem C102_readable_refuted : exists limit h e caps n,
  offer limit h e = Some caps /\ In n (map fst caps) /\ rounds limit (e, h) [[Read n]] = [Ran [Broke]].
Proof.
  exists 5, [[VInt 1; VOpaque]], [("x", VRef 0)], [("x", VRef 0)], "x".
  repeat split. left. reflexivity.
Qed.
Print Assumptions C102_readable_refuted.

(** A variable that could be read can stop being so in the round it is offered in, and
    then the template call breaks. *)
Theorem C102_stays_readable_refuted : exists limit s n acts j,
  rounds limit s [[Read n; Exec acts; Read n]] = [Ran [Said j; Did; Broke]].
Proof. exists 5, ([("x", VRef 0)], [[VInt 1]]), "x", [Mutate 0 [VOpaque]], (JList [JInt 1]). reflexivity. Qed.
Print Assumptions C102_stays_readable_refuted.

(** "schema-generation failures cause the symbol to be skipped": a list that contains
    itself is not skipped; under any limit no request can be made at all. *)
Theorem C102_skipped_refuted : exists h e n v, In (n, v) e /\
  forall limit others ls, offer limit h (others ++ e) = None /\
    rounds limit (others ++ e, h) (ls :: nil) = [NoRequest].
Proof.
  exists [[VRef 0]], [("x", VRef 0)], "x", (VRef 0). split; [left; reflexivity|].
  exact (fun limit others ls => conj (cycle_offer _ limit others) (cycle_round _ limit others ls)).
Qed.
Print Assumptions C102_skipped_refuted.
