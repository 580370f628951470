(** C42, C43, C51, C56: sessions and the restricted provider. *)
From Coq Require Import String List Bool Arith.
From Verif Require Import ReplModel ReplSpec ReplProofs.
Import ListNotations.
Local Open Scope string_scope.

(** C42. Under the unsafe provider the calls of a session run their code in one namespace, each
    going on from the bindings the one before left (also when it raised or exited), and each
    answers exactly what its own code printed, with its traceback. *)
Theorem C42_session_partial : forall l s rs s', exec_all false l s = (rs, s') ->
  scope s' = scope s /\
  dialogue (scope s) (space (mem (st s))) (map snd l) rs (space (mem (st s')) (scope s)).
Proof. exact session_unsafe. Qed.
Print Assumptions C42_session_partial.

(** C42. Under either provider a call answers exactly what its own code prints, whatever the
    session printed before. *)
Theorem C42_output : forall r src p s res s', scope s < next (mem (st s)) -> exec_code r src p s = (res, s') ->
  exists i sp evs after e, performs i sp p evs after e /\ res = reply evs e /\
    sp i = (if r then layered else with_builtins) (space (mem (st s)) (scope s)).
Proof. exact call_output. Qed.
Print Assumptions C42_output.

(** C42. A session starts with the bindings of the template's environment, and nothing it runs
    changes the maps that environment is made of. *)
Theorem C42_environment_kept : forall r maps h s maps' l rs s',
  (forall i, In i maps -> i < next h) -> start maps h = (s, maps') -> exec_all r l s = (rs, s') ->
  maps' = scope s :: maps /\ (forall i, In i maps -> space (mem (st s')) i = space h i) /\
  (forall k, chain_get (mem (st s)) maps' k = chain_get h maps k) /\
  (forall k, space (mem (st s)) (scope s) k = chain_get h maps k).
Proof. exact session_frame. Qed.
Print Assumptions C42_environment_kept.

(** C42. Under the unsafe provider a function one snippet defines sees what later snippets bind. *)
Theorem C42_late_binding : forall f x show src src' l s rs s1 res s2, x <> "__builtins__" ->
  (forall a p, In (a, p) l -> ~ touches f p) ->
  exec_all false ((src, PDef f x PDone) :: l) s = (rs, s1) ->
  exec_code false src' (PCall f (fun o => POut (show o) PDone)) s1 = (res, s2) ->
  res = Some (show (space (mem (st s1)) (scope s1) x)).
Proof. exact late_binding. Qed.
Print Assumptions C42_late_binding.

Definition show (o : option value) : string :=
  match o with Some (VAtom 1) => "1" | Some (VAtom 2) => "2" | Some _ => "?" | None => "NameError" end.
Definition empty : heap := Heap 1 (fun _ _ => None).
Definition fresh : session := fst (start [0] empty).
Definition binds_x : prog := PSet "x" (VAtom 1) (PDef "f" "x" (POut "a" PDone)).
Definition rebinds_x : prog := POut "b" (PSet "x" (VAtom 2) (PErr "c" (PRaise "tb"))).
Definition calls_f : prog := PCall "f" (fun o => POut (show o) PDone).

(** A snippet that prints, one that rebinds and raises, and a call of the function defined first. *)
Example C42_example :
  fst (exec_all false [("s1", binds_x); ("s2", rebinds_x); ("s3", calls_f)] fresh)
  = [Some "a"; Some "bctb"; Some "2"].
Proof. reflexivity. Qed.

(** Refuted for the restricted provider: the bindings of a snippet that raises are lost, ... *)
Theorem C42_raise_refuted : exists l p s rs s',
  exec_all true l s = (rs, s') /\ l = [("s1", PSet "x" (VAtom 1) (PRaise "tb"))] /\
  p = PGet "x" (fun o => POut (show o) PDone) /\
  fst (exec_code true "s2" p s') = Some "NameError" /\
  fst (exec_code false "s2" p (snd (exec_all false l s))) = Some "1".
Proof.
  exists [("s1", PSet "x" (VAtom 1) (PRaise "tb"))], (PGet "x" (fun o => POut (show o) PDone)), fresh.
  eexists. eexists. split; [apply surjective_pairing|]. split; [reflexivity|]. split; [reflexivity|].
  split; vm_compute; reflexivity.
Qed.
Print Assumptions C42_raise_refuted.

(** ... and a function does not see what a later snippet binds. *)
Theorem C42_late_binding_refuted : exists s rs s',
  exec_all true [("s1", binds_x); ("s2", PSet "x" (VAtom 2) PDone)] s = (rs, s') /\
  space (mem (st s')) (scope s') "x" = Some (VAtom 2) /\
  fst (exec_code true "s3" calls_f s') = Some "1".
Proof.
  exists fresh. eexists. eexists. split; [apply surjective_pairing|]. split; vm_compute; reflexivity.
Qed.
Print Assumptions C42_late_binding_refuted.

(** C43. After code ran to its end under the restricted provider, every name (other than the
    provider's own) that the code left bound has that value in the caller's environment; a name the
    code does not bind or delete keeps its entry, and no other namespace changes. Missing from the
    full statement: a name the code deletes stays. *)
Theorem C43_exact_partial : forall i p s s', i < next (mem s) -> exec_restricted i p s = (EndOk, s') ->
  exists sp evs after, performs (next (mem s)) sp p evs after EndOk /\
    (forall k, ~ In k reserved -> sp (next (mem s)) k = space (mem s) i k) /\
    (forall k v, ~ In k reserved -> after k = Some v -> space (mem s') i k = Some v) /\
    (forall k, ~ In k reserved -> after k = None -> space (mem s') i k = space (mem s) i k) /\
    (forall k, ~ touches k p -> space (mem s') i k = space (mem s) i k) /\
    (forall j, j < next (mem s) -> j <> i -> space (mem s') j = space (mem s) j).
Proof. exact restricted_exact. Qed.
Print Assumptions C43_exact_partial.

(** C43. Code that raises or exits changes no binding of the caller's environment. *)
Theorem C43_failed : forall i p s e s', i < next (mem s) -> exec_restricted i p s = (e, s') -> e <> EndOk ->
  forall j, j < next (mem s) -> space (mem s') j = space (mem s) j.
Proof. exact restricted_failed. Qed.
Print Assumptions C43_failed.

Definition seeded : state := State (Heap 1 (fun _ => upd (fun _ => None) "x" (Some (VAtom 1)))) "" "".
Example C43_example :
  let r := exec_restricted 0 (PSet "y" (VAtom 2) (PGet "x" (fun o => POut (show o) PDone))) seeded in
  fst r = EndOk /\ out (snd r) = "1" /\
  space (mem (snd r)) 0 "x" = Some (VAtom 1) /\ space (mem (snd r)) 0 "y" = Some (VAtom 2).
Proof. split; [|split; [|split]]; vm_compute; reflexivity. Qed.

(** Refuted: a deletion is not carried over, ... *)
Theorem C43_deletion_refuted : exists p s s' sp evs after,
  exec_restricted 0 p s = (EndOk, s') /\ performs 1 sp p evs after EndOk /\
  sp 1 "x" = space (mem s) 0 "x" /\ after "x" = None /\ space (mem s') 0 "x" = Some (VAtom 1).
Proof.
  exists (PDel "x" PDone), seeded, (snd (exec_restricted 0 (PDel "x" PDone) seeded)).
  exists (fun j => if Nat.eqb j 1 then layered (space (mem seeded) 0) else space (mem seeded) j), [].
  eexists. split; [apply surjective_pairing|]. split; [apply pf_del; apply pf_done|].
  split; [|split]; vm_compute; reflexivity.
Qed.
Print Assumptions C43_deletion_refuted.
(** ... bindings made before an exception are lost, although the unsafe provider keeps them, ... *)
Theorem C43_raise_refuted : exists p s s1 s2, p = PSet "y" (VAtom 2) (PRaise "tb") /\
  exec_restricted 0 p s = (EndRaise "tb", s1) /\ exec_unsafe 0 p s = (EndRaise "tb", s2) /\
  space (mem s1) 0 "y" = None /\ space (mem s2) 0 "y" = Some (VAtom 2).
Proof.
  exists (PSet "y" (VAtom 2) (PRaise "tb")), seeded. eexists. eexists. split; [reflexivity|].
  split; [apply surjective_pairing|]. split; [apply surjective_pairing|]. split; vm_compute; reflexivity.
Qed.
Print Assumptions C43_raise_refuted.
(** ... and the caller's own binding of a helper's name is not what the code reads. *)
Theorem C43_shadowed_refuted : exists s s', space (mem s) 0 "getattr" = Some (VAtom 1) /\
  exec_restricted 0 (PGet "getattr" (fun o => POut (show o) PDone)) s = (EndOk, s') /\ out s' = "?".
Proof.
  exists (State (Heap 1 (fun _ => upd (fun _ => None) "getattr" (Some (VAtom 1)))) "" "").
  eexists. split; [vm_compute; reflexivity|]. split; [apply surjective_pairing|]. vm_compute; reflexivity.
Qed.
Print Assumptions C43_shadowed_refuted.

(** C51. The recorded snippets of a session are the sources of all the calls, in order ... *)
Theorem C51_recorded_partial : forall r l s rs s', scope s < next (mem (st s)) -> exec_all r l s = (rs, s') ->
  prior s' = (prior s ++ map fst l)%list.
Proof. intros r l s rs s' Hs H. exact (proj1 (proj2 (exec_all_frame r l s rs s' Hs H))). Qed.
Print Assumptions C51_recorded_partial.
(** ... so that, against the documentation, they include the snippets that raised. *)
Theorem C51_failed_refuted : exists r p s rs s' sp evs after tb,
  exec_all r [("bad", p)] s = (rs, s') /\
  performs (scope s) sp p evs after (EndRaise tb) /\ In "bad" (prior s').
Proof.
  exists false, (PRaise "tb"), fresh. eexists. eexists. exists (fun _ _ => None). do 3 eexists.
  split; [apply surjective_pairing|]. split; [apply pf_raise|]. vm_compute. now left.
Qed.
Print Assumptions C51_failed_refuted.

(** C56. Under the restricted provider code starts with every guard in place whatever the environment
    binds, and however it ends the environment's own builtins are left alone. *)
Theorem C56_guards : forall i p s e s', i < next (mem s) -> exec_restricted i p s = (e, s') ->
  exists sp evs after, performs (next (mem s)) sp p evs after e /\ guarded (sp (next (mem s))) /\
    space (mem s') i "__builtins__" = space (mem s) i "__builtins__".
Proof. exact restricted_guarded. Qed.
Print Assumptions C56_guards.
(** C56. The same in a session, whatever the earlier snippets rebound or deleted. *)
Theorem C56_session : forall l s rs s1 src p res s2, scope s < next (mem (st s)) ->
  exec_all true l s = (rs, s1) -> exec_code true src p s1 = (res, s2) ->
  (exists i sp evs after e, performs i sp p evs after e /\ res = reply evs e /\ guarded (sp i)) /\
  space (mem (st s2)) (scope s) "__builtins__" = space (mem (st s)) (scope s) "__builtins__".
Proof. exact session_guarded. Qed.
Print Assumptions C56_session.
Definition is_lib (o : option value) : string := match o with Some (VLib s) => s | _ => "not guarded" end.
Example C56_example :
  fst (exec_all true
    [("s1", PSet "getattr" (VAtom 1) (PDel "_print_" (PSet "__builtins__" (VAtom 2) PDone)));
     ("s2", PGet "getattr" (fun a => PGet "_print_" (fun b => PGet "__builtins__" (fun c =>
              POut (is_lib a ++ ", " ++ is_lib b ++ ", " ++ is_lib c) PDone))))] fresh)
  = [Some ""; Some "safer_getattr, _StdoutPrintCollector, safe_builtins"].
Proof. vm_compute. reflexivity. Qed.
