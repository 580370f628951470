(** Property C76: the Python session of a template call is the call's own. *)
From Coq Require Import String List Bool Arith Lia.
From Verif Require Import RscModel RscSpec RscProofs RscOff.
Import ListNotations.
Local Open Scope string_scope.
Local Open Scope list_scope.

(** With [PythonRepl] installed around the provider, whatever happens in and between calls (requests, snippets, nested
    calls, other code binding names), what is observed is what sessions without shared dictionaries give: the first
    request of a call starts a session with what the call sees, snippets and later requests share it, the rest of the
    call sees its names, nested calls have their own. Afterwards the contexts of all templates are as before, and the
    namespaces outside have only what other code bound. Missing: [tools] listed outside of calls or before the first
    request. *)
Theorem C76_scoped_partial : forall V ctx n m es w, ready V ctx n m w -> wf_all V n m None es ->
  exists w', steps V Above es outside w = (fst (fst (means_all V ctx es None (spaces V w))), outside, w') /\
    (forall i k, i < n -> spaces V w' i k = snd (means_all V ctx es None (spaces V w)) i k) /\ (forall t, t < m -> chains V w' t = ctx t).
Proof. exact scoped. Qed.
Print Assumptions C76_scoped_partial.

(** Snippets bind nothing outside. *)
Theorem C76_untouched_partial : forall V ctx n m es w w' obs fr i k, ready V ctx n m w -> wf_all V n m None es -> i < n ->
  Forall (fun e => ~ assigns V i k e) es -> steps V Above es outside w = (obs, fr, w') -> spaces V w' i k = spaces V w i k.
Proof. exact untouched. Qed.
Print Assumptions C76_untouched_partial.

(** One module with [x = 1], and two templates that see it *)
Definition module_ : ns nat := fun k => if String.eqb k "x" then Some 1 else None.
Definition start : world nat := World nat 1 (fun _ => module_) 2 (fun _ => [0]) 0 (fun _ => None).
Definition sees_module : nat -> list nat := fun _ => [0].
Lemma start_ready : ready nat sees_module 1 2 start.
Proof. split; [cbn; lia|]. split; [cbn; lia|]. split; [reflexivity|]. intros t i _ [<-|[]]. lia. Qed.
Definition noargs : ns nat := fun _ => None.
(** [k = v], [del k], [print(k)] *)
Definition set_ (k : string) (v : nat) : snippet nat := fun s => (bind nat s k v, "").
Definition del_ (k : string) : snippet nat := fun s => ((fun x => if String.eqb x k then None else s x), "").
Definition print_ (k : string) : snippet nat := fun s => (s, match s k with Some 0 => "0" | Some 1 => "1" | Some 2 => "2" | Some 3 => "3" | Some _ => "many" | None => "NameError" end).
Lemma set_respects k v : respects nat (set_ k v).
Proof. intros s s' H. split; [reflexivity|]. intros x. cbn. unfold bind. destruct (String.eqb x k); [reflexivity|apply H]. Qed.
Lemma del_respects k : respects nat (del_ k).
Proof. intros s s' H. split; [reflexivity|]. intros x. cbn. destruct (String.eqb x k); [reflexivity|apply H]. Qed.
Lemma print_respects k : respects nat (print_ k).
Proof. intros s s' H. split; [cbn; now rewrite H|exact H]. Qed.

Ltac wfs := unfold wf_all; cbn [all_from wf after_ev];
  repeat match goal with
  | |- _ /\ _ => split
  | |- True => exact Logic.I
  | |- respects _ _ => first [apply set_respects | apply del_respects | apply print_respects]
  | |- Forall _ _ => constructor
  | |- _ < _ => lia
  | |- Some _ = Some _ => reflexivity
  end.

(** A call whose snippets rebind [x] and bind [y]; a nested call; another call afterwards *)
Definition script : list (ev nat) :=
  [Call nat 0 noargs [Round nat; Run nat (set_ "x" 2); Round nat; Run nat (set_ "y" 3); Run nat (print_ "x"); Look nat "x"; Look nat "y";
     Call nat 1 noargs [Round nat; Run nat (print_ "x"); Run nat (print_ "y"); Run nat (set_ "x" 0)]; Tools nat 1 [print_ "x"]; Look nat "x"];
   Call nat 0 noargs [Look nat "x"; Round nat; Run nat (print_ "y")]].
Example C76_scoped_example : ready nat sees_module 1 2 start /\ wf_all nat 1 2 None script /\
  fst (fst (steps nat Above script outside start)) =
    [Out nat ""; Out nat ""; Out nat "2"; Saw nat (Some 2); Saw nat (Some 3); Out nat "1"; Out nat "NameError"; Out nat ""; Out nat "2"; Saw nat (Some 2);
     Saw nat (Some 1); Out nat "NameError"] /\
  (forall e, In e script -> ~ assigns nat 0 "x" e).
Proof.
  split; [exact start_ready|]. split.
  - unfold script. wfs.
  - split; [reflexivity|]. intros e [<-|[<-|[]]]; cbn; tauto.
Qed.

(** Installing it changes nothing as long as no snippet is run and other code binds nothing. *)
Theorem C76_unused_partial : forall V ctx n m es w, ready V ctx n m w -> wf_all V n m None es -> Forall (quiet V) es ->
  fst (fst (steps V Above es outside w)) = fst (fst (steps V Off es outside w)).
Proof. exact unused_law. Qed.
Print Assumptions C76_unused_partial.

Example C76_unused_example : let es := [Call nat 0 noargs [Round nat; Look nat "x"; Call nat 1 noargs [Round nat; Look nat "x"]; Round nat; Look nat "y"]] in
  wf_all nat 1 2 None es /\ Forall (quiet nat) es /\ fst (fst (steps nat Above es outside start)) = [Saw nat (Some 1); Saw nat (Some 1); Saw nat None].
Proof. cbn zeta. split; [wfs|]. split; [repeat constructor|reflexivity]. Qed.

(** Without that: a call with [PythonRepl] installed, though no code is run, does not see what a tool binds after the
    first request. *)
Theorem C76_frozen_refuted : exists es, wf_all nat 1 2 None es /\ fst (fst (steps nat Off es outside start)) = [Saw nat (Some 2)] /\
  fst (fst (steps nat Above es outside start)) = [Saw nat (Some 1)].
Proof. exists [Call nat 0 noargs [Round nat; Assign nat 0 "x" 2; Round nat; Look nat "x"]]. split; [wfs|]. split; reflexivity. Qed.
Print Assumptions C76_frozen_refuted.

(** The rest of the call does not see the namespace of the session: a name it deleted is still there. *)
Theorem C76_deleted_refuted : exists es, wf_all nat 1 2 None es /\ fst (fst (steps nat Above es outside start)) = [Out nat ""; Out nat "NameError"; Saw nat (Some 1)].
Proof.
  exists [Call nat 0 noargs [Round nat; Run nat (del_ "x"); Run nat (print_ "x"); Look nat "x"]].
  split; [wfs|reflexivity].
Qed.
Print Assumptions C76_deleted_refuted.

(** Reading [template.tools] outside of a call puts a copy of all names into the template's context for good: later calls
    do not see what the module binds afterwards, and see what was bound by the [exec_code] listed. *)
Theorem C76_tools_refuted : exists es es', fst (fst (steps nat Off es outside start)) = [Saw nat (Some 2)] /\ fst (fst (steps nat Above es outside start)) = [Saw nat (Some 1)] /\
  (let '(obs, _, w) := steps nat Above es' outside start in obs = [Out nat ""; Saw nat (Some 3); Out nat "3"] /\ chains nat w 0 <> chains nat start 0).
Proof.
  exists [Tools nat 0 []; Assign nat 0 "x" 2; Call nat 0 noargs [Look nat "x"]], [Tools nat 0 [set_ "y" 3]; Call nat 0 noargs [Look nat "y"; Round nat; Run nat (print_ "y")]].
  split; [reflexivity|]. split; [reflexivity|]. cbn. split; [reflexivity|discriminate].
Qed.
Print Assumptions C76_tools_refuted.
(** Inside a call before its first request it makes the session with the other template's names, and the rest of the call
    does not see what the session binds. *)
Theorem C76_early_tools_refuted : exists es, fst (fst (steps nat Above es outside start)) = [Out nat ""; Saw nat (Some 1)] /\
  fst (fst (means_all nat sees_module es None (spaces nat start))) = [Out nat ""; Saw nat (Some 2)].
Proof. exists [Call nat 0 noargs [Tools nat 1 []; Round nat; Run nat (set_ "x" 2); Look nat "x"]]. split; reflexivity. Qed.
Print Assumptions C76_early_tools_refuted.

(** Installed inside the provider, each request makes a new session: names deleted come back. *)
Theorem C76_below_refuted : exists es, wf_all nat 1 2 None es /\ fst (fst (steps nat Above es outside start)) = [Out nat ""; Out nat ""; Out nat "NameError"] /\
  fst (fst (steps nat Below es outside start)) = [Out nat ""; Out nat ""; Out nat "3"].
Proof.
  exists [Call nat 0 noargs [Round nat; Run nat (set_ "y" 3); Round nat; Run nat (del_ "y"); Round nat; Run nat (print_ "y")]].
  split; [wfs|]. split; reflexivity.
Qed.
Print Assumptions C76_below_refuted.
