(** C97: code a model writes is kept as written: it comes back from its encoding, and what is accepted can stand in a function body. *)
From Coq Require Import List Bool Arith Lia.
From Verif Require Import SnpModel SnpSpec SnpProofs.
Import ListNotations.

(** The code object decoded from a source encodes to that source, whatever else is decoded, read or checked in between. *)
Theorem C97_source :
  forall breaks restricted tree checked disk s st c st' es, fair st -> decode breaks restricted tree checked (VStr s) st = (Ok c, st') -> ~ In EClear es ->
  encode disk c (fold_left (fun st e => after breaks restricted tree checked disk e st) es st') = s.
Proof. exact source_back. Qed.
Print Assumptions C97_source.
(** Decoded again it is the same code, under another name. *)
Theorem C97_again :
  forall breaks restricted tree checked disk s st c st' es, fair st -> decode breaks restricted tree checked (VStr s) st = (Ok c, st') -> ~ In EClear es ->
  let st2 := fold_left (fun st e => after breaks restricted tree checked disk e st) es st' in
  exists f g body, c = Code f body /\ fst (decode breaks restricted tree checked (VStr (encode disk c st2)) st2) = Ok (Code g body) /\ f <> g.
Proof. exact decoded_again. Qed.
Print Assumptions C97_again.
(** The states in question are those that are met, from the empty cache on. *)
Theorem C97_fair :
  fair (mkstate [] 0) /\ forall breaks restricted tree checked disk e st, fair st -> fair (after breaks restricted tree checked disk e st).
Proof. split; [intros n e []|exact fair_after]. Qed.
Print Assumptions C97_fair.
(** Lines and back, carriage returns included *)
Theorem C97_lines : forall breaks s, concat (splitlines breaks s) = s.
Proof. exact joined. Qed.
Print Assumptions C97_lines.

(** What decoding a source gives: its statements under a new name, all checks passed; a ValueError for what does not parse or for its
    imports; a TypeError for what does not type-check *)
Theorem C97_decides :
  forall breaks restricted tree checked s st, match fst (decode breaks restricted tree checked (VStr s) st) with
  | Ok (Code f body) => tree s = Some body /\ checked s = true /\ (fair st -> forall e, ~ In (f, e) (cache st)) /\
      forall b k fu sr, imports body b k fu sr -> fu = false /\ (sr = true -> restricted = false /\ k = 0 /\ 0 < b)
  | ValueErr => tree s = None \/ exists body, tree s = Some body /\ ~ nestable body
  | TypeErr => checked s = false
  end.
Proof. exact decides. Qed.
Print Assumptions C97_decides.

(** What can stand in a function body is not refused for its imports. *)
Theorem C97_nestable : forall restricted body, nestable body -> scan body = true /\ compiles restricted body = true.
Proof. exact nestable_accepted. Qed.
Print Assumptions C97_nestable.
(** What is accepted has no future imports, and star imports in blocks only. *)
Theorem C97_accepted :
  forall restricted body, scan body = true -> compiles restricted body = true ->
  forall b k f s, imports body b k f s -> f = false /\ (s = true -> restricted = false /\ k = 0 /\ 0 < b).
Proof. exact accepted_imports. Qed.
Print Assumptions C97_accepted.
(** With RestrictedPython it can stand in a function body. *)
Theorem C97_restricted : forall body, scan body = true -> compiles true body = true -> nestable body.
Proof. exact restricted_nestable. Qed.
Print Assumptions C97_restricted.

(** Sources are their statements' kinds: 1 a star import, 2 a star import in a block, other characters other statements *)
Definition trees (s : list nat) : option (list stmt) :=
  Some (map (fun c => match c with 1 => SFrom false true | 2 => SBlock [SOther; SFrom false true] | _ => SOther end) s).
Definition nl (c : nat) : bool := (c =? 10) || (c =? 13).
Definition src : list nat := [97; 13; 10; 98; 13; 99; 10].
Example C97_example :
  splitlines nl src = [[97; 13; 10]; [98; 13]; [99; 10]] /\
  exists c st', decode nl false trees (fun _ => true) (VStr src) (mkstate [] 0) = (Ok c, st') /\ fair (mkstate [] 0) /\
    encode (fun _ => []) c (fold_left (fun st e => after nl false trees (fun _ => true) (fun _ => []) e st) [EDecode (VStr [98]); ERead 3; ECheck] st') = src /\
    fst (decode nl false trees (fun _ => true) (VStr [1]) st') = ValueErr.
Proof. split; [reflexivity|]. do 2 eexists. split; [reflexivity|]. split; [intros n e []|]. split; reflexivity. Qed.

(** *** What differs *)
(** A star import inside an [if] is accepted, though it cannot stand in a function body. *)
Theorem C97_star_refuted : exists s c st', decode nl false trees (fun _ => true) (VStr s) (mkstate [] 0) = (Ok c, st') /\ match c with Code _ body => ~ nestable body end.
Proof.
  exists [2]. do 2 eexists. split; [reflexivity|]. intros H. destruct (H 1 0 false true) as [_ F]; [|discriminate F].
  eexists. split; [left; reflexivity|]. apply at_block with (x := SFrom false true); [right; left; reflexivity|constructor].
Qed.
Print Assumptions C97_star_refuted.
(** The source is lost when the cache is cleared. *)
Theorem C97_cleared_refuted : exists s c st', decode nl false trees (fun _ => true) (VStr s) (mkstate [] 0) = (Ok c, st') /\
  encode (fun _ => []) c (after nl false trees (fun _ => true) (fun _ => []) EClear st') <> s.
Proof. exists src. do 2 eexists. split; [reflexivity|]. discriminate. Qed.
Print Assumptions C97_cleared_refuted.
(** A code object that was not decoded is accepted, but its source is lost: it comes back as no code at all. *)
Theorem C97_foreign_refuted : exists c st, fst (decode nl false trees (fun _ => true) (VCode c) st) = Ok c /\ encode (fun _ => []) c st = [] /\
  forall f body, c = Code f body -> exists g, fst (decode nl false trees (fun _ => true) (VStr (encode (fun _ => []) c st)) st) = Ok (Code g []) /\ body <> [].
Proof.
  exists (Code (File 4) [SOther]), (mkstate [] 0). split; [reflexivity|]. split; [reflexivity|]. intros f body H. injection H as <- <-. eexists. split; [reflexivity|discriminate].
Qed.
Print Assumptions C97_foreign_refuted.
