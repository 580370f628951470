(** C79: the docs' beam search. *)
From Coq Require Import List Bool Arith ZArith Lia Permutation.
Import ListNotations.
From Verif Require Import BeamModel BeamSpec BeamProofs.
Open Scope Z_scope.

(** Examples choose by a number that counts up *)
Definition nth_pick (cs : list Z) (g : nat) : Z * nat := (nth (g mod length cs) cs 0, S g).
Lemma nth_picks : picks nth_pick.
Proof. intros cs g N. cbn [nth_pick fst]. apply nth_In. apply Nat.mod_upper_bound. destruct cs; [congruence | discriminate]. Qed.
(** As in the docs, with smaller choices; and one with logarithms of probabilities *)
Definition rising : prog Z Z := Choose [1; 2; 3] (fun x => Score x (Choose [1; 2] (fun y => Score y (Ret (x + y))))).
Definition falling : prog Z Z := Choose [-1; -2] (fun x => Score x (Choose [-3; -4] (fun y => Score y (Ret (x + y))))).
Ltac prefixes := repeat match goal with
  | H : prefix (Ret _) _ _ _ |- _ => inversion H; subst; clear H
  | H : prefix (Choose _ _) _ _ _ |- _ => inversion H; subst; clear H
  | H : prefix (Score _ _) _ _ _ |- _ => inversion H; subst; clear H
  | H : In _ (_ :: _) |- _ => destruct H as [<- | H]
  | H : In _ [] |- _ => contradiction
  end.
Lemma rising_rises : rises rising /\ offers rising.
Proof.
  split; [split; [|split]|].
  - intros a z P. unfold rising in P. prefixes.
  - intros x z st P. unfold rising in P. prefixes; lia.
  - unfold rising. intros t x z z' st P. prefixes; intros Q; cbn [app] in Q; prefixes; lia.
  - constructor; [discriminate|]. intros x _. constructor. constructor; [discriminate|]. intros y _. repeat constructor.
Qed.
Lemma falling_never : never_positive falling.
Proof. intros t z st P. unfold falling in P. prefixes; lia. Qed.
Definition run_sorted := search (A:=Z) nth_pick (spush Z Z) (spushpop Z Z).

(** What a search returns: real runs of the program, complete, at most as many as asked for, and none of the candidates made
    on the way scored more than one of those returned. For every [heapq] and every [random]. *)
Theorem C79_found : forall (T A G : Type) (pick : list T -> G -> T * G), picks pick -> forall ok push pushpop, heaps ok push pushpop ->
  forall (p : prog T A) fuel w g beam seen, (1 <= w)%nat -> search pick push pushpop fuel w p g = Found beam seen ->
  Forall (fun c => c = root \/ real p c) seen /\
  (length beam <= w)%nat /\ Forall (fun c => in_progress c = false /\ real p c) beam /\
  exists dropped, Permutation seen (beam ++ dropped) /\ (forall d b, In d dropped -> In b beam -> score d <= score b) /\ (dropped <> [] -> length beam = w).
Proof. exact search_found. Qed.
Print Assumptions C79_found.
Example C79_found_example : picks nth_pick /\ heaps (sorted Z Z) (spush Z Z) (spushpop Z Z) /\
  exists beam seen, run_sorted 5 2 rising 0%nat = Found beam seen /\ map score beam = [4; 4] /\ length seen = 7%nat.
Proof. split; [exact nth_picks|]. split; [apply sorted_heaps|]. do 2 eexists. vm_compute. split; [reflexivity|]. split; reflexivity. Qed.

(** If every choice raises the score, the search ends, whatever is chosen. Missing: programs whose score may fall. *)
Theorem C79_ends_partial : forall (T A G : Type) (pick : list T -> G -> T * G), picks pick -> forall ok push pushpop, heaps ok push pushpop ->
  forall (p : prog T A) w, (1 <= w)%nat -> rises p -> offers p -> exists F, forall fuel g, (F <= fuel)%nat -> exists beam seen, search pick push pushpop fuel w p g = Found beam seen.
Proof. exact search_ends. Qed.
Print Assumptions C79_ends_partial.
Example C79_ends_partial_example : rises rising /\ offers rising.
Proof. exact rising_rises. Qed.

(** If no score is above 0, as with logarithms of probabilities, the search never returns, whatever is chosen *)
Theorem C79_never_refuted : forall (T A G : Type) (pick : list T -> G -> T * G), picks pick -> forall ok push pushpop, heaps ok push pushpop ->
  forall (p : prog T A) fuel w g beam seen, (1 <= w)%nat -> never_positive p -> search pick push pushpop fuel w p g <> Found beam seen.
Proof. exact search_never. Qed.
Print Assumptions C79_never_refuted.
(** It goes on for ever, unless some choice is empty *)
Theorem C79_running : forall (T A G : Type) (pick : list T -> G -> T * G), picks pick -> forall ok push pushpop, heaps ok push pushpop ->
  forall (p : prog T A) w, (1 <= w)%nat -> never_positive p -> offers p -> forall fuel g, search pick push pushpop fuel w p g = OutOfFuel.
Proof. exact search_running. Qed.
Print Assumptions C79_running.
Example C79_running_example : never_positive falling /\ offers falling.
Proof.
  split; [exact falling_never|]. unfold falling. constructor; [discriminate|]. intros x _. constructor. constructor; [discriminate|]. intros y _. repeat constructor.
Qed.
Example C79_never_example : never_positive falling /\ exists z st, prefix falling [([-1; -2], -1); ([-3; -4], -3)] z (Done st).
Proof.
  split; [exact falling_never|]. exists (-1 + (-3 + 0)), (-4). unfold falling. constructor; [cbn; auto|]. constructor. constructor; [cbn; auto|]. constructor. constructor.
Qed.

(** A width of 0 returns the start, unfinished, without running the program *)
Theorem C79_zero_refuted : forall (T A G : Type) (pick : list T -> G -> T * G) push pushpop (p : prog T A) fuel g, (1 <= fuel)%nat ->
  exists c, search pick push pushpop fuel 0 p g = Found [c] [c] /\ in_progress c = true /\ result c = None.
Proof. intros T A G pick push pushpop p fuel g L. exists root. split; [apply search_zero; exact L | split; reflexivity]. Qed.
Print Assumptions C79_zero_refuted.

(** A continuation is resumed several times, but not with different values: one run can fill the beam *)
Theorem C79_different_refuted : exists (pick : list Z -> unit -> Z * unit) (p : prog Z Z) beam seen c,
  picks pick /\ offers p /\ rises p /\ search pick (spush Z Z) (spushpop Z Z) 3 2 p tt = Found beam seen /\ beam = [c; c] /\
  exists c', real p c' /\ in_progress c' = false /\ score c < score c'.
Proof.
  exists (fun cs g => (hd 0 cs, g)), (Choose [1; 2] (fun x => Score x (Ret x))).
  do 2 eexists. exists (mkc [([1; 2], 1)] 1 false (Some 1)). split; [|split; [|split; [|split; [|split]]]].
  - intros cs g N. destruct cs; [congruence | left; reflexivity].
  - constructor; [discriminate|]. intros x _. repeat constructor.
  - split; [|split].
    + intros a z P. prefixes.
    + intros x z st P. prefixes; lia.
    + intros t x z z' st P. prefixes; intros Q; cbn [app] in Q; prefixes; lia.
  - vm_compute. reflexivity.
  - reflexivity.
  - exists (mkc [([1; 2], 2)] (2 + 0) false (Some 2)). split; [|split; [reflexivity | reflexivity]]. exists (Done 2). split; [|split; reflexivity].
    cbn [trace score]. constructor; [cbn; auto|]. constructor. constructor.
Qed.
Print Assumptions C79_different_refuted.
