(** Model of the docs' beam search (docs/source/beam.py 17-129). A program is a tree of calls of [choose] and [score]; a
    program that chooses by other means, or catches [Suspend], is outside. Scores are integers instead of floats. [heapq] is
    represented by any pair of functions with the behaviour its documentation promises (BeamSpec). *)
From Coq Require Import List Bool Arith ZArith.
Import ListNotations.

Section Beam.
(** What is chosen, results, the state of [random] *)
Variables T A G : Type.
(** [random.choice] of a list that is not empty *)
Variable pick : list T -> G -> T * G.

Inductive prog := Ret (a : A) | Choose (cs : list T) (k : T -> prog) | Score (z : Z) (k : prog).

(** [BeamCandidate] (79-89) *)
Record cand := mkc { trace : list (list T * T); score : Z; in_progress : bool; result : option A }.
(** [__lt__] (88-89) *)
Definition less (a b : cand) : bool := Z.ltb (score a) (score b).

(** The handlers of one expansion: the step of [ReplayIntp] (32-43), the trace of [TraceIntp] (46-54), the score of
    [ScoreIntp] (57-63), [is_first_call] of [ChooseOnceIntp] (66-76); and the random state *)
Record hst := mkh { step : nat; first : bool; tr : list (list T * T); sc : Z; rng : G }.
Inductive answer := Value (x : T) (h : hst) | Suspended (h : hst) | IndexErr.
(** The default of [choose] (17-21) *)
Definition default_choose (cs : list T) (h : hst) : answer :=
  match cs with
  | [] => IndexErr
  | _ => let (x, g) := pick cs (rng h) in Value x (mkh (step h) (first h) (tr h) (sc h) g)
  end.
(** (70-76) *)
Definition once_choose (cs : list T) (h : hst) : answer :=
  if negb (first h) then Suspended h else default_choose cs (mkh (step h) false (tr h) (sc h) (rng h)).
(** (37-43) *)
Definition replay_choose (script : list (list T * T)) (cs : list T) (h : hst) : answer :=
  match nth_error script (step h) with
  | Some p => Value (snd p) (mkh (step h + 1) (first h) (tr h) (sc h) (rng h))
  | None => once_choose cs h
  end.
(** (50-54) *)
Definition trace_choose (script : list (list T * T)) (cs : list T) (h : hst) : answer :=
  match replay_choose script cs h with
  | Value x h' => Value x (mkh (step h') (first h') (tr h' ++ [(cs, x)]) (sc h') (rng h'))
  | o => o
  end.
(** The program under the handlers; [Suspend] and [IndexError] leave it *)
Inductive ended := Returns (a : A) (h : hst) | Suspends (h : hst) | Fails.
Fixpoint model (script : list (list T * T)) (p : prog) (h : hst) : ended :=
  match p with
  | Ret a => Returns a h
  | Score z k => model script k (mkh (step h) (first h) (tr h) (sc h + z)%Z (rng h))
  | Choose cs k => match trace_choose script cs h with
                   | Value x h' => model script (k x) h'
                   | Suspended h' => Suspends h'
                   | IndexErr => Fails
                   end
  end.
(** [BeamCandidate.expand] (91-107) *)
Definition expand (p : prog) (c : cand) (g : G) : option (cand * G) :=
  match model (trace c) p (mkh 0 true [] 0%Z g) with
  | Returns a h => Some (mkc (tr h) (sc h) false (Some a), rng h)
  | Suspends h => Some (mkc (tr h) (sc h) true None, rng h)
  | Fails => None
  end.

(** [heapq.heappush] and [heapq.heappushpop] (the list afterwards) *)
Variable push : list cand -> cand -> list cand.
Variable pushpop : list cand -> cand -> list cand.

(** The list of new candidates (122) *)
Fixpoint expand_all (p : prog) (cs : list cand) (g : G) : option (list cand * G) :=
  match cs with
  | [] => Some ([], g)
  | c :: cs' => match expand p c g with
                | None => None
                | Some (n, g1) => match expand_all p cs' g1 with None => None | Some (ns, g2) => Some (n :: ns, g2) end
                end
  end.
(** (124-127) *)
Definition insert (w : nat) (beam : list cand) (c : cand) : list cand := if w <=? length beam then pushpop beam c else push beam c.
(** [beam_search] (110-129), [w] being [beam_width]. [seen] collects all candidates ever made; the code does not keep it. *)
Inductive found := Found (beam : list cand) (seen : list cand) | Error | OutOfFuel.
Definition root : cand := mkc [] 0%Z true None.
Fixpoint loop (fuel : nat) (w : nat) (p : prog) (beam : list cand) (g : G) (seen : list cand) : found :=
  match fuel with
  | 0 => OutOfFuel
  | S fuel =>
      match concat (repeat (filter in_progress beam) w) with
      | [] => Found beam seen
      | expandable => match expand_all p expandable g with
                      | None => Error
                      | Some (new, g') => loop fuel w p (fold_left (insert w) new beam) g' (seen ++ new)
                      end
      end
  end.
Definition search (fuel w : nat) (p : prog) (g : G) : found := loop fuel w p [root] g [root].
End Beam.

Arguments Ret {T A} a.
Arguments Choose {T A} cs k.
Arguments Score {T A} z k.
Arguments mkc {T A} trace score in_progress result.
Arguments trace {T A} c.
Arguments score {T A} c.
Arguments in_progress {T A} c.
Arguments result {T A} c.
Arguments less {T A} a b.
Arguments mkh {T G} step first tr sc rng.
Arguments step {T G} h.
Arguments first {T G} h.
Arguments tr {T G} h.
Arguments sc {T G} h.
Arguments rng {T G} h.
Arguments Returns {T A G} a h.
Arguments Suspends {T A G} h.
Arguments Fails {T A G}.
Arguments trace_choose {T G} pick script cs h.
Arguments model {T A G} pick script p h.
Arguments expand {T A G} pick p c g.
Arguments expand_all {T A G} pick p cs g.
Arguments insert {T A} push pushpop w beam c.
Arguments Found {T A} beam seen.
Arguments Error {T A}.
Arguments OutOfFuel {T A}.
Arguments root {T A}.
Arguments loop {T A G} pick push pushpop fuel w p beam g seen.
Arguments search {T A G} pick push pushpop fuel w p g.
