(** Agents as persons with a memory. *)
From Coq Require Import List Bool Arith.
Import ListNotations.
From Verif Require Import AgModel.

(** Every agent has a conversation: questions and answers. *)
Record people := { pcount : nat; pcls : nat -> nat; conv : nat -> list (nat * nat); plog : list out }.
Definition nobody : people := {| pcount := 0; pcls := fun _ => 0; conv := fun _ => []; plog := [] |}.
Definition said (l : list (nat * nat)) : list msg := flat_map (fun p => [Usr (fst p); Asst (snd p)]) l.
Section Spec.
Variable w : world.
(** The docstring of the module, then the docstring of the class, those that are not empty *)
Definition told (t c : nat) : list nat :=
  match module_doc w t, class_doc w c with
  | Some m, Some d => [m; d]
  | Some m, None => [m]
  | None, Some d => [d]
  | None, None => []
  end.
Definition module_only (t : nat) : list nat := match module_doc w t with Some m => [m] | None => [] end.
Definition tell (p : people) o := {| pcount := pcount p; pcls := pcls p; conv := conv p; plog := plog p ++ [o] |}.
Definition remember (p : people) i l := {| pcount := pcount p; pcls := pcls p; conv := upd (conv p) i l; plog := plog p |}.
Section Those.
Variable live : ev -> people -> people.
Fixpoint those (l : list ev) (p : people) : people := match l with [] => p | e :: r => those r (live e p) end.
End Those.
(** A call sends the system prompt of the template and the agent, the agent's conversation (a plain object has none) and the
    question, with the object itself as [self]; an answered call, if not made by a tool of another, is remembered. *)
Fixpoint live (top : bool) (e : ev) (p : people) : people :=
  match e with
  | New c => {| pcount := S (pcount p); pcls := upd (pcls p) (pcount p) c; conv := upd (conv p) (pcount p) []; plog := plog p |}
  | Clear i => if (i <? pcount p) && agent w (pcls p i) then remember p i [] else p
  | Call i t q tools reply =>
      if (i <? pcount p) && has w (pcls p i) t && plain w (pcls p i) then
        let a := agent w (pcls p i) in
        let before := if a then conv p i else [] in
        let sys := if a then told t (pcls p i) else module_only t in
        let p2 := those (live false) tools (tell p (Sent i t (Some i) (Sys sys :: said before ++ [Usr q]))) in
        match reply with Some r => if top && a then remember p2 i (before ++ [(q, r)]) else p2 | None => p2 end
      else tell p (Raised i t)
  | _ => p
  end.
Definition lives (l : list ev) : people := those (live true) l nobody.
(** No copies, no assignment of histories *)
Fixpoint simple (e : ev) : Prop :=
  match e with
  | Copy _ | Assign _ => False
  | Call _ _ _ tools _ => (fix all l := match l with [] => True | e :: r => simple e /\ all r end) tools
  | _ => True
  end.
(** The templates of an agent's class are from modules with the same docstring *)
Definition uniform : Prop := forall c t t', agent w c = true -> has w c t = true -> has w c t' = true -> module_doc w t = module_doc w t'.
End Spec.
