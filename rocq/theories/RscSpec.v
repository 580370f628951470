(** What a Python session per template call means: namespaces without dictionaries to share. *)
From Coq Require Import String List Bool Arith.
From Verif Require Import RscModel.
Import ListNotations.

Section Spec.
Variable V : Type.
(** The context of each template: the namespaces it sees, innermost first. *)
Variable ctx : nat -> list nat.
(** The call we are in: its template and arguments, and the namespace of its session once there is one. *)
Record call := InCall { ctempl : nat; cargs : ns V; csess : option (ns V) }.

Definition over (a b : ns V) : ns V := fun k => match a k with Some v => Some v | None => b k end.
Fixpoint layers (outer : nat -> ns V) (l : list nat) : ns V := match l with [] => fun _ => None | i :: l' => over (outer i) (layers outer l') end.
(** What a call sees without a session: arguments, then the context. *)
Definition lexical (outer : nat -> ns V) (c : call) : ns V := over (cargs c) (layers outer (ctx (ctempl c))).
(** The first request starts the session with what the call sees; later ones leave it alone. *)
Definition started (outer : nat -> ns V) (c : call) : ns V := match csess c with Some s => s | None => lexical outer c end.
(** The rest of the call sees the names of the session first. *)
Definition sees (outer : nat -> ns V) (c : call) : ns V := match csess c with Some s => over s (lexical outer c) | None => lexical outer c end.
Fixpoint in_session (fs : list (snippet V)) (s : ns V) : list (obs V) * ns V :=
  match fs with [] => ([], s) | f :: fs' => let (s1, o) := f s in let (os, s2) := in_session fs' s1 in (Out V o :: os, s2) end.
Definition with_session (c : call) (s : ns V) : call := InCall (ctempl c) (cargs c) (Some s).

Section Sequence.
Variable M : ev V -> option call -> (nat -> ns V) -> list (obs V) * option call * (nat -> ns V).
Fixpoint each (es : list (ev V)) (c : option call) (outer : nat -> ns V) : list (obs V) * option call * (nat -> ns V) :=
  match es with
  | [] => ([], c, outer)
  | e :: es' => let '(o, c1, o1) := M e c outer in let '(os, c2, o2) := each es' c1 o1 in (o ++ os, c2, o2)
  end.
End Sequence.
(** What is observed, the call afterwards, and the namespaces outside of sessions afterwards; a call made in between has
    its own session and leaves ours alone. *)
Fixpoint means (e : ev V) (c : option call) (outer : nat -> ns V) : list (obs V) * option call * (nat -> ns V) :=
  match e, c with
  | Round _, Some c => ([], Some (with_session c (started outer c)), outer)
  | Run _ f, Some c =>
      match csess c with
      | Some s => let (os, s') := in_session [f] s in (os, Some (with_session c s'), outer)
      | None => ([], Some c, outer)
      end
  | Tools _ _ fs, Some c =>
      match csess c with
      | Some s => let (os, s') := in_session fs s in (os, Some (with_session c s'), outer)
      | None => ([], Some c, outer)
      end
  | Look _ k, Some c => ([Saw V (sees outer c k)], Some c, outer)
  | Assign _ i k v, c => ([], c, put outer i (bind V (outer i) k v))
  | Call _ t args es, c =>
      let '(os, _, outer') := each means es (Some (InCall t args None)) outer in
      (os, c, outer')
  | _, None => ([], None, outer)
  end.
Definition means_all := each means.

(** A snippet does the same in namespaces with the same bindings. *)
Definition respects (f : snippet V) : Prop :=
  forall s s', (forall k, s k = s' k) -> snd (f s) = snd (f s') /\ forall k, fst (f s) k = fst (f s') k.
(** Whether we are in a call ([Some]), and there was a request in it ([Some true]) *)
Definition after_ev (e : ev V) (a : option bool) : option bool := match e, a with Round _, Some _ => Some true | _, _ => a end.
Section All.
Variable W : option bool -> ev V -> Prop.
Fixpoint all_from (a : option bool) (es : list (ev V)) : Prop := match es with [] => True | e :: es' => W a e /\ all_from (after_ev e a) es' end.
End All.
(** Code binds names only in namespaces that exist ([i < n]), calls templates that exist ([t < m]), and lists tools only
    inside calls, after the first request. *)
Fixpoint wf (n m : nat) (a : option bool) (e : ev V) : Prop :=
  match e with
  | Run _ f => respects f
  | Assign _ i _ _ => i < n
  | Tools _ t fs => t < m /\ a = Some true /\ Forall respects fs
  | Call _ t _ es => t < m /\ all_from (wf n m) (Some false) es
  | _ => True
  end.
Definition wf_all (n m : nat) := all_from (wf n m).
(** The script of a call without requests, snippets and listings: what is left when there is no session *)
Fixpoint erase (e : ev V) : list (ev V) :=
  match e with
  | Round _ | Run _ _ | Tools _ _ _ => []
  | Call _ t args es => [Call V t args (flat_map erase es)]
  | e => [e]
  end.
(** No snippets, no listings, and nothing bound outside *)
Fixpoint quiet (e : ev V) : Prop :=
  match e with
  | Round _ | Look _ _ => True
  | Call _ _ _ es => (fix all es := match es with [] => True | e :: es' => quiet e /\ all es' end) es
  | _ => False
  end.
(** Code other than snippets binds [k] in the namespace [i]. *)
Fixpoint assigns (i : nat) (k : string) (e : ev V) : Prop :=
  match e with
  | Assign _ j k' _ => j = i /\ k' = k
  | Call _ _ _ es => (fix some es := match es with [] => False | e :: es' => assigns i k e \/ some es' end) es
  | _ => False
  end.
(** A world with the namespaces [< n] and the contexts [< m], whose layers exist *)
Definition ready (n m : nat) (w : world V) : Prop :=
  n <= nns V w /\ m <= nch V w /\ (forall t, t < m -> chains V w t = ctx t) /\ (forall t i, t < m -> In i (ctx t) -> i < n).
End Spec.
