(** Python's lexical scope. *)
From Coq Require Import String Ascii List Bool Arith.
Import ListNotations.
From Verif Require Import LexModel.

(** What a name means in a function defined in scope [s]: the variable of the innermost enclosing function that has it as a
    local variable, else the global variable; class bodies do not count. *)
Inductive means (M : mem) (x : string) : scope -> option nat -> Prop :=
| means_mod : forall m, means M x (Mod m) (glob M m x)
| means_own : forall a n o, In x (vars M a) -> means M x (Fn a n o) (own M a x)
| means_out : forall a n o v, ~ In x (vars M a) -> means M x o v -> means M x (Fn a n o) v
| means_class : forall a n o v, means M x o v -> means M x (Cl a n o) v.

(** Stacks of frames, the innermost first: a class body is executed by the scope it is in *)
Inductive runs : list scope -> Prop :=
| runs_mod : forall m st, (st = [] \/ runs st) -> runs (Mod m :: st)
| runs_call : forall a n o st, runs st -> runs (Fn a n o :: st)
| runs_class : forall a n o st, runs (o :: st) -> runs (Cl a n o :: o :: st).
(** The scope of the function around class bodies *)
Fixpoint around (s : scope) : scope := match s with Cl _ _ o => around o | _ => s end.
(** Every enclosing function is still running, as the innermost running function of its name *)
Inductive innermost : list scope -> scope -> Prop :=
| inner_mod : forall st m, innermost st (Mod m)
| inner_class : forall st a n o, innermost st o -> innermost st (Cl a n o)
| inner_fn : forall st st' a n o, (forall s, In s st -> co_name s <> n /\ forall m, s <> Mod m) -> innermost st' o -> innermost (st ++ Fn a n o :: st') (Fn a n o).
(** [x] is bound in the function that has it *)
Inductive bound (M : mem) (x : string) : scope -> Prop :=
| bound_mod : forall m, bound M x (Mod m)
| bound_own : forall a n o, In x (vars M a) -> own M a x <> None -> bound M x (Fn a n o)
| bound_out : forall a n o, ~ In x (vars M a) -> bound M x o -> bound M x (Fn a n o)
| bound_class : forall a n o, bound M x o -> bound M x (Cl a n o).
(** the functions around a scope *)
Inductive encloses (s : scope) : scope -> Prop :=
| encl_here : forall a n o, s = Fn a n o -> encloses s (Fn a n o)
| encl_fn : forall b n o, encloses s o -> encloses s (Fn b n o)
| encl_class : forall b n o, encloses s o -> encloses s (Cl b n o).
(** For Python 3.12: since [f_locals] of the enclosing functions was last accessed, [x] has not changed *)
Definition fresh (v : version) (seen : nat -> string -> option nat) (M : mem) (x : string) (s : scope) : Prop :=
  match v with V313 => True | V312 => forall a n o, encloses (Fn a n o) s -> seen a x = f_locals M (Fn a n o) x end.

(** [@Template.define] at a function in scope [s]: the class bodies around it, the function or module they are in, its callers *)
Inductive at_define (stack : list scope) (s : scope) (rest : list scope) : Prop :=
| at_define_intro : forall classes, stack = classes ++ around s :: rest -> (forall c, In c classes -> exists a n o, c = Cl a n o) ->
    hd_error stack = Some s -> runs stack -> at_define stack s rest.
(** The functions further out are still running, innermost of their names *)
Definition alive (rest : list scope) (s : scope) : Prop := match around s with Fn _ _ o => innermost rest o | _ => True end.

(** A field that starts with a name: the name, then nothing or an attribute or an index *)
Fixpoint all_wordy (w : string) : Prop := match w with EmptyString => True | String c r => wordy c = true /\ all_wordy r end.
Definition field_of (w f : string) : Prop :=
  w <> EmptyString /\ all_wordy w /\ exists r, f = append w r /\ (r = EmptyString \/ (exists q, r = String "."%char q) \/ (exists q, r = String "["%char q)).
