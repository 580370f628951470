(** C82: the context of a template is its lexical scope. *)
From Coq Require Import String Ascii List Bool Arith Lia.
Import ListNotations.
From Verif Require Import LexModel LexSpec LexProofs.
Local Open Scope string_scope.
Local Open Scope list_scope.

(** [@Template.define] at a function in scope [s], where the functions further out are still running and are the innermost
    running ones of their names: at any later time a name that is bound in the function that has it shows in the context what
    it means in the scope (in Python 3.12, if it has not changed since the variables were last looked at). *)
Theorem C82_lexical_partial : forall stack s rest n, at_define stack s rest -> alive rest s ->
  exists ctx, context stack (qual_in s n) = Some ctx /\ forall ver seen M x v, bound M x s -> fresh ver seen M x s -> means M x s v -> look ver seen M ctx x = v.
Proof. exact lexical. Qed.
Print Assumptions C82_lexical_partial.

(** With at most one function around, whatever is running. *)
Theorem C82_one_function_partial : forall stack s rest n, at_define stack s rest -> (forall f g, encloses f s -> encloses g s -> f = g) ->
  exists ctx, context stack (qual_in s n) = Some ctx /\ forall ver seen M x v, bound M x s -> fresh ver seen M x s -> means M x s v -> look ver seen M ctx x = v.
Proof. exact toplevel. Qed.
Print Assumptions C82_one_function_partial.

(** A prompt is accepted if and only if each of its fields starts with a parameter or with a name of the scope. *)
Theorem C82_accepted_partial : forall M stack s rest n params fields, at_define stack s rest -> alive rest s -> (forall f, In f fields -> bound M (root f) s) ->
  (exists ctx, define M stack (qual_in s n) false params fields = Ok ctx) <-> forall f, In f fields -> In (root f) params \/ exists v, means M (root f) s (Some v).
Proof. exact accepted. Qed.
Print Assumptions C82_accepted_partial.

(** In a call, every proper field of an accepted prompt is found, as long as the names of the context stay bound. *)
Theorem C82_fields_partial : forall M stack parts params fields ctx, define M stack parts false params fields = Ok ctx ->
  forall args ver seen M', incl params (map fst args) -> (forall x, look V313 (fun _ _ => None) M ctx x <> None -> look ver seen M' ctx x <> None) ->
  forall w f, In f fields -> field_of w f -> exists v, field args (look ver seen M' ctx) f = Some v.
Proof. exact calls. Qed.
Print Assumptions C82_fields_partial.

(** Only calls are captured that run in the same import: none from beyond the body of a module. *)
Theorem C82_same_import : forall stack parts ctx, context stack parts = Some ctx ->
  forall s, In s ctx -> (exists m, s = Mod m) \/ exists before after, skip stack = before ++ s :: after /\ forall t, In t (before ++ [s]) -> forall m, t <> Mod m.
Proof. exact same_import. Qed.
Print Assumptions C82_same_import.

(** Examples: a module 0 with global [g]; functions [outer] (with [tool] and [n]) and in it [inner] (with [own]), and in it a
    class with a class in it. *)
Definition outer : scope := Fn 1 "outer" (Mod 0).
Definition inner : scope := Fn 2 "inner" outer.
Definition box : scope := Cl 4 "Box" (Cl 3 "Outer" inner).
Definition at1 (l : list (string * nat)) (x : string) : option nat := match find (fun p => String.eqb (fst p) x) l with Some p => Some (snd p) | None => None end.
(** the variables of the calls by number, as lists *)
Definition memory (locals globals : nat -> list (string * nat)) (declared mentioned : nat -> list string) : mem :=
  {| own := fun a => at1 (locals a); glob := fun m => at1 (globals m); vars := fun a => map fst (locals a) ++ declared a; frees := mentioned |}.
Definition none {A} (_ : nat) : list A := [].
Definition M0 : mem := memory (fun a => match a with 1 => [("tool", 7); ("n", 1)] | 2 => [("own", 2); ("n", 5)] | 3 => [("hidden", 3)] | _ => [] end) (fun m => match m with 0 => [("g", 9)] | _ => [] end) none none.
Definition stack0 : list scope := [box; Cl 3 "Outer" inner; inner; Fn 8 "helper" (Mod 1); outer; Mod 0].
Ltac running := repeat constructor; try (left; reflexivity).
Lemma defined0 : at_define stack0 box [Fn 8 "helper" (Mod 1); outer; Mod 0].
Proof.
  exists [box; Cl 3 "Outer" inner]; [reflexivity| |reflexivity|running]. intros c [<- |[<- |[]]]; repeat eexists.
Qed.
Lemma alive0 : alive [Fn 8 "helper" (Mod 1); outer; Mod 0] box.
Proof.
  unfold alive. cbn [around box inner]. apply (inner_fn [Fn 8 "helper" (Mod 1)] [Mod 0] 1 "outer" (Mod 0)); [|constructor].
  intros s [<- |[]]. split; [discriminate|intros m; discriminate].
Qed.
Lemma means0 : means M0 "tool" box (Some 7) /\ means M0 "n" box (Some 5) /\ means M0 "g" box (Some 9) /\ means M0 "hidden" box None.
Proof.
  assert (N : forall x a l, has l x = false -> vars M0 a = l -> ~ In x (vars M0 a)) by (intros x a l H E; rewrite E; apply has_not; exact H).
  split; [|split; [|split]]; do 2 apply means_class.
  - apply means_out; [eapply N; [|reflexivity]; reflexivity|]. apply (means_own M0 "tool" 1). left; reflexivity.
  - apply (means_own M0 "n" 2). right; left; reflexivity.
  - do 2 (apply means_out; [eapply N; [|reflexivity]; reflexivity|]). apply (means_mod M0 "g" 0).
  - do 2 (apply means_out; [eapply N; [|reflexivity]; reflexivity|]). apply (means_mod M0 "hidden" 0).
Qed.
Lemma bound0 x : In x ["tool"; "n"; "own"; "g"; "hidden"] -> bound M0 x box.
Proof.
  assert (D : forall a x, In x (vars M0 a) -> own M0 a x <> None).
  { intros a y I. cbn [vars M0 memory] in I. rewrite app_nil_r in I. unfold own, M0, memory, at1. apply in_map_iff in I. destruct I as (p & E & I).
    destruct (find _ _) as [q|] eqn:F; [discriminate|]. pose proof (find_none _ _ F p I) as Z. cbv beta in Z. rewrite E, String.eqb_refl in Z. discriminate Z. }
  assert (G : forall s, bound M0 x s).
  { induction s as [m|a n o IH|a n o IH]; [constructor| |constructor; exact IH]. destruct (has (vars M0 a) x) eqn:V; [apply bound_own; [|apply D]; apply has_in; exact V|apply bound_out; [apply has_not, V|exact IH]]. }
  intros _. apply G.
Qed.
Example C82_lexical_example : at_define stack0 box [Fn 8 "helper" (Mod 1); outer; Mod 0] /\ alive [Fn 8 "helper" (Mod 1); outer; Mod 0] box /\
  bound M0 "tool" box /\ means M0 "tool" box (Some 7) /\ context stack0 (qual_in box "ask") = Some [inner; outer; Mod 0] /\
  look V313 (fun _ _ => None) M0 [inner; outer; Mod 0] "tool" = Some 7 /\ look V313 (fun _ _ => None) M0 [inner; outer; Mod 0] "n" = Some 5.
Proof.
  split; [exact defined0|]. split; [exact alive0|]. split; [apply bound0; left; reflexivity|]. split; [apply means0|]. split; [reflexivity|]. split; reflexivity.
Qed.
Example C82_one_function_example : let s := Cl 3 "Outer" outer in at_define [s; outer; Fn 5 "outer" (Mod 1); Mod 1] s [Fn 5 "outer" (Mod 1); Mod 1] /\ (forall f g, encloses f s -> encloses g s -> f = g).
Proof.
  split.
  - exists [Cl 3 "Outer" outer]; [reflexivity| |reflexivity|running]. intros c [<- |[]]. repeat eexists.
  - assert (N : forall f, ~ encloses f (Mod 0)) by (intros f F; inversion F).
    assert (E : forall f, encloses f (Cl 3 "Outer" outer) -> f = outer).
    { intros f F. inversion F as [|? ? ? F1|? ? ? F1]; subst. inversion F1 as [|? ? ? F2|]; subst; [reflexivity|destruct (N f F2)]. }
    intros f g F G. rewrite (E f F), (E g G). reflexivity.
Qed.
Example C82_accepted_example : (forall f, In f ["self.name"; "tool"; "g[0]"] -> In (root f) ["self"] \/ exists v, means M0 (root f) box (Some v)) /\
  (exists ctx, define M0 stack0 (qual_in box "ask") false ["self"] ["self.name"; "tool"; "g[0]"] = Ok ctx) /\
  define M0 stack0 (qual_in box "ask") false ["self"] ["self.name"; "hidden"; "0"; ""] = TypeErr ["hidden"; "0"; ""].
Proof.
  split; [|split; [eexists; reflexivity|reflexivity]]. intros f [<- |[<- |[<- |[]]]].
  - left; left; reflexivity.
  - right; exists 7; apply means0.
  - right; exists 9; apply means0.
Qed.
Example C82_fields_example : field_of "self" "self.name" /\ field [("self", 4)] (look V312 (fun _ _ => None) M0 [inner; outer; Mod 0]) "self.name" = Some 4 /\
  field [("self", 4)] (look V313 (fun _ _ => None) M0 [inner; outer; Mod 0]) "g[0]" = Some 9.
Proof.
  split; [|split; reflexivity]. split; [discriminate|]. split; [repeat split|]. exists ".name". split; [reflexivity|]. right; left. exists "name". reflexivity.
Qed.

(** [outer] of a program that imports module 0 *)
Example C82_same_import_example : context [inner; Mod 0; Fn 6 "outer" (Mod 1); Mod 1] (qual_in inner "ask") = Some [inner; Mod 0].
Proof. reflexivity. Qed.

Ltac local := match goal with |- means ?M ?x _ _ => apply (means_own M x 1 "outer" (Mod 0)); left; reflexivity end.
Ltac global := match goal with |- means ?M ?x (Mod ?m) _ => apply (means_mod M x m) end.
Ltac out := apply means_out; [cbn; intuition discriminate|].

(** An enclosing function that has returned is lost: [inner] returned by [outer] and called at module level. *)
Theorem C82_returned_refuted : exists stack s rest n ctx M x v, at_define stack s rest /\ bound M x s /\ means M x s (Some v) /\
  context stack (qual_in s n) = Some ctx /\ look V313 (fun _ _ => None) M ctx x = None.
Proof.
  exists [inner; Mod 0], inner, [Mod 0], "ask", [inner; Mod 0], M0, "tool", 7.
  split; [exists []; [reflexivity|intros c []|reflexivity|running]|].
  split; [apply bound_out; [cbn; intuition discriminate|apply bound_own; [left; reflexivity|discriminate]]|].
  split; [out; local|]. split; reflexivity.
Qed.
Print Assumptions C82_returned_refuted.

(** The search is by name and takes the innermost running function of the name: with recursion, another call of [outer] than
    the one the function was defined in. *)
Theorem C82_recursion_refuted : exists stack s rest n ctx M x v w, at_define stack s rest /\ In outer stack /\ bound M x s /\ means M x s (Some v) /\
  context stack (qual_in s n) = Some ctx /\ look V313 (fun _ _ => None) M ctx x = Some w /\ w <> v.
Proof.
  exists [inner; Fn 6 "outer" (Mod 0); outer; Mod 0], inner, [Fn 6 "outer" (Mod 0); outer; Mod 0], "ask", [inner; Fn 6 "outer" (Mod 0); Mod 0],
    (memory (fun a => match a with 1 => [("tool", 7)] | 6 => [("tool", 8)] | _ => [] end) none none none), "tool", 7, 8.
  split; [exists []; [reflexivity|intros c []|reflexivity|running]|]. split; [cbn; tauto|].
  split; [apply bound_out; [cbn; intuition discriminate|apply bound_own; [left; reflexivity|discriminate]]|].
  split; [out; local|]. split; [reflexivity|]. split; [reflexivity|discriminate].
Qed.
Print Assumptions C82_recursion_refuted.

(** A caller of the same name in another module gives its variables to the template. *)
Theorem C82_namesake_refuted : exists stack s rest n ctx M x v, at_define stack s rest /\ bound M x s /\ means M x s None /\
  context stack (qual_in s n) = Some ctx /\ look V313 (fun _ _ => None) M ctx x = Some v.
Proof.
  exists [inner; Fn 6 "outer" (Mod 1); Mod 1], inner, [Fn 6 "outer" (Mod 1); Mod 1], "ask", [inner; Fn 6 "outer" (Mod 1); Mod 0],
    (memory (fun a => match a with 6 => [("secret", 8)] | _ => [] end) none none none), "secret", 8.
  split; [exists []; [reflexivity|intros c []|reflexivity|running]|].
  split; [do 2 (apply bound_out; [cbn; intuition discriminate|]); constructor|].
  split; [do 2 out; global|]. split; reflexivity.
Qed.
Print Assumptions C82_namesake_refuted.

(** Through a helper of another module ([lib.my_template(f)], which calls [Template.define(f)]): the globals are the helper's. *)
Theorem C82_helper_refuted : exists stack s n ctx M x v y w, runs stack /\ nth_error stack 1 = Some s /\ bound M x s /\ means M x s (Some v) /\ means M y s None /\
  context stack (qual_in s n) = Some ctx /\ look V313 (fun _ _ => None) M ctx x = None /\ look V313 (fun _ _ => None) M ctx y = Some w.
Proof.
  exists [Fn 6 "my_template" (Mod 1); outer; Mod 0], outer, "ask", [outer; Mod 1], (memory none (fun m => match m with 0 => [("g", 9)] | _ => [("internal", 3)] end) none none), "g", 9, "internal", 3.
  split; [running|]. split; [reflexivity|]. split; [apply bound_out; [cbn; intuition discriminate|constructor]|].
  split; [out; global|]. split; [out; global|]. split; [reflexivity|]. split; reflexivity.
Qed.
Print Assumptions C82_helper_refuted.

(** Over a decorator that does not set the name of its wrapper, the variables of the enclosing function are lost. *)
Theorem C82_wrapper_refuted : exists stack s rest ctx M x v, at_define stack s rest /\ alive rest s /\ bound M x s /\ means M x s (Some v) /\
  context stack (qual_in (Fn 6 "decorator" (Mod 1)) "wrapper") = Some ctx /\ look V313 (fun _ _ => None) M ctx x = None.
Proof.
  exists [outer; Mod 0], outer, [Mod 0], [Mod 0], M0, "tool", 7. split; [exists []; [reflexivity|intros c []|reflexivity|running]|]. split; [constructor|].
  split; [apply bound_own; [left; reflexivity|discriminate]|]. split; [local|]. split; reflexivity.
Qed.
Print Assumptions C82_wrapper_refuted.

(** A variable that its function has not bound yet shows the variable of the same name further out. *)
Theorem C82_unbound_refuted : exists stack s rest n ctx M x v, at_define stack s rest /\ alive rest s /\ means M x s None /\
  context stack (qual_in s n) = Some ctx /\ look V313 (fun _ _ => None) M ctx x = Some v.
Proof.
  exists [outer; Mod 0], outer, [Mod 0], "ask", [outer; Mod 0], (memory none (fun _ => [("tool", 9)]) (fun a => match a with 1 => ["tool"] | _ => [] end) none), "tool", 9.
  split; [exists []; [reflexivity|intros c []|reflexivity|running]|]. split; [constructor|].
  split; [apply (means_own (memory none (fun _ => [("tool", 9)]) (fun a => match a with 1 => ["tool"] | _ => [] end) none) "tool" 1); left; reflexivity|]. split; reflexivity.
Qed.
Print Assumptions C82_unbound_refuted.

(** In Python 3.12, what the enclosing function binds after the definition (a tool, the template itself) is not in the context. *)
Theorem C82_later_refuted : exists stack s rest n ctx M M' x v, at_define stack s rest /\ alive rest s /\ bound M' x s /\ means M' x s (Some v) /\
  context stack (qual_in s n) = Some ctx /\ look V312 (fun a y => f_locals M s y) M' ctx x = None /\ look V313 (fun a y => f_locals M s y) M' ctx x = Some v.
Proof.
  exists [outer; Mod 0], outer, [Mod 0], "ask", [outer; Mod 0], (memory none none (fun a => match a with 1 => ["ask"] | _ => [] end) none), (memory (fun a => match a with 1 => [("ask", 4)] | _ => [] end) none none none), "ask", 4.
  split; [exists []; [reflexivity|intros c []|reflexivity|running]|]. split; [constructor|].
  split; [apply bound_own; [left; reflexivity|discriminate]|]. split; [local|]. split; [reflexivity|]. split; reflexivity.
Qed.
Print Assumptions C82_later_refuted.

(** A field that goes on after the name in another way is accepted, and no call finds it. *)
Theorem C82_field_refuted : exists M stack parts params f ctx, define M stack parts false params [f] = Ok ctx /\
  forall args ver seen M', map fst args = params -> glob M' 0 f = None -> field args (look ver seen M' ctx) f = None.
Proof.
  exists M0, [Mod 0], (qual_in (Mod 0) "ask"), ["x"], "x-y", [Mod 0]. split; [reflexivity|]. intros args ver seen M' E G.
  destruct args as [|[k v] [|p l]]; try discriminate E. cbn [map fst] in E. injection E as ->. unfold field, env. cbn [first find fst]. cbn. destruct ver; cbn; rewrite G; reflexivity.
Qed.
Print Assumptions C82_field_refuted.

(** Static methods and class methods are not checked. *)
Theorem C82_static_refuted : exists M stack s rest n f ctx, at_define stack s rest /\ alive rest s /\ define M stack (qual_in s n) true [] [f] = Ok ctx /\
  field_of f f /\ means M f s None /\ field [] (look V313 (fun _ _ => None) M ctx) f = None.
Proof.
  exists M0, [Cl 3 "Outer" (Mod 0); Mod 0], (Cl 3 "Outer" (Mod 0)), [], "ask", "typo", [Mod 0].
  split; [exists [Cl 3 "Outer" (Mod 0)]; [reflexivity|intros c [<- |[]]; repeat eexists|reflexivity|running]|]. split; [exact Logic.I|]. split; [reflexivity|].
  split; [split; [discriminate|]; split; [repeat split|]; exists ""; split; [reflexivity|left; reflexivity]|]. split; [apply means_class; apply (means_mod M0 "typo" 0)|reflexivity].
Qed.
Print Assumptions C82_static_refuted.

(** The root of a field is its longest beginning of letters, digits and underscores, all of it if there is none. *)
Theorem C82_words : forall c, wordy c = true <-> In c (list_ascii_of_string "0123456789ABCDEFGHIJKLMNOPQRSTUVWXYZ_abcdefghijklmnopqrstuvwxyz").
Proof. exact wordy_chars. Qed.
Print Assumptions C82_words.
