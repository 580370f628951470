(** C88: what [Operation.define] makes of functions, built-in functions, types and operations. *)
From Coq Require Import String List Bool Arith.
From Verif Require Import ColModel ColSpec ColLaws DefModel DefSpec DefProofs.
Import ListNotations.
Local Open Scope list_scope.

(** Operations made by any program of definitions are different from each other and from all made before. *)
Theorem C88_fresh : forall keyeq hash_term binds next l, NoDup (map oid (defines keyeq hash_term binds next l)) /\
  forall o, oid o < next -> ~ In (oid o) (map oid (defines keyeq hash_term binds next l)).
Proof. exact defines_fresh. Qed.
Print Assumptions C88_fresh.
Example C88_fresh_example : map oid (defines by_code hashes nothing 4
  [(Typ (Some "int"%string) 0, Some "x"%string); (Typ None 1, None); (Unknown, None); (Typ (Some "int"%string) 0, Some "x"%string)]) = [4; 5].
Proof. reflexivity. Qed.

(** The operation of a function does what the function does; where that raises [NotHandled], it makes the term. *)
Theorem C88_function : forall keyeq hash_term binds fits next n s f name o next' args kw,
  define keyeq hash_term binds next (Function n s f) name = Ok (o, next') -> f args kw <> NotHandled ->
  invoke keyeq hash_term fits o args kw = f args kw.
Proof. exact function_calls. Qed.
Print Assumptions C88_function.
Theorem C88_free_partial : forall keyeq hash_term binds fits next n s f name o next' args kw, equality keyeq ->
  define keyeq hash_term binds next (Function n (Some s) f) name = Ok (o, next') ->
  f args kw = NotHandled -> ordinary keyeq hash_term args kw -> fitting fits s args kw = true ->
  invoke keyeq hash_term fits o args kw = Ok (Trm (oid o) args kw).
Proof. exact (fun keyeq hash_term binds fits next n s f name o next' args kw Heq =>
  function_term keyeq hash_term binds fits Heq next n s f name o next' args kw). Qed.
Print Assumptions C88_free_partial.
Example C88_function_example : exists o next', define by_code hashes nothing 4 (Function (Some "f"%string) (Some (Code 0)) total) None = Ok (o, next') /\
  invoke by_code hashes yes o [Seq KList [Num 1; Num 2; Num 3]] [] = Ok (Num 6) /\
  exists o2 next2, define by_code hashes nothing next' (Function (Some "g"%string) (Some (Code 0)) no_rule) None = Ok (o2, next2) /\
  ordinary by_code hashes [Seq KList [Num 1; Trm 0 [] []]] [] /\ no_rule [Seq KList [Num 1; Trm 0 [] []]] [] = NotHandled /\
  fitting yes (Code 0) [Seq KList [Num 1; Trm 0 [] []]] [] = true.
Proof.
  eexists. eexists. split; [reflexivity|]. split; [reflexivity|]. eexists. eexists. split; [reflexivity|].
  split; [|split; reflexivity]. constructor; [|constructor]. split; repeat constructor.
Qed.

(** A type that has a name gives a variable: no parameters, returning the type, a term when called. *)
Theorem C88_variable_partial : forall keyeq hash_term binds fits next n t name, exists o,
  define keyeq hash_term binds next (Typ (Some n) t) name = Ok (o, S next) /\
  osig o = Some (Nullary t) /\ invoke keyeq hash_term fits o [] [] = Ok (Trm (oid o) [] []) /\
  forall args kw, (args <> [] \/ kw <> []) -> invoke keyeq hash_term fits o args kw = TypeError.
Proof.
  exact (fun keyeq hash_term binds fits next n t name =>
    match variable_made keyeq hash_term binds next n t name with
    | ex_intro _ o E => ex_intro _ o (conj E (variable keyeq hash_term binds fits next n t name o (S next) E)) end).
Qed.
Print Assumptions C88_variable_partial.
Example C88_variable_example : exists o, define by_code hashes nothing 4 (Typ (Some "int"%string) 0) (Some "x"%string) = Ok (o, 5) /\ oname o = "x"%string.
Proof. eexists. split; reflexivity. Qed.

(** Copies of an operation, copies of these and so on have its signature, the name given last, no default rule and another
    identity. *)
Theorem C88_copies : forall keyeq hash_term binds names next o, oid o < next ->
  exists o', copies keyeq hash_term binds next o names = Ok o' /\
    oname o' = last_name (oname o) names /\ osig o' = osig o /\
    (names <> [] -> next <= oid o' /\ forall args kw, orule o' args kw = NotHandled).
Proof. exact copies_same. Qed.
Print Assumptions C88_copies.
Theorem C88_copies_free_partial : forall keyeq hash_term binds fits names next o s o' args kw, equality keyeq -> oid o < next -> names <> [] ->
  copies keyeq hash_term binds next o names = Ok o' -> osig o = Some s ->
  fitting fits s args kw = true -> ordinary keyeq hash_term args kw ->
  invoke keyeq hash_term fits o' args kw = Ok (Trm (oid o') args kw) /\ oid o' <> oid o.
Proof. exact (fun keyeq hash_term binds fits names next o s o' args kw Heq =>
  copies_term keyeq hash_term binds fits Heq names next o s o' args kw). Qed.
Print Assumptions C88_copies_free_partial.
Example C88_copies_example : exists o', copies by_code hashes nothing 4 (Op 3 "select"%string (Some (Code 0)) total) [None; Some "y"%string; Some EmptyString] = Ok o' /\
  oname o' = "y"%string /\ oid o' = 6 /\ fitting yes (Code 0) [Num 1] [] = true /\ ordinary by_code hashes [Num 1] [].
Proof. eexists. split; [reflexivity|]. repeat split. constructor; [|constructor]. split; constructor. Qed.

(** The operation of a built-in function calls it on arguments without terms. *)
Theorem C88_builtin_partial : forall keyeq hash_term binds fits next n s f name o next' args kw, equality keyeq -> sane binds ->
  define keyeq hash_term binds next (Builtin n s f) name = Ok (o, next') ->
  ordinary keyeq hash_term args kw -> ~ with_term args kw -> f args kw <> NotHandled ->
  invoke keyeq hash_term fits o args kw = f args kw.
Proof. exact (fun keyeq hash_term binds fits next n s f name o next' args kw Heq Hs =>
  builtin_calls keyeq hash_term binds fits Heq Hs next n s f name o next' args kw). Qed.
Print Assumptions C88_builtin_partial.
(** With a term inside, it makes the term. *)
Theorem C88_builtin_term_partial : forall keyeq hash_term binds fits next n s f name o next' args kw, equality keyeq -> sane binds ->
  define keyeq hash_term binds next (Builtin n (Some s) f) name = Ok (o, next') ->
  ordinary keyeq hash_term args kw -> with_term args kw -> fitting fits s args kw = true ->
  invoke keyeq hash_term fits o args kw = Ok (Trm (oid o) args kw).
Proof. exact (fun keyeq hash_term binds fits next n s f name o next' args kw Heq Hs =>
  builtin_term keyeq hash_term binds fits Heq Hs next n s f name o next' args kw). Qed.
Print Assumptions C88_builtin_term_partial.
(** Such a term gives, once its arguments evaluate to values, what the built-in function gives for them. *)
Theorem C88_builtin_later_partial : forall keyeq hash_term binds fits next n s f name o next' call ren args kw args' ws,
  equality keyeq -> sane binds ->
  define keyeq hash_term binds next (Builtin n s f) name = Ok (o, next') ->
  (forall a k, call (oid o) a k = invoke keyeq hash_term fits o a k) ->
  plain (Trm (oid o) args kw) -> settled keyeq hash_term call ren (Trm (oid o) args kw) ->
  Forall2 (becomes keyeq hash_term call ren) args args' -> Forall2 (becomes keyeq hash_term call ren) (map snd kw) ws ->
  ordinary keyeq hash_term args' (combine (map fst kw) ws) -> ~ with_term args' (combine (map fst kw) ws) ->
  forall w, f args' (combine (map fst kw) ws) = Ok w -> evaluate keyeq hash_term call ren (Trm (oid o) args kw) = Ok w.
Proof. exact (fun keyeq hash_term binds fits next n s f name o next' call ren args kw args' ws Heq Hs =>
  builtin_later keyeq hash_term binds fits Heq Hs next n s f name o next' call ren args kw args' ws). Qed.
Print Assumptions C88_builtin_later_partial.
Example C88_builtin_example : exists o next', define by_code hashes nothing 4 (Builtin "sum"%string (Some (Code 0)) total) None = Ok (o, next') /\
  sane nothing /\ ordinary by_code hashes [Seq KList [Num 1; Num 2; Num 5]] [] /\ ~ with_term [Seq KList [Num 1; Num 2; Num 5]] [] /\
  ordinary by_code hashes [Seq KList [Num 1; Num 2; Trm 0 [] []]] [] /\ with_term [Seq KList [Num 1; Num 2; Trm 0 [] []]] [] /\
  invoke by_code hashes yes o [Seq KList [Num 1; Num 2; Trm 0 [] []]] [] = Ok (Trm 4 [Seq KList [Num 1; Num 2; Trm 0 [] []]] []) /\
  Forall2 (becomes by_code hashes (fun x a k => if Nat.eqb x 4 then invoke by_code hashes yes o a k else fives x a k) seven)
    [Seq KList [Num 1; Num 2; Trm 0 [] []]] [Seq KList [Num 1; Num 2; Num 5]] /\
  evaluate by_code hashes (fun x a k => if Nat.eqb x 4 then invoke by_code hashes yes o a k else fives x a k) seven
    (Trm 4 [Seq KList [Num 1; Num 2; Trm 0 [] []]] []) = Ok (Num 8).
Proof.
  eexists. eexists. split; [reflexivity|]. split; [intros ? ? ? []|].
  split; [constructor; [split; repeat constructor|constructor]|].
  split; [intros E; inversion E as [x y H|x y H]; subst; [|inversion H]; inversion H as [|k l H2| | | | | | |]; subst; clear - H2;
    repeat (inversion H2 as [x y H|x y H]; subst; clear H2; [inversion H|rename H into H2]); inversion H2|].
  split; [constructor; [split; repeat constructor|constructor]|].
  split; [apply Exists_cons_hd; constructor; apply Exists_cons_tl, Exists_cons_tl, Exists_cons_hd; constructor|].
  split; [reflexivity|]. split; [|reflexivity].
  constructor; [|constructor]. constructor. constructor; [constructor|]. constructor; [constructor|]. constructor; [|constructor].
  apply (b_term _ _ _ _ 0 [] [] [] []); [constructor|constructor|reflexivity].
Qed.

(** What does not work: a union of types has no [__name__], so that [define(int | str)] raises [AttributeError], with a name too. *)
Theorem C88_union_refuted : exists t, forall keyeq hash_term binds next name,
  define keyeq hash_term binds next (Typ None t) name = AttributeError /\
  define keyeq hash_term binds next (Typ None t) name <> NotHandled /\ define keyeq hash_term binds next (Typ None t) name <> NotImplementedError.
Proof. exact union_refuted. Qed.
Print Assumptions C88_union_refuted.
(** A callable without [__name__] (such as a [functools.partial]) needs a name. *)
Theorem C88_nameless_refuted : exists s f, forall keyeq hash_term binds next,
  define keyeq hash_term binds next (Function None (Some s) f) None = AttributeError /\
  exists o, define keyeq hash_term binds next (Function None (Some s) f) (Some "f"%string) = Ok (o, S next).
Proof. exact nameless_refuted. Qed.
Print Assumptions C88_nameless_refuted.
(** A built-in function whose signature Python does not know (such as [max]) cannot be applied to terms. *)
Theorem C88_signature_refuted : exists f args o next', ordinary by_code hashes args [] /\
  define by_code hashes nothing 3 (Builtin "max"%string None f) None = Ok (o, next') /\
  invoke by_code hashes yes o args [] = ValueError.
Proof. exact signature_refuted. Qed.
Print Assumptions C88_signature_refuted.
(** The operation of [sum] fails on a [range], which [sum] takes. *)
Theorem C88_range_refuted : exists f args o next', Forall inert args /\
  define by_code hashes nothing 3 (Builtin "sum"%string (Some (Code 0)) f) None = Ok (o, next') /\
  f args [] = Ok (Num 3) /\ invoke by_code hashes yes o args [] = TypeError.
Proof. exact range_op_refuted. Qed.
Print Assumptions C88_range_refuted.
(** The operation of [len] counts the terms of a set: two, which may have one value. *)
Theorem C88_sets_refuted : exists f args o next', ordinary by_code hashes args [] /\
  args = [Sets KSet [Trm 0 [] []; Trm 1 [] []]] /\
  define by_code hashes nothing 3 (Builtin "len"%string (Some (Code 0)) f) None = Ok (o, next') /\
  invoke by_code hashes yes o args [] = Ok (Num 2) /\
  (forall k, fives 0 [] k = Ok (Num 5) /\ fives 1 [] k = Ok (Num 5)).
Proof. exact set_op_refuted. Qed.
Print Assumptions C88_sets_refuted.
