(** Theorems about printing terms (C25). [name o] is the operation's [__name__]. *)
From Coq Require Import List String Bool Arith.
From Verif Require Import StrModel StrSpec StrProofs.
Import ListNotations.
Open Scope string_scope.
Open Scope list_scope.

(** Printing a term is writing it out with one name per operation, where two operations
    printed by name have the same printed name only if they are the same, and a printed name
    is the operation's own, possibly followed by [!] and a number. Missing: names that are
    another's name followed by [!] and a number, and operations inside sets and dataclasses
    (next two theorems). *)
Theorem C25_printed_names_partial :
  forall name repr o args kwargs, let t := PTerm o args kwargs in
  (forall x y, In x (shown false t) -> In y (shown false t) -> ~ suffixed (name x) (name y)) ->
  exists nm, str name repr t = render nm repr false t /\
    (forall x y, In x (shown false t) -> In y (shown false t) -> nm x = nm y -> x = y) /\
    (forall x, In x (shown false t) -> nm x = name x \/ suffixed (name x) (nm x)).
Proof. exact str_render. Qed.
Print Assumptions C25_printed_names_partial.

Definition ex_name (o : nat) : string := match o with 0 | 1 | 2 => "x" | 3 => "x!1" | _ => "f" end.
Definition ex_repr (o : nat) : string := ("Operation(" ++ ex_name o ++ ", ())")%string.
Definition ex_term : pexpr :=
  PTerm 4 [PTerm 0 [] []; PList [PTerm 1 [] []; POp 2]; PTerm 0 [] []] [("k", PTuple [POp 1; PText "7"])].

Example C25_example :
  (forall x y, In x (shown false ex_term) -> In y (shown false ex_term) -> ~ suffixed (ex_name x) (ex_name y)) /\
  str ex_name ex_repr ex_term = "f(x(), [x!1(), x!2], x(), k=(x!1, 7))"%string.
Proof.
  split; [|reflexivity]. intros x y Hx Hy [n E]. cbn in Hx, Hy.
  repeat destruct Hx as [<-|Hx]; try (exact Hx); repeat destruct Hy as [<-|Hy]; try (exact Hy); discriminate E.
Qed.

(** Operations called [x], [x] and [x!1]: the last two are both printed [x!1]. *)
Theorem C25_suffixed_name_refuted :
  exists name repr f x y z, x <> y /\ y <> z /\ x <> z /\
  str name repr (PTerm f [PTerm x [] []; PTerm y [] []; PTerm z [] []] []) =
  str name repr (PTerm f [PTerm x [] []; PTerm y [] []; PTerm y [] []] []).
Proof.
  exists ex_name, ex_repr, 4, 0, 1, 3. repeat split; discriminate.
Qed.
Print Assumptions C25_suffixed_name_refuted.

(** Operations inside a set are printed by their own [repr], which two operations share. *)
Theorem C25_in_container_refuted :
  exists name repr f x y, x <> y /\
  str name repr (PTerm f [PTerm x [] []; PTerm y [] []; POther "frozenset" [POp x]] []) =
  str name repr (PTerm f [PTerm x [] []; PTerm y [] []; POther "frozenset" [POp y]] []) /\
  str name repr (PTerm f [PTerm x [] []; PTerm y [] []; POp x] []) <>
  str name repr (PTerm f [PTerm x [] []; PTerm y [] []; POp y] []).
Proof. exists ex_name, ex_repr, 4, 0, 1. repeat split; discriminate. Qed.
Print Assumptions C25_in_container_refuted.
