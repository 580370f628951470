(** Property C63: operations as methods belong to their objects. *)
From Coq Require Import String List Bool Arith Lia.
From Verif Require Import MethModel MethSpec MethProofs.
Import ListNotations.
Open Scope string_scope.
Open Scope list_scope.
Local Arguments String.eqb : simpl never.

(** Every program has the meaning in which each object has its own operations: handlers for [a.m] act on calls [a.m(...)]
    and terms of them only, handlers for [C.m] on the calls on all objects that are not handled themselves, [super()] goes to
    the next class, and what is looked up before or how often does not matter.
    Missing: operations with the same [Class_method], overridden class methods, copied objects, dataclasses. *)
Theorem C63_methods_partial : forall T, apart T -> plain T -> forall fuel e r st, uncopied e -> program T fuel e = (r, st) ->
  exists r', meaning T fuel e = (r', objs st) /\ same_outcome st r r'.
Proof. exact program_meaning. Qed.
Print Assumptions C63_methods_partial.

(** [class A: m(self, x) = x + 1; k(self) not handled; c(cls) = 5] and [class B(A): m(self, x) = super().m(x) + 10] *)
Definition farm : table := [
  Cls "A" [0] false [("m", (Method, Add (Var 1) (Num 1))); ("k", (Method, Free)); ("c", (ClassMethod, Num 5))];
  Cls "B" [1; 0] false [("m", (Method, Add (Super 1 "m" [Var 1]) (Num 10)))]].
(** [b = B(); b2 = B(); with handler({A.m: lambda self, x: fwd() + 100}): with handler({b.m: lambda x: fwd() + 1000}): b.m(1) + b2.m(2)] *)
Definition twice : expr :=
  Let (New 1) (Let (New 1) (With (Class 0) "m" (Add Fwd (Num 100)) (With (Var 1) "m" (Add Fwd (Num 1000)) (Add (Call (Var 1) "m" [Num 1]) (Call (Var 0) "m" [Num 2]))))).
Lemma farm_apart : apart farm.
Proof.
  split.
  - intros [a m] [b n] [x H] [y K]. unfold body_of in H, K. cbn [fst snd] in H, K.
    assert (H' : (a = 0 /\ (m = "m" \/ m = "k")) \/ (a = 1 /\ m = "m")).
    { destruct a as [|[|a]]; cbn in H; [| |destruct a; discriminate].
      - left. split; [reflexivity|]. revert H. destruct (String.eqb_spec "m" m) as [<-|N1]; [now left|]. destruct (String.eqb_spec "k" m) as [<-|N2]; [now right|]. destruct (String.eqb "c" m); discriminate.
      - right. split; [reflexivity|]. revert H. destruct (String.eqb_spec "m" m) as [<-|N1]; [reflexivity|discriminate]. }
    assert (K' : (b = 0 /\ (n = "m" \/ n = "k")) \/ (b = 1 /\ n = "m")).
    { destruct b as [|[|b]]; cbn in K; [| |destruct b; discriminate].
      - left. split; [reflexivity|]. revert K. destruct (String.eqb_spec "m" n) as [<-|N1]; [now left|]. destruct (String.eqb_spec "k" n) as [<-|N2]; [now right|]. destruct (String.eqb "c" n); discriminate.
      - right. split; [reflexivity|]. revert K. destruct (String.eqb_spec "m" n) as [<-|N1]; [reflexivity|discriminate]. }
    destruct H' as [[-> [-> | ->]]|[-> ->]], K' as [[-> [-> | ->]]|[-> ->]]; intros Q; try reflexivity; discriminate.
  - assert (Z : forall a m, defined farm ClassMethod (a, m) -> a = 0).
    { intros a m [x H]. destruct a as [|[|a]]; [reflexivity| |destruct a; discriminate H]. unfold body_of in H. cbn in H. destruct (String.eqb "m" m); discriminate. }
    intros c m a b _ _ H K. now rewrite (Z a m H), (Z b m K).
Qed.
Lemma farm_plain : plain farm.
Proof.
  intros [|[|c]] k H; [| |destruct c; discriminate]; injection H as <-; (split; [reflexivity|]); cbn [c_ops]; intros m kd b H.
  - destruct H as [H|[H|[H|[]]]]; injection H as <- <- <-; cbn; auto.
  - destruct H as [H|[]]; injection H as <- <- <-; cbn; auto.
Qed.
Example C63_example : apart farm /\ plain farm /\ uncopied twice /\ fst (program farm 40 twice) = Val (VNum (1112 + 113)).
Proof. split; [apply farm_apart|]. split; [apply farm_plain|]. split; [cbn; tauto|]. vm_compute. reflexivity. Qed.
(** A term of an object's operation is handled later: [t = a.k(); with handler({a.k: lambda: 7}): evaluate(t)] *)
Example C63_term_example : fst (program farm 20 (Let (New 0) (Let (Call (Var 0) "k" []) (With (Var 1) "k" (Num 7) (Evaluate (Var 0)))))) = Val (VNum 7) /\
  fst (program farm 20 (Let (New 0) (Let (Call (Var 0) "k" []) (With (Class 0) "k" (Num 8) (Evaluate (Var 0)))))) = Val (VNum 8).
Proof. split; vm_compute; reflexivity. Qed.

(** Whatever ran before: [a.m is b.n] exactly when [a] is [b] and [m] is [n]; and [a.m] is no operation of a class body. *)
Theorem C63_own : forall T fuel e r st a b m n p q st1 st2 c d, apart T -> plain T -> uncopied e -> program T fuel e = (r, st) ->
  class_of st a = Some c -> resolve T (mro T c) m = Some (d, Method) ->
  attribute T st (VObj a) (fun l => l) m = (Val p, st1) -> attribute T st1 (VObj b) (fun l => l) n = (Val q, st2) ->
  (p = q <-> a = b /\ m = n) /\ forall x, p <> OpDef x.
Proof. exact own_operations. Qed.
Print Assumptions C63_own.

Example C63_own_example : let (r, st) := program farm 20 (Let (New 1) (New 0)) in class_of st 0 = Some 1 /\ resolve farm (mro farm 1) "k" = Some (0, Method) /\
  exists p q st1 st2, attribute farm st (VObj 0) (fun l => l) "k" = (Val p, st1) /\ attribute farm st1 (VObj 1) (fun l => l) "k" = (Val q, st2).
Proof. split; [reflexivity|]. split; [reflexivity|]. do 4 eexists. split; vm_compute; reflexivity. Qed.

(** A class with the name of its base class: [class Foo: m = 1] and [class Foo(Foo): m = 10; n = super().m()]; after [o.n()],
    [o.m()] is that of the base class. *)
Theorem C63_same_name_refuted : exists T e, plain T /\ uncopied e /\ fst (program T 20 e) = Val (VNum 1) /\ fst (meaning T 20 e) = Val (VNum 10).
Proof.
  exists [Cls "Foo" [0] false [("m", (Method, Num 1))]; Cls "Foo" [1; 0] false [("m", (Method, Num 10)); ("n", (Method, Super 1 "m" []))]],
    (Let (New 1) (Let (Call (Var 0) "n" []) (Call (Var 1) "m" []))).
  split.
  - intros [|[|c]] k H; [| |destruct c; discriminate]; injection H as <-; (split; [reflexivity|]); cbn [c_ops]; intros m kd b H.
    + destruct H as [H|[]]; injection H as <- <- <-; cbn; auto.
    + destruct H as [H|[H|[]]]; injection H as <- <- <-; cbn; auto.
  - split; [cbn; tauto|]. split; vm_compute; reflexivity.
Qed.
Print Assumptions C63_same_name_refuted.

(** Names that run together: [class Foo: bar_baz = 1] and [class Foo_bar(Foo): baz = 10]; after [o.bar_baz()], [o.baz()] is 1. *)
Theorem C63_underscore_refuted : exists T e, plain T /\ uncopied e /\ NoDup (map c_name T) /\ fst (program T 20 e) = Val (VNum 1) /\ fst (meaning T 20 e) = Val (VNum 10).
Proof.
  exists [Cls "Foo" [0] false [("bar_baz", (Method, Num 1))]; Cls "Foo_bar" [1; 0] false [("baz", (Method, Num 10))]],
    (Let (New 1) (Let (Call (Var 0) "bar_baz" []) (Call (Var 1) "baz" []))).
  split.
  - intros [|[|c]] k H; [| |destruct c; discriminate]; injection H as <-; (split; [reflexivity|]); cbn [c_ops]; intros m kd b H;
      destruct H as [H|[]]; injection H as <- <- <-; cbn; auto.
  - split; [cbn; tauto|]. split; [repeat constructor; cbn; intuition discriminate|]. split; vm_compute; reflexivity.
Qed.
Print Assumptions C63_underscore_refuted.

Local Arguments String.eqb !_ !_.
(** An overridden class method that calls [super()] calls itself for ever: [class A: f(cls) = 1] and [class B(A): f(cls) = super().f() + 1]. *)
Theorem C63_classmethod_refuted : exists T e, plain T /\ uncopied e /\ NoDup (map c_name T) /\ fst (meaning T 20 e) = Val (VNum 2) /\
  forall fuel, fst (program T fuel e) = Exc NoFuel.
Proof.
  exists [Cls "A" [0] false [("f", (ClassMethod, Num 1))]; Cls "B" [1; 0] false [("f", (ClassMethod, Add (Super 1 "f" []) (Num 1)))]], (Call (Class 1) "f" []).
  split.
  - intros [|[|c]] k H; [| |destruct c; discriminate]; injection H as <-; (split; [reflexivity|]); cbn [c_ops]; intros m kd b H;
      destruct H as [H|[]]; injection H as <- <- <-; cbn; auto.
  - split; [cbn; tauto|]. split; [repeat constructor; cbn; intuition discriminate|]. split; [vm_compute; reflexivity|].
    set (T := [_; _]). intros fuel.
    assert (L : forall f, run T f [] (Heap [] [(RCls 1, "_descriptorop_f", 0)] [(RCls 1, ClassMethod, (1, "f"))]) (TCall (OpInst 0) []) =
                          (Exc NoFuel, Heap [] [(RCls 1, "_descriptorop_f", 0)] [(RCls 1, ClassMethod, (1, "f"))])).
    { intros f. induction f as [f IH] using lt_wf_ind. do 4 (destruct f as [|f]; [reflexivity|]). cbn. rewrite IH by lia. reflexivity. }
    unfold program. do 2 (destruct fuel as [|fuel]; [reflexivity|]).
    change (run T (S (S fuel)) [] start (TEval None [] (Call (Class 1) "f" []))) with (run T (S fuel) [] (Heap [] [(RCls 1, "_descriptorop_f", 0)] [(RCls 1, ClassMethod, (1, "f"))]) (TCall (OpInst 0) [])).
    now rewrite L.
Qed.
Print Assumptions C63_classmethod_refuted.

(** A copy has the operations of the original: after [a.m()] and [b = copy.copy(a)], [b.m()] runs on [a]. *)
Theorem C63_copy_refuted : exists T e, apart T /\ plain T /\ fst (program T 20 e) = Val (VObj 0) /\ fst (meaning T 20 e) = Val (VObj 1).
Proof.
  exists [Cls "A" [0] false [("m", (Method, Var 0))]], (Let (New 0) (Let (Call (Var 0) "m" []) (Let (Copy (Var 1)) (Call (Var 0) "m" [])))).
  split; [|split; [|split; vm_compute; reflexivity]].
  - assert (Z : forall k a m, defined [Cls "A" [0] false [("m", (Method, Var 0))]] k (a, m) -> a = 0 /\ m = "m" /\ k = Method).
    { intros k a m [x H]. destruct a as [|a]; [|destruct a; discriminate H]. unfold body_of in H. cbn [nth_error ops_of find_op c_ops fst snd] in H. destruct (String.eqb_spec "m" m); [|discriminate]. now injection H. }
    split.
    + intros [a m] [b n] H K _. destruct (Z _ _ _ H) as [-> [-> _]], (Z _ _ _ K) as [-> [-> _]]. reflexivity.
    + intros c m a b _ _ H. destruct (Z _ _ _ H) as [_ [_ Q]]. discriminate.
  - intros [|c] k H; [|destruct c; discriminate]; injection H as <-; (split; [reflexivity|]); cbn [c_ops]; intros m kd b H; destruct H as [H|[]]; injection H as <- <- <-; exact Logic.I.
Qed.
Print Assumptions C63_copy_refuted.

(** The term of an unhandled call on a dataclass is of an operation of a copy: [t = a.k(); with handler({a.k: lambda: 7}): evaluate(t)] stays a term. *)
Theorem C63_dataclass_refuted : exists T e, apart T /\ uncopied e /\ fst (meaning T 20 e) = Val (VNum 7) /\ exists p, fst (program T 20 e) = Val (VTerm p []).
Proof.
  exists [Cls "D" [0] true [("k", (Method, Free))]], (Let (New 0) (Let (Call (Var 0) "k" []) (With (Var 1) "k" (Num 7) (Evaluate (Var 0))))).
  split; [|split; [cbn; tauto|split; [vm_compute; reflexivity|eexists; vm_compute; reflexivity]]].
  assert (Z : forall k a m, defined [Cls "D" [0] true [("k", (Method, Free))]] k (a, m) -> a = 0 /\ m = "k" /\ k = Method).
  { intros k a m [x H]. destruct a as [|a]; [|destruct a; discriminate H]. unfold body_of in H. cbn in H. destruct (String.eqb_spec "k" m); [|discriminate]. now injection H. }
  split.
  - intros [a m] [b n] H K _. destruct (Z _ _ _ H) as [-> [-> _]], (Z _ _ _ K) as [-> [-> _]]. reflexivity.
  - intros c m a b _ _ H. destruct (Z _ _ _ H) as [_ [_ Q]]. discriminate.
Qed.
Print Assumptions C63_dataclass_refuted.
