(** C68: terms whose type is a dataclass. *)
From Coq Require Import List Bool Arith Lia.
From Verif Require Import DcModel DcSpec DcProofs.
Import ListNotations.

(** A program using fields and methods of the results of operations, run on terms, after any operations have been called,
    and evaluated later gives what it gives on the objects themselves; when [safe]: no class in use is a base class of
    another, unless the other's terms were made first. *)
Theorem C68_evaluate_partial : forall T declared globals used, fits T declared globals used ->
  forall env, (forall o, conforms T globals (env o) (declared o)) ->
  forall start history fuel e v S0 S0', safe T used start -> run T declared globals (everything env) fuel None e S0 = (Ok v, S0') ->
  exists w S', run T declared globals nothing fuel None e (after_calls T declared globals history start) = (Ok w, S') /\
    forall S'', evaluate T declared globals (everything env) w S'' = (Ok v, S'').
Proof.
  intros T declared globals used Fit env Env start history fuel e v S0 S0' Sf H.
  destruct (commutes T declared globals used Fit env Env fuel e v _ S0 S0' (history_safe T declared globals used Fit history start Sf) H) as (w & S' & E & _ & Ev). eauto.
Qed.
Print Assumptions C68_evaluate_partial.

(** A term of type [c] is an instance of [c] exactly when a term of [c] was made before, or neither of a base class was nor is
    [c] callable or iterable. *)
Theorem C68_instance : forall T declared globals used, fits T declared globals used -> forall S c o, used c -> declared o = FCls c ->
  ((exists k S', call_op T declared globals nothing o S = (Ok (VOp k o), S') /\ k = KData c) <->
   In c S \/ forall k, In k (tl (dispatch_order T c)) -> exists d, k = KeyCls d /\ (d = c \/ ~ In d S)).
Proof. exact instance_iff. Qed.
Print Assumptions C68_instance.

(** Fields [x], [y], [a], [b] are 6, 7, 8, 9; methods [norm], [area], [total] are 20, 21, 22. *)
Definition simple (bases : list nat) (fs : list (nat * fty)) (ms : list (nat * expr)) : cls := Cls bases true fs ms [] false false false.
Definition tab (c : nat) : cls :=
  match c with
  | 10 => simple [10] [(6, FNum); (7, FNum)] [(20, EAdd (EField ESelf 6) (EField ESelf 7))]   (* Point: norm() is x + y *)
  | 11 => simple [11] [(6, FNum)] [(21, ELit 0)]                                              (* Shape: area() is 0 *)
  | 12 => simple [12; 11] [(6, FNum)] [(21, EAdd (EField ESelf 6) (EField ESelf 6))]          (* Square(Shape): area() is x + x *)
  | 13 => simple [13] [(8, FCls 10); (9, FCls 10)] [(22, EAdd (EMeth (EField ESelf 8) 20) (EMeth (EField ESelf 9) 20))]
  | 14 => Cls [14] true [(6, FNum)] [] [0] false false false                                  (* with __call__ *)
  | 15 => simple [15] [(6, FNum); (7, FStr 15)] []                                            (* Node: y is "Node" *)
  | 16 => Cls [16] true [(6, FNum)] [] [] true false false                                    (* slots=True *)
  | 17 => simple [17] [(6, FObj)] []                                                          (* Box[T]: x is T *)
  | 18 => simple [18] [(1, FNum)] []                                                          (* a field args *)
  | 19 => Cls [19] true [(6, FNum)] [] [] false true false                                    (* with abstract methods *)
  | 20 => simple [20; 19] [(6, FNum)] []                                                      (* a concrete subclass of that *)
  | _ => Cls [c] false [] [] [] false false false
  end.
(** Operation [c] returns class [c], others a number. The names [int] and [Node] are 0 and 15. *)
Definition decl (o : nat) : fty := if (10 <=? o) && (o <=? 19) then FCls o else FNum.
Definition glob (s : nat) : option fty := if s =? 0 then Some FNum else None.
Definition point (x y : nat) : val := VObj 10 [(6, VNum x); (7, VNum y)].
Notation direct env e := (run tab decl glob (everything env) 20 None e []) (only parsing).
Notation on_terms S e := (run tab decl glob nothing 20 None e S) (only parsing).
Notation later env w := (evaluate tab decl glob (everything env) w []) (only parsing).

(** [l.total() + Line(q, q).a.x if isinstance(l, Line) else 0] *)
Definition decl13 (o : nat) : fty := if o =? 13 then FCls 13 else FCls 10.
Definition line_program : expr := EIs (EOp 13) 13 (EAdd (EMeth (EOp 13) 22) (EField (EField (EMake 13 [(8, EOp 10); (9, EOp 10)]) 8) 6)) (ELit 0).
Definition line_env (o : nat) : val := if o =? 13 then VObj 13 [(8, point 1 2); (9, point 3 4)] else point 5 6.
Lemma line_fits : fits tab decl13 glob (fun c => c = 10 \/ c = 13).
Proof.
  split.
  - intros o. right. unfold decl13. destruct (o =? 13); eexists; (split; [reflexivity|]); auto.
  - intros c [H|H]; subst c; constructor; try reflexivity; try (eexists; reflexivity).
    + intros f ty [H|[H|[]]]; injection H as <- <-; split; reflexivity.
    + intros f ty [H|[H|[]]]; injection H as <- <-; left; reflexivity.
    + intros f ty [H|[H|[]]]; injection H as <- <-; split; reflexivity.
    + intros f ty [H|[H|[]]]; injection H as <- <-; right; exists 10; (split; [reflexivity|left; reflexivity]).
  - intros c. do 21 (destruct c as [|c]; [reflexivity|]). reflexivity.
Qed.
Lemma line_safe : safe tab (fun c => c = 10 \/ c = 13) [].
Proof. intros c [H|H]; subst c; right; intros k []. Qed.
Lemma line_conforms : forall o, conforms tab glob (line_env o) (decl13 o).
Proof.
  intros o. unfold line_env, decl13, point. destruct (o =? 13); apply conf_obj; try reflexivity; repeat (constructor; try reflexivity).
Qed.
Example C68_evaluate_example : exists w S', fits tab decl13 glob (fun c => c = 10 \/ c = 13) /\ safe tab (fun c => c = 10 \/ c = 13) [] /\ (forall o, conforms tab glob (line_env o) (decl13 o)) /\
  run tab decl13 glob (everything line_env) 20 None line_program [] = (Ok (VNum 15), []) /\
  run tab decl13 glob nothing 20 None line_program (after_calls tab decl13 glob [10] []) = (Ok w, S') /\ is_term w = Some KNum /\ S' = [13; 10] /\
  evaluate tab decl13 glob (everything line_env) w S' = (Ok (VNum 15), S').
Proof.
  eexists. eexists. split; [exact line_fits|]. split; [exact line_safe|]. split; [exact line_conforms|]. split; [reflexivity|]. split; [vm_compute; reflexivity|]. split; [reflexivity|]. split; reflexivity.
Qed.
Example C68_instance_example : call_op tab decl13 glob nothing 13 [10] = (Ok (VOp (KData 13) 13), [13; 10]) /\ isinstance tab (VOp (KData 13) 13) 13 = true /\
  call_op tab decl glob nothing 12 [10] = (Ok (VOp (KData 12) 12), [12; 10]) /\ isinstance tab (VOp (KData 12) 12) 11 = true.
Proof. split; [reflexivity|]. split; [reflexivity|]. split; reflexivity. Qed.

(** ** What is false *)

(** A base class: after [shape()] has been called, [square().area()] is [Shape.area], and evaluates to 0. *)
Theorem C68_history_refuted : exists e env v w w', (forall o, o = 11 \/ o = 12 -> conforms tab glob (env o) (decl o)) /\
  direct env e = (Ok (VNum v), []) /\
  fst (on_terms [] e) = Ok w /\ fst (later env w) = Ok (VNum v) /\
  fst (on_terms (after_calls tab decl glob [11] []) e) = Ok w' /\ fst (later env w') <> Ok (VNum v).
Proof.
  exists (EMeth (EOp 12) 21), (fun o => VObj o [(6, VNum 4)]), 8. eexists. eexists.
  split; [intros o [H|H]; subst o; apply conf_obj; try reflexivity; repeat constructor|]. split; [reflexivity|]. split; [reflexivity|]. split; [reflexivity|]. split; [reflexivity|]. intros H. vm_compute in H. discriminate H.
Qed.
Print Assumptions C68_history_refuted.

(** Then it is no instance of its class. *)
Theorem C68_base_refuted : exists o c S v, decl o = FCls c /\ S = after_calls tab decl glob [11] [] /\ fst (call_op tab decl glob nothing o S) = Ok v /\ isinstance tab v c = false.
Proof. exists 12, 12. eexists. eexists. split; [reflexivity|]. split; [reflexivity|]. split; reflexivity. Qed.
Print Assumptions C68_base_refuted.

(** A value of a subclass: the methods are those of the annotated class. *)
Theorem C68_subclass_refuted : exists e env w, decl 11 = FCls 11 /\ class_of (env 11) = Some 12 /\ In 11 (mro (tab 12)) /\
  direct env e = (Ok (VNum 8), []) /\ fst (on_terms [] e) = Ok w /\ fst (later env w) = Ok (VNum 0).
Proof. exists (EMeth (EOp 11) 21), (fun _ => VObj 12 [(6, VNum 4)]). eexists. split; [reflexivity|]. split; [reflexivity|]. split; [cbn; auto|]. split; [reflexivity|]. split; reflexivity. Qed.
Print Assumptions C68_subclass_refuted.

(** Programs that run on the objects of the annotated classes, but not on terms: a callable dataclass, a field with a forward reference, a
    generic field, a field [args] *)
Definition stuck (e : expr) (error : err) : Prop := exists env v, (forall o, o = 14 \/ o = 15 \/ o = 17 \/ o = 18 -> exists fs, env o = VObj o fs /\ map fst fs = map fst (fields (tab o))) /\
  direct env e = (Ok v, []) /\ fst (on_terms [] e) = Err error.
Definition objects (o : nat) : val := VObj o (map (fun p => (fst p, match snd p with FStr s => VObj s [(6, VNum 3); (7, VNum 0)] | _ => VNum 3 end)) (fields (tab o))).
Lemma objects_fit : forall o, o = 14 \/ o = 15 \/ o = 17 \/ o = 18 -> exists fs, objects o = VObj o fs /\ map fst fs = map fst (fields (tab o)).
Proof. intros o H. unfold objects. eexists. split; [reflexivity|]. rewrite map_map. reflexivity. Qed.
Theorem C68_callable_refuted : stuck (EField (EOp 14) 6) AttributeError.
Proof. exists objects, (VNum 3). split; [exact objects_fit|]. split; reflexivity. Qed.
Print Assumptions C68_callable_refuted.
Theorem C68_forward_refuted : stuck (EField (EField (EOp 15) 7) 6) NameError.
Proof. exists objects, (VNum 3). split; [exact objects_fit|]. split; reflexivity. Qed.
Print Assumptions C68_forward_refuted.
Theorem C68_generic_refuted : stuck (EAdd (EField (EOp 17) 6) (ELit 1)) TypeError.
Proof. exists objects, (VNum 4). split; [exact objects_fit|]. split; reflexivity. Qed.
Print Assumptions C68_generic_refuted.
Theorem C68_reserved_refuted : stuck (EField (EOp 18) 1) AssertionError.
Proof. exists objects, (VNum 3). split; [exact objects_fit|]. split; reflexivity. Qed.
Print Assumptions C68_reserved_refuted.
(** The annotation is a class with abstract methods. *)
Theorem C68_abstract_refuted : exists env, class_of (env 19) = Some 20 /\ In 19 (mro (tab 20)) /\ abstract (tab 20) = false /\
  direct env (EField (EOp 19) 6) = (Ok (VNum 3), []) /\ fst (on_terms [] (EField (EOp 19) 6)) = Err TypeError.
Proof. exists (fun _ => VObj 20 [(6, VNum 3)]). split; [reflexivity|]. split; [cbn; auto|]. split; [reflexivity|]. split; reflexivity. Qed.
Print Assumptions C68_abstract_refuted.

(** A dataclass with slots: the term of the field cannot be evaluated. *)
Theorem C68_slots_refuted : exists env w, conforms tab glob (env 16) (FCls 16) /\ direct env (EField (EOp 16) 6) = (Ok (VNum 3), []) /\
  fst (on_terms [] (EField (EOp 16) 6)) = Ok w /\ fst (later env w) = Err AttributeError.
Proof. exists objects. eexists. split; [apply conf_obj; [reflexivity|repeat constructor]|]. split; [reflexivity|]. split; reflexivity. Qed.
Print Assumptions C68_slots_refuted.

(** A dataclass with a field that [__init__] does not take: an object of it cannot be evaluated. *)
Definition tab_init (c : nat) : cls := Cls [c] true [(6, FNum)] [] [] false false true.
Theorem C68_init_refuted : exists v, (forall env : nat -> val, fst (evaluate tab_init decl glob (everything env) v []) = Err ValueError) /\ is_term v = None /\ class_of v = Some 20.
Proof. exists (VObj 20 [(6, VNum 3)]). split; [reflexivity|]. split; reflexivity. Qed.
Print Assumptions C68_init_refuted.
