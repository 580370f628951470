(** C71: a synthesized function can be called as its type says, and a function sent to the model and back does the same. *)
From Coq Require Import String List Bool Arith ZArith Lia.
Import ListNotations.
From Verif Require Import SynModel SynSpec SynProofs.
Local Open Scope string_scope.
Local Open Scope list_scope.

(** What it means that a function takes [n] arguments. *)
Theorem C71_takes : forall ps args, ordered ps -> ((exists l, bind_args ps args = Ok l) <-> takes ps (length args)).
Proof. exact bind_args_takes. Qed.
Print Assumptions C71_takes.

(** The function decoded for [Callable[[A1, ..., An], R]] is the last one of the code; called with n arguments, it runs its body
    with each parameter bound to its argument. *)
Theorem C71_decoded_partial : forall prim fuel check n st ctx l d v st', validate prim fuel check (Typed (Some n) RType) st ctx (ICode (Code l)) = Ok (v, st') ->
  last_stmt l = Some (SDef d) -> f_decorators d = [] ->
  v = VFun (length st) [] d /\ takes (f_params d) n /\
  forall k args, length args = n -> call prim (S k) st' v args = eval prim k st' (length st) (combine (map p_name (f_params d)) args) (f_body d).
Proof. exact decoded. Qed.
Print Assumptions C71_decoded_partial.

(** Whatever is decoded is callable and has n parameters and a return annotation, decorated or not. *)
Theorem C71_signature : forall prim fuel check n st ctx c v st', validate prim fuel check (Typed (Some n) RType) st ctx (ICode c) = Ok (v, st') ->
  callable v = true /\ exists ps, signature v = Some (ps, true) /\ length ps = n.
Proof. exact decoded_signature. Qed.
Print Assumptions C71_signature.

(** Code that ends in such a function and runs is decoded. *)
Theorem C71_decodes_partial : forall prim fuel check expected st ctx l d g, last_stmt l = Some (SDef d) -> f_decorators d = [] -> f_async d = false -> f_returns d = true ->
  Forall plain (f_params d) -> (forall n, expected = Some n -> length (f_params d) = n) -> check l = Ok tt ->
  exec prim fuel st (filter (fun p => isidentifier (fst p)) ctx) l = Ok g ->
  validate prim fuel check (Typed expected RType) st ctx (ICode (Code l)) = Ok (VFun (length st) [] d, st ++ [g]).
Proof. exact decodes. Qed.
Print Assumptions C71_decodes_partial.

(** A function that finds its variables in the context comes back as one that does the same: equal results and errors at every call,
    except that functions returned may be the copy in place of the original. *)
Theorem C71_round_trip_partial : forall prim fuel check st m cl d expected ctx, closed_store st -> closed (length st) (VFun m cl d) ->
  f_lambda d = false -> f_async d = false -> f_decorators d = [] -> f_returns d = true -> Forall plain (f_params d) ->
  (forall n, expected = Some n -> length (f_params d) = n) -> check [SDef d] = Ok tt ->
  (forall x, free (f_body d) x -> ~ In x (map p_name (f_params d)) ->
     if String.eqb x (f_name d) then sees st m cl x = Some (VFun m cl d) else isidentifier x = true /\ get ctx x = sees st m cl x) ->
  exists src v st', serialize (VFun m cl d) = Ok src /\ validate prim fuel check (Typed expected RType) st ctx (ICode src) = Ok (v, st') /\
    forall k args, Forall (closed (length st)) args -> same_result (VFun m cl d) v (call prim k st (VFun m cl d) args) (call prim k st' v args).
Proof. exact round_trip. Qed.
Print Assumptions C71_round_trip_partial.

(** Multiplication, subtraction and <= are built in. *)
Definition arith (k : nat) (l : list Z) : option Z :=
  match k, l with 0, [a; b] => Some (a * b)%Z | 1, [a; b] => Some (a - b)%Z | 2, [a; b] => Some (if (a <=? b)%Z then 1 else 0)%Z | _, _ => None end.
Definition builtin (x : string) (k : nat) : string * val := (x, VPrim (Some x) true None k).
Definition arg (x : string) : param := {| p_name := x; p_kind := PosKw; p_default := None |}.
Definition def (name : string) (ps : list param) (body : expr) : fdef :=
  {| f_name := name; f_params := ps; f_returns := true; f_async := false; f_lambda := false; f_decorators := []; f_body := body |}.
Definition app (f : string) (l : list expr) : expr := ECall (EVar f) l.
Definition passes (l : list stmt) : res unit := Ok tt.

(** The factorial, in a module that has it under its name; the bound 1 is in its closure. *)
Definition fact : fdef :=
  def "fact" [arg "n"] (EIf (app "le" [EVar "n"; EVar "one"]) (EVar "one") (app "mul" [EVar "n"; app "fact" [app "sub" [EVar "n"; EVar "one"]]])).
Definition the_fact : val := VFun 0 [("one", VInt 1)] fact.
Definition tools : env := [builtin "mul" 0; builtin "sub" 1; builtin "le" 2].
Definition here : store := [("fact", the_fact) :: tools].
Definition lexical : env := ("one", VInt 1) :: ("<type_check_anchor>", VNone) :: tools.
Example C71_fact_hypotheses :
  closed_store here /\ closed (length here) the_fact /\ Forall plain (f_params fact) /\
  (forall x, free (f_body fact) x -> ~ In x (map p_name (f_params fact)) ->
     if String.eqb x (f_name fact) then sees here 0 [("one", VInt 1)] x = Some the_fact else isidentifier x = true /\ get lexical x = sees here 0 [("one", VInt 1)] x) /\
  call arith 30 here the_fact [VInt 5] = Ok (VInt 120).
Proof.
  assert (CF : closed (length here) the_fact) by (repeat constructor).
  split; [|split; [exact CF|split; [constructor; [right; reflexivity|constructor]|split; [|reflexivity]]]].
  - intros g x v [<-|[]]. cbn [get tools builtin]. repeat (destruct (String.eqb _ x); [intros [= <-]; first [exact CF|constructor]|]). discriminate.
  - intros x F NI. cbn in F, NI. destruct F as [F|[F|F]]; repeat match goal with H : _ \/ _ |- _ => destruct H as [H|H] | H : False |- _ => destruct H end; subst; try (exfalso; apply NI; left; reflexivity); cbn; auto.
Qed.
Example C71_fact_decoded : exists st', validate arith 9 passes (Typed (Some 1) RType) here lexical (ICode (Code [SAssign "two" (EInt 2); SDef fact])) = Ok (VFun 1 [] fact, st') /\
  call arith 30 st' (VFun 1 [] fact) [VInt 5] = Ok (VInt 120).
Proof. eexists. split; reflexivity. Qed.

(** Decorators: what is decoded need not take its arguments. *)
Theorem C71_decorated_refuted :
  exists l v st', validate arith 9 passes (Typed (Some 1) RType) [] [] (ICode (Code l)) = Ok (v, st') /\
    forall k args, length args = 1 -> call arith (S k) st' v args = Err ETypeError.
Proof.
  set (other := def "other" [{| p_name := "x"; p_kind := KwOnly; p_default := None |}] (EVar "x")).
  set (f := {| f_name := "f"; f_params := [arg "x"]; f_returns := true; f_async := false; f_lambda := false; f_decorators := [EVar "swap"]; f_body := EVar "x" |}).
  exists [SDef other; SDef (def "swap" [arg "f"] (EVar "other")); SDef f]. do 2 eexists. split; [reflexivity|]. intros k [|a [|b args]] L; try discriminate. reflexivity.
Qed.
Print Assumptions C71_decorated_refuted.

(** A Python callable in the place of code is not looked at. *)
Theorem C71_values_refuted :
  exists v, (forall prim fuel check t st ctx, validate prim fuel check t st ctx (IVal v) = Ok (v, st)) /\ forall prim k st args, length args = 1 -> call prim (S k) st v args = Err ETypeError.
Proof. exists (VFun 0 [] (def "f" [] ENone)). split; [reflexivity|]. intros prim k st [|a [|b args]] L; try discriminate. reflexivity. Qed.
Print Assumptions C71_values_refuted.

(** Functions that take n arguments are refused if they have more parameters: with a default, or [*args]. *)
Theorem C71_optional_refuted :
  (exists d, takes (f_params d) 1 /\ f_returns d = true /\ (exists p, In p (f_params d) /\ p_default p <> None) /\
     forall prim fuel check st ctx, validate prim fuel check (Typed (Some 1) RType) st ctx (ICode (Code [SDef d])) = Err EValueError) /\
  (exists d, (forall n, takes (f_params d) n) /\ f_returns d = true /\
     forall prim fuel check st ctx, validate prim fuel check (Typed (Some 1) RType) st ctx (ICode (Code [SDef d])) = Err EValueError).
Proof.
  split.
  - exists (def "f" [arg "x"; {| p_name := "y"; p_kind := PosKw; p_default := Some 0%Z |}] (EVar "x")). split.
    + split; [left; cbn; lia|]. split; [intros p [<-|[]]; discriminate|]. intros p [<-|[<-|[]]]; discriminate.
    + split; [reflexivity|]. split; [|reflexivity]. eexists. split; [right; left; reflexivity|discriminate].
  - exists (def "f" [{| p_name := "xs"; p_kind := VarPos; p_default := None |}] (EVar "xs")). split; [|split; [reflexivity|reflexivity]].
    intros n. split; [right; eexists; split; [left; reflexivity|reflexivity]|]. split; [intros p; cbn [filter f_params def]; rewrite skipn_nil; intros []|]. intros p [<-|[]]; discriminate.
Qed.
Print Assumptions C71_optional_refuted.

(** No code at all is decoded for [Callable[[...], None]]. *)
Theorem C71_none_refuted : forall prim fuel check n st ctx c, validate prim fuel check (Typed n RNone) st ctx (ICode c) = Err ETypeError.
Proof. reflexivity. Qed.
Print Assumptions C71_none_refuted.

(** Lambdas, methods and classes do not come back. *)
Theorem C71_forms_refuted :
  exists lambda method cls, (forall n v, In (n, v) [(1, lambda); (1, method); (1, cls)] -> exists ps a, signature v = Some (ps, a) /\ takes ps n) /\
    forall v, In v [lambda; method; cls] -> exists src, serialize v = Ok src /\
      forall prim fuel check st ctx, validate prim fuel check (Typed (Some 1) RType) st ctx (ICode src) = Err EValueError.
Proof.
  assert (T : takes [arg "x"] 1) by (apply (plain_takes [arg "x"]); repeat constructor; right; reflexivity).
  exists (VFun 0 [] {| f_name := "f"; f_params := [arg "x"]; f_returns := false; f_async := false; f_lambda := true; f_decorators := []; f_body := EVar "x" |}),
    (VMethod (VObject 0) 0 [] (def "f" [arg "self"; arg "x"] (EVar "x"))), (VClass "C" [arg "x"]). split.
  - intros n v [[= <- <-]|[[= <- <-]|[[= <- <-]|[]]]]; eexists _, _; (split; [reflexivity|exact T]).
  - intros v [<-|[<-|[<-|[]]]]; eexists; (split; [reflexivity|]); intros; reflexivity.
Qed.
Print Assumptions C71_forms_refuted.

(** Built-in functions never come back: their stub has no return annotation or is not Python. *)
Theorem C71_builtin_refuted : forall name doc sg code src, serialize (VPrim name doc sg code) = Ok src ->
  forall prim fuel check t st ctx, exists e, validate prim fuel check t st ctx (ICode src) = Err e.
Proof.
  intros name doc sg code src H prim fuel check t st ctx. destruct (validate prim fuel check t st ctx (ICode src)) as [[v st']|e] eqn:E; [|eauto]. exfalso.
  unfold serialize in H. cbn in H. destruct name as [name|]; [|discriminate]. destruct doc; [|discriminate]. destruct sg as [ps|]; injection H as <-.
  - apply validate_inv in E as (ex & l & d & g & _ & EL & LL & _ & _ & _ & EX & G & _ & VC & _). injection EL as <-. injection LL as <-.
    rewrite (last_def _ _ _ _ _ _ _ EX eq_refl eq_refl) in G. injection G as <-. unfold validate_callable in VC. cbn in VC. destruct ex as [n|]; [destruct (Nat.eqb (length ps) n)|]; discriminate.
  - apply validate_inv in E as (ex & l & d & g & _ & EL & _). discriminate.
Qed.
Print Assumptions C71_builtin_refuted.
Example C71_builtin_example : exists src, serialize (VPrim (Some "sqrt") true (Some [{| p_name := "x"; p_kind := PosOnly; p_default := None |}]) 0) = Ok src.
Proof. eexists. reflexivity. Qed.

(** A variable that is not in the context is only missed when the function is called. *)
Theorem C71_context_refuted :
  exists st v src v' st', serialize v = Ok src /\ validate arith 9 passes (Typed (Some 0) RType) st [] (ICode src) = Ok (v', st') /\
    call arith 5 st v [] = Ok (VInt 7) /\ forall k, call arith (2 + k) st' v' [] = Err ENameError.
Proof.
  exists [[("seven", VInt 7)]], (VFun 0 [] (def "f" [] (EVar "seven"))). do 3 eexists. split; [reflexivity|]. split; [reflexivity|]. split; reflexivity.
Qed.
Print Assumptions C71_context_refuted.

(** Identifiers: a letter or underscore, followed by letters, underscores and digits. *)
Theorem C71_identifiers : forall s, isidentifier s = true <-> exists c r, s = String c r /\
  In c (list_ascii_of_string "ABCDEFGHIJKLMNOPQRSTUVWXYZ_abcdefghijklmnopqrstuvwxyz") /\
  forall c, In c (list_ascii_of_string r) -> In c (list_ascii_of_string "ABCDEFGHIJKLMNOPQRSTUVWXYZ_abcdefghijklmnopqrstuvwxyz0123456789").
Proof. exact identifier_chars. Qed.
Print Assumptions C71_identifiers.
