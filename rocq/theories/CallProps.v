(** C69: tool calls. *)
From Coq Require Import String List Bool Arith.
Import ListNotations.
From Verif Require Import StrModel TupModel TupSpec CallModel CallSpec CallProofs CallLaws.

(** The name under which a tool of the context is published is the name of that tool. *)
Theorem C69_advertised : forall c t key, NoDup (map fst c) -> In (key, CTool t) c ->
  exists u, validate_tool c (serialize_tool c t) = Some (CTool u) /\ t_id u = t_id t.
Proof. exact advertised. Qed.
Print Assumptions C69_advertised.

(** A tool called so is given, for each parameter, the value decoded from what the model sent for
    it, or its default. Not for [*args] and [**kwargs], which are refused or nested. *)
Theorem C69_received_partial : forall atom_dec float c m k d,
  decode_call atom_dec float c m = Ok k -> m_args m = PDict d -> NoDup (map fst d) ->
  distinct_names (t_params (c_tool k)) -> keywords_last (t_params (c_tool k)) ->
  (forall p, In p (t_params (c_tool k)) -> is_star p = true -> ~ In (p_name p) (map fst d)) ->
  cget c (m_name m) = Some (CTool (c_tool k)) /\ c_id k = m_id m /\
  exists env, receive (t_params (c_tool k)) (fst (called_with k)) (snd (called_with k)) = Some env /\
    Forall2 (should_receive atom_dec float d) (t_params (c_tool k)) env.
Proof. exact received_right. Qed.
Print Assumptions C69_received_partial.

(** Exactly these calls are accepted: known names, values of their types, nothing required missing. *)
Theorem C69_accepted : forall atom_dec float c m t d,
  cget c (m_name m) = Some (CTool t) -> m_args m = PDict d -> NoDup (map fst d) ->
  distinct_names (t_params t) -> Forall (fun p => by_name p = true) (t_params t) ->
  (exists k, decode_call atom_dec float c m = Ok k) <->
  (forall n j, pget d n = Some j -> exists p v, In p (t_params t) /\ p_name p = n /\ dec atom_dec float (p_ann p) j = Ok v) /\
  (forall p, In p (t_params t) -> p_default p = false -> In (p_name p) (map fst d)).
Proof. exact accepted_iff. Qed.
Print Assumptions C69_accepted.

(** A call that follows what is published of a tool is accepted and calls that tool, if its
    parameters can be given by name. *)
Theorem C69_schema_partial : forall atom_dec float c t key m d, NoDup (map fst c) -> In (key, CTool t) c ->
  (forall k u, In (k, CTool u) c -> t_id u = t_id t -> u = t) ->
  m_name m = a_name (serialize_tool c t) -> m_args m = PDict d -> admits atom_dec float (serialize_tool c t) d ->
  distinct_names (t_params t) -> Forall (fun p => by_name p = true) (t_params t) -> Forall (fun p => wf (p_ann p)) (t_params t) ->
  exists k, decode_call atom_dec float c m = Ok k /\ c_tool k = t.
Proof. exact schema_accepted. Qed.
Print Assumptions C69_schema_partial.

(** Decoding what a call is encoded to gives the call, if the tool is in the context under its own
    name and the types are steady. *)
Theorem C69_round_trip_partial : forall atom_has atom_dec atom_enc float class typed any_atom any_complex,
  scalars_round_trip atom_has atom_dec atom_enc float class any_atom -> atoms_sound atom_has atom_dec ->
  forall c m k d, decode_call atom_dec float c m = Ok k -> m_args m = PDict d -> NoDup (map fst d) ->
  distinct_names (t_params (c_tool k)) ->
  (forall p, In p (t_params (c_tool k)) -> is_star p = true -> ~ In (p_name p) (map fst d)) ->
  (forall p, In p (t_params (c_tool k)) -> In (p_name p) (map fst d) -> steady atom_has class (p_ann p)) ->
  t_name (c_tool k) = m_name m ->
  exists m', encode_call atom_enc class typed any_atom any_complex k = Ok m' /\ decode_call atom_dec float c m' = Ok k.
Proof. exact call_round_trip. Qed.
Print Assumptions C69_round_trip_partial.

(** The answer holds the result: it decodes to it. *)
Theorem C69_result_partial : forall atom_has atom_dec atom_enc float class typed any_atom any_complex,
  scalars_round_trip atom_has atom_dec atom_enc float class any_atom ->
  forall k t v, steady atom_has class t -> has atom_has float v t ->
  exists j, call_tool atom_enc class typed any_atom any_complex k (Ok v) = Answered (c_id k) j /\ dec atom_dec float t j = Ok v.
Proof. exact result_round_trip. Qed.
Print Assumptions C69_result_partial.

(** An example: scalars that are their own encoding, of two classes. *)
Definition ex_dec (k : nat) (v : pyv) : res pyv := match v with PAtom n => Ok (PAtom n) | _ => Err EValidation end.
Definition ex_has (k : nat) (v : pyv) : Prop := exists n, v = PAtom n.
Definition ex_class (n : nat) : nat := if Nat.ltb n 10 then 0 else 1.
Definition ex_any (n : nat) : res pyv := Ok (PAtom n).
Definition ex_any_complex (a b : nat) : res pyv := Ok (PAtom 77).
Definition ex_typed (c : nat) : bool := Nat.eqb c 0.
Definition ex_params : list param :=
  [{| p_name := "a"; p_kind := PosKw; p_ann := TTuple [TAtom 0; TComplex]; p_default := false |};
   {| p_name := "b"; p_kind := PosKw; p_ann := TAtom 0; p_default := true |};
   {| p_name := "c"; p_kind := KwOnly; p_ann := TList (TList (TAtom 0)); p_default := false |}].
Definition ex_tool : tool := {| t_id := 1; t_name := "f"; t_params := ex_params |}.
Definition ex_other : tool := {| t_id := 2; t_name := "h"; t_params := ex_params |}.
Definition ex_args : list (string * pyv) :=
  [("c", PList [PList [PAtom 3; PAtom 12]; PList []]);
   ("a", PDict [("item_0", PAtom 4); ("item_1", PDict [("real", PAtom 1); ("imag", PAtom 2)])])]%string.
Definition ex_message (n : string) : message := {| m_id := 5; m_name := n; m_args := PDict ex_args |}.
Definition ex_call : call :=
  {| c_tool := ex_tool; c_id := 5; c_name := "f";
     c_args := [("a", PTuple [PAtom 4; PComplex 1 2]); ("c", PList [PList [PAtom 3; PAtom 12]; PList []])]%string |}.
Definition ex_context : context := [("x"%string, COther 0); ("f"%string, CTool ex_tool)].

Lemma ex_scalars : scalars_round_trip ex_has ex_dec ex_dec 9 ex_class ex_any.
Proof.
  split; [|reflexivity]. intros k v [n ->]. exists n. split; auto. split; exists (PAtom n); split; reflexivity.
Qed.
Lemma ex_sound : atoms_sound ex_has ex_dec.
Proof. intros k j v H. destruct j; try discriminate. injection H as <-. eexists; reflexivity. Qed.
Example C69_example :
  decode_call ex_dec 9 ex_context (ex_message "f") = Ok ex_call /\
  called_with ex_call = ([PTuple [PAtom 4; PComplex 1 2]], [("c"%string, PList [PList [PAtom 3; PAtom 12]; PList []])]) /\
  receive ex_params (fst (called_with ex_call)) (snd (called_with ex_call)) =
    Some [RVal (PTuple [PAtom 4; PComplex 1 2]); RDefault; RVal (PList [PList [PAtom 3; PAtom 12]; PList []])] /\
  (exists m', encode_call ex_dec ex_class ex_typed ex_any ex_any_complex ex_call = Ok m' /\ decode_call ex_dec 9 ex_context m' = Ok ex_call) /\
  Forall (fun p => steady ex_has ex_class (p_ann p)) ex_params /\ distinct_names ex_params /\ keywords_last ex_params.
Proof.
  assert (DN : distinct_names ex_params) by (repeat constructor; cbn; intuition discriminate).
  assert (ST : Forall (fun p => steady ex_has ex_class (p_ann p)) ex_params) by (repeat constructor).
  split; [reflexivity|]. split; [reflexivity|]. split; [reflexivity|]. split; [|split; [exact ST|split; [exact DN|]]].
  - apply (C69_round_trip_partial ex_has ex_dec ex_dec 9 ex_class ex_typed ex_any ex_any_complex ex_scalars ex_sound
             ex_context (ex_message "f") ex_call ex_args); auto.
    + repeat constructor; cbn; intuition discriminate.
    + intros p [<-|[<-|[<-|[]]]]; discriminate.
    + intros p Hp _. rewrite Forall_forall in ST. auto.
  - intros l p r E K. assert (In p ex_params) by (rewrite E; apply in_or_app; right; left; auto).
    destruct H as [<-|[<-|[<-|[]]]]; discriminate K.
Qed.
(** What is published of the tool, and a call that follows it. *)
Definition ex_full : list (string * pyv) := (("b"%string, PAtom 8) :: ex_args)%list.
Example C69_schema_example :
  serialize_tool ex_context ex_tool =
    {| a_name := "f"; a_params := [("a", TTuple [TAtom 0; TComplex]); ("b", TAtom 0); ("c", TList (TList (TAtom 0)))]%string |} /\
  admits ex_dec 9 (serialize_tool ex_context ex_tool) ex_full /\ Forall (fun p => wf (p_ann p)) ex_params.
Proof.
  split; [reflexivity|]. split; [|repeat constructor]. split; [repeat constructor; cbn; intuition discriminate|].
  split; [intros k; cbn; intuition|]. intros n t [[= <- <-]|[[= <- <-]|[[= <- <-]|[]]]]; eexists; (split; [reflexivity|]).
  - apply V_tuple; [intros k; cbn; intuition|]. intros [|[|[|i]]] t; cbn; try discriminate; intros [= <-]; eexists; (split; [reflexivity|]).
    + eapply V_atom. reflexivity.
    + eapply V_complex; try reflexivity. intros k; cbn; intuition.
  - eapply V_atom. reflexivity.
  - repeat (constructor; try (eapply V_atom; reflexivity)).
Qed.

(** A call is encoded under the [__name__] of its tool, not under the name it is published by:
    decoded again it may call another tool, or none. *)
Theorem C69_name_refuted :
  (exists c m k m' k', NoDup (map fst c) /\ m_name m = a_name (serialize_tool c ex_tool) /\
    decode_call ex_dec 9 c m = Ok k /\ c_tool k = ex_tool /\
    encode_call ex_dec ex_class ex_typed ex_any ex_any_complex k = Ok m' /\
    decode_call ex_dec 9 c m' = Ok k' /\ t_id (c_tool k') <> t_id (c_tool k)) /\
  (exists c m k m', NoDup (map fst c) /\ m_name m = a_name (serialize_tool c ex_tool) /\
    decode_call ex_dec 9 c m = Ok k /\ c_tool k = ex_tool /\
    encode_call ex_dec ex_class ex_typed ex_any ex_any_complex k = Ok m' /\ decode_call ex_dec 9 c m' = Err EKey).
Proof.
  split.
  - exists [("g"%string, CTool ex_tool); ("f"%string, CTool ex_other)], (ex_message "g"). do 3 eexists.
    split; [repeat constructor; cbn; intuition discriminate|]. split; [reflexivity|]. split; [reflexivity|]. split; [reflexivity|].
    split; [reflexivity|]. split; [reflexivity|]. discriminate.
  - exists [("g"%string, CTool ex_tool)], (ex_message "g"). do 2 eexists.
    split; [repeat constructor; cbn; intuition discriminate|]. split; [reflexivity|]. split; [reflexivity|]. split; [reflexivity|].
    split; reflexivity.
Qed.
Print Assumptions C69_name_refuted.

(** A tool with a required positional-only parameter is published, but accepts no call. *)
Theorem C69_positional_refuted : forall atom_dec float c m t p,
  cget c (m_name m) = Some (CTool t) -> distinct_names (t_params t) ->
  In p (t_params t) -> p_kind p = PosOnly -> p_default p = false -> forall k, decode_call atom_dec float c m <> Ok k.
Proof. exact positional_refused. Qed.
Print Assumptions C69_positional_refuted.

(** Nor does one with a parameter [*args] accept a call that follows what is published. *)
Theorem C69_star_refuted : forall atom_dec float c m t p d,
  cget c (m_name m) = Some (CTool t) -> distinct_names (t_params t) ->
  In p (t_params t) -> p_kind p = VarPos -> (forall q, In q (t_params t) -> p_kind q <> VarKw) ->
  m_args m = PDict d -> admits atom_dec float (serialize_tool c t) d -> forall k, decode_call atom_dec float c m <> Ok k.
Proof. exact star_refused. Qed.
Print Assumptions C69_star_refuted.
Definition ex_star : tool :=
  {| t_id := 3; t_name := "s"; t_params := [{| p_name := "args"; p_kind := VarPos; p_ann := TAtom 0; p_default := false |}] |}.
Example C69_star_example : admits ex_dec 9 (serialize_tool [("s"%string, CTool ex_star)] ex_star) [("args"%string, PAtom 1)] /\
  decode_call ex_dec 9 [("s"%string, CTool ex_star)] {| m_id := 0; m_name := "s"; m_args := PDict [("args"%string, PAtom 1)] |} = Err EType.
Proof.
  split; [|reflexivity]. split; [repeat constructor; cbn; intuition|]. split; [intros k; cbn; intuition|].
  intros n t [[= <- <-]|[]]. eexists. split; [reflexivity|]. eapply V_atom. reflexivity.
Qed.

(** What is sent for a parameter [**kwargs] reaches the tool one level down, under its name. *)
Theorem C69_keywords_refuted : forall atom_dec float c m t n ty j v, cget c (m_name m) = Some (CTool t) ->
  t_params t = [{| p_name := n; p_kind := VarKw; p_ann := ty; p_default := false |}] ->
  m_args m = PDict [(n, j)] -> dec atom_dec float ty j = Ok v ->
  exists k, decode_call atom_dec float c m = Ok k /\ receive (t_params t) (fst (called_with k)) (snd (called_with k)) = Some [RKw [(n, v)]].
Proof. exact keywords_nested. Qed.
Print Assumptions C69_keywords_refuted.

(** What a variadic tuple is encoded to is refused by its annotation. *)
Theorem C69_variadic_refuted : forall atom_dec atom_enc float class typed any_atom any_complex t x l j,
  dump atom_enc class typed any_atom any_complex (PTuple (x :: l)) = Ok j -> dec atom_dec float (TVariadic t) j = Err EValidation.
Proof. exact variadic_lost. Qed.
Print Assumptions C69_variadic_refuted.
Example C69_variadic_example : dump ex_dec ex_class ex_typed ex_any ex_any_complex (PTuple [PAtom 1; PAtom 12]) =
  Ok (PDict [("item_0", PAtom 1); ("item_1", PAtom 12)])%string.
Proof. reflexivity. Qed.

(** A tool that returns a named tuple ends the conversation: the error is not one of the tool, so it is not
    answered even if every error of tools is caught. *)
Theorem C69_named_refuted : forall atom_enc class typed any_atom any_complex cl l k caught feedback, typed cl = true ->
  dump atom_enc class typed any_atom any_complex (PNamed cl l) = Err EType /\
  retry_call_tool atom_enc class typed any_atom any_complex caught feedback k (Ok (PNamed cl l)) = Raised EType.
Proof. exact named_refused. Qed.
Print Assumptions C69_named_refuted.
Theorem C69_namedtuple_refuted : forall atom_enc class typed any_atom any_complex cl n m k caught feedback j,
  typed cl = false -> class n = class m -> atom_enc (class n) (PAtom n) = Ok j ->
  retry_call_tool atom_enc class typed any_atom any_complex caught feedback k (Ok (PNamed cl [PAtom n; PAtom m])) = Raised EIndex.
Proof. exact namedtuple_refused. Qed.
Print Assumptions C69_namedtuple_refuted.

(** Complex numbers in a list whose items differ in type do not come back, unless pydantic makes
    objects of them by itself. *)
Theorem C69_complex_refuted : forall atom_dec atom_enc float class typed any_atom any_complex a b,
  (forall d, any_complex a b <> Ok (PDict d)) ->
  ~ exists j v, dump atom_enc class typed any_atom any_complex (PList [PList [PComplex a b]; PList []]) = Ok j /\
      dec atom_dec float (TList (TList TComplex)) j = Ok v.
Proof. exact complex_lost. Qed.
Print Assumptions C69_complex_refuted.
