(** C36: tuple encoding round trips. *)
From Coq Require Import String List Bool Arith.
Import ListNotations.
From Verif Require Import StrModel TupModel TupSpec TupProofs.
Open Scope string_scope.
Open Scope list_scope.

(** Encoding a value of a type built from scalars, complex numbers, tuples, named tuples, lists
    and variadic tuples gives JSON which decodes to the value, if scalars round trip. *)
Theorem C36_round_trip : forall atom_has atom_dec atom_enc float,
  atoms_round_trip atom_has atom_dec atom_enc float ->
  forall t v, wf t -> has atom_has float v t ->
  exists j, enc atom_enc t v = Ok j /\ is_json j /\ dec atom_dec float t j = Ok v.
Proof. exact round_trip. Qed.
Print Assumptions C36_round_trip.

(** An object is accepted as a tuple exactly if each item is there and is accepted. *)
Theorem C36_tuple_accepts : forall atom_dec float ts d v,
  dec atom_dec float (TTuple ts) (PDict d) = Ok v <->
  exists l, v = PTuple l /\ length l = length ts /\
    forall i t, nth_error ts i = Some t ->
      exists x y, pget d (item i) = Some x /\ dec atom_dec float t x = Ok y /\ nth_error l i = Some y.
Proof. exact dec_tuple_iff. Qed.
Print Assumptions C36_tuple_accepts.

Theorem C36_named_accepts : forall atom_dec float c fs d v,
  dec atom_dec float (TNamed c fs) (PDict d) = Ok v <->
  exists l, v = PNamed c l /\
    Forall2 (fun ft y => exists x, pget d (fst ft) = Some x /\ dec atom_dec float (snd ft) x = Ok y) fs l.
Proof. exact dec_named_iff. Qed.
Print Assumptions C36_named_accepts.

(** Whatever is decoded has the type. *)
Theorem C36_decoded_type : forall atom_has atom_dec float, atoms_sound atom_has atom_dec ->
  forall t j v, dec atom_dec float t j = Ok v -> has atom_has float v t.
Proof. exact dec_sound. Qed.
Print Assumptions C36_decoded_type.

(** What the published schema admits is accepted. *)
Theorem C36_schema_accepted : forall atom_dec float t j, wf t -> valid atom_dec float t j ->
  exists v, dec atom_dec float t j = Ok v.
Proof. exact dec_complete. Qed.
Print Assumptions C36_schema_accepted.

(** But not only that: surplus fields and items are dropped, and anything decodes as the empty tuple. *)
Theorem C36_malformed_refuted : forall atom_dec float x, atom_dec 0 (PAtom 1) = Ok x ->
  (exists v, dec atom_dec float (TTuple [TAtom 0]) (PDict [(item 0, PAtom 1); (item 1, PAtom 1)]) = Ok v) /\
  ~ valid atom_dec float (TTuple [TAtom 0]) (PDict [(item 0, PAtom 1); (item 1, PAtom 1)]) /\
  (exists v, dec atom_dec float (TTuple [TAtom 0]) (PList [PAtom 1; PAtom 1]) = Ok v) /\
  ~ valid atom_dec float (TTuple [TAtom 0]) (PList [PAtom 1; PAtom 1]) /\
  (forall j, dec atom_dec float (TTuple []) j = Ok (PTuple [])).
Proof. exact surplus. Qed.
Print Assumptions C36_malformed_refuted.

(** Scalars that are their own encoding. *)
Definition ex_dec (k : nat) (v : pyv) : res pyv := match v with PAtom n => Ok (PAtom n) | _ => Err EValidation end.
Definition ex_has (k : nat) (v : pyv) : Prop := exists n, v = PAtom n.
Definition ex_ty : ty := TTuple [TAtom 0; TNamed 3 [("x", TComplex); ("y", TList (TTuple [TAtom 1]))]].
Example C36_example : atoms_round_trip ex_has ex_dec ex_dec 9 /\ atoms_sound ex_has ex_dec /\ wf ex_ty /\
  enc ex_dec ex_ty (PTuple [PAtom 5; PNamed 3 [PComplex 1 2; PList [PTuple [PAtom 7]]]]) =
    Ok (PDict [("item_0", PAtom 5);
               ("item_1", PDict [("x", PDict [("real", PAtom 1); ("imag", PAtom 2)]);
                                 ("y", PList [PDict [("item_0", PAtom 7)]])])]) /\
  has ex_has 9 (PTuple [PAtom 5; PNamed 3 [PComplex 1 2; PList [PTuple [PAtom 7]]]]) ex_ty.
Proof.
  split; [split; [intros k v [n ->]; exists (PAtom n); repeat split; constructor|reflexivity]|].
  split; [intros k j v; destruct j; try discriminate; intros [= <-]; eexists; reflexivity|].
  split. { repeat constructor; cbn; intuition discriminate. }
  split; [reflexivity|]. repeat (constructor; try (eexists; reflexivity)).
Qed.
