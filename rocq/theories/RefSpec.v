(** JSON schema: which instances a schema allows (draft 2020-12: type, enum, const, properties, required,
    additionalProperties, items, anyOf, allOf and references to [#/$defs/name]; other keywords
    say nothing about instances), and which schemas are read as written. *)
From Coq Require Import String Ascii List Bool Arith ZArith.
Import ListNotations.
From Verif Require Import RefModel.
Local Open Scope string_scope.
Local Open Scope list_scope.

Fixpoint json_eqb (a b : json) : bool :=
  match a, b with
  | JNull, JNull => true
  | JBool x, JBool y => Bool.eqb x y
  | JNum x, JNum y => Z.eqb x y
  | JStr x, JStr y => String.eqb x y
  | JArr l, JArr l' =>
      (fix go (l l' : list json) : bool :=
         match l, l' with [], [] => true | x :: l, y :: l' => json_eqb x y && go l l' | _, _ => false end) l l'
  | JObj l, JObj l' =>
      (fix go (l l' : list (string * json)) : bool :=
         match l, l' with
         | [], [] => true
         | x :: l, y :: l' => String.eqb (fst x) (fst y) && json_eqb (snd x) (snd y) && go l l'
         | _, _ => false
         end) l l'
  | _, _ => false
  end.

Definition type_of (i : json) : string :=
  match i with
  | JNull => "null" | JBool _ => "boolean" | JNum _ => "integer" | JStr _ => "string" | JArr _ => "array" | JObj _ => "object"
  end.
Definition has_type (t : string) (i : json) : bool :=
  String.eqb t (type_of i) || (String.eqb t "number" && String.eqb (type_of i) "integer").

(** Conjunction and disjunction of results that may need more steps. *)
Fixpoint conj (l : list (option bool)) : option bool :=
  match l with
  | [] => Some true
  | x :: l' => match x, conj l' with Some a, Some b => Some (a && b) | _, _ => None end
  end.
Fixpoint disj (l : list (option bool)) : option bool :=
  match l with
  | [] => Some false
  | x :: l' => match x, disj l' with Some a, Some b => Some (a || b) | _, _ => None end
  end.

Definition prefix : string := "#/$defs/".
(** The name a reference is to. *)
Definition pointer (r : string) : option string :=
  if String.prefix prefix r then Some (substring (String.length prefix) (String.length r - String.length prefix) r) else None.

Section Check.
Variable defs : list (string * json).

Definition keyword (check : json -> json -> option bool) (kvs : list (string * json)) (i : json) (kv : string * json) : option bool :=
  let (k, v) := kv in
  if String.eqb k "$ref" then
    match v with
    | JStr r => match pointer r with
                | Some name => match jget defs name with Some d => check d i | None => Some false end
                | None => Some false
                end
    | _ => Some false
    end
  else if String.eqb k "type" then match v with JStr t => Some (has_type t i) | _ => Some false end
  else if String.eqb k "enum" then match v with JArr l => Some (existsb (json_eqb i) l) | _ => Some false end
  else if String.eqb k "const" then Some (json_eqb i v)
  else if String.eqb k "required" then
    match v, i with
    | JArr l, JObj o => Some (forallb (fun n => match n with JStr s => match jget o s with Some _ => true | None => false end | _ => false end) l)
    | _, _ => Some true
    end
  else if String.eqb k "properties" then
    match v, i with
    | JObj ps, JObj o => conj (map (fun p => match jget o (fst p) with Some x => check (snd p) x | None => Some true end) ps)
    | _, _ => Some true
    end
  else if String.eqb k "additionalProperties" then
    match i with
    | JObj o =>
        conj (map (fun p => match jget kvs "properties" with
                            | Some (JObj ps) => match jget ps (fst p) with Some _ => Some true | None => check v (snd p) end
                            | _ => check v (snd p)
                            end) o)
    | _ => Some true
    end
  else if String.eqb k "items" then
    match i with JArr l => conj (map (check v) l) | _ => Some true end
  else if String.eqb k "anyOf" then
    match v with JArr ss => disj (map (fun s => check s i) ss) | _ => Some false end
  else if String.eqb k "allOf" then
    match v with JArr ss => conj (map (fun s => check s i) ss) | _ => Some false end
  else Some true.

(** Whether the schema allows the instance; [None]: the steps do not suffice. *)
Fixpoint check (n : nat) (s i : json) : option bool :=
  match n with
  | 0 => None
  | S n =>
      match s with
      | JBool b => Some b
      | JObj kvs => conj (map (keyword (check n) kvs i) kvs)
      | _ => Some false
      end
  end.
End Check.
(** The schema [s], with its own definitions, allows or forbids [i]. *)
Definition decides (s i : json) (b : bool) : Prop := exists n, check (definitions s) n s i = Some b.

(** No key [$ref] or [$defs] anywhere. *)
Inductive quiet : json -> Prop :=
| Q_null : quiet JNull
| Q_bool : forall b, quiet (JBool b)
| Q_num : forall z, quiet (JNum z)
| Q_str : forall s, quiet (JStr s)
| Q_arr : forall l, (forall v, In v l -> quiet v) -> quiet (JArr l)
| Q_obj : forall l, (forall k v, In (k, v) l -> k <> "$ref" /\ k <> "$defs" /\ quiet v) -> quiet (JObj l).

Definition constraining : list string :=
  ["$ref"; "type"; "enum"; "const"; "required"; "properties"; "additionalProperties"; "items"; "anyOf"; "allOf"].

(** Schemas read as written: [$ref] and [$defs] only as keywords, references to definitions by
    [#/$defs/name], without keywords beside them that constrain instances. *)
Section Clean.
Variable defs : list (string * json).
Inductive clean : json -> Prop :=
| C_bool : forall b, clean (JBool b)
| C_ref : forall kvs name d, jget kvs "$ref" = Some (JStr (prefix ++ name)%string) -> has_slash name = false -> jget defs name = Some d ->
    NoDup (map fst kvs) -> (forall k v, In (k, v) kvs -> k <> "$ref" -> ~ In k constraining) -> clean (JObj kvs)
| C_obj : forall kvs, (forall k v, In (k, v) kvs -> k <> "$ref") ->
    (forall k v, In (k, v) kvs -> k <> "$defs" -> clean_keyword k v) -> clean (JObj kvs)
with clean_keyword : string -> json -> Prop :=
| K_properties : forall ps, (forall k v, In (k, v) ps -> k <> "$ref" /\ k <> "$defs" /\ clean v) -> clean_keyword "properties" (JObj ps)
| K_schema : forall k v, In k ["additionalProperties"; "items"] -> clean v -> clean_keyword k v
| K_schemas : forall k l, In k ["anyOf"; "allOf"] -> (forall v, In v l -> clean v) -> clean_keyword k (JArr l)
| K_other : forall k v, ~ In k ["properties"; "additionalProperties"; "items"; "anyOf"; "allOf"] -> quiet v -> clean_keyword k v.
End Clean.
Definition clean_schema (s : json) : Prop :=
  clean (definitions s) s /\ forall x d, In (x, d) (definitions s) -> clean (definitions s) d.

(** A reference to [y] met when reading, outside definitions and what is beside references; no definition depends on itself. *)
Inductive mentions : json -> string -> Prop :=
| M_arr : forall l v y, In v l -> mentions v y -> mentions (JArr l) y
| M_obj : forall l k v y, jget l "$ref" = None -> In (k, v) l -> k <> "$defs" -> mentions v y -> mentions (JObj l) y
| M_ref : forall l r y, jget l "$ref" = Some (JStr r) -> pointer r = Some y -> mentions (JObj l) y.
Definition acyclic (defs : list (string * json)) : Prop :=
  exists rank : string -> nat, forall x d y d', jget defs x = Some d -> mentions d y -> jget defs y = Some d' -> rank y < rank x.
(** Reading the schema comes to the definition [y]. *)
Inductive reaches (defs : list (string * json)) : json -> string -> Prop :=
| R_here : forall v y, mentions v y -> reaches defs v y
| R_step : forall v x d y, mentions v x -> jget defs x = Some d -> reaches defs d y -> reaches defs v y.
(** No definitions inside, and no reference that ends in the name of a definition. *)
Definition names_none (defs : list (string * json)) (r : string) : Prop :=
  forall name d, In (name, d) defs -> r <> name /\ forall p, r <> (p ++ "/" ++ name)%string.
Inductive foreign (defs : list (string * json)) : json -> Prop :=
| F_null : foreign defs JNull
| F_bool : forall b, foreign defs (JBool b)
| F_num : forall z, foreign defs (JNum z)
| F_str : forall s, foreign defs (JStr s)
| F_arr : forall l, (forall v, In v l -> foreign defs v) -> foreign defs (JArr l)
| F_obj : forall l, (forall k v, In (k, v) l -> k <> "$defs" /\ foreign defs v) ->
    (forall v, In ("$ref", v) l -> exists r, v = JStr r /\ names_none defs r) -> foreign defs (JObj l).
Fixpoint depth (v : json) : nat :=
  S (match v with
     | JArr l => (fix go (l : list json) := match l with [] => 0 | x :: l => Nat.max (depth x) (go l) end) l
     | JObj l => (fix go (l : list (string * json)) := match l with [] => 0 | x :: l => Nat.max (depth (snd x)) (go l) end) l
     | _ => 0
     end).
