(** Model of [_inline_refs] (effectful/handlers/llm/encoding.py:273-294), which puts the
    definitions of a JSON schema in the place of references to them. Fuel stands for the recursion limit of Python. *)
From Coq Require Import String Ascii List Bool Arith ZArith.
Import ListNotations.
Local Open Scope string_scope.
Local Open Scope list_scope.

Inductive json :=
| JNull
| JBool (b : bool)
| JNum (z : Z)
| JStr (s : string)
| JArr (l : list json)
| JObj (l : list (string * json)).

Fixpoint jget {A} (l : list (string * A)) (k : string) : option A :=
  match l with [] => None | (x, v) :: l' => if String.eqb x k then Some v else jget l' k end.

Fixpoint has_slash (s : string) : bool :=
  match s with EmptyString => false | String c s' => Ascii.eqb c "/" || has_slash s' end.
(** [s.split("/")[-1]] *)
Fixpoint last_segment (s : string) : string :=
  match s with
  | EmptyString => EmptyString
  | String c s' => if has_slash s' then last_segment s' else if Ascii.eqb c "/" then s' else s
  end.

Inductive res (A : Type) := Ok (a : A) | AttributeError | RecursionError.
Arguments Ok {A}. Arguments AttributeError {A}. Arguments RecursionError {A}.

Section Each.
Context {A B : Type} (f : A -> res B).
Fixpoint each (l : list A) : res (list B) :=
  match l with
  | [] => Ok []
  | x :: l' =>
      match f x with
      | Ok y => match each l' with Ok ys => Ok (y :: ys) | AttributeError => AttributeError | RecursionError => RecursionError end
      | AttributeError => AttributeError
      | RecursionError => RecursionError
      end
  end.
End Each.

(** [_resolve] (284-292) *)
Fixpoint resolve (fuel : nat) (defs : list (string * json)) (v : json) : res json :=
  match fuel with
  | 0 => RecursionError
  | S n =>
      match v with
      | JObj kvs =>
          let comprehension :=
            match each (fun kv : string * json =>
                          match resolve n defs (snd kv) with Ok y => Ok (fst kv, y) | AttributeError => AttributeError | RecursionError => RecursionError end)
                       (filter (fun kv => negb (String.eqb (fst kv) "$defs")) kvs) with
            | Ok l => Ok (JObj l)
            | AttributeError => AttributeError
            | RecursionError => RecursionError
            end in
          match jget kvs "$ref" with
          | None => comprehension
          | Some (JStr r) =>
              match jget defs (last_segment r) with
              | Some d => resolve n defs d
              | None => comprehension
              end
          | Some _ => AttributeError
          end
      | JArr l => match each (resolve n defs) l with Ok l => Ok (JArr l) | AttributeError => AttributeError | RecursionError => RecursionError end
      | _ => Ok v
      end
  end.

(** [defs = schema.get("$defs", {})] (282); definitions that are no object are taken as none *)
Definition definitions (v : json) : list (string * json) :=
  match v with JObj kvs => match jget kvs "$defs" with Some (JObj d) => d | _ => [] end | _ => [] end.

(** [_inline_refs] (273-294) *)
Definition inline_refs (fuel : nat) (schema : json) : res json := resolve fuel (definitions schema) schema.
