(** Model of the type check of spliced code (effectful/handlers/llm/evaluation.py:142-410):
    [_def_nodes] (142-152), [_find_def_at_lineno] (155-170), [_region_errors] (173-193),
    [splice_into_source] (196-257), [_splice_repl] (292-337), the verdict of [_mypy_check_region]
    (340-410). A syntax tree is given by the lines its nodes take in the unparsed text. Taken as
    given: [json.loads], that [ast.parse] of an unparsed tree gives the same tree with new line
    numbers and that parsing joined snippets gives their statements in order, mypy's own output. *)
From Coq Require Import String List Bool Arith ZArith.
From Verif Require Import JsonModel.
Import ListNotations.

(** * Diagnostics *)
Section Diagnostics.
(** [json.loads] of a line *)
Variable loads : string -> option json.
(** [not line.strip()] *)
Variable blank : string -> bool.

(** [lo <= diag["line"]], [diag["line"] <= hi]; a bound may be missing *)
Definition above (lo : option Z) (z : Z) : bool := match lo with None => true | Some a => Z.leb a z end.
Definition below (hi : option Z) (z : Z) : bool := match hi with None => true | Some b => Z.leb z b end.
(** One line (183-192): nothing, a reported diagnostic, or an exception ([None]) *)
Definition line_error (lo hi : option Z) (line : string) : option (option json) :=
  if blank line then Some None else
  match loads line with
  | Some (JObj l) =>
      match jget l "severity" with
      | None => None
      | Some sev =>
          if (match sev with JStr s => String.eqb s "error" | _ => false end) then
            match lo, hi with
            | None, None => Some (Some (JObj l))
            | _, _ =>
                match jget l "line" with
                | Some (JInt z) => Some (if above lo z && below hi z then Some (JObj l) else None)
                | _ => None
                end
            end
          else Some None
      end
  | _ => None
  end.
(** [_region_errors] (173-193); [None]: an exception *)
Fixpoint region_errors (lines : list string) (lo hi : option Z) : option (list json) :=
  match lines with
  | [] => Some []
  | l :: lines' =>
      match line_error lo hi l with
      | None => None
      | Some o =>
          match region_errors lines' lo hi with
          | None => None
          | Some errs => Some (match o with Some d => d :: errs | None => errs end)
          end
      end
  end.
Inductive verdict := VPass | VTypeError (errs : list json) | VRuntimeError | VOther.
(** The end of [_mypy_check_region] (398-410) *)
Definition check_region (status : Z) (lines : list string) (lo hi : option Z) : verdict :=
  if Z.leb 2 status then VRuntimeError else
  match region_errors lines lo hi with
  | None => VOther
  | Some [] => VPass
  | Some errs => VTypeError errs
  end.
End Diagnostics.

(** * Source text *)
(** A node: whether it is a function definition, the line its definition started at in the source it
    was read from, and in the unparsed text the empty (or keyword) lines before it, its decorator
    lines, the lines of its own; then its parts. *)
Record info := Info { is_def : bool; first : nat; gap : nat; decs : nat; own : nat }.
Inductive node := Node (a : info) (l : list node).
Definition path := list nat.

Definition kids (t : node) : list node := match t with Node _ l => l end.
Definition label (t : node) : info := match t with Node a _ => a end.
Fixpoint size (t : node) : nat := match t with Node _ l => S (fold_right (fun t n => size t + n) 0 l) end.

(** [ast.walk]: breadth first, with a queue; nodes come with their paths. *)
Fixpoint number (p : path) (i : nat) (l : list node) : list (path * node) :=
  match l with [] => [] | t :: l' => ((p ++ [i])%list, t) :: number p (S i) l' end.
Fixpoint walk_from (fuel : nat) (queue : list (path * node)) : list (path * node) :=
  match fuel, queue with
  | S fuel', (p, t) :: q => (p, t) :: walk_from fuel' (q ++ number p 0 (kids t))
  | _, _ => []
  end.
Definition ast_walk (t : node) : list (path * node) := walk_from (size t) [([], t)].
(** [_def_nodes] (142-152) *)
Definition def_nodes (t : node) : list (path * node) := filter (fun x => is_def (label (snd x))) (ast_walk t).
(** [_find_def_at_lineno] (155-170) *)
Definition find_def (t : node) (lineno : nat) : option path :=
  option_map fst (find (fun x => Nat.eqb (first (label (snd x))) lineno) (def_nodes t)).

Fixpoint subnode (t : node) (p : path) : option node :=
  match p with
  | [] => Some t
  | i :: p' => match nth_error (kids t) i with Some t' => subnode t' p' | None => None end
  end.
Section Update.
Variable f : node -> node.
Fixpoint update_nth (i : nat) (l : list node) : list node :=
  match l, i with
  | [], _ => []
  | t :: l', O => f t :: l'
  | t :: l', S i' => t :: update_nth i' l'
  end.
End Update.
(** [template_def.body = ...] *)
Fixpoint set_body (t : node) (p : path) (body : list node) : node :=
  match p, t with
  | [], Node a _ => Node a body
  | i :: p', Node a l => Node a (update_nth (fun t' => set_body t' p' body) i l)
  end.

(** [ast.unparse]: the lines, each with the node it belongs to *)
Inductive line := Blank | Deco (p : path) | Own (p : path).
Fixpoint text (p : path) (t : node) : list line :=
  match t with
  | Node a l =>
      repeat Blank (gap a) ++ repeat (Deco p) (decs a) ++ repeat (Own p) (own a) ++
      (fix go (i : nat) (l : list node) : list line :=
         match l with [] => [] | t' :: l' => text (p ++ [i]) t' ++ go (S i) l' end) 0 l
  end%list.
Definition source (t : node) : list line := text [] t.

(** Line numbers of the re-parsed tree: [height] lines are taken by a node; [start] is the number of
    the first of them; [lineno] the line of [def] (after the decorators), [end_lineno] the last. *)
Fixpoint height (t : node) : nat :=
  match t with Node a l => gap a + decs a + own a + fold_right (fun t n => height t + n) 0 l end.
Definition heights (l : list node) : nat := fold_right (fun t n => height t + n) 0 l.
Fixpoint start (s : nat) (t : node) (p : path) : nat :=
  match p with
  | [] => s
  | i :: p' =>
      match nth_error (kids t) i with
      | Some t' => start (s + gap (label t) + decs (label t) + own (label t) + heights (firstn i (kids t))) t' p'
      | None => s
      end
  end.
Definition lineno (t : node) (p : path) : nat :=
  match subnode t p with Some s => start 1 t p + gap (label s) + decs (label s) | None => 0 end.
Definition end_lineno (t : node) (p : path) : nat :=
  match subnode t p with Some s => start 1 t p + height s - 1 | None => 0 end.

Fixpoint index (p : path) (l : list (path * node)) : option nat :=
  match l with
  | [] => None
  | (q, _) :: l' => if list_eq_dec Nat.eq_dec p q then Some 0 else option_map S (index p l')
  end.

Inductive spliced := Spliced (lo hi : nat) (module : node) | Skipped | SpliceTypeError | SpliceDrift | SpliceOther.
(** The common end of both: put the body in, find the definition again by its index, and take the
    region from the statement at position [k] to [hi] *)
Definition locate (module : node) (p : path) (body : list node) (k : nat) : spliced :=
  let m := set_body module p body in
  match index p (def_nodes m) with
  | None => SpliceOther
  | Some i =>
      match nth_error (def_nodes m) i with
      | Some (q, _) => Spliced (lineno m (q ++ [k])) (end_lineno m (q ++ [length body - 1])) m
      | None => SpliceOther
      end
  end.
(** [ast.Return(ast.Name(target_name, ast.Load()))]: one line *)
Definition return_stmt : node := Node (Info false 0 0 0 1) [].
(** [splice_into_source] (196-257): the module is [None] if the source cannot be recovered, and the
    template is found by [co_firstlineno]. The end of the definition (255) is that of its last
    statement. *)
Definition splice_into_source (module : option node) (firstlineno : nat) (generated : list node) : spliced :=
  match rev generated with
  | [] => SpliceTypeError
  | last :: _ =>
      if is_def (label last) then
        match module with
        | None => Skipped
        | Some m =>
            match find_def m firstlineno with
            | None => SpliceDrift
            | Some p => locate m p (generated ++ [return_stmt]) 0
            end
        end
      else SpliceTypeError
  end.
(** [_splice_repl] (292-337) *)
Definition splice_repl (module : option node) (firstlineno : nat) (prior : list (list node)) (snippet : list node) : spliced :=
  match snippet with
  | [] => Skipped
  | _ =>
      match module with
      | None => Skipped
      | Some m =>
          match find_def m firstlineno with
          | None => SpliceDrift
          | Some p => let body := (concat prior ++ snippet)%list in locate m p body (length body - length snippet)
          end
      end
  end.
