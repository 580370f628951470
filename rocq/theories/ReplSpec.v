(** What code does: what it prints, the bindings it leaves, how it ends; without buffers. *)
From Coq Require Import String List Bool Arith.
From Verif Require Import ReplModel.
Import ListNotations.
Local Open Scope string_scope.

Inductive event := EOut (s : string) | EErr (s : string).
(** [performs i sp p evs s' e]: in the namespace [i] of [sp], the code [p] prints [evs], leaves [s'] in
    it and ends with [e]. *)
Inductive performs (i : nat) : (nat -> ns) -> prog -> list event -> ns -> ending -> Prop :=
| pf_done : forall sp, performs i sp PDone [] (sp i) EndOk
| pf_raise : forall sp tb, performs i sp (PRaise tb) [] (sp i) (EndRaise tb)
| pf_exit : forall sp, performs i sp PExit [] (sp i) EndExit
| pf_out : forall sp s p evs s' e, performs i sp p evs s' e -> performs i sp (POut s p) (EOut s :: evs) s' e
| pf_err : forall sp s p evs s' e, performs i sp p evs s' e -> performs i sp (PErr s p) (EErr s :: evs) s' e
| pf_set : forall sp k v p evs s' e,
    performs i (fun x => if Nat.eqb x i then upd (sp i) k (Some v) else sp x) p evs s' e -> performs i sp (PSet k v p) evs s' e
| pf_del : forall sp k p evs s' e,
    performs i (fun x => if Nat.eqb x i then upd (sp i) k None else sp x) p evs s' e -> performs i sp (PDel k p) evs s' e
| pf_def : forall sp k x p evs s' e,
    performs i (fun y => if Nat.eqb y i then upd (sp i) k (Some (VReader i x)) else sp y) p evs s' e ->
    performs i sp (PDef k x p) evs s' e
| pf_get : forall sp k f evs s' e, performs i sp (f (sp i k)) evs s' e -> performs i sp (PGet k f) evs s' e
| pf_call : forall sp k f evs s' e,
    performs i sp (f (match sp i k with Some (VReader home x) => sp home x | _ => None end)) evs s' e ->
    performs i sp (PCall k f) evs s' e.

(** What was printed, and the text a call answers: stdout, then stderr with the traceback. *)
Definition outs (evs : list event) : string := String.concat "" (map (fun e => match e with EOut s => s | EErr _ => "" end) evs).
Definition errs (evs : list event) : string := String.concat "" (map (fun e => match e with EErr s => s | EOut _ => "" end) evs).
Definition reply (evs : list event) (e : ending) : option string :=
  match e with
  | EndOk => Some (outs evs ++ errs evs)
  | EndRaise tb => Some (outs evs ++ errs evs ++ tb)
  | EndExit => None
  end.

(** Code run in one namespace after another: each snippet goes on from what the one before left. *)
Definition with_builtins (s : ns) : ns :=
  match s "__builtins__" with Some _ => s | None => upd s "__builtins__" (Some (VLib "builtins")) end.
Inductive dialogue (i : nat) : (nat -> ns) -> list prog -> list (option string) -> ns -> Prop :=
| dl_nil : forall sp, dialogue i sp [] [] (sp i)
| dl_cons : forall sp p l evs s1 e sp' rs s2,
    performs i (fun x => if Nat.eqb x i then with_builtins (sp i) else sp x) p evs s1 e ->
    sp' i = s1 -> (forall j, j <> i -> sp' j = sp j) ->
    dialogue i sp' l rs s2 ->
    dialogue i sp (p :: l) (reply evs e :: rs) s2.

(** Names the restricted provider uses for itself. *)
Definition reserved : list string :=
  ["__builtins__"; "__metaclass__"; "__name__"; "_getiter_"; "_iter_unpack_sequence_"; "getattr"; "setattr"; "_write_"; "_print_"].

(** The code may bind or delete [k] at some point. *)
Inductive touches (k : string) : prog -> Prop :=
| tc_set : forall v p, touches k (PSet k v p)
| tc_del : forall p, touches k (PDel k p)
| tc_def : forall x p, touches k (PDef k x p)
| tc_out : forall s p, touches k p -> touches k (POut s p)
| tc_err : forall s p, touches k p -> touches k (PErr s p)
| tc_set' : forall k' v p, touches k p -> touches k (PSet k' v p)
| tc_del' : forall k' p, touches k p -> touches k (PDel k' p)
| tc_def' : forall k' x p, touches k p -> touches k (PDef k' x p)
| tc_get : forall k' f o, touches k (f o) -> touches k (PGet k' f)
| tc_call : forall k' f o, touches k (f o) -> touches k (PCall k' f).

(** What restricted code is to find under these names, whatever the environment binds them to. *)
Definition guards : list (string * string) :=
  [("__builtins__", "safe_builtins"); ("_getiter_", "default_guarded_getiter");
   ("_iter_unpack_sequence_", "guarded_iter_unpack_sequence"); ("getattr", "safer_getattr"); ("setattr", "guarded_setattr");
   ("_write_", "_write_"); ("_print_", "_StdoutPrintCollector")].
Definition guarded (s : ns) : Prop := forall k g, In (k, g) guards -> s k = Some (VLib g).
