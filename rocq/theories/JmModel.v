(** Model of the methods of free JAX arrays ([_ArrayTerm], effectful/handlers/jax/_terms.py 229-405, 22-56, 221-224): the parameters of each and the
    function of [jax.numpy] it forwards to; and of the methods of [jax.Array] with which they are to agree (JAX's documentation, trusted). *)
From Coq Require Import String List Bool Arith ZArith.
Import ListNotations.
Local Open Scope string_scope.
Local Open Scope list_scope.

Inductive value := VNone | VTrue | VFalse | VInt (z : Z) | VText (s : string) | VTuple (l : list value) | VList (l : list value) | VOther (n : nat).
(** A parameter: its name, whether it can be given by keyword only, its default *)
Record param := P { pname : string; pkw : bool; pdef : option value }.
Definition kwargs := list (string * value).
Fixpoint lookup (x : string) (kw : kwargs) : option value :=
  match kw with [] => None | (y, v) :: kw' => if String.eqb x y then Some v else lookup x kw' end.
(** Python's binding of positional and keyword arguments; [None] is [TypeError] (too many, given twice, missing) *)
Fixpoint fill (s : list param) (pos : list value) (kw : kwargs) : option kwargs :=
  match s with
  | [] => match pos with [] => Some [] | _ => None end
  | p :: s' =>
    match pos with
    | v :: pos' =>
      if pkw p then None
      else match lookup (pname p) kw with Some _ => None | None => option_map (cons (pname p, v)) (fill s' pos' kw) end
    | [] =>
      match lookup (pname p) kw with
      | Some v => option_map (cons (pname p, v)) (fill s' [] kw)
      | None => match pdef p with Some v => option_map (cons (pname p, v)) (fill s' [] kw) | None => None end
      end
    end
  end.
Definition names (s : list param) : list string := map pname s.
Definition known (s : list param) (x : string) : bool := existsb (String.eqb x) (names s).
(** ... and an unknown keyword is a [TypeError] as well *)
Definition bind (s : list param) (pos : list value) (kw : kwargs) : option kwargs :=
  if forallb (fun a => known s (fst a)) kw then fill s pos kw else None.

(** A method: its parameters on terms, and on arrays. Those on arrays are also those of the function of [jax.numpy]. *)
Record method := M { mname : string; mterm : list param; marray : list param }.
(** On a term the method gives every parameter to the function by its name; those the function needs first (such as
    [kth]) are given by position in the code. *)
Definition term_call (m : method) (pos : list value) (kw : kwargs) : option kwargs :=
  match bind (mterm m) pos kw with Some given => bind (marray m) [] given | None => None end.
(** On an array *)
Definition array_call (m : method) (pos : list value) (kw : kwargs) : option kwargs := bind (marray m) pos kw.

Definition req (x : string) : param := P x false None.
Definition opt (x : string) (v : value) : param := P x false (Some v).
Definition kwo (x : string) (v : value) : param := P x true (Some v).
Definition axis := opt "axis" VNone.
Definition last := opt "axis" (VInt (-1)).
Definition keep := opt "keepdims" VFalse.
Definition out := opt "out" VNone.
Definition dtype := opt "dtype" VNone.
Definition init := opt "initial" VNone.
Definition where_ := opt "where" VNone.
Definition where_kw := kwo "where" VNone.
Definition promote := opt "promote_integers" VTrue.
Definition ddof := opt "ddof" (VInt 0).
Definition offset := opt "offset" (VInt 0).
Definition ax1 := opt "axis1" (VInt 0).
Definition ax2 := opt "axis2" (VInt 1).
(** The methods in the order of the code. [argmax] and [argmin] of JAX have [keepdims=None], which counts as [False]. *)
Definition table : list method := [
  M "all" [axis; keep; where_kw] [axis; out; keep; where_kw];                                          (* 229-230 *)
  M "any" [axis; keep; where_kw] [axis; out; keep; where_kw];                                          (* 232-233 *)
  M "argmax" [axis; keep] [axis; out; keep];                                                           (* 235-236 *)
  M "argmin" [axis; keep] [axis; out; keep];                                                           (* 238-239 *)
  M "argpartition" [req "kth"; last] [req "kth"; last];                                                (* 241-242 *)
  M "argsort" [last; opt "descending" VFalse; opt "stable" VTrue]
              [last; kwo "kind" VNone; kwo "order" VNone; kwo "stable" VTrue; kwo "descending" VFalse]; (* 244-247 *)
  M "astype" [req "dtype"] [req "dtype"; opt "copy" VFalse; opt "device" VNone];                       (* 249-250 *)
  M "choose" [req "choices"; opt "mode" (VText "raise")] [req "choices"; out; opt "mode" (VText "raise")]; (* 252-253 *)
  M "clip" [opt "min" VNone; opt "max" VNone] [opt "min" VNone; opt "max" VNone];                      (* 255-256 *)
  M "compress" [req "condition"; axis] [req "condition"; axis; kwo "out" VNone; kwo "size" VNone; kwo "fill_value" (VInt 0)]; (* 258-259 *)
  M "conj" [] []; M "conjugate" [] []; M "copy" [] [];                                                 (* 261-268 *)
  M "cumprod" [axis; dtype] [axis; dtype; out];                                                        (* 270-271 *)
  M "cumsum" [axis; dtype] [axis; dtype; out];                                                         (* 273-274 *)
  M "diagonal" [offset; ax1; ax2] [offset; ax1; ax2];                                                  (* 276-279 *)
  M "dot" [req "b"] [req "b"; kwo "precision" VNone; kwo "preferred_element_type" VNone];              (* 281-282 *)
  M "max" [axis; keep; init; where_] [axis; out; keep; init; where_];                                  (* 284-291 *)
  M "mean" [axis; keep; where_kw] [axis; dtype; out; keep; where_kw];                                  (* 293-296 *)
  M "min" [axis; keep; init; where_] [axis; out; keep; init; where_];                                  (* 298-305 *)
  M "nonzero" [kwo "size" VNone; kwo "fill_value" VNone] [kwo "fill_value" VNone; kwo "size" VNone];   (* 307-308 *)
  M "prod" [axis; keep; init; where_; promote] [axis; dtype; out; keep; init; where_; promote];        (* 310-320 *)
  M "ptp" [axis; keep] [axis; out; keep];                                                              (* 322-323 *)
  M "ravel" [opt "order" (VText "C")] [opt "order" (VText "C")];                                       (* 325-326 *)
  M "repeat" [req "repeats"; axis; kwo "total_repeat_length" VNone] [req "repeats"; axis; kwo "total_repeat_length" VNone]; (* 328-334 *)
  M "round" [opt "decimals" (VInt 0)] [opt "decimals" (VInt 0); out];                                  (* 341-342 *)
  M "searchsorted" [req "v"; opt "side" (VText "left"); opt "sorter" VNone]
                   [req "v"; opt "side" (VText "left"); opt "sorter" VNone; kwo "method" (VText "scan")]; (* 344-345 *)
  M "sort" [last; opt "descending" VFalse; opt "stable" VTrue]
           [last; kwo "kind" VNone; kwo "order" VNone; kwo "stable" VTrue; kwo "descending" VFalse];   (* 347-350 *)
  M "squeeze" [axis] [axis];                                                                           (* 352-353 *)
  M "std" [axis; keep; ddof; where_kw] [axis; dtype; out; ddof; keep; where_kw; kwo "correction" VNone]; (* 355-358 *)
  M "sum" [axis; keep; init; where_; promote] [axis; dtype; out; keep; init; where_; promote];         (* 360-370 *)
  M "swapaxes" [req "axis1"; req "axis2"] [req "axis1"; req "axis2"];                                  (* 372-373 *)
  M "take" [req "indices"; axis; opt "mode" VNone; opt "unique_indices" VFalse; opt "indices_are_sorted" VFalse; opt "fill_value" VNone]
           [req "indices"; axis; out; opt "mode" VNone; opt "unique_indices" VFalse; opt "indices_are_sorted" VFalse; opt "fill_value" VNone]; (* 375-392 *)
  M "trace" [offset; ax1; ax2; dtype] [offset; ax1; ax2; dtype; out];                                  (* 394-397 *)
  M "var" [axis; keep; ddof; where_kw] [axis; dtype; out; ddof; keep; where_kw; kwo "correction" VNone] (* 402-405 *)
].

(** [transpose(axes=None)] on terms (399-400): the permutation given to [jnp.transpose] *)
Definition term_transpose (pos : list value) (kw : kwargs) : option value :=
  match bind [opt "axes" VNone] pos kw with Some [(_, v)] => Some v | _ => None end.
(** [transpose( *args)] on arrays: nothing, a tuple, or the axes one by one; no keywords *)
Definition array_transpose (pos : list value) (kw : kwargs) : option value :=
  match kw with
  | [] => match pos with [] => Some VNone | [VTuple l] => Some (VTuple l) | [VList l] => Some (VList l) | [VNone] => Some VNone | _ => Some (VTuple pos) end
  | _ => None
  end.
(** The shape as a list of sizes, as [jnp.reshape] reads it *)
Definition sizes (v : value) : list value := match v with VTuple l | VList l => l | _ => [v] end.
(** [reshape( *shape, order="C")] on terms (336-339): the shape and the order *)
Definition term_reshape (shape : list value) (kw : kwargs) : option (list value * value) :=
  let shape' := match shape with [VTuple l] => VTuple l | [VList l] => VList l | _ => VTuple shape end in
  match bind [kwo "order" (VText "C")] [] kw with Some [(_, o)] => Some (sizes shape', o) | _ => None end.
(** On arrays: the single argument or all *)
Definition array_reshape (args : list value) (kw : kwargs) : option (list value * value) :=
  let shape := match args with [v] => v | _ => VTuple args end in
  match bind [kwo "order" (VText "C")] [] kw with Some [(_, o)] => Some (sizes shape, o) | _ => None end.

(** [x.at[key].set(v)] on a term (22-56): each call defines an operation of its own; [next] is the next identity. *)
Inductive updated := Update (op : nat) (array key val : nat).
Definition at_set (next : nat) (array key val : nat) : updated * nat := (Update next array key val, S next).
(** Further methods of [jax.Array] (its documentation) *)
Definition further : list string := ["flatten"; "item"; "tolist"; "block_until_ready"; "view"].
Definition term_methods : list string := map mname table ++ ["reshape"; "transpose"].
