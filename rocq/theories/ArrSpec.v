(** What indexing means. *)
From Coq Require Import List Bool Arith ZArith.
From Verif Require Import ArrModel.
Import ListNotations.

(** Index tuples within a shape. *)
Inductive within : list nat -> list nat -> Prop :=
| within_nil : within [] []
| within_cons d sh i idx : i < d -> within sh idx -> within (d :: sh) (i :: idx).

(** Axes of the array that an index element uses up. *)
Definition uses_axis (k : kelem) : bool := match k with KNone | KEll => false | _ => true end.
Definition used (key : list kelem) : nat := length (filter uses_axis key).
Definition ellipses (key : list kelem) : nat := length (filter is_ell key).

(** NumPy's rules: [None] makes an axis of size one, the ellipsis stands for [e] axes
    taken whole, any other element applies to the next axis. Result: shape, and position in
    the array for each position in the result. *)
Fixpoint walk (env : nat -> nat) (e : nat) (key : list kelem) (sh : list nat) : option (list nat * (list nat -> list nat)) :=
  match key with
  | [] => match sh with [] => Some ([], fun _ => []) | _ => None end
  | KNone :: key' => match walk env e key' sh with Some (s, g) => Some (1 :: s, fun idx => g (tl idx)) | None => None end
  | KEll :: key' =>
      match walk env e key' (skipn e sh) with
      | Some (s, g) => Some (firstn e sh ++ s, fun idx => firstn e idx ++ g (skipn e idx))
      | None => None
      end
  | k :: key' =>
      match sh with
      | [] => None
      | d :: sh' =>
          match pick env k d, walk env e key' sh' with
          | Some (Drop i), Some (s, g) => Some (s, fun idx => i :: g idx)
          | Some (Keep d' f), Some (s, g) => Some (d' :: s, fun idx => f (hd 0 idx) :: g (tl idx))
          | _, _ => None
          end
      end
  end.

(** At most one ellipsis, no more elements than axes; a missing ellipsis is at the end. *)
Definition index_full (env : nat -> nat) (sh : list nat) (key : list kelem) : option (list nat * (list nat -> list nat)) :=
  if (1 <? ellipses key) || (length sh <? used key) then None
  else walk env (length sh - used key) (if existsb is_ell key then key else key ++ [KEll]) sh.

Definition index_full_arr {V} (env : nat -> nat) (a : arr V) (key : list kelem) : option (arr V) :=
  match index_full env (shape a) key with
  | Some (s, g) => Some (Arr s (fun idx => at_ a (g idx)))
  | None => None
  end.

(** Equal arrays; equal results. *)
Definition same_arr {V} (a b : arr V) : Prop := shape a = shape b /\ forall idx, within (shape a) idx -> at_ a idx = at_ b idx.
Definition same {V} (x y : option (arr V)) : Prop :=
  match x, y with Some a, Some b => same_arr a b | None, None => True | _, _ => False end.

(** The value of an indexed array for given values of the names. *)
Definition den {V} (env : nat -> nat) (v : tval V) : option (arr V) :=
  match v with TArr a => Some a | TGet a dims => index_arr env a dims | TLazy => None end.

(** Named terms as they are built: one element per axis. *)
Definition plain (key : list kelem) : Prop := forall k, In k key -> uses_axis k = true.
Definition built {V} (a : arr V) (dims : list kelem) : Prop := length dims = length (shape a) /\ plain dims.

(** Name [n] indexes an axis of size [d]. *)
Definition indexes (sh : list nat) (dims : list kelem) (n d : nat) : Prop :=
  exists i, nth_error dims i = Some (KName n) /\ nth_error sh i = Some d.

(** [r] is [v] with the names [ns], of sizes [szs], turned into leading axes: at the
    positions [is] of those axes lies the value of [v] for the names at [is]. *)
Definition stacked {V} (szs ns : list nat) (r v : tval V) : Prop :=
  forall env is, within szs is ->
    match den env r, den (assign env ns is) v with
    | Some b, Some c => shape b = szs ++ shape c /\ forall idx, within (shape c) idx -> at_ b (is ++ idx) = at_ c idx
    | None, None => True
    | _, _ => False
    end.

(** Every use of a name gives it the same size; no name of [ns] is used twice. *)
Definition consistent (sh : list nat) (dims : list kelem) : Prop :=
  forall n d d', indexes sh dims n d -> indexes sh dims n d' -> d = d'.
Definition once (dims : list kelem) (ns : list nat) : Prop :=
  forall n i j, In n ns -> nth_error dims i = Some (KName n) -> nth_error dims j = Some (KName n) -> i = j.

(** The name [n] in the key applies to an axis of size [d], the ellipsis standing for
    [e] axes. *)
Inductive applies (e : nat) : list kelem -> list nat -> nat -> nat -> Prop :=
| applies_here n key d sh : applies e (KName n :: key) (d :: sh) n d
| applies_axis k key d' sh n d : uses_axis k = true -> applies e key sh n d -> applies e (k :: key) (d' :: sh) n d
| applies_none key sh n d : applies e key sh n d -> applies e (KNone :: key) sh n d
| applies_ell key sh n d : applies e key (skipn e sh) n d -> applies e (KEll :: key) sh n d.

(** Shapes of arrays and indexed arrays. *)
Inductive shape_of : texpr -> list nat -> Prop :=
| shape_arr sh : shape_of (XArr sh) sh
| shape_eager sh dims env s g : index_axes env sh dims = Some (s, g) -> shape_of (XEager sh dims) s
| shape_get sh key env s g : key <> [] -> index_full env sh key = Some (s, g) -> shape_of (XGet (XArr sh) key) s.

(** The name [n] is used somewhere for an axis of size [d]. *)
Inductive uses : texpr -> nat -> nat -> Prop :=
| uses_eager sh dims n d : indexes sh dims n d -> uses (XEager sh dims) n d
| uses_get x key sh n d : shape_of x sh -> applies (length sh - used key) key sh n d -> uses (XGet x key) n d
| uses_in x key n d : uses x n d -> uses (XGet x key) n d
| uses_op args x n d : In x args -> uses x n d -> uses (XOp args) n d.

(** Keys of indexed arrays hold only names and whole axes (besides [None] and the
    ellipsis); every key fits; every axis with a name has elements. *)
Definition whole (k : kelem) : Prop := k = KAll \/ k = KNone \/ k = KEll \/ exists n, k = KName n.
Inductive wf : texpr -> Prop :=
| wf_arr sh : wf (XArr sh)
| wf_eager sh dims s : length dims = length sh -> plain dims -> Forall whole dims -> shape_of (XEager sh dims) s -> wf (XEager sh dims)
| wf_get x key : wf x -> ellipses key <= 1 -> (forall sh, shape_of x sh -> used key <= length sh) ->
    (forall sh, x = XArr sh -> key <> [] /\ Forall whole key /\ exists s, shape_of (XGet x key) s) -> wf (XGet x key)
| wf_op args : Forall wf args -> wf (XOp args).

(** No [None] and no ellipsis in a key applied to an expression. *)
Inductive plain_keys : texpr -> Prop :=
| plain_arr sh : plain_keys (XArr sh)
| plain_eager sh dims : plain_keys (XEager sh dims)
| plain_get x key : plain_keys x -> plain key -> plain_keys (XGet x key)
| plain_op args : Forall plain_keys args -> plain_keys (XOp args).
