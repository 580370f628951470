(** Model of [torch_getitem] (effectful/handlers/torch.py 269-318), with index tensors and lists beside the elements of
    ArrModel. In a key, [KName n] stands for the index tensor or list [tens n]; the names of named dimensions have been
    replaced by tensors without axes when the function is called ([_partial_eval], torch.py:98-109).
    Not modelled: boolean masks, tensors as bounds of slices, the check for operations in the key. *)
From Coq Require Import List Bool Arith ZArith.
From Verif Require Import ArrModel.
From Verif Require IdxModel.
Import ListNotations.

(** An index tensor of integers, or a (nested) list or tuple of integers *)
Inductive index := Tensor (t : arr Z) | Listed (t : arr Z).
Definition numbers_of (i : index) : arr Z := match i with Tensor t | Listed t => t end.

(** ** The array library *)

(** The element of [t] at position [b] of a shape that [t] broadcasts to; the common shape *)
Definition bat (t : arr Z) (b : list nat) : Z := at_ t (IdxModel.squash (shape t) (skipn (length b - length (shape t)) b)).
Fixpoint bshapes (l : list (list nat)) : option (list nat) :=
  match l with [] => Some [] | s :: l' => match bshapes l' with Some b => IdxModel.bshape s b | None => None end end.

Definition in_range (d : nat) (z : Z) : bool := ((- Z.of_nat d <=? z) && (z <? Z.of_nat d))%Z.
Definition wrap (d : nat) (z : Z) : nat := Z.to_nat (if (z <? 0)%Z then z + Z.of_nat d else z).
Definition positions (sh : list nat) : list (list nat) := map (unravel sh) (seq 0 (prod sh)).
Definition is_some {A} (o : option A) : bool := match o with Some _ => true | None => false end.
Definition somes {A} (l : list (option A)) : list A := flat_map (fun o => match o with Some a => [a] | None => [] end) l.
(** Where the axes of the index tensors go: in the place of the tensors if these are next to each other, else first *)
Fixpoint lead (l : list bool) : nat := match l with false :: l' => S (lead l') | _ => 0 end.
Fixpoint block (l : list bool) : list bool := match l with true :: l' => block l' | _ => l end.
Definition contiguous (l : list bool) : bool := forallb negb (block (skipn (lead l) l)).
Definition place (l : list bool) : nat := if contiguous l then lead l else 0.
(** The axes without tensor; the position in the array for a position [b] of the tensors and [rest] of the other axes *)
Fixpoint kept (sh : list nat) (keys : list (option (arr Z))) : list nat :=
  match sh, keys with
  | d :: sh', None :: ks => d :: kept sh' ks
  | _ :: sh', Some _ :: ks => kept sh' ks
  | _, _ => []
  end.
Fixpoint source (sh : list nat) (keys : list (option (arr Z))) (b rest : list nat) : list nat :=
  match sh, keys with
  | d :: sh', None :: ks => hd 0 rest :: source sh' ks b (tl rest)
  | d :: sh', Some t :: ks => wrap d (bat t b) :: source sh' ks b rest
  | _, _ => []
  end.
Fixpoint ranges (sh : list nat) (keys : list (option (arr Z))) (b : list nat) : bool :=
  match sh, keys with
  | _ :: sh', None :: ks => ranges sh' ks b
  | d :: sh', Some t :: ks => in_range d (bat t b) && ranges sh' ks b
  | _, _ => true
  end.
(** [torch.ops.aten.index]: a tensor or nothing for each axis, missing ones at the end *)
Definition aten_index {V} (a : arr V) (keys : list (option (arr Z))) : res (arr V) :=
  if length (shape a) <? length keys then IndexError
  else
    let keys := keys ++ repeat None (length (shape a) - length keys) in
    match bshapes (map shape (somes keys)) with
    | None => IndexError
    | Some B =>
        if forallb (ranges (shape a) keys) (positions B)
        then let p := place (map is_some keys) in
             let s := kept (shape a) keys in
             Ok (Arr (firstn p s ++ B ++ skipn p s)
                  (fun idx => at_ a (source (shape a) keys (firstn (length B) (skipn p idx)) (firstn p idx ++ skipn (p + length B) idx))))
        else IndexError
    end.
(** [torch.arange(start, stop, step)] *)
Definition arange (start stop step : Z) : option (arr Z) :=
  if (Z.eqb step 0 || ((0 <? step) && (stop <? start)) || ((step <? 0) && (start <? stop)))%Z then None
  else Some (Arr [Z.to_nat ((stop - start + step - Z.sgn step) / step)%Z] (fun idx => start + Z.of_nat (hd 0%nat idx) * step)%Z).

(** ** [torch_getitem] *)

Section Getitem.
Variable tens : nat -> index.
Definition is_tensor (k : kelem) : bool := match k with KName n => match tens n with Tensor _ => true | Listed _ => false end | _ => false end.
(** Conversion of the key's element [i], for an axis of size [d] (torch.py:296-316) *)
Definition convert (i d : nat) (k : kelem) : res (option (arr Z)) :=
  match k with
  | KSlice None None None => Ok None
  | KSlice start stop step =>
      let start := match start with Some z => z | None => 0%Z end in
      let stop := match stop with Some z => z | None => Z.of_nat d end in
      let step := match step with Some z => z | None => 1%Z end in
      match arange start stop step with
      | Some t => Ok (Some (reshape t (shape t ++ repeat 1 i)))
      | None => RuntimeError
      end
  | KInt z => Ok (Some (Arr [] (fun _ => z)))
  | KName n => match tens n with
               | Tensor t => Ok (Some t)
               | Listed t => Ok (Some (reshape t (shape t ++ repeat 1 i)))
               end
  | _ => Ok None                 (* does not occur: [None] and the ellipsis are gone *)
  end.
Fixpoint convert_all (i : nat) (sh : list nat) (key : list kelem) : res (list (option (arr Z))) :=
  match sh, key with
  | d :: sh', k :: key' => bindr (convert i d k) (fun x => bindr (convert_all (S i) sh' key') (fun l => Ok (x :: l)))
  | _, _ => Ok []
  end.
(** [torch_getitem] (269-318); [lib] is PyTorch's own [x[key]] *)
Definition torch_getitem {V} (lib : arr V -> list kelem -> res (arr V)) (x : arr V) (key : list kelem) : res (arr V) :=
  match key with
  | [] => Ok x
  | _ =>
      if negb (existsb is_tensor key) then lib x key
      else if forallb is_tensor key
      then aten_index x (map (fun k => match k with KName n => Some (numbers_of (tens n)) | _ => None end) key)
      else bindr (desugar (shape x) key) (fun r =>
           bindr (convert_all 0 (fst r) (snd r)) (fun keys => aten_index (reshape x (fst r)) keys))
  end.
End Getitem.
