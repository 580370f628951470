(** Theorems about index sets (C30) and [cond_n] (C34). *)
From Coq Require Import String List Bool Arith ZArith Lia.
From Verif Require Import IdxModel IdxSpec IdxProofs.
Import ListNotations.
Open Scope list_scope.

(** C30. The constructor keeps exactly the given indices and no empty entry. *)
Theorem C30_constructor :
  forall mapping, NoDup (keys mapping) -> ~ In "self"%string (keys mapping) ->
  exists a, make mapping = Ok a /\ (forall k s, get a k = Some s -> s <> [] /\ NoDup s) /\
    forall k i, elem a k i <-> In (k, AInt i) mapping \/ exists l, In (k, AIter l) mapping /\ In i l.
Proof. exact make_members. Qed.
Print Assumptions C30_constructor.

(** The names of a union are those of the operands, each with the indices it has in any
    of them, and no name is left without an index; in whatever order sets are iterated. *)
Theorem C30_union_members :
  forall order, iterates order -> forall l, l <> [] -> (forall a, In a l -> made a) ->
  exists r, union order l = Ok r /\ made r /\
    (forall k, has r k <-> exists a, In a l /\ has a k) /\
    (forall k i, elem r k i <-> exists a, In a l /\ elem a k i) /\
    (forall k s, get r k = Some s -> s <> []).
Proof. exact union_members. Qed.
Print Assumptions C30_union_members.

(** Associative, commutative, idempotent and absorbing. *)
Theorem C30_union_laws :
  forall order, iterates order -> forall a b c, made a -> made b -> made c ->
  exists ab ba bc aa x y z,
    union order [a; b] = Ok ab /\ union order [b; a] = Ok ba /\ union order [b; c] = Ok bc /\ union order [a; a] = Ok aa /\
    union order [a; bc] = Ok x /\ union order [ab; c] = Ok y /\ union order [a; ab] = Ok z /\
    same x y /\ same ab ba /\ same aa a /\ same z ab.
Proof. exact union_laws. Qed.
Print Assumptions C30_union_laws.

(** A union of several sets is the first one's union with the union of the others. *)
Theorem C30_union_nary :
  forall order, iterates order -> forall a b l, (forall x, In x (a :: b :: l) -> made x) ->
  exists n u r, union order (a :: b :: l) = Ok n /\ union order (b :: l) = Ok u /\ union order [a; u] = Ok r /\ same n r.
Proof. exact union_nary. Qed.
Print Assumptions C30_union_nary.

Theorem C30_union_one :
  forall order, iterates order -> forall a, made a -> exists r, union order [a] = Ok r /\ same r a.
Proof. exact union_single. Qed.
Print Assumptions C30_union_one.

Definition ex_a : indexset := [("x", [0; 1]%Z); ("z", [2]%Z)]%string.
Definition ex_b : indexset := [("x", [1; 5]%Z); ("y", [7]%Z)]%string.
Definition ex_order (l : list string) : list string := nodup String.string_dec l.
Example C30_example :
  iterates ex_order /\ made ex_a /\ made ex_b /\
  union ex_order [ex_a; ex_b] = Ok [("z", [2]%Z); ("x", [0; 1; 5]%Z); ("y", [7]%Z)]%string.
Proof.
  split; [|split; [|split]].
  - intros l. split; [apply NoDup_nodup|]. intros k. apply nodup_In.
  - exists [("x", AIter [0; 0; 1]%Z); ("w", AIter []); ("z", AInt 2)]%string. split; [|reflexivity].
    repeat constructor; cbn; intuition discriminate.
  - exists [("x", AIter [1; 5]%Z); ("y", AInt 7)]%string. split; [|reflexivity]. repeat constructor; cbn; intuition discriminate.
  - reflexivity.
Qed.

(** [union()] of nothing is a [TypeError], so the empty index set is not the result of the
    nullary union; and no index set can have a name [self]. *)
Theorem C30_union_none_refuted : exists order, iterates order /\ union order [] = TypeError.
Proof. exists ex_order. split; [exact (proj1 C30_example)|reflexivity]. Qed.
Print Assumptions C30_union_none_refuted.

Theorem C30_name_self_refuted : exists mapping, NoDup (keys mapping) /\ make mapping = TypeError.
Proof. exists [("self", AInt 0)]%string. split; [|reflexivity]. repeat constructor; cbn; intuition. Qed.
Print Assumptions C30_name_self_refuted.

(** C34. At each position of the case: the value of the only family member whose indices
    contain the case, for single-name index sets. Missing: no member or several members
    contain it, and several names (exact result below). *)
Theorem C34_cond_n_selects_partial :
  forall V (values : list (indexset * arr V)) (case : arr Z) sh ix v b,
  (forall x, In x values -> made (fst x) /\ fst x <> [] /\ shape (snd x) = sh) ->
  In (ix, v) values -> within (shape case) b ->
  (forall x k s, In x values -> get (fst x) k = Some s -> fst x = [(k, s)]) ->
  (exists k, elem ix k (at_ case b)) ->
  (forall x, In x values -> (exists k, elem (fst x) k (at_ case b)) -> x = (ix, v)) ->
  exists r, cond_n values case = Value r /\ forall i, within sh i -> at_ r (b ++ i) = at_ v i.
Proof. exact cond_n_unique. Qed.
Print Assumptions C34_cond_n_selects_partial.

(** Exactly: the last value whose first name's indices contain the case, else the first
    value; the result has the case's axes before the values'. *)
Theorem C34_cond_n_exact :
  forall V (values : list (indexset * arr V)) (case : arr Z) sh, values <> [] ->
  (forall x, In x values -> made (fst x) /\ fst x <> [] /\ shape (snd x) = sh) ->
  exists r, cond_n values case = Value r /\ shape r = shape case ++ sh /\
   forall b i, within (shape case) b -> within sh i ->
    (exists l1 ix v l2, values = l1 ++ (ix, v) :: l2 /\ first_indices ix (at_ case b) /\
       (forall x, In x l2 -> ~ first_indices (fst x) (at_ case b)) /\ at_ r (b ++ i) = at_ v i) \/
    ((forall x, In x values -> ~ first_indices (fst x) (at_ case b)) /\
       exists ix0 v0 rest, values = (ix0, v0) :: rest /\ at_ r (b ++ i) = at_ v0 i).
Proof. exact cond_n_exact. Qed.
Print Assumptions C34_cond_n_exact.

Definition ex_vec (x y z : nat) : arr nat := Arr [3] (fun i => match i with [0] => x | [1] => y | _ => z end).
Definition ex_case : arr Z := Arr [2] (fun b => match b with [0] => 4%Z | _ => 0%Z end).
Definition ex_values : list (indexset * arr nat) :=
  [([("s", [0; 1]%Z)]%string, ex_vec 10 11 12); ([("s", [4]%Z)]%string, ex_vec 20 21 22)].
Example C34_example :
  (forall x, In x ex_values -> made (fst x) /\ fst x <> [] /\ shape (snd x) = [3]) /\
  (forall x k s, In x ex_values -> get (fst x) k = Some s -> fst x = [(k, s)]) /\
  within (shape ex_case) [0] /\
  exists r, cond_n ex_values ex_case = Value r /\ shape r = [2; 3] /\ at_ r [0; 1] = 21 /\ at_ r [1; 2] = 12.
Proof.
  split; [|split; [|split]].
  - intros x [<-|[<-|[]]]; (split; [|split; [discriminate|reflexivity]]).
    + exists [("s", AIter [0; 1]%Z)]%string. split; [repeat constructor; cbn; intuition|reflexivity].
    + exists [("s", AInt 4%Z)]%string. split; [repeat constructor; cbn; intuition|reflexivity].
  - intros x k s [<-|[<-|[]]]; cbn [fst get]; destruct (String.eqb "s" k) eqn:E; intros H; inversion H; apply String.eqb_eq in E; subst; reflexivity.
  - constructor; [lia|constructor].
  - eexists. split; [reflexivity|]. repeat split.
Qed.

(** Errors: no values, a first index set without names, a first name without indices (the constructor makes none, C30). *)
Theorem C34_errors : forall (V : Type) (case : arr Z),
  cond_n (V := V) [] case = Assertion /\
  (forall v rest, cond_n (V := V) (([], v) :: rest) case = Empty) /\
  (forall k ix v rest, cond_n (V := V) (((k, []) :: ix, v) :: rest) case = NoIndex).
Proof. intros V case. repeat split. Qed.
Print Assumptions C34_errors.
Example C34_errors_example : made [].
Proof. exists []. split; [constructor|reflexivity]. Qed.

(** When no index set contains the case, the first value is returned. *)
Theorem C34_not_covered_refuted :
  exists (values : list (indexset * arr nat)) case r,
    (forall x, In x values -> made (fst x)) /\ cond_n values case = Value r /\
    (forall x, In x values -> forall k, ~ elem (fst x) k (at_ case [])) /\
    exists ix v rest, values = (ix, v) :: rest /\ at_ r [] = at_ v [].
Proof.
  exists [([("s", [0]%Z)]%string, Arr [] (fun _ => 10)); ([("s", [1]%Z)]%string, Arr [] (fun _ => 20))], (Arr [] (fun _ => 7%Z)).
  eexists. split; [|split; [reflexivity|split; [|do 3 eexists; split; reflexivity]]].
  - intros x [<-|[<-|[]]]; [exists [("s", AInt 0%Z)]%string|exists [("s", AInt 1%Z)]%string]; (split; [repeat constructor; cbn; intuition|reflexivity]).
  - intros x [<-|[<-|[]]] k (s & H & Hi); cbn [fst get] in H; destruct (String.eqb "s" k); inversion H; subst; cbn in Hi; destruct Hi as [Hi|[]]; discriminate Hi.
Qed.
Print Assumptions C34_not_covered_refuted.

(** With two names, only the first is looked at: the case is an index of the second
    set's second name, and the first value is returned. *)
Theorem C34_second_name_refuted :
  exists (values : list (indexset * arr nat)) case r ix v,
    (forall x, In x values -> made (fst x)) /\ cond_n values case = Value r /\ In (ix, v) values /\
    (exists k, elem ix k (at_ case [])) /\
    (forall x, In x values -> (exists k, elem (fst x) k (at_ case [])) -> x = (ix, v)) /\ at_ r [] <> at_ v [].
Proof.
  set (v1 := Arr [] (fun _ : list nat => 10)). set (v2 := Arr [] (fun _ : list nat => 20)).
  exists [([("s", [0]%Z)]%string, v1); ([("s", [1]%Z); ("t", [7]%Z)]%string, v2)], (Arr [] (fun _ => 7%Z)).
  eexists. exists [("s", [1]%Z); ("t", [7]%Z)]%string, v2. split; [|split; [reflexivity|split; [|split; [|split]]]].
  - intros x [<-|[<-|[]]]; [exists [("s", AInt 0%Z)]%string|exists [("s", AInt 1%Z); ("t", AInt 7%Z)]%string]; (split; [repeat constructor; cbn; intuition discriminate|reflexivity]).
  - right. left. reflexivity.
  - exists "t"%string, [7%Z]. split; [reflexivity|left; reflexivity].
  - intros x [<-|[<-|[]]] (k & s & H & Hi); [|reflexivity]. cbn [fst get] in H. destruct (String.eqb "s" k); inversion H; subst; cbn in Hi; destruct Hi as [Hi|[]]; discriminate Hi.
  - cbn. discriminate.
Qed.
Print Assumptions C34_second_name_refuted.

(** Overlapping sets: the later one wins, so the result is not the value of every set
    containing the case. *)
Theorem C34_overlap_refuted :
  exists (values : list (indexset * arr nat)) case r ix v,
    (forall x, In x values -> made (fst x)) /\ cond_n values case = Value r /\ In (ix, v) values /\
    (exists k, elem ix k (at_ case [])) /\ at_ r [] <> at_ v [].
Proof.
  set (v1 := Arr [] (fun _ : list nat => 10)). set (v2 := Arr [] (fun _ : list nat => 20)).
  exists [([("s", [0]%Z)]%string, v1); ([("s", [0; 1]%Z)]%string, v2)], (Arr [] (fun _ => 0%Z)).
  eexists. exists [("s", [0]%Z)]%string, v1. split; [|split; [reflexivity|split; [|split]]].
  - intros x [<-|[<-|[]]]; [exists [("s", AInt 0%Z)]%string|exists [("s", AIter [0; 1]%Z)]%string]; (split; [repeat constructor; cbn; intuition|reflexivity]).
  - left. reflexivity.
  - exists "s"%string, [0%Z]. split; [reflexivity|left; reflexivity].
  - cbn. discriminate.
Qed.
Print Assumptions C34_overlap_refuted.
