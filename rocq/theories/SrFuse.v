(** The rewriting of [vertical_fusion], read with [Dict]s of pairs; and what goes wrong. *)
From Coq Require Import String List Bool Arith ZArith Lia.
Import ListNotations.
From Verif Require Import SrModel SrSpec SrProofs SrLaws SrCases.
Local Open Scope list_scope.

Lemma den_uses t : forall r r', (forall i, uses i t = true -> r i = r' i) -> den r t = den r' t.
Proof.
  induction t as [v|i|l F|a b _ _|l F|a b Ia Ib|a b Ia Ib|a b Ia Ib|a b Ia Ib] using tm_ind'; intros r r' E; cbn [den uses] in *.
  - reflexivity.
  - apply E. apply Nat.eqb_refl.
  - replace (map (fun kv => entry (den r (fst kv)) (den r (snd kv))) l) with (map (fun kv => entry (den r' (fst kv)) (den r' (snd kv))) l); [reflexivity|].
    apply map_ext_in. intros kv I. rewrite Forall_forall in F. destruct (F kv I) as [F1 F2]. rewrite (F1 r r'), (F2 r r'); [reflexivity| |];
    intros i U; apply E; apply existsb_exists; exists kv; (split; [exact I|]); rewrite U; [apply orb_true_r | reflexivity].
  - reflexivity.
  - replace (map (fun kv => entry (Some (VAtom (AStr (fst kv)))) (den r (snd kv))) l) with (map (fun kv => entry (Some (VAtom (AStr (fst kv)))) (den r' (snd kv))) l); [reflexivity|].
    apply map_ext_in. intros kv I. rewrite Forall_forall in F. rewrite (F kv I r r'); [reflexivity|].
    intros i U. apply E. apply existsb_exists. exists kv. split; [exact I | exact U].
  - rewrite (Ia r r'), (Ib r r'); [reflexivity| |]; intros i U; apply E; rewrite U; [apply orb_true_r | reflexivity].
  - rewrite (Ia r r'), (Ib r r'); [reflexivity| |]; intros i U; apply E; rewrite U; [apply orb_true_r | reflexivity].
  - rewrite (Ia r r'); [|intros i U; apply E; rewrite U; reflexivity]. destruct (den r' a) as [[|[|] m]|]; try reflexivity. apply sum_of_ext. intros k v. apply Ib.
    intros [|[|i]] U; cbn; try reflexivity. apply E. cbn [Nat.add]. rewrite U. apply orb_true_r.
  - rewrite (Ia r r'); [|intros i U; apply E; rewrite U; reflexivity]. apply Ib. intros [|i] U; cbn; try reflexivity. apply E. cbn [Nat.add]. rewrite U. apply orb_true_r.
Qed.

(** Sums of dictionaries of one entry, with the key kept *)
Definition one (k : atom) (y : option val) : option val :=
  match every [entry (Some (VAtom k)) y] with Some m => Some (VMap true (of_pairs m)) | None => None end.
Definition entries (g : atom -> val -> option val) (m : list (atom * val)) : option (list (atom * val)) :=
  every (map (fun kv => entry (Some (VAtom (fst kv))) (g (fst kv) (snd kv))) m).
Lemma one_eq k y : one k y = match y with Some v => Some (VMap true [(k, v)]) | None => None end.
Proof. destruct y; reflexivity. Qed.
Lemma set_new {A} (m : list (atom * A)) k v : ~ In k (map fst m) -> set m k v = m ++ [(k, v)].
Proof.
  induction m as [|[k' v'] m IH]; cbn [set map fst app]; intros N; [reflexivity|]. destruct (atom_eqb k' k) eqn:E.
  - apply atom_eqb_eq in E. destruct N. left. exact E.
  - rewrite IH; [reflexivity|]. intros I. apply N. right. exact I.
Qed.
Lemma ones_fold g m : forall a, NoDup (map fst a ++ map fst m) ->
  fold_left (fun acc kv => both plus acc (one (fst kv) (g (fst kv) (snd kv)))) m (Some (VMap true a))
  = match entries g m with Some es => Some (VMap true (a ++ es)) | None => None end.
Proof.
  unfold entries. induction m as [|[k v] m IH]; intros a D; cbn [fold_left map every fst snd].
  - rewrite app_nil_r. reflexivity.
  - cbn [map fst] in D. rewrite one_eq. destruct (g k v) as [y|]; cbn [entry both].
    + assert (N : ~ In k (map fst a)). { apply NoDup_remove_2 in D. intros I. apply D. apply in_or_app. left. exact I. }
      cbn [plus]. rewrite (get_none a k N), (set_new a k y N). rewrite IH.
      * destruct (every _); cbn [both]; [rewrite <- app_assoc; reflexivity | reflexivity].
      * rewrite map_app, <- app_assoc. exact D.
    + assert (N : forall l, fold_left (fun acc kv => both plus acc (one (fst kv) (g (fst kv) (snd kv)))) l (@None val) = None) by (induction l as [|kv l IHl]; [reflexivity | exact IHl]).
      cbn [both]. apply N.
Qed.
Lemma ones_sum g m : NoDup (map fst m) -> sum_of (fun k v => one k (g k v)) m = match entries g m with Some es => Some (VMap true es) | None => None end.
Proof. intros D. exact (ones_fold g m [] D). Qed.
Lemma entries_keys g m : forall es, entries g m = Some es -> map fst es = map fst m.
Proof.
  unfold entries. induction m as [|[k v] m IH]; intros es H; cbn [map every fst snd] in H; [injection H as <-; reflexivity|].
  apply both_some in H. destruct H as [e0 [es0 [E0 [E1 H]]]]. injection H as <-. destruct (g k v); cbn in E0; [|discriminate]. injection E0 as <-.
  cbn [map fst]. rewrite (IH _ E1). reflexivity.
Qed.
Lemma entries_twice f g h m : (forall k v y, f k v = Some y -> h k v = g k y) -> forall es1 es2, entries f m = Some es1 -> entries g es1 = Some es2 -> entries h m = Some es2.
Proof.
  intros E. unfold entries. induction m as [|[k v] m IH]; intros es1 es2 H1 H2; cbn [map every fst snd] in *.
  - injection H1 as <-. exact H2.
  - apply both_some in H1. destruct H1 as [e0 [es0 [E0 [E1 H]]]]. injection H as <-. destruct (f k v) as [y|] eqn:F; cbn in E0; [|discriminate]. injection E0 as <-.
    cbn [map every fst snd] in H2. apply both_some in H2. destruct H2 as [f0 [fs0 [F0 [F1 H]]]]. injection H as <-.
    rewrite (E k v y F), F0, (IH _ _ E1 F1). reflexivity.
Qed.

(** Two sums in a row *)
Definition pipeline (es lhs rhs : tm) : tm := Let (Sum es (Dict [(Var 1, lhs)])) (Sum (Var 0) (Dict [(Var 1, rhs)])).
Definition rewritten (es lhs rhs : tm) : tm := fused (fun a b => Dict [(a, b)]) es lhs rhs.
Theorem rewriting r es lhs rhs m x : uses 1 rhs = false -> uses 2 rhs = false -> den r es = Some (VMap true m) -> NoDup (map fst m) ->
  den r (pipeline es lhs rhs) = Some x -> den r (rewritten es lhs rhs) = Some x.
Proof.
  intros U1 U2 E D H. unfold pipeline in H. cbn [den] in H. rewrite E in H.
  set (f := fun k v => den (with2 (Some v) (Some (VAtom k)) r) lhs).
  assert (S1 : sum_of (fun k v => den (with2 (Some v) (Some (VAtom k)) r) (Dict [(Var 1, lhs)])) m = match entries f m with Some es => Some (VMap true es) | None => None end).
  { rewrite <- (ones_sum f m D). reflexivity. }
  cbn [den] in S1. rewrite S1 in H. destruct (entries f m) as [es1|] eqn:E1; [|discriminate]. cbn [with1] in H.
  set (R := with1 (Some (VMap true es1)) r) in H.
  set (g := fun k v => den (with2 (Some v) (Some (VAtom k)) R) rhs).
  assert (S2 : sum_of (fun k v => den (with2 (Some v) (Some (VAtom k)) R) (Dict [(Var 1, rhs)])) es1 = match entries g es1 with Some es => Some (VMap true es) | None => None end).
  { rewrite <- (ones_sum g es1); [reflexivity|]. rewrite (entries_keys f m es1 E1). exact D. }
  cbn [den] in S2. rewrite S2 in H. destruct (entries g es1) as [es2|] eqn:E2; [|discriminate]. rewrite <- H.
  unfold rewritten, fused. cbn [den]. rewrite E.
  set (h := fun k v => den (with1 (f k v) (with1 (Some (VAtom k)) (with1 (f k v) (with2 (Some v) (Some (VAtom k)) r)))) (second rhs)).
  assert (EH : entries h m = Some es2).
  { apply (entries_twice f g h m) with (es1 := es1); [|exact E1 | exact E2]. intros k v y F. unfold h, g, second. rewrite den_rename, F. apply den_uses.
    intros [|[|[|i]]] U; cbn; try reflexivity; congruence. }
  pose proof (ones_sum h m D) as S3. rewrite EH in S3. rewrite <- S3. apply sum_of_ext. intros k v. unfold one, h. cbn [map every fst snd den].
  rewrite den_rename. reflexivity.
Qed.

(** Witnesses *)
Definition num (z : Z) : tm := Val (VAtom (AInt z)).
Definition str (s : string) : tm := Val (VAtom (AStr s)).
Definition ab : tm := Dict [(str "a", num 1); (str "b", num 2)].
(** [Sum(Dict(("a",1),("b",2)), k, v, Sum(Dict(("a",1),("b",2)), k2, v2, Dict((k(), v2()))))] *)
Definition nested : tm := Sum ab (Sum ab (Dict [(Var 3, Var 0)])).
Theorem nested_raises : den nowhere nested = Some (VMap true [(AStr "a", VAtom (AInt 3)); (AStr "b", VAtom (AInt 3))]) /\ forall n, eager (6 + n) nested = Raise.
Proof. split; [vm_compute; reflexivity|]. intros n. reflexivity. Qed.
Definition let_nested : tm := Let (num 5) (Sum ab (Dict [(Var 1, Var 2)])).
Theorem let_nested_raises : den nowhere let_nested = Some (VMap true [(AStr "a", VAtom (AInt 5)); (AStr "b", VAtom (AInt 5))]) /\ forall n, eager (6 + n) let_nested = Raise.
Proof. split; [vm_compute; reflexivity|]. intros n. reflexivity. Qed.
(** [Sum(d, k, v, Record(x=1))] stays a term *)
Definition closed_record : tm := Sum ab (Rec [("x"%string, num 1)]).
Theorem closed_record_stuck : den nowhere closed_record = Some (VMap true [(AStr "x", VAtom (AInt 2))]) /\
  forall n, exists e b, eager (6 + n) closed_record = Ok (Sum e b).
Proof. split; [vm_compute; reflexivity|]. intros n. do 2 eexists. reflexivity. Qed.
(** [Dict(("a", 1), ("a", 2))] keeps the last, [Dict(("a", 1)) + Dict(("a", 2))] adds *)
Definition twice : tm := Dict [(str "a", num 1); (str "a", num 2)].
Theorem twice_last : (forall n, eager (6 + n) twice = Ok (Val (VMap true [(AStr "a", VAtom (AInt 2))]))) /\
  (forall n, eager (6 + n) (Add (Dict [(str "a", num 1)]) (Dict [(str "a", num 2)])) = Ok (Val (VMap true [(AStr "a", VAtom (AInt 3))]))).
Proof. split; intros n; reflexivity. Qed.
(** Strings are put after each other, in the order of the entries *)
Definition words (a b : string) : tm := Sum (Dict [(num 1, str a); (num 2, str b)]) (Dict [(str "w", Var 0)]).
Theorem words_order : forall n, eager (6 + n) (words "x" "y") = Ok (Val (VMap true [(AStr "w", VAtom (AStr "xy"))])) /\
  eager (6 + n) (Sum (Dict [(num 2, str "y"); (num 1, str "x")]) (Dict [(str "w", Var 0)])) = Ok (Val (VMap true [(AStr "w", VAtom (AStr "yx"))])).
Proof. intros n. split; reflexivity. Qed.
(** A sum over the empty dictionary, of a body with a part that raises *)
Definition empty_sum : tm := Sum (Dict []) (Dict [(Var 1, Field ab (str "z"))]).
Theorem empty_sum_raises : den nowhere empty_sum = Some (VMap true []) /\ forall n, eager (6 + n) empty_sum = Raise.
Proof. split; [vm_compute; reflexivity|]. intros n. reflexivity. Qed.
(** The program of the docs (212-218): [x] is the variable 0 *)
Definition docs_program : tm := pipeline (Var 0) (Add (Var 0) (num 1)) (Add (Var 0) (num 1)).
Theorem docs_not_fused : paired docs_program /\ forall n, exists e b b', eager_opt (6 + n) docs_program = Ok (Sum (Sum e b) b').
Proof.
  split; [unfold docs_program, pipeline, num; repeat constructor|]. intros n. do 3 eexists. reflexivity.
Qed.
(** The rewriting, where the second body uses its key *)
Theorem rewriting_keys : exists r x y, den r (pipeline (Var 0) (Var 0) (Var 1)) = Some x /\ den r (rewritten (Var 0) (Var 0) (Var 1)) = Some y /\ ~ same_value x y.
Proof.
  exists (fun _ => Some (VMap true [(AInt 7, VAtom (AInt 1))])). do 2 eexists. split; [vm_compute; reflexivity|]. split; [vm_compute; reflexivity|].
  intros S. specialize (S [AInt 7]). vm_compute in S. discriminate.
Qed.
