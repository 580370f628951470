(** Two distribution classes and arrays with names for the examples of DistProps. *)
From Coq Require Import List Bool Arith Lia Permutation.
From Verif Require Import ArrModel ArrSpec DistModel DistSpec.
Import ListNotations.

Definition item (p : arr nat) : nat := match shape p with [] => at_ p [] | _ => 0 end.
Definition total (p : arr nat) : nat := match shape p with [n] => list_sum (map (fun i => at_ p [i]) (seq 0 n)) | _ => 0 end.
(** Two parameters without event axes, like [Normal] *)
Definition normal : family nat := Family nat [0; 0] 0 (fun _ => [])
  (fun ps v => 100 * nth 0 (map item ps) 0 + 10 * nth 1 (map item ps) 0 + item v)
  (fun ps _ => nth 0 (map item ps) 0) (fun ps => nth 1 (map item ps) 0) (fun i => i) 2.
(** One parameter with an event axis, events with one axis, like [Dirichlet] *)
Definition dirichlet : family nat := Family nat [1] 1 (fun l => [hd 0 (hd [] l)])
  (fun ps v => 100 * nth 0 (map total ps) 0 + total v) (fun ps _ => nth 0 (map total ps) 0) (fun ps => nth 0 (map total ps) 0) (fun i => i) 0.
Lemma same_item p q : same_arr p q -> item p = item q.
Proof. intros [H1 H2]. unfold item. rewrite <- H1. destruct (shape p); [apply H2; constructor|reflexivity]. Qed.
Lemma same_total p q : same_arr p q -> total p = total q.
Proof.
  intros [H1 H2]. unfold total. rewrite <- H1. destruct (shape p) as [|n [|]]; try reflexivity. f_equal. apply map_ext_in. intros i Hi. apply in_seq in Hi.
  apply H2. constructor; [lia|constructor].
Qed.
Lemma same_map (f : arr nat -> nat) ps qs : (forall p q, same_arr p q -> f p = f q) -> Forall2 same_arr ps qs -> map f ps = map f qs.
Proof. intros H. induction 1; cbn; [reflexivity|]. f_equal; auto. Qed.
Lemma normal_lawful : lawful nat normal.
Proof.
  split; [|split; [|split; [|reflexivity]]]; cbn [normal dens avg entr]; intros; now rewrite (same_map item ps qs same_item), ?(same_item v w) by assumption.
Qed.
Lemma dirichlet_lawful : lawful nat dirichlet.
Proof.
  split; [|split; [|split; [|reflexivity]]]; cbn [dirichlet dens avg entr]; intros; now rewrite (same_map total ps qs same_total), ?(same_total v w) by assumption.
Qed.
(** [x[i()]] and [x[i(), j()]], [i] of size 3, [j] of size 2 *)
Definition along_i (sh : list nat) : narr nat := NArr nat [(1, 3)] sh (fun env idx => 10 * env 1 + fold_right Nat.add 0 idx).
Definition along_ij (sh : list nat) : narr nat := NArr nat [(1, 3); (2, 2)] sh (fun env idx => 10 * env 1 + 5 * env 2 + fold_right Nat.add 0 idx).
Definition along_j (sh : list nat) : narr nat := NArr nat [(2, 2)] sh (fun env idx => 5 * env 2 + fold_right Nat.add 0 idx).
Definition unnamed (sh : list nat) : narr nat := NArr nat [] sh (fun _ idx => fold_right Nat.add 0 idx).
Lemma along_i_proper sh : proper nat (along_i sh).
Proof. split; [repeat constructor; intros []|]. intros env env' H idx. cbn [along_i nelt]. now rewrite (H 1 (or_introl eq_refl)). Qed.
Lemma along_ij_proper sh : proper nat (along_ij sh).
Proof.
  split; [repeat constructor; cbn; intuition lia|]. intros env env' H idx. cbn [along_ij nelt]. now rewrite (H 1 (or_introl eq_refl)), (H 2 (or_intror (or_introl eq_refl))).
Qed.
Lemma along_j_proper sh : proper nat (along_j sh).
Proof. split; [repeat constructor; intros []|]. intros env env' H idx. cbn [along_j nelt]. now rewrite (H 2 (or_introl eq_refl)). Qed.
Lemma unnamed_proper sh : proper nat (unnamed sh).
Proof. split; [constructor|]. reflexivity. Qed.
Definition rev_order (l : list (nat * nat)) : list (nat * nat) := rev l.
Lemma rev_any l : Permutation (rev_order l) l.
Proof. apply Permutation_sym, Permutation_rev. Qed.
(** Witnesses found by computing *)
Lemma found {A} (x : res A) (P : A -> bool) : match x with Ok r => P r | _ => false end = true -> exists r, x = Ok r /\ P r = true.
Proof. destruct x; intros H; try discriminate. now eexists. Qed.
Lemma found_some {A} (x : option A) (P : A -> bool) : match x with Some r => P r | None => false end = true -> exists r, x = Some r /\ P r = true.
Proof. destruct x; intros H; try discriminate. now eexists. Qed.
Lemma eqb_list a b : list_eqb a b = true -> a = b.
Proof. unfold list_eqb. destruct (list_eq_dec Nat.eq_dec a b); [trivial|discriminate]. Qed.
