(** Further lemmas about collections, concrete values, and the collections that are not kept. *)
From Coq Require Import String List Bool Arith Lia.
From Verif Require Import ColModel ColSpec ColProofs.
Import ListNotations.
Local Open Scope list_scope.

Section Laws.
Variable keyeq : val -> val -> bool.
Variable hash_term : nat -> bool.
Hypothesis Heq : equality keyeq.
Lemma Forall2_diag (R : val -> val -> Prop) l : Forall (fun v => R v v) l -> Forall2 R l l.
Proof. induction 1; constructor; assumption. Qed.
Lemma mapped_self v : proper keyeq hash_term v -> mapped keyeq hash_term (fun x => Ok x) v v.
Proof.
  induction v as [n|s|x|op args kw IHa IHk|k l IH|k l IHk IHv|k l IH|l IH|l IHk IHv|l IH|c fs IH|l] using val_all;
    intros Hp; inversion Hp; subst; try (now constructor).
  - constructor. apply Forall2_diag. eapply Forall_mp; eassumption.
  - match goal with H : distinct _ _ _ |- _ => destruct H as [Hh Ho] end.
    apply (m_map _ _ _ k l (map fst l) (map snd l)).
    + apply Forall2_diag. eapply Forall_mp; eassumption.
    + apply Forall2_diag. eapply Forall_mp; eassumption.
    + exact Hh.
    + rewrite combine_map. now apply dictionary_self.
  - match goal with H : distinct _ _ _ |- _ => destruct H as [Hh Ho] end. rewrite <- Ho at 2. constructor; [|exact Hh].
    apply Forall2_diag. eapply Forall_mp; eassumption.
  - rewrite <- (combine_map fs) at 2. constructor. apply Forall2_diag. eapply Forall_mp; eassumption.
Qed.
Lemma map_structure_self v : plain v -> proper keyeq hash_term v -> map_structure keyeq hash_term (fun x => Ok x) v = Ok v.
Proof. intros Hp Hv. apply (map_structure_iff keyeq hash_term Heq); [exact Hp|now apply mapped_self]. Qed.

(** When the evaluated keys differ, the pairs stay as they are. *)
Lemma dictionary_distinct ps : once keyeq (map fst ps) = map fst ps -> forall d, dictionary keyeq ps d -> d = ps.
Proof. intros H d Hd. apply (dictionary_unique keyeq ps); [exact Hd|now apply dictionary_self]. Qed.
Lemma evaluate_pairs call ren k l ks vs : plain (Mapp k l) -> settled keyeq hash_term call ren (Mapp k l) ->
  Forall2 (becomes keyeq hash_term call ren) (map fst l) ks -> Forall2 (becomes keyeq hash_term call ren) (map snd l) vs ->
  distinct keyeq hash_term ks -> evaluate keyeq hash_term call ren (Mapp k l) = Ok (Mapp k (combine ks vs)).
Proof.
  intros Hp Hs F1 F2 [Hh Ho]. apply (evaluate_iff keyeq hash_term Heq call ren _ Hp Hs).
  apply (b_map _ _ _ _ k l ks vs); try assumption. apply dictionary_self; [exact Heq|]. rewrite combine_fst; [exact Ho|].
  apply Forall2_same in F1, F2. rewrite map_length in F1, F2. congruence.
Qed.
Section Ext.
Variables g h : val -> outcome val.
Lemma mapO_ext l : Forall (fun v => g v = h v) l -> mapO g l = mapO h l.
Proof. induction 1 as [|v l Hv _ IH]; cbn; [reflexivity|]. now rewrite Hv, IH. Qed.
Lemma mapS_ext {K} (l : list (K * val)) : Forall (fun v => g v = h v) (map snd l) -> mapS g l = mapS h l.
Proof. induction l as [|[k v] l IH]; cbn; [reflexivity|]. intros F. inversion F as [|x y Hv Hl]; subst. now rewrite Hv, IH. Qed.
Lemma mapP_ext l : Forall (fun v => g v = h v) (map fst l) -> Forall (fun v => g v = h v) (map snd l) -> mapP g l = mapP h l.
Proof.
  induction l as [|[a b] l IH]; cbn; [reflexivity|]. intros F G. inversion F as [|x y Hv Hl]; subst.
  inversion G as [|x y Hw Hm]; subst. now rewrite Hv, Hw, IH.
Qed.
End Ext.
Lemma agreement call ren v : setless v ->
  map_structure keyeq hash_term (evaluate keyeq hash_term call ren) v = evaluate keyeq hash_term call ren v.
Proof.
  induction v as [n|s|x|op args kw IHa IHk|k l IH|k l IHk IHv|k l IH|l IH|l IHk IHv|l IH|c fs IH|l] using val_all;
    intros Hs; inversion Hs; subst; try reflexivity; cbn [map_structure evaluate].
  - f_equal. apply mapO_ext. eapply Forall_mp; eassumption.
  - f_equal. apply mapP_ext; eapply Forall_mp; eassumption.
  - f_equal. apply mapO_ext. eapply Forall_mp; eassumption.
  - f_equal. apply mapP_ext; eapply Forall_mp; eassumption.
  - f_equal. apply mapO_ext. eapply Forall_mp; eassumption.
  - f_equal. apply mapS_ext. eapply Forall_mp; eassumption.
Qed.
End Laws.

(** Collections that are not kept, whatever is installed *)
Section Not.
Variable keyeq : val -> val -> bool.
Variable hash_term : nat -> bool.
Variable call : nat -> list val -> list (string * val) -> outcome val.
Variable ren : nat -> nat.
Notation evaluate := (evaluate keyeq hash_term call ren).
Notation free := (free keyeq hash_term call ren).
Lemma range_error l op : evaluate (Seq KRange l) = TypeError /\ free op [Seq KRange l] [] = TypeError.
Proof. now split. Qed.
Lemma set_kept k l : evaluate (Sets k l) = Ok (Sets k l).
Proof. reflexivity. Qed.
Lemma noninit_error c fs ws : mapS evaluate fs = Ok ws -> (exists f, In f fs /\ snd (fst f) = false) -> evaluate (Data c fs) = ValueError.
Proof.
  intros E (f & Hin & Hf). cbn [ColModel.evaluate]. rewrite E. cbn [andthen]. unfold replace.
  assert (Hws : exists g, In g ws /\ snd (fst g) = false).
  { clear c. revert ws E. induction fs as [|[k v] fs IH]; [destruct Hin|]. intros ws E. cbn in E. apply andthen_ok in E.
    destruct E as (w & _ & E). apply andthen_ok in E. destruct E as (ws' & E2 & E3). injection E3 as <-.
    destruct Hin as [<-|Hin].
    - exists (k, w). split; [now left|exact Hf].
    - destruct (IH Hin ws' E2) as (g & Hg & Hg2). exists g. split; [now right|exact Hg2]. }
  destruct Hws as (g & Hg & Hg2). destruct (forallb (fun f0 => snd (fst f0)) ws) eqn:E2; [|reflexivity].
  rewrite forallb_forall in E2. specialize (E2 g Hg). now rewrite Hg2 in E2.
Qed.
End Not.

(** Equality of keys by a code, for the examples: different enough to tell numbers, texts of different length, operations, terms and tuples of them apart *)
Fixpoint size (s : string) : nat := match s with EmptyString => 0 | String _ s' => S (size s') end.
Fixpoint code (v : val) : nat :=
  match v with
  | Num n => 5 * n | Str s => 5 * size s + 1 | Oper x => 5 * x + 2 | Trm op _ _ => 5 * op + 3
  | Seq _ l => 5 * (fix go (l : list val) : nat := match l with [] => 0 | x :: l' => S (code x) + 20 * go l' end) l + 4
  | _ => 0
  end.
Definition by_code (a b : val) : bool := Nat.eqb (code a) (code b).
Lemma by_code_equality : equality by_code.
Proof.
  split; unfold by_code.
  - intros a. apply Nat.eqb_refl.
  - intros a b. apply Nat.eqb_sym.
  - intros a b c H1 H2. apply Nat.eqb_eq in H1, H2. apply Nat.eqb_eq. congruence.
Qed.
(** Operations 0 and 1 are handled by giving the number 5, others make their terms; operation 7 is renamed to 8. *)
Definition fives (op : nat) (args : list val) (kw : list (string * val)) : outcome val :=
  match op with 0 | 1 => Ok (Num 5) | _ => Ok (Trm op args kw) end.
Definition seven (x : nat) : nat := if Nat.eqb x 7 then 8 else x.
Definition hashes (op : nat) : bool := true.

Lemma range_refuted : exists v, proper by_code hashes v /\ inert v /\
  forall keyeq hash_term call ren, evaluate keyeq hash_term call ren v = TypeError /\
    forall op, free keyeq hash_term call ren op [v] [] = TypeError.
Proof.
  exists (Seq KRange [Num 0; Num 1; Num 2]). split; [|split; [|intros; split; [reflexivity|]; intros op; reflexivity]].
  - constructor. repeat constructor.
  - constructor. repeat constructor.
Qed.
Lemma sets_refuted : exists v w, plain v /\ proper by_code hashes v /\ becomes by_code hashes fives seven v w /\
  evaluate by_code hashes fives seven v = Ok v /\ w <> v.
Proof.
  exists (Sets KFrozen [Trm 0 [] []; Oper 7]), (Sets KFrozen [Num 5; Oper 8]). split; [|split; [|split; [|split]]].
  - repeat constructor.
  - constructor; [repeat constructor|split; [repeat constructor|reflexivity]].
  - apply (b_set by_code hashes fives seven KFrozen [Trm 0 [] []; Oper 7] [Num 5; Oper 8]).
    + constructor; [|constructor; [|constructor]].
      * apply (b_term _ _ _ _ 0 [] [] [] []); [constructor|constructor|reflexivity].
      * apply (b_oper by_code hashes fives seven 7).
    + repeat constructor.
  - reflexivity.
  - discriminate.
Qed.
Lemma counter_refuted : exists v w, proper by_code hashes v /\ inert v /\
  (forall call ren, evaluate by_code hashes call ren v = Ok w) /\ w = Mapp KCounter [(Seq KTuple [Str "a"%string; Num 2], Num 1); (Seq KTuple [Str "bb"%string; Num 3], Num 1)] /\
  v = Mapp KCounter [(Str "a"%string, Num 2); (Str "bb"%string, Num 3)] /\
  evaluate by_code hashes fives seven (Mapp KCounter [(Trm 0 [] [], Num 1); (Trm 1 [] [], Num 1)])
  = Ok (Mapp KCounter [(Seq KTuple [Num 5; Num 1], Num 2)]).
Proof.
  exists (Mapp KCounter [(Str "a"%string, Num 2); (Str "bb"%string, Num 3)]), (Mapp KCounter [(Seq KTuple [Str "a"%string; Num 2], Num 1); (Seq KTuple [Str "bb"%string; Num 3], Num 1)]).
  repeat split; try reflexivity; repeat constructor.
Qed.
Lemma chain_refuted : exists v w, proper by_code hashes v /\ inert v /\
  (forall call ren, evaluate by_code hashes call ren v = Ok w) /\ forall k l, w <> Mapp k l.
Proof.
  exists (Mapp KChain [(Str "a"%string, Num 2)]), (Over [Seq KTuple [Str "a"%string; Num 2]]).
  repeat split; try reflexivity; try (repeat constructor); discriminate.
Qed.
Lemma deque_refuted : exists v w, proper by_code hashes v /\ inert v /\
  (forall call ren, evaluate by_code hashes call ren v = Ok w) /\
  v = Seq (KDeque (Some 2)) [Num 1; Num 2] /\ w = Seq (KDeque None) [Num 1; Num 2].
Proof.
  exists (Seq (KDeque (Some 2)) [Num 1; Num 2]), (Seq (KDeque None) [Num 1; Num 2]).
  repeat split; try reflexivity; repeat constructor.
Qed.
Lemma dataclass_refuted : exists v, proper by_code hashes v /\ inert v /\
  (forall call ren, evaluate by_code hashes call ren v = ValueError /\ forall op, free by_code hashes call ren op [v] [] = ValueError) /\
  forall f, (forall n, f (Num n) = Ok (Num n)) -> map_structure by_code hashes f v = ValueError.
Proof.
  exists (Data 0 [(("x"%string, true), Num 1); (("cache"%string, false), Num 0)]).
  split; [repeat constructor|split; [repeat constructor|split; [intros; split; [reflexivity|intros; reflexivity]|]]].
  intros f Hf. cbn. now rewrite !Hf.
Qed.
Lemma items_refuted : exists l, distinct by_code hashes (map fst l) /\ Forall inert (map snd l) /\
  forall call ren, evaluate by_code hashes call ren (Items l) = TypeError /\
    evaluate by_code hashes call ren (Mapp KDict l) = Ok (Mapp KDict l).
Proof.
  exists [(Str "a"%string, Seq KList [Num 1])].
  split; [split; [repeat constructor|reflexivity]|split; [repeat constructor|intros; split; reflexivity]].
Qed.
Lemma keys_refuted : exists v, plain v /\ proper by_code hashes v /\
  v = Mapp KDict [(Trm 0 [] [], Str "a"%string); (Trm 2 [] [], Str "c"%string); (Trm 1 [] [], Str "b"%string)] /\
  evaluate by_code hashes fives seven v = Ok (Mapp KDict [(Num 5, Str "b"%string); (Trm 2 [] [], Str "c"%string)]).
Proof.
  eexists. split; [|split; [|split; [reflexivity|]]].
  - repeat constructor.
  - constructor; [repeat constructor|repeat constructor|split; [repeat constructor|reflexivity]].
  - reflexivity.
Qed.
