(** Adding dictionaries, place by place, in any order. *)
From Coq Require Import String List Bool Arith ZArith Permutation Lia.
Import ListNotations.
From Verif Require Import SrModel SrSpec SrProofs.
Local Open Scope list_scope.

Section ValInd.
Variable P : val -> Prop.
Hypothesis Hatom : forall a, P (VAtom a).
Hypothesis Hmap : forall sr m, Forall (fun kv => P (snd kv)) m -> P (VMap sr m).
Fixpoint val_ind' (v : val) : P v :=
  match v with
  | VAtom a => Hatom a
  | VMap sr m => Hmap sr m ((fix go (l : list (atom * val)) : Forall (fun kv => P (snd kv)) l :=
                              match l with [] => Forall_nil _ | kv :: l' => Forall_cons kv (val_ind' (snd kv)) (go l') end) m)
  end.
End ValInd.

Lemma atom_eqb_eq a b : atom_eqb a b = true <-> a = b.
Proof.
  destruct a as [x|s], b as [y|t]; cbn; split; intros H; try discriminate.
  - apply Z.eqb_eq in H. congruence.
  - injection H as ->. apply Z.eqb_refl.
  - apply String.eqb_eq in H. congruence.
  - injection H as ->. apply String.eqb_refl.
Qed.
Lemma atom_eqb_refl a : atom_eqb a a = true.
Proof. apply atom_eqb_eq. reflexivity. Qed.
Lemma get_set {A} (m : list (atom * A)) k v j : get (set m k v) j = if atom_eqb k j then Some v else get m j.
Proof.
  induction m as [|[k' v'] m IH]; cbn [set get]; [reflexivity|].
  destruct (atom_eqb k' k) eqn:E.
  - apply atom_eqb_eq in E. subst k'. cbn [get]. destruct (atom_eqb k j); reflexivity.
  - cbn [get]. rewrite IH. destruct (atom_eqb k' j) eqn:E1; [|reflexivity]. apply atom_eqb_eq in E1. subst k'.
    destruct (atom_eqb k j) eqn:E2; [|reflexivity]. apply atom_eqb_eq in E2. subst k. rewrite atom_eqb_refl in E. discriminate.
Qed.
Lemma get_none {A} (m : list (atom * A)) k : ~ In k (map fst m) -> get m k = None.
Proof.
  induction m as [|[k' v] m IH]; cbn; intros H; [reflexivity|]. destruct (atom_eqb k' k) eqn:E; [|apply IH; tauto].
  apply atom_eqb_eq in E. tauto.
Qed.
Lemma get_in {A} (m : list (atom * A)) k v : get m k = Some v -> In (k, v) m.
Proof.
  induction m as [|[k' v'] m IH]; cbn; [discriminate|]. destruct (atom_eqb k' k) eqn:E; intros H; [|right; auto].
  apply atom_eqb_eq in E. left. congruence.
Qed.

(** The loop over the right dictionary *)
Fixpoint merge (m n : list (atom * val)) : option (list (atom * val)) :=
  match n with
  | [] => Some m
  | (k, v) :: n' => match get m k with
                    | Some u => match plus u v with Some s => merge (set m k s) n' | None => None end
                    | None => merge (set m k v) n'
                    end
  end.
Lemma plus_map m sr n : plus (VMap true m) (VMap sr n) = match merge m n with Some l => Some (VMap true l) | None => None end.
Proof.
  cbn [plus]. revert m. induction n as [|[k v] n IH]; intros m; cbn [merge]; [reflexivity|].
  destruct (get m k) as [u|]; [destruct (plus u v); [apply IH | reflexivity] | apply IH].
Qed.
Definition join (a b : option val) : option (option val) :=
  match a, b with Some x, Some y => match plus x y with Some z => Some (Some z) | None => None end | Some x, None => Some (Some x) | None, y => Some y end.
Lemma merge_get n : NoDup (map fst n) -> forall m l, merge m n = Some l -> forall k, join (get m k) (get n k) = Some (get l k).
Proof.
  intros D. induction n as [|[k v] n IH]; intros m l H j; cbn [merge] in H.
  - injection H as <-. cbn [get]. destruct (get m j); reflexivity.
  - cbn [map fst] in D. inversion D as [|? ? NI D' E1]. subst. cbn [get].
    destruct (get m k) as [u|] eqn:G.
    + destruct (plus u v) as [s|] eqn:P; [|discriminate]. specialize (IH D' _ _ H j). rewrite get_set in IH.
      destruct (atom_eqb k j) eqn:E.
      * apply atom_eqb_eq in E. subst j. rewrite (get_none n k NI) in IH. cbn [join] in IH. injection IH as <-. rewrite G. cbn [join]. rewrite P. reflexivity.
      * exact IH.
    + specialize (IH D' _ _ H j). rewrite get_set in IH.
      destruct (atom_eqb k j) eqn:E.
      * apply atom_eqb_eq in E. subst j. rewrite (get_none n k NI) in IH. cbn [join] in IH. injection IH as <-. rewrite G. reflexivity.
      * exact IH.
Qed.
Lemma merge_some n : NoDup (map fst n) -> forall m, (forall k u v, get m k = Some u -> get n k = Some v -> exists s, plus u v = Some s) -> exists l, merge m n = Some l.
Proof.
  intros D. induction n as [|[k v] n IH]; intros m H; cbn [merge]; [eauto|].
  cbn [map fst] in D. inversion D as [|? ? NI D' E1]. subst.
  assert (N : forall s j u w, get (set m k s) j = Some u -> get n j = Some w -> exists s', plus u w = Some s').
  { intros s j u w G1 G2. rewrite get_set in G1. destruct (atom_eqb k j) eqn:E.
    - apply atom_eqb_eq in E. subst j. rewrite (get_none n k NI) in G2. discriminate.
    - apply (H j u w G1). cbn [get]. rewrite E. exact G2. }
  destruct (get m k) as [u|] eqn:G.
  - destruct (H k u v G) as [s P]; [cbn [get]; rewrite atom_eqb_refl; reflexivity|]. rewrite P. apply (IH D'). exact (N s).
  - apply (IH D'). exact (N v).
Qed.

Lemma together_none_r a : together a None = a.
Proof. destruct a as [[]|]; reflexivity. Qed.
Theorem plus_look y : proper y -> forall x z, plus x y = Some z -> forall p, look p z = together (look p x) (look p y).
Proof.
  induction y as [a|sr n F] using val_ind'; intros P x z H p.
  - destruct x as [[i|s]|[|] m], a as [j|t]; try discriminate; injection H as <-; destruct p; reflexivity.
  - destruct x as [a|[|] m]; try (destruct a; discriminate); try discriminate.
    rewrite plus_map in H. destruct (merge m n) as [l|] eqn:M; [|discriminate]. injection H as <-.
    inversion P as [|? ? D FP E1]. subst. destruct p as [|k p]; [reflexivity|]. cbn [look].
    pose proof (merge_get n D m l M k) as J. destruct (get m k) as [u|] eqn:G1, (get n k) as [v|] eqn:G2; cbn [join] in J.
    + destruct (plus u v) as [s|] eqn:Q; [|discriminate]. injection J as <-. pose proof (get_in _ _ _ G2) as I. rewrite Forall_forall in F, FP.
      exact (F _ I (FP _ I) _ _ Q p).
    + injection J as <-. symmetry. apply together_none_r.
    + injection J as <-. reflexivity.
    + injection J as <-. reflexivity.
Qed.

(** Numbers and dictionaries agree at the places they share *)
Definition agree (a b : option leaf) : Prop :=
  match a, b with Some (LInt _), Some (LMap _) => False | Some (LMap _), Some (LInt _) => False | _, _ => True end.
Lemma numeric_get m k u : numeric (VMap true m) -> get m k = Some u -> numeric u.
Proof. intros N G. inversion N as [|? F E]. subst. rewrite Forall_forall in F. exact (F _ (get_in _ _ _ G)). Qed.
Lemma plus_some y : proper y -> numeric y -> forall x, numeric x -> (forall p, agree (look p x) (look p y)) -> exists z, plus x y = Some z.
Proof.
  induction y as [a|sr n F] using val_ind'; intros P NY x NX A.
  - inversion NY. subst. inversion NX; subst; [cbn [plus]; eauto|]. destruct (A []).
  - inversion NY as [|? FN E]. subst. inversion NX as [|m FM E]; subst; [destruct (A [])|]. rewrite plus_map.
    inversion P as [|? ? D FP E1]. subst.
    destruct (merge_some n D m) as [l M]; [|rewrite M; eauto].
    intros k u v G1 G2. pose proof (get_in _ _ _ G2) as I. rewrite Forall_forall in F, FP, FN.
    apply (F _ I (FP _ I) (FN _ I) u (numeric_get _ _ _ NX G1)). intros p. specialize (A (k :: p)). cbn [look] in A. rewrite G1, G2 in A. exact A.
Qed.
Lemma plus_agree y : forall x z, proper y -> plus x y = Some z -> forall p, agree (look p x) (look p y).
Proof.
  induction y as [a|sr n F] using val_ind'; intros x z P H p.
  - destruct x as [[i|s]|[|] m], a as [j|t]; try discriminate; destruct p; exact Logic.I.
  - destruct x as [a|[|] m]; try (destruct a; discriminate); try discriminate.
    rewrite plus_map in H. destruct (merge m n) as [l|] eqn:M; [|discriminate].
    inversion P as [|? ? D FP E1]. subst. destruct p as [|k p]; [exact Logic.I|]. cbn [look].
    pose proof (merge_get n D m l M k) as J. destruct (get m k) as [u|] eqn:G1, (get n k) as [v|] eqn:G2; cbn [join] in J; try exact Logic.I.
    + destruct (plus u v) as [s|] eqn:Q; [|discriminate]. pose proof (get_in _ _ _ G2) as I. rewrite Forall_forall in F, FP.
      exact (F _ I _ _ (FP _ I) Q p).
    + unfold agree. destruct (look p u) as [[]|]; exact Logic.I.
Qed.

Lemma set_keys {A} (m : list (atom * A)) k v : map fst (set m k v) = match get m k with Some _ => map fst m | None => map fst m ++ [k] end.
Proof.
  induction m as [|[k' v'] m IH]; cbn [set get]; [reflexivity|]. destruct (atom_eqb k' k) eqn:E; cbn [map fst]; [reflexivity|].
  rewrite IH. destruct (get m k); reflexivity.
Qed.
Lemma get_some_in {A} (m : list (atom * A)) k : In k (map fst m) -> exists v, get m k = Some v.
Proof.
  induction m as [|[k' v] m IH]; cbn; [contradiction|]. destruct (atom_eqb k' k) eqn:E; [eauto|]. intros [-> | I]; [rewrite atom_eqb_refl in E; discriminate | auto].
Qed.
Lemma set_nodup {A} (m : list (atom * A)) k v : NoDup (map fst m) -> NoDup (map fst (set m k v)).
Proof.
  intros D. rewrite set_keys. destruct (get m k) eqn:G; [exact D|]. apply (Permutation_NoDup (Permutation_cons_append (map fst m) k)).
  constructor; [|exact D]. intros I. apply get_some_in in I. destruct I as [u U]. rewrite G in U. discriminate.
Qed.
Lemma set_forall {A} (P : A -> Prop) (m : list (atom * A)) k v : P v -> Forall (fun kv => P (snd kv)) m -> Forall (fun kv => P (snd kv)) (set m k v).
Proof.
  intros V F. induction F as [|[k' v'] m H F IH]; cbn [set]; [constructor; [exact V | constructor]|].
  destruct (atom_eqb k' k); constructor; auto.
Qed.
Lemma merge_keeps (P : val -> Prop) n : (forall u v s, In v (map snd n) -> P u -> P v -> plus u v = Some s -> P s) -> Forall (fun kv => P (snd kv)) n ->
  forall m l, Forall (fun kv => P (snd kv)) m -> merge m n = Some l -> Forall (fun kv => P (snd kv)) l.
Proof.
  intros K F. induction F as [|[k v] n V F IH]; intros m l FM H; cbn [merge] in H; [injection H as <-; exact FM|].
  cbn [snd] in V. assert (K' : forall u v s, In v (map snd n) -> P u -> P v -> plus u v = Some s -> P s) by (intros u w s I; apply K; right; exact I).
  destruct (get m k) as [u|] eqn:G.
  - destruct (plus u v) as [s|] eqn:Q; [|discriminate]. refine (IH K' _ _ _ H). apply set_forall; [|exact FM].
    refine (K u v s _ _ V Q); [left; reflexivity|]. rewrite Forall_forall in FM. exact (FM _ (get_in _ _ _ G)).
  - refine (IH K' _ _ _ H). apply set_forall; assumption.
Qed.
Lemma merge_nodup n : forall m l, NoDup (map fst m) -> merge m n = Some l -> NoDup (map fst l).
Proof.
  induction n as [|[k v] n IH]; intros m l D H; cbn [merge] in H; [injection H as <-; exact D|].
  destruct (get m k) as [u|]; [destruct (plus u v); [|discriminate]|]; eapply IH; try exact H; apply set_nodup; exact D.
Qed.
Lemma in_snd {A B} (n : list (A * B)) v : In v (map snd n) -> exists kv, In kv n /\ snd kv = v.
Proof. intros I. apply in_map_iff in I. destruct I as [kv [E I]]. eauto. Qed.
Lemma plus_proper y : forall x z, proper x -> proper y -> plus x y = Some z -> proper z.
Proof.
  induction y as [a|sr n F] using val_ind'; intros x z PX PY H.
  - destruct x as [[i|s]|[|] m], a as [j|t]; try discriminate; injection H as <-; constructor.
  - destruct x as [a|[|] m]; try (destruct a; discriminate); try discriminate.
    rewrite plus_map in H. destruct (merge m n) as [l|] eqn:M; [|discriminate]. injection H as <-.
    inversion PX as [|? ? DX FX E1]. inversion PY as [|? ? DY FY E2]. subst. constructor; [exact (merge_nodup n m l DX M)|].
    refine (merge_keeps proper n _ FY m l FX M). intros u v s I PU PV Q. apply in_snd in I. destruct I as [kv [I <-]]. rewrite Forall_forall in F. exact (F kv I u s PU PV Q).
Qed.
Lemma plus_numeric y : forall x z, numeric x -> numeric y -> plus x y = Some z -> numeric z.
Proof.
  induction y as [a|sr n F] using val_ind'; intros x z PX PY H.
  - destruct x as [[i|s]|[|] m], a as [j|t]; try discriminate; injection H as <-; try constructor. inversion PX.
  - destruct x as [a|[|] m]; try (destruct a; discriminate); try discriminate.
    rewrite plus_map in H. destruct (merge m n) as [l|] eqn:M; [|discriminate]. injection H as <-.
    inversion PX as [|? FX E1]. inversion PY as [|? FY E2]. subst. constructor.
    refine (merge_keeps numeric n _ FY m l FX M). intros u v s I PU PV Q. apply in_snd in I. destruct I as [kv [I <-]]. rewrite Forall_forall in F. exact (F kv I u s PU PV Q).
Qed.

Definition nleaf (a : option leaf) : Prop := match a with None => True | Some (LInt _) => True | Some (LMap true) => True | _ => False end.
Lemma numeric_look x : numeric x -> forall p, nleaf (look p x).
Proof.
  induction x as [a|sr m F] using val_ind'; intros N p; inversion N; subst; [destruct p; exact Logic.I|].
  destruct p as [|k p]; [exact Logic.I|]. cbn [look]. destruct (get m k) as [u|] eqn:G; [|exact Logic.I]. pose proof (get_in _ _ _ G) as I.
  rewrite Forall_forall in F. exact (F _ I (numeric_get _ _ _ N G) p).
Qed.
Definition fine (x : val) : Prop := proper x /\ numeric x.
Lemma plus_same x x' y z : fine x -> fine x' -> fine y -> same_value x x' -> plus x y = Some z -> exists z', plus x' y = Some z' /\ same_value z z' /\ fine z'.
Proof.
  intros [PX NX] [PX' NX'] [PY NY] S H. destruct (plus_some y PY NY x' NX') as [z' Z].
  - intros p. rewrite <- (S p). exact (plus_agree y x z PY H p).
  - exists z'. split; [exact Z|]. split.
    + intros p. rewrite (plus_look y PY _ _ H p), (plus_look y PY _ _ Z p), (S p). reflexivity.
    + split; [exact (plus_proper _ _ _ PX' PY Z) | exact (plus_numeric _ _ _ NX' NY Z)].
Qed.
Lemma agree_swap A B C : nleaf A -> nleaf B -> nleaf C -> agree A B -> agree (together A B) C -> agree A C /\ agree (together A C) B.
Proof. destruct A as [[|?|[]]|], B as [[|?|[]]|], C as [[|?|[]]|]; cbn; tauto. Qed.
Lemma together_swap A B C : nleaf A -> nleaf B -> nleaf C -> agree A B -> agree (together A B) C -> together (together A B) C = together (together A C) B.
Proof. destruct A as [[|?|[]]|], B as [[|?|[]]|], C as [[|?|[]]|]; cbn; try tauto; intros; try reflexivity; do 2 f_equal; lia. Qed.
Lemma plus_swap x a b c d : fine x -> fine a -> fine b -> plus x a = Some c -> plus c b = Some d ->
  exists c' d', plus x b = Some c' /\ plus c' a = Some d' /\ same_value d d' /\ fine d'.
Proof.
  intros [PX NX] [PA NA] [PB NB] H1 H2.
  pose proof (plus_agree a x c PA H1) as A1. pose proof (plus_agree b c d PB H2) as A2.
  assert (A : forall p, agree (look p x) (look p b) /\ agree (together (look p x) (look p b)) (look p a)).
  { intros p. specialize (A1 p). specialize (A2 p). rewrite (plus_look a PA _ _ H1 p) in A2.
    apply agree_swap; try (apply numeric_look; assumption); assumption. }
  destruct (plus_some b PB NB x NX (fun p => proj1 (A p))) as [c' C]. pose proof (plus_proper _ _ _ PX PB C) as PC. pose proof (plus_numeric _ _ _ NX NB C) as NC.
  destruct (plus_some a PA NA c' NC) as [d' D]; [intros p; rewrite (plus_look b PB _ _ C p); exact (proj2 (A p))|].
  exists c', d'. split; [exact C|]. split; [exact D|]. split.
  - intros p. rewrite (plus_look b PB _ _ H2 p), (plus_look a PA _ _ H1 p), (plus_look a PA _ _ D p), (plus_look b PB _ _ C p).
    apply together_swap; try (apply numeric_look; assumption); [exact (A1 p)|]. specialize (A2 p). rewrite (plus_look a PA _ _ H1 p) in A2. exact A2.
  - split; [exact (plus_proper _ _ _ PC PA D) | exact (plus_numeric _ _ _ NC NA D)].
Qed.

Definition add_all (acc : option val) (l : list (option val)) : option val := fold_left (both plus) l acc.
Lemma sum_of_add_all body m : sum_of body m = add_all (Some (VMap true [])) (map (fun kv => body (fst kv) (snd kv)) m).
Proof. unfold sum_of, add_all. generalize (Some (VMap true [])). induction m as [|kv m IH]; intros acc; cbn [map fold_left]; [reflexivity | apply IH]. Qed.
Definition fine_opt (o : option val) : Prop := match o with Some x => fine x | None => True end.
Lemma add_all_none l : add_all None l = None.
Proof. unfold add_all. induction l as [|o l IH]; cbn [fold_left both]; [reflexivity|]. exact IH. Qed.
Lemma add_all_same l : Forall fine_opt l -> forall x x' z, fine x -> fine x' -> same_value x x' -> add_all (Some x) l = Some z ->
  exists z', add_all (Some x') l = Some z' /\ same_value z z'.
Proof.
  intros F. induction F as [|o l O F IH]; intros x x' z X X' S H; unfold add_all in *; cbn [fold_left] in *.
  - injection H as <-. eauto.
  - destruct o as [y|]; [|cbn [both] in H; fold (add_all None l) in H; rewrite add_all_none in H; discriminate]. cbn [both] in *. cbn [fine_opt] in O.
    destruct (plus x y) as [u|] eqn:Q; [|fold (add_all None l) in H; rewrite add_all_none in H; discriminate].
    destruct (plus_same x x' y u X X' O S Q) as [u' [Q' [SU FU]]]. rewrite Q'. apply (IH u u' z); try assumption.
    split; [exact (plus_proper _ _ _ (proj1 X) (proj1 O) Q) | exact (plus_numeric _ _ _ (proj2 X) (proj2 O) Q)].
Qed.
Lemma add_all_perm l l' : Permutation l l' -> Forall fine_opt l -> forall x z, fine x -> add_all (Some x) l = Some z ->
  exists z', add_all (Some x) l' = Some z' /\ same_value z z'.
Proof.
  intros P. induction P as [|o l l' P IH|o1 o2 l|l1 l2 l3 P1 IH1 P2 IH2]; intros F x z X H.
  - exists z. split; [exact H | intros p; reflexivity].
  - inversion F as [|? ? O F' E]. subst. unfold add_all in *. cbn [fold_left] in *.
    destruct o as [y|]; [|cbn [both] in H; fold (add_all None l) in H; rewrite add_all_none in H; discriminate]. cbn [both] in *. cbn [fine_opt] in O.
    destruct (plus x y) as [u|] eqn:Q; [|fold (add_all None l) in H; rewrite add_all_none in H; discriminate].
    apply (IH F'); [|exact H]. split; [exact (plus_proper _ _ _ (proj1 X) (proj1 O) Q) | exact (plus_numeric _ _ _ (proj2 X) (proj2 O) Q)].
  - inversion F as [|? ? O1 F' E]. subst. inversion F' as [|? ? O2 F2 E]. subst. unfold add_all in *. cbn [fold_left] in *.
    fold (add_all (both plus (both plus (Some x) o2) o1) l) in H.
    destruct o2 as [b|]; [|cbn [both] in H; rewrite add_all_none in H; discriminate]. cbn [both fine_opt] in *.
    destruct (plus x b) as [c|] eqn:Q1; [|rewrite add_all_none in H; discriminate].
    destruct o1 as [a|]; [|cbn [both] in H; rewrite add_all_none in H; discriminate]. cbn [both fine_opt] in *.
    destruct (plus c a) as [d|] eqn:Q2; [|rewrite add_all_none in H; discriminate].
    destruct (plus_swap x b a c d X O1 O2 Q1 Q2) as [c' [d' [C [D [SD FD]]]]]. rewrite C. cbn [both]. rewrite D.
    apply (add_all_same l F2 d d' z); try assumption.
    assert (FC : fine c) by (split; [exact (plus_proper _ _ _ (proj1 X) (proj1 O1) Q1) | exact (plus_numeric _ _ _ (proj2 X) (proj2 O1) Q1)]).
    split; [exact (plus_proper _ _ _ (proj1 FC) (proj1 O2) Q2) | exact (plus_numeric _ _ _ (proj2 FC) (proj2 O2) Q2)].
  - destruct (IH1 F x z X H) as [z1 [H1 S1]].
    assert (F2 : Forall fine_opt l2) by (rewrite Forall_forall in *; intros o I; apply F; apply (Permutation_in o (Permutation_sym P1)); exact I).
    destruct (IH2 F2 x z1 X H1) as [z2 [H2 S2]]. exists z2. split; [exact H2|]. intros p. rewrite (S1 p). apply S2.
Qed.
Theorem sum_any_order body m m' x : Permutation m m' ->
  (forall k v y, In (k, v) m -> body k v = Some y -> proper y /\ numeric y) ->
  sum_of body m = Some x -> exists x', sum_of body m' = Some x' /\ same_value x x'.
Proof.
  intros P B H. rewrite sum_of_add_all in *. refine (add_all_perm _ _ (Permutation_map _ P) _ _ _ _ H).
  - rewrite Forall_forall. intros o I. apply in_map_iff in I. destruct I as [[k v] [<- I]]. cbn [fst snd].
    destruct (body k v) as [y|] eqn:E; [|exact Logic.I]. exact (B k v y I E).
  - split; repeat constructor.
Qed.
Lemma add_any_order x y z : proper x -> numeric x -> proper y -> numeric y -> plus x y = Some z -> exists z', plus y x = Some z' /\ same_value z z'.
Proof.
  intros PX NX PY NY H. pose proof (plus_agree y x z PY H) as A. destruct (plus_some x PX NX y NY) as [z' Z].
  - intros p. specialize (A p). unfold agree in *. destruct (look p x) as [[]|], (look p y) as [[]|]; tauto.
  - exists z'. split; [exact Z|]. intros p. rewrite (plus_look y PY _ _ H p), (plus_look x PX _ _ Z p). specialize (A p).
    pose proof (numeric_look x NX p) as L1. pose proof (numeric_look y NY p) as L2.
    destruct (look p x) as [[|?|[]]|], (look p y) as [[|?|[]]|]; cbn in *; try contradiction; try reflexivity. rewrite Z.add_comm. reflexivity.
Qed.
