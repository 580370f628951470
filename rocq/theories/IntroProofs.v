(** Proofs about the introduction's sums. *)
From Coq Require Import List Bool Arith ZArith Permutation Lia.
Import ListNotations.
From Verif Require Import IntroModel IntroSpec.

Local Arguments Nat.ltb : simpl never.
Section All.
Variable P : expr -> Prop.
Hypothesis Hn : forall z, P (Num z).
Hypothesis Ho : forall f l, Forall P l -> P (Op f l).
Hypothesis Ha : forall a b, P a -> P b -> P (Add a b).
Fixpoint expr_all (e : expr) : P e :=
  match e with
  | Num z => Hn z
  | Op f l => Ho f l ((fix go l : Forall P l := match l with [] => Forall_nil P | x :: k => Forall_cons x (expr_all x) (go k) end) l)
  | Add a b => Ha a b (expr_all a) (expr_all b)
  end.
End All.
Lemma alle_in P l : alle P l <-> Forall P l.
Proof. induction l as [|e l IH]; cbn; split; intros H; [constructor|exact Logic.I| |]. - constructor; [apply H|apply IH, H]. - inversion H; subst. split; [assumption|now apply IH]. Qed.

Section P.
Variable addr : nat -> nat.
Variable p : pattern.
Definition calls (x y r : expr) : Prop := exists n, forall m, n <= m -> call addr m (stack p) x y = Ok r.
(** Summands: terms of other operations without two arguments *)
Definition atom (e : expr) : Prop := match e with Op _ l => length l <> 2 | _ => False end.
Definition less (m s : expr) : bool := match m, s with Op f [], Op g [] => addr f <? addr g | _, _ => false end.
Lemma less_asym m s : less m s = true -> less s m = false.
Proof. destruct m as [|f [|]|], s as [|g [|]|]; cbn; try discriminate; try reflexivity. intros H. apply Nat.ltb_lt in H. apply Nat.ltb_ge. lia. Qed.

(** A normal form: the integer and the summands from the right *)
Fixpoint render (k : option Z) (r : list expr) : expr :=
  match r with
  | [] => match k with Some z => Num z | None => Num 0 end
  | s :: r' => match r', k with [], None => s | _, _ => Add (render k r') s end
  end.
Fixpoint ins (s : expr) (r : list expr) : list expr :=
  match r with m :: r' => if less m s then m :: ins s r' else s :: r | [] => [s] end.
Definition snoc (k : option Z) (r : list expr) (s : expr) : list expr :=
  match p with
  | PMapping => ins s r
  | PSequence => match k, r with None, [m] => if less m s then [m; s] else [s; m] | _, _ => s :: r end
  end.
Fixpoint stable (k : option Z) (r : list expr) : Prop := match r with [] => True | s :: r' => snoc k r' s = s :: r' /\ stable k r' end.
Record good (k : option Z) (r : list expr) : Prop := { g_some : k <> None \/ r <> []; g_atoms : Forall atom r; g_stable : stable k r }.

Lemma ins_ne s r : ins s r <> [].
Proof. destruct r as [|m r]; cbn; [discriminate|]. destruct (less m s); discriminate. Qed.
Lemma snoc_ne k r s : snoc k r s <> [].
Proof. unfold snoc. destruct p; [apply ins_ne|]. destruct k, r as [|m [|]]; try discriminate. destruct (less m s); discriminate. Qed.
Lemma ins_perm s r : Permutation (ins s r) (s :: r).
Proof. induction r as [|m r IH]; cbn; [reflexivity|]. destruct (less m s); [|reflexivity]. rewrite IH. apply perm_swap. Qed.
Lemma snoc_perm k r s : Permutation (snoc k r s) (s :: r).
Proof. unfold snoc. destruct p; [apply ins_perm|]. destruct k; [reflexivity|]. destruct r as [|m [|]]; try reflexivity. destruct (less m s); [apply perm_swap|reflexivity]. Qed.
Lemma render_add k s r : k <> None \/ r <> [] -> render k (s :: r) = Add (render k r) s.
Proof. intros [H|H]; cbn; [destruct r, k; congruence|destruct r; congruence]. Qed.
Lemma render_last k s r : render k (s :: r) = s /\ k = None /\ r = [] \/ render k (s :: r) = Add (render k r) s /\ (k <> None \/ r <> []).
Proof. destruct k; [right; split; [now rewrite render_add by (left; discriminate)|left; discriminate]|]. destruct r; [left; auto|right; split; [reflexivity|right; discriminate]]. Qed.

Lemma ins_stable_head s r : p = PMapping -> (ins s r = s :: r <-> match r with [] => True | m :: _ => less m s = false end).
Proof.
  intros _. destruct r as [|m r]; cbn; [tauto|]. destruct (less m s) eqn:E; [|tauto]. split; [|discriminate].
  intros H. injection H as -> _. apply less_asym in E as E'. congruence.
Qed.
Lemma stable_ins k s r : p = PMapping -> stable k r -> stable k (ins s r).
Proof.
  intros Ep. induction r as [|m r IH]; cbn [ins stable].
  - intros _. unfold snoc. rewrite Ep. auto.
  - intros [H Hs]. unfold snoc in H. rewrite Ep in H. destruct (less m s) eqn:E.
    + cbn [stable]. split; [|now apply IH]. unfold snoc. rewrite Ep. apply (ins_stable_head _ _ Ep).
      destruct r as [|m' r]; cbn [ins]; [now apply less_asym|]. apply (ins_stable_head _ _ Ep) in H. destruct (less m' s); [assumption|now apply less_asym].
    + cbn [stable]. unfold snoc. rewrite Ep. split; [now apply (ins_stable_head _ _ Ep)|]. split; assumption.
Qed.
Lemma stable_snoc k s r : stable k r -> stable k (snoc k r s).
Proof.
  intros H. destruct p eqn:Ep; unfold snoc; rewrite Ep; [now apply stable_ins|].
  destruct k as [z|].
  - cbn [stable]. unfold snoc. rewrite Ep. auto.
  - destruct r as [|m [|m' r]].
    + cbn. unfold snoc. rewrite Ep. auto.
    + destruct (less m s) eqn:E; cbn [stable]; unfold snoc; rewrite Ep; [rewrite (less_asym _ _ E)|rewrite E]; auto.
    + cbn [stable] in *. split; [unfold snoc; rewrite Ep; reflexivity|assumption].
Qed.
Lemma stable_some k z r : stable k r -> stable (Some z) r.
Proof.
  induction r as [|s r IH]; cbn; [auto|]. intros [H Hs]. split; [|auto]. unfold snoc in *. destruct p; [assumption|reflexivity].
Qed.
Lemma good_snoc k r s : Forall atom r -> stable k r -> atom s -> good k (snoc k r s).
Proof.
  intros A St As. constructor; [right; apply snoc_ne| |now apply stable_snoc].
  apply (Permutation_Forall (Permutation_sym (snoc_perm k r s))). now constructor.
Qed.

Lemma fire_assoc_atom add x s : atom s -> fire addr add Assoc x s = None.
Proof. destruct s as [|f [|a [|b [|c l]]]|]; cbn; intros H; try reflexivity; try (now destruct H); now destruct H. Qed.
Lemma fire_eager_atom add x s : atom s -> fire addr add Eager x s = None.
Proof. destruct s; cbn; [now intros []| |now intros []]. destruct x; reflexivity. Qed.

(** Appending a summand *)
Lemma calls_snoc k r s : k <> None \/ r <> [] -> Forall atom r -> stable k r -> atom s -> calls (render k r) s (render k (snoc k r s)).
Proof.
  revert s. induction r as [|m r IH]; intros s G A St As.
  - destruct G as [G|G]; [|now destruct G]. destruct k as [z|]; [|now destruct G].
    assert (E : snoc (Some z) [] s = [s]) by (unfold snoc; destruct p; reflexivity). rewrite E. exists 1. intros [|n] L; [lia|]. cbn [call stack try render].
    rewrite fire_assoc_atom, fire_eager_atom by assumption. destruct s as [|f l|]; [destruct As| |destruct As]. reflexivity.
  - inversion A as [|? ? Am Ar]; subst. destruct St as [Sm Sr]. destruct (render_last k m r) as [(E & -> & ->)|(E & G')]; rewrite E.
    + (* a single summand *)
      assert (Es : snoc None [m] s = if less m s then [m; s] else [s; m]) by (unfold snoc; destruct p; reflexivity).
      rewrite Es. destruct m as [|f l|]; [destruct Am| |destruct Am]. destruct s as [|g l'|]; [destruct As| |destruct As].
      assert (F : forall n, call addr (S n) (stack p) (Op f l) (Op g l') = if less (Op f l) (Op g l') then call addr n (stack p) (Op g l') (Op f l) else Ok (Add (Op f l) (Op g l'))).
      { intros n. cbn [call stack try]. rewrite fire_assoc_atom, fire_eager_atom by assumption.
        destruct l as [|a [|b [|c l]]], l' as [|a' l']; cbn; try reflexivity; try (now destruct Am).
        all: try (destruct (addr f <? addr g); reflexivity).
        all: destruct b as [|bf [|b1 bl]|]; reflexivity. }
      exists 2. intros [|[|n]] L; [lia|lia|]. rewrite F. destruct (less (Op f l) (Op g l')) eqn:Le; [|reflexivity].
      assert (F' : call addr (S n) (stack p) (Op g l') (Op f l) = Ok (Add (Op g l') (Op f l))).
      { destruct l as [|a l]; [|discriminate Le]. destruct l' as [|a' l']; [|discriminate Le]. cbn [call stack try]. cbn in Le. apply Nat.ltb_lt in Le. cbn.
        destruct (addr g <? addr f) eqn:Q; [apply Nat.ltb_lt in Q; lia|reflexivity]. }
      exact F'.
    + (* the last summand may be smaller *)
      destruct (less m s && matches_kwargs p) eqn:Le.
      * apply andb_true_iff in Le. destruct Le as [Le Ep]. assert (Epp : p = PMapping) by (destruct p; [reflexivity|discriminate]).
        assert (Es : snoc k (m :: r) s = m :: snoc k r s) by (unfold snoc; rewrite Epp; cbn; now rewrite Le). rewrite Es.
        destruct (IH s G' Ar Sr As) as (n1 & H1).
        assert (St' : stable k (snoc k r s)) by now apply stable_snoc.
        assert (Em : snoc k (snoc k r s) m = m :: snoc k r s).
        { rewrite <- Es. assert (S1 : stable k (snoc k (m :: r) s)) by (apply stable_snoc; split; assumption). rewrite Es in S1. cbn in S1. destruct S1 as [S1 _]. now rewrite Es. }
        (* the last is then appended *)
        assert (H2 : exists n2, forall q, n2 <= q -> call addr q (stack p) (render k (snoc k r s)) m = Ok (render k (m :: snoc k r s))).
        { rewrite (render_add k m (snoc k r s)) by (right; apply snoc_ne). clear IH H1.
          assert (Hd : match snoc k r s with [] => True | h :: _ => less h m = false end).
          { unfold snoc in Em |- *. rewrite Epp in Em |- *. now apply (ins_stable_head m (ins s r) Epp) in Em. }
          assert (Al : Forall atom (snoc k r s)) by (apply (Permutation_Forall (Permutation_sym (snoc_perm k r s))); now constructor).
          destruct (snoc k r s) as [|h t] eqn:Q; [now destruct (snoc_ne k r s)|]. exists 1. intros [|q] L; [lia|]. cbn [call stack try].
          rewrite fire_assoc_atom, fire_eager_atom by assumption. inversion Al as [|? ? Ah _]; subst.
          destruct m as [|mf ml|]; [destruct Am| |destruct Am]. destruct ml as [|ma ml]; [|discriminate Le].
          destruct (render_last k h t) as [(-> & _)|(-> & _)].
          - destruct h as [|hf hl|]; [destruct Ah| |destruct Ah]. destruct hl as [|h1 [|h2 [|h3 hl]]]; cbn; try reflexivity; try (now destruct Ah); [cbn in Hd; now rewrite Hd|]. destruct h2 as [|bf [|b1 bl]|]; reflexivity.
          - destruct h as [|hf hl|]; [destruct Ah| |destruct Ah]. destruct hl as [|h1 hl]; cbn; try reflexivity. cbn in Hd. rewrite Hd, andb_false_r. reflexivity. }
        destruct H2 as (n2 & H2). exists (S (n1 + n2)). intros [|q] L; [lia|]. cbn [call stack try].
        rewrite fire_assoc_atom by assumption.
        destruct m as [|mf ml|]; [destruct Am| |destruct Am]. destruct ml as [|ma ml]; [|discriminate Le]. destruct s as [|sf sl|]; [destruct As| |destruct As]. destruct sl as [|sa sl]; [|discriminate Le].
        cbn [fire]. cbn in Le. rewrite Ep, Le. cbn [andb]. rewrite H1 by lia. cbn [bind]. rewrite H2 by lia. reflexivity.
      * assert (Es : snoc k (m :: r) s = s :: m :: r).
        { unfold snoc. destruct p; cbn in Le |- *; [rewrite andb_true_r in Le; now rewrite Le|]. destruct k as [z|]; [reflexivity|]. destruct r; [|reflexivity]. destruct G' as [G'|G']; now destruct G'. }
        rewrite Es, (render_add k s (m :: r)) by (right; discriminate). rewrite E. exists 1. intros [|q] L; [lia|]. cbn [call stack try].
        rewrite fire_assoc_atom, fire_eager_atom by assumption.
        destruct m as [|mf ml|]; [destruct Am| |destruct Am]. destruct s as [|sf sl|]; [destruct As| |destruct As].
        destruct ml as [|ma ml], sl as [|sa sl]; cbn; try reflexivity. cbn in Le. rewrite andb_comm in Le. now rewrite Le.
Qed.

(** An integer on the left *)
Lemma calls_num z k r : good k r -> calls (Num z) (render k r) (render (oplus (Some z) k) r).
Proof.
  intros [G A St]. induction r as [|s r IH].
  - destruct G as [G|G]; [|now destruct G]. destruct k as [y|]; [|now destruct G]. exists 1. intros [|n] L; [lia|]. reflexivity.
  - inversion A as [|? ? As Ar]; subst. destruct St as [Ss Sr]. assert (Hk : exists y, oplus (Some z) k = Some y) by (destruct k; cbn; eauto).
    destruct Hk as (y & Hk). rewrite Hk in *.
    assert (C : calls (render (Some y) r) s (render (Some y) (s :: r))).
    { assert (S' : stable (Some y) (s :: r)) by (apply (stable_some k); split; assumption). destruct S' as [S' S''].
      rewrite <- S'. apply calls_snoc; [left; discriminate|assumption|assumption|assumption]. }
    destruct (render_last k s r) as [(E & -> & ->)|(E & G')]; rewrite E.
    + assert (y = z) as -> by (cbn in Hk; congruence). exact C.
    + destruct (IH G' Ar Sr) as (n1 & H1). destruct C as (n2 & H2). exists (S (n1 + n2)). intros [|n] L; [lia|]. cbn [call stack try fire].
      rewrite H1 by lia. cbn [bind]. apply H2. lia.
Qed.
(** An integer on the right *)
Lemma calls_num_r z k r : good k r -> calls (render k r) (Num z) (render (oplus k (Some z)) r).
Proof.
  intros Gd. assert (Eo : oplus k (Some z) = oplus (Some z) k) by (destruct k; cbn; [f_equal; lia|reflexivity]). rewrite Eo.
  destruct (calls_num z k r Gd) as (n & H). destruct Gd as [G A St].
  destruct r as [|s r].
  - destruct k as [y|]; [|destruct G as [G|G]; now destruct G]. exists 1. intros [|q] L; [lia|]. cbn. do 2 f_equal. lia.
  - exists (S n). intros [|q] L; [lia|]. rewrite <- (H q) by lia. cbn [call stack try].
    inversion A as [|? ? As Ar]; subst. destruct (render_last k s r) as [(-> & _)|(-> & _)]; [|reflexivity].
    destruct s as [|f l|]; [destruct As| |destruct As]. destruct l; reflexivity.
Qed.

Fixpoint combine (k1 : option Z) (r1 : list expr) (k2 : option Z) (r2 : list expr) : list expr :=
  match r2 with [] => r1 | s :: r' => snoc (oplus k1 k2) (combine k1 r1 k2 r') s end.
Lemma combine_perm k1 r1 k2 r2 : Permutation (combine k1 r1 k2 r2) (r2 ++ r1).
Proof. induction r2 as [|s r2 IH]; cbn; [reflexivity|]. rewrite snoc_perm. now constructor. Qed.
Lemma oplus_none k : oplus k None = k.
Proof. destruct k; reflexivity. Qed.
Lemma good_combine k1 r1 k2 r2 : good k1 r1 -> good k2 r2 -> good (oplus k1 k2) (combine k1 r1 k2 r2).
Proof.
  intros [G1 A1 S1] [G2 A2 S2]. assert (St : stable (oplus k1 k2) (combine k1 r1 k2 r2)).
  { clear G2 A2 S2. induction r2 as [|s r2 IH]; cbn; [|now apply stable_snoc]. destruct k1 as [z|], k2 as [y|]; cbn; try assumption; eapply stable_some; eassumption. }
  constructor; [|apply (Permutation_Forall (Permutation_sym (combine_perm k1 r1 k2 r2))), Forall_app; auto|assumption].
  destruct G1 as [G1|G1]; [left; destruct k1, k2; cbn; congruence|right]. intros E.
  pose proof (Permutation_length (combine_perm k1 r1 k2 r2)) as L. rewrite E, app_length in L. destruct r1; [now apply G1|cbn in L; lia].
Qed.
Lemma calls_combine k1 r1 k2 r2 : good k1 r1 -> good k2 r2 -> calls (render k1 r1) (render k2 r2) (render (oplus k1 k2) (combine k1 r1 k2 r2)).
Proof.
  intros Gd1 Gd2. destruct Gd2 as [G2 A2 S2]. induction r2 as [|s r2 IH].
  - destruct G2 as [G|G]; [|now destruct G]. destruct k2 as [z|]; [|now destruct G]. cbn [render combine]. now apply calls_num_r.
  - inversion A2 as [|? ? As Ar]; subst. destruct S2 as [Ss Sr]. destruct (render_last k2 s r2) as [(E & -> & ->)|(E & G')]; rewrite E.
    + cbn [combine]. rewrite oplus_none. destruct Gd1 as [G1 A1 S1]. now apply calls_snoc.
    + destruct (IH G' Ar Sr) as (n1 & H1). assert (Gc : good (oplus k1 k2) (combine k1 r1 k2 r2)) by (apply good_combine; [assumption|constructor; assumption]).
      destruct Gc as [Gc Ac Sc]. destruct (calls_snoc _ _ s Gc Ac Sc As) as (n2 & H2). exists (S (n1 + n2)). intros [|n] L; [lia|]. cbn [call stack try fire].
      rewrite H1 by lia. cbn [bind combine]. apply H2. lia.
Qed.

Definition zk (k : option Z) : Z := match k with Some z => z | None => 0%Z end.
Lemma value_render I k r : value I (render k r) = (zk k + fold_right Z.add 0%Z (map (value I) r))%Z.
Proof.
  induction r as [|s r IH]; [destruct k; cbn; lia|]. destruct (render_last k s r) as [(-> & -> & ->)|(-> & _)]; cbn [map fold_right value zk]; [lia|]. rewrite IH. lia.
Qed.
Lemma sum_perm (l l' : list Z) : Permutation l l' -> fold_right Z.add 0%Z l = fold_right Z.add 0%Z l'.
Proof. induction 1; cbn; lia. Qed.
Lemma sum_app (l l' : list Z) : fold_right Z.add 0%Z (l ++ l') = (fold_right Z.add 0%Z l + fold_right Z.add 0%Z l')%Z.
Proof. induction l; cbn; lia. Qed.
Lemma grouped_render k r : Forall atom r -> grouped (render k r).
Proof.
  induction r as [|s r IH]; intros A; [destruct k; exact Logic.I|]. inversion A as [|? ? As Ar]; subst.
  destruct s as [|f l|]; [destruct As| |destruct As]. destruct (render_last k (Op f l) r) as [(-> & _)|(-> & _)]; cbn; auto.
Qed.
Lemma render_parts k r : Forall atom r -> good k r -> total (render k r) = k /\ summands (render k r) = rev r.
Proof.
  intros A [G _ _]. induction r as [|s r IH].
  - destruct G as [G|G]; [|now destruct G]. destruct k; [split; reflexivity|now destruct G].
  - inversion A as [|? ? As Ar]; subst. destruct s as [|f l|]; [destruct As| |destruct As].
    destruct (render_last k (Op f l) r) as [(-> & -> & ->)|(-> & G')]; [split; reflexivity|]. destruct (IH Ar G') as [T U]. cbn. rewrite T, U, oplus_none. auto.
Qed.

Definition result (e : expr) (k : option Z) (r : list expr) : Prop :=
  good k r /\ becomes addr (stack p) e (render k r) /\ (forall I, value I (render k r) = value I e) /\ (plain e -> k = total e /\ Permutation r (summands e)).
Lemma eval_result e : no_pairs e -> exists k r, result e k r.
Proof.
  induction e as [z|f l F|a b IHa IHb] using expr_all; intros Np.
  - exists (Some z), []. split; [constructor; [left; discriminate|constructor|exact Logic.I]|]. split; [exists 0; reflexivity|]. split; [reflexivity|]. split; reflexivity.
  - destruct Np as [Nl Np]. rewrite alle_in in Np.
    assert (E : exists l', length l' = length l /\ (exists n, forall m, n <= m -> each (eval addr m (stack p)) l = Ok l') /\ forall I, map (value I) l' = map (value I) l).
    { clear Nl. induction F as [|e l He Fl IH]; [exists []; split; [reflexivity|split; [exists 0; reflexivity|reflexivity]]|].
      inversion Np as [|? ? Ne Nl]; subst. destruct (He Ne) as (k & r & _ & (n1 & H1) & V & _). destruct (IH Nl) as (l' & Ll & (n2 & H2) & V').
      exists (render k r :: l'). split; [cbn; congruence|]. split; [|intros I; cbn; now rewrite V, V'].
      exists (n1 + n2). intros m L. cbn. rewrite H1 by lia. cbn. rewrite H2 by lia. reflexivity. }
    destruct E as (l' & Ll & (n & H) & V). exists None, [Op f l']. split.
    { constructor; [right; discriminate|constructor; [cbn; lia|constructor]|]. cbn. split; [unfold snoc; destruct p; reflexivity|exact Logic.I]. }
    split; [exists n; intros m L; cbn [eval]; rewrite H by assumption; reflexivity|]. split; [intros I; cbn; now rewrite V|].
    cbn. intros ->. destruct l'; [|discriminate]. auto.
  - destruct Np as [Na Nb]. destruct (IHa Na) as (k1 & r1 & G1 & (n1 & H1) & V1 & P1). destruct (IHb Nb) as (k2 & r2 & G2 & (n2 & H2) & V2 & P2).
    destruct (calls_combine _ _ _ _ G1 G2) as (n3 & H3). exists (oplus k1 k2), (combine k1 r1 k2 r2).
    split; [now apply good_combine|]. split.
    { exists (n1 + n2 + n3). intros m L. cbn. rewrite H1 by lia. cbn. rewrite H2 by lia. cbn. apply H3. lia. }
    split.
    { intros I. rewrite value_render. cbn [value]. rewrite <- V1, <- V2, !value_render.
      rewrite (sum_perm _ (map (value I) (r2 ++ r1))) by (apply Permutation_map, combine_perm). rewrite map_app, sum_app. destruct k1, k2; cbn; lia. }
    intros [Pa Pb]. destruct (P1 Pa) as [-> Q1]. destruct (P2 Pb) as [-> Q2]. split; [reflexivity|]. cbn. rewrite combine_perm, Q1, Q2. apply Permutation_app_comm.
Qed.

Lemma becomes_fun e r r' : becomes addr (stack p) e r -> becomes addr (stack p) e r' -> r = r'.
Proof. intros (n & H) (n' & H'). specialize (H (n + n')). specialize (H' (n + n')). rewrite H in H' by lia. specialize (H' ltac:(lia)). congruence. Qed.
Lemma plain_no_pairs e : plain e -> no_pairs e.
Proof. induction e as [z|f l F|a b IHa IHb] using expr_all; cbn; [auto| |tauto]. intros ->. split; [discriminate|exact Logic.I]. Qed.

Lemma sums_l e : no_pairs e -> exists r, becomes addr (stack p) e r /\ grouped r /\ forall I, value I r = value I e.
Proof. intros N. destruct (eval_result e N) as (k & r & G & B & V & _). exists (render k r). split; [assumption|]. split; [apply grouped_render, G|assumption]. Qed.
Lemma keeps_l e r : plain e -> becomes addr (stack p) e r -> same_sum e r.
Proof.
  intros Pl B. destruct (eval_result e (plain_no_pairs e Pl)) as (k & l & G & B' & _ & Q). rewrite (becomes_fun _ _ _ B B').
  destruct (Q Pl) as [Ek Pm]. destruct (render_parts k l (g_atoms _ _ G) G) as [T U]. split; [congruence|]. rewrite U, <- Permutation_rev. now symmetry.
Qed.

(** Evaluating the result again *)
Lemma eval_render k r : good k r -> Forall (fun s => exists f, s = Op f []) r -> becomes addr (stack p) (render k r) (render k r).
Proof.
  intros [G A St] V. induction r as [|s r IH].
  - destruct k; exists 0; reflexivity.
  - inversion A as [|? ? As Ar]; subst. inversion V as [|? ? [f ->] Vr]; subst. destruct St as [Ss Sr].
    destruct (render_last k (Op f []) r) as [(E & -> & ->)|(E & G')]; rewrite E; [exists 0; reflexivity|].
    destruct (IH G' Ar Sr Vr) as (n1 & H1). destruct (calls_snoc k r (Op f []) G' Ar Sr As) as (n2 & H2). rewrite Ss, E in H2.
    exists (n1 + n2). intros m L. cbn [eval each bind]. rewrite H1 by lia. cbn [bind]. apply H2. lia.
Qed.
Lemma plain_vars e : plain e -> Forall (fun s => exists f, s = Op f []) (summands e).
Proof. induction e as [z|f l F|a b IHa IHb] using expr_all; cbn; [constructor| |]. - intros ->. repeat constructor. eauto. - intros [Pa Pb]. apply Forall_app. auto. Qed.
Lemma again_l e r : plain e -> becomes addr (stack p) e r -> becomes addr (stack p) r r.
Proof.
  intros Pl B. destruct (eval_result e (plain_no_pairs e Pl)) as (k & l & G & B' & _ & Q). rewrite (becomes_fun _ _ _ B B').
  apply eval_render; [assumption|]. destruct (Q Pl) as [_ Pm]. apply (Permutation_Forall (Permutation_sym Pm)), plain_vars, Pl.
Qed.

(** One variable *)
Lemma all_same {A} (a : A) l l' : Forall (fun x => x = a) l -> Permutation l l' -> l = l'.
Proof.
  intros F P. pose proof (Permutation_Forall P F) as F'. apply Permutation_length in P. revert l' F' P. induction F as [|x l Hx Fl IH]; intros [|y l'] F' L; try discriminate; [reflexivity|].
  inversion F'; subst. f_equal. apply IH; [assumption|cbn in L; lia].
Qed.
Lemma one_variable_l f e e' r r' : plain e -> plain e' -> Forall (fun s => s = Op f []) (summands e) -> same_sum e e' -> becomes addr (stack p) e r -> becomes addr (stack p) e' r' -> r = r'.
Proof.
  intros Pl Pl' One [T Pm] B B'.
  destruct (eval_result e (plain_no_pairs e Pl)) as (k & l & _ & B1 & _ & Q). destruct (eval_result e' (plain_no_pairs e' Pl')) as (k' & l' & _ & B1' & _ & Q').
  rewrite (becomes_fun _ _ _ B B1), (becomes_fun _ _ _ B' B1'). destruct (Q Pl) as [-> P1]. destruct (Q' Pl') as [-> P2]. rewrite T. f_equal.
  apply (all_same (Op f [])); [apply (Permutation_Forall (Permutation_sym P1)); assumption|]. rewrite P1, Pm. now symmetry.
Qed.

(** With the mapping pattern: sorted, so canonical *)
Section Sorted.
Hypothesis Ep : p = PMapping.
Hypothesis inj : forall f g, addr f = addr g -> f = g.
Lemma stable_le k f r : Forall (fun s => exists f, s = Op f []) r -> stable k (Op f [] :: r) -> Forall (fun s => exists g, s = Op g [] /\ addr f <= addr g) r.
Proof.
  revert f. induction r as [|m r IH]; intros f V St; constructor; inversion V as [|? ? [g ->] Vr]; subst; destruct St as [H Hs].
  - exists g. split; [reflexivity|]. unfold snoc in H. rewrite Ep in H. cbn in H. destruct (addr g <? addr f) eqn:Q; [|now apply Nat.ltb_ge].
    injection H as E. apply Nat.ltb_lt in Q. subst. lia.
  - assert (Lg : addr f <= addr g).
    { unfold snoc in H. rewrite Ep in H. cbn in H. destruct (addr g <? addr f) eqn:Q; [|now apply Nat.ltb_ge]. injection H as E. subst. lia. }
    specialize (IH g Vr Hs). apply Forall_forall. intros s Hin. rewrite Forall_forall in IH. destruct (IH s Hin) as (h & -> & L). exists h. split; [reflexivity|lia].
Qed.
Lemma sorted_eq k l l' : Forall (fun s => exists f, s = Op f []) l -> stable k l -> stable k l' -> Permutation l l' -> l = l'.
Proof.
  revert l'. induction l as [|s l IH]; intros l' V S1 S2 Pm; [apply Permutation_nil in Pm; now subst|].
  destruct l' as [|s' l']; [symmetry in Pm; now apply Permutation_nil in Pm|]. pose proof (Permutation_Forall Pm V) as V'.
  inversion V as [|? ? [f ->] Vl]; subst. inversion V' as [|? ? [g ->] Vl']; subst.
  pose proof (stable_le k f l Vl S1) as Lf. pose proof (stable_le k g l' Vl' S2) as Lg. rewrite Forall_forall in Lf, Lg.
  assert (L1 : addr f <= addr g).
  { assert (J : In (Op g []) (Op f [] :: l)) by (apply (Permutation_in _ (Permutation_sym Pm)); now left). destruct J as [J|J]; [injection J as ->; lia|]. destruct (Lf _ J) as (h & E & L). injection E as ->. exact L. }
  assert (L2 : addr g <= addr f).
  { assert (J : In (Op f []) (Op g [] :: l')) by (apply (Permutation_in _ Pm); now left). destruct J as [J|J]; [injection J as ->; lia|]. destruct (Lg _ J) as (h & E & L). injection E as ->. exact L. }
  assert (f = g) as -> by (apply inj; lia). f_equal. apply IH; [assumption|apply S1|apply S2|]. now apply Permutation_cons_inv in Pm.
Qed.
Lemma canonical_l e e' r r' : plain e -> plain e' -> becomes addr (stack p) e r -> becomes addr (stack p) e' r' -> (r = r' <-> same_sum e e').
Proof.
  intros Pl Pl' B B'. split.
  - intros <-. destruct (keeps_l e r Pl B) as [T1 P1]. destruct (keeps_l e' r Pl' B') as [T2 P2]. split; [congruence|]. rewrite P1. now symmetry.
  - intros [T Pm]. destruct (eval_result e (plain_no_pairs e Pl)) as (k & l & G & B1 & _ & Q). destruct (eval_result e' (plain_no_pairs e' Pl')) as (k' & l' & G' & B1' & _ & Q').
    rewrite (becomes_fun _ _ _ B B1), (becomes_fun _ _ _ B' B1'). destruct (Q Pl) as [-> P1]. destruct (Q' Pl') as [-> P2]. rewrite T in *. f_equal.
    apply (sorted_eq (total e')); [apply (Permutation_Forall (Permutation_sym P1)), plain_vars, Pl|apply G|apply G'|]. rewrite P1, Pm. now symmetry.
Qed.
End Sorted.
End P.

Lemma fails_all {exn} (rt : exn) r : fails exn rt (fun _ => true) r = None.
Proof. reflexivity. Qed.
Lemma fails_narrow {exn} (rt : exn) (raising : exn -> bool) r : raising rt = false -> (fails exn rt raising r = None <-> exists e, r = Some e /\ raising e = true).
Proof.
  intros N. unfold fails. destruct r as [e|].
  - destruct (raising e) eqn:Q; cbn; split; try discriminate; [intros _; now exists e|reflexivity|]. intros (e' & E & H). congruence.
  - rewrite N. cbn. split; [discriminate|]. intros (e & E & _). discriminate.
Qed.
