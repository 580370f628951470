(** Proofs about agents. *)
From Coq Require Import List Bool Arith Lia.
Import ListNotations.
From Verif Require Import AgModel AgSpec.

Lemma upd_eq {A} (f : nat -> A) i a : upd f i a i = a.
Proof. unfold upd. now rewrite Nat.eqb_refl. Qed.
Lemma upd_ne {A} (f : nat -> A) i j a : j <> i -> upd f i a j = f j.
Proof. unfold upd. intro N. apply Nat.eqb_neq in N. now rewrite N. Qed.

Section All.
Variable P : ev -> Prop.
Hypothesis Hn : forall c, P (New c).
Hypothesis Hg : forall i t, P (Get i t).
Hypothesis Hk : forall t, P (GetClass t).
Hypothesis Hc : forall i, P (Copy i).
Hypothesis Ha : forall i, P (Assign i).
Hypothesis Hl : forall i, P (Clear i).
Hypothesis Hd : forall i t q l r, Forall P l -> P (Call i t q l r).
Fixpoint ev_all (e : ev) : P e :=
  match e with
  | New c => Hn c | Get i t => Hg i t | GetClass t => Hk t | Copy i => Hc i | Assign i => Ha i | Clear i => Hl i
  | Call i t q l r => Hd i t q l r ((fix go l : Forall P l := match l with [] => Forall_nil P | x :: k => Forall_cons x (ev_all x) (go k) end) l)
  end.
End All.

Section P.
Variable w : world.
Hypothesis U : uniform w.
Definition sys (t c : nat) : list nat := if agent w c then told w t c else module_only w t.
Lemma told_prompt t c : prompt w t c = told w t c.
Proof. unfold prompt, told, parts. now destruct (module_doc w t), (class_doc w c). Qed.
(** The history of an agent of class [c] whose conversation is [l] *)
Definition shows (c : nat) (l : list (nat * nat)) (h : list msg) : Prop :=
  (l = [] /\ h = []) \/ (exists t, has w c t = true /\ h = Sys (prompt w t c) :: said l).
Record inv (s : state) (p : people) : Prop := {
  i_count : count s = pcount p;
  i_cls : cls s = pcls p;
  i_log : log s = plog p;
  i_none : forall i, hist s i = None -> conv p i = [];
  i_some : forall i h, hist s i = Some h -> i < count s /\ h < nh s /\ agent w (cls s i) = true /\ shows (cls s i) (conv p i) (hs s h);
  i_own : forall i j h, hist s i = Some h -> hist s j = Some h -> i = j;
  i_ops : forall i t b, ops s i t = Some b -> i < count s /\ has w (cls s i) t = true /\ plain w (cls s i) = true /\ self_of b = Some i /\ bsys b = sys t (cls s i) /\
          (if agent w (cls s i) then exists h, bhist b = Some h /\ hist s i = Some h else bhist b = None) }.
Record keeps (s s' : state) : Prop := {
  k_count : count s <= count s';
  k_cls : forall i, i < count s -> cls s' i = cls s i;
  k_hist : forall i h, hist s i = Some h -> hist s' i = Some h }.
Lemma keeps_refl s : keeps s s.
Proof. constructor; auto. Qed.
Lemma keeps_trans s1 s2 s3 : keeps s1 s2 -> keeps s2 s3 -> keeps s1 s3.
Proof.
  intros [A B C] [D E F]. constructor.
  - lia.
  - intros i L. rewrite E by lia. now apply B.
  - intros i h H. apply F. now apply C.
Qed.

Lemma history_inv s p i : inv s p -> i < count s -> agent w (cls s i) = true ->
  exists h, snd (history s i) = h /\ inv (fst (history s i)) p /\ keeps s (fst (history s i)) /\ hist (fst (history s i)) i = Some h /\
  count (fst (history s i)) = count s /\ cls (fst (history s i)) = cls s /\ ops (fst (history s i)) = ops s /\ log (fst (history s i)) = log s.
Proof.
  intros I Li Ag. unfold history. destruct (hist s i) as [h|] eqn:E; cbn.
  - exists h. repeat (split; [first [reflexivity | assumption | apply keeps_refl]|]). reflexivity.
  - exists (nh s). destruct I as [I1 I2 I3 I4 I5 I6 I7]. split; [reflexivity|]. split; [|split; [|split; [|auto]]].
    + constructor; cbn; auto.
      * intros j H. destruct (Nat.eq_dec j i) as [->|N]; [rewrite upd_eq in H; discriminate|]. rewrite upd_ne in H by assumption. now apply I4.
      * intros j h H. destruct (Nat.eq_dec j i) as [->|N].
        { rewrite upd_eq in H. injection H as <-. repeat split; [assumption|lia|assumption|]. rewrite upd_eq, (I4 i E). left. auto. }
        { rewrite upd_ne in H by assumption. destruct (I5 j h H) as (A & B & C & D). repeat split; [assumption|lia|assumption|]. rewrite upd_ne by lia. assumption. }
      * intros j k h Hj Hk. destruct (Nat.eq_dec j i) as [->|N], (Nat.eq_dec k i) as [->|M]; [reflexivity| | |].
        { rewrite upd_eq in Hj. injection Hj as <-. rewrite upd_ne in Hk by assumption. destruct (I5 k _ Hk) as (_ & B & _). lia. }
        { rewrite upd_eq in Hk. injection Hk as <-. rewrite upd_ne in Hj by assumption. destruct (I5 j _ Hj) as (_ & B & _). lia. }
        { rewrite upd_ne in Hj, Hk by assumption. now apply (I6 j k h). }
      * intros j t b H. destruct (I7 j t b H) as (A & B & C & D & F & G). repeat (split; [assumption|]).
        destruct (agent w (cls s j)); [|assumption]. destruct G as (h & G1 & G2). exists h. split; [assumption|].
        destruct (Nat.eq_dec j i) as [->|N]; [congruence|]. now rewrite upd_ne.
    + constructor; cbn; auto. intros j h H. destruct (Nat.eq_dec j i) as [->|N]; [congruence|]. now rewrite upd_ne.
    + apply upd_eq.
Qed.

Lemma put_op s p i t b : inv s p -> i < count s -> has w (cls s i) t = true -> plain w (cls s i) = true -> self_of b = Some i -> bsys b = sys t (cls s i) ->
  (if agent w (cls s i) then exists h, bhist b = Some h /\ hist s i = Some h else bhist b = None) -> inv (with_ops s (upd (ops s) i (upd (ops s i) t (Some b)))) p.
Proof.
  intros [I1 I2 I3 I4 I5 I6 I7] A B C D E F. constructor; cbn; auto.
  intros j u c H. destruct (Nat.eq_dec j i) as [->|N].
  - rewrite upd_eq in H. destruct (Nat.eq_dec u t) as [->|M].
    + rewrite upd_eq in H. injection H as <-. repeat (split; [assumption|]). assumption.
    + rewrite upd_ne in H by assumption. now apply I7.
  - rewrite upd_ne in H by assumption. now apply I7.
Qed.

Lemma access_inv s p i t : inv s p -> let s1 := fst (access w s i t) in
  inv s1 p /\ keeps s s1 /\ count s1 = count s /\ cls s1 = cls s /\ log s1 = log s /\
  snd (access w s i t) = (if (i <? count s) && has w (cls s i) t && plain w (cls s i) then ops s1 i t else None) /\
  ((i <? count s) && has w (cls s i) t && plain w (cls s i) = true -> ops s1 i t <> None).
Proof.
  intros I. cbn zeta. unfold access. destruct ((i <? count s) && has w (cls s i) t) eqn:G; cbn [andb].
  2: { cbn. repeat (split; [first [assumption | reflexivity | apply keeps_refl]|]). discriminate. }
  apply andb_true_iff in G. destruct G as [Li Hs]. apply Nat.ltb_lt in Li.
  destruct (ops s i t) as [b|] eqn:O.
  { destruct (i_ops _ _ I i t b O) as (_ & _ & Pl & _). rewrite Pl. cbn. rewrite O.
    repeat (split; [first [assumption | reflexivity | apply keeps_refl]|]). discriminate. }
  destruct (plain w (cls s i)) eqn:Pl.
  2: { cbn. repeat (split; [first [assumption | reflexivity | apply keeps_refl]|]). discriminate. }
  destruct (agent w (cls s i)) eqn:Ag.
  - destruct (history_inv s p i I Li Ag) as (h & Eh & Ii & K & Hi & Ec & El & Eo & Eg).
    destruct (history s i) as [s1 h1]. cbn in *. subst h1. rewrite !upd_eq. split.
    + apply put_op; [assumption|rewrite Ec; assumption|rewrite El; assumption|rewrite El; assumption|reflexivity| |].
      * cbn. unfold sys. now rewrite El, Ag, told_prompt.
      * rewrite El, Ag. exists h. auto.
    + split.
      { destruct K as [K1 K2 K3]. constructor; cbn; auto. }
      repeat (split; [first [assumption | reflexivity]|]). discriminate.
  - cbn. rewrite !upd_eq. split.
    + apply put_op; try assumption; try reflexivity.
      * cbn. unfold sys. now rewrite Ag.
      * now rewrite Ag.
    + split.
      { constructor; cbn; auto. }
      repeat (split; [first [assumption | reflexivity]|]). discriminate.
Qed.

Lemma set_conv s p i h l k : inv s p -> hist s i = Some h -> shows (cls s i) l k -> inv (with_hs s (upd (hs s) h k)) (remember p i l).
Proof.
  intros [I1 I2 I3 I4 I5 I6 I7] H Sh. constructor; cbn; auto.
  - intros j N. destruct (Nat.eq_dec j i) as [->|M]; [congruence|]. rewrite upd_ne by assumption. now apply I4.
  - intros j k' N. destruct (I5 j k' N) as (A & B & C & D). repeat (split; [assumption|]). destruct (Nat.eq_dec j i) as [->|M].
    + assert (k' = h) as -> by congruence. now rewrite !upd_eq.
    + assert (Nk : k' <> h) by (intros X; subst k'; apply M; now apply (I6 j i h)). now rewrite !upd_ne.
Qed.
Lemma log_inv s p o : inv s p -> inv (with_log s o) (tell p o).
Proof. intros [I1 I2 I3 I4 I5 I6 I7]. constructor; cbn; auto. now rewrite I3. Qed.
Lemma log_keeps s o : keeps s (with_log s o).
Proof. constructor; cbn; auto. Qed.
Lemma said_app a b : said (a ++ b) = said a ++ said b.
Proof. unfold said. now rewrite flat_map_app. Qed.

Lemma each_inv top l : Forall (fun e => simple e -> forall top s p, inv s p -> inv (run w top e s) (live w top e p) /\ keeps s (run w top e s)) l ->
  Forall simple l -> forall s p, inv s p -> inv (each (run w top) l s) (those (live w top) l p) /\ keeps s (each (run w top) l s).
Proof.
  intros F. induction F as [|e l He Fl IH]; intros Sm s p I; cbn.
  - split; [assumption|apply keeps_refl].
  - inversion Sm as [|e' l' Se Sl]; subst. destruct (He Se top s p I) as [I1 K1]. destruct (IH Sl _ _ I1) as [I2 K2].
    split; [assumption|]. now apply (keeps_trans _ _ _ K1).
Qed.
Lemma simple_all l : (fix all l := match l with [] => True | e :: r => simple e /\ all r end) l -> Forall simple l.
Proof. induction l as [|e l IH]; intros H; constructor; [apply H|apply IH; apply H]. Qed.

Lemma run_inv e : simple e -> forall top s p, inv s p -> inv (run w top e s) (live w top e p) /\ keeps s (run w top e s).
Proof.
  induction e as [c|i t|t|i|i|i|i t q l r F] using ev_all; intros Sm top s p I.
  - cbn. split.
    + destruct I as [I1 I2 I3 I4 I5 I6 I7]. constructor; cbn.
      * now rewrite I1.
      * now rewrite I1, I2.
      * assumption.
      * intros i H. destruct (Nat.eq_dec i (count s)) as [->|N]; [rewrite I1; now rewrite upd_eq|].
        rewrite upd_ne in H by assumption. rewrite upd_ne by lia. now apply I4.
      * intros i h H. destruct (Nat.eq_dec i (count s)) as [->|N]; [rewrite upd_eq in H; discriminate|].
        rewrite upd_ne in H by assumption. destruct (I5 i h H) as (A & B & C & D). rewrite !upd_ne by lia. auto with arith.
      * intros i j h Hi Hj. destruct (Nat.eq_dec i (count s)) as [->|N]; [rewrite upd_eq in Hi; discriminate|].
        destruct (Nat.eq_dec j (count s)) as [->|M]; [rewrite upd_eq in Hj; discriminate|].
        rewrite upd_ne in Hi, Hj by assumption. now apply (I6 i j h).
      * intros i t b H. destruct (Nat.eq_dec i (count s)) as [->|N]; [rewrite upd_eq in H; discriminate|].
        rewrite upd_ne in H by assumption. destruct (I7 i t b H) as (A & B). rewrite !upd_ne by assumption. auto with arith.
    + constructor; cbn; [auto| |].
      * intros i L. now rewrite upd_ne by lia.
      * intros i h H. destruct (i_some _ _ I i h H) as (A & _). now rewrite upd_ne by lia.
  - cbn. destruct (access_inv s p i t I) as (A & B & _). auto.
  - cbn. split; [|constructor; auto]. destruct I as [I1 I2 I3 I4 I5 I6 I7]. constructor; auto.
  - destruct Sm.
  - destruct Sm.
  - cbn [run live]. rewrite <- (i_count _ _ I), <- (i_cls _ _ I). destruct ((i <? count s) && agent w (cls s i)) eqn:G; [|split; [assumption|apply keeps_refl]].
    apply andb_true_iff in G. destruct G as [Li Ag]. apply Nat.ltb_lt in Li.
    destruct (history_inv s p i I Li Ag) as (h & Eh & Ii & K & Hi & _). destruct (history s i) as [s1 h1]. cbn in *. subst h1. split.
    + apply set_conv; [assumption|assumption|]. left. auto.
    + destruct K as [K1 K2 K3]. constructor; cbn; auto.
  - cbn [run live]. rewrite <- (i_count _ _ I), <- (i_cls _ _ I).
    destruct (access_inv s p i t I) as (I1 & K1 & Ec & El & Eg & Ea & En).
    destruct (access w s i t) as [s1 ob]. cbn [fst snd] in *. subst ob.
    destruct ((i <? count s) && has w (cls s i) t && plain w (cls s i)) eqn:G.
    2: { split; [now apply log_inv|]. apply (keeps_trans _ _ _ K1), log_keeps. }
    destruct (ops s1 i t) as [b|] eqn:O; [|now destruct (En eq_refl)].
    destruct (i_ops _ _ I1 i t b O) as (Li & Hs & Pl & Sf & Sy & Bh). rewrite El in Hs, Pl, Sy, Bh.
    assert (Rq : request s1 b q = Sys (sys t (cls s i)) :: said (if agent w (cls s i) then conv p i else []) ++ [Usr q]).
    { unfold request. rewrite Sy. destruct (agent w (cls s i)) eqn:Ag.
      - destruct Bh as (h & B1 & B2). rewrite B1. destruct (i_some _ _ I1 i h B2) as (_ & _ & _ & Sh). rewrite El in Sh.
        destruct Sh as [[C Hh]|(t' & Ht & Hh)].
        + now rewrite Hh, C.
        + rewrite Hh. unfold sys. rewrite Ag, <- told_prompt. unfold prompt. now rewrite (U (cls s i) t t' Ag Hs Ht).
      - now rewrite Bh. }
    rewrite Sf, Rq. fold (sys t (cls s i)).
    destruct (each_inv false l F (simple_all _ Sm) _ _ (log_inv _ _ (Sent i t (Some i) (Sys (sys t (cls s i)) :: said (if agent w (cls s i) then conv p i else []) ++ [Usr q])) I1)) as [I2 K2].
    set (o := Sent i t (Some i) _) in *. set (s2 := each (run w false) l (with_log s1 o)) in *. set (p2 := those (live w false) l (tell p o)) in *.
    assert (K : keeps s s2) by (apply (keeps_trans _ _ _ K1), (keeps_trans _ _ _ (log_keeps s1 o) K2)).
    destruct r as [r|]; [|split; assumption].
    destruct (agent w (cls s i)) eqn:Ag.
    + destruct Bh as (h & B1 & B2). rewrite B1. destruct top; [|split; assumption]. cbn [andb]. split.
      * apply set_conv; [assumption|apply (k_hist _ _ K2); assumption|]. right. exists t.
        assert (Cl : cls s2 i = cls s i) by (apply (k_cls _ _ K); rewrite <- Ec; assumption). rewrite Cl. split; [assumption|].
        rewrite said_app. cbn. unfold sys. rewrite Ag, told_prompt. f_equal. rewrite <- app_assoc. reflexivity.
      * destruct K as [Q1 Q2 Q3]. constructor; cbn; auto.
    + rewrite Bh. destruct top; split; assumption.
Qed.

Lemma start_inv : inv start nobody.
Proof. constructor; cbn; auto; discriminate. Qed.
Lemma conversations_l l : Forall simple l -> log (program w l) = plog (lives w l) /\
  forall i, match hist (program w l) i with
            | Some h => hs (program w l) h = [] /\ conv (lives w l) i = [] \/ exists y, hs (program w l) h = Sys y :: said (conv (lives w l) i)
            | None => conv (lives w l) i = [] end.
Proof.
  intros Sm. assert (F : Forall (fun e => simple e -> forall top s p, inv s p -> inv (run w top e s) (live w top e p) /\ keeps s (run w top e s)) l).
  { apply Forall_forall. intros e _. apply run_inv. }
  destruct (each_inv true l F Sm _ _ start_inv) as [I _]. fold (program w l) in I. fold (lives w l) in I. split; [apply I|].
  intros i. destruct (hist (program w l) i) as [h|] eqn:H.
  - destruct (i_some _ _ I i h H) as (_ & _ & _ & [[A B]|(t & _ & B)]); [auto|]. right. eexists. exact B.
  - now apply (i_none _ _ I).
Qed.
End P.
