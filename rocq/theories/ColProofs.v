(** Lemmas about the model of collections. *)
From Coq Require Import String List Bool Arith Lia.
From Verif Require Import ColModel ColSpec.
Import ListNotations.
Local Open Scope list_scope.

(** Induction over values, with the members of every collection *)
Section All.
Variable P : val -> Prop.
Hypothesis Hnum : forall n, P (Num n).
Hypothesis Hstr : forall s, P (Str s).
Hypothesis Hoper : forall x, P (Oper x).
Hypothesis Htrm : forall op args kw, Forall P args -> Forall P (map snd kw) -> P (Trm op args kw).
Hypothesis Hseq : forall k l, Forall P l -> P (Seq k l).
Hypothesis Hmap : forall k l, Forall P (map fst l) -> Forall P (map snd l) -> P (Mapp k l).
Hypothesis Hset : forall k l, Forall P l -> P (Sets k l).
Hypothesis Hkeys : forall l, Forall P l -> P (Keys l).
Hypothesis Hitems : forall l, Forall P (map fst l) -> Forall P (map snd l) -> P (Items l).
Hypothesis Hvals : forall l, Forall P l -> P (Vals l).
Hypothesis Hdata : forall c fs, Forall P (map snd fs) -> P (Data c fs).
Hypothesis Hover : forall l, P (Over l).
Fixpoint val_all (v : val) : P v :=
  let many := fix many (l : list val) : Forall P l :=
    match l with [] => Forall_nil _ | x :: l' => Forall_cons _ (val_all x) (many l') end in
  match v with
  | Num n => Hnum n
  | Str s => Hstr s
  | Oper x => Hoper x
  | Trm op args kw => Htrm op args kw (many args)
      ((fix snds (l : list (string * val)) : Forall P (map snd l) :=
          match l with [] => Forall_nil _ | x :: l' => Forall_cons _ (val_all (snd x)) (snds l') end) kw)
  | Seq k l => Hseq k l (many l)
  | Mapp k l => Hmap k l
      ((fix fsts (l : list (val * val)) : Forall P (map fst l) :=
          match l with [] => Forall_nil _ | x :: l' => Forall_cons _ (val_all (fst x)) (fsts l') end) l)
      ((fix snds (l : list (val * val)) : Forall P (map snd l) :=
          match l with [] => Forall_nil _ | x :: l' => Forall_cons _ (val_all (snd x)) (snds l') end) l)
  | Sets k l => Hset k l (many l)
  | Keys l => Hkeys l (many l)
  | Items l => Hitems l
      ((fix fsts (l : list (val * val)) : Forall P (map fst l) :=
          match l with [] => Forall_nil _ | x :: l' => Forall_cons _ (val_all (fst x)) (fsts l') end) l)
      ((fix snds (l : list (val * val)) : Forall P (map snd l) :=
          match l with [] => Forall_nil _ | x :: l' => Forall_cons _ (val_all (snd x)) (snds l') end) l)
  | Vals l => Hvals l (many l)
  | Data c fs => Hdata c fs
      ((fix snds (l : list ((string * bool) * val)) : Forall P (map snd l) :=
          match l with [] => Forall_nil _ | x :: l' => Forall_cons _ (val_all (snd x)) (snds l') end) fs)
  | Over l => Hover l
  end.
End All.

Lemma andthen_ok {A B} (o : outcome A) (g : A -> outcome B) b : andthen o g = Ok b <-> exists a, o = Ok a /\ g a = Ok b.
Proof.
  destruct o as [a| | |n]; cbn; split; try easy; try (intros (a' & E & _); discriminate).
  - intros E. now exists a.
  - intros (a' & E & H). injection E as ->. exact H.
Qed.

(** Going through lists *)
Section Maps.
Variable g : val -> outcome val.
Variable R : val -> val -> Prop.
Definition agrees (v : val) : Prop := forall w, g v = Ok w <-> R v w.
Lemma mapO_iff l : Forall agrees l -> forall l', mapO g l = Ok l' <-> Forall2 R l l'.
Proof.
  induction l as [|v l IH]; intros H l'; cbn.
  - split; [intros E; injection E as <-; constructor|intros E; now inversion E].
  - inversion H as [|x y Hv Hl]; subst. rewrite andthen_ok. split.
    + intros (w & E & H2). rewrite andthen_ok in H2. destruct H2 as (ws & E2 & E3). injection E3 as <-.
      constructor; [now apply Hv|now apply IH].
    + intros E. inversion E as [|x w m ws Hw Hws]; subst. exists w. split; [now apply Hv|].
      rewrite andthen_ok. exists ws. split; [now apply IH|reflexivity].
Qed.
Lemma mapS_iff {K} (l : list (K * val)) : Forall agrees (map snd l) ->
  forall l', mapS g l = Ok l' <-> exists ws, Forall2 R (map snd l) ws /\ l' = combine (map fst l) ws.
Proof.
  induction l as [|[k v] l IH]; intros H l'; cbn.
  - split; [intros E; injection E as <-; exists []; split; [constructor|reflexivity]|].
    intros (ws & _ & ->). reflexivity.
  - inversion H as [|x y Hv Hl]; subst. rewrite andthen_ok. split.
    + intros (w & E & H2). rewrite andthen_ok in H2. destruct H2 as (ws & E2 & E3). injection E3 as <-.
      apply (IH Hl) in E2. destruct E2 as (ws' & F & ->). exists (w :: ws').
      split; [constructor; [now apply Hv|exact F]|reflexivity].
    + intros (ws & F & ->). inversion F as [|x w m ws' Hw Hws]; subst. exists w. split; [now apply Hv|].
      rewrite andthen_ok. exists (combine (map fst l) ws'). split; [|reflexivity].
      apply (IH Hl). now exists ws'.
Qed.
Lemma mapP_iff l : Forall agrees (map fst l) -> Forall agrees (map snd l) ->
  forall l', mapP g l = Ok l' <-> exists ks vs, Forall2 R (map fst l) ks /\ Forall2 R (map snd l) vs /\ l' = combine ks vs.
Proof.
  induction l as [|[a b] l IH]; intros H1 H2 l'; cbn.
  - split; [intros E; injection E as <-; exists [], []; repeat split; constructor|].
    intros (ks & vs & F & _ & ->). inversion F. reflexivity.
  - inversion H1 as [|x y Ha Hal]; subst. inversion H2 as [|x y Hb Hbl]; subst. rewrite andthen_ok. split.
    + intros (a' & Ea & H3). rewrite andthen_ok in H3. destruct H3 as (b' & Eb & H3).
      rewrite andthen_ok in H3. destruct H3 as (ws & E2 & E3). injection E3 as <-.
      apply (IH Hal Hbl) in E2. destruct E2 as (ks & vs & F1 & F2 & ->). exists (a' :: ks), (b' :: vs).
      split; [constructor; [now apply Ha|exact F1]|split; [constructor; [now apply Hb|exact F2]|reflexivity]].
    + intros (ks & vs & F1 & F2 & ->). inversion F1 as [|x a' m ks' Ha' Hks]; subst.
      inversion F2 as [|x b' m' vs' Hb' Hvs]; subst. exists a'. split; [now apply Ha|].
      rewrite andthen_ok. exists b'. split; [now apply Hb|]. rewrite andthen_ok. exists (combine ks' vs').
      split; [|reflexivity]. apply (IH Hal Hbl). now exists ks', vs'.
Qed.
Lemma Forall2_same l l' : Forall2 R l l' -> length l = length l'.
Proof. induction 1; cbn; congruence. Qed.
End Maps.
Lemma combine_fst {A B} (l : list A) (l' : list B) : length l = length l' -> map fst (combine l l') = l.
Proof. revert l'; induction l as [|x l IH]; intros [|y l']; cbn; try easy. intros E. f_equal. apply IH. lia. Qed.
Lemma combine_snd {A B} (l : list A) (l' : list B) : length l = length l' -> map snd (combine l l') = l'.
Proof. revert l'; induction l as [|x l IH]; intros [|y l']; cbn; try easy. intros E. f_equal. apply IH. lia. Qed.
Lemma combine_map {A B} (l : list (A * B)) : combine (map fst l) (map snd l) = l.
Proof. induction l as [|[x y] l IH]; cbn; congruence. Qed.

(** Dictionaries and sets *)
Section Dict.
Variable keyeq : val -> val -> bool.
Variable hash_term : nat -> bool.
Hypothesis Heq : equality keyeq.
Notation once := (once keyeq).
Lemma kext a b c : keyeq a b = true -> keyeq a c = keyeq b c.
Proof.
  intros E. destruct (keyeq a c) eqn:E1, (keyeq b c) eqn:E2; try reflexivity.
  - rewrite (eq_sym' _ Heq) in E. now rewrite (eq_trans' _ Heq _ _ _ E E1) in E2.
  - now rewrite (eq_trans' _ Heq _ _ _ E E2) in E1.
Qed.
Lemma in_once l k : existsb (fun y => keyeq y k) (once l) = existsb (fun y => keyeq y k) l.
Proof.
  induction l as [|x l IH]; cbn; [reflexivity|]. destruct (keyeq x k) eqn:E; cbn; [reflexivity|]. rewrite <- IH.
  generalize (once l). intros m. induction m as [|y m IHm]; cbn; [reflexivity|]. destruct (keyeq x y) eqn:E2; cbn.
  - rewrite IHm. destruct (keyeq y k) eqn:E3; [|reflexivity]. now rewrite (eq_trans' _ Heq _ _ _ E2 E3) in E.
  - now rewrite IHm.
Qed.
Lemma once_snoc l k : once (l ++ [k]) = if existsb (fun y => keyeq y k) l then once l else once l ++ [k].
Proof.
  induction l as [|x l IH]; cbn; [reflexivity|]. rewrite IH. destruct (existsb (fun y => keyeq y k) l) eqn:E.
  - now rewrite orb_true_r.
  - rewrite orb_false_r, filter_app. cbn. destruct (keyeq x k) eqn:E2; cbn; [now rewrite app_nil_r|reflexivity].
Qed.
Fixpoint apart (l : list val) : Prop := match l with [] => True | x :: l' => Forall (fun y => keyeq x y = false) l' /\ apart l' end.
Lemma filter_forall {A} (p : A -> bool) (Q : A -> Prop) l : Forall Q l -> Forall Q (filter p l).
Proof. induction 1 as [|x l Hx _ IH]; cbn; [constructor|]. destruct (p x); [constructor; assumption|exact IH]. Qed.
Lemma apart_filter p l : apart l -> apart (filter p l).
Proof.
  induction l as [|x l IH]; cbn; [easy|]. intros [H1 H2]. destruct (p x); cbn; [|now apply IH].
  split; [now apply filter_forall|now apply IH].
Qed.
Lemma once_apart l : apart (once l).
Proof.
  induction l as [|x l IH]; cbn; [exact Logic.I|]. split; [|now apply apart_filter].
  apply Forall_forall. intros y Hy. apply filter_In in Hy. destruct Hy as [_ Hy]. now apply negb_true_iff in Hy.
Qed.
Lemma apart_once l : apart l -> once l = l.
Proof.
  induction l as [|x l IH]; cbn; [reflexivity|]. intros [H1 H2]. rewrite IH by exact H2. f_equal.
  clear IH H2. induction H1 as [|y l Hy _ IHl]; cbn; [reflexivity|]. rewrite Hy. cbn. now f_equal.
Qed.
Lemma last_snoc k ps k' v : last_value keyeq k (ps ++ [(k', v)]) = if keyeq k' k then Some v else last_value keyeq k ps.
Proof.
  induction ps as [|[a b] ps IH]; cbn; [reflexivity|]. rewrite IH. now destruct (keyeq k' k).
Qed.
Lemma put_keys d k v : map fst (put keyeq d k v) = if existsb (fun y => keyeq y k) (map fst d) then map fst d else map fst d ++ [k].
Proof.
  induction d as [|[a b] d IH]; cbn; [reflexivity|]. destruct (keyeq a k) eqn:E; cbn; [reflexivity|]. rewrite IH.
  now destruct (existsb (fun y => keyeq y k) (map fst d)).
Qed.
Lemma put_in d k v a b : apart (map fst d) -> In (a, b) (put keyeq d k v) ->
  (keyeq k a = true /\ b = v) \/ (keyeq k a = false /\ In (a, b) d).
Proof.
  induction d as [|[a' b'] d IH]; cbn.
  - intros _ [E|[]]. injection E as -> ->. left. split; [apply (eq_refl' _ Heq)|reflexivity].
  - intros [H1 H2]. destruct (keyeq a' k) eqn:E; cbn; intros [E2|H].
    + injection E2 as <- <-. left. split; [now rewrite (eq_sym' _ Heq)|reflexivity].
    + right. split; [|now right]. rewrite <- (kext a' k a E).
      rewrite Forall_forall in H1. apply H1. apply in_map_iff. now exists (a, b).
    + injection E2 as <- <-. right. split; [now rewrite (eq_sym' _ Heq)|now left].
    + destruct (IH H2 H) as [H3|[H3 H4]]; [now left|right; split; [exact H3|now right]].
Qed.
Lemma put_dictionary ps d k v : dictionary keyeq ps d -> dictionary keyeq (ps ++ [(k, v)]) (put keyeq d k v).
Proof.
  intros [Hk Hv]. split.
  - rewrite put_keys, map_app. cbn. rewrite once_snoc, Hk, in_once. now destruct (existsb (fun y => keyeq y k) (map fst ps)).
  - intros a b Hin. rewrite last_snoc. apply put_in in Hin.
    + destruct Hin as [[-> ->]|[-> Hin]]; [reflexivity|now apply Hv].
    + rewrite Hk. apply once_apart.
Qed.
Lemma dictionary_unique ps d d' : dictionary keyeq ps d -> dictionary keyeq ps d' -> d = d'.
Proof.
  intros [H1 H2] [H3 H4]. rewrite <- H3 in H1. clear H3. revert d' H1 H4.
  induction d as [|[k v] d IH]; intros [|[k' v'] d'] E H4; cbn in E; try easy. injection E as -> E.
  f_equal.
  - f_equal. specialize (H2 k' v (or_introl eq_refl)). specialize (H4 k' v' (or_introl eq_refl)). congruence.
  - apply IH; [|exact E|]; intros a b Hin; [apply H2|apply H4]; now right.
Qed.
Lemma dict_from_gen qs : forall ps d d', dictionary keyeq ps d ->
  (dict_from keyeq hash_term d qs = Ok d' <-> all_hashable hash_term (map fst qs) /\ dictionary keyeq (ps ++ qs) d').
Proof.
  induction qs as [|[k v] qs IH]; intros ps d d' Hd; cbn.
  - rewrite app_nil_r. split.
    + intros E. injection E as <-. split; [constructor|exact Hd].
    + intros [_ H]. f_equal. now apply (dictionary_unique ps).
  - destruct (hashable hash_term k) eqn:E.
    + rewrite (IH (ps ++ [(k, v)]) (put keyeq d k v) d' (put_dictionary ps d k v Hd)), <- app_assoc. cbn. split.
      * intros [H1 H2]. split; [now constructor|exact H2].
      * intros [H1 H2]. split; [now inversion H1|exact H2].
    + split; [discriminate|]. intros [H _]. inversion H as [|x y H1 H2]. now rewrite E in H1.
Qed.
Lemma dict_from_iff ps d : dict_from keyeq hash_term [] ps = Ok d <-> all_hashable hash_term (map fst ps) /\ dictionary keyeq ps d.
Proof. apply (dict_from_gen ps [] [] d). split; [reflexivity|intros k v []]. Qed.
Lemma set_from_gen l : forall m s', set_from keyeq hash_term (once m) l = Ok s' <-> all_hashable hash_term l /\ s' = once (m ++ l).
Proof.
  induction l as [|x l IH]; intros m s'; cbn.
  - rewrite app_nil_r. split; [intros E; injection E as <-; split; [constructor|reflexivity]|intros [_ ->]; reflexivity].
  - destruct (hashable hash_term x) eqn:E.
    + rewrite in_once, <- once_snoc, (IH (m ++ [x]) s'), <- app_assoc. cbn. split.
      * intros [H1 H2]. split; [now constructor|exact H2].
      * intros [H1 H2]. split; [now inversion H1|exact H2].
    + split; [discriminate|]. intros [H _]. inversion H as [|y z H1 H2]. now rewrite E in H1.
Qed.
Lemma set_from_iff l s : set_from keyeq hash_term [] l = Ok s <-> all_hashable hash_term l /\ s = once l.
Proof. exact (set_from_gen l [] s). Qed.
Lemma new_set_iff k l w : new_set keyeq hash_term k l = Ok w <-> all_hashable hash_term l /\ w = Sets k (once l).
Proof.
  unfold new_set. rewrite andthen_ok. split.
  - intros (s & E & Ew). injection Ew as <-. apply set_from_iff in E. destruct E as [H ->]. now split.
  - intros [H ->]. exists (once l). split; [now apply set_from_iff|reflexivity].
Qed.
Lemma new_map_iff k ps w : plain_map k ->
  (new_map keyeq hash_term k ps = Ok w <-> all_hashable hash_term (map fst ps) /\ exists d, dictionary keyeq ps d /\ w = Mapp k d).
Proof.
  intros Hk. replace (new_map keyeq hash_term k ps) with (andthen (dict_from keyeq hash_term [] ps) (fun d => Ok (Mapp k d))) by now destruct k.
  rewrite andthen_ok. split.
  - intros (d & E & Ew). injection Ew as <-. apply dict_from_iff in E. destruct E as [H1 H2]. split; [exact H1|now exists d].
  - intros [H (d & H1 & ->)]. exists d. split; [now apply dict_from_iff|reflexivity].
Qed.
End Dict.
Lemma new_seq_iff k o w : plain_seq k -> (new_seq k o = Ok w <-> exists l, o = Ok l /\ w = Seq k l).
Proof.
  intros Hk. replace (new_seq k o) with (andthen o (fun l => Ok (Seq k l))) by (destruct k as [| | | | |[m|]| | |]; easy).
  rewrite andthen_ok. split; intros (l & E & E2); exists l; split; try exact E; congruence.
Qed.
Lemma replace_iff c fs w : Forall (fun x => snd (fst x) = true) fs -> (replace c fs = Ok w <-> w = Data c fs).
Proof.
  intros H. unfold replace. replace (forallb (fun f => snd (fst f)) fs) with true.
  - split; [intros E; now injection E as <-|now intros ->].
  - symmetry. apply forallb_forall. now apply Forall_forall.
Qed.
Lemma inits_combine (fs : list ((string * bool) * val)) ws :
  Forall (fun x => snd (fst x) = true) fs -> Forall (fun x : (string * bool) * val => snd (fst x) = true) (combine (map fst fs) ws).
Proof.
  intros H. revert ws. induction H as [|[k v] fs Hx _ IH]; intros [|w ws]; cbn; try constructor; [exact Hx|apply IH].
Qed.
Lemma Forall_mp (P Q : val -> Prop) l : Forall (fun v => P v -> Q v) l -> Forall P l -> Forall Q l.
Proof. induction 1; intros F; inversion F; constructor; auto. Qed.
Lemma Forall_mp2 (P Q R : val -> Prop) l : Forall (fun v => P v -> Q v -> R v) l -> Forall P l -> Forall Q l -> Forall R l.
Proof. induction 1; intros F1 F2; inversion F1; inversion F2; constructor; auto. Qed.

Section Evaluate.
Variable keyeq : val -> val -> bool.
Variable hash_term : nat -> bool.
Hypothesis Heq : equality keyeq.

(** The cases that [evaluate] and [map_structure] share *)
Section Shared.
Variable g : val -> outcome val.
Variable R : val -> val -> Prop.
Lemma seq_case k l w : plain_seq k -> Forall (agrees g R) l ->
  (new_seq k (mapO g l) = Ok w <-> exists l', Forall2 R l l' /\ w = Seq k l').
Proof.
  intros Hk H. rewrite (new_seq_iff k _ w Hk).
  split; intros (l' & E & Ew); exists l'; split; try exact Ew; now apply (mapO_iff g R l H).
Qed.
Lemma map_case k l w : plain_map k -> Forall (agrees g R) (map fst l) -> Forall (agrees g R) (map snd l) ->
  (andthen (mapP g l) (new_map keyeq hash_term k) = Ok w <->
   exists ks vs d, Forall2 R (map fst l) ks /\ Forall2 R (map snd l) vs /\ all_hashable hash_term ks /\
     dictionary keyeq (combine ks vs) d /\ w = Mapp k d).
Proof.
  intros Hk H1 H2. rewrite andthen_ok. split.
  - intros (ps & E & Ew). apply (mapP_iff g R l H1 H2) in E. destruct E as (ks & vs & F1 & F2 & ->).
    apply (new_map_iff keyeq hash_term Heq k _ w Hk) in Ew. destruct Ew as [Hh (d & Hd & ->)]. exists ks, vs, d.
    assert (L : length ks = length vs).
    { apply Forall2_same in F1, F2. rewrite map_length in F1, F2. congruence. }
    rewrite combine_fst in Hh by exact L. now repeat split; try apply Hd.
  - intros (ks & vs & d & F1 & F2 & Hh & Hd & ->). exists (combine ks vs). split.
    + apply (mapP_iff g R l H1 H2). now exists ks, vs.
    + assert (L : length ks = length vs).
      { apply Forall2_same in F1, F2. rewrite map_length in F1, F2. congruence. }
      apply (new_map_iff keyeq hash_term Heq k _ _ Hk). rewrite combine_fst by exact L. split; [exact Hh|now exists d].
Qed.
Lemma set_case k l w : Forall (agrees g R) l ->
  (andthen (mapO g l) (new_set keyeq hash_term k) = Ok w <->
   exists l', Forall2 R l l' /\ all_hashable hash_term l' /\ w = Sets k (once keyeq l')).
Proof.
  intros H. rewrite andthen_ok. split.
  - intros (l' & E & Ew). apply (mapO_iff g R l H) in E. apply (new_set_iff keyeq hash_term Heq) in Ew. now exists l'.
  - intros (l' & E & Hh & ->). exists l'. split; [now apply (mapO_iff g R l H)|]. now apply (new_set_iff keyeq hash_term Heq).
Qed.
Lemma items_case l w : Forall (agrees g R) (map fst l) -> Forall (agrees g R) (map snd l) ->
  (andthen (mapP g l) (fun ps => new_set keyeq hash_term KSet (map pair ps)) = Ok w <->
   exists ks vs, Forall2 R (map fst l) ks /\ Forall2 R (map snd l) vs /\
     all_hashable hash_term (map pair (combine ks vs)) /\ w = Sets KSet (once keyeq (map pair (combine ks vs)))).
Proof.
  intros H1 H2. rewrite andthen_ok. split.
  - intros (ps & E & Ew). apply (mapP_iff g R l H1 H2) in E. destruct E as (ks & vs & F1 & F2 & ->).
    apply (new_set_iff keyeq hash_term Heq) in Ew. now exists ks, vs.
  - intros (ks & vs & F1 & F2 & Hh & ->). exists (combine ks vs). split.
    + apply (mapP_iff g R l H1 H2). now exists ks, vs.
    + now apply (new_set_iff keyeq hash_term Heq).
Qed.
Lemma vals_case l w : Forall (agrees g R) l ->
  (andthen (mapO g l) (fun l' => Ok (Seq KList l')) = Ok w <-> exists l', Forall2 R l l' /\ w = Seq KList l').
Proof.
  intros H. rewrite andthen_ok. split; intros (l' & E & Ew); exists l'; (split; [now apply (mapO_iff g R l H)|congruence]).
Qed.
Lemma data_case c fs w : Forall (fun x => snd (fst x) = true) fs -> Forall (agrees g R) (map snd fs) ->
  (andthen (mapS g fs) (replace c) = Ok w <-> exists ws, Forall2 R (map snd fs) ws /\ w = Data c (combine (map fst fs) ws)).
Proof.
  intros Hi H. rewrite andthen_ok. split.
  - intros (fs' & E & Ew). apply (mapS_iff g R fs H) in E. destruct E as (ws & F & ->).
    apply replace_iff in Ew; [|now apply inits_combine]. now exists ws.
  - intros (ws & F & ->). exists (combine (map fst fs) ws). split; [apply (mapS_iff g R fs H); now exists ws|].
    now apply replace_iff; [apply inits_combine|].
Qed.
End Shared.

Section Ev.
Variable call : nat -> list val -> list (string * val) -> outcome val.
Variable ren : nat -> nat.
Notation evaluate := (evaluate keyeq hash_term call ren).
Notation becomes := (becomes keyeq hash_term call ren).
Notation settled := (settled keyeq hash_term call ren).
Lemma self_list l l' : Forall (fun x => forall w, becomes x w <-> w = x) l -> (Forall2 becomes l l' <-> l' = l).
Proof.
  intros H. revert l'. induction H as [|x l Hx _ IH]; intros l'.
  - split; [intros F; now inversion F|intros ->; constructor].
  - split.
    + intros F. inversion F as [|x' y m m' H1 H2]; subst. apply Hx in H1. apply IH in H2. congruence.
    + intros ->. constructor; [now apply Hx|now apply IH].
Qed.
Lemma evaluate_iff v : plain v -> settled v -> agrees evaluate becomes v.
Proof.
  induction v as [n|s|x|op args kw IHa IHk|k l IH|k l IHk IHv|k l IH|l IH|l IHk IHv|l IH|c fs IH|l] using val_all;
    intros Hp Hs w; inversion Hp; inversion Hs; subst; cbn [ColModel.evaluate].
  - split; [intros E; injection E as <-; constructor|intros E; now inversion E].
  - split; [intros E; injection E as <-; constructor|intros E; now inversion E].
  - split; [intros E; injection E as <-; constructor|intros E; now inversion E].
  - assert (Fa : Forall (agrees evaluate becomes) args) by (eapply Forall_mp2; eassumption).
    assert (Fk : Forall (agrees evaluate becomes) (map snd kw)) by (eapply Forall_mp2; eassumption).
    rewrite andthen_ok. split.
    + intros (args' & E & E2). rewrite andthen_ok in E2. destruct E2 as (kw' & E2 & E3).
      apply (mapO_iff _ _ _ Fa) in E. apply (mapS_iff _ _ _ Fk) in E2. destruct E2 as (ws & F & ->).
      eapply b_term; eassumption.
    + intros E. inversion E; subst. exists args'. split; [now apply (mapO_iff _ _ _ Fa)|]. rewrite andthen_ok.
      exists (combine (map fst kw) ws). split; [apply (mapS_iff _ _ _ Fk); now exists ws|assumption].
  - rewrite (seq_case evaluate becomes k l w); [|assumption|eapply Forall_mp2; eassumption]. split.
    + intros (l' & F & ->). now constructor.
    + intros E. inversion E; subst. now exists l'.
  - rewrite (map_case evaluate becomes k l w); [|assumption|eapply Forall_mp2; eassumption|eapply Forall_mp2; eassumption]. split.
    + intros (ks & vs & d & F1 & F2 & Hh & Hd & ->). econstructor; eassumption.
    + intros E. inversion E; subst. exists ks, vs, d. now repeat (split; [assumption|]).
  - match goal with H : distinct _ _ _ |- _ => destruct H as [Hh Ho] end. split.
    + intros E. injection E as <-. rewrite <- Ho at 2. constructor; [now apply self_list|exact Hh].
    + intros E. inversion E; subst. match goal with H : Forall2 becomes l _ |- _ => apply self_list in H; [subst|assumption] end.
      now rewrite Ho.
  - rewrite (set_case evaluate becomes KSet l w); [|eapply Forall_mp2; eassumption]. split.
    + intros (l' & F & Hh & ->). now constructor.
    + intros E. inversion E; subst. now exists l'.
  - rewrite (items_case evaluate becomes l w); [|eapply Forall_mp2; eassumption|eapply Forall_mp2; eassumption]. split.
    + intros (ks & vs & F1 & F2 & Hh & ->). now constructor.
    + intros E. inversion E; subst. now exists ks, vs.
  - rewrite (vals_case evaluate becomes l w); [|eapply Forall_mp2; eassumption]. split.
    + intros (l' & F & ->). now constructor.
    + intros E. inversion E; subst. now exists l'.
  - rewrite (data_case evaluate becomes c fs w); [|assumption|eapply Forall_mp2; eassumption]. split.
    + intros (ws & F & ->). now constructor.
    + intros E. inversion E; subst. now exists ws.
Qed.
Lemma free_iff op args kw w : Forall (fun v => plain v /\ settled v) args -> Forall (fun v => plain v /\ settled v) (map snd kw) ->
  (free keyeq hash_term call ren op args kw = Ok w <->
   exists args' ws, Forall2 becomes args args' /\ Forall2 becomes (map snd kw) ws /\ w = Trm op args' (combine (map fst kw) ws)).
Proof.
  intros Ha Hk.
  assert (Fa : Forall (agrees evaluate becomes) args) by (eapply Forall_impl; [|exact Ha]; intros v [H1 H2]; now apply evaluate_iff).
  assert (Fk : Forall (agrees evaluate becomes) (map snd kw)) by (eapply Forall_impl; [|exact Hk]; intros v [H1 H2]; now apply evaluate_iff).
  unfold free. rewrite andthen_ok. split.
  - intros (args' & E & E2). rewrite andthen_ok in E2. destruct E2 as (kw' & E2 & E3). injection E3 as <-.
    apply (mapO_iff _ _ _ Fa) in E. apply (mapS_iff _ _ _ Fk) in E2. destruct E2 as (ws & F & ->). now exists args', ws.
  - intros (args' & ws & F1 & F2 & ->). exists args'. split; [now apply (mapO_iff _ _ _ Fa)|]. rewrite andthen_ok.
    exists (combine (map fst kw) ws). split; [apply (mapS_iff _ _ _ Fk); now exists ws|reflexivity].
Qed.
Lemma last_in ps d : apart keyeq (map fst d) -> ps = d -> forall k v, In (k, v) d -> last_value keyeq k ps = Some v.
Proof.
  intros Ha ->. induction d as [|[a b] d IH]; cbn; [easy|]. intros k v [E|Hin].
  - injection E as -> ->. destruct Ha as [H1 H2]. replace (last_value keyeq k d) with (@None val).
    + now rewrite (eq_refl' _ Heq).
    + symmetry. clear IH H2. induction d as [|[a b] d IHd]; cbn; [reflexivity|]. cbn in H1. inversion H1; subst.
      rewrite IHd by assumption. rewrite (eq_sym' _ Heq). now replace (keyeq k a) with false.
  - destruct Ha as [_ H2]. now rewrite (IH H2 k v Hin).
Qed.
Lemma dictionary_self l : once keyeq (map fst l) = map fst l -> dictionary keyeq l l.
Proof.
  intros H. split; [now symmetry|]. apply last_in; [|reflexivity]. rewrite <- H. apply once_apart.
Qed.
Lemma self v : unhandled call ren \/ inert v -> proper keyeq hash_term v -> forall w, becomes v w <-> w = v.
Proof.
  assert (Hl : forall l, Forall (fun v => unhandled call ren \/ inert v -> proper keyeq hash_term v -> forall w, becomes v w <-> w = v) l ->
    unhandled call ren \/ Forall inert l -> Forall (proper keyeq hash_term) l -> forall l', Forall2 becomes l l' <-> l' = l).
  { intros l IH Hor Hp l'. apply self_list. clear l'. induction IH as [|x l Hx _ IHl]; [constructor|]. inversion Hp; subst.
    constructor.
    - apply Hx; [|assumption]. destruct Hor as [Hu|Hi]; [now left|right; now inversion Hi].
    - apply IHl; [|assumption]. destruct Hor as [Hu|Hi]; [now left|right; now inversion Hi]. }
  assert (Hone : forall u, unhandled call ren \/ inert u -> forall l, (inert u -> Forall inert l) -> unhandled call ren \/ Forall inert l).
  { intros u [Hu|Hi] l Hil; [now left|right; now apply Hil]. }
  induction v as [n|s|x|op args kw IHa IHk|k l IH|k l IHk IHv|k l IH|l IH|l IHk IHv|l IH|c fs IH|l] using val_all;
    intros Hor Hp w; inversion Hp; subst.
  - split; [intros E; now inversion E|intros ->; constructor].
  - split; [intros E; now inversion E|intros ->; constructor].
  - destruct Hor as [[_ Hr]|Hi]; [|inversion Hi]. split.
    + intros E. inversion E; subst. now rewrite Hr.
    + intros ->. replace (Oper x) with (Oper (ren x)) at 2 by now rewrite Hr. constructor.
  - destruct Hor as [Hu|Hi]; [|inversion Hi]. split.
    + intros E. inversion E as [| | |op' args2 kw2 args' ws w' F1 F2 E3| | | | | | |]; subst.
      apply (Hl _ IHa) in F1; [|now left|assumption]. apply (Hl _ IHk) in F2; [|now left|assumption]. subst.
      rewrite combine_map, (proj1 Hu) in E3. now injection E3 as <-.
    + intros ->. apply (b_term _ _ _ _ op args kw args (map snd kw)).
      * apply (Hl _ IHa); [now left|assumption|reflexivity].
      * apply (Hl _ IHk); [now left|assumption|reflexivity].
      * rewrite combine_map. apply (proj1 Hu).
  - assert (HA : forall l', Forall2 becomes l l' <-> l' = l).
    { apply Hl; [exact IH| |assumption]. apply (Hone _ Hor). intros Hi. now inversion Hi. }
    split; [intros E; inversion E; subst; f_equal; now apply HA|intros ->; constructor; now apply HA].
  - assert (HA : forall l', Forall2 becomes (map fst l) l' <-> l' = map fst l).
    { apply Hl; [exact IHk| |assumption]. apply (Hone _ Hor). intros Hi. now inversion Hi. }
    assert (HB : forall l', Forall2 becomes (map snd l) l' <-> l' = map snd l).
    { apply Hl; [exact IHv| |assumption]. apply (Hone _ Hor). intros Hi. now inversion Hi. }
    match goal with H : distinct _ _ _ |- _ => destruct H as [Hh Ho] end. split.
    + intros E. inversion E as [| | | | |k' l' ks vs d F1 F2 Hh' Hd| | | | |]; subst. apply HA in F1. apply HB in F2. subst.
      rewrite combine_map in Hd. f_equal. apply (dictionary_unique keyeq l); [exact Hd|now apply dictionary_self].
    + intros ->. apply (b_map _ _ _ _ k l (map fst l) (map snd l)); [now apply HA|now apply HB|exact Hh|].
      rewrite combine_map. now apply dictionary_self.
  - assert (HA : forall l', Forall2 becomes l l' <-> l' = l).
    { apply Hl; [exact IH| |assumption]. apply (Hone _ Hor). intros Hi. now inversion Hi. }
    match goal with H : distinct _ _ _ |- _ => destruct H as [Hh Ho] end. split.
    + intros E. inversion E as [| | | | | |k' m l' F Hh'| | | |]; subst. apply HA in F. subst. now rewrite Ho.
    + intros ->. rewrite <- Ho at 2. constructor; [now apply HA|exact Hh].
  - assert (HA : forall l', Forall2 becomes (map snd fs) l' <-> l' = map snd fs).
    { apply Hl; [exact IH| |assumption]. apply (Hone _ Hor). intros Hi. now inversion Hi. }
    split.
    + intros E. inversion E as [| | | | | | | | | |c' fs' ws F]; subst. apply HA in F. subst. now rewrite combine_map.
    + intros ->. rewrite <- (combine_map fs) at 2. constructor. now apply HA.
Qed.
Lemma proper_settled v : unhandled call ren \/ inert v -> proper keyeq hash_term v -> settled v.
Proof.
  assert (Hl : forall l, Forall (fun v => unhandled call ren \/ inert v -> proper keyeq hash_term v -> settled v) l ->
    unhandled call ren \/ Forall inert l -> Forall (proper keyeq hash_term) l -> Forall settled l).
  { intros l IH Hor Hp. induction IH as [|x l Hx _ IHl]; [constructor|]. inversion Hp; subst.
    constructor.
    - apply Hx; [|assumption]. destruct Hor as [Hu|Hi]; [now left|right; now inversion Hi].
    - apply IHl; [|assumption]. destruct Hor as [Hu|Hi]; [now left|right; now inversion Hi]. }
  assert (Hone : forall u, unhandled call ren \/ inert u -> forall l, (inert u -> Forall inert l) -> unhandled call ren \/ Forall inert l).
  { intros u [Hu|Hi] l Hil; [now left|right; now apply Hil]. }
  induction v as [n|s|x|op args kw IHa IHk|k l IH|k l IHk IHv|k l IH|l IH|l IHk IHv|l IH|c fs IH|l] using val_all;
    intros Hor Hp; inversion Hp; subst; constructor;
    try (apply Hl; [assumption|apply (Hone _ Hor); intros Hi; now inversion Hi|assumption]).
  - assumption.
  - apply Forall_forall. intros x Hx. apply self.
    + destruct Hor as [Hu|Hi]; [now left|right]. inversion Hi as [| | | |k' l' F|]; subst. rewrite Forall_forall in F. now apply F.
    + match goal with H : Forall (proper _ _) _ |- _ => rewrite Forall_forall in H; now apply H end.
Qed.
Lemma evaluate_self v : unhandled call ren \/ inert v -> plain v -> proper keyeq hash_term v -> evaluate v = Ok v.
Proof.
  intros Hor Hpl Hpr. apply (evaluate_iff v Hpl (proper_settled v Hor Hpr)). now apply self.
Qed.
End Ev.

Section Ms.
Variable f : val -> outcome val.
Notation map_structure := (map_structure keyeq hash_term f).
Notation mapped := (mapped keyeq hash_term f).
Lemma map_structure_iff v : plain v -> agrees map_structure mapped v.
Proof.
  induction v as [n|s|x|op args kw IHa IHk|k l IH|k l IHk IHv|k l IH|l IH|l IHk IHv|l IH|c fs IH|l] using val_all;
    intros Hp w; inversion Hp; subst; cbn [ColModel.map_structure].
  - split; [intros E; now constructor|intros E; now inversion E].
  - split; [intros E; injection E as <-; constructor|intros E; now inversion E].
  - split; [intros E; now constructor|intros E; now inversion E].
  - split; [intros E; now constructor|intros E; now inversion E].
  - rewrite (seq_case map_structure mapped k l w); [|assumption|eapply Forall_mp; eassumption]. split.
    + intros (l' & F & ->). now constructor.
    + intros E. inversion E; subst. now exists l'.
  - rewrite (map_case map_structure mapped k l w); [|assumption|eapply Forall_mp; eassumption|eapply Forall_mp; eassumption]. split.
    + intros (ks & vs & d & F1 & F2 & Hh & Hd & ->). econstructor; eassumption.
    + intros E. inversion E; subst. exists ks, vs, d. now repeat (split; [assumption|]).
  - rewrite (set_case map_structure mapped k l w); [|eapply Forall_mp; eassumption]. split.
    + intros (l' & F & Hh & ->). now constructor.
    + intros E. inversion E; subst. now exists l'.
  - rewrite (set_case map_structure mapped KSet l w); [|eapply Forall_mp; eassumption]. split.
    + intros (l' & F & Hh & ->). now constructor.
    + intros E. inversion E; subst. now exists l'.
  - rewrite (items_case map_structure mapped l w); [|eapply Forall_mp; eassumption|eapply Forall_mp; eassumption]. split.
    + intros (ks & vs & F1 & F2 & Hh & ->). now constructor.
    + intros E. inversion E; subst. now exists ks, vs.
  - rewrite (vals_case map_structure mapped l w); [|eapply Forall_mp; eassumption]. split.
    + intros (l' & F & ->). now constructor.
    + intros E. inversion E; subst. now exists l'.
  - rewrite (data_case map_structure mapped c fs w); [|assumption|eapply Forall_mp; eassumption]. split.
    + intros (ws & F & ->). now constructor.
    + intros E. inversion E; subst. now exists ws.
Qed.
End Ms.
End Evaluate.
