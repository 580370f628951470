From Coq Require Import List Bool Arith Lia ZArith ZifyNat.
From Verif Require Import ImgModel ImgSpec.
Import ListNotations.

Ltac Zify.zify_post_hook ::= Z.to_euclidean_division_equations.

Lemma char_digit v : v < 64 -> digit (char64 v) v.
Proof.
  intros H. unfold digit, char64. destruct (Nat.ltb_spec v 26); [left; lia|]. destruct (Nat.ltb_spec v 52); [right; left; lia|].
  destruct (Nat.ltb_spec v 62); [right; right; left; lia|]. destruct (Nat.eqb_spec v 62); [right; right; right; left; lia|]. right; right; right; right. lia.
Qed.
Lemma digit_facts c v : digit c v -> val64 c = Some v /\ v < 64 /\ c <> 61 /\ c <> 44 /\ c < 128.
Proof.
  intros H. split; [|destruct H as [H|[H|[H|[H|H]]]]; lia]. unfold val64.
  destruct H as [[H E]|[[H E]|[[H E]|[[H E]|[H E]]]]]; subst c.
  - rewrite (proj2 (Nat.leb_le 65 (65 + v))), (proj2 (Nat.leb_le (65 + v) 90)) by lia. cbn [andb]. f_equal. lia.
  - rewrite (proj2 (Nat.leb_gt (97 + (v - 26)) 90)) by lia. rewrite andb_false_r.
    rewrite (proj2 (Nat.leb_le 97 (97 + (v - 26)))), (proj2 (Nat.leb_le (97 + (v - 26)) 122)) by lia. cbn [andb]. f_equal. lia.
  - rewrite (proj2 (Nat.leb_gt 65 (48 + (v - 52)))), (proj2 (Nat.leb_gt 97 (48 + (v - 52)))) by lia. cbn [andb].
    rewrite (proj2 (Nat.leb_le 48 (48 + (v - 52)))), (proj2 (Nat.leb_le (48 + (v - 52)) 57)) by lia. cbn [andb]. f_equal. lia.
  - subst v. reflexivity.
  - subst v. reflexivity.
Qed.

Lemma number2 a b base : number base [a; b] = a * base + b.
Proof. cbn [number length Nat.pow]. lia. Qed.
Lemma number3 a b c base : number base [a; b; c] = a * (base * base) + b * base + c.
Proof. cbn [number length Nat.pow]. lia. Qed.
Lemma number4 a b c d base : number base [a; b; c; d] = a * (base * base * base) + b * (base * base) + c * base + d.
Proof. cbn [number length Nat.pow]. lia. Qed.

Lemma three_ind (P : list nat -> Prop) : P [] -> (forall a, P [a]) -> (forall a b, P [a; b]) -> (forall a b c l, P l -> P (a :: b :: c :: l)) -> forall l, P l.
Proof.
  intros H0 H1 H2 H3. fix IH 1. intros [|a [|b [|c l]]]; [exact H0|exact (H1 a)|exact (H2 a b)|exact (H3 a b c l (IH l))].
Qed.
Theorem enc_ok : forall bs, Forall byte bs -> base64 (enc64 bs) bs.
Proof.
  unfold byte. apply (three_ind (fun bs => Forall (fun b => b < 256) bs -> base64 (enc64 bs) bs)).
  - intros _. constructor.
  - intros a H. inversion H as [|? ? A _]; subst. cbn [enc64]. apply b64_one with (v := a / 4) (w := a mod 4 * 16); [exact A|apply char_digit; lia|apply char_digit; lia|].
    rewrite number2. change (2 ^ 4) with 16. lia.
  - intros a b H. inversion H as [|? ? A H']; subst. inversion H' as [|? ? B _]; subst. cbn [enc64].
    apply b64_two with (v := a / 4) (w := a mod 4 * 16 + b / 16) (x := b mod 16 * 4); [exact A|exact B|apply char_digit; lia|apply char_digit; lia|apply char_digit; lia|].
    rewrite number3, number2. change (2 ^ 2) with 4. lia.
  - intros a b c l IH H. inversion H as [|? ? A H1]; subst. inversion H1 as [|? ? B H2]; subst. inversion H2 as [|? ? C H3]; subst. cbn [enc64].
    apply b64_three with (v1 := a / 4) (v2 := a mod 4 * 16 + b / 16) (v3 := b mod 16 * 4 + c / 64) (v4 := c mod 64);
      [exact A|exact B|exact C|apply char_digit; lia|apply char_digit; lia|apply char_digit; lia|apply char_digit; lia| |exact (IH H3)].
    rewrite number4, number3. lia.
Qed.

Lemma step c v s quad pads rest : digit c v -> dec64 quad pads rest (c :: s) =
  match quad with
  | 0 => dec64 1 0 v s
  | 1 => option_map (cons (rest * 4 + v / 16)) (dec64 2 0 (v mod 16) s)
  | 2 => option_map (cons (rest * 16 + v / 4)) (dec64 3 0 (v mod 4) s)
  | _ => option_map (cons (rest * 64 + v)) (dec64 0 0 0 s)
  end.
Proof.
  intros D. destruct (digit_facts _ _ D) as (E & _ & N & _). cbn [dec64]. unfold pad. rewrite (proj2 (Nat.eqb_neq c 61) N), E. reflexivity.
Qed.
Theorem dec_ok : forall s bs, base64 s bs -> dec64 0 0 0 s = Some bs.
Proof.
  induction 1 as [|a v w c d A D1 D2 E|a b v w x c d e A B D1 D2 D3 E|a1 a2 a3 v1 v2 v3 v4 c1 c2 c3 c4 s bs A1 A2 A3 D1 D2 D3 D4 E _ IH].
  - reflexivity.
  - rewrite (step _ _ _ _ _ _ D1), (step _ _ _ _ _ _ D2). destruct (digit_facts _ _ D1) as (_ & L1 & _). destruct (digit_facts _ _ D2) as (_ & L2 & _).
    cbn [dec64 pad Nat.eqb option_map Nat.leb Nat.add]. rewrite number2 in E. change (2 ^ 4) with 16 in E. unfold byte in A. clear D1 D2.
    assert (v * 4 + w / 16 = a) as -> by lia. reflexivity.
  - rewrite (step _ _ _ _ _ _ D1), (step _ _ _ _ _ _ D2), (step _ _ _ _ _ _ D3). destruct (digit_facts _ _ D1) as (_ & L1 & _). destruct (digit_facts _ _ D2) as (_ & L2 & _). destruct (digit_facts _ _ D3) as (_ & L3 & _).
    cbn [dec64 pad Nat.eqb option_map Nat.leb Nat.add]. rewrite number3, number2 in E. change (2 ^ 2) with 4 in E. unfold byte in A, B. clear D1 D2 D3.
    assert (v * 4 + w / 16 = a /\ w mod 16 * 16 + x / 4 = b) as [-> ->] by lia. reflexivity.
  - rewrite (step _ _ _ _ _ _ D1), (step _ _ _ _ _ _ D2), (step _ _ _ _ _ _ D3), (step _ _ _ _ _ _ D4), IH.
    destruct (digit_facts _ _ D1) as (_ & L1 & _). destruct (digit_facts _ _ D2) as (_ & L2 & _). destruct (digit_facts _ _ D3) as (_ & L3 & _). destruct (digit_facts _ _ D4) as (_ & L4 & _).
    rewrite number4, number3 in E. unfold byte in A1, A2, A3. clear D1 D2 D3 D4. cbn [option_map].
    assert (v1 * 4 + v2 / 16 = a1 /\ v2 mod 16 * 16 + v3 / 4 = a2 /\ v3 mod 4 * 64 + v4 = a3) as (-> & -> & ->) by lia. reflexivity.
Qed.
Lemma base64_chars s bs : base64 s bs -> forall c, In c s -> c <> 44 /\ c < 128.
Proof.
  induction 1 as [|a v w c d A D1 D2 E|a b v w x c d e A B D1 D2 D3 E|a1 a2 a3 v1 v2 v3 v4 c1 c2 c3 c4 s bs A1 A2 A3 D1 D2 D3 D4 E _ IH]; intros y Hy; cbn [In] in Hy.
  - destruct Hy.
  - destruct (digit_facts _ _ D1) as (_ & _ & _ & ?). destruct (digit_facts _ _ D2) as (_ & _ & _ & ?). destruct Hy as [<-|[<-|[<-|[<-|[]]]]]; lia.
  - destruct (digit_facts _ _ D1) as (_ & _ & _ & ?). destruct (digit_facts _ _ D2) as (_ & _ & _ & ?). destruct (digit_facts _ _ D3) as (_ & _ & _ & ?). destruct Hy as [<-|[<-|[<-|[<-|[]]]]]; lia.
  - destruct (digit_facts _ _ D1) as (_ & _ & _ & ?). destruct (digit_facts _ _ D2) as (_ & _ & _ & ?). destruct (digit_facts _ _ D3) as (_ & _ & _ & ?). destruct (digit_facts _ _ D4) as (_ & _ & _ & ?).
    destruct Hy as [<-|[<-|[<-|[<-|Hy]]]]; try lia. exact (IH _ Hy).
Qed.
Lemma b64decode_ok s bs : base64 s bs -> b64decode s = Some bs.
Proof.
  intros H. unfold b64decode. replace (forallb (fun c => c <? 128) s) with true; [exact (dec_ok _ _ H)|]. symmetry. apply forallb_forall. intros c Hc. apply Nat.ltb_lt. exact (proj2 (base64_chars _ _ H _ Hc)).
Qed.

(** *** Splitting *)
Lemma split_some c s : exists w ws, split c s = w :: ws.
Proof. induction s as [|x s (w & ws & E)]; cbn [split]; [eauto|]. destruct (x =? c); [eauto|]. rewrite E. eauto. Qed.
Lemma split_none c s : ~ In c s -> split c s = [s].
Proof.
  induction s as [|x s IH]; intros H; cbn [split]; [reflexivity|]. destruct (Nat.eqb_spec x c) as [->|_]; [destruct H; left; reflexivity|]. rewrite IH by (intros F; apply H; right; exact F). reflexivity.
Qed.
Lemma split_at c p s : ~ In c p -> split c (p ++ c :: s) = p :: split c s.
Proof.
  induction p as [|x p IH]; intros H; cbn [app split]; [rewrite Nat.eqb_refl; reflexivity|].
  destruct (Nat.eqb_spec x c) as [->|_]; [destruct H; left; reflexivity|]. rewrite IH by (intros F; apply H; right; exact F). reflexivity.
Qed.
Lemma split_one c s w : split c s = [w] -> s = w /\ ~ In c w.
Proof.
  revert w. induction s as [|x s IH]; intros w H; cbn [split] in H; [injection H as <-; split; [reflexivity|intros []]|].
  destruct (Nat.eqb_spec x c) as [->|N]; [destruct (split_some c s) as (? & ? & E); rewrite E in H; discriminate|].
  destruct (split c s) as [|u us] eqn:E; [destruct (split_some c s) as (? & ? & E'); congruence|]. injection H as H1 H2. subst us w. destruct (IH _ eq_refl) as [-> F]. split; [reflexivity|].
  intros [->|G]; [congruence|exact (F G)].
Qed.
Lemma split_two c s p d : split c s = [p; d] -> s = p ++ c :: d /\ ~ In c p /\ ~ In c d.
Proof.
  revert p. induction s as [|x s IH]; intros p H; cbn [split] in H; [discriminate|].
  destruct (Nat.eqb_spec x c) as [->|N].
  - injection H as <- H. destruct (split_one _ _ _ H) as [-> F]. split; [reflexivity|]. split; [intros []|exact F].
  - destruct (split c s) as [|u us] eqn:E; [destruct (split_some c s) as (? & ? & E'); congruence|]. injection H as H1 H2. subst us p. destruct (IH _ eq_refl) as (-> & F & G). split; [reflexivity|].
    split; [|exact G]. intros [->|H]; [congruence|exact (F H)].
Qed.
Lemma starts_app p s : starts p (p ++ s) = true.
Proof. induction p as [|a p IH]; cbn [app starts]; [destruct s; reflexivity|]. rewrite Nat.eqb_refl, IH. reflexivity. Qed.
Lemma starts_inv p s : starts p s = true -> exists r, s = p ++ r.
Proof.
  revert s. induction p as [|a p IH]; intros s H; [exists s; reflexivity|]. destruct s as [|b s]; [discriminate|]. cbn [starts] in H. apply andb_prop in H. destruct H as [A B].
  apply Nat.eqb_eq in A. subst b. destruct (IH _ B) as [r ->]. exists r. reflexivity.
Qed.

Section Img.
Variable img : Type.
Variable save : img -> option (list nat).
Variable open : list nat -> option img.
Notation serialize := (serialize img save).
Notation validate := (validate img open).

Lemma validate_at kind s : ~ In 44 kind -> ~ In 44 s -> validate (data_image ++ kind ++ 44 :: s) =
  match b64decode s with Some bs => match open bs with Some i => Ok i | None => Failed end | None => ValueErr end.
Proof.
  intros K S. unfold ImgModel.validate. rewrite app_assoc. unfold comma. rewrite split_at.
  - rewrite (split_none _ _ S), starts_app. reflexivity.
  - rewrite in_app_iff. intros [H|H]; [|exact (K H)]. unfold data_image in H. cbn [In] in H. repeat destruct H as [H|H]; try discriminate. exact H.
Qed.
Lemma no_comma_base64 : ~ In 44 semi_base64.
Proof. unfold semi_base64. cbn [In]. intros H. repeat destruct H as [H|H]; try discriminate. exact H. Qed.
Theorem reads_base64 kind s bs : ~ In 44 kind -> base64 s bs ->
  validate (data_image ++ kind ++ semi_base64 ++ 44 :: s) = match open bs with Some i => Ok i | None => Failed end.
Proof.
  intros K B. rewrite (app_assoc kind). rewrite validate_at; [rewrite (b64decode_ok _ _ B); reflexivity| |].
  - rewrite in_app_iff. intros [H|H]; [exact (K H)|exact (no_comma_base64 H)].
  - intros H. destruct (base64_chars _ _ B _ H) as [F _]. apply F. reflexivity.
Qed.
Theorem serialize_ok i url : (forall bs, save i = Some bs -> Forall byte bs) -> serialize i = Ok url ->
  exists bs, save i = Some bs /\ url_means url bs /\ validate url = match open bs with Some j => Ok j | None => Failed end.
Proof.
  intros By H. unfold ImgModel.serialize in H. destruct (save i) as [bs|]; [|discriminate]. injection H as <-. exists bs. split; [reflexivity|]. pose proof (enc_ok _ (By _ eq_refl)) as B.
  assert (P : ~ In 44 png) by (unfold png; cbn [In]; intros H; repeat destruct H as [H|H]; try discriminate; exact H). split.
  - exact (um_base64 png _ _ P B).
  - exact (reads_base64 png _ _ P B).
Qed.
Theorem validate_inv url i : validate url = Ok i ->
  exists kind s bs, url = data_image ++ kind ++ 44 :: s /\ ~ In 44 kind /\ ~ In 44 s /\ dec64 0 0 0 s = Some bs /\ open bs = Some i.
Proof.
  unfold ImgModel.validate. destruct (split comma url) as [|p [|d [|? ?]]] eqn:E; try discriminate. destruct (starts data_image p) eqn:T; [|discriminate].
  destruct (split_two _ _ _ _ E) as (-> & Np & Nd). destruct (starts_inv _ _ T) as [kind ->]. unfold b64decode. destruct (forallb _ d); [|discriminate].
  destruct (dec64 0 0 0 d) as [bs|] eqn:D; [|discriminate]. destruct (open bs) as [j|] eqn:O; [|discriminate]. intros H. injection H as <-.
  exists kind, d, bs. split; [rewrite <- app_assoc; reflexivity|]. split; [intros H; apply Np; apply in_app_iff; right; exact H|]. split; [exact Nd|]. split; [exact D|exact O].
Qed.
End Img.

Definition in_alphabet (c : nat) : bool := (c =? 61) || match val64 c with Some _ => true | None => false end.
Theorem junk : forall s quad pads rest, dec64 quad pads rest s = dec64 quad pads rest (filter in_alphabet s).
Proof.
  induction s as [|c s IH]; intros quad pads rest; [reflexivity|]. cbn [filter]. unfold in_alphabet at 1. destruct (Nat.eqb_spec c 61) as [->|N]; cbn [orb].
  - cbn [dec64]. change (61 =? pad) with true. cbn iota. destruct (2 <=? quad); [|apply IH]. destruct (4 <=? quad + S pads); [reflexivity|apply IH].
  - destruct (val64 c) as [v|] eqn:V.
    + cbn [dec64]. unfold pad. rewrite (proj2 (Nat.eqb_neq c 61) N), V. destruct quad as [|[|[|q]]]; [apply IH|rewrite IH; reflexivity|rewrite IH; reflexivity|rewrite IH; reflexivity].
    + cbn [dec64]. unfold pad. rewrite (proj2 (Nat.eqb_neq c 61) N), V. apply IH.
Qed.

Lemma four_ind (P : list nat -> Prop) : P [] -> (forall a, P [a]) -> (forall a b, P [a; b]) -> (forall a b c, P [a; b; c]) -> (forall a b c d l, P l -> P (a :: b :: c :: d :: l)) -> forall l, P l.
Proof.
  intros H0 H1 H2 H3 H4. fix IH 1. intros [|a [|b [|c [|d l]]]]; [exact H0|exact (H1 a)|exact (H2 a b)|exact (H3 a b c)|exact (H4 a b c d l (IH l))].
Qed.
Theorem whole_groups : forall s, (forall c, In c s -> exists v, digit c v) -> forall bs, dec64 0 0 0 s = Some bs <-> base64 s bs.
Proof.
  intros s Ds bs. split; [|apply dec_ok]. revert Ds bs. apply (four_ind (fun s => (forall c, In c s -> exists v, digit c v) -> forall bs, dec64 0 0 0 s = Some bs -> base64 s bs)); clear s.
  - intros _ bs H. injection H as <-. constructor.
  - intros a D bs. destruct (D a) as [v V]; [left; reflexivity|]. rewrite (step _ _ _ _ _ _ V). discriminate.
  - intros a b D bs. destruct (D a) as [v V]; [left; reflexivity|]. destruct (D b) as [w W]; [right; left; reflexivity|].
    rewrite (step _ _ _ _ _ _ V), (step _ _ _ _ _ _ W). discriminate.
  - intros a b c D bs. destruct (D a) as [v V]; [left; reflexivity|]. destruct (D b) as [w W]; [right; left; reflexivity|]. destruct (D c) as [x X]; [right; right; left; reflexivity|].
    rewrite (step _ _ _ _ _ _ V), (step _ _ _ _ _ _ W), (step _ _ _ _ _ _ X). discriminate.
  - intros a b c d l IH D bs. destruct (D a) as [v V]; [left; reflexivity|]. destruct (D b) as [w W]; [right; left; reflexivity|]. destruct (D c) as [x X]; [right; right; left; reflexivity|].
    destruct (D d) as [y Y]; [right; right; right; left; reflexivity|].
    rewrite (step _ _ _ _ _ _ V), (step _ _ _ _ _ _ W), (step _ _ _ _ _ _ X), (step _ _ _ _ _ _ Y). cbn iota.
    destruct (dec64 0 0 0 l) as [r|] eqn:E; [|discriminate]. cbn [option_map]. intros H. injection H as <-.
    pose proof (proj1 (proj2 (digit_facts _ _ V))) as H. pose proof (proj1 (proj2 (digit_facts _ _ W))) as H0. pose proof (proj1 (proj2 (digit_facts _ _ X))) as H1. pose proof (proj1 (proj2 (digit_facts _ _ Y))) as H2.
    assert (T : base64 l r) by (apply IH; [intros z Hz; apply D; right; right; right; right; exact Hz|reflexivity]).
    assert (N : number 64 [v; w; x; y] = number 256 [v * 4 + w / 16; w mod 16 * 16 + x / 4; x mod 4 * 64 + y]) by (rewrite number4, number3; clear V W X Y D IH E T; lia).
    assert (B1 : byte (v * 4 + w / 16)) by (unfold byte; clear - H H0; lia). assert (B2 : byte (w mod 16 * 16 + x / 4)) by (unfold byte; clear - H0 H1; lia).
    assert (B3 : byte (x mod 4 * 64 + y)) by (unfold byte; clear - H1 H2; lia). exact (b64_three _ _ _ v w x y _ _ _ _ _ _ B1 B2 B3 V W X Y N T).
Qed.
