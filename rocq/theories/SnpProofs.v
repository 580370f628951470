From Coq Require Import List Bool Arith Lia.
From Verif Require Import SnpModel SnpSpec.
Import ListNotations.

Lemma onto_concat c ls : concat (onto c ls) = c :: concat ls.
Proof. destruct ls as [|l ls]; reflexivity. Qed.
Theorem joined breaks : forall s, concat (splitlines breaks s) = s.
Proof.
  enough (H : forall n s, length s <= n -> concat (splitlines breaks s) = s) by (intros s; exact (H (length s) s (le_n _))).
  induction n as [|n IH]; intros [|c [|d s]] H; cbn [length] in H; try reflexivity; try lia.
  assert (U : splitlines breaks (c :: d :: s) = if (c =? 13) && (d =? 10) then [13; 10] :: splitlines breaks s else if breaks c then [c] :: splitlines breaks (d :: s) else onto c (splitlines breaks (d :: s))) by reflexivity.
  rewrite U. clear U. destruct ((c =? 13) && (d =? 10)) eqn:E.
  - apply andb_prop in E. destruct E as [A B]. apply Nat.eqb_eq in A. apply Nat.eqb_eq in B. subst. cbn [concat app]. rewrite IH by lia. reflexivity.
  - destruct (breaks c).
    + cbn [concat app]. rewrite IH by (cbn [length]; lia). reflexivity.
    + rewrite onto_concat, IH by (cbn [length]; lia). reflexivity.
Qed.

Lemma name_eqb_eq a b : name_eqb a b = true <-> a = b.
Proof. destruct a, b; cbn [name_eqb]; try (split; discriminate); rewrite Nat.eqb_eq; split; intros H; congruence. Qed.
Lemma find_in f l e : find f l = Some e -> In (f, e) l.
Proof.
  induction l as [|[m e'] l IH]; cbn [find]; [discriminate|]. destruct (name_eqb f m) eqn:E; [|intros H; right; exact (IH H)].
  apply name_eqb_eq in E. intros H. injection H as ->. left. congruence.
Qed.
Section Run.
Variable breaks : nat -> bool.
Variable restricted : bool.
Variable tree : list nat -> option (list stmt).
Variable checked : list nat -> bool.
Variable disk : nat -> list (list nat).
Notation decode := (decode breaks restricted tree checked).
Notation after := (after breaks restricted tree checked disk).
Notation encode := (encode disk).

Lemma fair_after e st : fair st -> fair (after e st).
Proof.
  intros F. destruct e as [v|n| |]; cbn [SnpModel.after].
  - destruct v as [c|s|]; cbn [SnpModel.decode snd]; [exact F| |exact F]. intros m e H. cbn [cache next] in *. destruct H as [H|H].
    + injection H as <- <-. split; [lia|reflexivity].
    + destruct (F _ _ H) as [A B]. split; [lia|exact B].
  - intros m e H. cbn [cache next] in *. destruct H as [H|H]; [discriminate H|exact (F _ _ H)].
  - intros m e H. cbn [cache next] in *. apply filter_In in H. exact (F _ _ (proj1 H)).
  - intros m e H. destruct H.
Qed.
Lemma filtered n l : (forall e, In (Snippet n, e) l -> fst e = false) -> find (Snippet n) (filter (fun e => negb (fst (snd e))) l) = find (Snippet n) l.
Proof.
  induction l as [|[m e] l IH]; intros H; [reflexivity|]. cbn [filter find snd]. destruct (name_eqb (Snippet n) m) eqn:E.
  - pose proof E as E'. apply name_eqb_eq in E'. subst m. rewrite (H e (or_introl eq_refl)). cbn [negb find]. rewrite E. reflexivity.
  - destruct (negb (fst e)); cbn [find]; [rewrite E|]; apply IH; intros e' H'; apply H; right; exact H'.
Qed.
Lemma kept e st n ls : fair st -> e <> EClear -> find (Snippet n) (cache st) = Some ls -> find (Snippet n) (cache (after e st)) = Some ls.
Proof.
  intros F Ne H. destruct e as [v|m| |]; cbn [SnpModel.after].
  - destruct v as [c|s|]; cbn [SnpModel.decode snd cache]; [exact H| |exact H]. cbn [find name_eqb]. destruct (Nat.eqb_spec n (next st)) as [->|_]; [|exact H].
    destruct (F _ _ (find_in _ _ _ H)) as [A _]. lia.
  - cbn [cache find name_eqb]. exact H.
  - cbn [cache]. rewrite filtered; [exact H|]. intros e He. exact (proj2 (F _ _ He)).
  - congruence.
Qed.
Lemma kept_all es : forall st n ls, fair st -> ~ In EClear es -> find (Snippet n) (cache st) = Some ls -> find (Snippet n) (cache (fold_left (fun st e => after e st) es st)) = Some ls.
Proof.
  induction es as [|e es IH]; intros st n ls F Ne H; [exact H|]. cbn [fold_left]. apply IH; [exact (fair_after _ _ F)|intros I1; apply Ne; right; exact I1|].
  apply kept; [exact F|intros ->; apply Ne; left; reflexivity|exact H].
Qed.
Theorem source_back s st c st' es : fair st -> decode (VStr s) st = (Ok c, st') -> ~ In EClear es ->
  encode c (fold_left (fun st e => after e st) es st') = s.
Proof.
  intros F D N. assert (F' : fair st') by (replace st' with (after (EDecode (VStr s)) st); [exact (fair_after _ _ F)|cbn [SnpModel.after]; rewrite D; reflexivity]).
  cbn [SnpModel.decode] in D. injection D as D E.
  assert (C : exists body, c = Code (Snippet (next st)) body).
  { destruct (tree s) as [body|]; [|discriminate]. destruct (scan body); [|discriminate]. destruct (checked s); [|discriminate]. destruct (compiles restricted body); [|discriminate].
    injection D as <-. exists body. reflexivity. }
  destruct C as [body ->]. cbn [SnpModel.encode]. unfold getlines. rewrite (kept_all es st' (next st) (false, splitlines breaks s)); [apply joined|exact F'|exact N|].
  subst st'. cbn [cache find name_eqb]. rewrite Nat.eqb_refl. reflexivity.
Qed.
(** Decoding the source again gives the code again, under another name. *)
Theorem decoded_again s st c st' es : fair st -> decode (VStr s) st = (Ok c, st') -> ~ In EClear es ->
  let st2 := fold_left (fun st e => after e st) es st' in
  exists f g body, c = Code f body /\ fst (decode (VStr (encode c st2)) st2) = Ok (Code g body) /\ f <> g.
Proof.
  intros F D N st2. pose proof (source_back _ _ _ _ es F D N) as S. fold st2 in S. rewrite S. cbn [SnpModel.decode] in D. injection D as D E.
  destruct (tree s) as [body|] eqn:T; [|discriminate]. destruct (scan body) eqn:Sc; [|discriminate]. destruct (checked s) eqn:Ch; [|discriminate]. destruct (compiles restricted body) eqn:Co; [|discriminate].
  injection D as <-. exists (Snippet (next st)), (Snippet (next st2)), body. split; [reflexivity|]. split; [cbn [SnpModel.decode fst]; rewrite T, Sc, Ch, Co; reflexivity|].
  intros H. injection H as H. assert (L : next st < next st2); [|lia]. unfold st2. clear - E.
  assert (M : forall es st0, next st < next st0 -> next st < next (fold_left (fun st e => after e st) es st0)).
  { clear. induction es as [|e es IH]; intros st0 H; [exact H|]. cbn [fold_left]. apply IH. destruct e as [[c|s|]|n| |]; cbn [SnpModel.after SnpModel.decode snd next]; lia. }
  apply M. subst st'. cbn [next]. lia.
Qed.
Theorem refused_values v st : (forall c, v <> VCode c) -> (forall s, v <> VStr s) -> decode v st = (ValueErr, st).
Proof. intros H1 H2. destruct v as [c|s|]; [destruct (H1 c eq_refl)|destruct (H2 s eq_refl)|reflexivity]. Qed.

(** *** Imports *)
Lemma inner_ok : forall b k f s x, import_at b k f s x -> forall r inner, compiles_in r inner x = true -> f = false /\ (s = true -> k = 0 /\ inner = false /\ r = false).
Proof.
  induction 1 as [f s|b k f s x body Hx _ IH|b k f s x body Hx _ IH]; intros r inner H; cbn [compiles_in] in H.
  - apply andb_prop in H. destruct H as [A B]. split; [destruct f; [discriminate|reflexivity]|]. intros ->. cbn [negb orb] in B. apply andb_prop in B. destruct B as [B C].
    destruct inner; [discriminate|]. destruct r; [discriminate|]. repeat split; reflexivity.
  - rewrite forallb_forall in H. exact (IH _ _ (H _ Hx)).
  - rewrite forallb_forall in H. destruct (IH _ _ (H _ Hx)) as [A B]. split; [exact A|]. intros Hs. destruct (B Hs) as (_ & F & _). discriminate F.
Qed.
Lemma compiles_scanned r body : scan body = true -> compiles r body = forallb (compiles_in r false) body.
Proof. destruct body as [|[[] s| | |] body]; intros H; try reflexivity. discriminate H. Qed.
Theorem accepted_imports r body : scan body = true -> compiles r body = true ->
  forall b k f s, imports body b k f s -> f = false /\ (s = true -> r = false /\ k = 0 /\ 0 < b).
Proof.
  intros S C b k f s (x & Hx & H). rewrite (compiles_scanned _ _ S) in C. rewrite forallb_forall in C. destruct (inner_ok _ _ _ _ _ H _ _ (C _ Hx)) as [A B]. split; [exact A|].
  intros Hs. destruct (B Hs) as (-> & _ & E). split; [exact E|]. split; [reflexivity|]. destruct b as [|b]; [|lia].
  unfold scan in S. rewrite forallb_forall in S. specialize (S _ Hx). inversion H; subst. rewrite orb_true_r in S. discriminate S.
Qed.
Section StmtInd.
Variable P : stmt -> Prop.
Hypothesis H1 : forall f s, P (SFrom f s).
Hypothesis H2 : P SOther.
Hypothesis H3 : forall body, Forall P body -> P (SBlock body).
Hypothesis H4 : forall body, Forall P body -> P (SScope body).
Fixpoint stmt_all (s : stmt) : P s :=
  let go := fix go (l : list stmt) : Forall P l := match l with [] => Forall_nil P | x :: l' => Forall_cons x (stmt_all x) (go l') end in
  match s with SFrom f s => H1 f s | SOther => H2 | SBlock b => H3 b (go b) | SScope b => H4 b (go b) end.
End StmtInd.
Lemma compiles_plain : forall x, (forall b k f s, import_at b k f s x -> f = false /\ s = false) -> forall r inner, compiles_in r inner x = true.
Proof.
  induction x as [f s| |body IH|body IH] using stmt_all; intros H r inner; cbn [compiles_in].
  - destruct (H _ _ _ _ (at_here f s)) as [-> ->]. reflexivity.
  - reflexivity.
  - apply forallb_forall. intros x Hx. rewrite Forall_forall in IH. apply (IH _ Hx). intros b k f s A. exact (H _ _ _ _ (at_block _ _ _ _ _ _ Hx A)).
  - apply forallb_forall. intros x Hx. rewrite Forall_forall in IH. apply (IH _ Hx). intros b k f s A. exact (H _ _ _ _ (at_scope _ _ _ _ _ _ Hx A)).
Qed.
Theorem nestable_accepted r body : nestable body -> scan body = true /\ compiles r body = true.
Proof.
  intros H. assert (S : scan body = true).
  { unfold scan. apply forallb_forall. intros x Hx. destruct x as [f s| | |]; try reflexivity. destruct (H 0 0 f s) as [-> ->]; [exists (SFrom f s); split; [exact Hx|constructor]|reflexivity]. }
  split; [exact S|]. rewrite (compiles_scanned _ _ S). apply forallb_forall. intros x Hx. apply compiles_plain. intros b k f s A. apply (H b k). exists x. split; [exact Hx|exact A].
Qed.
Theorem restricted_nestable body : scan body = true -> compiles true body = true -> nestable body.
Proof.
  intros S C b k f s H. destruct (accepted_imports _ _ S C _ _ _ _ H) as [A B]. split; [exact A|]. destruct s; [|reflexivity]. destruct (B eq_refl) as [F _]. discriminate F.
Qed.
Theorem decides s st : match fst (decode (VStr s) st) with
  | Ok (Code f body) => tree s = Some body /\ checked s = true /\ (fair st -> forall e, ~ In (f, e) (cache st)) /\
      forall b k fu sr, imports body b k fu sr -> fu = false /\ (sr = true -> restricted = false /\ k = 0 /\ 0 < b)
  | ValueErr => tree s = None \/ exists body, tree s = Some body /\ ~ nestable body
  | TypeErr => checked s = false
  end.
Proof.
  cbn [SnpModel.decode fst]. destruct (tree s) as [body|]; [|left; reflexivity]. destruct (scan body) eqn:Sc.
  - destruct (checked s) eqn:Ch; [|reflexivity]. destruct (compiles restricted body) eqn:Co.
    + split; [reflexivity|]. split; [reflexivity|]. split; [|exact (accepted_imports _ _ Sc Co)].
      intros F e H. destruct (F _ _ H) as [L _]. lia.
    + right. exists body. split; [reflexivity|]. intros N. destruct (nestable_accepted restricted _ N). congruence.
  - right. exists body. split; [reflexivity|]. intros N. destruct (nestable_accepted restricted _ N). congruence.
Qed.
End Run.
