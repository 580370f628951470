(** Proofs about diagnostics and regions. *)
From Coq Require Import String List Bool Arith ZArith Lia.
From Verif Require Import JsonModel RegionModel RegionSpec.
Import ListNotations.

(** * Diagnostics *)
Section Diagnostics.
Variables (loads : string -> option json) (blank : string -> bool).
Notation line_error := (line_error loads blank).
Notation region_errors := (region_errors loads blank).

Lemma above_spec : forall lo z, above lo z = true <-> forall a, lo = Some a -> (a <= z)%Z.
Proof. intros [a|] z; cbn; [rewrite Z.leb_le; split; [intros H b [= <-]; exact H|auto]|split; [discriminate|auto]]. Qed.
Lemma below_spec : forall hi z, below hi z = true <-> forall b, hi = Some b -> (z <= b)%Z.
Proof. intros [a|] z; cbn; [rewrite Z.leb_le; split; [intros H b [= <-]; exact H|auto]|split; [discriminate|auto]]. Qed.

Lemma line_error_spec : forall lo hi s o, line_error lo hi s = Some o ->
  blank s = true /\ o = None \/
  exists d, blank s = false /\ loads s = Some d /\ (o = Some d /\ region_error lo hi d \/ o = None /\ ~ region_error lo hi d).
Proof.
  intros lo hi s o H. unfold RegionModel.line_error in H. destruct (blank s); [left; injection H as <-; auto|right].
  destruct (loads s) as [d|]; [|discriminate]. exists d. split; [reflexivity|]. split; [reflexivity|].
  destruct d as [| | | | |la|l]; try discriminate.
  destruct (jget l "severity") as [sev|] eqn:Es; [|discriminate].
  assert (Dec : forall (b : bool), (if match sev with JStr s => String.eqb s "error" | _ => false end then true else false) = b ->
                if b then sev = JStr "error" else sev <> JStr "error").
  { intros b <-. destruct sev as [| | | |t| |]; try discriminate. destruct (String.eqb_spec t "error"); congruence. }
  destruct (match sev with JStr s => String.eqb s "error" | _ => false end).
  - specialize (Dec true eq_refl). cbn in Dec. subst sev.
    assert (G : match jget l "line" with
                | Some (JInt z) => Some (if above lo z && below hi z then Some (JObj l) else None)
                | _ => None end = Some o -> ~ (lo = None /\ hi = None) ->
               o = Some (JObj l) /\ region_error lo hi (JObj l) \/ o = None /\ ~ region_error lo hi (JObj l)).
    { intros G N. destruct (jget l "line") as [[| |z| | | |]|] eqn:El; try discriminate. injection G as <-.
      destruct (above lo z && below hi z) eqn:B.
      - left. split; [reflexivity|]. split; [exists l; auto|]. right. exists z. split; [exists l; auto|].
        apply andb_true_iff in B. destruct B as [B1 B2]. split; [now apply above_spec|now apply below_spec].
      - right. split; [reflexivity|]. intros [_ [C|[z' [[l' [Q1 Q2]] [C1 C2]]]]]; [contradiction|].
        injection Q1 as <-. rewrite El in Q2. injection Q2 as <-.
        apply above_spec in C1. apply below_spec in C2. rewrite C1, C2 in B. discriminate. }
    destruct lo as [a|], hi as [b|]; try (apply G; [exact H|intros [? ?]; discriminate]).
    injection H as <-. left. split; [reflexivity|]. split; [exists l; auto|now left].
  - specialize (Dec false eq_refl). cbn in Dec. injection H as <-. right. split; [reflexivity|].
    intros [[l' [Q1 Q2]] _]. injection Q1 as <-. congruence.
Qed.

Theorem region_exact : forall lines lo hi errs, region_errors lines lo hi = Some errs ->
  exists ds, printed loads blank lines ds /\ selects (region_error lo hi) ds errs.
Proof.
  induction lines as [|s lines IH]; intros lo hi errs H; cbn [RegionModel.region_errors] in H.
  - injection H as <-. exists []. split; constructor.
  - destruct (line_error lo hi s) as [o|] eqn:E; [|discriminate].
    destruct (region_errors lines lo hi) as [errs'|] eqn:R; [|discriminate]. injection H as <-.
    destruct (IH _ _ _ R) as [ds [P S]].
    destruct (line_error_spec _ _ _ _ E) as [[B ->]|[d [B [L [[-> D]|[-> D]]]]]].
    + exists ds. split; [now apply pr_blank|exact S].
    + exists (d :: ds). split; [now apply pr_diag|now apply sel_keep].
    + exists (d :: ds). split; [now apply pr_diag|now apply sel_drop].
Qed.

(** Well-formed diagnostics are never refused. *)
Definition diagnostic (d : json) : Prop := exists sev z, field d "severity" sev /\ field d "line" (JInt z).
Theorem region_total : forall lines ds lo hi, printed loads blank lines ds -> Forall diagnostic ds ->
  exists errs, region_errors lines lo hi = Some errs.
Proof.
  intros lines ds lo hi P. induction P as [|s l ds B P IH|s l d ds B L P IH]; intros F; cbn [RegionModel.region_errors].
  - eauto.
  - destruct (IH F) as [errs ->]. unfold RegionModel.line_error. rewrite B. eauto.
  - apply Forall_inv in F as F1. apply Forall_inv_tail in F. destruct (IH F) as [errs ->].
    destruct F1 as [sev [z [[l1 [-> S]] [l2 [Q Z]]]]]. injection Q as <-.
    unfold RegionModel.line_error. rewrite B, L, S, Z.
    destruct (match sev with JStr s => String.eqb s "error" | _ => false end); [|eauto].
    destruct lo, hi; eauto.
Qed.
Lemma selects_nil : forall A (P : A -> Prop) l, selects P l [] <-> Forall (fun x => ~ P x) l.
Proof.
  intros A P l. split.
  - intros H. remember [] as e eqn:E. induction H as [|x l l' Px H IH|x l l' Px H IH]; [constructor|discriminate|constructor; auto].
  - intros H. induction H; [constructor|now apply sel_drop].
Qed.
Lemma printed_fun : forall lines ds, printed loads blank lines ds -> forall ds', printed loads blank lines ds' -> ds = ds'.
Proof.
  intros lines ds P. induction P as [|s l ds B P IH|s l d ds B L P IH]; intros ds' P'.
  - remember [] as e eqn:E. destruct P'; [reflexivity|discriminate|discriminate].
  - remember (s :: l) as e eqn:E. destruct P'; [discriminate| |]; injection E as -> ->; [now apply IH|congruence].
  - remember (s :: l) as e eqn:E. destruct P'; [discriminate| |]; injection E as -> ->; [congruence|]. f_equal; [congruence|now apply IH].
Qed.
Theorem verdict_exact : forall status lines ds lo hi, (status < 2)%Z -> printed loads blank lines ds -> Forall diagnostic ds ->
  (check_region loads blank status lines lo hi = VPass <-> Forall (fun d => ~ region_error lo hi d) ds) /\
  (forall errs, check_region loads blank status lines lo hi = VTypeError errs <-> errs <> [] /\ selects (region_error lo hi) ds errs).
Proof.
  intros status lines ds lo hi St P F. unfold check_region.
  replace (Z.leb 2 status) with false by (symmetry; apply Z.leb_gt; lia).
  destruct (region_total lines ds lo hi P F) as [errs E]. rewrite E.
  destruct (region_exact _ _ _ _ E) as [ds' [P' S]]. rewrite <- (printed_fun _ _ P _ P') in S.
  assert (Fn : forall l e1, selects (region_error lo hi) l e1 -> forall e2, selects (region_error lo hi) l e2 -> e1 = e2).
  { intros l e1 X. induction X as [|x l l' Px X IH|x l l' Px X IH]; intros e2 Y.
    - remember [] as q eqn:Q. destruct Y; [reflexivity|discriminate|discriminate].
    - remember (x :: l) as q eqn:Q. destruct Y; [discriminate| |]; injection Q as -> ->; [f_equal; now apply IH|contradiction].
    - remember (x :: l) as q eqn:Q. destruct Y; [discriminate| |]; injection Q as -> ->; [contradiction|now apply IH]. }
  split.
  - rewrite <- selects_nil. split.
    + intros H. destruct errs; [exact S|discriminate].
    + intros H. rewrite (Fn _ _ S _ H). reflexivity.
  - intros errs'. split.
    + intros H. destruct errs; [discriminate|]. injection H as <-. split; [discriminate|exact S].
    + intros [N H]. rewrite (Fn _ _ S _ H). destruct errs'; [congruence|reflexivity].
Qed.
End Diagnostics.

(** * Walking *)
Lemma node_ind2 : forall P : node -> Prop, (forall a l, Forall P l -> P (Node a l)) -> forall t, P t.
Proof.
  intros P H. fix IH 1. intros [a l]. apply H. induction l as [|t l IHl]; constructor; [apply IH|exact IHl].
Qed.
Lemma subnode_app : forall p t q, subnode t (p ++ q) = match subnode t p with Some s => subnode s q | None => None end.
Proof.
  induction p as [|i p IH]; intros t q; cbn; [reflexivity|]. destruct (nth_error (kids t) i); [apply IH|reflexivity].
Qed.
Lemma in_number : forall l p i q t, In (q, t) (number p i l) -> exists j, q = (p ++ [i + j])%list /\ nth_error l j = Some t.
Proof.
  induction l as [|t l IH]; intros p i q s; cbn; [tauto|]. intros [[= <- <-]|H].
  - exists 0. rewrite Nat.add_0_r. auto.
  - destruct (IH p (S i) q s H) as [j [-> E]]. exists (S j). rewrite Nat.add_succ_r. auto.
Qed.
Lemma number_in : forall l p i j t, nth_error l j = Some t -> In ((p ++ [i + j])%list, t) (number p i l).
Proof.
  induction l as [|s l IH]; intros p i [|j] t H; cbn in *; try discriminate.
  - injection H as <-. rewrite Nat.add_0_r. now left.
  - right. rewrite Nat.add_succ_r. apply (IH p (S i) j t H).
Qed.
Lemma walk_sound : forall t fuel queue, (forall q s, In (q, s) queue -> subnode t q = Some s) ->
  forall q s, In (q, s) (walk_from fuel queue) -> subnode t q = Some s.
Proof.
  intros t. induction fuel as [|fuel IH]; intros [|[p u] queue] H q s; cbn; try tauto.
  intros [[= <- <-]|K]; [apply H; now left|]. apply (IH _) in K; [exact K|].
  intros q' s' I. apply in_app_or in I. destruct I as [I|I]; [apply H; now right|].
  destruct (in_number _ _ _ _ _ I) as [j [-> E]]. rewrite subnode_app, (H p u) by now left. cbn. now rewrite E.
Qed.
Lemma ast_walk_sound : forall t q s, In (q, s) (ast_walk t) -> subnode t q = Some s.
Proof.
  intros t q s. apply walk_sound. intros q' s' [[= <- <-]|[]]. reflexivity.
Qed.
Definition sizes (l : list (path * node)) : nat := fold_right (fun x n => size (snd x) + n) 0 l.
Lemma sizes_app : forall a b, sizes (a ++ b) = sizes a + sizes b.
Proof. induction a as [|x a IH]; intros b; [reflexivity|]. cbn [app]. unfold sizes in *. cbn [fold_right]. rewrite IH. lia. Qed.
Lemma sizes_number : forall l p i, sizes (number p i l) = fold_right (fun t n => size t + n) 0 l.
Proof. induction l as [|t l IH]; intros p i; [reflexivity|]. unfold sizes in *. cbn [number fold_right snd]. now rewrite IH. Qed.
Lemma walk_complete : forall fuel queue, sizes queue <= fuel -> forall p u, In (p, u) queue -> forall q s, subnode u q = Some s ->
  In ((p ++ q)%list, s) (walk_from fuel queue).
Proof.
  induction fuel as [|fuel IH]; intros [|[p0 u0] queue] F p u I q s E.
  - destruct I.
  - cbn in F. destruct u0 as [a l]. cbn in F. lia.
  - destruct I.
  - cbn [walk_from].
    assert (F' : sizes (queue ++ number p0 0 (kids u0)) <= fuel).
    { rewrite sizes_app, sizes_number. destruct u0 as [a l]. change (size (Node a l) + sizes queue <= S fuel) in F.
      cbn [size kids] in F |- *. lia. }
    destruct I as [[= -> ->]|I].
    + destruct q as [|j q]; cbn in E.
      * injection E as <-. rewrite app_nil_r. now left.
      * destruct (nth_error (kids u) j) as [t'|] eqn:N; [|discriminate]. right.
        pose proof (number_in (kids u) p 0 j t' N) as M. cbn in M.
        replace (p ++ j :: q)%list with ((p ++ [j]) ++ q)%list by (now rewrite <- app_assoc).
        apply (IH _ F' _ t'); [apply in_or_app; now right|exact E].
    + right. apply (IH _ F' _ u); [apply in_or_app; now left|exact E].
Qed.
Lemma ast_walk_complete : forall t q s, subnode t q = Some s -> In (q, s) (ast_walk t).
Proof.
  intros t q s E. apply (walk_complete (size t) [([], t)]) with (p := []) (u := t); [cbn; lia|now left|exact E].
Qed.
Lemma def_nodes_iff : forall t q s, In (q, s) (def_nodes t) <-> subnode t q = Some s /\ is_def (label s) = true.
Proof.
  intros t q s. unfold def_nodes. rewrite filter_In. cbn. split; intros [A B]; (split; [|exact B]).
  - now apply ast_walk_sound.
  - now apply ast_walk_complete.
Qed.
Lemma find_def_spec : forall t n p, find_def t n = Some p ->
  exists s, subnode t p = Some s /\ is_def (label s) = true /\ first (label s) = n.
Proof.
  intros t n p H. unfold find_def in H. destruct (find _ (def_nodes t)) as [[q s]|] eqn:F; [|discriminate].
  injection H as <-. apply find_some in F. destruct F as [I E]. apply def_nodes_iff in I. apply Nat.eqb_eq in E. cbn in E.
  exists s. tauto.
Qed.

Lemma find_def_none : forall t n, (forall p s, subnode t p = Some s -> is_def (label s) = true -> first (label s) <> n) -> find_def t n = None.
Proof.
  intros t n H. destruct (find_def t n) as [p|] eqn:E; [|reflexivity]. destruct (find_def_spec t n p E) as [s [A [B C]]]. now destruct (H p s A B).
Qed.
Lemma find_def_some : forall t n p s, subnode t p = Some s -> is_def (label s) = true -> first (label s) = n -> exists q, find_def t n = Some q.
Proof.
  intros t n p s A B C. unfold find_def. destruct (find _ (def_nodes t)) as [[q u]|] eqn:F; [now exists q|].
  pose proof (find_none _ _ F (p, s) (proj2 (def_nodes_iff t p s) (conj A B))) as N. cbn in N. apply Nat.eqb_neq in N. congruence.
Qed.
Lemma find_def_only : forall t n p s, subnode t p = Some s -> is_def (label s) = true -> first (label s) = n ->
  (forall q u, subnode t q = Some u -> is_def (label u) = true -> first (label u) = n -> q = p) -> find_def t n = Some p.
Proof.
  intros t n p s A B C U. destruct (find_def_some t n p s A B C) as [q E]. rewrite E. f_equal.
  destruct (find_def_spec t n q E) as [u [Q [D F]]]. now apply (U q u).
Qed.

Lemma nth_update : forall f l i t, nth_error l i = Some t -> nth_error (update_nth f i l) i = Some (f t).
Proof. induction l as [|s l IH]; intros [|i] t H; cbn in *; try discriminate; [congruence|now apply IH]. Qed.
Lemma set_body_at : forall p t body a l, subnode t p = Some (Node a l) -> subnode (set_body t p body) p = Some (Node a body).
Proof.
  induction p as [|i p IH]; intros [b k] body a l H; cbn in *.
  - injection H as <- _. reflexivity.
  - destruct (nth_error k i) as [t'|] eqn:N; [|discriminate]. rewrite (nth_update _ _ _ _ N). now apply (IH t' body a l).
Qed.
Lemma index_in : forall p s l, In (p, s) l -> exists i s', index p l = Some i /\ nth_error l i = Some (p, s').
Proof.
  induction l as [|[q u] l IH]; [intros []|]. intros H. cbn. destruct (list_eq_dec Nat.eq_dec p q) as [->|N].
  - exists 0, u. auto.
  - destruct H as [[= -> ->]|H]; [congruence|]. destruct (IH H) as [i [s' [-> E]]]. exists (S i), s'. auto.
Qed.
Lemma locate_spec : forall m p a l body k, subnode m p = Some (Node a l) -> is_def a = true ->
  locate m p body k = Spliced (lineno (set_body m p body) (p ++ [k])) (end_lineno (set_body m p body) (p ++ [length body - 1])) (set_body m p body).
Proof.
  intros m p a l body k S D. unfold locate.
  destruct (index_in p (Node a body) (def_nodes (set_body m p body))) as [i [s' [E N]]].
  { apply def_nodes_iff. split; [now apply set_body_at with l|exact D]. }
  now rewrite E, N.
Qed.

(** * Text *)
Definition texts (p : path) : nat -> list node -> list line :=
  fix go (i : nat) (l : list node) : list line :=
    match l with [] => [] | t' :: l' => text (p ++ [i]) t' ++ go (S i) l' end%list.
Lemma text_node : forall p a l,
  text p (Node a l) = (repeat Blank (gap a) ++ repeat (Deco p) (decs a) ++ repeat (Own p) (own a) ++ texts p 0 l)%list.
Proof. reflexivity. Qed.
Lemma texts_app : forall p l1 i l2, texts p i (l1 ++ l2) = (texts p i l1 ++ texts p (i + length l1) l2)%list.
Proof.
  induction l1 as [|t l1 IH]; intros i l2; cbn [app texts length].
  - now rewrite Nat.add_0_r.
  - fold (texts p). change (texts p i (t :: l1)) with (text (p ++ [i]) t ++ texts p (S i) l1)%list.
    rewrite IH, <- app_assoc, Nat.add_succ_r. reflexivity.
Qed.
Lemma text_length : forall t p, length (text p t) = height t.
Proof.
  induction t as [a l IH] using node_ind2. intros p. rewrite text_node, !app_length, !repeat_length. cbn [height].
  assert (G : forall i, length (texts p i l) = fold_right (fun t n => height t + n) 0 l).
  { induction IH as [|t l H IH IH2]; intros i; [reflexivity|].
    change (texts p i (t :: l)) with (text (p ++ [i]) t ++ texts p (S i) l)%list. rewrite app_length, H, IH2. reflexivity. }
  rewrite G. lia.
Qed.
Lemma texts_length : forall l p i, length (texts p i l) = heights l.
Proof.
  induction l as [|t l IH]; intros p i; [reflexivity|].
  change (texts p i (t :: l)) with (text (p ++ [i]) t ++ texts p (S i) l)%list. now rewrite app_length, text_length, IH.
Qed.
Lemma in_repeat : forall A (x y : A) n, In y (repeat x n) -> y = x.
Proof. intros A x y n. induction n as [|n IH]; cbn; [tauto|intros [<-|H]; auto]. Qed.
Lemma text_owner : forall t p ln q, In ln (text p t) -> belongs ln q -> exists r, q = (p ++ r)%list.
Proof.
  induction t as [a l IH] using node_ind2. intros p ln q I B. rewrite text_node in I.
  apply in_app_or in I. destruct I as [I|I].
  { apply in_repeat in I. subst. destruct B; discriminate. }
  apply in_app_or in I. destruct I as [I|I].
  { apply in_repeat in I. subst. exists []. rewrite app_nil_r. destruct B; congruence. }
  apply in_app_or in I. destruct I as [I|I].
  { apply in_repeat in I. subst. exists []. rewrite app_nil_r. destruct B; congruence. }
  assert (G : forall i, In ln (texts p i l) -> exists r, q = (p ++ r)%list).
  { clear I. induction IH as [|t l H IH IH2]; intros i I; [destruct I|].
    change (texts p i (t :: l)) with (text (p ++ [i]) t ++ texts p (S i) l)%list in I. apply in_app_or in I. destruct I as [I|I].
    - destruct (H _ _ _ I B) as [r ->]. exists (i :: r). now rewrite <- app_assoc.
    - now apply (IH2 (S i)). }
  now apply (G 0).
Qed.
Lemma texts_owner : forall l p i ln q, In ln (texts p i l) -> belongs ln q -> exists j r, q = (p ++ (i + j) :: r)%list /\ j < length l.
Proof.
  induction l as [|t l IH]; intros p i ln q I B; [destruct I|].
  change (texts p i (t :: l)) with (text (p ++ [i]) t ++ texts p (S i) l)%list in I. apply in_app_or in I. destruct I as [I|I].
  - destruct (text_owner _ _ _ _ I B) as [r ->]. exists 0, r. rewrite <- app_assoc, Nat.add_0_r. cbn. split; [reflexivity|lia].
  - destruct (IH _ _ _ _ I B) as [j [r [-> L]]]. exists (S j), r. rewrite Nat.add_succ_r. cbn. split; [reflexivity|lia].
Qed.

Definition extends (p q : path) : Prop := exists r, q = (p ++ r)%list.
Lemma text_at : forall p t s base n, subnode t p = Some s ->
  exists pre post, text base t = (pre ++ text (base ++ p) s ++ post)%list /\ start n t p = n + length pre /\
    forall ln q, In ln (pre ++ post) -> belongs ln q -> ~ extends (base ++ p) q.
Proof.
  induction p as [|i p IH]; intros t s base n E.
  - injection E as ->. exists [], []. rewrite !app_nil_r. cbn. repeat split; [lia|]. intros ln q [].
  - destruct t as [a l]. cbn [subnode kids] in E. destruct (nth_error l i) as [t'|] eqn:N; [|discriminate].
    destruct (nth_error_split _ _ N) as [l1 [l2 [-> Li]]].
    destruct (IH t' s (base ++ [i])%list (n + gap a + decs a + own a + heights l1) E) as [pre [post [T [St O]]]].
    rewrite text_node, texts_app. cbn [Nat.add]. rewrite Li.
    change (texts base i (t' :: l2)) with (text (base ++ [i]) t' ++ texts base (S i) l2)%list. rewrite T.
    exists (repeat Blank (gap a) ++ repeat (Deco base) (decs a) ++ repeat (Own base) (own a) ++ texts base 0 l1 ++ pre)%list,
           (post ++ texts base (S i) l2)%list.
    replace (base ++ i :: p)%list with ((base ++ [i]) ++ p)%list in * by (now rewrite <- app_assoc).
    split; [now rewrite <- !app_assoc|]. split.
    + cbn [start kids label]. rewrite N, firstn_app, Li, Nat.sub_diag. cbn [firstn].
      rewrite app_nil_r, <- Li, firstn_all, St, !app_length, !repeat_length, texts_length. lia.
    + intros ln q I B [r X].
      assert (Y : q = (base ++ i :: p ++ r)%list) by (rewrite X, <- !app_assoc; reflexivity).
      apply in_app_or in I. destruct I as [I|I].
      * apply in_app_or in I. destruct I as [I|I]; [apply in_repeat in I; subst ln; destruct B; discriminate|].
        apply in_app_or in I. destruct I as [I|I].
        { apply in_repeat in I. assert (q = base) by (subst ln; destruct B; congruence).
          rewrite H in Y. apply (f_equal (@length nat)) in Y. rewrite app_length in Y. cbn in Y. lia. }
        apply in_app_or in I. destruct I as [I|I].
        { apply in_repeat in I. assert (q = base) by (subst ln; destruct B; congruence).
          rewrite H in Y. apply (f_equal (@length nat)) in Y. rewrite app_length in Y. cbn in Y. lia. }
        apply in_app_or in I. destruct I as [I|I].
        { destruct (texts_owner _ _ _ _ _ I B) as [j [r' [Q L]]]. rewrite Q in Y. apply app_inv_head in Y. injection Y as Y _. lia. }
        apply (O ln q (in_or_app _ _ _ (or_introl I)) B). exists r. exact X.
      * apply in_app_or in I. destruct I as [I|I].
        { apply (O ln q (in_or_app _ _ _ (or_intror I)) B). exists r. exact X. }
        destruct (texts_owner _ _ _ _ _ I B) as [j [r' [Q L]]]. rewrite Q in Y. apply app_inv_head in Y. injection Y as Y _. lia.
Qed.

Lemma nth_error_in3 : forall A (a b c : list A) n x, nth_error (a ++ b ++ c) n = Some x ->
  n < length a /\ In x a \/ length a <= n < length a + length b /\ In x b \/ length a + length b <= n /\ In x c.
Proof.
  intros A a b c n x H. destruct (Nat.lt_ge_cases n (length a)) as [L|L].
  - left. rewrite nth_error_app1 in H by exact L. split; [exact L|eapply nth_error_In; exact H].
  - rewrite nth_error_app2 in H by exact L. right. destruct (Nat.lt_ge_cases (n - length a) (length b)) as [L'|L'].
    + left. rewrite nth_error_app1 in H by exact L'. split; [lia|eapply nth_error_In; exact H].
    + right. rewrite nth_error_app2 in H by exact L'. split; [lia|eapply nth_error_In; exact H].
Qed.

(** The lines of the region are those of the statements from position [k], but for the decorators of
    the first of them. *)
Theorem region_lines : forall m p a body k, subnode m p = Some (Node a body) -> k < length body ->
  forall n ln q, nth_error (source m) n = Some ln -> belongs ln q ->
    (lineno m (p ++ [k]) <= S n <= end_lineno m (p ++ [length body - 1]) <-> in_body p k q /\ ln <> Deco (p ++ [k])).
Proof.
  intros m p a body k S K n ln q H B.
  destruct (text_at p m _ [] 1 S) as [pre [post [T [St O]]]]. cbn [app] in T, O.
  destruct (nth_error body k) as [t|] eqn:Nk; [|apply nth_error_None in Nk; lia].
  destruct (nth_error_split _ _ Nk) as [l1 [l2 [Eb Lk]]]. destruct t as [b lb].
  (* the two line numbers *)
  assert (A0 : forall q' s, subnode m p = Some s -> forall i, start 1 m (p ++ i :: q') = start (start 1 m p) s (i :: q')).
  { intros q' s Hs i. clear - Hs. revert Hs. generalize 1. revert m s.
    induction p as [|j p IH]; intros m s n Hs; [injection Hs as ->; reflexivity|]. cbn [subnode app] in *.
    destruct (nth_error (kids m) j) as [t'|] eqn:E; [|discriminate].
    cbn [start]. rewrite E. now apply IH. }
  set (h := gap a + decs a + own a).
  assert (Lo : lineno m (p ++ [k]) = 1 + length pre + h + heights l1 + gap b + decs b).
  { unfold lineno. rewrite subnode_app, S. cbn [subnode kids]. rewrite Nk, (A0 [] _ S k), St.
    cbn [start kids label]. rewrite Nk. rewrite Eb, firstn_app, Lk, Nat.sub_diag. cbn [firstn].
    rewrite app_nil_r, <- Lk, firstn_all. unfold h. lia. }
  assert (Hi : end_lineno m (p ++ [length body - 1]) = length pre + h + heights body).
  { unfold end_lineno. rewrite subnode_app, S. cbn [subnode kids].
    destruct (nth_error body (length body - 1)) as [z|] eqn:Nz; [|apply nth_error_None in Nz; lia].
    rewrite (A0 [] _ S _), St. cbn [start kids label]. rewrite Nz.
    destruct (nth_error_split _ _ Nz) as [b1 [b2 [Ez Lz]]].
    assert (b2 = []) as ->. { rewrite Ez, app_length in Lz. cbn in Lz. destruct b2; [reflexivity|cbn in Lz; lia]. }
    assert (Hh : heights body = heights b1 + height z).
    { rewrite Ez. clear. induction b1 as [|x b1 IH]; cbn; [lia|]. unfold heights in IH. rewrite IH. unfold heights. lia. }
    rewrite Hh. rewrite <- Lz. rewrite Ez at 1. rewrite firstn_app, Nat.sub_diag. cbn [firstn]. rewrite app_nil_r, firstn_all.
    unfold h. lia. }
  (* the text, cut at the region *)
  rewrite text_node in T.
  pose (A1 := (pre ++ repeat Blank (gap a) ++ repeat (Deco p) (decs a) ++ repeat (Own p) (own a) ++ texts p 0 l1 ++
              repeat Blank (gap b) ++ repeat (Deco (p ++ [k])) (decs b))%list).
  pose (A2 := (repeat (Own (p ++ [k])) (own b) ++ texts (p ++ [k]) 0 lb ++ texts p (Datatypes.S k) l2)%list).
  assert (TT : source m = (A1 ++ A2 ++ post)%list).
  { unfold source. rewrite T, Eb, texts_app. cbn [Nat.add]. rewrite Lk.
    change (texts p k (Node b lb :: l2)) with (text (p ++ [k]) (Node b lb) ++ texts p (Datatypes.S k) l2)%list.
    rewrite text_node. unfold A1, A2. now rewrite <- !app_assoc. }
  assert (L1 : length A1 = length pre + h + heights l1 + gap b + decs b).
  { unfold A1. rewrite !app_length, !repeat_length, texts_length. unfold h. lia. }
  assert (L2 : length A1 + length A2 = length pre + h + heights body).
  { rewrite L1. unfold A2. rewrite !app_length, !repeat_length, !texts_length, Eb.
    assert (Hh : forall x y, heights (x ++ y) = heights x + heights y).
    { clear. induction x as [|u x IH]; intros y; cbn; [reflexivity|]. unfold heights in IH. rewrite IH. unfold heights. lia. }
    rewrite Hh. cbn [heights fold_right height]. unfold heights. cbn [fold_right height]. lia. }
  rewrite TT in H. rewrite Lo, Hi. destruct (nth_error_in3 _ _ _ _ _ _ H) as [[L I]|[[L I]|[L I]]].
  - split; [lia|]. intros [[i [r [Q Ki]]] D]. exfalso. unfold A1 in I.
    apply in_app_or in I. destruct I as [I|I].
    { apply (O ln q (in_or_app _ _ _ (or_introl I)) B). exists (i :: r). exact Q. }
    apply in_app_or in I. destruct I as [I|I]; [apply in_repeat in I; subst ln; destruct B; discriminate|].
    apply in_app_or in I. destruct I as [I|I].
    { apply in_repeat in I. assert (q = p) by (subst ln; destruct B; congruence).
      rewrite H0 in Q. apply (f_equal (@length nat)) in Q. rewrite app_length in Q. cbn in Q. lia. }
    apply in_app_or in I. destruct I as [I|I].
    { apply in_repeat in I. assert (q = p) by (subst ln; destruct B; congruence).
      rewrite H0 in Q. apply (f_equal (@length nat)) in Q. rewrite app_length in Q. cbn in Q. lia. }
    apply in_app_or in I. destruct I as [I|I].
    { destruct (texts_owner _ _ _ _ _ I B) as [j [r' [Q' Lj]]]. rewrite Q' in Q. apply app_inv_head in Q. injection Q as Q _. lia. }
    apply in_app_or in I. destruct I as [I|I]; [apply in_repeat in I; subst ln; destruct B; discriminate|].
    apply in_repeat in I. contradiction.
  - split; [intros _|lia]. unfold A2 in I. apply in_app_or in I. destruct I as [I|I].
    { apply in_repeat in I. subst ln. split; [|discriminate]. exists k, []. split; [destruct B; congruence|lia]. }
    apply in_app_or in I. destruct I as [I|I].
    + destruct (texts_owner _ _ _ _ _ I B) as [j [r' [Q' Lj]]]. split.
      * exists k, (j :: r'). split; [rewrite Q', <- app_assoc; reflexivity|lia].
      * intros ->. destruct B as [B|B]; [discriminate|]. injection B as B. rewrite Q' in B.
        apply (f_equal (@length nat)) in B. rewrite !app_length in B. cbn in B. lia.
    + destruct (texts_owner _ _ _ _ _ I B) as [j [r' [Q' Lj]]]. split.
      * exists (Datatypes.S k + j), r'. split; [exact Q'|lia].
      * intros ->. destruct B as [B|B]; [discriminate|]. injection B as B. rewrite Q' in B. apply app_inv_head in B. injection B as B _. lia.
  - split; [lia|]. intros [[i [r [Q Ki]]] D]. exfalso.
    apply (O ln q (in_or_app _ _ _ (or_intror I)) B). exists (i :: r). exact Q.
Qed.

(** * The two splices *)
Lemma find_node : forall m n p, find_def m n = Some p -> exists a l, subnode m p = Some (Node a l) /\ is_def a = true /\ first a = n.
Proof.
  intros m n p F. destruct (find_def_spec _ _ _ F) as [[a l] H]. exists a, l. exact H.
Qed.
Theorem splice_source_lines : forall m n generated lo hi m', splice_into_source (Some m) n generated = Spliced lo hi m' ->
  exists p, find_def m n = Some p /\ m' = set_body m p (generated ++ [return_stmt]) /\
  forall i ln q, nth_error (source m') i = Some ln -> belongs ln q ->
    (lo <= S i <= hi <-> in_body p 0 q /\ ln <> Deco (p ++ [0])).
Proof.
  intros m n generated lo hi m' H. unfold splice_into_source in H. destruct (rev generated) as [|last r]; [discriminate|].
  destruct (is_def (label last)); [|discriminate]. destruct (find_def m n) as [p|] eqn:F; [|discriminate].
  destruct (find_node _ _ _ F) as [a [l [S [D _]]]]. rewrite (locate_spec _ _ _ _ _ _ S D) in H. injection H as <- <- <-.
  exists p. split; [reflexivity|]. split; [reflexivity|]. intros i ln q I B.
  apply (region_lines _ p a); [now apply set_body_at with l|rewrite app_length; cbn; lia|exact I|exact B].
Qed.
Theorem splice_repl_lines : forall m n prior snippet lo hi m', splice_repl (Some m) n prior snippet = Spliced lo hi m' ->
  exists p, find_def m n = Some p /\ m' = set_body m p (concat prior ++ snippet) /\
  forall i ln q, nth_error (source m') i = Some ln -> belongs ln q ->
    (lo <= S i <= hi <-> in_body p (length (concat prior)) q /\ ln <> Deco (p ++ [length (concat prior)])).
Proof.
  intros m n prior snippet lo hi m' H. unfold splice_repl in H. destruct snippet as [|s0 sn]; [discriminate|].
  destruct (find_def m n) as [p|] eqn:F; [|discriminate].
  destruct (find_node _ _ _ F) as [a [l [S [D _]]]]. cbv zeta in H. rewrite (locate_spec _ _ _ _ _ _ S D) in H. injection H as <- <- <-.
  exists p. split; [reflexivity|]. split; [reflexivity|]. intros i ln q I B.
  replace (length (concat prior ++ s0 :: sn) - Datatypes.S (length sn)) with (length (concat prior)) by (rewrite app_length; cbn; lia).
  apply (region_lines _ p a); [now apply set_body_at with l|rewrite app_length; cbn; lia|exact I|exact B].
Qed.
(** Splicing does not fail once the definition is found. *)
Theorem splice_defined : forall m n p generated last prior snippet, find_def m n = Some p ->
  is_def (label last) = true -> snippet <> [] ->
  (exists lo hi m', splice_into_source (Some m) n (generated ++ [last]) = Spliced lo hi m') /\
  (exists lo hi m', splice_repl (Some m) n prior snippet = Spliced lo hi m').
Proof.
  intros m n p generated last prior snippet F D N. destruct (find_node _ _ _ F) as [a [l [S [Da _]]]]. split.
  - unfold splice_into_source. rewrite rev_app_distr. cbn [rev app]. rewrite D, F, (locate_spec _ _ _ _ _ _ S Da). eauto.
  - unfold splice_repl. destruct snippet; [congruence|]. rewrite F. cbv zeta. rewrite (locate_spec _ _ _ _ _ _ S Da). eauto.
Qed.
