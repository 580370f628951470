From Coq Require Import String List Bool Arith ZArith Lia.
From Verif Require Import IdxModel IdxSpec.
Import ListNotations.
Open Scope list_scope.

Lemma mem_In i s : mem i s = true <-> In i s.
Proof.
  unfold mem. rewrite existsb_exists. split.
  - intros (x & Hx & E). apply Z.eqb_eq in E. subst. exact Hx.
  - intros H. exists i. split; [exact H|apply Z.eqb_refl].
Qed.

Lemma set_of_In vs i : In i (set_of vs) <-> In i vs.
Proof.
  induction vs as [|v r IH]; cbn [set_of]; [reflexivity|]. destruct (mem v r) eqn:E; cbn [In]; rewrite IH; [|reflexivity].
  apply mem_In in E. split; [auto|]. intros [<-|H]; assumption.
Qed.

Lemma set_of_NoDup vs : NoDup (set_of vs).
Proof.
  induction vs as [|v r IH]; cbn [set_of]; [constructor|]. destruct (mem v r) eqn:E; [exact IH|]. constructor; [|exact IH].
  rewrite set_of_In. intros H. apply mem_In in H. congruence.
Qed.

Lemma get_In {A} (d : list (string * A)) k v : get d k = Some v -> In (k, v) d.
Proof.
  induction d as [|[x w] d IH]; cbn [get]; [discriminate|]. destruct (String.eqb x k) eqn:E; intros H.
  - apply String.eqb_eq in E. inversion H; subst. left. reflexivity.
  - right. apply IH. exact H.
Qed.

Lemma In_get {A} (d : list (string * A)) k v : NoDup (keys d) -> In (k, v) d -> get d k = Some v.
Proof.
  induction d as [|[x w] d IH]; cbn [get keys map fst]; intros Hn H; [destruct H|]. inversion Hn as [|? ? Hx Hn']; subst.
  destruct H as [H|H].
  - inversion H; subst. rewrite String.eqb_refl. reflexivity.
  - destruct (String.eqb x k) eqn:E; [|apply IH; assumption]. apply String.eqb_eq in E. subst. exfalso. apply Hx. apply in_map_iff. exists (k, v). auto.
Qed.

Lemma get_key {A} (d : list (string * A)) k : In k (keys d) <-> exists v, get d k = Some v.
Proof.
  induction d as [|[x w] d IH]; cbn [get keys map fst In].
  - split; [intros []|intros [v H]; discriminate H].
  - destruct (String.eqb x k) eqn:E.
    + apply String.eqb_eq in E. split; [eauto|auto].
    + apply String.eqb_neq in E. fold (keys d). rewrite IH. split; [intros [H|H]; [contradiction|exact H]|auto].
Qed.

Definition kept (mapping : list (string * arg)) : indexset :=
  flat_map (fun kv => match indexes (snd kv) with [] => [] | s => [(fst kv, s)] end) mapping.

Lemma kept_In mapping k s : In (k, s) (kept mapping) <-> exists v, In (k, v) mapping /\ s = indexes v /\ s <> [].
Proof.
  unfold kept. rewrite in_flat_map. split.
  - intros ([k' v] & Hi & H). cbn [fst snd] in H. destruct (indexes v) as [|z r] eqn:E; [destruct H|]. destruct H as [H|[]]. inversion H; subst. exists v. split; [exact Hi|]. split; [symmetry; exact E|discriminate].
  - intros (v & Hi & -> & Hn). exists (k, v). split; [exact Hi|]. cbn [fst snd]. destruct (indexes v); [contradiction|left; reflexivity].
Qed.

Lemma kept_keys mapping : NoDup (keys mapping) -> NoDup (keys (kept mapping)).
Proof.
  induction mapping as [|[k v] m IH]; cbn [keys map fst]; intros Hn; [constructor|]. inversion Hn as [|? ? Hx Hn']; subst.
  unfold kept. cbn [flat_map fst snd]. destruct (indexes v) as [|z r]; [apply IH; exact Hn'|]. cbn [app map fst keys]. constructor; [|apply IH; exact Hn'].
  intros Hk. apply Hx. apply in_map_iff in Hk. destruct Hk as ([k' s] & E & Hk). cbn in E. subst k'. apply kept_In in Hk. destruct Hk as (w & Hw & _). apply in_map_iff. exists (k, w). auto.
Qed.

Lemma make_ok mapping a : make mapping = Ok a -> a = kept mapping /\ ~ In "self"%string (keys mapping).
Proof.
  unfold make. destruct (existsb (String.eqb "self") (keys mapping)) eqn:E; [discriminate|]. intros H. inversion H. split; [reflexivity|].
  intros Hi. rewrite (proj2 (existsb_exists _ _)) in E; [discriminate E|]. exists "self"%string. split; [exact Hi|reflexivity].
Qed.

Lemma indexes_NoDup v : NoDup (indexes v).
Proof. destruct v; cbn; [constructor; [intros []|constructor]|apply set_of_NoDup]. Qed.

(** Well-formed index sets are the ones the constructor makes. *)
Definition wf (a : indexset) : Prop :=
  NoDup (keys a) /\ ~ In "self"%string (keys a) /\ (forall k s, get a k = Some s -> s <> [] /\ NoDup s).

Lemma made_wf a : made a -> wf a.
Proof.
  intros (m & Hn & E). apply make_ok in E. destruct E as [-> Hs]. split; [apply kept_keys; exact Hn|]. split.
  - intros H. apply Hs. apply in_map_iff in H. destruct H as ([k s] & E & H). cbn in E. subst. apply kept_In in H. destruct H as (v & H & _). apply in_map_iff. exists ("self"%string, v). auto.
  - intros k s H. apply get_In in H. apply kept_In in H. destruct H as (v & _ & -> & H). split; [exact H|apply indexes_NoDup].
Qed.

Lemma elem_has a k i : elem a k i -> has a k.
Proof. intros (s & H & _). exists s. exact H. Qed.

Lemma has_elem a k : made a -> has a k -> exists i, elem a k i.
Proof.
  intros Hm [s Hs]. destruct (made_wf _ Hm) as (_ & _ & H). destruct (H k s Hs) as [Hne _]. destruct s as [|i s]; [contradiction|].
  exists i, (i :: s). split; [exact Hs|left; reflexivity].
Qed.

Lemma make_elem mapping a : NoDup (keys mapping) -> make mapping = Ok a ->
  forall k, has a k <-> (exists v, In (k, v) mapping /\ exists i, In i (indexes v)).
Proof.
  intros Hn E k. apply make_ok in E. destruct E as [-> _]. split.
  - intros [s Hs]. apply get_In, kept_In in Hs. destruct Hs as (v & Hv & -> & Hne). exists v. split; [exact Hv|]. destruct (indexes v) as [|i r]; [contradiction|]. exists i. left. reflexivity.
  - intros (v & Hv & i & Hi). exists (indexes v). apply In_get; [apply kept_keys; exact Hn|]. apply kept_In. exists v. split; [exact Hv|]. split; [reflexivity|]. intros H. rewrite H in Hi. exact Hi.
Qed.

Lemma make_elem2 mapping a : NoDup (keys mapping) -> make mapping = Ok a ->
  forall k i, elem a k i <-> (exists v, In (k, v) mapping /\ In i (indexes v)).
Proof.
  intros Hn E k i. apply make_ok in E. destruct E as [-> _]. split.
  - intros (s & Hs & Hi). apply get_In, kept_In in Hs. destruct Hs as (v & Hv & -> & Hne). exists v. auto.
  - intros (v & Hv & Hi). exists (indexes v). split; [|exact Hi]. apply In_get; [apply kept_keys; exact Hn|]. apply kept_In. exists v. split; [exact Hv|]. split; [reflexivity|]. intros H. rewrite H in Hi. exact Hi.
Qed.

Lemma keys_map (f : string -> arg) l : keys (map (fun k => (k, f k)) l) = l.
Proof. unfold keys. rewrite map_map. cbn. apply map_id. Qed.

Lemma selected_In l k i : In i (zunion (selected l k)) <-> exists a, In a l /\ elem a k i.
Proof.
  unfold zunion. rewrite set_of_In, in_concat. unfold selected. split.
  - intros (s & Hs & Hi). apply in_flat_map in Hs. destruct Hs as (a & Ha & Hs). exists a. split; [exact Ha|]. destruct (get a k) as [s'|] eqn:E; [|destruct Hs]. destruct Hs as [<-|[]]. exists s'. auto.
  - intros (a & Ha & s & Hs & Hi). exists s. split; [|exact Hi]. apply in_flat_map. exists a. split; [exact Ha|]. rewrite Hs. left. reflexivity.
Qed.

Section U.
Variable order : list string -> list string.
Hypothesis Ho : iterates order.

Theorem union_members l : l <> [] -> (forall a, In a l -> made a) ->
  exists r, union order l = Ok r /\ made r /\
    (forall k, has r k <-> exists a, In a l /\ has a k) /\
    (forall k i, elem r k i <-> exists a, In a l /\ elem a k i) /\
    (forall k s, get r k = Some s -> s <> []).
Proof.
  intros Hne Hm. unfold union. destruct l as [|a0 l0] eqn:El; [contradiction|]. rewrite <- El in *. clear El.
  set (ks := order (concat (map keys l))). set (m := map (fun k => (k, AIter (zunion (selected l k)))) ks).
  assert (Hks : NoDup ks /\ forall k, In k ks <-> exists a, In a l /\ has a k).
  { destruct (Ho (concat (map keys l))) as [H1 H2]. split; [exact H1|]. intros k. unfold ks. rewrite H2, in_concat. split.
    - intros (x & Hx & Hk). apply in_map_iff in Hx. destruct Hx as (a & <- & Ha). exists a. split; [exact Ha|]. apply get_key. exact Hk.
    - intros (a & Ha & Hk). exists (keys a). split; [apply in_map; exact Ha|]. apply get_key. exact Hk. }
  destruct Hks as [Hks1 Hks2].
  assert (Hkm : keys m = ks) by apply keys_map.
  assert (Hself : ~ In "self"%string ks).
  { intros H. apply Hks2 in H. destruct H as (a & Ha & Hk). destruct (made_wf a (Hm a Ha)) as (_ & Hs & _). apply Hs. apply get_key. exact Hk. }
  assert (Hok : make m = Ok (kept m)).
  { unfold make. rewrite Hkm. destruct (existsb (String.eqb "self") ks) eqn:E; [|reflexivity]. exfalso. apply existsb_exists in E.
    destruct E as (x & Hx & E). apply String.eqb_eq in E. subst x. apply Hself. exact Hx. }
  assert (Hnd : NoDup (keys m)) by (rewrite Hkm; exact Hks1).
  exists (kept m). split; [exact Hok|]. assert (Hmade : made (kept m)) by (exists m; auto). split; [exact Hmade|].
  assert (Hin : forall k v, In (k, v) m <-> In k ks /\ v = AIter (zunion (selected l k))).
  { intros k v. unfold m. rewrite in_map_iff. split.
    - intros (x & E & Hx). inversion E; subst. auto.
    - intros [Hk ->]. exists k. auto. }
  assert (He : forall k i, elem (kept m) k i <-> exists a, In a l /\ elem a k i).
  { intros k i. rewrite (make_elem2 m _ Hnd Hok). split.
    - intros (v & Hv & Hi). apply Hin in Hv. destruct Hv as [_ ->]. cbn [indexes] in Hi. rewrite set_of_In in Hi. apply selected_In. exact Hi.
    - intros H. exists (AIter (zunion (selected l k))). split.
      + apply Hin. split; [|reflexivity]. apply Hks2. destruct H as (a & Ha & Hi). exists a. split; [exact Ha|]. eapply elem_has; exact Hi.
      + cbn [indexes]. rewrite set_of_In. apply selected_In. exact H. }
  split; [|split; [exact He|]].
  - intros k. split.
    + intros H. destruct (has_elem _ _ Hmade H) as [i Hi]. apply He in Hi. destruct Hi as (a & Ha & Hi). exists a. split; [exact Ha|]. eapply elem_has; exact Hi.
    + intros (a & Ha & H). destruct (has_elem _ _ (Hm a Ha) H) as [i Hi]. eapply elem_has. apply He. exists a. eauto.
  - intros k s H. destruct (made_wf _ Hmade) as (_ & _ & W). exact (proj1 (W k s H)).
Qed.

Lemma union_ok l r : (forall a, In a l -> made a) -> union order l = Ok r ->
  made r /\ (forall k, has r k <-> exists a, In a l /\ has a k) /\ (forall k i, elem r k i <-> exists a, In a l /\ elem a k i).
Proof.
  intros Hm E. destruct l as [|a l]; [discriminate E|]. destruct (union_members (a :: l)) as (r' & E' & H1 & H2 & H3 & _); [discriminate|exact Hm|].
  rewrite E in E'. inversion E'; subst. auto.
Qed.

Lemma same_intro a b (P : string -> Prop) (Q : string -> Z -> Prop) :
  (forall k, has a k <-> P k) -> (forall k i, elem a k i <-> Q k i) ->
  (forall k, has b k <-> P k) -> (forall k i, elem b k i <-> Q k i) -> same a b.
Proof. intros H1 H2 H3 H4. split; intros; [rewrite H1, H3|rewrite H2, H4]; reflexivity. Qed.

Lemma made2 a b : made a -> made b -> forall x, In x [a; b] -> made x.
Proof. intros Ha Hb x [<-|[<-|[]]]; assumption. Qed.

Ltac ex2 := split; [intros (x & Hx & Hy); cbn in Hx; intuition (subst; eauto)|].

Lemma in2 {P : indexset -> Prop} a b : (exists x, In x [a; b] /\ P x) <-> P a \/ P b.
Proof.
  split.
  - intros (x & [<-|[<-|[]]] & H); auto.
  - intros [H|H]; [exists a|exists b]; cbn; auto.
Qed.

Lemma union2 a b r : made a -> made b -> union order [a; b] = Ok r ->
  made r /\ (forall k, has r k <-> has a k \/ has b k) /\ (forall k i, elem r k i <-> elem a k i \/ elem b k i).
Proof.
  intros Ha Hb E. destruct (union_ok _ _ (made2 _ _ Ha Hb) E) as (H1 & H2 & H3). split; [exact H1|]. split; intros.
  - rewrite H2. apply (in2 (P := fun x => has x k)).
  - rewrite H3. apply (in2 (P := fun x => elem x k i)).
Qed.

Theorem union_laws a b c : made a -> made b -> made c ->
  exists ab ba bc aa x y z,
    union order [a; b] = Ok ab /\ union order [b; a] = Ok ba /\ union order [b; c] = Ok bc /\ union order [a; a] = Ok aa /\
    union order [a; bc] = Ok x /\ union order [ab; c] = Ok y /\ union order [a; ab] = Ok z /\
    same x y /\ same ab ba /\ same aa a /\ same z ab.
Proof.
  intros Ha Hb Hc.
  assert (U : forall p q, made p -> made q -> exists r, union order [p; q] = Ok r /\ made r /\
     (forall k, has r k <-> has p k \/ has q k) /\ (forall k i, elem r k i <-> elem p k i \/ elem q k i)).
  { intros p q Hp Hq. destruct (union_members [p; q]) as (r & E & _); [discriminate|apply made2; assumption|]. exists r. split; [exact E|]. apply union2; assumption. }
  destruct (U a b Ha Hb) as (ab & Eab & Mab & Hab1 & Hab2).
  destruct (U b a Hb Ha) as (ba & Eba & Mba & Hba1 & Hba2).
  destruct (U b c Hb Hc) as (bc & Ebc & Mbc & Hbc1 & Hbc2).
  destruct (U a a Ha Ha) as (aa & Eaa & Maa & Haa1 & Haa2).
  destruct (U a bc Ha Mbc) as (x & Ex & Mx & Hx1 & Hx2).
  destruct (U ab c Mab Hc) as (y & Ey & My & Hy1 & Hy2).
  destruct (U a ab Ha Mab) as (z & Ez & Mz & Hz1 & Hz2).
  exists ab, ba, bc, aa, x, y, z. do 7 (split; [assumption|]). unfold same.
  split; [|split; [|split]]; (split; [intros k|intros k i]).
  - rewrite Hx1, Hbc1, Hy1, Hab1. tauto.
  - rewrite Hx2, Hbc2, Hy2, Hab2. tauto.
  - rewrite Hab1, Hba1. tauto.
  - rewrite Hab2, Hba2. tauto.
  - rewrite Haa1. tauto.
  - rewrite Haa2. tauto.
  - rewrite Hz1, Hab1. tauto.
  - rewrite Hz2, Hab2. tauto.
Qed.

Theorem union_nary a b l : (forall x, In x (a :: b :: l) -> made x) ->
  exists n u r, union order (a :: b :: l) = Ok n /\ union order (b :: l) = Ok u /\ union order [a; u] = Ok r /\ same n r.
Proof.
  intros Hm. destruct (union_members (a :: b :: l)) as (n & En & Mn & Hn1 & Hn2 & _); [discriminate|exact Hm|].
  destruct (union_members (b :: l)) as (u & Eu & Mu & Hu1 & Hu2 & _); [discriminate|intros x Hx; apply Hm; right; exact Hx|].
  assert (Ma : made a) by (apply Hm; left; reflexivity).
  destruct (union_members [a; u]) as (r & Er & _); [discriminate|apply made2; assumption|].
  destruct (union2 _ _ _ Ma Mu Er) as (Mr & Hr1 & Hr2).
  exists n, u, r. do 3 (split; [assumption|]). split; [intros k|intros k i].
  - rewrite Hn1, Hr1, Hu1. split.
    + intros (x & [<-|Hx] & H); [auto|]. right. exists x. auto.
    + intros [H|(x & Hx & H)]; [exists a|exists x]; split; auto; [left; reflexivity|right; exact Hx].
  - rewrite Hn2, Hr2, Hu2. split.
    + intros (x & [<-|Hx] & H); [auto|]. right. exists x. auto.
    + intros [H|(x & Hx & H)]; [exists a|exists x]; split; auto; [left; reflexivity|right; exact Hx].
Qed.

Theorem union_single a : made a -> exists r, union order [a] = Ok r /\ same r a.
Proof.
  intros Ha. destruct (union_members [a]) as (r & Er & _ & H1 & H2 & _); [discriminate|intros x [<-|[]]; exact Ha|].
  exists r. split; [exact Er|]. split; [intros k; rewrite H1|intros k i; rewrite H2]; split; try (intros (x & [<-|[]] & H); exact H); intros H; exists a; split; auto; left; reflexivity.
Qed.
End U.

(** The constructor. *)
Theorem make_members mapping : NoDup (keys mapping) -> ~ In "self"%string (keys mapping) ->
  exists a, make mapping = Ok a /\ (forall k s, get a k = Some s -> s <> [] /\ NoDup s) /\
    forall k i, elem a k i <-> In (k, AInt i) mapping \/ exists l, In (k, AIter l) mapping /\ In i l.
Proof.
  intros Hn Hs. assert (Hok : make mapping = Ok (kept mapping)).
  { unfold make. destruct (existsb (String.eqb "self") (keys mapping)) eqn:E; [|reflexivity]. exfalso. apply existsb_exists in E.
    destruct E as (x & Hx & E). apply String.eqb_eq in E. subst x. apply Hs. exact Hx. }
  exists (kept mapping). split; [exact Hok|]. assert (Hm : made (kept mapping)) by (exists mapping; auto).
  split; [exact (proj2 (proj2 (made_wf _ Hm)))|]. intros k i. rewrite (make_elem2 _ _ Hn Hok). split.
  - intros (v & Hv & Hi). destruct v as [z|l]; cbn [indexes] in Hi.
    + destruct Hi as [<-|[]]. left. exact Hv.
    + right. exists l. rewrite set_of_In in Hi. auto.
  - intros [H|(l & H & Hi)]; [exists (AInt i)|exists (AIter l)]; (split; [exact H|]); cbn [indexes]; [left; reflexivity|]. rewrite set_of_In. exact Hi.
Qed.

(** ** cond_n *)

Lemma bshape_rev_cons p q a b : bshape_rev (p :: a) (q :: b) = match dim2 p q, bshape_rev a b with Some d, Some r => Some (d :: r) | _, _ => None end.
Proof. reflexivity. Qed.

Lemma bshape_rev_ones s r : bshape_rev (repeat 1 (length s) ++ r) s = Some (s ++ r).
Proof.
  induction s as [|d s IH]; cbn [length repeat app]; [destruct r; reflexivity|]. rewrite bshape_rev_cons, IH.
  unfold dim2. destruct (Nat.eqb 1 d) eqn:E; [apply Nat.eqb_eq in E; subst; reflexivity|reflexivity].
Qed.

Lemma bshape_rev_ones2 s r : bshape_rev (repeat 1 (length s) ++ r) (s ++ r) = Some (s ++ r).
Proof.
  induction s as [|d s IH]; cbn [length repeat app].
  - induction r as [|x r IH]; [reflexivity|]. rewrite bshape_rev_cons, IH. unfold dim2. rewrite Nat.eqb_refl. reflexivity.
  - rewrite bshape_rev_cons, IH. unfold dim2. destruct (Nat.eqb 1 d) eqn:E; [apply Nat.eqb_eq in E; subst; reflexivity|reflexivity].
Qed.

Lemma bshape_rev_pre s r : bshape_rev s (s ++ r) = Some (s ++ r).
Proof.
  induction s as [|d s IH]; cbn [app]; [reflexivity|]. rewrite bshape_rev_cons, IH. unfold dim2. rewrite Nat.eqb_refl. reflexivity.
Qed.

Lemma bshape_rev_same s : bshape_rev s s = Some s.
Proof. rewrite <- (app_nil_r s) at 2. rewrite bshape_rev_pre. rewrite app_nil_r. reflexivity. Qed.

Lemma rev_repeat1 n : rev (repeat 1 n) = repeat 1 n.
Proof. induction n as [|n IH]; [reflexivity|]. cbn [repeat rev]. rewrite IH. clear. induction n as [|n IH]; [reflexivity|]. cbn [repeat app]. rewrite IH. reflexivity. Qed.

Lemma squash_app sh sh' i i' : length sh = length i -> squash (sh ++ sh') (i ++ i') = squash sh i ++ squash sh' i'.
Proof. revert i. induction sh as [|d sh IH]; intros [|x i] H; try discriminate H; cbn [squash app]; [reflexivity|]. inversion H. rewrite IH; auto. Qed.

(** Index tuples within a shape. *)
Inductive within : list nat -> list nat -> Prop :=
| within_nil : within [] []
| within_cons d sh i idx : i < d -> within sh idx -> within (d :: sh) (i :: idx).

Lemma within_length sh i : within sh i -> length sh = length i.
Proof. induction 1; cbn; congruence. Qed.

Lemma squash_within sh i : within sh i -> squash sh i = i.
Proof.
  induction 1 as [|d sh i idx H W IH]; cbn [squash]; [reflexivity|]. rewrite IH. destruct (Nat.eqb d 1) eqn:E; [|reflexivity]. apply Nat.eqb_eq in E. f_equal. lia.
Qed.

Lemma skipn_all_app {A} (b i : list A) n : n = length b -> skipn n (b ++ i) = i.
Proof. intros ->. rewrite skipn_app, skipn_all, Nat.sub_diag. reflexivity. Qed.

Section C.
Variable V : Type.

(** [cond] on a case of shape [S] and arrays with the same last axes *)
Lemma cond_spec (f s : arr V) (c : arr bool) S sh :
  shape c = S -> shape s = sh -> shape f = sh \/ shape f = S ++ sh ->
  exists r, cond f s c = Some r /\ shape r = S ++ sh /\
    forall b i, within S b -> within sh i -> at_ r (b ++ i) = if at_ c b then at_ s i else at_ f (if Nat.eqb (length (shape f)) (length sh) then i else b ++ i).
Proof.
  intros Hc Hs Hf. unfold cond, where_, bshape. rewrite Hs.
  assert (L : Nat.min (length sh) (length (shape f)) = length sh).
  { destruct Hf as [->| ->]; [|rewrite app_length]; lia. }
  rewrite L. cbn [unsqueeze shape]. rewrite Hc, rev_app_distr, rev_repeat1.
  assert (E1 : bshape_rev (rev sh) (rev (shape f)) = Some (rev (shape f))).
  { destruct Hf as [->| ->]; [apply bshape_rev_same|]. rewrite rev_app_distr. apply bshape_rev_pre. }
  rewrite E1. cbn [option_map]. rewrite rev_involutive.
  assert (E2 : bshape_rev (repeat 1 (length sh) ++ rev S) (rev (shape f)) = Some (rev sh ++ rev S)).
  { rewrite <- (rev_length sh). destruct Hf as [->| ->]; [apply bshape_rev_ones|]. rewrite rev_app_distr. apply bshape_rev_ones2. }
  rewrite E2. cbn [option_map]. rewrite rev_app_distr, !rev_involutive. eexists. split; [reflexivity|]. cbn [shape at_]. split; [reflexivity|].
  intros b i Hb Hi. pose proof (within_length _ _ Hb) as Lb. pose proof (within_length _ _ Hi) as Li.
  unfold bget. cbn [unsqueeze shape at_]. rewrite Hc, Hs, !app_length, repeat_length.
  replace (length b + length i - (length S + length sh)) with 0 by lia. cbn [skipn].
  assert (Ec : firstn (length S) (squash (S ++ repeat 1 (length sh)) (b ++ i)) = b).
  { rewrite squash_app by exact Lb. rewrite (squash_within S b Hb). rewrite Lb, firstn_app, Nat.sub_diag, firstn_all. cbn [firstn]. apply app_nil_r. }
  rewrite Ec. destruct (at_ c b).
  - rewrite skipn_all_app by lia. rewrite squash_within by exact Hi. reflexivity.
  - f_equal. destruct Hf as [->| ->].
    + rewrite Nat.eqb_refl. rewrite skipn_all_app by lia. apply squash_within. exact Hi.
    + rewrite app_length. replace (length b + length i - (length S + length sh)) with 0 by lia. cbn [skipn].
      rewrite squash_app by exact Lb. rewrite (squash_within S b Hb), (squash_within sh i Hi).
      destruct (Nat.eqb (length S + length sh) (length sh)) eqn:E; [|reflexivity]. apply Nat.eqb_eq in E.
      destruct b; [reflexivity|]. cbn in Lb. lia.
Qed.

(** The last value whose (first) indices contain the case; [d] if none. *)
Fixpoint last_match (values : list (indexset * arr V)) (z : Z) (i : list nat) (d : V) : V :=
  match values with
  | [] => d
  | (ix, v) :: rest => last_match rest z i (match ix with (_, s) :: _ => if existsb (Z.eqb z) s then at_ v i else d | [] => d end)
  end.

Lemma cond_loop_spec (values : list (indexset * arr V)) (case : arr Z) S sh : shape case = S ->
  (forall x, In x values -> made (fst x) /\ fst x <> [] /\ shape (snd x) = sh) ->
  forall r0, shape r0 = S ++ sh ->
  exists r, cond_loop values case (Some r0) = Value r /\ shape r = S ++ sh /\
   forall b i, within S b -> within sh i -> at_ r (b ++ i) = last_match values (at_ case b) i (at_ r0 (b ++ i)).
Proof.
  intros HS. induction values as [|[ix v] rest IH]; intros Hv r0 Hr0; cbn [cond_loop]; [eauto|].
  destruct (Hv (ix, v) (or_introl eq_refl)) as (Hm & Hne & Hsh). cbn [fst snd] in *.
  destruct ix as [|[k s] ix]; [contradiction|]. destruct (made_wf _ Hm) as (_ & _ & W). destruct (W k s) as [Hs _]; [cbn; rewrite String.eqb_refl; reflexivity|].
  destruct s as [|z s']; [contradiction|]. set (s := z :: s') in *.
  destruct (cond_spec r0 v (test s case) S sh) as (r1 & E & Hr1 & Ha); [exact HS|exact Hsh|right; exact Hr0|]. rewrite E.
  destruct (IH (fun x Hx => Hv x (or_intror Hx)) r1 Hr1) as (r & Er & Hr & Hat). exists r. split; [exact Er|]. split; [exact Hr|].
  intros b i Hb Hi. rewrite (Hat b i Hb Hi). cbn [last_match]. f_equal. rewrite (Ha b i Hb Hi). cbn [test at_].
  rewrite Hr0. destruct (existsb (fun i0 => (at_ case b =? i0)%Z) s); [reflexivity|]. f_equal. rewrite app_length.
  destruct (Nat.eqb (length S + length sh) (length sh)) eqn:E2; [|reflexivity]. apply Nat.eqb_eq in E2. apply within_length in Hb. destruct b; [reflexivity|]. cbn in Hb. lia.
Qed.

Theorem cond_n_spec ix0 (v0 : arr V) rest (case : arr Z) S sh : shape case = S ->
  (forall x, In x ((ix0, v0) :: rest) -> made (fst x) /\ fst x <> [] /\ shape (snd x) = sh) ->
  exists r, cond_n ((ix0, v0) :: rest) case = Value r /\ shape r = S ++ sh /\
   forall b i, within S b -> within sh i -> at_ r (b ++ i) = last_match ((ix0, v0) :: rest) (at_ case b) i (at_ v0 i).
Proof.
  intros HS Hv. unfold cond_n. cbn [cond_loop]. destruct (Hv (ix0, v0) (or_introl eq_refl)) as (Hm & Hne & Hsh). cbn [fst snd] in *.
  destruct ix0 as [|[k s] ix]; [contradiction|]. destruct (made_wf _ Hm) as (_ & _ & W). destruct (W k s) as [Hs _]; [cbn; rewrite String.eqb_refl; reflexivity|].
  destruct s as [|z s']; [contradiction|]. set (s := z :: s') in *.
  destruct (cond_spec v0 v0 (test s case) S sh) as (r1 & E & Hr1 & Ha); [exact HS|exact Hsh|left; exact Hsh|]. rewrite E.
  destruct (cond_loop_spec rest case S sh HS (fun x Hx => Hv x (or_intror Hx)) r1 Hr1) as (r & Er & Hr & Hat). exists r. split; [exact Er|]. split; [exact Hr|].
  intros b i Hb Hi. rewrite (Hat b i Hb Hi). cbn [last_match]. f_equal. rewrite (Ha b i Hb Hi). rewrite Hsh, Nat.eqb_refl. reflexivity.
Qed.

Lemma first_dec ix z : first_indices ix z <-> match ix with (_, s) :: _ => existsb (Z.eqb z) s = true | [] => False end.
Proof.
  unfold first_indices. destruct ix as [|[k s] r]; [split; [intros (k0 & s0 & r0 & E & _); discriminate E|intros []]|]. split.
  - intros (k' & s' & r' & E & H). inversion E; subst. apply mem_In. exact H.
  - intros H. exists k, s, r. split; [reflexivity|]. apply mem_In. exact H.
Qed.

Lemma last_none values z i d : (forall x, In x values -> ~ first_indices (fst x) z) -> last_match values z i d = d.
Proof.
  revert d. induction values as [|[ix v] rest IH]; intros d H; cbn [last_match]; [reflexivity|].
  pose proof (H (ix, v) (or_introl eq_refl)) as H0. rewrite first_dec in H0. cbn [fst] in H0. rewrite IH by (intros x Hx; apply H; right; exact Hx).
  destruct ix as [|[k s] r]; [reflexivity|]. destruct (existsb (Z.eqb z) s); [exfalso; apply H0; reflexivity|reflexivity].
Qed.

Lemma last_some l1 ix v l2 z i d : first_indices ix z -> (forall x, In x l2 -> ~ first_indices (fst x) z) -> last_match (l1 ++ (ix, v) :: l2) z i d = at_ v i.
Proof.
  intros Hf H2. revert d. induction l1 as [|[ix' v'] l1 IH]; intros d; cbn [app last_match].
  - rewrite last_none by exact H2. rewrite first_dec in Hf. destruct ix as [|[k s] r]; [destruct Hf|]. rewrite Hf. reflexivity.
  - apply IH.
Qed.

(** Exactly: the last value whose indices contain the case, or the first value. *)
Theorem cond_n_exact (values : list (indexset * arr V)) (case : arr Z) sh : values <> [] ->
  (forall x, In x values -> made (fst x) /\ fst x <> [] /\ shape (snd x) = sh) ->
  exists r, cond_n values case = Value r /\ shape r = shape case ++ sh /\
   forall b i, within (shape case) b -> within sh i ->
    (exists l1 ix v l2, values = l1 ++ (ix, v) :: l2 /\ first_indices ix (at_ case b) /\
       (forall x, In x l2 -> ~ first_indices (fst x) (at_ case b)) /\ at_ r (b ++ i) = at_ v i) \/
    ((forall x, In x values -> ~ first_indices (fst x) (at_ case b)) /\
       exists ix0 v0 rest, values = (ix0, v0) :: rest /\ at_ r (b ++ i) = at_ v0 i).
Proof.
  intros Hne Hv. destruct values as [|[ix0 v0] rest]; [contradiction|].
  destruct (cond_n_spec ix0 v0 rest case (shape case) sh eq_refl Hv) as (r & E & Hr & Hat). exists r. split; [exact E|]. split; [exact Hr|].
  intros b i Hb Hi. specialize (Hat b i Hb Hi).
  assert (D : forall l : list (indexset * arr V), (exists l1 ix v l2, l = l1 ++ (ix, v) :: l2 /\ first_indices ix (at_ case b) /\ (forall x, In x l2 -> ~ first_indices (fst x) (at_ case b))) \/ (forall x, In x l -> ~ first_indices (fst x) (at_ case b))).
  { induction l as [|[ix v] l IH]; [right; intros x []|]. destruct IH as [(l1 & ix' & v' & l2 & -> & H1 & H2)|IH].
    - left. exists ((ix, v) :: l1), ix', v', l2. auto.
    - assert (Dx : first_indices ix (at_ case b) \/ ~ first_indices ix (at_ case b)).
      { rewrite first_dec. destruct ix as [|[k s] q]; [right; intros []|]. destruct (existsb (Z.eqb (at_ case b)) s); [left; reflexivity|right; discriminate]. }
      destruct Dx as [Dx|Dx]; [left; exists [], ix, v, l; auto|right]. intros x [<-|Hx]; [exact Dx|apply IH; exact Hx]. }
  destruct (D ((ix0, v0) :: rest)) as [(l1 & ix & v & l2 & El & H1 & H2)|H].
  - left. exists l1, ix, v, l2. split; [exact El|]. split; [exact H1|]. split; [exact H2|]. rewrite Hat, El. apply last_some; assumption.
  - right. split; [exact H|]. exists ix0, v0, rest. split; [reflexivity|]. rewrite Hat. apply last_none. exact H.
Qed.

Theorem cond_n_unique (values : list (indexset * arr V)) (case : arr Z) sh ix v b :
  (forall x, In x values -> made (fst x) /\ fst x <> [] /\ shape (snd x) = sh) ->
  In (ix, v) values -> within (shape case) b ->
  (forall x k s, In x values -> get (fst x) k = Some s -> fst x = [(k, s)]) ->
  (exists k, elem ix k (at_ case b)) ->
  (forall x, In x values -> (exists k, elem (fst x) k (at_ case b)) -> x = (ix, v)) ->
  exists r, cond_n values case = Value r /\ forall i, within sh i -> at_ r (b ++ i) = at_ v i.
Proof.
  intros Hv Hin Hb H1 Hc Hu. destruct (cond_n_exact values case sh) as (r & E & _ & Hat); [intros ->; destruct Hin|exact Hv|].
  exists r. split; [exact E|]. intros i Hi.
  assert (F : forall x, In x values -> first_indices (fst x) (at_ case b) <-> exists k, elem (fst x) k (at_ case b)).
  { intros x Hx. destruct (Hv x Hx) as (Hm & Hne & _). split.
    - intros (k & s & r' & Ex & Hi'). exists k, s. split; [|exact Hi']. rewrite Ex. cbn. rewrite String.eqb_refl. reflexivity.
    - intros (k & s & Hg & Hi'). exists k, s, []. split; [apply H1; assumption|exact Hi']. }
  destruct (Hat b i Hb Hi) as [(l1 & ix' & v' & l2 & -> & Hf & _ & ->)|[Hn _]].
  - assert (Hx : In (ix', v') (l1 ++ (ix', v') :: l2)) by (apply in_or_app; right; left; reflexivity).
    pose proof (Hu _ Hx (proj1 (F _ Hx) Hf)) as Eq. inversion Eq; subst. reflexivity.
  - exfalso. exact (Hn _ Hin (proj2 (F _ Hin) Hc)).
Qed.
End C.
