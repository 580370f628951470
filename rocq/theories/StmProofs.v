From Coq Require Import String List Bool Arith ZArith Lia.
From Verif Require Import TermModel TermSpec TermProofs TermScopes TermData TermEval TermSubst TermUser StmModel StmSpec.
Import ListNotations.
Local Open Scope list_scope.

Section Ind.
Variable P : expr -> Prop.
Hypothesis HC : forall z, P (EConst z).
Hypothesis HO : forall o, P (EOp o).
Hypothesis HT : forall o a k, P (ETerm o a k).
Hypothesis HL : forall c l, Forall P l -> P (EColl c l).
Fixpoint coll_ind (e : expr) : P e :=
  match e with
  | EConst z => HC z | EOp o => HO o | ETerm o a k => HT o a k
  | EColl c l => HL c l ((fix go l := match l return Forall P l with [] => Forall_nil P | x :: r => Forall_cons x (coll_ind x) (go r) end) l)
  end.
End Ind.

Lemma extract_holds v : forall e, In v (extract e) <-> holds v e.
Proof.
  induction e as [z|o|o a k|c l F] using coll_ind; cbn.
  - split; [intros []|intros H; inversion H].
  - split; [intros [->|[]]; constructor|intros H; inversion H; now left].
  - split; [intros []|intros H; inversion H].
  - assert (X : In v (flat_map extract l) <-> exists e, In e l /\ holds v e).
    { rewrite in_flat_map. rewrite Forall_forall in F. split; intros (e & I & H); exists e; (split; [exact I|]); now apply F. }
    split.
    + intros H. destruct c; cbn [extracts] in H; try destruct H; apply X in H; destruct H as (e & I & H); apply ho_coll with e; cbn; auto.
    + intros H. inversion H as [|c' l' e Hc Hi He]; subst. assert (Y : extracts c = true) by (cbn in Hc; destruct Hc as [<-|[<-|[<-|[<-|[]]]]]; reflexivity).
      rewrite Y. apply X. eauto.
Qed.
Lemma memo_in x l : existsb (op_eqb x) l = true <-> In x l.
Proof.
  rewrite existsb_exists. split.
  - intros (y & I & E). apply op_eqb_eq in E. now subst.
  - intros I. exists x. split; [exact I|]. now apply op_eqb_eq.
Qed.
Lemma nobody {A} (l : list A) : existsb (fun _ => false) l = false.
Proof. induction l; [reflexivity|assumption]. Qed.

Theorem stream_exact : forall body s,
  (exists v, holds v body /\ holds v s) /\ fvs_rule stream_sig [body; s] [] = Err EAssert \/
  ~ (exists v, holds v body /\ holds v s) /\ exists B S, fvs_rule stream_sig [body; s] [] = Ok ([B; S], []) /\
    (forall v, In v B <-> holds v body \/ holds v s) /\ (forall v, In v S <-> holds v s).
Proof.
  intros body s. unfold fvs_rule. cbn. rewrite !nobody.
  destruct (existsb (fun x => existsb (op_eqb x) (nodup op_eq_dec (extract body))) (nodup op_eq_dec (extract s))) eqn:E.
  - left. split; [|reflexivity]. apply existsb_exists in E. destruct E as (v & I & M). apply memo_in in M. apply nodup_In in I, M. exists v. split; now apply extract_holds.
  - right. split.
    + intros (v & H1 & H2). apply extract_holds in H1, H2. assert (X : existsb (fun x => existsb (op_eqb x) (nodup op_eq_dec (extract body))) (nodup op_eq_dec (extract s)) = true); [|congruence].
      apply existsb_exists. exists v. split; [now apply nodup_In|]. apply memo_in. now apply nodup_In.
    + do 2 eexists. split; [reflexivity|]. split; intros v; rewrite ?in_app_iff, ?nodup_In, ?extract_holds; tauto.
Qed.

Lemma holds_streams bs v : (forall b w, In b bs -> ~ holds w (snd b)) -> holds v (streams_of bs) <-> In v (map fst bs).
Proof.
  intros N. split.
  - intros H. inversion H as [|c l e Hc Hi He]; subst. apply in_map_iff in Hi. destruct Hi as (b & <- & Hb). inversion He as [|c l e Hc' Hi He']; subst.
    destruct Hi as [<-|[<-|[]]]; [inversion He'; subst; now apply in_map|]. destruct (N b v Hb He').
  - intros H. apply in_map_iff in H. destruct H as (b & <- & Hb). apply ho_coll with (EColl KTuple [EOp (fst b); snd b]); [cbn; auto|apply in_map_iff; eauto|].
    apply ho_coll with (EOp (fst b)); [cbn; auto|now left|constructor].
Qed.
Theorem stream_binds : forall body bs, (forall w, ~ holds w body) -> (forall b w, In b bs -> ~ holds w (snd b)) ->
  exists B S, fvs_rule stream_sig [body; streams_of bs] [] = Ok ([B; S], []) /\
    (forall v, In v B <-> In v (map fst bs)) /\ (forall v, In v S <-> In v (map fst bs)).
Proof.
  intros body bs Nb Nv. destruct (stream_exact body (streams_of bs)) as [((v & H & _) & _)|(_ & B & S & E & HB & HS)]; [destruct (Nb v H)|].
  exists B, S. split; [exact E|]. split; intros v; [rewrite HB|rewrite HS]; rewrite (holds_streams bs v Nv); [|tauto]. split; [intros [H|H]; [destruct (Nb v H)|exact H]|tauto].
Qed.

Theorem stream_free : forall sigs, (forall b, wf_sig (sigs b)) -> forall o, sigs (base o) = stream_sig -> forall body bs n t n',
  (forall w, ~ holds w body) -> (forall b w, In b bs -> ~ holds w (snd b)) ->
  walkable body = true -> (forall b, In b bs -> walkable (snd b) = true) -> below n body -> below n (streams_of bs) ->
  defdata sigs o [body; streams_of bs] [] n = Ok (t, n') -> forall v,
  In v (fv sigs t) <-> v = o \/ ~ In v (map fst bs) /\ (In v (fv sigs body) \/ exists b, In b bs /\ In v (fv sigs (snd b))).
Proof.
  intros sigs W o So body bs n t n' Nb Nv Wb Wv Bb Bs D v.
  destruct (@construct_fv sigs W o [body; streams_of bs] [] n t n') as (b & Hb & X); [constructor| |exact D|].
  - rewrite So. intros e [He|[He|(p & Hp & Hd)]].
    + cbn in He. destruct He as [<-|[<-|[]]]; split; auto. cbn. rewrite forallb_forall. intros e He. apply in_map_iff in He. destruct He as (b & <- & Hb). cbn. now rewrite (Wv b Hb).
    + destruct He.
    + cbn in Hp. destruct Hp as [<-|[<-|[]]]; discriminate.
  - cbv zeta in X. rewrite So in Hb, X. cbn in Hb. injection Hb as <-. specialize (X v). rewrite X. cbn -[streams_of In]. cbn [In].
    assert (E : forall w, In w (extract (streams_of bs)) <-> In w (map fst bs)) by (intros w; rewrite extract_holds; now apply holds_streams).
    assert (N0 : extract body = []) by (destruct (extract body) as [|w r] eqn:E0; [reflexivity|]; destruct (Nb w); apply extract_holds; rewrite E0; now left).
    assert (G : In v (fv sigs (streams_of bs)) <-> exists b, In b bs /\ In v (fv sigs (snd b))).
    { cbn. rewrite in_flat_map. split.
      - intros (e & He & Hv). apply in_map_iff in He. destruct He as (b & <- & Hb). cbn in Hv. rewrite app_nil_r in Hv. eauto.
      - intros (b & Hb & Hv). exists (EColl KTuple [EOp (fst b); snd b]). split; [apply in_map_iff; eauto|]. cbn. now rewrite app_nil_r. }
    split.
    + intros [->|(q & [<-|[<-|[]]] & H1 & H2)]; [now left| |]; right; cbn [fst snd] in H1, H2; cbn in H2; rewrite ?N0, ?app_nil_r in H2; cbn in H2; fold (streams_of bs) in *.
      * split; [intros I; apply H2; apply E; exact I|now left].
      * split; [intros I; apply H2; apply E; exact I|right; now apply G].
    + intros [->|(H1 & [H2|H2])]; [now left| |]; right.
      * eexists. split; [left; reflexivity|]. split; [exact H2|]. cbn. rewrite N0, ?app_nil_r. cbn. fold (streams_of bs). intros I. apply H1. now apply E.
      * eexists. split; [right; left; reflexivity|]. split; [now apply G|]. cbn. rewrite ?app_nil_r. cbn. fold (streams_of bs). intros I. apply H1. now apply E.
Qed.

Theorem stays : forall sigs h o a k n v n', h o = None -> eval_under sigs h (ETerm o a k) n = Ok (v, n') -> exists a' k', v = ETerm o a' k'.
Proof.
  intros sigs h o a k n v n' Ho H. unfold eval_under in H. cbn [evaluate] in H.
  match type of H with match ?x with _ => _ end = _ => destruct x as [[a' s1]|] end; [|discriminate].
  match type of H with match ?x with _ => _ end = _ => destruct x as [[k' s2]|] end; [|discriminate].
  unfold call_op in H. rewrite Ho in H. unfold defdata in H. destruct (fvs_rule (sig_of sigs o) a' k') as [[Ba Bk]|]; [|discriminate].
  destruct (bind (sig_of sigs o) a' k') as [b|]; [|discriminate].
  destruct (ren_args _ _ Ba) as [a2|]; [|discriminate]. destruct (ren_kwargs _ _ Bk) as [k2|]; [|discriminate]. injection H as <- <-. eauto.
Qed.
