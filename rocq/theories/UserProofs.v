(** Proofs about prompts. *)
From Coq Require Import String List Bool.
From Verif Require Import JsonModel JsonSpec JsonProofs UserModel UserSpec.
Import ListNotations.

(** A state reads as the blocks out and the texts waiting. *)
Definition closed (st : state) (ps : list piece) : Prop :=
  exists done, merged done (snd st) /\ ps = done ++ map PText (fst st).

Lemma merged_block_end : forall ps out v, merged ps out -> merged (ps ++ [PBlock v]) (out ++ [BVal v]).
Proof.
  intros ps out v M. induction M as [|ts rest out NE NS M IH|x rest out M IH].
  - exact (mg_block v [] [] mg_nil).
  - rewrite <- app_assoc. cbn [app]. apply mg_run; [exact NE| |exact IH].
    intros (s & l' & E). destruct rest as [|p rest]; [discriminate E|]. cbn [app] in E. injection E as -> _.
    apply NS. exists s, rest. reflexivity.
  - cbn [app]. apply mg_block. exact IH.
Qed.
Definition ends_in_block (ps : list piece) : Prop := ps = [] \/ exists l v, ps = l ++ [PBlock v].
Lemma ends_app : forall a b, b <> [] -> ends_in_block (a ++ b) -> ends_in_block b.
Proof.
  intros a b NE [E|(l & v & E)].
  - destruct a; [left; exact E|discriminate E].
  - right. destruct (exists_last NE) as (b' & x & ->). rewrite app_assoc in E.
    apply app_inj_tail in E. destruct E as [_ ->]. exists b', v. reflexivity.
Qed.
Lemma merged_text_end : forall ps out ts, merged ps out -> ends_in_block ps -> ts <> [] ->
  merged (ps ++ map PText ts) (out ++ [BText (String.concat "" ts)]).
Proof.
  intros ps out ts M E NE. induction M as [|us rest out NU NS M IH|x rest out M IH].
  - cbn [app]. pose proof (mg_run ts [] [] NE) as R. rewrite app_nil_r in R. apply R; [|exact mg_nil].
    intros (s & l & X). discriminate X.
  - destruct rest as [|p rest].
    + exfalso. rewrite app_nil_r in E. destruct E as [E|(l & v & E)].
      * apply NU. destruct us; [reflexivity|discriminate E].
      * destruct (exists_last NU) as (us' & u & ->). rewrite map_app in E. cbn [map] in E.
        apply app_inj_tail in E. destruct E as [_ E]. discriminate E.
    + rewrite <- app_assoc. cbn [app]. apply mg_run; [exact NU| |].
      * intros (s & l' & X). injection X as -> _. apply NS. exists s, rest. reflexivity.
      * apply IH. apply (ends_app (map PText us)); [discriminate|exact E].
  - cbn [app]. apply mg_block. apply IH. destruct rest as [|p rest]; [left; reflexivity|].
    apply (ends_app [PBlock x] (p :: rest)); [discriminate|exact E].
Qed.

(** The invariant: what is out ends in a block. *)
Definition reads (st : state) (ps : list piece) : Prop :=
  exists done, merged done (snd st) /\ ends_in_block done /\ ps = done ++ map PText (fst st).
Lemma reads_put : forall st ps s, reads st ps -> reads (put s st) (ps ++ [PText s]).
Proof.
  intros [buf out] ps s (d & M & E & ->). exists d. cbn [put fst snd] in *. split; [exact M|]. split; [exact E|].
  rewrite map_app, <- app_assoc. reflexivity.
Qed.
Lemma reads_flush : forall st ps, reads st ps -> merged ps (snd (flush st)).
Proof.
  intros [buf out] ps (d & M & E & ->). cbn [fst snd] in *. destruct buf as [|b buf].
  - cbn [map flush fst snd]. rewrite app_nil_r. exact M.
  - cbn [flush fst snd]. apply merged_text_end; [exact M|exact E|discriminate].
Qed.
Lemma reads_block : forall st ps v, reads st ps ->
  reads (fst (flush st), snd (flush st) ++ [BVal v]) (ps ++ [PBlock v]).
Proof.
  intros st ps v R. pose proof (reads_flush _ _ R) as M. pose proof (text_flush (fun _ => ""%string) st) as [_ F].
  exists (ps ++ [PBlock v]). cbn [fst snd]. rewrite F. cbn [map]. rewrite app_nil_r.
  split; [apply merged_block_end; exact M|]. split; [right; exists ps, v; reflexivity|reflexivity].
Qed.

Section Run.
Variable dumps_scalar : json -> string.
Variable block_types : list string.

Lemma part_spec : forall f b st ps, (forall v, b = BVal v -> exists l, v = JObj l) -> reads st ps ->
  match part f b st with
  | Some st' => exists p, piece_of f b p /\ reads st' (ps ++ [p])
  | None => forall p, ~ piece_of f b p
  end.
Proof.
  intros f b st ps O R.
  assert (T : forall s, text_of b = Some s ->
    match match convert f s with
          | Some s => match format f s with Some s => Some (put s st) | None => None end
          | None => None end with
    | Some st' => exists p, piece_of f b p /\ reads st' (ps ++ [p])
    | None => (forall v, b = BVal v -> typed v = Some (JStr "text")) -> forall p, ~ piece_of f b p
    end).
  { intros s TX. destruct (convert f s) as [s'|] eqn:C.
    - destruct (format f s') as [s''|] eqn:F.
      + exists (PText s''). split; [exact (po_text f b s s' s'' TX C F)|exact (reads_put _ _ _ R)].
      + intros NB p P. destruct P as [b a a' a'' A1 A2 A3|v N]; [congruence|exact (N (NB v eq_refl))].
    - intros NB p P. destruct P as [b a a' a'' A1 A2 A3|v N]; [congruence|exact (N (NB v eq_refl))]. }
  destruct b as [s|v].
  - cbn [part]. specialize (T s eq_refl).
    destruct (match convert f s with Some s => match format f s with Some s => Some (put s st) | None => None end | None => None end);
      [exact T|]. apply T. intros v E. discriminate E.
  - destruct (O v eq_refl) as [l ->]. cbn [part]. cbn [text_of typed] in T.
    assert (BL : typed (JObj l) <> Some (JStr "text") ->
      exists p, piece_of f (BVal (JObj l)) p /\ reads (fst (flush st), snd (flush st) ++ [BVal (JObj l)]) (ps ++ [p])).
    { intro N. exists (PBlock (JObj l)). split; [exact (po_block f _ N)|exact (reads_block _ _ _ R)]. }
    destruct (jget l "type") as [ty|] eqn:TY; [|apply BL; cbn [typed]; rewrite TY; discriminate].
    assert (D : ty = JStr "text" \/ ty <> JStr "text").
    { destruct ty as [| | | |s| |]; try (right; discriminate). destruct (string_dec s "text") as [->|N]; [left; reflexivity|].
      right. congruence. }
    destruct D as [->|N].
    + destruct (jget l "text") as [tx|] eqn:TT.
      * destruct tx as [| | | |s| |];
          try (intros p P; inversion P as [b9 a a' a'' A1 A2 A3|v9 NB]; subst;
               [cbn [text_of typed] in A1; rewrite TY, TT in A1; discriminate A1
               |exact (NB TY)]).
        specialize (T s eq_refl).
        destruct (match convert f s with Some s => match format f s with Some s => Some (put s st) | None => None end | None => None end);
          [exact T|]. apply T. intros v E. injection E as <-. cbn [typed]. exact TY.
      * intros p P; inversion P as [b9 a a' a'' A1 A2 A3|v9 NB]; subst;
          [cbn [text_of typed] in A1; rewrite TY, TT in A1; discriminate A1|exact (NB TY)].
    + assert (X : typed (JObj l) <> Some (JStr "text")) by (cbn [typed]; rewrite TY; congruence).
      specialize (BL X). destruct ty as [| | | |s| |]; try exact BL.
      (* a string other than "text" *)
      destruct s as [|[[|] [|] [|] [|] [|] [|] [|] [|]] s]; try exact BL.
      destruct s as [|[[|] [|] [|] [|] [|] [|] [|] [|]] s]; try exact BL.
      destruct s as [|[[|] [|] [|] [|] [|] [|] [|] [|]] s]; try exact BL.
      destruct s as [|[[|] [|] [|] [|] [|] [|] [|] [|]] s]; try exact BL.
      destruct s; [|exact BL]. contradiction (N eq_refl).
Qed.
Definition objects (bs : list block) : Prop := forall v, In (BVal v) bs -> exists l, v = JObj l.
Lemma parts_spec : forall f bs st ps, objects bs -> reads st ps ->
  match parts_of f bs st with
  | Some st' => exists fs, Forall2 (piece_of f) bs fs /\ reads st' (ps ++ fs)
  | None => forall fs, ~ Forall2 (piece_of f) bs fs
  end.
Proof.
  intros f. induction bs as [|b bs IH]; intros st ps O R; cbn [parts_of].
  - exists []. rewrite app_nil_r. split; [constructor|exact R].
  - assert (OB : forall v, b = BVal v -> exists l, v = JObj l) by (intros v ->; apply O; left; reflexivity).
    pose proof (part_spec f b st ps OB R) as P. destruct (part f b st) as [st1|].
    + destruct P as (p & PB & R1).
      specialize (IH st1 (ps ++ [p]) (fun v I => O v (or_intror I)) R1).
      destruct (parts_of f bs st1) as [st'|].
      * destruct IH as (fs & F & R2). exists (p :: fs). rewrite <- app_assoc in R2.
        split; [constructor; assumption|exact R2].
      * intros fs F. inversion F as [|? ? ? ? _ F']. exact (IH _ F').
    + intros fs F. inversion F as [|? y ? ? F0 _]. exact (P y F0).
Qed.

Lemma values_in : forall bs v, In (BVal v) bs -> In v (values bs).
Proof.
  induction bs as [|b bs IH]; intros v I; [destruct I|]. unfold values in *. cbn [flat_map]. apply in_or_app.
  destruct I as [->|I]; [left; left; reflexivity|right; exact (IH v I)].
Qed.
Lemma outermost_objects : forall v x, In x (outermost block_types v) -> exists l, x = JObj l.
Proof.
  assert (B : forall v, blockb block_types v = true -> exists l, v = JObj l).
  { intros [| | | | |l|l] H; try discriminate H. exists l. reflexivity. }
  intro v. induction v as [|b|z|s|s|l IH|l IH] using json_ind2; intros x I; try destruct I.
  - cbn [outermost] in I. change (blockb block_types (JArr l)) with false in I. cbn iota in I.
    apply in_flat_map in I. destruct I as (y & Y & I). rewrite Forall_forall in IH. exact (IH y Y x I).
  - cbn [outermost] in I. destruct (blockb block_types (JObj l)).
    + destruct I as [<-|[]]. exists l. reflexivity.
    + apply in_flat_map in I. destruct I as (y & Y & I). rewrite Forall_forall in IH. exact (IH y Y x I).
Qed.
Lemma blocks_objects : forall v bs, to_content_blocks dumps_scalar block_types v = Some bs -> objects bs.
Proof.
  intros v bs H x I. apply (outermost_objects v). rewrite <- (blocks_values _ _ _ _ H). exact (values_in _ _ I).
Qed.

Lemma reads_literal : forall lit st ps, reads st ps ->
  reads (match lit with EmptyString => st | _ => put lit st end) (ps ++ (if String.eqb lit "" then [] else [PText lit])).
Proof.
  intros [|c lit] st ps R; cbn [String.eqb]; [rewrite app_nil_r; exact R|exact (reads_put _ _ _ R)].
Qed.
Lemma segments_spec : forall l st ps, reads st ps ->
  match segments dumps_scalar block_types l st with
  | Some st' => exists qs, pieces_of dumps_scalar block_types l qs /\ reads st' (ps ++ qs)
  | None => forall qs, ~ pieces_of dumps_scalar block_types l qs
  end.
Proof.
  induction l as [|[lit [f|]] l IH]; intros st ps R; cbn [segments].
  - exists []. rewrite app_nil_r. split; [constructor|exact R].
  - pose proof (reads_literal lit st ps R) as R1.
    destruct (encoded f) as [v|] eqn:E; [|intros qs P; inversion P; congruence].
    destruct (to_content_blocks dumps_scalar block_types v) as [bs|] eqn:B; [|intros qs P; inversion P; congruence].
    pose proof (parts_spec f bs _ _ (blocks_objects _ _ B) R1) as PS.
    destruct (parts_of f bs match lit with EmptyString => st | _ => put lit st end) as [st1|].
    + destruct PS as (fs & F & R2). specialize (IH st1 _ R2).
      destruct (segments dumps_scalar block_types l st1) as [st2|].
      * destruct IH as (qs & Q & R3). eexists. split; [exact (ps_field _ _ lit f v bs fs l qs E B F Q)|].
        rewrite <- !app_assoc in R3. exact R3.
      * intros qs P. inversion P as [| |lit' f' v' bs' fs' l' ps' E' B' F' P']. exact (IH _ P').
    + intros qs P. inversion P as [| |lit' f' v' bs' fs' l' ps' E' B' F' P']. subst.
      rewrite E in E'. injection E' as <-. rewrite B in B'. injection B' as <-. exact (PS _ F').
  - pose proof (reads_literal lit st ps R) as R1. specialize (IH _ _ R1).
    destruct (segments dumps_scalar block_types l match lit with EmptyString => st | _ => put lit st end) as [st2|].
    + destruct IH as (qs & Q & R3). eexists. split; [exact (ps_literal _ _ lit l qs Q)|].
      rewrite <- !app_assoc in R3. exact R3.
    + intros qs P. inversion P as [|lit' l' ps' P'|]. exact (IH _ P').
Qed.
Lemma user_spec : forall l,
  match call_user dumps_scalar block_types l with
  | Some out => exists ps, pieces_of dumps_scalar block_types l ps /\ merged ps out
  | None => forall ps, ~ pieces_of dumps_scalar block_types l ps
  end.
Proof.
  intro l. unfold call_user.
  assert (R : reads ([], []) []).
  { exists []. split; [exact mg_nil|]. split; [left; reflexivity|reflexivity]. }
  pose proof (segments_spec l _ _ R) as S.
  destruct (segments dumps_scalar block_types l ([], [])) as [st|]; [|exact S].
  destruct S as (qs & Q & R2). exists qs. split; [exact Q|exact (reads_flush _ _ R2)].
Qed.

(** Pieces and merging are determined. *)
Lemma piece_of_fun : forall f b p q, piece_of f b p -> piece_of f b q -> p = q.
Proof.
  assert (T : forall v s, text_of (BVal v) = Some s -> typed v = Some (JStr "text")).
  { intros v s H. cbn [text_of] in H. destruct (typed v) as [[| | | |x| |]|] eqn:E; try (destruct v; discriminate H).
    destruct (string_dec x "text") as [->|N]; [reflexivity|]. exfalso. destruct v as [| | | | |l0|l0]; try discriminate E.
    cbn [typed] in *.
    destruct x as [|[[|] [|] [|] [|] [|] [|] [|] [|]] x]; try discriminate H.
    destruct x as [|[[|] [|] [|] [|] [|] [|] [|] [|]] x]; try discriminate H.
    destruct x as [|[[|] [|] [|] [|] [|] [|] [|] [|]] x]; try discriminate H.
    destruct x as [|[[|] [|] [|] [|] [|] [|] [|] [|]] x]; try discriminate H.
    destruct x; [|discriminate H]. exact (N eq_refl). }
  intros f b p q P Q. destruct P as [b s s1 s2 A B C|v N].
  - inversion Q as [b' t t1 t2 A' B' C'|v N]; subst; [congruence|]. contradiction (N (T _ _ A)).
  - inversion Q as [b' t t1 t2 A' B' C'|v' N']; subst; [|reflexivity]. contradiction (N (T _ _ A')).
Qed.
Lemma pieces_fun : forall l ps qs, pieces_of dumps_scalar block_types l ps -> pieces_of dumps_scalar block_types l qs -> ps = qs.
Proof.
  intros l ps qs P. revert qs. induction P as [|lit l ps P IH|lit f v bs fs l ps E B F P IH]; intros qs Q.
  - inversion Q. reflexivity.
  - inversion Q as [|lit' l' ps' P'|]. subst. rewrite (IH _ P'). reflexivity.
  - inversion Q as [| |lit' f' v' bs' fs' l' ps' E' B' F' P']. subst.
    rewrite E in E'. injection E' as <-. rewrite B in B'. injection B' as <-. rewrite (IH _ P'). f_equal. f_equal.
    clear - F F'. revert fs' F'. induction F as [|b p bs fs X F IH]; intros fs' F'; inversion F' as [|? p' ? fs2 X' F2]; subst; [reflexivity|].
    rewrite (piece_of_fun _ _ _ _ X X'), (IH _ F2). reflexivity.
Qed.

(** * Prompts without blocks *)
Lemma no_blocks_reached : forall v x, reached block_types v x -> outermost block_types v = [] -> ~ is_block block_types x.
Proof.
  assert (Q : forall A B (f : A -> list B) l, flat_map f l = [] -> forall y, In y l -> f y = []).
  { intros A B f l. induction l as [|z l IH]; intros E y I; [destruct I|]. cbn [flat_map] in E.
    apply app_eq_nil in E. destruct E as [E1 E2]. destruct I as [<-|I]; [exact E1|exact (IH E2 y I)]. }
  assert (NB : forall v, outermost block_types v = [] -> blockb block_types v = false).
  { intros v E. destruct v as [| | | | |l|l]; try reflexivity. cbn [outermost] in E.
    destruct (blockb block_types (JObj l)); [discriminate E|reflexivity]. }
  intros v x R. induction R as [v|l v x I R IH|l k v x N I R IH]; intro E.
  - intro B. apply blockb_spec in B. rewrite (NB v E) in B. discriminate B.
  - apply IH. exact (Q _ _ _ l E v I).
  - apply IH. cbn [outermost] in E. pose proof (NB (JObj l)) as NBL. cbn [outermost] in NBL. rewrite (NBL E) in E.
    exact (Q _ _ (fun kx => outermost block_types (snd kx)) l E (k, v) I).
Qed.
Definition plain_text (v : json) : string := match v with JStr s => s | _ => dumps dumps_scalar v end.
Lemma plain_blocks : forall v, outermost block_types v = [] -> (forall x, reached block_types v x -> ~ unhashable_type x) ->
  exists ts, to_content_blocks dumps_scalar block_types v = Some (map BText ts) /\ String.concat "" ts = plain_text v.
Proof.
  intros v O U. destruct (to_content_blocks dumps_scalar block_types v) as [bs|] eqn:B.
  - assert (T : exists ts, bs = map BText ts).
    { pose proof (blocks_values _ _ _ _ B) as V. rewrite O in V. clear B. induction bs as [|b bs IH]; [exists []; reflexivity|].
      destruct b as [s|x]; [|discriminate V]. destruct (IH V) as (ts & ->). exists (s :: ts). reflexivity. }
    destruct T as (ts & ->). exists ts. split; [reflexivity|].
    assert (L : linearize dumps_scalar (map BText ts) = String.concat "" ts).
    { unfold linearize. rewrite map_map. cbn [shown]. rewrite map_id. reflexivity. }
    rewrite <- L. assert (C : (exists s, v = JStr s) \/ forall s, v <> JStr s).
    { destruct v; try (right; discriminate). left. eexists. reflexivity. }
    destruct C as [(s & ->)|N].
    + cbn [to_content_blocks] in B. injection B as B. rewrite <- B. unfold linearize. cbn. reflexivity.
    + assert (E : plain_text v = dumps dumps_scalar v) by (destruct v; try reflexivity; contradiction (N s eq_refl)).
      rewrite E. apply (blocks_linear dumps_scalar block_types v (map BText ts) N); [|exact B].
      intros x R IB. contradiction (no_blocks_reached v x R O IB).
  - exfalso. apply blocks_fail in B. destruct B as (x & R & UH). exact (U x R UH).
Qed.
Lemma plain_pieces : forall l, Forall (plain block_types) l ->
  exists ts, pieces_of dumps_scalar block_types l (map PText ts) /\
    String.concat "" ts = String.concat "" (map (segment_text dumps_scalar) l).
Proof.
  assert (LIT : forall lit, exists ts, (if String.eqb lit "" then [] else [PText lit]) = map PText ts /\ String.concat "" ts = lit).
  { intros [|c lit]; [exists []|exists [String c lit]]; split; reflexivity. }
  intros l F. induction F as [|[lit [f|]] l P F IH].
  - exists []. split; [constructor|reflexivity].
  - destruct IH as (ts & PS & C). cbn [plain snd] in P. destruct P as (CV & FM & v & E & O & U).
    destruct (plain_blocks v O U) as (us & B & CU). destruct (LIT lit) as (ls & EL & CL).
    exists (ls ++ us ++ ts). split.
    + rewrite !map_app, <- EL. apply (ps_field _ _ lit f v (map BText us)); [exact E|exact B| |exact PS].
      clear - CV FM. induction us as [|u us IH]; cbn [map]; constructor; [|exact IH].
      exact (po_text f (BText u) u u u eq_refl (CV u) (FM u)).
    + cbn [map]. rewrite concat_cons, !concat_app, C, CL, CU. unfold segment_text. cbn [fst snd]. rewrite E.
      rewrite sapp_assoc. destruct v; reflexivity.
  - destruct IH as (ts & PS & C). destruct (LIT lit) as (ls & EL & CL). exists (ls ++ ts). split.
    + rewrite map_app, <- EL. apply ps_literal. exact PS.
    + cbn [map]. rewrite concat_cons, concat_app, C, CL. unfold segment_text. cbn [fst snd]. rewrite sapp_nil_r. reflexivity.
Qed.
Lemma merged_texts : forall ts out, merged (map PText ts) out -> (ts = [] /\ out = []) \/ out = [BText (String.concat "" ts)].
Proof.
  intros ts out M. remember (map PText ts) as ps eqn:E. destruct M as [|us rest out NE NS M|v rest out M].
  - left. destruct ts; [split; reflexivity|discriminate E].
  - right. destruct rest as [|p rest].
    + rewrite app_nil_r in E. assert (us = ts) as ->.
      { clear - E. revert ts E. induction us as [|u us IH]; intros [|t ts] E; try discriminate E; [reflexivity|].
        cbn [map] in E. injection E as -> E. rewrite (IH ts E). reflexivity. }
      inversion M as [|ts' rest' out' NE' NS' M' E1 E2|]; [reflexivity|].
      destruct ts' as [|x ts']; [contradiction (NE' eq_refl)|discriminate E1].
    + exfalso. apply NS. assert (I : In p (map PText ts)) by (rewrite <- E; apply in_or_app; right; left; reflexivity).
      apply in_map_iff in I. destruct I as (s & <- & _). exists s, rest. reflexivity.
  - destruct ts; discriminate E.
Qed.
Lemma user_plain : forall l, Forall (plain block_types) l ->
  let text := String.concat "" (map (segment_text dumps_scalar) l) in
  call_user dumps_scalar block_types l = Some [BText text] \/
  (call_user dumps_scalar block_types l = Some [] /\ text = ""%string).
Proof.
  intros l F. cbv zeta. destruct (plain_pieces l F) as (ts & P & C). pose proof (user_spec l) as S.
  destruct (call_user dumps_scalar block_types l) as [out|]; [|contradiction (S _ P)].
  destruct S as (ps & Q & M). rewrite <- (pieces_fun _ _ _ P Q) in M. apply merged_texts in M.
  destruct M as [[-> ->]| ->]; [right; split; [reflexivity|symmetry; exact C]|left; rewrite C; reflexivity].
Qed.
End Run.
