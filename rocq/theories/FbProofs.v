From Coq Require Import String List Bool Arith Lia.
From Verif Require Import FbModel FbSpec.
Import ListNotations.
Open Scope list_scope.

Lemma sapp : forall a b c : string, ((a ++ b) ++ c = a ++ (b ++ c))%string.
Proof. induction a as [|x a IH]; intros b c; cbn; [reflexivity | now rewrite IH]. Qed.

Lemma sapp_nil : forall a : string, (a ++ "" = a)%string.
Proof. induction a as [|x a IH]; cbn; [reflexivity | now rewrite IH]. Qed.

Lemma contains_l : forall s a b, contains s a -> contains s (a ++ b)%string.
Proof. intros s a b [x [y ->]]. exists x, (y ++ b)%string. now rewrite !sapp. Qed.

Lemma contains_r : forall s a b, contains s b -> contains s (a ++ b)%string.
Proof. intros s a b [x [y ->]]. exists (a ++ x)%string, y. now rewrite !sapp. Qed.

Lemma contains_refl : forall s, contains s s.
Proof. intros s. exists ""%string, ""%string. cbn. now rewrite sapp_nil. Qed.

Lemma contains_trans : forall a b c, contains a b -> contains b c -> contains a c.
Proof. intros a b c [x [y ->]] [u [v ->]]. exists (u ++ x)%string, (y ++ v)%string. now rewrite !sapp. Qed.

Lemma content_text : forall tb h e, contains (str e) (content (to_feedback_message tb h e)).
Proof.
  intros tb h e. unfold to_feedback_message.
  destruct e; destruct tb; cbn [content]; [apply contains_l|idtac|apply contains_l|idtac|apply contains_l|idtac];
    apply contains_refl.
Qed.

Lemma str_original : forall e, contains (text_of (original e)) (str e).
Proof.
  intros [o raw id name|o raw|o id name]; cbn [str original].
  - apply contains_r, contains_r, contains_r, contains_l, contains_refl.
  - apply contains_r, contains_l, contains_refl.
  - apply contains_r, contains_r, contains_r, contains_refl.
Qed.

Lemma feedback_tells : forall tb h e, tells e (to_feedback_message tb h e).
Proof.
  intros tb h e. split.
  - apply contains_trans with (str e); [apply str_original | apply content_text].
  - destruct e as [o raw id name|o raw|o id name].
    + split; [reflexivity|]. split; [reflexivity|].
      apply contains_trans with (str (ToolCallDecodingError o raw id name)); [|apply content_text].
      cbn [str]. apply contains_r, contains_l, contains_refl.
    + split; reflexivity.
    + split; [reflexivity|]. split; [reflexivity|].
      apply contains_trans with (str (ToolCallExecutionError o id name)); [|apply content_text].
      cbn [str]. apply contains_r, contains_l, contains_refl.
Qed.

Lemma feedback_traced : forall h x e, traced x (to_feedback_message true (x :: h) e).
Proof.
  intros h x e. unfold traced, to_feedback_message.
  assert (K : contains (render x) (str e ++ nl ++ nl ++ "Traceback:" ++ nl ++ "```" ++ nl ++ format_exc (x :: h) ++ "```")%string).
  { do 7 apply contains_r. apply contains_l. apply contains_refl. }
  destruct e; exact K.
Qed.

Lemma render_cause : forall e f, contains (render (original e)) (render (raised e f)) /\ contains f (render (raised e f)).
Proof.
  intros e f. unfold raised. cbn [render]. split; [apply contains_l, contains_refl|].
  do 5 apply contains_r. apply contains_refl.
Qed.

Lemma feedback_quiet : forall h e, content (to_feedback_message false h e) = str e.
Proof. intros h [o raw id name|o raw|o id name]; reflexivity. Qed.

(** ** Retrying *)
Lemma errors_cons : forall e f l es, errors_of l es -> errors_of (Bad e f :: l) (e :: es).
Proof.
  intros e f l es [fs [L ->]]. exists (f :: fs). split; [cbn; now rewrite L | reflexivity].
Qed.

Lemma before_grows : forall cfg hd h e es h', decoding e ->
  grows (before_sleep cfg hd h e) es h' -> grows h (e :: es) h'.
Proof.
  intros cfg hd h e es h' D G. unfold before_sleep in G.
  pose proof (feedback_tells (include_traceback cfg) hd e) as T.
  destruct e as [o raw id name|o raw|o id name]; cbn [raw_message app] in G; [| |destruct D].
  - now apply grows_tool with (to_feedback_message (include_traceback cfg) hd (ToolCallDecodingError o raw id name)).
  - now apply grows_result with (to_feedback_message (include_traceback cfg) hd (ResultDecodingError o raw)).
Qed.

Lemma retrying_told : forall cfg hd attempts k h reqs o, Forall decodes attempts ->
  retrying cfg hd k h attempts = (reqs, o) ->
  forall i r, nth_error reqs i = Some r ->
  exists es, length es = i /\ errors_of (firstn i attempts) es /\ grows h es r.
Proof.
  intros cfg hd attempts; induction attempts as [|a rest IH]; intros k h reqs o D H i r Hr; cbn in H.
  - injection H as <- <-. destruct i; discriminate.
  - assert (Z : i = 0 -> r = h -> exists es, length es = i /\ errors_of (firstn i (a :: rest)) es /\ grows h es r).
    { intros -> ->. exists []. split; [reflexivity|]. split; [|constructor]. exists []. split; reflexivity. }
    inversion D as [|? ? Da Dr]; subst.
    destruct a as [m|e f|e].
    + injection H as <- <-. destruct i as [|i]; [|destruct i; discriminate].
      injection Hr as <-. now apply Z.
    + destruct (stop cfg k).
      * injection H as <- <-. destruct i as [|i]; [|destruct i; discriminate].
        injection Hr as <-. now apply Z.
      * destruct (retrying cfg hd (S k) (before_sleep cfg hd h e) rest) as [reqs' o'] eqn:E.
        injection H as <- <-. destruct i as [|i]; [injection Hr as <-; now apply Z|].
        cbn in Hr. destruct (IH _ _ _ _ Dr E i r Hr) as [es [L [Es G]]].
        exists (e :: es). split; [cbn; now rewrite L|]. split; [cbn; now apply errors_cons|].
        now apply before_grows with cfg hd.
    + injection H as <- <-. destruct i as [|i]; [|destruct i; discriminate].
      injection Hr as <-. now apply Z.
Qed.

Lemma retrying_ends : forall cfg hd attempts k h reqs o,
  retrying cfg hd k h attempts = (reqs, o) -> ends cfg k h attempts reqs o.
Proof.
  intros cfg hd attempts; induction attempts as [|a rest IH]; intros k h reqs o H; cbn in H.
  - injection H as <- <-. exists 0. split; [intros; lia|]. split; [exists []; split; [reflexivity|]; exists []; split; reflexivity|].
    cbn. auto.
  - destruct a as [m|e f|e].
    + injection H as <- <-. exists 0. split; [intros; lia|].
      split; [exists []; split; [reflexivity|]; exists []; split; reflexivity|]. cbn. auto.
    + destruct (stop cfg k) eqn:S0.
      * injection H as <- <-. exists 0. split; [intros; lia|].
        split; [exists []; split; [reflexivity|]; exists []; split; reflexivity|]. cbn.
        rewrite Nat.add_0_r. auto.
      * destruct (retrying cfg hd (S k) (before_sleep cfg hd h e) rest) as [reqs' o'] eqn:E.
        injection H as <- <-. destruct (IH _ _ _ _ E) as [n [Hs [[es [L Es]] Ho]]].
        exists (S n). split; [|split].
        -- intros [|i] e' f' Hi He; [now rewrite Nat.add_0_r|]. cbn in He.
           rewrite <- Nat.add_succ_comm. apply (Hs i e' f'); [lia | exact He].
        -- exists (e :: es). split; [cbn; now rewrite L|]. cbn. now apply errors_cons.
        -- cbn [nth_error]. rewrite <- Nat.add_succ_comm.
           destruct (nth_error rest n) as [[m|e' f'|e']|]; cbn; intuition (subst; auto).
    + injection H as <- <-. exists 0. split; [intros; lia|].
      split; [exists []; split; [reflexivity|]; exists []; split; reflexivity|]. cbn. auto.
Qed.

Lemma retry_told : forall cfg hd h attempts reqs h' o, Forall decodes attempts ->
  retry_call_assistant cfg hd h attempts = (reqs, h', o) ->
  forall i r, nth_error reqs i = Some r ->
  exists es, length es = i /\ errors_of (firstn i attempts) es /\ grows h es r.
Proof.
  intros cfg hd h attempts reqs h' o D H i r Hr. unfold retry_call_assistant in H.
  destruct (retrying cfg hd 1 h attempts) as [reqs' o'] eqn:E.
  assert (reqs' = reqs) by (destruct o'; now injection H). subst reqs'.
  now apply (retrying_told cfg hd attempts 1 h reqs o' D E).
Qed.

Lemma retry_ends : forall cfg hd h attempts reqs h' o,
  retry_call_assistant cfg hd h attempts = (reqs, h', o) ->
  ends cfg 1 h attempts reqs o /\
  h' = match o with Returned m => h ++ [m] | _ => h end.
Proof.
  intros cfg hd h attempts reqs h' o H. unfold retry_call_assistant in H.
  destruct (retrying cfg hd 1 h attempts) as [reqs' o'] eqn:E.
  apply retrying_ends in E. destruct o'; injection H as <- <- <-; auto.
Qed.

(** ** Tools *)
Lemma tool_caught : forall sub cfg hd id name f e, sub (class_of e) EXCEPTION = true ->
  (exists c, In c (catch_tool_errors cfg) /\ sub (class_of e) c = true) ->
  exists m, retry_call_tool sub cfg hd id name f (Raises e) = ([m], inl m) /\
    tells (ToolCallExecutionError e id name) m /\
    (include_traceback cfg = true -> traced e m) /\
    (include_traceback cfg = false -> content m = str (ToolCallExecutionError e id name)).
Proof.
  intros sub cfg hd id name f e HE [c [Hc Hs]]. unfold retry_call_tool, call_tool. rewrite HE.
  assert (X : existsb (sub (class_of e)) (catch_tool_errors cfg) = true).
  { apply existsb_exists. now exists c. }
  cbn [original]. rewrite X. cbn [app].
  set (d := ToolCallExecutionError e id name).
  exists (to_feedback_message (include_traceback cfg) (raised d f :: hd) d).
  split; [reflexivity|]. split; [apply feedback_tells|]. split.
  - intros ->. apply contains_trans with (render (raised d f)); [apply (render_cause d f)|].
    apply feedback_traced.
  - intros ->. apply feedback_quiet.
Qed.

Lemma tool_uncaught : forall sub cfg hd id name f e,
  (forall c, In c (catch_tool_errors cfg) -> sub (class_of e) c = false) ->
  exists x, retry_call_tool sub cfg hd id name f (Raises e) = ([], inr x) /\
    (if sub (class_of e) EXCEPTION then x = raised (ToolCallExecutionError e id name) f else x = e).
Proof.
  intros sub cfg hd id name f e H. unfold retry_call_tool, call_tool.
  destruct (sub (class_of e) EXCEPTION); [|now exists e].
  assert (X : existsb (sub (class_of e)) (catch_tool_errors cfg) = false).
  { destruct (existsb (sub (class_of e)) (catch_tool_errors cfg)) eqn:E; [|reflexivity].
    apply existsb_exists in E. destruct E as [c [Hc Ec]]. rewrite (H c Hc) in Ec. discriminate. }
  cbn [original]. rewrite X. eexists. split; reflexivity.
Qed.

Lemma tool_returns : forall sub cfg hd id name f text,
  retry_call_tool sub cfg hd id name f (Returns text) =
  ([Message Tool (Some id) text], inl (Message Tool (Some id) text)).
Proof. reflexivity. Qed.

(** ** What is left of the traceback of a decoding error *)
Lemma before_traceback : forall cfg h e, include_traceback cfg = true ->
  exists hist m, before_sleep cfg [] h e = hist ++ [m] /\
    content m = (str e ++ nl ++ nl ++ "Traceback:" ++ nl ++ "```" ++ nl ++ "NoneType: None" ++ nl ++ "```")%string.
Proof.
  intros cfg h e T. exists (h ++ raw_message e), (to_feedback_message true [] e).
  unfold before_sleep. rewrite T. split; [now rewrite app_assoc|].
  destruct e; reflexivity.
Qed.

Lemma before_leaks : forall cfg x hd h e, include_traceback cfg = true ->
  exists hist m, before_sleep cfg (x :: hd) h e = hist ++ [m] /\ traced x m.
Proof.
  intros cfg x hd h e T. exists (h ++ raw_message e), (to_feedback_message true (x :: hd) e).
  unfold before_sleep. rewrite T. split; [now rewrite app_assoc|]. apply feedback_traced.
Qed.

Lemma before_quiet : forall cfg hd h e, include_traceback cfg = false ->
  exists hist m, before_sleep cfg hd h e = hist ++ [m] /\ content m = str e.
Proof.
  intros cfg hd h e T. exists (h ++ raw_message e), (to_feedback_message false hd e).
  unfold before_sleep. rewrite T. split; [now rewrite app_assoc|]. apply feedback_quiet.
Qed.

(** ** Texts that do not occur *)
Fixpoint chars (s : string) : list Ascii.ascii :=
  match s with EmptyString => [] | String c s => c :: chars s end.

Lemma chars_app : forall a b, chars (a ++ b)%string = chars a ++ chars b.
Proof. induction a as [|c a IH]; intros b; cbn; [reflexivity | now rewrite IH]. Qed.

Lemma contains_chars : forall s t c, contains s t -> In c (chars s) -> In c (chars t).
Proof. intros s t c [a [b ->]] H. rewrite !chars_app. apply in_or_app. right. apply in_or_app. now left. Qed.

Lemma absent : forall c s t,
  existsb (Ascii.eqb c) (chars s) = true -> existsb (Ascii.eqb c) (chars t) = false -> ~ contains s t.
Proof.
  intros c s t Hs Ht H. apply existsb_exists in Hs. destruct Hs as [c' [Hi He]]. apply Ascii.eqb_eq in He. subst c'.
  assert (E : existsb (Ascii.eqb c) (chars t) = true).
  { apply existsb_exists. exists c. split; [now apply contains_chars with s | apply Ascii.eqb_refl]. }
  rewrite E in Ht. discriminate.
Qed.
