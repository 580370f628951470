(** Proofs about the lexical context of templates. *)
From Coq Require Import String Ascii List Bool Arith Lia.
Import ListNotations.
From Verif Require Import LexModel LexSpec.
Local Open Scope list_scope.

Lemma has_in l x : has l x = true <-> In x l.
Proof.
  unfold has. rewrite existsb_exists. split.
  - intros (y & I & E). apply String.eqb_eq in E. subst. exact I.
  - intros I. exists x. split; [exact I|apply String.eqb_refl].
Qed.
Lemma has_not l x : has l x = false <-> ~ In x l.
Proof. rewrite <- has_in. destruct (has l x); split; congruence. Qed.

(** 1. Names of scopes. *)
Definition sep (s : scope) : list seg := match s with Fn _ _ _ => [Locals] | _ => [] end.
Fixpoint fns (s : scope) : list string := match s with Mod _ => [] | Fn _ n o => n :: fns o | Cl _ _ o => fns o end.
Fixpoint chain (s : scope) : list scope := match s with Mod _ => [] | Fn _ _ o => s :: chain o | Cl _ _ o => chain o end.
Lemma before_name l n r : before_locals (l ++ Name n :: r) = before_locals l ++ before_locals (Name n :: r).
Proof.
  induction l as [|a l IH]; [reflexivity|]. destruct a as [m|].
  - destruct l as [|b l]; [destruct r as [|[|]]; reflexivity|]. destruct b as [k|].
    + change (before_locals ((Name m :: Name k :: l) ++ Name n :: r)) with (before_locals ((Name k :: l) ++ Name n :: r)). rewrite IH. reflexivity.
    + change (before_locals ((Name m :: Locals :: l) ++ Name n :: r)) with (m :: before_locals ((Locals :: l) ++ Name n :: r)). rewrite IH. reflexivity.
  - change (before_locals ((Locals :: l) ++ Name n :: r)) with (before_locals (l ++ Name n :: r)). rewrite IH. reflexivity.
Qed.
Lemma before_qual s : before_locals (qual s ++ sep s) = rev (fns s).
Proof.
  induction s as [m|a n o IH|a n o IH]; [reflexivity|..]; cbn [qual fns rev]; fold (sep o); rewrite app_assoc, <- app_assoc; cbn [app sep]; rewrite before_name, IH; [reflexivity|].
  cbn [before_locals]. apply app_nil_r.
Qed.
Lemma fns_of s n : enclosing_fns (qual_in s n) = fns s.
Proof. unfold enclosing_fns, qual_in. fold (sep s). rewrite app_assoc, before_name, before_qual. cbn [before_locals]. rewrite app_nil_r. apply rev_involutive. Qed.
Lemma fns_around s : fns (around s) = fns s.
Proof. induction s; cbn [around fns]; [reflexivity..|assumption]. Qed.
Lemma chain_around s : chain (around s) = chain s.
Proof. induction s; cbn [around chain]; [reflexivity..|assumption]. Qed.
Lemma module_around s : module_of (around s) = module_of s.
Proof. induction s; cbn [around module_of]; [reflexivity..|assumption]. Qed.

(** 2. Class bodies are skipped. *)
Lemma names_class a n o : names_until (rev (qual (Cl a n o))) = S (match o with Cl _ _ _ => names_until (rev (qual o)) | _ => 0 end).
Proof. cbn [qual]. fold (sep o). rewrite !rev_app_distr. cbn [rev app names_until]. f_equal. destruct o; reflexivity. Qed.
Lemma around_not s a n o : around s <> Cl a n o.
Proof. induction s; cbn [around]; [discriminate..|assumption]. Qed.
Lemma skipped stack s rest : at_define stack s rest -> skip stack = around s :: rest.
Proof.
  intros [classes E C H R]. revert stack s E C H R. induction classes as [|c cl IH]; intros stack s E C H R.
  - cbn [app] in E. subst stack. cbn [hd_error] in H. injection H as H. destruct s as [m|a n o|a n o]; [reflexivity..|]. exfalso. exact (around_not _ _ _ _ H).
  - subst stack. cbn [app hd_error] in H. injection H as ->. destruct (C s (or_introl eq_refl)) as (a & n & o & ->). cbn [app] in *. unfold skip.
    assert (Q : exists st, cl ++ around (Cl a n o) :: rest = o :: st /\ runs (o :: st)).
    { inversion R as [|? ? ? ? R1|? ? ? st R1 E1]; subst. exists st. split; [cbn [around]; congruence|exact R1]. }
    destruct Q as (st & E & R1). cbn [around] in *.
    assert (A : at_define (o :: st) o rest). { exists cl; [symmetry; exact E|intros c I; apply C; right; exact I|reflexivity|exact R1]. }
    rewrite names_class. cbn [skipn]. rewrite E.
    pose proof (IH (o :: st) o (eq_sym E) (fun c I => C c (or_intror I)) eq_refl R1) as K. unfold skip in K. destruct o as [m|a1 n1 o1|a1 n1 o1]; exact K.
Qed.

(** 3. The walk finds the enclosing functions. *)
Lemma search_past n st s st' : (forall s, In s st -> co_name s <> n /\ forall m, s <> Mod m) -> co_name s = n -> (forall m, s <> Mod m) -> search n (st ++ s :: st') = (Some s, st').
Proof.
  intros P E N. induction st as [|t st IH]; cbn [app search].
  - destruct s as [m|a k o|a k o]; [destruct (N m eq_refl)|..]; rewrite E, String.eqb_refl; reflexivity.
  - destruct (P t (or_introl eq_refl)) as [P1 P2]. apply String.eqb_neq in P1. destruct t as [m|a k o|a k o]; [destruct (P2 m eq_refl)|..]; rewrite P1; apply IH; intros u I; apply P; right; exact I.
Qed.
Lemma walk_chain st s : innermost st s -> walk (fns s) st = chain s.
Proof.
  induction 1 as [st m|st a n o H IH|st st' a n o P H IH]; cbn [fns chain walk]; [reflexivity|exact IH|].
  rewrite (search_past n st (Fn a n o) st' P eq_refl) by discriminate. cbv iota beta. rewrite IH. reflexivity.
Qed.
Lemma context_chain stack s rest n : at_define stack s rest -> alive rest s -> context stack (qual_in s n) = Some (chain s ++ [Mod (module_of s)]).
Proof.
  intros A L. unfold context. rewrite (skipped stack s rest A), fns_of, <- (fns_around s), <- (chain_around s), <- (module_around s). unfold alive in L. destruct (around s) as [m|a k o|a k o] eqn:E; [reflexivity| |destruct (around_not _ _ _ _ E)].
  cbn [fns walk search co_name chain]. rewrite String.eqb_refl, (walk_chain rest o L). reflexivity.
Qed.

(** 4. What it shows. *)
Lemma cell_means M x s v : cell M s x = Some v -> means M x s (Some v).
Proof.
  induction s as [m|a n o IH|a n o IH]; cbn [cell]; intros H.
  - discriminate H.
  - destruct (has (vars M a) x) eqn:V; [rewrite <- H; apply means_own, has_in, V|apply means_out; [apply has_not, V|apply IH, H]].
  - apply means_class, IH, H.
Qed.
Lemma means_one M x s v w : means M x s v -> means M x s w -> v = w.
Proof.
  intros H. revert w. induction H as [m|a n o I|a n o v N H IH|a n o v H IH]; intros w W; inversion W; subst; try reflexivity; try contradiction; apply IH; assumption.
Qed.
Lemma look_chain ver seen M x s : bound M x s -> fresh ver seen M x s -> forall v, means M x s v -> look ver seen M (chain s ++ [Mod (module_of s)]) x = v.
Proof.
  induction s as [m|a n o IH|a n o IH]; intros B F v H; cbn [chain module_of app look].
  - inversion H; subst. assert (K : kept ver seen M (Mod m) x = glob M m x) by (destruct ver; reflexivity). rewrite K. destruct (glob M m x); reflexivity.
  - assert (K : kept ver seen M (Fn a n o) x = f_locals M (Fn a n o) x) by (destruct ver; [apply (F a n o); constructor; reflexivity|reflexivity]). rewrite K. cbn [f_locals].
    assert (Fo : fresh ver seen M x o). { destruct ver; [|exact F]. intros b k p E. apply (F b k p). apply encl_fn, E. }
    destruct (has (vars M a) x) eqn:V.
    + apply has_in in V. inversion H; subst; [|contradiction]. inversion B; subst; [|contradiction]. destruct (own M a x); [reflexivity|contradiction].
    + apply has_not in V. inversion H; subst; [contradiction|]. inversion B; subst; [contradiction|].
      destruct (has (frees M a) x); [destruct (cell M o x) as [w|] eqn:C; [apply cell_means in C; match goal with Q : means M x o v |- _ => exact (means_one _ _ _ _ _ C Q) end|]|]; apply IH; assumption.
  - inversion H; subst. inversion B; subst. apply IH; [assumption| |assumption]. destruct ver; [|exact F]. intros b k p E. apply (F b k p). apply encl_class, E.
Qed.
Lemma lexical stack s rest n : at_define stack s rest -> alive rest s ->
  exists ctx, context stack (qual_in s n) = Some ctx /\ forall ver seen M x v, bound M x s -> fresh ver seen M x s -> means M x s v -> look ver seen M ctx x = v.
Proof.
  intros A L. exists (chain s ++ [Mod (module_of s)]). split; [exact (context_chain stack s rest n A L)|]. intros ver seen M x v B F H. exact (look_chain ver seen M x s B F v H).
Qed.
Lemma outermost rest s : (forall f g, encloses f s -> encloses g s -> f = g) -> alive rest s.
Proof.
  unfold alive. intros U.
  assert (U' : forall f g, encloses f (around s) -> encloses g (around s) -> f = g).
  { clear rest. induction s as [m|a n o IH|a n o IH]; cbn [around]; [exact U..|]. apply IH. intros f g F G. apply U; apply encl_class; assumption. }
  clear U. destruct (around s) as [m|a n o|a n o]; [exact Logic.I| |exact Logic.I].
  assert (N : forall f, ~ encloses f o).
  { intros f F. assert (E : f = Fn a n o) by (apply U'; [apply encl_fn, F|apply encl_here; reflexivity]). subst f.
    assert (SZ : forall f t, encloses f t -> (fix size t := match t with Mod _ => 0 | Fn _ _ q => S (size q) | Cl _ _ q => S (size q) end) f <= (fix size t := match t with Mod _ => 0 | Fn _ _ q => S (size q) | Cl _ _ q => S (size q) end) t).
    { intros f t T. induction T; subst; cbn; lia. }
    specialize (SZ _ _ F). cbn in SZ. lia. }
  clear U'. induction o as [m|b k o IH|b k o IH]; [constructor|destruct (N (Fn b k o)); apply encl_here; reflexivity|constructor; apply IH; intros f F; apply (N f); apply encl_class, F].
Qed.
Lemma toplevel stack s rest n : at_define stack s rest -> (forall f g, encloses f s -> encloses g s -> f = g) ->
  exists ctx, context stack (qual_in s n) = Some ctx /\ forall ver seen M x v, bound M x s -> fresh ver seen M x s -> means M x s v -> look ver seen M ctx x = v.
Proof. intros A U. apply (lexical stack s rest n A (outermost rest s U)). Qed.

(** 5. Prompts. *)
Lemma word_of w r : all_wordy w -> (r = EmptyString \/ (exists q, r = String "."%char q) \/ (exists q, r = String "["%char q)) -> word (append w r) = w.
Proof.
  intros W R. induction w as [|c w IH]; cbn [append].
  - destruct R as [-> |[[q ->]|[q ->]]]; reflexivity.
  - destruct W as [W1 W2]. cbn [word]. rewrite W1, (IH W2). reflexivity.
Qed.
Lemma wordy_first c : wordy c = true -> (Ascii.eqb c "." || Ascii.eqb c "[") = false.
Proof.
  intros W. destruct (Ascii.eqb_spec c ".") as [-> |N]; [discriminate W|]. destruct (Ascii.eqb_spec c "[") as [-> |N']; [discriminate W|]. reflexivity.
Qed.
Lemma first_of w r : all_wordy w -> (r = EmptyString \/ (exists q, r = String "."%char q) \/ (exists q, r = String "["%char q)) -> first (append w r) = w.
Proof.
  intros W R. induction w as [|c w IH]; cbn [append].
  - destruct R as [-> |[[q ->]|[q ->]]]; reflexivity.
  - destruct W as [W1 W2]. cbn [first]. rewrite (wordy_first c W1), (IH W2). reflexivity.
Qed.
Lemma root_of w f : field_of w f -> root f = w /\ first f = w.
Proof.
  intros (N & W & r & -> & R). unfold root. rewrite (word_of w r W R), (first_of w r W R). split; [|reflexivity]. destruct w; [contradiction|reflexivity].
Qed.
Lemma unresolved_nil params shows fields : unresolved params shows fields = [] <-> forall f, In f fields -> In (root f) params \/ shows (root f) <> None.
Proof.
  unfold unresolved. induction fields as [|f l IH]; cbn [filter]; [split; [intros _ f []|reflexivity]|].
  destruct (has params (root f)) eqn:P; cbn [orb negb].
  - rewrite IH. split; intros H g; [intros [<- |G]; [left; apply has_in, P|exact (H g G)]|intros G; apply H; right; exact G].
  - apply has_not in P. destruct (shows (root f)) as [v|] eqn:S; cbn [negb].
    + rewrite IH. split; intros H g; [intros [<- |G]; [right; rewrite S; discriminate|exact (H g G)]|intros G; apply H; right; exact G].
    + split; [discriminate|]. intros H. exfalso. destruct (H f (or_introl eq_refl)) as [J|J]; [exact (P J)|exact (J S)].
Qed.
Lemma means_some M x s : exists v, means M x s v.
Proof.
  induction s as [m|a n o [v IH]|a n o [v IH]].
  - eexists. constructor.
  - destruct (has (vars M a) x) eqn:V; [exists (own M a x); apply means_own, has_in, V|exists v; apply means_out; [apply has_not, V|exact IH]].
  - exists v. constructor. exact IH.
Qed.
Lemma accepted M stack s rest n params fields : at_define stack s rest -> alive rest s -> (forall f, In f fields -> bound M (root f) s) ->
  (exists ctx, define M stack (qual_in s n) false params fields = Ok ctx) <-> forall f, In f fields -> In (root f) params \/ exists v, means M (root f) s (Some v).
Proof.
  intros A L B. destruct (lexical stack s rest n A L) as (ctx & C & K). unfold define. rewrite C.
  assert (E : unresolved params (look V313 (fun _ _ => None) M ctx) fields = [] <-> forall f, In f fields -> In (root f) params \/ exists v, means M (root f) s (Some v)).
  { rewrite unresolved_nil. split; intros H f I; destruct (H f I) as [J|J]; try (left; exact J); right.
    - destruct (means_some M (root f) s) as [v Q]. rewrite (K V313 (fun _ _ => None) M (root f) v (B f I) Logic.I Q) in J. destruct v as [v|]; [exists v; exact Q|contradiction].
    - destruct J as [v Q]. rewrite (K V313 (fun _ _ => None) M (root f) (Some v) (B f I) Logic.I Q). discriminate. }
  rewrite <- E. destruct (unresolved _ _ _); split.
  - reflexivity.
  - intros _. exists ctx. reflexivity.
  - intros [c H]. discriminate H.
  - discriminate.
Qed.
Lemma rejected M stack parts params fields ctx : context stack parts = Some ctx -> (exists f, In f fields /\ ~ In (root f) params /\ look V313 (fun _ _ => None) M ctx (root f) = None) ->
  exists u, define M stack parts false params fields = TypeErr u /\ u <> [].
Proof.
  intros C (f & I & P & N). unfold define. rewrite C. destruct (unresolved params _ fields) as [|g u] eqn:U; [|exists (g :: u); split; [reflexivity|discriminate]].
  exfalso. destruct (proj1 (unresolved_nil _ _ _) U f I) as [J|J]; [exact (P J)|exact (J N)].
Qed.
Lemma calls M stack parts params fields ctx : define M stack parts false params fields = Ok ctx ->
  forall args ver seen M', incl params (map fst args) -> (forall x, look V313 (fun _ _ => None) M ctx x <> None -> look ver seen M' ctx x <> None) ->
  forall w f, In f fields -> field_of w f -> exists v, field args (look ver seen M' ctx) f = Some v.
Proof.
  unfold define. destruct (context stack parts) as [c|]; [|discriminate]. destruct (unresolved _ _ fields) eqn:U; [|discriminate]. intros H. injection H as ->.
  intros args ver seen M' IA K w f I F. destruct (root_of w f F) as [R1 R2]. destruct (proj1 (unresolved_nil _ _ _) U f I) as [J|J]; rewrite R1 in J; unfold field, env; rewrite R2.
  - apply IA, in_map_iff in J. destruct J as (p & E & J). destruct (find (fun p => String.eqb (fst p) w) args) as [q|] eqn:Q; [exists (snd q); reflexivity|].
    pose proof (find_none _ _ Q p J) as Z. cbv beta in Z. rewrite E, String.eqb_refl in Z. discriminate Z.
  - destruct (find _ args) as [q|]; [exists (snd q); reflexivity|]. specialize (K w J). destruct (look ver seen M' ctx w) as [v|]; [exists v; reflexivity|contradiction].
Qed.

(** 6. Nothing from beyond a module is captured. *)
Lemma search_before n stack f st : search n stack = (Some f, st) -> exists before, stack = before ++ f :: st /\ forall t, In t (before ++ [f]) -> forall m, t <> Mod m.
Proof.
  induction stack as [|s r IH]; cbn [search]; [discriminate|]. intros H.
  assert (C : (exists m, s = Mod m) \/ ((forall m, s <> Mod m) /\ (if String.eqb (co_name s) n then (Some s, r) else search n r) = (Some f, st))) by (destruct s; [left; eexists; reflexivity|right; split; [discriminate|exact H]..]).
  destruct C as [[m ->]|[N C]]; [discriminate H|]. clear H. destruct (String.eqb (co_name s) n).
  - injection C as -> ->. exists []. split; [reflexivity|]. intros t [<- |[]]. exact N.
  - destruct (IH C) as (b & -> & P). exists (s :: b). split; [reflexivity|]. intros t [<- |I]; [exact N|exact (P t I)].
Qed.
Lemma walk_before fns : forall stack s, In s (walk fns stack) -> exists before after, stack = before ++ s :: after /\ forall t, In t (before ++ [s]) -> forall m, t <> Mod m.
Proof.
  induction fns as [|n fns IH]; intros stack s I; cbn [walk] in I; [destruct I|]. destruct (search n stack) as [[f|] st] eqn:Q.
  - destruct (search_before n stack f st Q) as (b & E & P). destruct I as [-> |I]; [exists b, st; split; assumption|].
    destruct (IH st s I) as (b' & a' & -> & P'). exists (b ++ f :: b'), a'. rewrite E, <- app_assoc. split; [reflexivity|]. intros t J. rewrite <- app_assoc in J. apply in_app_iff in J.
    destruct J as [J|[<- |J]]; [apply P, in_app_iff; left; exact J|apply P, in_app_iff; right; left; reflexivity|exact (P' t J)].
  - exfalso.
    destruct (IH st s I) as (b' & a' & E & P').
    assert (Z : forall stack, snd (search n stack) = st -> fst (search n stack) = None -> st = [] \/ exists m r, st = Mod m :: r).
    { induction stack0 as [|u r IH0]; cbn [search]; [intros <- _; left; reflexivity|]. destruct u as [m|a k o|a k o]; [intros <- _; right; exists m, r; reflexivity|..]; destruct (String.eqb (co_name _) n); intros H1 H2; try discriminate H2; exact (IH0 H1 H2). }
    specialize (Z stack). rewrite Q in Z. destruct (Z eq_refl eq_refl) as [-> |(m & r & ->)]; [destruct b'; discriminate E|].
    destruct b' as [|u b']; cbn [app] in E; injection E as <- _; exact (P' _ (or_introl eq_refl) m eq_refl).
Qed.
Lemma same_import stack parts ctx : context stack parts = Some ctx ->
  forall s, In s ctx -> (exists m, s = Mod m) \/ exists before after, skip stack = before ++ s :: after /\ forall t, In t (before ++ [s]) -> forall m, t <> Mod m.
Proof.
  unfold context. destruct (skip stack) as [|f r] eqn:K; [discriminate|]. intros H s I. injection H as <-. apply in_app_iff in I. destruct I as [I|[<- |[]]]; [right; exact (walk_before _ _ s I)|left; eexists; reflexivity].
Qed.

(** Letters, digits and the underscore *)
Lemma wordy_chars c : wordy c = true <-> In c (list_ascii_of_string "0123456789ABCDEFGHIJKLMNOPQRSTUVWXYZ_abcdefghijklmnopqrstuvwxyz").
Proof.
  split.
  - destruct c as [[] [] [] [] [] [] [] []]; intro H; try (vm_compute in H; discriminate H); cbn; repeat (try (left; reflexivity); right).
  - cbn. intros H. repeat (destruct H as [<-|H]; [reflexivity|]). destruct H.
Qed.
