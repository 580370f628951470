(** Signatures and terms used in the examples and counterexamples. *)
From Coq Require Import List ZArith String Bool Arith Lia.
From Verif Require Import TermModel TermSpec TermProofs TermScopes TermData TermEval TermSubst TermUser TermFvs TermBeta TermTrace.
Import ListNotations.
Open Scope string_scope.

Definition no_sig : sig := mksig [] [] None [] None [].
Definition plain_p (n : string) : param := mkparam n false [] None.

(** [pair(a, b)]; [sum(vars: set[Operation] Scoped[A], body: Scoped[A | B]) -> Scoped[B]];
    [let(x: Operation Scoped[A], e: Scoped[B], body: Scoped[A | B], *, tag=1) -> Scoped[B]] *)
Definition pair_sig : sig := mksig [] [plain_p "a"; plain_p "b"] None [] None [].
Definition sum_sig : sig :=
  mksig [] [mkparam "vars" false [0] None; mkparam "body" false [0; 1] None] None [] None [1].
Definition let_sig : sig :=
  mksig [] [mkparam "x" true [0] None; mkparam "e" false [1] None; mkparam "body" false [0; 1] None] None
        [mkparam "tag" false [1] (Some (EConst 1))] None [1].

Definition ex_sigs (b : nat) : sig :=
  match b with 0 => deffn_sig | 1 => pair_sig | 2 => sum_sig | 3 => let_sig | _ => no_sig end.

Definition deffn_op := mkop 0 0.
Definition pair_op := mkop 1 0.
Definition sum_op := mkop 2 0.
Definition let_op := mkop 3 0.
Definition x := mkop 5 0.
Definition y := mkop 6 0.
Definition z := mkop 7 0.
Definition var (o : op) : expr := ETerm o [] [].
Definition pair (a b : expr) : expr := ETerm pair_op [a; b] [].

Definition ok (r : res (expr * nat)) : expr * nat := match r with Ok p => p | Err _ => (EConst 0, 0) end.
Definition app (r : option (res (expr * nat))) : expr * nat := match r with Some r => ok r | None => (EConst 0, 0) end.

Lemma ex_wf : forall b, wf_sig (ex_sigs b).
Proof.
  intros b. unfold wf_sig. do 5 (destruct b as [|b]; [cbn; repeat constructor; cbn; intuition discriminate|]). constructor.
Qed.

Lemma user_const n v : user ex_sigs n (EConst v).
Proof. constructor; [constructor|intros u []|intros u []|intros u []]. Qed.

Lemma ex_dflt : forall b p e, In p (params (ex_sigs b)) -> dflt p = Some e -> user ex_sigs 1 e.
Proof.
  intros b p e Hp Hd. do 5 (destruct b as [|b]; [cbn in Hp; intuition (subst; cbn in Hd; try discriminate Hd); inversion Hd; subst;
    apply user_const|]). destruct Hp.
Qed.

(** [deffn(deffn(pair(y(), z()), z), y)] and its application to itself *)
Definition f_in : expr * nat := ok (defdata ex_sigs deffn_op [pair (var y) (var z); EOp z] [] 1).
Definition f_out : expr * nat := ok (defdata ex_sigs deffn_op [fst f_in; EOp y] [] (snd f_in)).
Definition f_self : expr * nat := app (call_deffn ex_sigs deffn_op (fst f_out) [fst f_out] [] (snd f_out)).

(** [def f(a, b=7, *, c): return pair(a, pair(b, c))] *)
Definition ex_func : func :=
  mkfunc (mksig [] [plain_p "a"; mkparam "b" false [] (Some (EConst 7))] None [plain_p "c"] None [])
    (fun s => if String.eqb s "a" then mkop 11 0 else if String.eqb s "b" then mkop 12 0 else mkop 13 0)
    (pair (var (mkop 11 0)) (pair (var (mkop 12 0)) (var (mkop 13 0)))).
Definition ex_new (s : string) : op :=
  if String.eqb s "a" then mkop 21 0 else if String.eqb s "b" then mkop 22 0 else mkop 23 0.


Lemma user_pair n a b : user ex_sigs n a -> user ex_sigs n b -> 1 <= n -> user ex_sigs n (pair a b).
Proof.
  intros [A1 A2 A3 A4] [B1 B2 B3 B4] Hn. constructor.
  - eapply WfTerm with (Ba := [[]; []]) (Bk := []).
    + split; [cbn; lia|]. split; [reflexivity|]. exists []. split; [reflexivity|]. split; [reflexivity|]. split; [constructor|intros u []].
    + reflexivity.
    + repeat constructor; assumption.
    + constructor.
  - intros u Hu. cbn in Hu. rewrite !app_nil_r in Hu. destruct Hu as [<-|Hu]; [cbn; lia|]. apply in_app_or in Hu. destruct Hu; [apply A2|apply B2]; assumption.
  - intros u Hu. apply fvo_term in Hu. destruct Hu as [->|(s & Hs & Hu & _)]; [reflexivity|]. destruct Hs as [<-|[<-|[]]]; [apply A3|apply B3]; assumption.
  - intros u Hu. cbn in Hu. rewrite ?app_nil_r in Hu. apply in_app_or in Hu. destruct Hu; [apply A4|apply B4]; assumption.
Qed.

Lemma user_v n o : 1 <= n -> copy o = 0 -> 4 <= base o -> user ex_sigs n (var o).
Proof.
  intros Hn Ho Hb. apply user_var; [exact Hn|exact Ho|]. unfold nullary. destruct o as [b c]. cbn in *.
  do 4 (destruct b as [|b]; [lia|]). reflexivity.
Qed.

Lemma ex_plain : plain ex_sigs ex_func 1.
Proof.
  constructor; try reflexivity.
  - unfold wf_sig. cbn. repeat constructor; cbn; intuition discriminate.
  - cbn. intuition discriminate.
  - cbn [ex_func fbody]. repeat (apply user_pair; try lia); apply user_v; cbn; lia.
  - cbn. repeat constructor; cbn; intuition discriminate.
  - intros p Hp. cbn in Hp. intuition (subst; cbn; reflexivity).
Qed.
