(** More rounds for the loops of the lexer do not change its answer. *)
From Verif Require Import Base Word_model Src_model Lex_model.
Local Open Scope nat_scope.

(** The same program, except that one that gives up may be replaced. *)
Inductive lep {A} : prog A -> prog A -> Prop :=
| lep_oof : forall q, lep (Err OutOfFuel) q
| lep_ret : forall a, lep (Ret a) (Ret a)
| lep_err : forall e, lep (Err e) (Err e)
| lep_get : forall k k', (forall c, lep (k c) (k' c)) -> lep (Get k) (Get k')
| lep_unget : forall c p p', lep p p' -> lep (Unget c p) (Unget c p')
| lep_reread : forall t p p', lep p p' -> lep (Reread t p) (Reread t p')
| lep_ign : forall u p p', lep p p' -> lep (Ign u p) (Ign u p').
Lemma lep_refl : forall {A} (p : prog A), lep p p.
Proof. induction p; constructor; auto. Qed.
Lemma lep_run : forall {A} (p q : prog A), lep p q -> forall i r i', run p i = (r, i') -> r <> inr OutOfFuel -> run q i = (r, i').
Proof.
  induction 1 as [q|a|e|k k' H IH|c p p' H IH|t p p' H IH|u p p' H IH]; intros i r i' R N; cbn [run] in *; eauto.
  - injection R as <- <-. contradiction.
  - destruct (getsc i) as [c j]. eauto.
Qed.
Lemma lep_bind : forall {A B} (p p' : prog A) (f f' : A -> prog B), lep p p' -> (forall a, lep (f a) (f' a)) -> lep (bind p f) (bind p' f').
Proof. intros A B p p' f f' H F. induction H; cbn [bind]; try constructor; auto. Qed.

Ltac lp := repeat match goal with
  | |- lep ?p ?p => apply lep_refl
  | H : _ |- _ => solve [apply H; lia]
  | |- lep (if ?b then _ else _) (if ?b then _ else _) => destruct b
  | |- lep (bind get _) (bind get _) => apply lep_get; intros ?; cbn [bind]; cbv zeta
  | |- lep (bind _ _) (bind _ _) => apply lep_bind
  | |- lep (Unget _ _) (Unget _ _) => apply lep_unget
  | |- lep (Ign _ _) (Ign _ _) => apply lep_ign
  | |- lep (Reread _ _) (Reread _ _) => apply lep_reread
  | |- forall x, _ => intros ?
  | |- lep (match ?x with _ => _ end) (match ?x with _ => _ end) => destruct x
  end.
Lemma arraysub_le : forall n m d acc, n <= m -> lep (arraysub n d acc) (arraysub m d acc).
Proof. induction n as [|n IH]; intros m d acc Le; [apply lep_oof|]. destruct m as [|m]; [lia|]. cbn [arraysub]. lp. Qed.
Lemma brace_le : forall n m s acc, n <= m -> lep (get_brace_var n s acc) (get_brace_var m s acc).
Proof.
  induction n as [|n IH]; intros m s acc Le; [apply lep_oof|]. destruct m as [|m]; [lia|]. cbn [get_brace_var].
  assert (A : forall d a, lep (arraysub n d a) (arraysub m d a)) by (intros; apply arraysub_le; lia). lp.
Qed.
Lemma dollar_le : forall n m c acc, n <= m -> lep (dollar_name n c acc) (dollar_name m c acc).
Proof. induction n as [|n IH]; intros m c acc Le; [apply lep_oof|]. destruct m as [|m]; [lia|]. cbn [dollar_name]. lp. Qed.
Lemma subst_le : forall n m cf c stk out, n <= m -> lep (subst n cf c stk out) (subst m cf c stk out).
Proof.
  intros n m cf c stk out Le. unfold subst, cont. cbv zeta.
  pose proof (fun s a => brace_le n m s a Le) as B. pose proof (fun s a => dollar_le n m s a Le) as D. lp.
Qed.
Lemma sbase2_le : forall n m cf c stk out, n <= m -> lep (sbase2 n cf c stk out) (sbase2 m cf c stk out).
Proof. intros n m cf c stk out Le. unfold sbase2, cont. pose proof (fun st => subst_le n m cf c st out Le) as B. lp. Qed.
Lemma sbase1_le : forall n m cf c stk out, n <= m -> lep (sbase1 n cf c stk out) (sbase1 m cf c stk out).
Proof. intros n m cf c stk out Le. unfold sbase1, cont. pose proof (fun st => sbase2_le n m cf c st out Le) as B. lp. Qed.
Lemma step_le : forall n m cf c stk out, n <= m -> lep (step n cf c stk out) (step m cf c stk out).
Proof.
  intros n m cf c stk out Le. unfold step, close_brace, cont. cbv zeta.
  pose proof (fun st => subst_le n m cf c st out Le) as B0. pose proof (fun st => sbase1_le n m cf c st out Le) as B1.
  pose proof (fun st => sbase2_le n m cf c st out Le) as B2. pose proof (fun d a => arraysub_le n m d a Le) as A.
  destruct stk as [|s rest]; [apply lep_refl|]. destruct s; lp.
Qed.
Lemma loop_le : forall n m cf stk out, n <= m -> lep (loop n cf stk out) (loop m cf stk out).
Proof.
  induction n as [|n IH]; intros m cf stk out Le; [apply lep_oof|]. destruct m as [|m]; [lia|]. cbn [loop].
  assert (S : forall c s o, lep (step n cf c s o) (step m cf c s o)) by (intros; apply step_le; lia). lp.
Qed.
Lemma blanks_le : forall n m, n <= m -> lep (skip_blanks n) (skip_blanks m).
Proof. induction n as [|n IH]; intros m Le; [apply lep_oof|]. destruct m as [|m]; [lia|]. cbn [skip_blanks]. lp. Qed.
Lemma comment_le : forall n m, n <= m -> lep (skip_comment n) (skip_comment m).
Proof. induction n as [|n IH]; intros m Le; [apply lep_oof|]. destruct m as [|m]; [lia|]. cbn [skip_comment]. lp. Qed.
Lemma start_le : forall n m cf, n <= m -> lep (lex_start n cf) (lex_start m cf).
Proof.
  intros n m cf Le. unfold lex_start, start_word. pose proof (blanks_le n m Le) as B. pose proof (comment_le n m Le) as C. lp.
Qed.
Lemma word_le : forall n m sh cf, n <= m -> lep (lex_word n sh cf) (lex_word m sh cf).
Proof.
  intros n m sh cf Le. unfold lex_word. pose proof (fun s o => loop_le n m cf s o Le) as B.
  apply lep_bind; [apply B|]. intros [[c stk] out]. apply lep_refl.
Qed.
Lemma match_le : forall n m sk e acc, n <= m -> lep (here_match n sk e acc) (here_match m sk e acc).
Proof. induction n as [|n IH]; intros m sk e acc Le; [apply lep_oof|]. destruct m as [|m]; [lia|]. cbn [here_match]. lp. Qed.
Lemma line_le : forall n m e acc, n <= m -> lep (here_line n e acc) (here_line m e acc).
Proof. induction n as [|n IH]; intros m e acc Le; [apply lep_oof|]. destruct m as [|m]; [lia|]. cbn [here_line]. lp. Qed.
Lemma here_le : forall n m h acc, n <= m -> lep (here_loop n h acc) (here_loop m h acc).
Proof.
  induction n as [|n IH]; intros m h acc Le; [apply lep_oof|]. destruct m as [|m]; [lia|]. cbn [here_loop].
  pose proof (fun s e a => match_le (S n) (S m) s e a Le) as M. pose proof (fun e a => line_le (S n) (S m) e a Le) as N. lp.
Qed.
Lemma gethere_le : forall hs n m, n <= m -> lep (gethere n hs) (gethere m hs).
Proof.
  induction hs as [|h hs IH]; intros n m Le; cbn [gethere]; unfold readhere; [apply lep_refl|].
  pose proof (fun a => here_le n m h a Le) as H. lp.
Qed.

Theorem yylex_fuel : forall rounds rounds' n n' e cf hs i r, rounds <= rounds' -> n <= n' ->
  yylex rounds n e cf hs i = r -> r <> LErr OutOfFuel -> yylex rounds' n' e cf hs i = r.
Proof.
  induction rounds as [|rounds IH]; intros rounds' n n' e cf hs i r Lr Ln H N; [cbn in H; congruence|].
  destruct rounds' as [|rounds']; [lia|]. cbn [yylex] in *. cbv zeta in *.
  destruct (run (lex_start n cf) (Input (srcs i) 0 0)) as [[u|er] i1] eqn:E1.
  2: { rewrite (lep_run _ _ (start_le n n' cf Ln) _ _ _ E1) by congruence. exact H. }
  rewrite (lep_run _ _ (start_le n n' cf Ln) _ _ _ E1) by congruence.
  set (cf2 := if top_flag i1 && (negb (posix e) || cmdword cf) then with_alias cf else cf) in *. clearbody cf2.
  destruct (run (lex_word n (fsh e) cf2) (clear_flag i1)) as [[t|er] i2] eqn:E2.
  2: { rewrite (lep_run _ _ (word_le n n' (fsh e) cf2 Ln) _ _ _ E2) by congruence. exact H. }
  rewrite (lep_run _ _ (word_le n n' (fsh e) cf2 Ln) _ _ _ E2) by congruence.
  destruct t as [t|].
  - destruct t as [w id| | | | | | | |]; try exact H. destruct id as [|x id]; [exact H|].
    destruct (keyword cf2 && _ && _); [exact H|]. destruct (aliasok cf2 && _); [|exact H].
    destruct (alias_of e (x :: id)) as [v|]; [|exact H]. exact (IH rounds' n n' _ _ _ _ _ ltac:(lia) Ln H N).
  - destruct (run (gethere n hs) i2) as [[b|er] i3] eqn:E3.
    2: { rewrite (lep_run _ _ (gethere_le hs n n' Ln) _ _ _ E3) by congruence. exact H. }
    rewrite (lep_run _ _ (gethere_le hs n n' Ln) _ _ _ E3) by congruence.
    destruct (contin cf2); [|exact H].
    destruct (yylex rounds n e cf2 [] i3) as [t bs j|er] eqn:E4.
    + rewrite (IH rounds' n n' _ _ _ _ _ ltac:(lia) Ln E4) by discriminate. exact H.
    + rewrite (IH rounds' n n' _ _ _ _ _ ltac:(lia) Ln E4) by congruence. exact H.
Qed.
