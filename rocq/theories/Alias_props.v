(** C51: aliases. *)
From Verif Require Import Base Word_model Src_model Src_spec Lex_model Lex_fuel Alias_spec Alias_proof.
Local Open Scope nat_scope.

(** The flags for the first word of a command (syn.c: KEYWORD|ALIAS|VARASN|CMDWORD). *)
Definition cmd_flags : flags := Flags false false true true false true false true false false false.
Definition env_of (al : list (cstr * cstr)) : lenv := LEnv false false [] al.

(** * What is true *)
(** Whatever the aliases are (they may refer to themselves and to each other in any way), reading a
    token ends, if no name of an alias has a bracket in it, no value ends in one of the few ways below
    (good_value), and the input ends in a newline.  This is for every state of the input that can arise,
    also when the aliases change between tokens. *)
Theorem c51_terminates_partial : forall e cf hs i,
  good_aliases e -> reach i -> text_of (srcs i) = [] \/ ends_line (text_of (srcs i)) ->
  exists r, r <> LErr OutOfFuel /\ lexes e cf hs i r.
Proof.
  intros e cf hs i GA R T. destruct (ends e cf hs i GA R T) as [B H].
  exists (yylex B B e cf hs i). split; [apply H; constructor|]. exists B. intros rounds n Lr Ln.
  apply (yylex_fuel B rounds B n); auto.
Qed.
Print Assumptions c51_terminates_partial.
(** No alias is read from within its own text (down to text that is read again after an unclosed
    bracket). *)
Theorem c51_not_nested_partial : forall i, reach i -> not_nested (srcs i).
Proof. intros i R. apply (good_wf i R). Qed.
Print Assumptions c51_not_nested_partial.

(** Three aliases that refer to each other. *)
Definition abc : lenv := env_of [(L "a", L "b x"); (L "b", L "c;a "); (L "c", L "a")].
Definition abc_in : input := Input [Src KStr [] (L "a y" ++ [NL]) false false] 0 0.
Example abc_good : good_aliases abc /\ reach abc_in /\ ends_line (text_of (srcs abc_in)).
Proof.
  split; [|split].
  - assert (G : forall u c, ~ In NUL (u ++ [c]) -> ~ In c [VT; FF; CR; "\"%char] -> c <> NL -> good_value (u ++ [c])).
    { intros u c N H Nl. split; [exact N|]. split.
      - intros u' c' E. apply app_inj_tail in E. destruct E as [_ <-]. exact H.
      - intros u' E. change ["\"%char; NL] with (["\"%char] ++ [NL]) in E. rewrite app_assoc in E. apply app_inj_tail in E. tauto. }
    repeat (constructor; [split; [cbn; intuition discriminate|]|]); [| | |constructor].
    + apply (G (L "b ") "x"%char); cbn; intuition discriminate.
    + apply (G (L "c;a") " "%char); cbn; intuition discriminate.
    + apply (G [] "a"%char); cbn; intuition discriminate.
  - apply reach_str. intros [E|[E|[E|[E|[]]]]]; discriminate E.
  - exists (L "a y"). split; [reflexivity|]. intros [w E]. destruct w as [|? [|? [|? [|]]]]; discriminate.
Qed.
Example abc_runs : exists w i, lexes abc cmd_flags [] abc_in (LTok (LWORD w (L "a")) [] i) /\ act (srcs i) = [L "c"; L "b"; L "a"].
Proof.
  eexists _, _. split.
  - exists 30. intros rounds n Lr Ln. apply (yylex_fuel 30 rounds 30 n); [exact Lr|exact Ln|vm_compute; reflexivity|discriminate].
  - reflexivity.
Qed.

(** * What is not *)
Lemma cycle : forall n e cf hs i0 i i', 
  (forall rounds, yylex (S rounds) n e cf hs i0 = yylex rounds n e cf hs i) ->
  (forall rounds, yylex (S rounds) n e cf hs i = yylex rounds n e cf hs i') ->
  (forall rounds, yylex (S rounds) n e cf hs i' = yylex rounds n e cf hs i') ->
  forall rounds, yylex rounds n e cf hs i0 = LErr OutOfFuel.
Proof.
  intros n e cf hs i0 i i' H0 H1 H2. 
  assert (C : forall rounds, yylex rounds n e cf hs i' = LErr OutOfFuel).
  { induction rounds as [|r IH]; [reflexivity|]. now rewrite H2. }
  intros [|[|r]]; [reflexivity|now rewrite H0|]. rewrite H0, H1. apply C.
Qed.
(** One expansion. *)
Definition expands (n : nat) (e : lenv) (cf : flags) (i i' : input) : Prop :=
  exists i1 w c id i2 v,
    run (lex_start n cf) (Input (srcs i) 0 0) = (inl tt, i1) /\ top_flag i1 = false /\
    run (lex_word n (fsh e) cf) (clear_flag i1) = (inl (Some (LWORD w (c :: id))), i2) /\
    keyword cf && existsb (str_eqb (c :: id)) (keys e) && (negb (esaconly cf) || str_eqb (c :: id) (L "esac") || str_eqb (c :: id) (L "}")) = false /\
    aliasok cf && negb (alias_active (c :: id) (srcs i2)) = true /\ alias_of e (c :: id) = Some v /\
    i' = push_src (Src (KAlias (c :: id) v) [] v false false) i2.
Lemma expands_yylex : forall n e cf hs i i' rounds, expands n e cf i i' ->
  yylex (S rounds) n e cf hs i = yylex rounds n e cf hs i'.
Proof.
  intros n e cf hs i i' rounds [i1 [w [c [id [i2 [v [A [B [C [D [E [F G]]]]]]]]]]]].
  cbn [yylex]. cbv zeta. rewrite A, B. cbn [andb]. rewrite C, D, E, F. now subst i'.
Qed.
Ltac one_round := intros rounds; apply expands_yylex; eexists _, _, _, _, _, _;
  (split; [vm_compute; reflexivity|]); (split; [vm_compute; reflexivity|]); (split; [vm_compute; reflexivity|]);
  (split; [reflexivity|]); (split; [reflexivity|]); (split; reflexivity).
Ltac cyc := eapply cycle; [one_round|one_round|one_round].

(** In the following, 100 is more than enough for the loops over characters: what never ends is the
    expansion. *)
(** alias a=a, and the word a at the end of the input, without a newline (as in $(a)): the alias is
    taken off the stack on reading the end of input, so that it is expanded again, for ever. *)
Theorem c51_end_of_input_refuted : forall rounds,
  yylex rounds 100 (env_of [(L "a", L "a")]) cmd_flags [] (Input [Src KStr [] (L "a") false false] 0 0) = LErr OutOfFuel.
Proof. cyc. Qed.
Print Assumptions c51_end_of_input_refuted.
(** With a newline it ends. *)
Example c51_newline : exists w i,
  yylex 2 12 (env_of [(L "a", L "a")]) cmd_flags [] (Input [Src KStr [] (L "a" ++ [NL]) false false] 0 0) = LTok (LWORD w (L "a")) [] i.
Proof. eexists _, _. vm_compute. reflexivity. Qed.

(** alias a='a VT': an alias that ends in a space character that does not end a word. *)
Theorem c51_vertical_tab_refuted : forall rounds,
  yylex rounds 100 (env_of [(L "a" ++ [VT], L "a" ++ [VT])]) cmd_flags [] (Input [Src KStr [] (L "a" ++ [VT; NL]) false false] 0 0) = LErr OutOfFuel.
Proof. cyc. Qed.
Print Assumptions c51_vertical_tab_refuted.

(** alias a='a\<newline>' *)
Theorem c51_backslash_newline_refuted : forall rounds,
  yylex rounds 100 (env_of [(L "a", L "a\" ++ [NL])]) cmd_flags [] (Input [Src KStr [] (L "a" ++ [NL]) false false] 0 0) = LErr OutOfFuel.
Proof. cyc. Qed.
Print Assumptions c51_backslash_newline_refuted.

(** alias 'x[=x[': the text after the bracket is pushed to be read again, which hides the alias. *)
Definition xb : src := Src (KAlias (L "x[") (L "x[")) [] (L "x[") false false.
Definition nl_again : src := Src KReread [] [NL] false false.
Lemma bracket_grows : forall st, expands 100 (env_of [(L "x[", L "x[")]) cmd_flags (Input (xb :: nl_again :: st) 0 0)
  (Input (xb :: nl_again :: Src (KAlias (L "x[") (L "x[")) [NL] [] false true :: Src KReread [NL] [] false false :: st) 0 0).
Proof.
  intros st. eexists _, _, _, _, _, _.
  (split; [vm_compute; reflexivity|]); (split; [vm_compute; reflexivity|]); (split; [vm_compute; reflexivity|]).
  (split; [reflexivity|]); (split; [reflexivity|]); (split; reflexivity).
Qed.
Theorem c51_bracket_refuted : forall rounds,
  yylex rounds 100 (env_of [(L "x[", L "x[")]) cmd_flags [] (Input [Src KStr [] (L "x[" ++ [NL]) false false] 0 0) = LErr OutOfFuel.
Proof.
  assert (H : forall rounds st, yylex rounds 100 (env_of [(L "x[", L "x[")]) cmd_flags [] (Input (xb :: nl_again :: st) 0 0) = LErr OutOfFuel).
  { induction rounds as [|r IH]; intros st; [reflexivity|]. rewrite (expands_yylex _ _ _ _ _ _ r (bracket_grows st)). apply IH. }
  intros [|r]; [reflexivity|].
  erewrite expands_yylex; [apply H|]. eexists _, _, _, _, _, _.
  (split; [vm_compute; reflexivity|]); (split; [vm_compute; reflexivity|]); (split; [vm_compute; reflexivity|]).
  (split; [reflexivity|]); (split; [reflexivity|]); (split; reflexivity).
Qed.
Print Assumptions c51_bracket_refuted.
