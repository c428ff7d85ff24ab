(** C42: read. *)
From Verif Require Import Base Num_model SimplifyPath_model XString_model Read_model Read_spec Read_proof.
Local Open Scope nat_scope.

(** For every IFS, every input that holds a whole line and all names: exactly the line is
    consumed, the variables get the fields of the specification in order, the history (-s)
    gets the bytes of the line and the status says how the line ended.  When a variable
    cannot be set, read fails there. *)
Theorem c42_read : forall ifs expand savehist St (assign : St -> cstr -> cstr -> option St) names evs st toks e hs rest,
  line expand false evs toks e hs rest ->
  let names' := match names with [] => [L "REPLY"] | _ => names end in
  exists vals ok st' r, values ifs (length names') toks vals /\ assigned assign st names' vals ok st' /\
    c_read ifs expand savehist assign names evs st = Ok r /\
    if ok then r = RDone (exit_code e) (if savehist then Some (hs ++ [NUL]) else None) st' rest
    else exists rest', r = RFailed st' rest'.
Proof.
  intros ifs expand savehist St assign names evs st toks e hs rest LN names'.
  destruct (vars_ok ifs expand savehist assign names' LChar evs (xinit 128) (xinit 128) st toks e hs rest (hist_of savehist [] hs)) as (r & E & vals & ok & st' & V & A & R).
  - eapply line_killed; eauto.
  - destruct names; discriminate.
  - split; unfold X_EXTRA; cbn; auto using Nat.le_0_l.
  - split; unfold X_EXTRA; cbn; auto using Nat.le_0_l.
  - left. auto.
  - exists vals, ok, st', r. split; auto. split; auto. split; auto. unfold hist_of in R. destruct ok; [destruct savehist; auto|].
    destruct R as (rest' & -> & _). eauto.
Qed.
Print Assumptions c42_read.

(** The specification determines the values. *)
Lemma wdelim_dec ifs t : wdelim ifs t \/ ~ wdelim ifs t.
Proof.
  destruct t as [[|] c]; [right; intros (d & E & _); discriminate|].
  destruct (ifs c) eqn:E; [|right; intros (d & [= <-] & X & _); congruence].
  destruct (ifsws c) eqn:W; [left; exists c; rewrite white_ok in W; auto|right; intros (d & [= <-] & _ & X); apply white_ok in X; congruence].
Qed.
Lemma unindented_det ifs toks : forall a b, unindented ifs toks a -> unindented ifs toks b -> a = b.
Proof.
  intros a b (w1 & E1 & F1 & N1) (w2 & E2 & F2 & N2). subst toks. revert w2 E2 F2. induction w1 as [|t w1 IH]; intros w2 E2 F2.
  - destruct w2 as [|t2 w2]; auto. cbn in E2. subst a. exfalso. eapply N1; [reflexivity|]. now inversion F2.
  - destruct w2 as [|t2 w2]; cbn in E2.
    + subst b. exfalso. eapply N2; [reflexivity|]. now inversion F1.
    + injection E2 as -> E2. apply (IH ltac:(now inversion F1) w2); auto. now inversion F2.
Qed.
Lemma stripped_det (P : char -> Prop) : forall v v' tl tl', v ++ tl = v' ++ tl' -> Forall P tl -> Forall P tl' ->
  (forall u c, v = u ++ [c] -> ~ P c) -> (forall u c, v' = u ++ [c] -> ~ P c) -> v = v'.
Proof.
  assert (forall v v' m tl, v = v' ++ m -> Forall P (m ++ tl) -> (forall u c, v = u ++ [c] -> ~ P c) -> v = v') as K.
  { intros v v' m tl E F N. destruct m as [|c m] using rev_ind; [now rewrite app_nil_r in E|]. exfalso. rewrite app_assoc in E.
    apply (N _ _ E). rewrite Forall_forall in F. apply F. rewrite !in_app_iff. left. right. now left. }
  intros v v' tl tl' E F F' N N'. apply app_eq_app in E as (m & [[E ->]|[E ->]]).
  - eapply K; eauto.
  - symmetry. eapply K; eauto.
Qed.
Lemma field_det (P : tok -> Prop) : forall a d r a' d' r', a ++ d :: r = a' ++ d' :: r' -> Forall (fun t => ~ P t) a -> Forall (fun t => ~ P t) a' -> P d -> P d' -> a = a' /\ r = r'.
Proof.
  induction a as [|t a IH]; intros d r [|t' a'] d' r' E F F' D D'; cbn in E; injection E as E1 E2; subst; auto.
  - inversion F'; contradiction.
  - inversion F; contradiction.
  - inversion F; inversion F'; subst. destruct (IH _ _ _ _ _ E2) as [-> ->]; auto.
Qed.
Lemma no_field (P : tok -> Prop) a d r : Forall (fun t => ~ P t) (a ++ d :: r) -> P d -> False.
Proof. intros F D. apply Forall_app in F as [_ F]. inversion F. contradiction. Qed.
Theorem c42_values_unique : forall ifs n toks v v', values ifs n toks v -> values ifs n toks v' -> v = v'.
Proof.
  intros ifs n toks v v' H. revert v'. induction H as [toks body v tail U E F N|n toks body vals U F V IH|n toks fld d rest vals U F D V IH]; intros v' H'.
  - inversion H' as [toks' body' u tail' U' E' F' N'| |]; subst. rewrite (unindented_det _ _ _ _ U' U), E in E'. f_equal. eapply stripped_det; eauto.
  - inversion H' as [|n' toks' body' vals' U' F' V'|n' toks' fld' d' rest' vals' U' F' D' V']; subst.
    + rewrite (unindented_det _ _ _ _ U' U). f_equal. auto.
    + exfalso. rewrite (unindented_det _ _ _ _ U U') in F. eapply no_field; eauto.
  - inversion H' as [|n' toks' body' vals' U' F' V'|n' toks' fld' d' rest' vals' U' F' D' V']; subst.
    + exfalso. rewrite (unindented_det _ _ _ _ U' U) in F'. eapply no_field; eauto.
    + destruct (field_det (delim ifs) _ _ _ _ _ _ (unindented_det _ _ _ _ U U')) as [-> ->]; auto. f_equal. auto.
Qed.
Print Assumptions c42_values_unique.

(** Whatever the input, nothing is stored outside the buffers: read ends, or it waits for
    the rest of a line. *)
Lemma line_dec expand : forall evs esc, (exists toks e hs rest, line expand esc evs toks e hs rest) \/ (forall toks e hs rest, ~ line expand esc evs toks e hs rest).
Proof.
  induction evs as [|x evs IH]; intros esc.
  { right. intros toks e hs rest H. inversion H. }
  destruct x as [c| |[|code]].
  - destruct (ceq_spec c NUL) as [->|NU].
    { destruct (IH esc) as [(toks & e & hs & rest & H)|H]; [left; exists toks, e, hs, rest; apply Ln_noise; auto; now left|right].
      intros toks e hs rest H'. inversion H'; subst; try congruence; eapply H; eauto. }
    destruct esc.
    + destruct (IH false) as [(toks & e & hs & rest & H)|H].
      * left. destruct (ceq_spec c NL) as [->|NN]; [exists toks, e, (NL :: hs), rest; now apply Ln_join|].
        exists (T true c :: toks), e, (c :: hs), rest. now apply Ln_quoted.
      * right. intros toks e hs rest H'. inversion H' as [? ? ? ? ? ? ? NO| | | | | | |]; subst; try (eapply H; eauto; fail). destruct NO; congruence.
    + destruct (ceq_spec c NL) as [->|NN]; [left; do 4 eexists; apply Ln_newline|].
      destruct (expand && ceq c "\") eqn:E.
      * apply andb_true_iff in E as [E1 E2]. apply ceq_true in E2. subst c. destruct (IH true) as [(toks & e & hs & rest & H)|H].
        -- left. do 4 eexists. apply Ln_backslash; eauto.
        -- right. intros toks e hs rest H'. inversion H' as [? ? ? ? ? ? ? NO| | | | | | |]; subst; try (eapply H; eauto; fail); try congruence; try (destruct NO; congruence).
           all: match goal with H : true = true -> _ <> _ |- _ => now apply H end.
      * destruct (IH false) as [(toks & e & hs & rest & H)|H].
        -- left. do 4 eexists. apply Ln_char; eauto. intros ->. now apply ceq_false in E.
        -- right. intros toks e hs rest H'. inversion H' as [? ? ? ? ? ? ? NO| | | | | | |]; subst; try (eapply H; eauto; fail); try congruence; try (destruct NO; congruence).
           all: discriminate.
  - left. do 4 eexists. apply Ln_end.
  - destruct (IH esc) as [(toks & e & hs & rest & H)|H]; [left; exists toks, e, hs, rest; apply Ln_noise; auto; now right|right].
    intros toks e hs rest H'. inversion H' as [? ? ? ? ? ? ? NO| | | | | | |]; subst; [eapply H; eauto|congruence].
  - left. do 4 eexists. apply Ln_killed. discriminate.
Qed.
Theorem c42_total : forall ifs expand savehist St (assign : St -> cstr -> cstr -> option St) names evs st,
  exists r, c_read ifs expand savehist assign names evs st = Ok r /\
    (forall status hist st' rest, r = RDone status hist st' rest -> exists toks e hs, line expand false evs toks e hs rest) /\
    (forall st', r = RWait st' -> forall toks e hs rest, ~ line expand false evs toks e hs rest).
Proof.
  intros ifs expand savehist St assign names evs st. destruct (line_dec expand evs false) as [(toks & e & hs & rest & LN)|N].
  - destruct (c42_read ifs expand savehist St assign names evs st toks e hs rest LN) as (vals & ok & st' & r & _ & _ & E & R).
    exists r. split; auto. destruct ok; [subst r|destruct R as (rest' & ->)]; split; intros; try discriminate. injection H as _ _ _ <-. eauto.
  - destruct (vars_wait ifs expand savehist assign (match names with [] => [L "REPLY"] | _ => names end) evs (xinit 128) (xinit 128) st) as (st' & [E|(rest & E)]); auto.
    + destruct names; discriminate.
    + split; unfold X_EXTRA; cbn; auto using Nat.le_0_l.
    + split; unfold X_EXTRA; cbn; auto using Nat.le_0_l.
    + eexists. split; [exact E|]. split; intros; [discriminate|apply N].
    + eexists. split; [exact E|]. split; intros; discriminate.
Qed.
Print Assumptions c42_total.

(** read -r x: the line without the white space of IFS around it. *)
Lemma raw_line s rest : ~ In NUL s -> ~ In NL s -> line false false (map RByte s ++ RByte NL :: rest) (map (T false) s) Newline (s ++ [NL]) rest.
Proof.
  induction s as [|c s IH]; intros NU NN; [apply Ln_newline|]. cbn. apply Ln_char; [intros ->; apply NN; now left|intros ->; apply NU; now left|discriminate|].
  apply IH; intros I; [apply NU|apply NN]; now right.
Qed.
Theorem c42_one_raw : forall ifs St (assign : St -> cstr -> cstr -> option St) x before v after rest st st',
  Forall (ifswhite ifs) before -> Forall (ifswhite ifs) after -> (forall c u, v = c :: u -> ~ ifswhite ifs c) -> (forall u c, v = u ++ [c] -> ~ ifswhite ifs c) ->
  ~ In NUL (before ++ v ++ after) -> ~ In NL (before ++ v ++ after) -> assign st x v = Some st' ->
  c_read ifs false false assign [x] (map RByte (before ++ v ++ after) ++ RByte NL :: rest) st = Ok (RDone 0 None st' rest).
Proof.
  intros ifs St assign x before v after rest st st' F1 F2 N1 N2 NU NN A.
  destruct (c42_read ifs false false St assign [x] _ st _ _ _ rest (raw_line _ rest NU NN)) as (vals & ok & st2 & r & V & AS & E & R).
  cbn [length] in V.
  assert (values ifs 1 (map (T false) (before ++ v ++ after)) [v]) as V'.
  { assert (forall c, ifswhite ifs c -> wdelim ifs (T false c)) as K by (intros c [X Y]; exists c; auto).
    assert (forall l, map chr (map (T false) l) = l) as MC by (induction l; cbn; congruence).
    assert (forall l, Forall (ifswhite ifs) l -> Forall (wdelim ifs) (map (T false) l)) as KF.
    { induction l as [|c l IH]; intros F; [constructor|]. inversion F; subst. constructor; [now apply K|now apply IH]. }
    destruct v as [|c v].
    - apply (V_last _ _ [] [] []); auto. exists (map (T false) (before ++ after)). rewrite app_nil_r. cbn. split; auto. split; [|discriminate]. apply KF. now apply Forall_app.
    - apply (V_last _ _ (map (T false) ((c :: v) ++ after)) _ after); auto. exists (map (T false) before). rewrite map_app. split; auto. split; auto.
      cbn. intros t r0 [= <- _] (d & [= <-] & X & Y). eapply N1; [reflexivity|]. now split. }
  rewrite (c42_values_unique _ _ _ _ _ V V') in AS. inversion AS; subst; [congruence|].
  match goal with H : assigned _ _ [] [] _ _ |- _ => inversion H; subst end. cbn iota in R. replace st' with st2 by congruence. rewrite E, R. reflexivity.
Qed.
Print Assumptions c42_one_raw.

(** ** Cases *)
Definition ws (s : string) (c : char) : bool := mem c (L s).
Definition app_ (st : list (cstr * cstr)) (n v : cstr) : option (list (cstr * cstr)) := if str_eqb n (L "ro") then None else Some (st ++ [(n, v)]).
Definition rd (i : string) (ex : bool) (names : list cstr) (s : cstr) := c_read (ws i) ex true app_ names (map RByte s) [].
Example c42_ex :
  rd " :" true [L "x"; L "y"] (L "  a:b c: " ++ [NL] ++ L "next") = Ok (RDone 0 (Some (L "  a:b c: " ++ [NL; NUL])) [(L "x", L "a"); (L "y", L "b c:")] (map RByte (L "next")))
  /\ rd " " true [L "x"; L "y"; L "z"] (L "a\ b\" ++ [NL] ++ L "c  d" ++ [NL]) = Ok (RDone 0 (Some (L "a\ b\" ++ [NL] ++ L "c  d" ++ [NL; NUL])) [(L "x", L "a bc"); (L "y", L "d"); (L "z", [])] [])
  /\ rd " " false [L "x"] (L "a\ b\" ++ [NUL; NL]) = Ok (RDone 0 (Some (L "a\ b\" ++ [NL; NUL])) [(L "x", L "a\ b\")] [])
  /\ c_read (ws " ") true false app_ [] [RByte "a"%char; RIntr 0; REof] [] = Ok (RDone 1 None [(L "REPLY", L "a")] [])
  /\ c_read (ws " ") true false app_ [L "x"] [RByte "a"%char; RIntr 130; RByte "b"%char] [] = Ok (RDone 130 None [(L "x", L "a")] [RByte "b"%char])
  /\ rd " " true [L "x"; L "ro"; L "y"] (L "a b c") = Ok (RFailed [(L "x", L "a")] (map RByte (L "c")))
  /\ rd " " true [L "x"] (L "a b c") = Ok (RWait []).
Proof. vm_compute. repeat split. Qed.
Example c42_values_ex : values (ws " :") 2 (map (T false) (L " a:b ")) [L "a"; L "b"].
Proof.
  assert (ifswhite (ws " :") " ") as W by (split; [reflexivity|now left]).
  apply (V_field _ 0 _ [T false "a"%char] (T false ":"%char) [T false "b"%char; T false " "%char]).
  - exists [T false " "%char]. split; [reflexivity|]. split; [repeat constructor; exists " "%char; repeat split; now left|].
    intros t r [= <- _] (d & [= <-] & X & _). discriminate.
  - repeat constructor. intros (d & [= <-] & X). discriminate.
  - now exists ":"%char.
  - apply (V_last _ _ [T false "b"%char; T false " "%char] _ [" "%char]); auto.
    + exists []. split; auto. split; auto. intros t r [= <- _] (d & [= <-] & X & _). discriminate.
    + intros u c E [X _]. destruct u as [|? [|]]; injection E as <- ; discriminate.
Qed.

(** ** Where the behaviour differs from the claim *)
(** A backslash does not keep white space at the end of the line. *)
Theorem c42_quoted_tail_refuted : rd " " true [L "x"] (L "a\ " ++ [NL]) = Ok (RDone 0 (Some (L "a\ " ++ [NL; NUL])) [(L "x", L "a")] []).
Proof. reflexivity. Qed.
Print Assumptions c42_quoted_tail_refuted.
(** White space before another separator makes an additional empty field. *)
Theorem c42_space_before_separator_refuted : rd " :" true [L "x"; L "y"; L "z"] (L "a : b" ++ [NL]) =
  Ok (RDone 0 (Some (L "a : b" ++ [NL; NUL])) [(L "x", L "a"); (L "y", []); (L "z", L "b")] []).
Proof. reflexivity. Qed.
Print Assumptions c42_space_before_separator_refuted.
(** read -s at the end of the input puts a byte into the history that was never read. *)
Theorem c42_history_eof_refuted : c_read (ws " ") true true app_ [L "x"] [RByte "a"%char; REof] [] =
  Ok (RDone 1 (Some ["a"%char; "255"%char; NUL]) [(L "x", L "a")] []).
Proof. reflexivity. Qed.
Print Assumptions c42_history_eof_refuted.
