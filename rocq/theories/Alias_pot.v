(** A measure of the text left to read that counts what can still be expanded. *)
From Verif Require Import Base Src_model Src_spec Src_proof Lex_model Alias_spec.
Local Open Scope nat_scope.

(** The aliases being read, as alias_active sees them. *)
Lemma alias_active_act : forall n st, alias_active n st = existsb (str_eqb n) (act st).
Proof.
  intros n. induction st as [|[k b a fa fe] st IH]; [reflexivity|].
  destruct k; try reflexivity. cbn [alias_active act existsb]. rewrite IH. f_equal.
  destruct (str_eqb name n) eqn:E.
  - apply str_eqb_true in E. subst. symmetry. now apply str_eqb_true.
  - destruct (str_eqb n name) eqn:E2; [|reflexivity]. apply str_eqb_true in E2. subst.
    assert (X : str_eqb name name = true) by now apply str_eqb_true. congruence.
Qed.

(** The alias sources: below one that has not been read to its end is the character after its name. *)
Definition at_sep (st : list src) : Prop :=
  match st with s :: _ => match after s with c :: _ => lex1 c = true | [] => False end | [] => False end.
Fixpoint wfa (st : list src) : Prop :=
  match st with
  | [] => True
  | s :: st =>
    match kind s with
    | KAlias _ v => (if f_end s then Forall (fun c => lex1 c = true) (content s) else good_value v /\ at_sep st) /\ wfa st
    | KReread => wfa st
    | _ => True
    end
  end.
(** Which aliases the next character is read under, and whether it is the last of an alias that then is
    no longer active. *)
Fixpoint nexta (st : list src) : list cstr * bool :=
  match st with
  | [] => ([], false)
  | s :: st' =>
    match after s with
    | c :: r => match kind s with
                | KAlias n v => (n :: act st', match r with [] => f_end s || ends_blank v | _ => false end)
                | _ => ([], false)
                end
    | [] => match kind s with KAlias _ _ | KReread => nexta st' | _ => ([], false) end
    end
  end.

Section Weight.
Variable wt : list cstr -> nat.
Hypothesis wt_pos : forall A, 1 <= wt A.
Hypothesis wt_anti : forall A B, incl A B -> wt B <= wt A.

Fixpoint phi (st : list src) : nat :=
  match st with
  | [] => 0
  | s :: st' =>
    match kind s with
    | KAlias _ _ => length (after s) * wt (act st) + phi st'
    | KReread => length (after s) * wt [] + phi st'
    | _ => length (text_of [s]) * wt []
    end
  end.

Lemma phi_text : forall st, text_of st = [] -> phi st = 0.
Proof.
  induction st as [|[k b a fa fe] st IH]; intros H; [reflexivity|].
  cbn [phi kind after]. destruct k; cbn [text_of] in *; try (now rewrite H).
  - apply app_eq_nil in H. destruct H as [-> H]. cbn. now apply IH.
  - apply app_eq_nil in H. destruct H as [-> H]. cbn. now apply IH.
Qed.
Lemma phi_or : forall fl s st, phi (or_alias fl s :: st) = phi (s :: st).
Proof. intros fl [k b a fa fe] st. destruct k; reflexivity. Qed.
Lemma wfa_or : forall fl s st, wfa (or_alias fl s :: st) <-> wfa (s :: st).
Proof. intros fl [k b a fa fe] st. destruct k; reflexivity. Qed.
Lemma nexta_or : forall fl s st, nexta (or_alias fl s :: st) = nexta (s :: st).
Proof. intros fl [k b a fa fe] st. destruct k; reflexivity. Qed.

Ltac start_or fl s W A :=
  rewrite (wf_or fl) in W; rewrite <- (wfa_or fl) in A; cbn [getsc_raw];
  rewrite <- ?(phi_or fl s), <- ?(nexta_or fl s);
  generalize dependent (or_alias fl s); clear s; intros [k b a fa fe] W A;
  cbn [after kind before f_alias f_end].

(** * One raw character *)
Lemma raw_phi : forall st fl, wf st -> wfa st -> forall c st', getsc_raw fl st = (c, st') ->
  wfa st' /\ (c <> NUL -> phi st' + wt (fst (nexta st)) = phi st /\ incl (fst (nexta st)) (act st')).
Proof.
  induction st as [|s st IH]; intros fl W A; [contradiction|].
  start_or fl s W A. intros c0 st' H.
  destruct a as [|c r].
  - destruct k as [| |ls|ws|ws|n v|]; cbn [nexta after kind fst snd phi] in *.
    + injection H as <- <-. split; [exact I|congruence].
    + injection H as <- <-. split; [exact I|congruence].
    + pose proof (lines_next_ok ls) as Q. destruct (lines_next ls) as [[[c r] ls']|].
      * injection H as <- <-. destruct Q as [Q _]. split; [exact I|]. intros _. split; [|intros x []].
        cbn [take phi kind after text_of app]. rewrite Q. cbn [length]. lia.
      * injection H as <- <-. split; [exact I|congruence].
    + destruct ws as [|[|c r] [|w' ws]]; injection H as <- <-; (split; [exact I|]); intros N; try congruence;
        (split; [|intros x []]); cbn [take phi kind after text_of app words_text length]; lia.
    + destruct ws as [|w ws]; injection H as <- <-; (split; [exact I|]); intros N;
        (split; [|intros x []]); cbn [take phi kind after text_of app words_text length]; lia.
    + destruct W as [_ [_ [_ [B|[U W]]]]]; [contradiction|].
      cbn [wfa kind f_end] in A. destruct A as [A1 A2].
      destruct fe.
      * specialize (IH fa W A2 _ _ H). cbn [length Nat.mul Nat.add]. exact IH.
      * destruct (ends_blank v).
        -- specialize (IH true W A2 _ _ H). cbn [length Nat.mul Nat.add]. exact IH.
        -- destruct (getsc_raw fa st) as [c st1] eqn:E. specialize (IH fa W A2 _ _ E). destruct IH as [I1 I2].
           destruct A1 as [_ S]. destruct st as [|s2 st2]; [contradiction|]. cbn [at_sep] in S.
           assert (Hc : lex1 c = true).
           { cbn [getsc_raw] in E. destruct s2 as [k2 b2 a2 fa2 fe2]. cbn [after or_alias kind before f_alias f_end] in *.
             destruct a2 as [|c2 a2]; [contradiction|]. injection E as <- _. exact S. }
           destruct (is_nul c) eqn:En.
           ++ injection H as <- <-. split; [|congruence]. destruct st1 as [|s1 st1]; exact I.
           ++ injection H as <- <-. split.
              ** cbn [wfa kind f_end content before after rev app]. split; [|exact I1].
                 constructor; [exact Hc|constructor].
              ** intros N. destruct (I2 N) as [J1 J2]. split.
                 --- cbn [phi kind after length Nat.mul Nat.add] in *. exact J1.
                 --- cbn [act]. intros x Hx. right. now apply J2.
    + destruct W as [_ [_ [_ [B|[U W]]]]]; [contradiction|]. cbn [wfa kind] in A. exact (IH false W A _ _ H).
  - injection H as <- <-. destruct k as [| |ls|ws|ws|n v|]; cbn [nexta after kind fst snd phi] in *.
    1-4: (split; [exact I|]); intros N; (split; [|intros x []]); cbn [text_of app length]; lia.
    + (split; [exact I|]); intros N; (split; [|intros x []]); destruct ws; cbn [text_of app length]; lia.
    + cbn [wfa kind f_end content before after] in *. destruct A as [A1 A2]. split.
      * split; [|exact A2]. destruct fe; [|exact A1]. unfold content in *; cbn [before after rev] in *. now rewrite <- app_assoc.
      * intros N. split; [|cbn [act]; apply incl_refl]. cbn [act length]. lia.
    + cbn [wfa kind] in *. split; [exact A|]. intros N. split; [|intros x []]. cbn [length]. lia.
Qed.

Lemma ends_blank_snoc : forall u c, ends_blank (u ++ [c]) = isspace c.
Proof. intros u c. unfold ends_blank. now rewrite rev_app_distr. Qed.
Lemma space_lex1 : forall c, isspace c = true -> ~ In c [VT; FF; CR; "\"%char] -> lex1 c = true.
Proof.
  intros c H N. destruct (ascii_dec c SP) as [->|]; [reflexivity|]. destruct (ascii_dec c TAB) as [->|]; [reflexivity|].
  destruct (ascii_dec c NL) as [->|]; [reflexivity|]. exfalso. apply N.
  destruct c as [[] [] [] [] [] [] [] []]; try discriminate H; cbn; auto; contradiction.
Qed.
(** The last character of an alias that stops being active ends a word. *)
Lemma exc_lex1 : forall st fl, wf st -> wfa st -> forall c st', getsc_raw fl st = (c, st') ->
  snd (nexta st) = true -> lex1 c = true.
Proof.
  induction st as [|s st IH]; intros fl W A; [contradiction|].
  start_or fl s W A. intros c0 st' H X.
  destruct a as [|c r].
  - destruct k as [| |ls|ws|ws|n v|]; cbn [nexta after kind fst snd] in *; try discriminate.
    + destruct W as [_ [_ [_ [B|[U W]]]]]; [contradiction|].
      cbn [wfa kind f_end] in A. destruct A as [A1 A2].
      destruct fe; [exact (IH fa W A2 _ _ H X)|].
      destruct (ends_blank v); [exact (IH true W A2 _ _ H X)|].
      destruct (getsc_raw fa st) as [c st1] eqn:E. specialize (IH fa W A2 _ _ E X).
      destruct (is_nul c) eqn:En; injection H as <- <-; [reflexivity|exact IH].
    + destruct W as [_ [_ [_ [B|[U W]]]]]; [contradiction|]. exact (IH false W A _ _ H X).
  - injection H as <- <-. destruct k as [| |ls|ws|ws|n v|]; cbn [nexta after kind fst snd] in *; try discriminate.
    destruct r; [|discriminate]. destruct W as [_ [_ [_ [B|[U W]]]]]; [contradiction|].
    cbn [wfa kind f_end] in A. destruct A as [A1 _]. unfold upper_ok in U. cbn [kind f_end] in U. unfold content in *. cbn [before after] in *.
    destruct fe.
    + rewrite Forall_forall in A1. apply A1. apply in_or_app. right. now left.
    + cbn [orb] in X. rewrite <- U, ends_blank_snoc in X. destruct A1 as [[_ [G _]] _]. apply space_lex1; [exact X|].
      apply (G (rev b)). now rewrite U.
Qed.

(** Reading on from there, the aliases of the character read are still active. *)
Definition nxt (st : list src) (A : list cstr) : Prop :=
  forall fl d st2, getsc_raw fl st = (d, st2) -> d <> NUL -> d <> bs -> incl A (act st2).
Lemma raw_next : forall st fl, wf st -> wfa st -> forall c st1, getsc_raw fl st = (c, st1) -> c <> NUL ->
  snd (nexta st) = false -> nxt st1 (fst (nexta st)).
Proof.
  induction st as [|s st IH]; intros fl W A; [contradiction|].
  start_or fl s W A. intros c0 st1 H N X.
  destruct a as [|c r].
  - destruct k as [| |ls|ws|ws|n v|]; cbn [nexta after kind fst snd] in *; try solve [intros fl2 d st2 _ _ _ x []].
    + destruct W as [_ [_ [_ [B|[U W]]]]]; [contradiction|].
      cbn [wfa kind f_end] in A. destruct A as [A1 A2].
      destruct fe; [exact (IH fa W A2 _ _ H N X)|].
      destruct (ends_blank v); [exact (IH true W A2 _ _ H N X)|].
      destruct (getsc_raw fa st) as [c st1'] eqn:E.
      destruct (is_nul c) eqn:En; injection H as <- <-; [congruence|].
      specialize (IH fa W A2 _ _ E N X). intros fl2 d st2 H2 N2 B2.
      cbn [getsc_raw or_alias after kind f_end f_alias] in H2. exact (IH _ _ _ H2 N2 B2).
    + destruct W as [_ [_ [_ [B|[U W]]]]]; [contradiction|]. exact (IH false W A _ _ H N X).
  - injection H as <- <-. destruct k as [| |ls|ws|ws|n v|]; cbn [nexta after kind fst snd] in *; try solve [intros fl2 d st2 _ _ _ x []].
    intros fl2 d st2 H2 N2 B2.
    cbn [getsc_raw or_alias after kind f_end f_alias before] in H2. destruct r as [|d' r].
    + cbn [f_end] in X. apply Bool.orb_false_iff in X. destruct X as [-> X]. rewrite X in H2.
      destruct (getsc_raw (fa || fl2) st) as [d' st'] eqn:E.
      destruct (is_nul d') eqn:En; injection H2 as <- <-; [congruence|]. cbn [act].
      cbn [wfa kind f_end] in A. destruct A as [[_ S] A2].
      destruct st as [|[k2 b2 a2 fa2 fe2] st2]; [contradiction|]. cbn [at_sep after] in S. destruct a2 as [|c2 a2]; [contradiction|].
      cbn [getsc_raw or_alias after kind f_end f_alias before] in E. injection E as <- <-.
      cbn [act]. apply incl_refl.
    + injection H2 as <- <-. cbn [act]. apply incl_refl.
Qed.

(** After a backslash of an alias there is more of that alias. *)
Definition more (st : list src) : Prop :=
  exists n v b d a fa st', st = Src (KAlias n v) (bs :: b) (d :: a) fa false :: st'.
Lemma raw_bs : forall st fl, wf st -> wfa st -> forall st1, getsc_raw fl st = (bs, st1) ->
  fst (nexta st) = [] \/ (more st1 /\ fst (nexta st) = act st1).
Proof.
  induction st as [|s st IH]; intros fl W A; [contradiction|].
  start_or fl s W A. intros st1 H.
  destruct a as [|c r].
  - destruct k as [| |ls|ws|ws|n v|]; cbn [nexta after kind fst snd] in *; try (now left).
    + destruct W as [_ [_ [_ [B|[U W]]]]]; [contradiction|].
      cbn [wfa kind f_end] in A. destruct A as [A1 A2].
      destruct fe; [exact (IH fa W A2 _ H)|].
      destruct (ends_blank v); [exact (IH true W A2 _ H)|].
      destruct (getsc_raw fa st) as [c st1'] eqn:E.
      destruct (is_nul c) eqn:En; [discriminate|]. injection H as -> <-. exfalso.
      destruct A1 as [_ S]. destruct st as [|[k2 b2 a2 fa2 fe2] st2]; [contradiction|]. cbn [at_sep after] in S. destruct a2 as [|c2 a2]; [contradiction|].
      cbn [getsc_raw or_alias after kind f_end f_alias before] in E. injection E as -> _. discriminate.
    + destruct W as [_ [_ [_ [B|[U W]]]]]; [contradiction|]. exact (IH false W A _ H).
  - injection H as -> <-. destruct k as [| |ls|ws|ws|n v|]; cbn [nexta after kind fst snd] in *; try (now left).
    right. split; [|reflexivity].
    destruct W as [_ [_ [_ [B|[U W]]]]]; [contradiction|].
    cbn [wfa kind f_end] in A. destruct A as [A1 _]. unfold upper_ok in U. cbn [kind f_end] in U. unfold content in *. cbn [before after] in *.
    destruct fe.
    + rewrite Forall_forall in A1. assert (X : lex1 bs = true) by (apply A1; apply in_or_app; right; now left). discriminate.
    + destruct r as [|d r].
      * destruct A1 as [[_ [G _]] _]. exfalso. apply (G (rev b) bs); [now rewrite U|cbn; auto].
      * exists n, v, b, d, r, fa, st. reflexivity.
Qed.

(** * Putting back *)
Lemma unget_phi : forall c st, wfa st ->
  wfa (unget_srcs c st) /\ phi (unget_srcs c st) <= phi st + wt [] /\
  (forall s r b, st = s :: r -> before s = c :: b -> c <> NUL ->
     phi (unget_srcs c st) = phi st + wt (act st) /\ act (unget_srcs c st) = act st /\
     exists s' x, unget_srcs c st = s' :: r /\ after s' = c :: x).
Proof.
  intros c st A. destruct st as [|[k b a fa fe] st].
  { split; [exact I|]. split; [cbn; lia|]. intros; discriminate. }
  unfold unget_srcs. destruct (is_null_src (Src k b a fa fe) && is_nul c) eqn:E.
  { split; [exact A|]. split; [lia|]. intros s r b0 H H2 N. apply andb_prop in E. destruct E as [_ E].
    apply is_nul_true in E. contradiction. }
  cbn [before]. destruct b as [|b0 b].
  { split; [exact A|]. split; [cbn [phi kind after length]; lia|]. intros s r b1 H H2 N. injection H as <- <-. discriminate. }
  cbn [kind after f_alias f_end].
  assert (Q : wfa (Src k b (b0 :: a) fa fe :: st) /\ phi (Src k b (b0 :: a) fa fe :: st) = phi (Src k (b0 :: b) a fa fe :: st) + wt (act (Src k (b0 :: b) a fa fe :: st)) /\
    act (Src k b (b0 :: a) fa fe :: st) = act (Src k (b0 :: b) a fa fe :: st)).
  { destruct k as [| |ls|ws|ws|n v|]; cbn [phi kind after act wfa f_end] in *.
    1-4: (split; [exact I|]); split; [cbn [text_of app length]; lia|reflexivity].
    - (split; [exact I|]); split; [destruct ws; cbn [text_of app length]; lia|reflexivity].
    - split; [|split; [cbn [length]; lia|reflexivity]]. destruct A as [A1 A2]. split; [|exact A2].
      destruct fe; [|exact A1]. unfold content in *. cbn [before after rev] in *. now rewrite <- app_assoc in A1.
    - split; [exact A|]. split; [cbn [length]; lia|reflexivity]. }
  destruct Q as [Q1 [Q2 Q3]]. split; [exact Q1|]. split.
  - rewrite Q2. assert (wt (act (Src k (b0 :: b) a fa fe :: st)) <= wt []) by (apply wt_anti; intros x []). lia.
  - intros s r b1 H H2 N. injection H as <- <-. cbn [before] in H2. injection H2 as -> ->.
    split; [exact Q2|]. split; [exact Q3|]. eexists _, _. split; reflexivity.
Qed.

(** * One character *)
Definition gets (c : char) (st st' : list src) : Prop :=
  wfa st' /\ phi st' + 1 <= phi st /\
  wfa (unget_srcs c st') /\ phi (unget_srcs c st') <= phi st /\
  (c <> bs -> forall A p, phi st + wt A <= p -> nxt st A ->
     phi (unget_srcs c st') + wt (act (unget_srcs c st')) <= p /\
     nxt (unget_srcs c st') (act (unget_srcs c st')) /\
     (lex1 c = true -> at_sep (unget_srcs c st'))) /\
  (c <> bs -> lex1 c = false -> exists A, phi st' + wt A <= phi st /\ nxt st' A).

Lemma gets_raw : forall st fl c st', wf st -> wfa st -> getsc_raw fl st = (c, st') -> c <> NUL -> gets c st st'.
Proof.
  intros st fl c st' W A H N.
  destruct (raw_phi st fl W A c st' H) as [A1 A2]. destruct (A2 N) as [P1 P2].
  pose proof (getsc_raw_ok st fl W) as [W' R]. rewrite H in *. cbn [fst snd] in *.
  destruct (text_of st) as [|x t]; [destruct R; contradiction|]. destruct R as [<- [_ [_ [[s [r [b [-> Hb]]]] _]]]].
  destruct (unget_phi c (s :: r) A1) as [U1 [U2 U3]]. destruct (U3 s r b eq_refl Hb N) as [U4 [U5 [s' [x' [U6 U7]]]]].
  assert (LE : wt (act (s :: r)) <= wt (fst (nexta st))) by now apply wt_anti.
  pose proof (wt_pos (fst (nexta st))).
  unfold gets. split; [exact A1|]. split; [lia|]. split; [exact U1|]. split; [lia|]. split.
  - intros B A0 p Hp Q. specialize (Q fl c (s :: r) H N B). apply wt_anti in Q. split; [rewrite U5; lia|]. split.
    + intros fl2 d st2 H2 _ _. rewrite U6 in H2. cbn [getsc_raw] in H2. destruct s' as [k' b' a' fa' fe'].
      cbn [after] in U7. subst a'. cbn [or_alias after kind before f_alias f_end] in H2. injection H2 as <- <-.
      rewrite U6. apply incl_refl.
    + intros L1. rewrite U6. cbn [at_sep]. now rewrite U7.
  - intros B L1. exists (fst (nexta st)). split; [lia|].
    apply (raw_next st fl W A c _ H N). destruct (snd (nexta st)) eqn:E; [|reflexivity].
    pose proof (exc_lex1 st fl W A c _ H E). congruence.
Qed.

Lemma nuls_raw : forall st fl c st', wf st -> getsc_raw fl st = (c, st') -> wf st' /\ (c = NUL -> text_of st' = []).
Proof.
  intros st fl c st' W H. pose proof (getsc_raw_ok st fl W) as [W' R]. rewrite H in *. cbn [fst snd] in *.
  split; [exact W'|]. intros ->. destruct (text_of st); destruct R as [R1 R]; [tauto|]. destruct R as [_ [R _]]. contradiction.
Qed.

(** Backslash-newline is skipped. *)
Lemma join_pair : forall st fl st1 st2, wf st -> wfa st ->
  getsc_raw fl st = (bs, st1) -> getsc_raw false st1 = (NL, st2) ->
  wfa st2 /\ exists A, phi st2 + wt A <= phi st /\ nxt st2 A.
Proof.
  intros st fl st1 st2 W A H1 H2.
  destruct (nuls_raw _ _ _ _ W H1) as [W1 _].
  destruct (raw_phi st fl W A bs st1 H1) as [A1 P1]. destruct (P1 ltac:(discriminate)) as [P2 P3].
  destruct (raw_phi st1 false W1 A1 NL st2 H2) as [A2 Q1]. destruct (Q1 ltac:(discriminate)) as [Q2 Q3].
  pose proof (wt_pos (fst (nexta st1))).
  split; [exact A2|]. exists (fst (nexta st)). split; [lia|].
  destruct (raw_bs st fl W A st1 H1) as [E|[M E]].
  - rewrite E. intros fl2 d st3 _ _ _ x [].
  - destruct M as [n [v [b [d [a [fa [st' ->]]]]]]].
    cbn [getsc_raw or_alias after kind before f_alias f_end] in H2. injection H2 as -> <-.
    rewrite E. cbn [act]. intros fl2 d st3 H3 N3 _.
    cbn [getsc_raw or_alias after kind before f_alias f_end] in H3.
    destruct a as [|d' a].
    + exfalso. destruct W1 as [_ [_ [_ [B|[U W1]]]]]; [contradiction|].
      cbn [upper_ok kind f_end content before after] in U. cbn [wfa kind f_end] in A1. destruct A1 as [[[_ [_ G]] _] _].
      apply (G (rev b)). rewrite <- U. unfold content. cbn [before after rev]. now rewrite <- app_assoc.
    + injection H3 as <- <-. cbn [act]. apply incl_refl.
Qed.
(** A backslash, with the next character looked at. *)
Lemma bs_look : forall st fl st1 c2 st2, wf st -> wfa st ->
  getsc_raw fl st = (bs, st1) -> getsc_raw false st1 = (c2, st2) ->
  gets bs st (unget_srcs c2 st2).
Proof.
  intros st fl st1 c2 st2 W A H1 H2.
  destruct (nuls_raw _ _ _ _ W H1) as [W1 _].
  destruct (raw_phi st fl W A bs st1 H1) as [A1 P1]. destruct (P1 ltac:(discriminate)) as [P2 P3].
  destruct (raw_phi st1 false W1 A1 c2 st2 H2) as [A2 Q1].
  destruct (nuls_raw _ _ _ _ W1 H2) as [W2 N2].
  assert (PH : wfa (unget_srcs c2 st2) /\ phi (unget_srcs c2 st2) <= phi st1).
  { destruct (is_nul c2) eqn:En.
    - apply is_nul_true in En. subst c2. specialize (N2 eq_refl).
      pose proof (getsc_raw_ok st1 false W1) as [_ R]. rewrite H2 in R. cbn [fst snd] in R.
      assert (exists s r, st2 = eof_src s :: r) as [s [r ->]].
      { destruct (text_of st1); [tauto|]. destruct R as [_ [_ [R _]]]. contradiction. }
      cbn. split; [exact I|lia].
    - apply is_nul_false in En. destruct (gets_raw st1 false c2 st2 W1 A1 H2 En) as [_ [_ [G1 [G2 _]]]]. split; assumption. }
  destruct PH as [PH1 PH2]. pose proof (wt_pos (fst (nexta st))).
  destruct (unget_phi bs _ PH1) as [U1 [U2 U3]].
  unfold gets. split; [exact PH1|]. split; [lia|]. split; [exact U1|]. split; [|split; intros; contradiction].
  destruct (raw_bs st fl W A st1 H1) as [E|[M E]].
  - rewrite E in *. lia.
  - destruct M as [n [v [b [d [a [fa [st' ->]]]]]]].
    cbn [getsc_raw or_alias after kind before f_alias f_end] in H2. injection H2 as <- <-.
    cbn [unget_srcs is_null_src kind after andb before f_alias f_end] in *.
    specialize (U3 _ st' b eq_refl eq_refl ltac:(discriminate)). destruct U3 as [U3 _].
    rewrite Bool.orb_false_r in *. rewrite E in P2. cbn [act phi kind after] in *. lia.
Qed.
Lemma gets_trans : forall c st st1 st', (wfa st1 /\ exists A, phi st1 + wt A <= phi st /\ nxt st1 A) ->
  gets c st1 st' -> gets c st st'.
Proof.
  intros c st st1 st' [_ [A [A1 A2]]] [G1 [G2 [G3 [G4 [G5 G6]]]]]. pose proof (wt_pos A).
  unfold gets. split; [exact G1|]. split; [lia|]. split; [exact G3|]. split; [lia|]. split.
  - intros B A0 p Hp _. destruct (G5 B A (phi st) A1 A2) as [K1 [K2 K3]]. split; [lia|]. split; assumption.
  - intros B L1. destruct (G6 B L1) as [A' [K1 K2]]. exists A'. split; [lia|assumption].
Qed.

Lemma bn_loop_gets : forall n i c i', wf (srcs i) -> wfa (srcs i) -> bn_loop n i = (c, i') -> c <> NUL ->
  gets c (srcs i) (srcs i').
Proof.
  induction n as [|n IH]; intros i c i' W A H N; cbn [bn_loop] in H; [injection H as <- <-; contradiction|].
  destruct (getsc_raw false (srcs i)) as [c1 st1] eqn:E1. cbn [srcs bskip ign] in H.
  destruct (ceq_spec c1 "\"%char) as [->|Nb].
  - destruct (getsc_raw false st1) as [c2 st2] eqn:E2. cbn [srcs bskip ign] in H.
    destruct (nuls_raw _ _ _ _ W E1) as [W1 _]. destruct (nuls_raw _ _ _ _ W1 E2) as [W2 _].
    destruct (ceq_spec c2 NL) as [->|Nn].
    + pose proof (join_pair _ _ _ _ W A E1 E2) as J. destruct J as [J1 J2].
      apply (gets_trans c (srcs i) st2); [split; assumption|].
      apply (IH (Input st2 (bskip i) (ign i)) c i'); assumption.
    + injection H as <- <-. cbn [srcs ungetsc]. exact (bs_look _ _ _ _ _ W A E1 E2).
  - injection H as <- <-. cbn [srcs]. exact (gets_raw _ _ _ _ W A E1 N).
Qed.
Theorem getsc_gets : forall i c i', wf (srcs i) -> wfa (srcs i) -> getsc i = (c, i') -> c <> NUL ->
  gets c (srcs i) (srcs i').
Proof.
  intros i c i' W A H N.
  assert (BN : getsc_bn i = (c, i') -> gets c (srcs i) (srcs i')).
  { unfold getsc_bn. destruct (Nat.ltb 0 (ign i)).
    - destruct (getsc_raw false (srcs i)) as [c1 st1] eqn:E1. intros X. injection X as <- <-. exact (gets_raw _ _ _ _ W A E1 N).
    - destruct (Nat.eqb (bskip i) 1).
      + destruct (getsc_raw false (srcs i)) as [c1 st1] eqn:E1. intros X. injection X as <- <-. exact (gets_raw _ _ _ _ W A E1 N).
      + intros X. apply bn_loop_gets in X; assumption. }
  unfold getsc in H. destruct i as [st k g]. cbn [srcs bskip ign] in *. destruct st as [|[kd b a fa fe] st]; [auto|].
  destruct a as [|c1 r]; [auto|]. destruct (negb (ceq c1 "\") && (k =? 0)) eqn:E; [|auto].
  injection H as <- <-. cbn [srcs]. apply (gets_raw _ false c1); try assumption.
  cbn [getsc_raw or_alias after kind before f_alias f_end]. now rewrite Bool.orb_false_r.
Qed.

(** The end of the input. *)
Lemma bn_loop_wfa : forall n i c i', wf (srcs i) -> wfa (srcs i) -> bn_loop n i = (c, i') -> wfa (srcs i').
Proof.
  induction n as [|n IH]; intros i c i' W A H; cbn [bn_loop] in H; [injection H as <- <-; assumption|].
  destruct (getsc_raw false (srcs i)) as [c1 st1] eqn:E1. cbn [srcs bskip ign] in H.
  destruct (nuls_raw _ _ _ _ W E1) as [W1 _]. destruct (raw_phi _ _ W A _ _ E1) as [A1 _].
  destruct (ceq c1 "\"%char).
  - destruct (getsc_raw false st1) as [c2 st2] eqn:E2. cbn [srcs bskip ign] in H.
    destruct (nuls_raw _ _ _ _ W1 E2) as [W2 _]. destruct (raw_phi _ _ W1 A1 _ _ E2) as [A2 _].
    destruct (ceq c2 NL).
    + apply (IH (Input st2 (bskip i) (ign i)) c i'); assumption.
    + injection H as <- <-. cbn [srcs ungetsc]. apply unget_phi. exact A2.
  - injection H as <- <-. exact A1.
Qed.
Lemma getsc_wfa : forall i c i', wf (srcs i) -> wfa (srcs i) -> getsc i = (c, i') -> wfa (srcs i').
Proof.
  intros i c i' W A H.
  assert (BN : getsc_bn i = (c, i') -> wfa (srcs i')).
  { unfold getsc_bn. destruct (Nat.ltb 0 (ign i)).
    - destruct (getsc_raw false (srcs i)) as [c1 st1] eqn:E1. intros X. injection X as <- <-. exact (proj1 (raw_phi _ _ W A _ _ E1)).
    - destruct (Nat.eqb (bskip i) 1).
      + destruct (getsc_raw false (srcs i)) as [c1 st1] eqn:E1. intros X. injection X as <- <-. exact (proj1 (raw_phi _ _ W A _ _ E1)).
      + intros X. apply bn_loop_wfa in X; assumption. }
  unfold getsc in H. destruct i as [st k g]. cbn [srcs bskip ign] in *. destruct st as [|[kd b a fa fe] st]; [auto|].
  destruct a as [|c1 r]; [auto|]. destruct (negb (ceq c1 "\") && (k =? 0)) eqn:E; [|auto].
  injection H as <- <-. cbn [srcs]. 
  assert (E1 : getsc_raw false (Src kd b (c1 :: r) fa fe :: st) = (c1, Src kd (c1 :: b) r fa fe :: st))
    by (cbn [getsc_raw or_alias after kind before f_alias f_end]; now rewrite Bool.orb_false_r).
  exact (proj1 (raw_phi _ _ W A _ _ E1)).
Qed.
End Weight.

(** * Aliases are not nested *)
Lemma nn_same : forall k b a fa fe k' b' a' fa' fe' st, not_nested (Src k b a fa fe :: st) ->
  match k' with KAlias n _ => (exists v, k = KAlias n v) | _ => True end -> not_nested (Src k' b' a' fa' fe' :: st).
Proof.
  intros k b a fa fe k' b' a' fa' fe' st [H1 H2] K. cbn [kind] in *. split; [|exact H2]. cbn [kind].
  destruct k'; try exact I. destruct K as [v ->]. exact H1.
Qed.
Lemma raw_nn : forall st fl c st', wfa st -> not_nested st -> getsc_raw fl st = (c, st') -> not_nested st'.
Proof.
  induction st as [|[k b a fa fe] st IH]; intros fl c st' A N H; [injection H as <- <-; exact I|].
  cbn [getsc_raw or_alias after kind before f_alias f_end] in H. destruct a as [|x r].
  - destruct k as [| |ls|ws|ws|n v|]; cbn [wfa kind f_end] in A.
    + injection H as <- <-. exact (nn_same _ _ _ _ _ KEof _ _ _ _ _ N I).
    + injection H as <- <-. exact (nn_same _ _ _ _ _ KEof _ _ _ _ _ N I).
    + destruct (lines_next ls) as [[[y r] ls']|]; injection H as <- <-; (eapply nn_same; [exact N|exact I]).
    + destruct ws as [|[|y r] [|w' ws]]; injection H as <- <-; (eapply nn_same; [exact N|exact I]).
    + destruct ws as [|w ws]; injection H as <- <-; (eapply nn_same; [exact N|exact I]).
    + destruct A as [A1 A2]. destruct N as [N1 N2]. cbn [kind] in N1.
      destruct fe; [exact (IH _ _ _ A2 N2 H)|]. destruct (ends_blank v); [exact (IH _ _ _ A2 N2 H)|].
      destruct (getsc_raw (fa || fl) st) as [y st1] eqn:E. pose proof (IH _ _ _ A2 N2 E) as N3.
      destruct A1 as [_ S]. destruct st as [|[k2 b2 a2 fa2 fe2] st2]; [contradiction|]. cbn [at_sep after] in S. destruct a2 as [|c2 a2]; [contradiction|].
      cbn [getsc_raw or_alias after kind f_end f_alias before] in E. injection E as <- <-.
      destruct (is_nul c2); injection H as <- <-.
      * cbn [eof_top eof_src f_alias f_end]. eapply nn_same; [exact N3|exact I].
      * split; [|exact N3]. exact N1.
    + exact (IH _ _ _ A (proj2 N) H).
  - injection H as <- <-. eapply nn_same; [exact N|]. destruct k; try exact I. now exists val.
Qed.
Lemma unget_nn : forall c st, not_nested st -> not_nested (unget_srcs c st).
Proof.
  intros c [|[k b a fa fe] st] N; [exact I|]. unfold unget_srcs. destruct (is_null_src _ && is_nul c); [exact N|].
  cbn [before kind after f_alias f_end]. destruct b as [|b0 b]; [split; [exact I|exact N]|].
  eapply nn_same; [exact N|]. destruct k; try exact I. now exists val.
Qed.
Lemma raw_wfa : forall st fl, wf st -> wfa st -> forall c st', getsc_raw fl st = (c, st') -> wfa st'.
Proof. intros st fl W A c st' H. exact (proj1 (raw_phi (fun _ => 1) (fun _ => le_n _) (fun _ _ _ => le_n _) st fl W A c st' H)). Qed.
Lemma bn_loop_nn : forall n i c i', wf (srcs i) -> wfa (srcs i) -> not_nested (srcs i) -> bn_loop n i = (c, i') -> not_nested (srcs i').
Proof.
  induction n as [|n IH]; intros i c i' W A N H; cbn [bn_loop] in H; [injection H as <- <-; assumption|].
  destruct (getsc_raw false (srcs i)) as [c1 st1] eqn:E1. cbn [srcs bskip ign] in H.
  destruct (nuls_raw _ _ _ _ W E1) as [W1 _]. pose proof (raw_wfa _ _ W A _ _ E1) as A1. pose proof (raw_nn _ _ _ _ A N E1) as N1.
  destruct (ceq c1 "\"%char).
  - destruct (getsc_raw false st1) as [c2 st2] eqn:E2. cbn [srcs bskip ign] in H.
    destruct (nuls_raw _ _ _ _ W1 E2) as [W2 _]. pose proof (raw_wfa _ _ W1 A1 _ _ E2) as A2. pose proof (raw_nn _ _ _ _ A1 N1 E2) as N2.
    destruct (ceq c2 NL).
    + apply (IH (Input st2 (bskip i) (ign i)) c i'); assumption.
    + injection H as <- <-. cbn [srcs ungetsc]. apply unget_nn. exact N2.
  - injection H as <- <-. exact N1.
Qed.
Lemma getsc_nn : forall i c i', wf (srcs i) -> wfa (srcs i) -> not_nested (srcs i) -> getsc i = (c, i') -> not_nested (srcs i').
Proof.
  intros i c i' W A N H.
  assert (BN : getsc_bn i = (c, i') -> not_nested (srcs i')).
  { unfold getsc_bn. destruct (Nat.ltb 0 (ign i)).
    - destruct (getsc_raw false (srcs i)) as [c1 st1] eqn:E1. intros X. injection X as <- <-. exact (raw_nn _ _ _ _ A N E1).
    - destruct (Nat.eqb (bskip i) 1).
      + destruct (getsc_raw false (srcs i)) as [c1 st1] eqn:E1. intros X. injection X as <- <-. exact (raw_nn _ _ _ _ A N E1).
      + intros X. apply bn_loop_nn in X; assumption. }
  unfold getsc in H. destruct i as [st k g]. cbn [srcs bskip ign] in *. destruct st as [|[kd b a fa fe] st]; [auto|].
  destruct a as [|c1 r]; [auto|]. destruct (negb (ceq c1 "\") && (k =? 0)) eqn:E; [|auto].
  injection H as <- <-. cbn [srcs]. eapply nn_same; [exact N|]. destruct kd; try exact I. now exists val.
Qed.
