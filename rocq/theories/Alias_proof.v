(** The expansion of aliases ends. *)
From Verif Require Import Base Word_model Src_model Src_spec Src_proof Lex_model Lex_sim Alias_spec Alias_pot Alias_wp Alias_word.
Local Open Scope nat_scope.

Lemma run_bind : forall {A B} (p : prog A) (f : A -> prog B) i,
  run (bind p f) i = match run p i with (inl a, i) => run (f a) i | (inr e, i) => (inr e, i) end.
Proof.
  intros A B p f. induction p as [a|k IH|c p IH|t p IH|u p IH|e]; intros i; cbn [bind run]; auto.
  destruct (getsc i) as [c i']. apply IH.
Qed.

(** * The text left *)
Lemma ends_suf : forall s t, ends_line t -> suf s t -> s <> [] -> ends_line s.
Proof.
  intros s t [u [-> H]] [p E] N. destruct (exists_last N) as [s' [x ->]].
  rewrite app_assoc in E. apply app_inj_tail in E. destruct E as [-> <-]. exists s'. split; [reflexivity|].
  intros [w ->]. apply H. exists (p ++ w). now rewrite app_assoc.
Qed.
Lemma ends_ne : forall t, ends_line t -> t <> [].
Proof. intros t [u [-> _]] E. now apply app_eq_nil in E. Qed.
Lemma ends_tl : forall c t s, ends_line t -> suf (c :: s) t -> c <> NL -> ends_line s.
Proof.
  intros c t s E S N. apply (ends_suf s t E); [now apply suf_cons in S|]. intros ->.
  destruct E as [u [-> _]]. destruct S as [p S]. apply app_inj_tail in S. destruct S as [_ S]. congruence.
Qed.
Lemma unjoin_ends : forall t, ends_line t -> unjoin t <> [].
Proof.
  assert (H : forall n t, length t <= n -> ends_line t -> unjoin t <> []).
  { induction n as [|n IH]; intros t L E; [destruct t; [now apply ends_ne in E|cbn in L; lia]|].
    destruct t as [|c [|d r]]; [now apply ends_ne in E|discriminate|]. cbn [unjoin].
    destruct (ceq_spec c "\"%char) as [->|]; [|discriminate]. destruct (ceq_spec d NL) as [->|]; [|discriminate]. cbn [andb].
    destruct r as [|x r].
    - destruct E as [u [E H]]. exfalso. apply H. destruct u as [|y [|z u]]; [discriminate| |].
      + injection E as <-. now exists [].
      + injection E as _ _ E. now destruct u.
    - apply IH; [cbn [length] in *; lia|]. apply (ends_suf _ _ E); [now exists ["\"%char; NL]|discriminate]. }
  intros t. now apply (H (length t)).
Qed.
Lemma getsc_more : forall i c i', wf (srcs i) -> ends_line (text_of (srcs i)) -> getsc i = (c, i') -> c <> NUL.
Proof.
  intros i c i' W E H.
  pose proof (getsc_ok (Flat (text_of (srcs i)) (bskip i) (ign i)) i) as Q. rewrite H in Q.
  destruct Q as [Q1 _]; [repeat split; assumption|]. pose proof (text_nuls _ W) as N.
  pose proof (unjoin_suf (text_of (srcs i))) as S. pose proof (unjoin_ends _ E) as U.
  subst c. unfold fget, fraw. cbn [ftext fskip fign].
  assert (X : forall t, suf t (text_of (srcs i)) -> match t with [] => True | x :: _ => x <> NUL end).
  { intros [|x t] [p P]; [exact I|]. intros ->. apply N. rewrite P. apply in_or_app. right. now left. }
  pose proof (X _ (suf_refl _)) as X1. pose proof (X _ S) as X2. pose proof (ends_ne _ E) as E'.
  destruct (text_of (srcs i)) as [|x t]; [contradiction|].
  destruct (Nat.ltb 0 (ign i)); [exact X1|]. destruct (Nat.eqb (bskip i) 1); [exact X1|].
  destruct (unjoin (x :: t)); [contradiction|exact X2].
Qed.

Section Word.
Variable wt : list cstr -> nat.
Hypothesis wt_pos : forall A, 1 <= wt A.
Hypothesis wt_anti : forall A B, incl A B -> wt B <= wt A.

Definition inv (i : input) : Prop := wf (srcs i) /\ wfa (srcs i) /\ ends_line (text_of (srcs i)).
Definition charged (p : nat) (st : list src) : Prop := exists A, phi wt st + wt A <= p /\ nxt st A.

(** Reading a character, and putting it back. *)
Lemma inv_get : forall i c i', inv i -> getsc i = (c, i') -> c <> NL -> inv i'.
Proof.
  intros i c i' [W [A E]] H N. pose proof (getsc_more i c i' W E H) as Nc. apply is_nul_false in Nc.
  destruct (getsc_text i c i' W H) as [W' [_ X]]. rewrite Nc in X.
  split; [exact W'|]. split; [exact (getsc_wfa wt wt_pos wt_anti i c i' W A H)|]. exact (ends_tl _ _ _ E X N).
Qed.
Lemma inv_unget : forall i c i', inv i -> getsc i = (c, i') -> inv (ungetsc c i') /\ text_of (srcs (ungetsc c i')) = c :: text_of (srcs i').
Proof.
  intros i c i' [W [A E]] H. pose proof (getsc_more i c i' W E H) as Nc. apply is_nul_false in Nc.
  destruct (getsc_text i c i' W H) as [W' [U X]]. rewrite Nc in X.
  destruct (unget_ok c (srcs i') W' U) as [V1 V2]. rewrite Nc in V2. cbn [ungetsc srcs].
  split; [|exact V2]. split; [exact V1|]. split.
  - exact (proj1 (unget_phi wt wt_pos wt_anti c _ (getsc_wfa wt wt_pos wt_anti i c i' W A H))).
  - cbn [srcs ungetsc]. rewrite V2. apply (ends_suf _ _ E X). discriminate.
Qed.
(** Looking at one character does not change what can be expanded. *)
Lemma charged_look : forall p i c i', inv i -> charged p (srcs i) -> getsc i = (c, i') -> charged p (srcs (ungetsc c i')).
Proof.
  intros p i c i' I [A [C1 C2]] H. pose proof (inv_unget i c i' I H) as [[W3 [A3 _]] T3]. destruct I as [W [Wa E]].
  pose proof (getsc_more i c i' W E H) as Nc.
  destruct (getsc_gets wt wt_pos wt_anti i c i' W Wa H Nc) as [_ [_ [_ [G4 [G5 _]]]]].
  destruct (ceq_spec c bs) as [->|Nb].
  - exists A. cbn [ungetsc srcs] in *. split; [lia|]. intros fl d st2 R _ Nd. exfalso. apply Nd.
    pose proof (getsc_raw_ok _ fl W3) as [_ Q]. rewrite T3, R in Q. cbn [fst snd] in Q. tauto.
  - destruct (G5 Nb A p C1 C2) as [K1 [K2 _]]. exists (act (srcs (ungetsc c i'))). split; assumption.
Qed.

Theorem word_charge : forall n cf s t p i c stk out i', base_like s = true -> inv i ->
  phi wt (srcs i) <= p -> (t <> [] -> charged p (srcs i)) ->
  run (loop n cf [s] (chars t)) i = (inl (c, stk, out), i') ->
  quoted stk out \/
  (exists t', stk = [s] /\ out = chars t' /\ lex1 c = true /\ c <> NUL /\ inv (ungetsc c i') /\
     (t' <> [] -> phi wt (srcs (ungetsc c i')) + wt (act (srcs (ungetsc c i'))) <= p /\ at_sep (srcs (ungetsc c i')))).
Proof.
  induction n as [|n IH]; intros cf s t p i c stk out i' B I P C R; [discriminate|].
  cbn [loop bind get run] in R. destruct (getsc i) as [c1 i1] eqn:E1. cbn [run] in R.
  pose proof I as [W [Wa El]]. pose proof (getsc_more i c1 i1 W El E1) as N1. pose proof N1 as N1'. apply is_nul_false in N1'.
  rewrite N1' in R. cbn [orb top] in R. rewrite B in R. cbn [andb] in R.
  pose proof (getsc_gets wt wt_pos wt_anti i c1 i1 W Wa E1 N1) as [_ [_ [_ [G4 [G5 G6]]]]].
  destruct (lex1 c1) eqn:L1.
  { cbn [run] in R. injection R as <- <- <- <-. right. exists t. split; [reflexivity|]. split; [reflexivity|]. split; [exact L1|]. split; [exact N1|].
    split; [now apply (inv_unget i)|]. intros Nt. destruct (C Nt) as [A [C1 C2]].
    destruct (G5 ltac:(intros ->; discriminate) A p C1 C2) as [K1 [K2 K3]]. split; [exact K1|now apply K3]. }
  rewrite run_bind in R.
  assert (Nl : c1 <> NL) by (intros ->; discriminate). pose proof (inv_get i c1 i1 I E1 Nl) as I1.
  assert (Q : forall (q : prog round) j, post quotedr q ->
    match run q j with
    | (inl a, i0) => run (match a with Cont stk out => loop n cf stk out | Stop c stk out => Ret (c, stk, out) end) i0
    | (inr e, i0) => (inr e, i0)
    end = (inl (c, stk, out), i') -> quoted stk out).
  { intros q j Hq X. destruct (run q j) as [[a|e] j'] eqn:Eq; [|discriminate].
    pose proof (post_run _ _ _ _ _ Hq Eq) as Qa. destruct a as [stk2 out2|c2 stk2 out2]; cbn [quotedr] in Qa.
    - exact (post_run _ _ _ _ _ (post_loop n cf stk2 out2 Qa) X).
    - cbn [run] in X. injection X as <- <- <- <-. exact Qa. }
  destruct (step_plain n cf c1 s t B) as [H|[H|[[Nb [k [H Hk]]]|[-> [k [H Hk]]]]]].
  - rewrite H in R. cbn [run] in R.
    apply (IH cf s (t ++ [c1]) p i1 c stk out i' B I1); [| |exact R].
    + destruct (getsc_gets wt wt_pos wt_anti i c1 i1 W Wa E1 N1) as [_ [G2 _]]. lia.
    + intros _. destruct (ceq_spec c1 bs) as [->|Nb].
      * exfalso. destruct s; try discriminate B; cbn [step] in H.
        -- change (ceq bs "[") with false in H. cbn [andb] in H. unfold sbase1 in H. change (mem bs (L "*@+?!")) with false in H.
           unfold sbase2 in H. change (ceq bs "\") with true in H. discriminate.
        -- change (ceq bs "\") with true in H. discriminate.
      * destruct (G6 Nb eq_refl) as [A [K1 K2]]. exists A. split; [lia|exact K2].
  - left. exact (Q _ _ H R).
  - rewrite H in R. cbn [run] in R. destruct (getsc i1) as [c2 i2] eqn:E2. destruct (Hk c2) as [Hq|Hq].
    + left. exact (Q _ _ Hq R).
    + rewrite Hq in R. cbn [run] in R.
      assert (C1 : charged p (srcs i1)) by (destruct (G6 Nb eq_refl) as [A [K1 K2]]; exists A; split; [lia|exact K2]).
      pose proof (charged_look p i1 c2 i2 I1 C1 E2) as C2.
      apply (IH cf s (t ++ [c1]) p (ungetsc c2 i2) c stk out i' B); [now apply (inv_unget i1)| |intros _; exact C2|exact R].
      destruct C2 as [A [K _]]. lia.
  - rewrite H in R. cbn [run] in R. destruct (getsc i1) as [c2 i2] eqn:E2. left.
    apply (Q (k c2) i2); [|exact R]. apply Hk. apply is_nul_false. apply (getsc_more i1 c2 i2); try assumption; apply I1.
Qed.

(** * The word *)
Definition not_word (t : token) : Prop := match t with LWORD _ _ => False | _ => True end.
Lemma redir_not : forall c u, post not_word (redir c u).
Proof. intros c u. unfold redir. cbn [bind get post]. intros c2. ites_p; try exact I. cbn [bind get post]. intros c3. ites_p; exact I. Qed.
Lemma operator_not : forall sh c, post not_word (operator sh c).
Proof.
  intros sh c. unfold operator. destruct (ceq c "|" || ceq c "&" || ceq c ";").
  - cbn [bind get post]. intros c2. ites_p; cbn [post]; try exact I. destruct (ceq c ";"), (ceq c "|"); exact I.
  - destruct (ceq c "(" && negb sh); [|exact I]. cbn [bind get post]. intros c2. ites_p; exact I.
Qed.
Lemma some_not : forall (p : prog token) i w id i', post not_word p -> run (t <- p;; Ret (Some t)) i = (inl (Some (LWORD w id)), i') -> False.
Proof.
  intros p i w id i' H R. rewrite run_bind in R. destruct (run p i) as [[t|e] j] eqn:E; [|discriminate].
  cbn [run] in R. injection R as -> _. exact (post_run _ _ _ _ _ H E).
Qed.
(** The identifier comes from the word, which is followed by its last character. *)
Lemma finish_word : forall n sh c stk out i w x id i', run (finish n sh c stk out) i = (inl (Some (LWORD w (x :: id))), i') ->
  exists s, stk = [s] /\ s <> SWORD /\ x :: id = ident_of out /\ i' = ungetsc c i.
Proof.
  intros n sh c stk out i w x id i' R. unfold finish in R. destruct stk as [|s [|]]; try discriminate.
  cbv zeta in R. exists s. split; [reflexivity|].
  assert (WD : run (match s with
     | SWORD | SLETPAREN _ => Ret (Some (LWORD (out ++ [EOS]) []))
     | _ => Unget c (Ret (Some (LWORD (out ++ [EOS]) (ident_of out))))
     end) i = (inl (Some (LWORD w (x :: id))), i') -> s <> SWORD /\ x :: id = ident_of out /\ i' = ungetsc c i).
  { intros X. assert (Y : run (Unget c (Ret (Some (LWORD (out ++ [EOS]) (ident_of out))))) i = (inl (Some (LWORD w (x :: id))), i') /\ s <> SWORD).
    { destruct s; try discriminate X; (split; [exact X|discriminate]). }
    destruct Y as [Y1 Y2]. cbn [run] in Y1. injection Y1 as _ <- <-. auto. }
  destruct (base_like s); [|exact (WD R)]. destruct out as [|k [|d [|]]]; try exact (WD R).
  - exfalso. destruct (ceq c "<" || ceq c ">"); [exact (some_not _ _ _ _ _ (redir_not _ _) R)|].
    destruct (ceq c NL); [discriminate|]. exact (some_not _ _ _ _ _ (operator_not _ _) R).
  - destruct ((ceq c "<" || ceq c ">") && ceq k CHAR && isdigit d); [|exact (WD R)].
    exfalso. exact (some_not _ _ _ _ _ (redir_not _ _) R).
Qed.
Theorem lex_word_alias : forall n sh cf i w x id i', inv i ->
  run (lex_word n sh cf) i = (inl (Some (LWORD w (x :: id))), i') -> ~ In "["%char (x :: id) ->
  inv i' /\ phi wt (srcs i') + wt (act (srcs i')) <= phi wt (srcs i) /\ at_sep (srcs i').
Proof.
  intros n sh cf i w x id i' I R N. unfold lex_word in R. rewrite run_bind in R.
  match type of R with match ?z with _ => _ end = _ => destruct z as [[[[c stk] out]|e] j] eqn:E end; [|discriminate].
  destruct (finish_word _ _ _ _ _ _ _ _ _ _ R) as [s0 [-> [S0 [ID ->]]]].
  assert (NQ : ~ quoted [s0] out).
  { intros Q. destruct (quoted_ident _ _ Q) as [Q1|Q1]; rewrite <- ID in Q1; [discriminate|contradiction]. }
  destruct (oneword cf) eqn:O.
  { exfalso. cbn [negb andb] in E.
    assert (B : bottom [SWORD]) by now exists [].
    pose proof (post_run _ _ _ _ _ (bot_loop n cf [SWORD] [] B) E) as [y Y]. cbn [fst snd] in Y. destruct y as [|y1 y]; cbn [app] in Y; [congruence|].
    injection Y as -> Y. now destruct y. }
  cbn [negb andb] in E. destruct (letexpr cf).
  { exfalso. apply NQ. refine (post_run _ _ _ _ _ (post_loop n cf [SLETPAREN 0] [OQUOTE] _) E).
    apply (q_new [] OQUOTE []); [discriminate|]. constructor; [exact Logic.I|constructor]. }
  assert (BL : base_like (if heredelim cf then SHEREDELIM else SBASE) = true) by (destruct (heredelim cf); reflexivity).
  destruct (word_charge n cf _ [] (phi wt (srcs i)) i c [s0] out j BL I (le_n _) ltac:(congruence) E) as [Q|[t' [K1 [-> [K3 [K4 [K5 K6]]]]]]]; [contradiction|].
  split; [exact K5|]. apply K6. intros ->. discriminate.
Qed.
Lemma lex_word_end : forall n sh cf i w x id i', text_of (srcs i) = [] -> wf (srcs i) ->
  run (lex_word n sh cf) i = (inl (Some (LWORD w (x :: id))), i') -> False.
Proof.
  intros n sh cf i w x id i' T W R. unfold lex_word in R. rewrite run_bind in R.
  match type of R with match ?z with _ => _ end = _ => destruct z as [[[[c stk] out]|e] j] eqn:E end; [|discriminate].
  destruct (finish_word _ _ _ _ _ _ _ _ _ _ R) as [s0 [-> [S0 [ID ->]]]].
  destruct n as [|n]; [discriminate|]. cbn [loop bind get run] in E. destruct (getsc i) as [c1 i1] eqn:E1.
  destruct (getsc_text i c1 i1 W E1) as [_ [_ X]]. rewrite T in X.
  destruct (is_nul c1) eqn:N; [|destruct X as [p X]; now apply app_cons_not_nil in X].
  cbn [orb run] in E. injection E as <- <- <- <-. destruct (negb (oneword cf) && letexpr cf); discriminate.
Qed.
End Word.

(** * Ranks: how many of the aliases can still be expanded *)
Section Rank.
Variable e : lenv.
Hypothesis GA : good_aliases e.
Definition names : list cstr := map fst (aliases e).
Definition rank (A : list cstr) : nat := length (filter (fun n => negb (existsb (str_eqb n) A)) names).
Definition big : nat := S (list_max (map (fun p => length (snd p)) (aliases e))).
Definition wgt (A : list cstr) : nat := big ^ rank A.
Lemma filter_le : forall {T} (f g : T -> bool) l, (forall x, g x = true -> f x = true) -> length (filter g l) <= length (filter f l).
Proof.
  intros T f g l H. induction l as [|x l IH]; [constructor|]. cbn [filter]. specialize (H x).
  destruct (g x), (f x); cbn [length]; lia.
Qed.
Lemma filter_lt : forall {T} (f g : T -> bool) l x, (forall x, g x = true -> f x = true) -> In x l -> f x = true -> g x = false ->
  length (filter g l) < length (filter f l).
Proof.
  intros T f g l x H. induction l as [|y l IH]; intros I Hf Hg; [contradiction|]. cbn [filter].
  pose proof (filter_le f g l H) as LE. destruct I as [->|I].
  - rewrite Hf, Hg. cbn [length]. lia.
  - specialize (IH I Hf Hg). specialize (H y). destruct (g y), (f y); cbn [length]; lia.
Qed.
Lemma ex_incl : forall A B n, incl A B -> existsb (str_eqb n) A = true -> existsb (str_eqb n) B = true.
Proof.
  intros A B n H E. apply existsb_exists in E. destruct E as [x [E1 E2]]. apply existsb_exists. exists x. auto.
Qed.
Lemma rank_anti : forall A B, incl A B -> rank B <= rank A.
Proof.
  intros A B H. apply filter_le. intros n Hn. apply Bool.negb_true_iff in Hn. apply Bool.negb_true_iff.
  destruct (existsb (str_eqb n) A) eqn:E; [|reflexivity]. rewrite (ex_incl A B n H E) in Hn. discriminate.
Qed.
Lemma rank_push : forall n A, In n names -> existsb (str_eqb n) A = false -> rank (n :: A) < rank A.
Proof.
  intros n A H N. apply (filter_lt _ _ _ n); [|exact H|now rewrite N|].
  - intros x Hx. apply Bool.negb_true_iff in Hx. cbn [existsb] in Hx. apply Bool.orb_false_iff in Hx. destruct Hx as [_ Hx]. now rewrite Hx.
  - cbn [existsb]. assert (X : str_eqb n n = true) by now apply str_eqb_true. now rewrite X.
Qed.
Lemma wgt_pos : forall A, 1 <= wgt A.
Proof. intros A. unfold wgt. assert (big ^ rank A <> 0) by (apply Nat.pow_nonzero; discriminate). lia. Qed.
Lemma wgt_anti : forall A B, incl A B -> wgt B <= wgt A.
Proof. intros A B H. unfold wgt. apply Nat.pow_le_mono_r; [discriminate|]. now apply rank_anti. Qed.
Lemma alias_in : forall n v, alias_of e n = Some v -> In (n, v) (aliases e).
Proof.
  intros n v H. unfold alias_of in H. destruct (find _ (aliases e)) as [[m u]|] eqn:E; [|discriminate]. injection H as ->.
  apply find_some in E. destruct E as [E1 E2]. cbn [fst] in E2. apply str_eqb_true in E2. now subst m.
Qed.
Lemma wgt_push : forall n v A, alias_of e n = Some v -> existsb (str_eqb n) A = false -> length v * wgt (n :: A) < wgt A.
Proof.
  intros n v A H N. apply alias_in in H.
  assert (Rk : rank (n :: A) < rank A) by (apply rank_push; [apply (in_map fst) in H; exact H|exact N]).
  assert (Lv : length v < big).
  { unfold big. apply le_n_S. apply (in_map (fun p => length (snd p))) in H. cbn [snd] in H.
    revert H. generalize (map (fun p : cstr * cstr => length (snd p)) (aliases e)). intros l.
    induction l as [|y l IH]; intros H; [contradiction|]. change (list_max (y :: l)) with (Nat.max y (list_max l)).
    destruct H as [->|H]; [lia|]. specialize (IH H). lia. }
  unfold wgt. assert (P : big ^ S (rank (n :: A)) <= big ^ rank A) by (apply Nat.pow_le_mono_r; [discriminate|lia]).
  rewrite Nat.pow_succ_r' in P. assert (0 < big ^ rank (n :: A)) by (assert (big ^ rank (n :: A) <> 0) by (apply Nat.pow_nonzero; discriminate); lia).
  nia.
Qed.

(** * yylex *)
Definition tail_ok (t : cstr) : Prop := t = [] \/ ends_line t.
Lemma tail_suf : forall s t, tail_ok t -> suf s t -> tail_ok s.
Proof.
  intros s t [->|H] S; [left; destruct S as [p S]; symmetry in S; now apply app_eq_nil in S|].
  destruct s as [|c s]; [now left|right]. apply (ends_suf _ _ H S). discriminate.
Qed.
Lemma clear_same : forall i, (wf (srcs i) <-> wf (srcs (clear_flag i))) /\ (wfa (srcs i) <-> wfa (srcs (clear_flag i))) /\ (not_nested (srcs i) <-> not_nested (srcs (clear_flag i))) /\
  text_of (srcs (clear_flag i)) = text_of (srcs i) /\ phi wgt (srcs (clear_flag i)) = phi wgt (srcs i).
Proof.
  intros [[|[k b a fa fe] st] sk ig]; unfold clear_flag; cbn [srcs].
  - split; [reflexivity|]. split; [reflexivity|]. split; [reflexivity|]. split; reflexivity.
  - destruct k; (split; [reflexivity|]); (split; [reflexivity|]); (split; [reflexivity|]); split; reflexivity.
Qed.
Lemma text_phi : forall wt, (forall A, 1 <= wt A) -> forall st, length (text_of st) <= phi wt st.
Proof.
  intros wt P. assert (M : forall k A, k <= k * wt A) by (intros k A; specialize (P A); nia).
  induction st as [|[k b a fa fe] st IH]; [constructor|]. cbn [phi kind after].
  destruct k; try apply M; cbn [text_of].
  - rewrite app_length. specialize (M (length a)). specialize (M (act (Src (KAlias name val) b a fa fe :: st))). lia.
  - rewrite app_length. specialize (M (length a) []). lia.
Qed.
Definition good (i : input) : Prop := wf (srcs i) /\ wfa (srcs i) /\ not_nested (srcs i).

Lemma start_ok : forall T m i, good i -> phi wgt (srcs i) <= m -> suf (text_of (srcs i)) T -> state_ok wgt T m false None i.
Proof.
  intros T m i [W [A N]] P S. split; [|intros; discriminate]. split; [exact W|]. split; [split; assumption|].
  pose proof (text_phi wgt wgt_pos (srcs i)). split; [lia|]. auto.
Qed.
Definition fine (r : lres) : Prop := match r with LTok _ _ i => good i | LErr er => er <> OutOfFuel end.
Theorem yylex_ends : forall k cf hs i rounds n, good i -> tail_ok (text_of (srcs i)) -> phi wgt (srcs i) <= k ->
  k < rounds -> k < n -> fine (yylex rounds n e cf hs i).
Proof.
  induction k as [k IH] using lt_wf_ind. intros cf hs i rounds n G T P Lr Ln. destruct rounds as [|rounds]; [lia|].
  cbn [yylex]. cbv zeta.
  (* the start *)
  set (i0 := Input (srcs i) 0 0).
  assert (S0 : state_ok wgt (text_of (srcs i)) k false None i0) by (apply start_ok; [exact G|exact P|apply suf_refl]).
  pose proof (wp_sound wgt wgt_pos wgt_anti (lex_start n cf) (text_of (srcs i)) k false None
    (fun _ m' rr' _ => m' <= k /\ rr' = false) i0) as SD.
  destruct (run (lex_start n cf) i0) as [[u0|er] i1]; [|apply SD; [apply wp_lex_start; auto|exact S0]].
  destruct SD as [m1 [rr1 [l1 [[L1 ->] [[W1 [[A1 N1] [_ X1]]] _]]]]]; [apply wp_lex_start; auto|exact S0|].
  destruct (X1 eq_refl) as [P1 T1]. clear X1. pose proof (tail_suf _ _ T T1) as T1'.
  destruct (clear_same i1) as [C1 [C2 [C5 [C3 C4]]]]. set (i2 := clear_flag i1) in *. clearbody i2.
  assert (G2 : good i2) by (split; [now apply C1|split; [now apply C2|now apply C5]]). rewrite <- C3 in T1'. rewrite <- C4 in P1. clear C1 C2 C3 C4 C5.
  set (cf2 := if top_flag i1 && (negb (posix e) || cmdword cf) then with_alias cf else cf). clearbody cf2.
  (* the word *)
  assert (S2 : state_ok wgt (text_of (srcs i2)) k false None i2) by (apply start_ok; [exact G2|lia|apply suf_refl]).
  pose proof (wp_sound wgt wgt_pos wgt_anti (lex_word n (fsh e) cf2) (text_of (srcs i2)) k false None
    (fun t m' rr' _ => match t with Some _ => m' <= k | None => m' < k /\ rr' = false end) i2) as SD.
  destruct (run (lex_word n (fsh e) cf2) i2) as [[t|er] i3] eqn:E3; [|apply SD; [apply wp_lex_word; auto|exact S2]].
  destruct SD as [m3 [rr3 [l3 [Q3 [[W3 [[A3 N3] [_ X3]]] _]]]]]; [apply wp_lex_word; auto|exact S2|].
  assert (G3 : good i3) by (repeat split; assumption).
  destruct t as [t|].
  - destruct t as [w id| | | | | | | |]; try exact G3.
    destruct id as [|x id]; [exact G3|].
    destruct (keyword cf2 && existsb (str_eqb (x :: id)) (keys e) && (negb (esaconly cf2) || str_eqb (x :: id) (L "esac") || str_eqb (x :: id) (L "}"))); [exact G3|].
    destruct (aliasok cf2 && negb (alias_active (x :: id) (srcs i3))) eqn:EA; [|exact G3].
    destruct (alias_of e (x :: id)) as [v|] eqn:Ev; [|exact G3].
    apply andb_prop in EA. destruct EA as [_ EA]. apply Bool.negb_true_iff in EA. rewrite alias_active_act in EA.
    pose proof (wgt_push _ _ _ Ev EA) as LT. pose proof (alias_in _ _ Ev) as In1.
    pose proof GA as GA'. unfold good_aliases in GA'. rewrite Forall_forall in GA'. destruct (GA' _ In1) as [NB GV]. cbn [fst snd] in NB, GV.
    destruct T1' as [T0|T1'].
    { exfalso. exact (lex_word_end _ _ _ _ _ _ _ _ T0 (proj1 G2) E3). }
    assert (I2 : inv i2) by (destruct G2 as [? [? ?]]; split; [assumption|split; assumption]).
    destruct (lex_word_alias wgt wgt_pos wgt_anti _ _ _ _ _ _ _ _ I2 E3 NB) as [[_ [_ I3]] [P3 S3]].
    apply (IH (pred k)); try lia.
    + split; cbn [push_src srcs].
      * split; [exact (proj1 GV)|]. split; [intros []|]. split; [exact I|]. right. split; [reflexivity|exact W3].
      * split; [cbn [wfa kind f_end]; split; [split; assumption|exact A3]|]. split; [|exact N3]. cbn [kind].
        intros X. assert (Y : existsb (str_eqb (x :: id)) (act (srcs i3)) = true).
        { apply existsb_exists. exists (x :: id). split; [exact X|now apply str_eqb_true]. }
        congruence.
    + right. cbn [push_src srcs text_of]. destruct I3 as [u [-> Hu]]. exists (v ++ u). split; [now rewrite app_assoc|].
      intros [z Z]. destruct (list_eq_dec ascii_dec u []) as [->|Nu].
      * rewrite app_nil_r in Z. destruct GV as [_ [GV _]]. apply (GV _ _ Z). cbn; auto.
      * destruct (exists_last Nu) as [u' [y ->]]. rewrite app_assoc in Z. apply app_inj_tail in Z. destruct Z as [_ ->].
        apply Hu. now exists u'.
    + cbn [push_src srcs phi kind after act]. cbn [Nat.mul] in *. lia.
  - destruct Q3 as [L3 ->]. destruct (X3 eq_refl) as [P3 T3]. clear X3.
    assert (S3 : state_ok wgt (text_of (srcs i3)) (pred k) false None i3) by (apply start_ok; [exact G3|lia|apply suf_refl]).
    pose proof (wp_sound wgt wgt_pos wgt_anti (gethere n hs) (text_of (srcs i3)) (pred k) false None
      (fun _ m' rr' _ => m' <= pred k /\ rr' = false) i3) as SD.
    destruct (run (gethere n hs) i3) as [[bodies|er] i4]; [|apply SD; [apply wp_gethere; [lia|auto]|exact S3]].
    destruct SD as [m4 [rr4 [l4 [[L4 ->] [[W4 [[A4 N4] [_ X4]]] _]]]]]; [apply wp_gethere; [lia|auto]|exact S3|].
    destruct (X4 eq_refl) as [P4 T4].
    destruct (contin cf2); [|exact (conj W4 (conj A4 N4))].
    assert (F : fine (yylex rounds n e cf2 [] i4)).
    { apply (IH (pred k)); try lia; [exact (conj W4 (conj A4 N4))|].
      apply (tail_suf _ _ T1'). exact (suf_trans _ _ _ T4 T3). }
    destruct (yylex rounds n e cf2 [] i4); exact F.
Qed.
End Rank.

(** * From a start *)
Lemma good_wf : forall i, reach i -> good i.
Proof.
  induction 1 as [t N|ls N|ws N|e cf hs i t b i' R IH GA E [B L]].
  - split; cbn; [|repeat split]. split; [exact N|]. split; [intros []|]. split; [exact I|now left].
  - split; cbn; [|repeat split]. split; [intros []|]. split; [intros []|]. split; [exact I|now left].
  - split; cbn; [|repeat split]. split; [intros []|]. split; [intros []|]. split; [exact N|now left].
  - set (k := Nat.max B (phi (wgt e) (srcs i))).
    pose proof (yylex_ends e GA k cf hs i (S k) (S k) IH (or_intror E)) as F.
    rewrite L in F by lia. apply F; lia.
Qed.
Theorem ends : forall e cf hs i, good_aliases e -> reach i -> tail_ok (text_of (srcs i)) ->
  exists B, forall rounds n, B <= rounds -> B <= n -> yylex rounds n e cf hs i <> LErr OutOfFuel.
Proof.
  intros e cf hs i GA R T. exists (S (phi (wgt e) (srcs i))). intros rounds n Lr Ln X.
  pose proof (yylex_ends e GA _ cf hs i rounds n (good_wf i R) T (le_n _)) as F. rewrite X in F. cbn [fine] in F. apply F; [lia|lia|reflexivity].
Qed.
