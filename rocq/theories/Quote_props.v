(** C21: values printed by listings can be read back. *)
From Verif Require Import Base Word_model Word_spec Src_model Src_spec Src_proof Src_props Lex_model Lex_sim Lex_spec Lex_props Quote_model.
Local Open Scope nat_scope.

Fixpoint segs (s : cstr) : list seg :=
  match s with
  | [] => []
  | c :: s => if ceq c "'" then Back c :: segs s
              else match segs s with Single t :: r => Single (c :: t) :: r | r => Single [c] :: r end
  end.
Lemma pvq_segs : forall s,
  pvq_loop false s = src_of (segs s) /\
  pvq_loop true s = match segs s with Single t :: r => t ++ L "'" ++ src_of r | r => L "'" ++ src_of r end.
Proof.
  induction s as [|c s [IH1 IH2]]; [split; reflexivity|]. cbn [pvq_loop segs]. destruct (ceq_spec c "'") as [->|N].
  - rewrite IH1. split; reflexivity.
  - rewrite IH2. destruct (segs s) as [|[t|t|d|d] r]; split; unfold src_of; cbn [flat_map seg_src app]; rewrite <- ?app_assoc; reflexivity.
Qed.
Lemma segs_text : forall s, text_of_segs (segs s) = s.
Proof.
  induction s as [|c s IH]; [reflexivity|]. cbn [segs]. destruct (ceq c "'").
  - unfold text_of_segs in *. cbn [flat_map seg_text app]. now rewrite IH.
  - rewrite <- IH at 2. destruct (segs s) as [|[t|t|d|d] r]; reflexivity.
Qed.
Lemma segs_ok : forall s, ~ In NUL s -> Forall seg_ok (segs s).
Proof.
  induction s as [|c s IH]; intros N; [constructor|]. cbn [segs].
  assert (N1 : ~ In NUL s) by (intros X; apply N; now right). assert (N2 : c <> NUL) by (intros ->; apply N; now left).
  specialize (IH N1). destruct (ceq_spec c "'") as [->|Q].
  - constructor; [|exact IH]. split; discriminate.
  - assert (O1 : seg_ok (Single [c])) by (split; intros [X|[]]; congruence).
    destruct (segs s) as [|[t|t|d|d] r]; try (constructor; [exact O1|exact IH]).
    inversion IH as [|x y O IH']; subst. destruct O as [A B]. constructor; [|exact IH']. split; (intros [X|X]; [congruence|contradiction]).
Qed.
Lemma segs_quoted : forall s, forallb seg_quoted (segs s) = true.
Proof.
  induction s as [|c s IH]; [reflexivity|]. cbn [segs]. destruct (ceq c "'"); [exact IH|].
  destruct (segs s) as [|[t|t|d|d] r]; exact IH.
Qed.
Lemma segs_nonempty : forall s, s <> [] -> exists x r, segs s = x :: r.
Proof.
  intros [|c s] N; [contradiction|]. cbn [segs]. destruct (ceq c "'"); [eauto|].
  destruct (segs s) as [|[t|t|d|d] r]; eauto.
Qed.
Lemma plain_src : forall t, src_of (map Plain t) = t.
Proof. induction t as [|c t IH]; [reflexivity|]. unfold src_of in *. cbn. now rewrite IH. Qed.
Lemma plain_text : forall t, text_of_segs (map Plain t) = t.
Proof. induction t as [|c t IH]; [reflexivity|]. unfold text_of_segs in *. cbn. now rewrite IH. Qed.
Lemma plain_ok : forall t, forallb (fun c => negb (special c)) t = true -> Forall seg_ok (map Plain t).
Proof.
  induction t as [|c t IH]; intros H; [constructor|]. cbn [map]. cbn [forallb] in H. apply andb_prop in H. destruct H as [H1 H2].
  constructor; [|now apply IH]. cbn [seg_ok]. now apply Bool.negb_true_iff.
Qed.

Lemma src_app : forall a b, src_of (a ++ b) = src_of a ++ src_of b.
Proof. intros. apply flat_map_app. Qed.
Lemma text_app : forall a b, text_of_segs (a ++ b) = text_of_segs a ++ text_of_segs b.
Proof. intros. apply flat_map_app. Qed.
(** Every character that has to be quoted where a word may start is in C_QUOTE, except these. *)
Lemma quote_special : forall c, quote_char c = false -> ~ In c (NUL :: L "~{}") -> special c = false.
Proof.
  intros c Q N. unfold quote_char in Q. apply mem_false in Q. unfold special. apply mem_false. intros X. cbn in X, Q, N. tauto.
Qed.

(** A listing prints name=value: [pre] is the part before the value.  The value printed is read
    back as (the rest of) one word that stands for the value, whatever it is, provided it is not
    empty and has no ~ or brace (which C_QUOTE lacks) unless something else in it needs quotes. *)
Theorem c21_reread_partial : forall e cf hs st pre s rest n rounds k g,
  fresh st -> text_of st = pre ++ print_value_quoted s ++ rest ->
  forallb (fun c => negb (special c)) pre = true ->
  s <> [] -> ~ In NUL s ->
  (existsb quote_char s = true \/ forall c, In c s -> ~ In c (L "~{}")) ->
  ends_word rest -> match rest with c :: _ => ~ In c (L "<>(") | [] => True end ->
  oneword cf = false -> letexpr cf = false -> heredelim cf = false -> heredoc cf = false ->
  keyword cf = false -> aliases e = [] ->
  length (text_of st) < n -> 0 < rounds ->
  exists items id i, yylex rounds n e cf hs (Input st k g) = LTok (LWORD (enc items ++ [EOS]) id) [] i /\
    denotes false items (pre ++ s) /\ text_of (srcs i) = rest.
Proof.
  intros e cf hs st pre s rest n rounds k g F T P Ns Nu Q E R O1 O2 O3 O4 K1 K2 H Rd.
  assert (W : exists w, print_value_quoted s = src_of w /\ text_of_segs w = s /\ Forall seg_ok w /\ w <> []).
  { unfold print_value_quoted. destruct (existsb quote_char s) eqn:Eq.
    - exists (segs s). split; [apply pvq_segs|]. split; [apply segs_text|]. split; [now apply segs_ok|].
      destruct (segs_nonempty s Ns) as [x [r ->]]. discriminate.
    - exists (map Plain s). split; [now rewrite plain_src|]. split; [apply plain_text|]. split.
      + apply plain_ok. apply forallb_forall. intros c I. apply Bool.negb_true_iff. destruct Q as [Q|Q]; [discriminate|].
        apply quote_special.
        * destruct (quote_char c) eqn:X; [|reflexivity]. rewrite <- Eq. symmetry. apply existsb_exists. now exists c.
        * intros [X|X]; [subst c; contradiction|]. now apply (Q c I).
      + destruct s; [contradiction|discriminate]. }
  destruct W as [w [W1 [W2 [W3 W4]]]].
  destruct (c24_plain_word e cf hs st [] (map Plain pre ++ w) rest n rounds k g) as [items [id [i [A [B C]]]]]; auto.
  - rewrite T, src_app, plain_src, W1. now rewrite <- app_assoc.
  - intros X. apply app_eq_nil in X. now destruct X.
  - apply Forall_app. split; [now apply plain_ok|exact W3].
  - destruct rest; [exact I|]. split; intros ->; apply R; cbn; auto.
  - left. destruct rest as [|c r]; [discriminate|]. intros X. injection X as ->. apply R. cbn. auto.
  - exists items, id, i. rewrite text_app, plain_text, W2 in B. auto.
Qed.
Print Assumptions c21_reread_partial.

(** A value that had to be quoted is never taken for a reserved word or an alias. *)
Theorem c21_quoted : forall e cf hs st pre s rest n rounds k g,
  fresh st -> text_of st = pre ++ print_value_quoted s ++ rest ->
  forallb (fun c => negb (special c)) pre = true ->
  ~ In NUL s -> existsb quote_char s = true -> ends_word rest ->
  oneword cf = false -> letexpr cf = false -> heredelim cf = false -> heredoc cf = false ->
  length (text_of st) < n -> 0 < rounds ->
  exists items i, yylex rounds n e cf hs (Input st k g) = LTok (LWORD (enc items ++ [EOS]) []) [] i /\
    denotes false items (pre ++ s) /\ text_of (srcs i) = rest.
Proof.
  intros e cf hs st pre s rest n rounds k g F T P Nu Q E O1 O2 O3 O4 H Rd.
  assert (Ns : s <> []) by (intros ->; discriminate).
  destruct (segs_nonempty s Ns) as [x [r X]]. pose proof (segs_quoted s) as SQ.
  destruct (c24_quoted_word e cf hs st [] (map Plain pre ++ segs s) rest n rounds k g) as [items [i [A [B C]]]]; auto.
  - rewrite T, src_app, plain_src. unfold print_value_quoted. rewrite Q. destruct (pvq_segs s) as [-> _]. now rewrite <- app_assoc.
  - apply Forall_app. split; [now apply plain_ok|now apply segs_ok].
  - exists x. rewrite X in SQ |- *. cbn in SQ. apply andb_prop in SQ. split; [|apply SQ]. apply in_or_app. right. now left.
  - right. intros u c U. exfalso. assert (I : In (Plain c) (segs s)).
    { assert (Y : In (Plain c) (rev (segs s) ++ rev (map Plain pre))).
      { rewrite <- rev_app_distr, U, rev_app_distr. now left. }
      rewrite X in *. destruct (rev (x :: r)) as [|y z] eqn:Ey.
      - cbn in Ey. destruct (rev r); discriminate.
      - assert (V : rev (map Plain pre ++ x :: r) = y :: z ++ rev (map Plain pre)) by (rewrite rev_app_distr, Ey; reflexivity).
        rewrite U, rev_app_distr in V. injection V as V _. apply in_rev. rewrite Ey, <- V. now left. }
    rewrite forallb_forall in SQ. specialize (SQ _ I). discriminate.
  - exists items, i. rewrite text_app, plain_text, segs_text in B. auto.
Qed.
Print Assumptions c21_quoted.

(** The value ~ is printed as ~, which is not read as a literal tilde. *)
Theorem c21_tilde_refuted : exists s rest items i,
  ~ In NUL s /\ s <> [] /\ ends_word rest /\
  yylex 1 100 (LEnv false false [] []) noflags [] (Input [Src KStr [] (print_value_quoted s ++ rest) false false] 0 0)
    = LTok (LWORD (enc items ++ [EOS]) s) [] i /\ forall t, ~ denotes false items t.
Proof.
  exists (L "~"), [NL], [Chr "~"%char]. eexists. split; [cbn; intros [X|[]]; discriminate|]. split; [discriminate|]. split; [cbn; auto|].
  split; [vm_compute; reflexivity|]. intros t D. inversion D; subst. discriminate.
Qed.
Print Assumptions c21_tilde_refuted.
(** The empty value is printed as nothing, which is not a word at all. *)
Theorem c21_empty_refuted : forall rounds n e i0 t b i, 
  yylex (S rounds) (S (S n)) e noflags [] (Input [Src KStr [] (print_value_quoted [] ++ [NL]) false false] 0 i0) = LTok t b i ->
  t = CTok NL.
Proof. intros rounds n e i0 t b i H. cbn in H. now injection H as <- _ _. Qed.
Print Assumptions c21_empty_refuted.

(** The value it's followed by a star, of variable x, listed. *)
Example c21_ex :
  let s := L "it's *" ++ [NL] in
  print_value_quoted s = L "'it'\''s *" ++ [NL] ++ L "'" /\
  existsb quote_char s = true /\
  match yylex 1 100 (LEnv false false [] []) noflags [] (Input [Src KStr [] (L "x=" ++ print_value_quoted s ++ [NL]) false false] 0 0) with
  | LTok (LWORD w []) [] i => str_eqb w (enc ([Chr "x"%char; Chr "="%char] ++ flat_map seg_items (segs s)) ++ [EOS])
  | _ => false
  end = true.
Proof. repeat split. Qed.
