(** C27: operators associate as documented; and the whole grammar. *)
From Verif Require Import Base Word_model Src_model Lex_model Syn_model Syn_spec Syn_proof.
From Coq Require Import Lia.
Local Open Scope nat_scope.

(** The parser on a sequence of lexemes. *)
Definition parse_list (posix fkeyword : bool) (n : nat) (multi : bool) (ts : list lexeme) :=
  yyparse (list lexeme) lex_list hadd inal posix fkeyword n multi ts.
Definition tree_of (r : res (list lexeme) op) : option op := match r with Ok _ _ t _ => Some t | _ => None end.

(** Every sequence the grammar derives a list of commands from is parsed, as that list and no
    other, whatever ends it; nothing beyond the end is looked at. *)
Theorem c27_grammar posix fkeyword m ts els k rest :
  lst posix fkeyword m ts els k -> closes m k rest = true ->
  exists N, forall n, N <= n -> forall sym,
  parse (list lexeme) lex_list hadd inal posix fkeyword n (NList m) (PSt _ (ts ++ rest) false sym)
  = Ok _ _ (rnest T_LIST els) (after rest).
Proof.
  intros H C. destruct (run_lst posix fkeyword _ _ _ _ (lst_parses _ _ _ _ _ _ H)) as (N & E).
  exists N. intros n Ln sym. apply E; auto.
Qed.
Print Assumptions c27_grammar.

Lemma whole posix fkeyword ts els k : lst posix fkeyword true ts els k -> els <> [] ->
  exists N, forall n, N <= n -> tree_of (parse_list posix fkeyword n true ts) = Some (rnest T_LIST els).
Proof.
  intros H Ne. pose proof (lst_parses _ _ _ _ _ _ H) as Hp.
  destruct (c27_grammar _ _ _ _ _ _ [] H eq_refl) as (N & E).
  exists N. intros n Ln. unfold parse_list, yyparse. rewrite app_nil_r in E. rewrite (E n Ln). cbn [bindr].
  unfold tpeek, after. cbn [reject symbol bindr]. change (tokof []) with (CTok NUL). cbn [is_op].
  change (ceq NUL NUL) with true. rewrite orb_true_r. cbn [andb].
  rewrite rnest_null by apply Hp. destruct els; [contradiction|]. reflexivity.
Qed.
(** The grammar gives a sequence at most one tree. *)
Theorem c27_unambiguous posix fkeyword ts els k els' k' :
  lst posix fkeyword true ts els k -> lst posix fkeyword true ts els' k' -> rnest T_LIST els = rnest T_LIST els'.
Proof.
  intros H H'.
  destruct (c27_grammar _ _ _ _ _ _ [] H eq_refl) as (N & E).
  destruct (c27_grammar _ _ _ _ _ _ [] H' eq_refl) as (N' & E').
  pose proof (E (N + N') ltac:(lia) BREAK) as A. rewrite (E' (N + N') ltac:(lia) BREAK) in A. congruence.
Qed.
Print Assumptions c27_unambiguous.

(** * The operators, spelled out *)
(** A command with its tree; pipelines, chains of && ([true]) and || ([false]), and lists of
    chains, each with what follows it: ; (0), & (1), |& (2), newline (others). *)
Definition command := (list lexeme * op)%type.
Definition pline := (command * list (nat * command))%type.        (* newlines after the | *)
Definition chain := (pline * list (bool * nat * pline))%type.
Definition listing := list (chain * nat).
Definition pline_lex (p : pline) : list lexeme :=
  fst (fst p) ++ flat_map (fun nc => O "|" :: nls (fst nc) ++ fst (snd nc)) (snd p).
Definition pline_tree (p : pline) : op := rnest T_PIPE (snd (fst p) :: map (fun nc => snd (snd nc)) (snd p)).
Definition chain_lex (c : chain) : list lexeme :=
  pline_lex (fst c) ++
  flat_map (fun anp => let '(a, n, p) := anp in XTok (if a : bool then LOGAND else LOGOR) :: nls n ++ pline_lex p) (snd c).
Definition chain_tree (c : chain) : op :=
  fold_left (fun t anp => let '(a, n, p) := anp in block (if a : bool then T_AND else T_OR) t (pline_tree p))
            (snd c) (pline_tree (fst c)).
Definition sep_lex (s : nat) : lexeme :=
  match s with 0 => O ";" | 1 => O "&" | 2 => XTok COPROC | _ => XNl end.
Definition listing_lex (l : listing) : list lexeme := flat_map (fun cs => chain_lex (fst cs) ++ [sep_lex (snd cs)]) l.
Definition listing_tree (l : listing) : op :=
  rnest T_LIST (map (fun cs => match snd cs with
                               | 1 => block T_ASYNC (chain_tree (fst cs)) TNull
                               | 2 => block T_COPROC (chain_tree (fst cs)) TNull
                               | _ => chain_tree (fst cs)
                               end) l).
Section Ops.
Variables posix fkeyword : bool.
Definition good (c : command) : Prop := exists k, cmd posix fkeyword (fst c) (snd c) k false.
Definition good_pline (p : pline) : Prop := good (fst p) /\ Forall (fun nc => good (snd nc)) (snd p).
Definition good_chain (c : chain) : Prop := good_pline (fst c) /\ Forall (fun anp => good_pline (snd anp)) (snd c).
End Ops.
Lemma pline_g posix fkeyword p : good_pline posix fkeyword p -> exists l k, pline_tree p = rnest T_PIPE l /\ pipe posix fkeyword (pline_lex p) l k.
Proof.
  destruct p as [c cs]. intros [G F]. cbn [fst snd] in *. unfold pline_tree, pline_lex. cbn [fst snd].
  exists (snd c :: map (fun nc => snd (snd nc)) cs).
  revert c G F. induction cs as [|[n c'] cs IH]; intros c (k & G) F; cbn [map flat_map fst snd].
  - exists k. split; [reflexivity|]. rewrite app_nil_r. econstructor; eauto.
  - inversion F; subst. cbn [snd] in *. destruct (IH c' H1 H2) as (k' & _ & X). exists k'. split; [reflexivity|].
    cbn [app]. rewrite <- app_assoc. eapply p_cons; eauto.
Qed.
Lemma chain_g posix fkeyword c : good_chain posix fkeyword c -> exists k, andors posix fkeyword (chain_lex c) (chain_tree c) k.
Proof.
  destruct c as [p ps]. intros [G F]. unfold chain_lex, chain_tree. cbn [fst snd] in *.
  destruct (pline_g _ _ _ G) as (l & k & E & X). rewrite E.
  assert (A : andors posix fkeyword (pline_lex p) (rnest T_PIPE l) k) by (constructor; auto).
  clear X E G. revert F A. generalize (rnest T_PIPE l). generalize (pline_lex p). revert k.
  induction ps as [|[[a n] q] ps IH]; intros k ts t F A; cbn [flat_map fold_left].
  - exists k. rewrite app_nil_r. exact A.
  - inversion F; subst. cbn [snd] in *. destruct (pline_g _ _ _ H1) as (l' & k' & E & X). rewrite E.
    destruct (IH k' (ts ++ XTok (if a then LOGAND else LOGOR) :: nls n ++ pline_lex q)
               (block (if a then T_AND else T_OR) t (rnest T_PIPE l')) H2) as (k2 & Y).
    + destruct a; econstructor; eauto.
    + exists k2. revert Y. rewrite <- !app_assoc. cbn [app]. rewrite <- !app_assoc. auto.
Qed.
(** | binds tighter than && and ||, these tighter than ; & |& and newline; && and || have one
    precedence and associate to the left; pipelines and lists keep their order. *)
Theorem c27_operators posix fkeyword l : l <> [] -> Forall (fun cs => good_chain posix fkeyword (fst cs)) l ->
  exists N, forall n, N <= n -> tree_of (parse_list posix fkeyword n true (listing_lex l)) = Some (listing_tree l).
Proof.
  intros Ne F. eapply whole with (k := true); [|destruct l; [contradiction|discriminate]].
  clear Ne. induction F as [|[c s] l G F IH]; cbn [listing_lex flat_map map]; [constructor|].
  destruct (chain_g _ _ _ G) as (k & A). cbn [fst snd] in *.
  rewrite <- app_assoc. cbn [app].
  destruct s as [|[|[|s]]]; cbn [sep_lex].
  - apply (l_sep _ _ true _ _ k _ (fun t => t)); auto. constructor.
  - apply (l_sep _ _ true _ _ k _ (fun t => block T_ASYNC t TNull)); auto. constructor.
  - apply (l_sep _ _ true _ _ k _ (fun t => block T_COPROC t TNull)); auto. constructor.
  - apply (l_sep _ _ true _ _ k _ (fun t => t)); auto. constructor.
Qed.
Print Assumptions c27_operators.

(** * Examples *)
Definition word (s : string) : lexeme := XWord (encode (L s)) (L s).
Definition com (s : string) : op := TOp T_COM 0 (Some [encode (L s)]) (Some []) None TNull TNull None 0.
Definition simple_cmd (s : string) : command := ([word s], com s).
Example simple_good s : is_reserved (L s) = false -> is_wdvarassign (encode (L s)) = false ->
  assign_command false (L s) = false -> good false false (simple_cmd s).
Proof.
  intros H H1 H2. exists false.
  replace (snd (simple_cmd s)) with (set_io (redirs_of [IWord (encode (L s)) (L s)]) (TOp T_COM
    (if assign_command false (L s) then DOVACHECK else 0) (Some [encode (L s)]) (Some []) None TNull TNull None 0)).
  2:{ rewrite H2. reflexivity. }
  apply (c_simple false false [IWord (encode (L s)) (L s)] [] [encode (L s)]).
  - cbn [not_reserved_first]. rewrite H. reflexivity.
  - cbn. lia.
  - unfold assignments, words_of. cbn [flat_map leading app]. rewrite H1. reflexivity.
Qed.
(* a | b && c | d || e ; f & *)
Definition ex_list : listing :=
  [((simple_cmd "a", [(0, simple_cmd "b")]),
    [(true, 1, (simple_cmd "c", [(2, simple_cmd "d")])); (false, 0, (simple_cmd "e", []))], 0);
   ((simple_cmd "f", []), [], 1)].
Example ex_list_good : Forall (fun cs => good_chain false false (fst cs)) ex_list.
Proof. repeat constructor; apply simple_good; reflexivity. Qed.
Example ex_list_tree : listing_tree ex_list =
  block T_LIST
    (block T_OR (block T_AND (block T_PIPE (com "a") (com "b")) (block T_PIPE (com "c") (com "d"))) (com "e"))
    (block T_ASYNC (com "f") TNull).
Proof. reflexivity. Qed.
Example ex_list_run : tree_of (parse_list false false 30 true (listing_lex ex_list)) = Some (listing_tree ex_list).
Proof. vm_compute. reflexivity. Qed.

(** The same parser on text, with the lexer of Lex_model (lex.c); here documents are not read. *)
Definition real_env : lenv := LEnv false false reserved [].
Definition real_lex (cf : flags) (i : input) : option (token * input) :=
  match yylex 10 200 real_env cf [] i with LTok t _ i => Some (t, i) | LErr _ => None end.
Definition from_text (s : string) : input := Input [Src KStr [] (L s) false false] 0 0.
Definition parse_text (s : string) : option op :=
  match yyparse input real_lex (fun _ i => Some i) (fun _ => false) false false 60 true (from_text s) with
  | Ok _ _ t _ => Some t | _ => None end.
Example text_ops : parse_text "a | b &&
c |
d || e ; f &" = Some (listing_tree ex_list).
Proof. vm_compute. reflexivity. Qed.
Example text_compound : parse_text "if a; then b; elif c; then d; else e; fi; while { a; } do b; done" =
  Some (block T_LIST
    (block T_IF (com "a") (block 0 (com "b") (block T_ELIF (com "c") (block 0 (com "d") (com "e")))))
    (block T_WHILE (block T_BRACE (com "a") TNull) (com "b"))).
Proof. vm_compute. reflexivity. Qed.
(** ! and time take the whole pipeline. *)
Example text_bang : parse_text "! a | b && c" =
  Some (block T_AND (block T_BANG TNull (block T_PIPE (com "a") (com "b"))) (com "c")).
Proof. vm_compute. reflexivity. Qed.

(** time before a case command: the word of the case is copied as a string, so it is cut at the
    first null byte inside it, and reading it then runs off the end of it (syn.c:366-367). *)
Definition timed_case : option (option cstr) :=
  match parse_text "time case $x in a) b;; esac" with
  | Some (TOp _ _ _ _ _ (TOp ty _ _ _ _ _ _ str _) _ _ _) => if Z.eqb ty T_CASE then Some str else None
  | _ => None
  end.
Definition untimed_case : option (option cstr) :=
  match parse_text "case $x in a) b;; esac" with
  | Some (TOp ty _ _ _ _ _ _ str _) => if Z.eqb ty T_CASE then Some str else None
  | _ => None
  end.
Theorem c27_timed_case_refuted :
  match untimed_case, timed_case with
  | Some (Some w), Some (Some w') => wdscan w EOS = WAt [] /\ wdscan w' EOS = WOob
  | _, _ => False
  end.
Proof. vm_compute. split; reflexivity. Qed.
Print Assumptions c27_timed_case_refuted.

(** The words the grammar takes for assignments (and for the variables of for and select) are those of this form; so are the names
    of functions. *)
Lemma letter_ok c : letter c = true <-> id_first c.
Proof.
  pose proof (char_sweep (fun c => Bool.eqb (letter c) (let n := nat_of_ascii c in ((65 <=? n) && (n <=? 90)) || ((97 <=? n) && (n <=? 122)) || (n =? 95))) eq_refl c) as H. cbv beta zeta in H.
  apply Bool.eqb_prop in H. rewrite H. unfold id_first. cbv zeta. rewrite !Bool.orb_true_iff, !andb_true_iff, !Nat.leb_le, Nat.eqb_eq. tauto.
Qed.
Lemma letnum_ok c : letnum c = true <-> id_more c.
Proof.
  pose proof (char_sweep (fun c => Bool.eqb (letnum c) (letter c || ((48 <=? nat_of_ascii c) && (nat_of_ascii c <=? 57)))) eq_refl c) as H. cbv beta in H.
  apply Bool.eqb_prop in H. rewrite H. unfold id_more. rewrite !Bool.orb_true_iff, !andb_true_iff, !Nat.leb_le, letter_ok. tauto.
Qed.
Lemma skip_letnum_ok w : exists r, w = wd r ++ skip_letnum w /\ Forall id_more r /\
  match skip_letnum w with k :: c :: _ => ~ (k = CHAR /\ id_more c) | _ => True end.
Proof.
  assert (G : forall n w, length w <= n -> exists r, w = wd r ++ skip_letnum w /\ Forall id_more r /\ match skip_letnum w with k :: c :: _ => ~ (k = CHAR /\ id_more c) | _ => True end).
  { clear w. intros n. induction n as [|n IH]; intros w HL.
    - destruct w; [|cbn in HL; lia]. exists []. cbn. auto.
    - destruct w as [|k [|c w]]; [exists []; cbn; auto|exists []; cbn; auto|]. cbn [skip_letnum]. destruct (ceq k CHAR) eqn:K; [destruct (letnum c) eqn:C|]; cbn [andb].
      + destruct (IH w ltac:(cbn in HL; lia)) as (r & E & F & M). exists (c :: r). apply ceq_true in K. subst k. split; [cbn; f_equal; f_equal; exact E|]. split; [constructor; auto; now apply letnum_ok|exact M].
      + exists []. split; [reflexivity|]. split; [constructor|]. intros [_ X]. apply letnum_ok in X. congruence.
      + exists []. split; [reflexivity|]. split; [constructor|]. intros [-> _]. rewrite ceq_refl in K. discriminate. }
  apply (G (length w)). lia.
Qed.
Lemma wd_app a b : wd (a ++ b) = wd a ++ wd b. Proof. apply flat_map_app. Qed.
Lemma skip_index_ok w r : forall d, skip_index d w = Some r -> d <> 0 -> exists i, w = wd i ++ r /\ sub_closes d i.
Proof.
  assert (G : forall n w, length w <= n -> forall d, skip_index d w = Some r -> d <> 0 -> exists i, w = wd i ++ r /\ sub_closes d i).
  { clear w. intros n. induction n as [|n IH]; intros w HL d H D; [destruct w; [discriminate|cbn in HL; lia]|].
    destruct w as [|k [|c w]]; try discriminate. cbn [skip_index] in H. destruct (ceq k CHAR) eqn:K; cbn [negb] in H; [|discriminate]. apply ceq_true in K. subst k. cbn in HL.
    destruct (ceq c "[") eqn:C1.
    - apply ceq_true in C1. subst c. apply IH in H; [|lia|lia]. destruct H as (i & -> & F). exists ("["%char :: i). split; [reflexivity|now constructor].
    - destruct (ceq c "]") eqn:C2.
      + apply ceq_true in C2. subst c. destruct (Nat.eqb_spec d 1) as [->|N].
        * injection H as ->. exists ["]"%char]. split; [reflexivity|constructor].
        * apply IH in H; [|lia|lia]. destruct H as (i & -> & F). exists ("]"%char :: i). split; [reflexivity|]. destruct d as [|[|d]]; [lia|lia|]. cbn in F. now constructor.
      + apply IH in H; [|lia|exact D]. destruct H as (i & -> & F). exists (c :: i). split; [reflexivity|]. constructor; auto; intros ->; rewrite ceq_refl in *; discriminate. }
  intros d. apply (G (length w)). lia.
Qed.
Lemma skip_index_closes d i r : sub_closes d i -> d <> 0 -> skip_index d (wd i ++ r) = Some r.
Proof.
  intros H. induction H as [|d t H IH|d t H IH|d c t C1 C2 H IH]; intros D; cbn [wd flat_map app skip_index]; rewrite ceq_refl; cbn [negb].
  - reflexivity.
  - change (ceq "[" "[") with true. cbv iota. apply IH. lia.
  - change (ceq "]" "[") with false. change (ceq "]" "]") with true. cbv iota. change (Nat.eqb (S (S d)) 1) with false. cbv iota. apply IH. lia.
  - apply ceq_false in C1. apply ceq_false in C2. rewrite C1, C2. apply IH. exact D.
Qed.
Lemma after_index_ok w : exists i, w = wd i ++ after_index w /\ subscript i.
Proof.
  destruct w as [|k [|c w]]; [exists []; cbn; auto; split; auto; now left|exists []; cbn; split; auto; now left|]. unfold after_index.
  destruct (ceq k CHAR) eqn:K; [destruct (ceq c "[") eqn:C|]; cbn [andb]; try (exists []; split; [reflexivity|now left]).
  apply ceq_true in K. apply ceq_true in C. subst. cbn [skip_index]. rewrite ceq_refl. cbn [negb]. change (ceq "[" "[") with true. cbv iota.
  destruct (skip_index 1 w) as [r|] eqn:X; [|exists []; split; [reflexivity|now left]].
  apply skip_index_ok in X; [|lia]. destruct X as (i & -> & F). exists ("["%char :: i). split; [reflexivity|right; eauto].
Qed.
Lemma after_index_skip i w : subscript i -> match w with k :: c :: _ => ~ (k = CHAR /\ c = "["%char) | _ => True end -> after_index (wd i ++ w) = w.
Proof.
  intros [->|(j & -> & F)] N.
  - change (wd [] ++ w) with w. destruct w as [|k [|c r]]; auto. unfold after_index. destruct (ceq k CHAR) eqn:K; [destruct (ceq c "[") eqn:C|]; cbn [andb]; auto. apply ceq_true in K. apply ceq_true in C. tauto.
  - cbn [wd flat_map app after_index]. rewrite ceq_refl. change (ceq "[" "[") with true. cbn [andb skip_index]. rewrite ceq_refl. cbn [negb]. change (ceq "[" "[") with true. cbv iota.
    change (flat_map (fun c => [CHAR; c]) j) with (wd j). rewrite (skip_index_closes 1 j w F) by lia. reflexivity.
Qed.
Lemma skip_letnum_wd n w : Forall id_more n -> match w with k :: c :: _ => ~ (k = CHAR /\ id_more c) | _ => True end -> skip_letnum (wd n ++ w) = w.
Proof.
  intros F M. induction F as [|c n C F IH]; cbn [wd flat_map app].
  - destruct w as [|k [|c w]]; auto. cbn [skip_letnum]. destruct (ceq k CHAR) eqn:K; [destruct (letnum c) eqn:C|]; cbn [andb]; auto. apply ceq_true in K. apply letnum_ok in C. tauto.
  - cbn [skip_letnum]. rewrite ceq_refl. apply letnum_ok in C. rewrite C. exact IH.
Qed.
Theorem c27_assignment w : is_wdvarassign w = true <-> assignment_word w.
Proof.
  unfold is_wdvarassign. split.
  - destruct w as [|k [|c r]]; try discriminate. intros H. apply andb_true_iff in H as [H E]. apply andb_true_iff in H as [K C]. apply ceq_true in K. subst k.
    destruct (skip_letnum_ok r) as (n & En & Fn & _). destruct (after_index_ok (skip_letnum r)) as (i & Ei & Fi). destruct (after_index (skip_letnum r)) as [|k2 [|c2 z]]; try discriminate.
    apply andb_true_iff in E as [E1 E2]. apply ceq_true in E1. apply ceq_true in E2. subst. exists (c :: n), i, z. split; [cbn [wd flat_map app]; f_equal; f_equal; rewrite En at 1; f_equal; exact Ei|].
    split; [exists c, n; split; auto; split; auto; now apply letter_ok|exact Fi].
  - intros (n & i & r & -> & (c & m & -> & C & M) & S). cbn [wd flat_map app]. rewrite ceq_refl. apply letter_ok in C. rewrite C. cbn [andb]. change (flat_map (fun c => [CHAR; c]) m) with (wd m). change (flat_map (fun c => [CHAR; c]) i) with (wd i).
    rewrite skip_letnum_wd; auto.
    + rewrite after_index_skip; [reflexivity|exact S|intros [_ X]; discriminate].
    + destruct S as [->|(j & -> & _)]; cbn; intros [_ X]; apply letnum_ok in X; discriminate.
Qed.
Print Assumptions c27_assignment.
Theorem c27_variable w : is_wdvarname_a w = true <-> name_word w.
Proof.
  unfold is_wdvarname_a. split.
  - destruct w as [|k [|c r]]; try discriminate. intros H. apply andb_true_iff in H as [H E]. apply andb_true_iff in H as [K C]. apply ceq_true in K. subst k.
    destruct (skip_letnum_ok r) as (n & En & Fn & _). destruct (after_index_ok (skip_letnum r)) as (i & Ei & Fi). destruct (after_index (skip_letnum r)) as [|k2 z]; try discriminate.
    apply ceq_true in E. subst. exists (c :: n), i, z. split; [cbn [wd flat_map app]; f_equal; f_equal; rewrite En at 1; f_equal; exact Ei|].
    split; [exists c, n; split; auto; split; auto; now apply letter_ok|exact Fi].
  - intros (n & i & r & -> & (c & m & -> & C & M) & S). cbn [wd flat_map app]. rewrite ceq_refl. apply letter_ok in C. rewrite C. cbn [andb]. change (flat_map (fun c => [CHAR; c]) m) with (wd m). change (flat_map (fun c => [CHAR; c]) i) with (wd i).
    rewrite skip_letnum_wd; auto.
    + rewrite after_index_skip; [reflexivity|exact S|]. destruct r; auto. intros [X _]; discriminate.
    + destruct S as [->|(j & -> & _)]; cbn; [destruct r; auto; intros [X _]; discriminate|intros [_ X]; apply letnum_ok in X; discriminate].
Qed.
Print Assumptions c27_variable.
Theorem c27_function_name c : bad_func_char c = true <-> In (nat_of_ascii c) special_codes.
Proof.
  pose proof (char_sweep (fun c => Bool.eqb (bad_func_char c) (if in_dec Nat.eq_dec (nat_of_ascii c) special_codes then true else false)) eq_refl c) as H. cbv beta in H.
  apply Bool.eqb_prop in H. rewrite H. destruct (in_dec Nat.eq_dec (nat_of_ascii c) special_codes); split; auto; discriminate.
Qed.
Print Assumptions c27_function_name.
Example assignment_ex : assignment_word (wd (L "a_1[b[2]]=x y")) /\ ~ assignment_word (wd (L "1a=x")) /\ ~ assignment_word (wd (L "a[1=x")) /\ ~ assignment_word (wd (L "a-b=x")).
Proof. rewrite <- !c27_assignment. vm_compute. repeat split; congruence. Qed.
