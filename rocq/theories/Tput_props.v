(** C22: words printed by typeset -f and functions are read back. *)
From Verif Require Import Base Word_model Word_spec Src_model Src_spec Src_proof Src_props Lex_model Lex_sim Lex_spec Lex_props Tput_model Tput_spec Tput_proof.
From Verif Require Expand_model Expand_props Word_props Glob_model.
From Verif Require Import Tput_expand.
Local Open Scope nat_scope.

(** ** The first character *)
Lemma first_blank f w t f' : ok CBase f false w t f' -> w <> [] -> first f w t <> SP /\ first f w t <> TAB.
Proof.
  intros O N. remember CBase as x eqn:X. remember false as d eqn:D. destruct O; subst; try discriminate; try contradiction; cbn [first].
  - pose proof (itself_print _ _ _ _ H) as P. split; [|apply printable_nul in P; tauto]. intros ->. discriminate.
  - rewrite H0. split; discriminate.
  - split; discriminate.
  - split; discriminate.
  - split; discriminate.
  - split; discriminate.
  - split; discriminate.
  - cbn in H0. repeat (destruct H0 as [<-|H0]; [split; discriminate|]). contradiction.
Qed.
Lemma base_state f : state_ok CBase f false false.
Proof. split; [auto|discriminate]. Qed.
(** ** From the beginning of the word *)
Lemma read_word f w t f' cf rest : ok CBase f false w t f' -> printable t = true -> t <> "\"%char -> plain cf ->
  (varasn cf = true -> ~ In (Chr "[") (tl w)) ->
  exists txt w', printables txt = true /\ pr (enc w) f txt f' /\ hd t txt = first f w t /\ same false w w' false /\
    forall n l, length txt + 2 < n -> exists m k' l', m <= length txt /\ ord k' /\
      frun (loop n cf [SBASE] []) (Flat (txt ++ t :: rest) 0 0) l = frun (loop (n - m) cf [SBASE] (enc w')) (Flat (t :: rest) k' 0) l'.
Proof.
  intros O T1 T2 PL V. assert (In (Chr "[") w /\ varasn cf = true \/ (varasn cf = true -> ~ In (Chr "[") w)) as [(I & VA)|NI].
  { destruct (varasn cf); [|right; discriminate]. destruct w as [|i w]; [right; intros _ []|]. destruct i as [c| | | | | | | ]; try (right; intros _ [E|E]; [discriminate|now apply (V eq_refl)]). destruct (ceq_spec c "["%char) as [->|Nc]; [left; split; [now left|auto]|]. right. intros _ [E|E]; [congruence|]. now apply (V eq_refl). }
  - destruct w as [|i w]; [contradiction|]. destruct I as [->|I]; [|exfalso; now apply (V VA)]. assert (ok CBase f false w t f') as O1.
    { inversion O; subst; auto. }
    destruct (reads_all _ _ _ _ _ _ O1 false (base_state _) T1 T2) as (txt & w' & q2 & A1 & A2 & A3 & (A4 & AQ) & A5). rewrite (AQ eq_refl) in A4. exists ("["%char :: txt), (Chr "[" :: w'). split; [|split; [|split; [|split]]].
    + cbn. exact A1.
    + change ("["%char :: txt) with (["["%char] ++ txt). apply (pr_app [CHAR; "["%char] (enc w) f f f' ["["%char] txt); [now apply pr_chr|auto].
    + reflexivity.
    + constructor. auto.
    + intros n l Hn. cbn [length] in *. destruct n as [|n]; [lia|]. cbn [app]. destruct (loop_c n cf "["%char [SBASE] [] (txt ++ t :: rest) 0 l) as (k1 & (K1 & _) & E); [discriminate|reflexivity|discriminate|].
      rewrite E. cbn [step]. rewrite VA. change (ceq "[" "[" && true) with true. cbn iota. change (is_wdvarname []) with false. cbn iota. cbn [frun cont app].
      destruct (A5 cf [] rest PL (fun V1 _ => V V1) n [CHAR; "["%char] k1 (Some "["%char)) as (m & k' & l' & M & K' & E'); [apply K1; discriminate|lia|].
      exists (S m), k', l'. split; [lia|]. split; [auto|]. exact E'.
  - destruct (reads_all _ _ _ _ _ _ O false (base_state _) T1 T2) as (txt & w' & q2 & A1 & A2 & A3 & (A4 & AQ) & A5). rewrite (AQ eq_refl) in A4. exists txt, w'. do 4 (split; [auto|]). intros n l Hn. destruct (A5 cf [] rest PL (fun V1 _ => NI V1) n [] 0 l) as (m & k' & l' & M & K' & E'); [discriminate|auto|]. exists m, k', l'. auto.
Qed.
(** ** The name of the word *)
Definition name_of (w : word) : cstr := match letters w with Some t => if length t <=? 63 then t else [] | None => [] end.
Lemma unquoted_none_enc w : letters w = None -> forall m, unquoted m (enc w) = None.
Proof.
  induction w as [|i w IH]; [discriminate|]. intros H m. rewrite <- (app_nil_l w) in H. cbn [enc flat_map] in *. fold (enc w). destruct i; cbn [enc1 app].
  - cbn in H. destruct m; [reflexivity|]. cbn. rewrite IH; [reflexivity|]. destruct (letters w); [discriminate|auto].
  - destruct m; reflexivity.
  - destruct s; destruct m; reflexivity.
  - destruct s; destruct m; reflexivity.
  - destruct (enc w); destruct m; reflexivity.
  - destruct (enc w); destruct m; reflexivity.
  - destruct m; reflexivity.
  - destruct m; reflexivity.
Qed.
Lemma unquoted_some_enc w : forall t m, letters w = Some t -> unquoted m (enc w) = if length t <=? m then Some t else None.
Proof.
  induction w as [|i w IH]; intros t m H. { injection H as <-. destruct m; reflexivity. }
  destruct i; try discriminate. cbn in H. destruct (letters w) as [t'|] eqn:E; [|discriminate]. injection H as <-. destruct m as [|m]; [reflexivity|]. change (option_map (cons c) (unquoted m (enc w)) = if S (length t') <=? S m then Some (c :: t') else None). rewrite (IH t' m eq_refl). cbn [Nat.leb]. destruct (length t' <=? m); reflexivity.
Qed.
Lemma ident_name w : ident_of (enc w) = name_of w.
Proof.
  unfold ident_of, name_of. destruct (letters w) as [t|] eqn:E; [|now rewrite unquoted_none_enc]. rewrite (unquoted_some_enc w t 63 E). destruct (length t <=? 63); reflexivity.
Qed.
Lemma same_letters w : forall w' q, same false w w' q -> letters w' = letters w.
Proof.
  induction w as [|i w IH]; intros w' q S; inversion S; subst; try reflexivity; try discriminate. cbn. erewrite IH; eauto.
Qed.

(** What may follow a word. *)
Definition after_word (t : char) : Prop := In t (SP :: L "|&;()").
Lemma enc_nonempty w w' : same false w w' false -> w <> [] -> enc w' <> [].
Proof. intros S N. destruct S; try contradiction; discriminate. Qed.
Lemma read_token w t f' cf sh blanks txt rest n l : ok CBase false false w t f' -> tputS (enc w ++ [EOS]) = Some txt -> w <> [] -> after_word t -> first false w t <> "#"%char ->
  Forall (fun c => c = SP \/ c = TAB) blanks -> oneword cf = false -> letexpr cf = false -> heredelim cf = false -> plain cf ->
  (varasn cf = true -> ~ In (Chr "[") (tl w)) -> length (blanks ++ txt) + 2 < n ->
  exists w', same false w w' false /\ 
    frun (lex_start n cf) (Flat (blanks ++ txt ++ t :: rest) 0 0) l = Some (inl tt, Flat (txt ++ t :: rest) 0 0, None) /\
    exists f2 l2, frun (lex_word n sh cf) (Flat (txt ++ t :: rest) 0 0) None = Some (inl (Some (LWORD (enc w' ++ [EOS]) (name_of w))), f2, l2) /\ ftext f2 = t :: rest.
Proof.
  intros O PT Nw AW NH FB O1 O2 O3 PL V Hn. assert (printable t = true /\ t <> "\"%char /\ lex1 t = true /\ ceq t "<" = false /\ ceq t ">" = false) as (T1 & T2 & T3 & T4 & T5).
  { unfold after_word in AW. cbn in AW. repeat (destruct AW as [<-|AW]; [repeat split; discriminate|]). contradiction. }
  destruct (read_word false w t f' cf rest O T1 T2 PL V) as (txt' & w' & A1 & A2 & A3 & A4 & A5). assert (txt' = txt) as ->.
  { unfold tputS in PT. rewrite A2 in PT. change (tput PCode f' [EOS]) with (Some (@nil char)) in PT. cbn [option_map] in PT. rewrite app_nil_r in PT. congruence. }
  exists w'. split; [auto|]. destruct (first_blank _ _ _ _ O Nw) as (B1 & B2). pose proof (peek_text txt t rest A1 T1 T2) as PK. rewrite app_length in Hn. split.
  - unfold lex_start. rewrite O1, O2. cbn [orb]. unfold start_word. rewrite frun_bind.
    destruct (skip_blanks_ok blanks n (txt ++ t :: rest) 0 l FB) as [l1 [E1 E2]]; auto; try discriminate; [lia| |].
    + pose proof (hd_text txt t rest) as HT. rewrite A3 in HT. destruct (txt ++ t :: rest); [auto|]. injection HT as ->. auto.
    + rewrite E1. pose proof (hd_text txt t rest) as HT. rewrite A3 in HT. destruct (txt ++ t :: rest) as [|c r]; [discriminate|]. injection HT as ->. destruct PK as [P _]. rewrite (ceq_no _ _ NH). subst l1. cbn [frun]. rewrite ceq_refl.
      unfold funget. cbn [ftext fskip fign]. rewrite is_nul_no by assumption. destruct (ceq _ "\"); reflexivity.
  - destruct (A5 n None) as (m & k' & l' & M & K & E); [lia|]. exists (Flat (t :: rest) 0 0), None. split; [|reflexivity].
    unfold lex_word. rewrite O1, O2, O3. cbn [negb andb]. rewrite frun_bind, E. destruct (n - m) as [|q] eqn:Q; [lia|]. rewrite loop_S. rewrite fget_plain by auto. cbn [top base_like andb]. rewrite T3, orb_true_r. cbn [frun].
    rewrite <- ident_name. assert (name_of w = name_of w') as NM by (unfold name_of; now rewrite (same_letters _ _ _ A4)). rewrite ident_name, NM, <- ident_name.
    assert (NE := enc_nonempty _ _ A4 Nw). unfold finish. cbn [base_like]. rewrite T4, T5. cbn [orb andb]. destruct (enc w') as [|a [|b [|d r]]]; [contradiction|..]; cbn [frun]; rewrite ceq_refl; unfold funget; cbn [ftext fskip fign]; rewrite is_nul_no by (apply printable_nul; auto); reflexivity.
Qed.

(** The text tputS prints for a word, where anything that can follow a word -- in ptree a blank, a
    | or a ) -- follows, is one word of the same meaning when it is read again, and what follows is
    left; [ok] excludes the words for which this is not so. *)
Theorem c22_reread_partial : forall e cf hs st k g w t f' blanks txt rest n rounds,
  ok CBase false false w t f' -> tputS (enc w ++ [EOS]) = Some txt ->
  fresh st -> text_of st = blanks ++ txt ++ t :: rest ->
  w <> [] -> after_word t -> first false w t <> "#"%char -> Forall (fun c => c = SP \/ c = TAB) blanks ->
  oneword cf = false -> letexpr cf = false -> heredelim cf = false -> heredoc cf = false -> unescape cf = false ->
  (varasn cf = true -> ~ In (Chr "[") (tl w)) ->
  (forall name, letters w = Some name -> (keyword cf = true -> ~ In name (keys e)) /\ ~ In name (map fst (aliases e))) ->
  length (text_of st) + 2 < n -> 0 < rounds ->
  exists w' i, yylex rounds n e cf hs (Input st k g) = LTok (LWORD (enc w' ++ [EOS]) (name_of w)) [] i /\
    same false w w' false /\ text_of (srcs i) = t :: rest.
Proof.
  intros e cf hs st k g w t f' blanks txt rest n rounds O PT F T Nw AW NH FB O1 O2 O3 O4 O5 V NM H R.
  destruct rounds as [|rounds]; [lia|]. cbn [yylex]. pose proof (fresh_related st k g F) as R0. rewrite T in R0, H.
  set (cf' := fun b : bool => if b then with_alias cf else cf).
  assert (LS : forall b, exists w', same false w w' false /\
    frun (lex_start n (cf' b)) (Flat (blanks ++ txt ++ t :: rest) 0 0) None = Some (inl tt, Flat (txt ++ t :: rest) 0 0, None) /\
    exists f2 l2, frun (lex_word n (fsh e) (cf' b)) (Flat (txt ++ t :: rest) 0 0) None = Some (inl (Some (LWORD (enc w' ++ [EOS]) (name_of w))), f2, l2) /\ ftext f2 = t :: rest).
  { intros b. eapply read_token; eauto; try (destruct b; assumption); [split; destruct b; assumption|]. rewrite !app_length in *. cbn in H. lia. }
  destruct (LS false) as (w1 & _ & A1 & _). cbn [cf'] in A1. destruct (sim _ _ _ _ _ _ _ R0 A1) as [i1 [S1 R1]]. cbn [srcs] in S1 |- *. rewrite S1. apply related_clear in R1.
  set (b := top_flag i1 && (negb (posix e) || cmdword cf)). destruct (LS b) as (w' & SM & _ & f2 & l2 & A2 & A3).
  destruct (sim _ _ _ _ _ _ _ R1 A2) as [i2 [S2 R2]]. unfold cf' in S2. rewrite S2. exists w', i2. split; [|split; [auto|]].
  - destruct (name_of w) as [|c0 id] eqn:E; [reflexivity|]. assert (letters w = Some (c0 :: id)) as LE.
    { unfold name_of in E. destruct (letters w) as [t0|]; [|discriminate]. destruct (length t0 <=? 63); [congruence|discriminate]. }
    destruct (NM _ LE) as (N1 & N2). assert (KW : keyword (if b then with_alias cf else cf) = keyword cf) by (destruct b; reflexivity). rewrite KW.
    assert (keyword cf && existsb (str_eqb (c0 :: id)) (keys e) = false) as ->.
    { destruct (keyword cf); [|reflexivity]. cbn [andb]. apply Bool.not_true_iff_false. intros X. apply existsb_exists in X as (y & Y1 & Y2). apply str_eqb_true in Y2. subst. now apply (N1 eq_refl). }
    cbn [andb]. assert (alias_of e (c0 :: id) = None) as ->.
    { unfold alias_of. destruct (find _ _) as [[a v]|] eqn:FD; [|reflexivity]. exfalso. apply find_some in FD as (FD1 & FD2). apply str_eqb_true in FD2. cbn in FD2. subst. apply N2. now apply (in_map fst) in FD1. }
    destruct (aliasok _ && _); reflexivity.
  - destruct R2 as [[R2 _] _]. rewrite R2. exact A3.
Qed.

(** ** It means the same
    the words excluded have no NUL *)
Lemma dollar_print s c : dollar_name s c = true -> printables s = true.
Proof.
  unfold dollar_name. intros H. apply Bool.orb_prop in H as [H|H]; [apply andb_prop in H as (H & _); now apply ident_print|]. destruct s as [|d [|]]; try discriminate. cbn. rewrite andb_true_r. apply Bool.orb_prop in H as [H|H]; [now apply param_print|now apply digit_print].
Qed.
Lemma after_good v c v' : after_name v = Some (c, v') -> good v' -> good v.
Proof.
  destruct v as [|i v]; [intros _ _; exact I|]. destruct i; try discriminate. cbn [after_name]. destruct (operator _).
  - now intros [= <- <-].
  - destruct (ceq _ _); [|discriminate]. destruct v as [|i v]; [discriminate|]. destruct i; try discriminate. destruct (operator _); [|discriminate]. intros [= <- <-] G. split; [exact I|exact G].
Qed.
Lemma ok_good x f d w t f' : ok x f d w t f' -> good w.
Proof.
  apply (ok_mut (fun x f d w t f' _ => good w) (fun f ps f' _ => goodp ps)); intros; cbn [good good1 goodp] in *; rewrite ?Word_props.good_fix in *; auto.
  - destruct o as [-> |(-> & _)]; cbn; auto.
  - destruct o as [-> | ->]; cbn; auto.
  - split; [apply printables_nul; auto|auto].
  - split; [apply printables_nul; auto|auto].
  - split; [split; [eapply printables_nul, dollar_print; eauto|exact I]|auto].
  - split; [split; [eapply printables_nul, brace_print; eauto|eapply after_good; eauto]|auto].
Qed.
(** The word read again expands, in every environment, to the same fields with the same effects, or
    fails in the same way (after the same number of steps). *)
Theorem c22_meaning_partial : forall e cf hs st k g w t f' blanks txt rest n rounds,
  ok CBase false false w t f' -> tputS (enc w ++ [EOS]) = Some txt ->
  fresh st -> text_of st = blanks ++ txt ++ t :: rest ->
  w <> [] -> after_word t -> first false w t <> "#"%char -> Forall (fun c => c = SP \/ c = TAB) blanks ->
  oneword cf = false -> letexpr cf = false -> heredelim cf = false -> heredoc cf = false -> unescape cf = false ->
  (varasn cf = true -> ~ In (Chr "[") (tl w)) ->
  (forall name, letters w = Some name -> (keyword cf = true -> ~ In name (keys e)) /\ ~ In name (map fst (aliases e))) ->
  length (text_of st) + 2 < n -> 0 < rounds ->
  exists word i, yylex rounds n e cf hs (Input st k g) = LTok (LWORD word (name_of w)) [] i /\ text_of (srcs i) = t :: rest /\
    forall E (y : Expand_model.sys E) o1 o2 o3 fl env steps,
      outcome_of (Expand_model.run E y steps (Expand_model.start E o1 o2 o3 fl env word)) =
      outcome_of (Expand_model.run E y steps (Expand_model.start E o1 o2 o3 fl env (enc w ++ [EOS]))).
Proof.
  intros e cf hs st k g w t f' blanks txt rest n rounds O PT F T Nw AW NH FB O1 O2 O3 O4 O5 V NM H R.
  destruct (c22_reread_partial e cf hs st k g w t f' blanks txt rest n rounds) as (w' & i & A & B & C); auto.
  exists (enc w' ++ [EOS]), i. split; [exact A|]. split; [exact C|]. intros. eapply same_expands; [exact B|]. eapply ok_good; eauto.
Qed.

(** ** Every word is printed
    and nothing beyond its end is read. *)
Definition prints (k : cstr) : Prop := forall q, exists t, tput PCode q k = Some t.
Lemma text_prints s close : forall q k, ~ In NUL s -> prints k -> exists t, tput (PText close) q (s ++ NUL :: k) = Some t.
Proof.
  induction s as [|c s IH]; intros q k N P.
  - destruct (P q) as (t & E). exists (close ++ t). cbn [app]. change (option_map (app close) (tput PCode q k) = Some (close ++ t)). now rewrite E.
  - destruct (IH q k) as (t & E); [intros X; apply N; now right|auto|]. exists (tputC c ++ t). cbn [app tput]. rewrite ceq_no by (intros ->; apply N; now left). now rewrite E.
Qed.
Lemma item_prints i : good1 i -> forall k, prints k -> prints (enc1 i ++ k).
Proof.
  apply (Word_props.item_ind' (fun i => good1 i -> forall k, prints k -> prints (enc1 i ++ k)) (fun ps => goodp ps -> forall k, prints k -> prints (encp ps ++ k))).
  all: assert (forall w, Forall (fun i => good1 i -> forall k, prints k -> prints (enc1 i ++ k)) w -> good w -> forall k, prints k -> prints (flat_map enc1 w ++ k)) as W by
    (clear; induction w as [|i w IH]; intros FA G k P; [exact P|]; inversion FA; subst; destruct G as (G1 & G2); cbn [flat_map]; rewrite <- app_assoc; auto).
  - intros c _ k P q. destruct (P q) as (t & E). exists (tputC c ++ t). change (option_map (app (tputC c)) (tput PCode q k) = Some (tputC c ++ t)). now rewrite E.
  - intros c _ k P q. destruct (P q) as (t & E). cbn [enc1 app]. set (p := (if negb q || mem c (L """`$") then L "\" else []) ++ tputC c). exists (p ++ t). change (option_map (app p) (tput PCode q k) = Some (p ++ t)). now rewrite E.
  - intros s N k P q. cbn [good1] in N. cbn [enc1 app]. rewrite <- app_assoc. destruct (text_prints s (L ")") q k N P) as (t & E). exists (L "$(" ++ t). change (option_map (app (L "$(")) (tput (PText (L ")")) q (s ++ NUL :: k)) = Some (L "$(" ++ t)). now rewrite E.
  - intros s N k P q. cbn [good1] in N. cbn [enc1 app]. rewrite <- app_assoc. destruct (text_prints s (L "))") q k N P) as (t & E). exists (L "$((" ++ t). change (option_map (app (L "$((")) (tput (PText (L "))")) q (s ++ NUL :: k)) = Some (L "$((" ++ t)). now rewrite E.
  - intros _ k P q. destruct (P true) as (t & E). exists (L """" ++ t). change (option_map (app (L """")) (tput PCode true k) = Some (L """" ++ t)). now rewrite E.
  - intros _ k P q. destruct (P false) as (t & E). exists (L """" ++ t). change (option_map (app (L """")) (tput PCode false k) = Some (L """" ++ t)). now rewrite E.
  - intros b n w FA (N & G) k P q. apply Word_props.good_fix in G. cbn [enc1 app]. rewrite <- !app_assoc. cbn [app]. rewrite <- app_assoc.
    assert (prints ([CSUBST; if b then "}"%char else "X"%char] ++ k)) as P1.
    { intros q1. destruct (P q1) as (t & E). destruct b; [exists (L "}" ++ t)|exists t]; cbn [app].
      - change (option_map (app (L "}")) (tput PCode q1 k) = Some (L "}" ++ t)). now rewrite E.
      - change (option_map (app []) (tput PCode q1 k) = Some t). now rewrite E. }
    destruct (text_prints n [] q _ N (W w FA G _ P1)) as (t & E). set (p := if b then L "{" else []). exists (L "$" ++ p ++ t).
    transitivity (option_map (app (L "$")) (option_map (app p) (tput (PText []) q (n ++ NUL :: flat_map enc1 w ++ [CSUBST; if b then "}"%char else "X"%char] ++ k)))); [destruct b; reflexivity|]. now rewrite E.
  - intros c ps IH G k P q. cbn [good1] in G. cbn [enc1 app]. rewrite <- app_assoc. assert (prints ([CPAT] ++ k)) as P1.
    { intros q1. destruct (P q1) as (t & E). exists (L ")" ++ t). change (option_map (app (L ")")) (tput PCode q1 k) = Some (L ")" ++ t)). now rewrite E. }
    destruct (IH G _ P1 q) as (t & E). exists ((tputc c ++ L "(") ++ t). change (option_map (app (tputc c ++ L "(")) (tput PCode q (encp ps ++ [CPAT] ++ k)) = Some ((tputc c ++ L "(") ++ t)). now rewrite E.
  - intros w FA G k P. cbn [goodp encp] in *. apply Word_props.good_fix in G. now apply W.
  - intros w ps FA IH (G & GP) k P. apply Word_props.good_fix in G. cbn [encp]. rewrite <- app_assoc. apply W; auto. intros q. destruct (IH GP k P q) as (t & E). exists (L "|" ++ t). cbn [app]. change (option_map (app (L "|")) (tput PCode q (encp ps ++ k)) = Some (L "|" ++ t)). now rewrite E.
Qed.
Theorem c22_printed w rest : good w -> exists txt, tputS (enc w ++ EOS :: rest) = Some txt.
Proof.
  intros G. unfold tputS. enough (prints (enc w ++ EOS :: rest)) as P by apply P. induction w as [|i w IH]; [intros q; exists []; reflexivity|]. destruct G as (G1 & G2). cbn [enc flat_map]. rewrite <- app_assoc. now apply item_prints; auto.
Qed.
Print Assumptions c22_reread_partial.
Print Assumptions c22_meaning_partial.
Print Assumptions c22_printed.

(** ** A word
    a"b $x\$"\ c${y:-"d\\e"}${z#@(a|*.c)}$(echo "(")$((1+2))$1 *)
Definition ex_word : word :=
  [Chr "a"; OQ; Chr "b"; Chr SP; Sub false (L "x") []; Qch "$"; CQ; Qch SP; Chr "c"; Sub true (L "y") [Chr ":"; Chr "-"; OQ; Chr "d"; Qch "\"; Chr "e"; CQ];
   Sub true (L "z") [Chr "#"; Pat "@" (PCons [Chr "a"] (P1 [Chr "*"; Chr "."; Chr "c"]))]; Com (L "echo ""("""); Exp (L "1+2"); Sub false (L "1") []].
Ltac ok_tac := repeat first
  [ apply ok_nil
  | apply ok_chr; [vm_compute; reflexivity|]
  | apply ok_back; [now auto|reflexivity|cbn; intuition discriminate|]
  | apply ok_qback; [now auto|reflexivity|cbn; intuition discriminate|]
  | apply ok_qch; [reflexivity|reflexivity|cbn; intuition discriminate|]
  | apply ok_open
  | apply ok_close
  | apply ok_com; [reflexivity|reflexivity|discriminate|]
  | apply ok_exp; [reflexivity|reflexivity|]
  | apply ok_name; [reflexivity|]
  | eapply ok_brace; [reflexivity|first [apply (bn_ident []); [now left|reflexivity|reflexivity|discriminate]|apply (bn_digits []); [now left|reflexivity|reflexivity]]| |]
  | eapply ok_pat; [reflexivity|cbn; tauto| |]
  | apply okp_one
  | eapply okp_cons ].
Example c22_ex : ok CBase false false ex_word SP false /\ after_word SP /\ letters ex_word = None /\ first false ex_word SP = "a"%char /\
  tputS (enc ex_word ++ [EOS]) = Some (L "a""b $x\$""\ c${y:-""d\e""}${z#@(a|*.c)}$(echo ""("")$((1+2))$1") /\
  (* read again, there is one \ less of quoting in "d\\e" *)
  match yylex 1 200 (LEnv false false [] []) noflags [] (Input [Src (KLines [L "a""b $x\$""\ c${y:-""d\e""}${z#@(a|*.c)}$(echo ""("")$((1+2))$1 ;"; [NL]]) [] [] false false] 0 0) with
  | LTok (LWORD w []) [] i => negb (str_eqb w (enc ex_word ++ [EOS])) && str_eqb (text_of (srcs i)) (L " ;" ++ [NL])
  | _ => false
  end = true.
Proof. split; [unfold ex_word; ok_tac|]. split; [now left|]. vm_compute. auto. Qed.

(** ** Words printed as something else
    the word at the beginning of a line *)
Definition lex_of (src : cstr) : option cstr :=
  match yylex 1 200 (LEnv false false [] []) noflags [] (Input [Src (KLines [src ++ L " x" ++ [NL]]) [] [] false false] 0 0) with
  | LTok (LWORD w _) _ i => if str_eqb (text_of (srcs i)) (L " x" ++ [NL]) then Some w else None
  | _ => None
  end.
(** its fields; x is ab, each command prints its own text and each number is 100 *)
Definition fields_of (w : cstr) : option (list cstr) :=
  match Expand_model.run _ (Expand_props.y1 (L " ")) 3000 (Expand_model.start _ false false false (Expand_model.F true false false true false false false false false) ([(L "x", L "ab"); (L "y", L "a*")], []) w) with
  | Expand_model.Done _ m => Some (map (fun r => Glob_model.debunk (Expand_model.r_text r)) (Expand_model.outs _ m))
  | _ => None
  end.
Definition reread (src txt : cstr) (before : list cstr) (after : option (list cstr)) : Prop :=
  match lex_of src with
  | Some w => tputS w = Some txt /\ fields_of w = Some before /\
              match lex_of txt with Some w => fields_of w | None => None end = after /\ after <> Some before
  | None => False
  end.
Ltac reread_tac := vm_compute; repeat split; discriminate.
(** '\$x' is printed as "\\$x" *)
Theorem c22_backslash_refuted : reread (L "'\$x'") (L """\\$x""") [L "\$x"] (Some [L "\ab"]).
Proof. reread_tac. Qed.
(** '\' is printed as "\", which does not end *)
Theorem c22_quote_refuted : reread (L "'\'") (L """\""") [L "\"] None.
Proof. reread_tac. Qed.
(** a newline or tab in quotes, a control character, a byte with the high bit *)
Theorem c22_control_refuted :
  reread (L "'a" ++ NL :: L "b'") (L """a^Jb""") [L "a" ++ NL :: L "b"] (Some [L "a^Jb"]) /\
  reread (L "$(a" ++ TAB :: L "b)") (L "$(a^Ib)") [L "a" ++ TAB :: L "b"] (Some [L "a^Ib"]) /\
  reread ["a"; "130"]%char (L "a$B") [["a"; "130"]%char] (Some [L "a"]) /\
  reread ["a"; "255"]%char (L "a$?") [["a"; "255"]%char] (Some [L "a"]).
Proof. reread_tac. Qed.
(** a subshell in backquotes is printed as arithmetic; case patterns in backquotes end the
    substitution; $ before backquotes *)
Theorem c22_backquotes_refuted :
  reread (L "`(a)`") (L "$((a))") [L "(a)"] (Some [L "100"]) /\
  reread (L "`case a in a) b;; esac`") (L "$(case a in a) b;; esac)") (map L ["case"; "a"; "in"; "a)"; "b;;"; "esac"]%string) None /\
  reread (L "$`a`") (L "$$(a)") [L "$a"] None.
Proof. reread_tac. Qed.
(** patterns to trim: a quoted character within double quotes, and alternatives *)
Theorem c22_trim_refuted :
  reread (L """${y%\*}""") (L """${y%*}""") [L "a"] (Some [L "a*"]) /\
  reread (L "${x#(a|b)}") (L "${x# (a|b)}") [L "b"] (Some [L "ab"]).
Proof. reread_tac. Qed.
(** "${z-\}}": the brace ends the substitution *)
Theorem c22_brace_refuted : reread (L """${z-a\}b}""") (L """${z-a}b}""") [L "a}b"] (Some [L "ab}"]).
Proof. reread_tac. Qed.
Print Assumptions c22_backslash_refuted.
Print Assumptions c22_quote_refuted.
Print Assumptions c22_control_refuted.
Print Assumptions c22_backquotes_refuted.
Print Assumptions c22_trim_refuted.
Print Assumptions c22_brace_refuted.
