(** C66: the commands of the emacs editor for words, case, the history, searches and comments. *)
From Verif Require Import Base Num_model Emacs_model Emacs_spec Emacs_proof Emacs_kill Emacs_pop Emacs_keys Emacs_props Emcmd_spec Emcmd_proof.
From Coq Require Import ZArith Lia.

Definition count (a : option nat) : nat := match a with None => 1 | Some n => n end.
(** ESC f and ESC b go over as many words as asked for; ^A and ^E go to the ends of the line.  Nothing else changes. *)
Theorem c66_words e f c a s l t : txt s = l ++ t -> cur s = length l ->
  (exists w r, t = w ++ r /\ words_right (count a) w r /\ run e f F_mv_fword c a s = Ok (KSTD, with_txt (txt s) (length (l ++ w)) s)) /\
  (exists r w, l = r ++ w /\ words_right (count a) (rev w) (rev r) /\ run e f F_mv_bword c a s = Ok (KSTD, with_txt (txt s) (length r) s)) /\
  run e f F_mv_begin c a s = Ok (KSTD, with_txt (txt s) 0 s) /\ run e f F_mv_end c a s = Ok (KSTD, with_txt (txt s) (length (txt s)) s).
Proof.
  intros T C. sp.
  - exists (firstn (words (count a) t) t), (skipn (words (count a) t) t). pose proof (words_le (count a) t) as LE. sp.
    + symmetry. apply firstn_skipn.
    + apply words_right_of.
    + cbn [run]. unfold x_fword, goto. fold (count a). rewrite C, T, skipn_app_exact. rewrite !app_length, firstn_length.
      replace (length l + words (count a) t <=? length l + length t) with true by (symmetry; apply Nat.leb_le; lia). cbn. do 3 f_equal. lia.
  - pose proof (words_le (count a) (rev l)) as LE. pose proof (words_right_of (count a) (rev l)) as W. set (n := words (count a) (rev l)) in *. rewrite rev_length in LE.
    exists (firstn (length l - n) l), (skipn (length l - n) l).
    assert (R0 : rev l = rev (skipn (length l - n) l) ++ rev (firstn (length l - n) l)) by (rewrite <- rev_app_distr, firstn_skipn; reflexivity).
    assert (LN : n = length (rev (skipn (length l - n) l))) by (rewrite rev_length, skipn_length; lia).
    assert (R1 : rev (skipn (length l - n) l) = firstn n (rev l)) by (rewrite R0; rewrite LN at 2; symmetry; apply firstn_app_exact).
    assert (R2 : rev (firstn (length l - n) l) = skipn n (rev l)) by (rewrite R0; rewrite LN at 2; symmetry; apply skipn_app_exact).
    sp.
    + symmetry. apply firstn_skipn.
    + rewrite R1, R2. exact W.
    + cbn [run]. unfold x_bword. fold (count a). rewrite firstn_length. replace (Nat.min (length l - n) (length l)) with (length l - n) by lia. destruct (Nat.eqb_spec (cur s) 0) as [Z|NZ].
      * cbn. replace (length l - n) with (cur s) by lia. rewrite with_txt_eta. reflexivity.
      * rewrite T, C, firstn_app_exact. fold n. unfold goto. rewrite T, app_length. replace (length l - n <=? length l + length t) with true by (symmetry; apply Nat.leb_le; lia). reflexivity.
  - reflexivity.
  - cbn [run]. unfold goto. rewrite Nat.leb_refl. reflexivity.
Qed.
Print Assumptions c66_words.
(** ESC u, ESC l and ESC c change the case of the letters of as many words after the cursor and nothing else, and go after them. *)
Definition fold_cmd (g : func) : option (bool * bool) :=
  match g with F_fold_upper => Some (true, true) | F_fold_lower => Some (false, false) | F_fold_capitalize => Some (true, false) | _ => None end.
Theorem c66_case e f g u1 u2 c a s l t : fold_cmd g = Some (u1, u2) -> txt s = l ++ t -> cur s = length l ->
  (t = [] /\ run e f g c a s = Ok (KSTD, s)) \/
  exists w w' r, t = w ++ r /\ folded u1 u2 (count a) w w' r /\ run e f g c a s = Ok (KSTD, with_txt (l ++ w' ++ r) (length (l ++ w')) s).
Proof.
  intros G T C. assert (R : run e f g c a s = std (x_fold (count a) u1 u2 s)) by (destruct g; try discriminate; injection G as <- <-; reflexivity). rewrite R. clear R G.
  unfold x_fold. rewrite C, T, app_length. destruct (Nat.eqb_spec (length l) (length l + length t)) as [E|N]; [ left; destruct t; [ auto | cbn in E; lia ] | right ].
  rewrite skipn_app_exact, firstn_app_exact. destruct (fold_words (count a) u1 u2 t) as (x, y) eqn:F. destruct (fold_words_of _ _ _ _ _ _ F) as (w & -> & FD & LN).
  exists w, x, y. sp; auto. unfold goto. cbn [txt with_txt]. rewrite !app_length. replace (length l + length x <=? length l + (length x + length y)) with true by (symmetry; apply Nat.leb_le; lia). reflexivity.
Qed.
Print Assumptions c66_case.
(** ^P, ^N, ESC <, ESC > and ESC g show the history line asked for, with the cursor after it, and do nothing if there is no such line. *)
Theorem c66_history e f g c a s h : sane e -> line_of e g a s = Some h ->
  exists s1, run e f g c a s = Ok (KSTD, s1) /\ ((0 <= h < Z.of_nat (length (hist e)))%Z -> shows e h s s1) /\ (~ (0 <= h < Z.of_nat (length (hist e)))%Z -> s1 = s).
Proof.
  intros SN H. exists (load_hist e h s). split; [ | split; [ apply load_shows; exact SN | apply load_none ] ].
  unfold line_of in H. destruct g; try discriminate; injection H as <-; reflexivity.
Qed.
Print Assumptions c66_history.
(** ^] and ESC ^] go to the next or previous place of the character typed after them, around the ends of the line; they do not move if it
    is nowhere else. *)
Theorem c66_search_char e f c s d v : byte_ok s -> view s = d :: v -> 0 < nat_of_ascii d < 128 -> cur s <= length (txt s) ->
  (exists s1, run e f F_search_char_forw c None s = Ok (KSTD, s1) /\ txt s1 = txt s /\ view s1 = v /\
     ((exists i, is_at (txt s) d i) -> next_at (txt s) d (cur s) (cur s1)) /\ ((forall i, ~ is_at (txt s) d i) -> cur s1 = cur s)) /\
  (exists s1, run e f F_search_char_back c None s = Ok (KSTD, s1) /\ txt s1 = txt s /\ view s1 = v /\
     ((exists i, is_at (txt s) d i /\ i <> cur s) -> prev_at (txt s) d (cur s) (cur s1)) /\ ((forall i, is_at (txt s) d i -> i = cur s) -> cur s1 = cur s)).
Proof.
  intros B V A L. assert (NN : is_nul d = false) by (apply ceq_false; intros ->; cbn in A; lia).
  pose proof (getc_view s B) as G. rewrite V in G. destruct G as (s1 & G & B1 & U1 & V1 & E1).
  assert (T1 : txt s1 = txt s /\ cur s1 = cur s) by (rewrite E1; auto). destruct T1 as (T1 & C1). pose proof (uchar_range d) as UR.
  assert (NZ : (uchar d <? 0)%Z = false) by (apply Z.ltb_ge; lia). split.
  - cbn [run]. unfold x_search_char_forw. rewrite G, NZ, to_char_uchar, T1, C1. pose proof (forw_next d (txt s) (cur s) NN L) as F. destruct (chars_forw 1 d (txt s) (cur s)) as [q|].
    + unfold goto. pose proof (is_at_lt _ _ _ (proj1 F)) as Q. rewrite T1. replace (q <=? length (txt s)) with true by (symmetry; apply Nat.leb_le; lia). cbn [std then_].
      eexists. split; [ reflexivity | ]. cbn. sp; auto. intros N. exfalso. apply (N q). apply F.
    + eexists. split; [ reflexivity | ]. sp; auto. intros (i & I). exfalso. apply (F i I).
  - cbn [run]. unfold x_search_char_back. rewrite G, NZ, C1. pose proof (back_prev d s1 (cur s) ltac:(lia) NN ltac:(rewrite T1; exact L)) as F. rewrite T1 in F. destruct (chars_back 1 (uchar d) s1 (cur s)) as [q|].
    + unfold goto. pose proof (is_at_lt _ _ _ (proj1 F)) as Q. rewrite T1. replace (q <=? length (txt s)) with true by (symmetry; apply Nat.leb_le; lia). cbn [std then_].
      eexists. split; [ reflexivity | ]. cbn. sp; auto. intros N. apply N. apply F.
    + eexists. split; [ reflexivity | ]. sp; auto. intros (i & I & NE). exfalso. apply NE. apply F. exact I.
Qed.
Print Assumptions c66_search_char.
(** ESC # puts a # before each line and gives the whole to the shell, if there is room; if the line is a comment it takes one # from each
    line.  So what it made of lines it takes back. *)
Theorem c66_comment e f c a s ls : Forall one_line ls -> ls <> [] -> txt s = join ls -> txt s <> [] ->
  (hd NUL (txt s) <> "#"%char -> length (join (map (cons "#"%char) ls)) < cap e ->
     exists s1, run e f F_comment c a s = Ok (KEOL, s1) /\ txt s1 = join (map (cons "#"%char) ls) ++ [NL]) /\
  (hd NUL (txt s) = "#"%char -> run e f F_comment c a s = Ok (KSTD, with_txt (join (map unhash ls)) 0 s)).
Proof.
  intros F NE T NT. split.
  - intros H R. cbn [run]. unfold x_comment. destruct (txt s) as [|d t] eqn:E; [ congruence | ]. cbn [hd] in H. apply ceq_false in H. rewrite H.
    rewrite T. rewrite (comment_join ls F NE). replace (cap e <=? _) with false by (symmetry; apply Nat.leb_gt; exact R).
    unfold x_newline. cbn [txt with_txt]. replace (cap e <=? _) with false by (symmetry; apply Nat.leb_gt; exact R). eexists. split; [ reflexivity | reflexivity ].
  - intros H. cbn [run]. unfold x_comment. destruct (txt s) as [|d t] eqn:E; [ congruence | ]. cbn [hd] in H. subst d. rewrite ceq_refl. do 3 f_equal.
    destruct ls as [|l ls]; [ congruence | ]. inversion F as [|? ? F1 F2]; subst. cbn [join] in T. destruct l as [|x l].
    + exfalso. cbn [app] in T. destruct ls; cbn in T; [ discriminate | injection T as X _; discriminate ].
    + cbn [app] in T. injection T as <- ->. rewrite uncomment_join; auto. intros I. apply F1. right. exact I.
Qed.
Print Assumptions c66_comment.
Corollary c66_comment_back ls : map unhash (map (cons "#"%char) ls) = ls.
Proof. rewrite map_map. rewrite <- map_id. apply map_ext. intros l. unfold unhash. destruct (ascii_dec "#" "#"); congruence. Qed.
(** ESC . inserts the last word of the last history line, or the word of the number asked for. *)
Theorem c66_histword e f c s h t : hist e = h ++ [t] -> length (txt s) + length t < cap e -> 
  (~ Forall separator t -> exists w, last_of t w /\ run e f F_prev_histword c None s = Ok (KSTD, with_txt (firstn (cur s) (txt s) ++ w ++ skipn (cur s) (txt s)) (cur s + length w) s)) /\
  forall n z u, t = z ++ u -> Forall separator z -> match u with d :: _ => ~ separator d | [] => True end ->
    exists w, word_no (S n) u w /\ run e f F_prev_histword c (Some (S n)) s = Ok (KSTD, with_txt (firstn (cur s) (txt s) ++ w ++ skipn (cur s) (txt s)) (cur s + length w) s).
Proof.
  intros H R. assert (LT : forall n u, length (nth_word n u) <= length u).
  { intros n. induction n as [|n IH]; intros u; [ cbn; rewrite firstn_length; lia | ]. destruct n as [|n]; [ cbn; rewrite firstn_length; lia | ].
    change (nth_word (S (S n)) u) with (nth_word (S n) (skipn (span is_cfs (skipn (span not_cfs u) u)) (skipn (span not_cfs u) u))).
    etransitivity; [ apply IH | ]. rewrite !skipn_length. lia. }
  split.
  - intros N. exists (last_word_c t). pose proof (last_word_of t N) as W. split; [ exact W | ]. cbn [run]. unfold x_prev_histword. rewrite H, last_last.
    destruct (h ++ [t]) eqn:E; [ destruct h; discriminate | ]. destruct t as [|d t]; [ exfalso; apply N; constructor | ].
    rewrite ins_fits; [ reflexivity | ]. destruct W as (p & v & z & E1 & E2 & _). rewrite E2. rewrite E1, app_length in R. lia.
  - intros n z u E1 Z U. exists (nth_word (S n) u). split; [ apply nth_word_of; exact U | ]. cbn [run]. unfold x_prev_histword. rewrite H, last_last.
    destruct (h ++ [t]) eqn:E; [ destruct h; discriminate | ].
    assert (SK : skipn (span is_cfs t) t = u).
    { subst t. clear - Z U. induction Z as [|x z X Z IH]; cbn [app span].
      - destruct u as [|d u]; [ reflexivity | ]. cbn [span]. destruct (is_cfs d) eqn:D; [ apply cfs_iff in D; contradiction | reflexivity ].
      - apply cfs_iff in X. rewrite X. exact IH. }
    rewrite SK, ins_fits; [ reflexivity | ]. pose proof (LT (S n) u). rewrite E1, app_length in R. lia.
Qed.
Print Assumptions c66_histword.
(** ^R and a pattern, then ESC: the newest history line that matches is in the line, with the cursor after the first match, if there is one. *)
Theorem c66_search_history e f c a s pat rest : sane e -> byte_ok s -> view s = pat ++ "027"%char :: rest -> pat <> [] -> Forall (pattern_char e) pat -> length pat <= 256 ->
  length pat < f -> histp s = Z.of_nat (length (hist e)) -> (exists h t n, nth_error (hist e) h = Some t /\ matches pat t n) ->
  exists s1 h n, run e f F_search_hist c a s = Ok (KSTD, s1) /\ newest e pat h (txt s1) n /\ cur s1 = n /\ histp s1 = Z.of_nat h /\ view s1 = "027"%char :: rest.
Proof.
  intros SN B V NE FP LP LF HP EX. destruct (search_typed e SN pat [] None s f rest B V FP LP LF EX NE) as (s1 & h & n & E & NW & C & P & V1); [ left; auto | ].
  exists s1, h, n. cbn [run]. rewrite E. sp; auto.
Qed.
Print Assumptions c66_search_history.
(** ^D gives the end of input on an empty line without an argument, and else deletes; ^G gives up the line. *)
Theorem c66_eot e f c a s : (txt s = [] /\ a = None -> run e f F_eot_del c a s = Ok (KEOL, s)) /\ (txt s <> [] \/ a <> None -> run e f F_eot_del c a s = run e f F_del_char c a s) /\
  run e f F_abort c a s = Ok (KINTR, with_txt [] 0 s).
Proof.
  sp.
  - intros (T & ->). cbn [run]. rewrite T. reflexivity.
  - intros H. cbn [run]. destruct (txt s) as [|d t], a as [n|]; cbn [length Nat.eqb andb]; try reflexivity. destruct H; congruence.
  - reflexivity.
Qed.
Print Assumptions c66_eot.

(** Not the hypotheses of no one *)
Definition line1 (t : cstr) (p : nat) (i : list char) : ed := with_in None None i (with_txt t p (start (env1 [L "ls -l"; L "echo a"; L "cd /tmp"]) ring0 0 0 (-1) None None [])).
Definition e3 := env1 [L "ls -l"; L "echo a"; L "cd /tmp"].
Example c66_example_words : run e3 9 F_mv_fword NUL None (line1 (L "ab, cd e") 2 []) = Ok (KSTD, line1 (L "ab, cd e") 6 []) /\
  run e3 9 F_mv_bword NUL (Some 2) (line1 (L "ab, cd e") 8 []) = Ok (KSTD, line1 (L "ab, cd e") 4 []).
Proof. split; vm_compute; reflexivity. Qed.
Example c66_example_case : run e3 9 F_fold_capitalize NUL (Some 2) (line1 (L "x abC dEF g") 1 []) = Ok (KSTD, line1 (L "x Abc Def g") 9 []).
Proof. vm_compute. reflexivity. Qed.
Example c66_example_search : match run e3 99 F_search_hist NUL None (line1 [] 0 (L "o a" ++ [esc])) with Ok (_, s) => txt s = L "echo a" /\ cur s = 6 | _ => False end.
Proof. vm_compute. auto. Qed.
Example c66_example_pattern : sane e3 /\ Forall (pattern_char e3) (L "o a") /\ matches (L "o a") (L "echo a") 6.
Proof.
  split; [ apply env1_sane; [ vm_compute; reflexivity | discriminate ] | ]. split.
  - assert (U : forall c, 32 <= nat_of_ascii c < 127 -> pattern_char e3 c).
    { intros c R. split; [ lia | ]. split; [ lia | ]. intros k IK E. exfalso. apply (c64_example_unbound [L "ls -l"; L "echo a"; L "cd /tmp"] c ltac:(lia) ltac:(lia) k IK [] E). }
    repeat constructor; apply U; vm_compute; lia.
  - change 6 with (found_at 3 (L "o a")). apply match_some. vm_compute. reflexivity.
Qed.
Example c66_example_char : match run e3 99 F_search_char_forw NUL None (line1 (L "a.b.c") 3 (L ".")) with Ok (_, s) => cur s = 1 | _ => False end /\
  match run e3 99 F_search_char_back NUL None (line1 (L "a.b.c") 1 (L ".")) with Ok (_, s) => cur s = 3 | _ => False end.
Proof. vm_compute. auto. Qed.
Example c66_example_word : match run e3 99 F_prev_histword NUL None (line1 (L "ls ") 3 []) with Ok (_, s) => txt s = L "ls /tmp" | _ => False end /\
  match run e3 99 F_prev_histword NUL (Some 1) (line1 (L "ls ") 3 []) with Ok (_, s) => txt s = L "ls cd" | _ => False end.
Proof. vm_compute. auto. Qed.
Example c66_example_comment : match run e3 99 F_comment NUL None (line1 (L "ab" ++ NL :: L "cd") 3 []) with Ok (KEOL, s) => txt s = L "#ab" ++ NL :: L "#cd" ++ [NL] | _ => False end.
Proof. vm_compute. reflexivity. Qed.
