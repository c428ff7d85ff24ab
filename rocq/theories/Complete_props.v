(** C73: completion of the word at the cursor. *)
From Verif Require Import Base Num_model Word_model Word_spec Src_model Src_spec Src_proof Src_props Lex_model Lex_sim Lex_spec Lex_props Emacs_model Complete_model Complete_spec Complete_proof.
Local Open Scope nat_scope.

(** The word found is within the line and does not start after the cursor, and only the line is read. *)
Theorem c73_locate_safe : forall buf pos, pos <= length buf ->
  exists start len cmd, locate buf pos = Some (start, len, cmd) /\ start <= pos /\ start + len <= length buf.
Proof.
  intros buf pos H. destruct (back_safe buf pos H) as [s [B S]]. unfold locate. destruct (Nat.ltb_spec (length buf) pos) as [X|_]; [lia|]. rewrite B.
  eexists _, _, _. split; [reflexivity|]. split; [exact S|]. pose proof (forw_le (skipn s buf)) as Y. rewrite skipn_length in Y. lia.
Qed.
Print Assumptions c73_locate_safe.

(** From any place in it the whole of a word is found, and it is a command exactly if one can start there and it has no slash. *)
Theorem c73_locate : forall p w q k, apart p -> Forall part_ok w -> ended q -> k <= length (src_of w) ->
  exists cmd, locate (p ++ src_of w ++ q) (length p + k) = Some (length p, length (src_of w), cmd) /\
    (cmd = true <-> at_command p /\ ~ In "/"%char (src_of w)).
Proof. intros p w q k A F E H. eexists. split; [now apply locate_src|]. apply is_command_src. Qed.
Print Assumptions c73_locate.
Example c73_locate_example :
  let p := L "x=1; " in let w := [Plain "a"; Back " "; Plain "b"; Back "|"]%char in let q := L ">f" in
  apart p /\ Forall part_ok w /\ ended q /\ at_command p /\ p ++ src_of w ++ q = L "x=1; a\ b\|>f" /\
  locate (L "x=1; a\ b\|>f") 8 = Some (5, 6, true) /\ locate (L "cat x=1/a") 9 = Some (6, 3, false).
Proof.
  cbv zeta. split; [apply (ap_two (L "x=1") ";" " "); [discriminate|now left]|]. split; [repeat constructor; discriminate|].
  split; [cbn; tauto|]. split; [|repeat split].
  exists (L "x=1;"), (L " "). split; [reflexivity|]. split; [repeat constructor|right]. exists (L "x=1"), ";"%char. split; [reflexivity|left; now left].
Qed.

(** Two backslashes and a blank: the word found ends before the cursor, and is what the completion replaces. *)
Theorem c73_locate_refuted : ~ (forall buf pos start len cmd, pos <= length buf -> locate buf pos = Some (start, len, cmd) -> pos <= start + len).
Proof. intros H. specialize (H (L "\\ x") 4 0 2 true). cbn in H. specialize (H ltac:(lia) eq_refl). lia. Qed.
Print Assumptions c73_locate_refuted.

(** Which names are offered: for a command, commands; otherwise the elements of an array for it, if there are, and else files. *)
Theorem c73_offered : forall arrays commands files cmds p w q k, apart p -> Forall part_ok w -> ended q -> k <= length (src_of w) ->
  let t := src_of w in let given := cf_glob arrays commands files cmds (p ++ t ++ q) (length p + k) in
  let offer l := match l with [] => None | _ => Some (length p, length p + length t, l) end in
  (cmds = true -> at_command p -> ~ In "/"%char t -> given = match w with [] => None | _ => offer (commands t) end) /\
  (cmds = false \/ ~ at_command p \/ In "/"%char t ->
     (p = [] -> given = offer (files t)) /\
     (forall name n, call p name n ->
        let arr := match arrays name (Some (S n)) with Some l => Some l | None => arrays name None end in
        (forall l, arr = Some l -> exists l', (forall x, In x l' <-> In x l /\ exists r, x = t ++ r) /\
                   given = match l' with [] => offer (files t) | _ => offer l' end) /\
        (arr = None -> given = offer (files t)))).
Proof.
  intros arrays commands files cmds p w q k A F E H t given offer. pose proof (locate_src p w q k A F E H) as LS. fold t in LS. unfold given, cf_glob. rewrite LS.
  assert (SK : firstn (length t) (skipn (length p) (p ++ t ++ q)) = t).
  { rewrite skipn_app, skipn_all, Nat.sub_diag. cbn [app skipn]. now rewrite firstn_app, firstn_all, Nat.sub_diag, firstn_O, app_nil_r. }
  rewrite SK. pose proof (is_command_src p t q) as C. split.
  - intros -> AC NS. rewrite (proj2 C (conj AC NS)). cbn [andb].
    destruct w as [|s w]; [reflexivity|]. destruct (Nat.eqb_spec (length t) 0) as [Z|_].
    { exfalso. inversion F as [|x y P F']; subst. unfold t in Z. destruct s; try contradiction; discriminate Z. }
    reflexivity.
  - intros NC. assert (X : is_command (p ++ t ++ q) (length p) (length t) && cmds = false).
    { apply Bool.andb_false_iff. destruct cmds; [left|now right]. apply Bool.not_true_iff_false. rewrite C. intros [Y Z]. destruct NC as [NC|[NC|NC]]; [discriminate| |]; tauto. }
    rewrite X, Bool.andb_false_r. split.
    + intros ->. reflexivity.
    + intros name n CL. rewrite (try_array_call arrays p name n t q CL). set (arr := match arrays name (Some (S n)) with Some l => Some l | None => _ end). split.
      * intros l ->. exists (filter (starts_with t) l). split.
        -- intros x. rewrite filter_In, prefix_ok. tauto.
        -- destruct (filter (starts_with t) l) as [|y ys]; reflexivity.
      * intros ->. reflexivity.
Qed.
Print Assumptions c73_offered.
(** cd after an operator and one argument: its second array, of which the elements that start as the word does. *)
Definition arrays1 (name : cstr) (n : option nat) : option (list cstr) :=
  if str_eqb name (L "git") then match n with Some 2 => Some (map L ["main"; "topic"; "master"]%string) | Some _ => None | None => Some [L "add"] end else None.
Example c73_offered_example :
  call (L "a|git  x ") (L "git") 1 /\ apart (L "a|git  x ") /\
  cf_glob arrays1 (fun _ => []) (fun _ => [L "file"]) true (L "a|git  x ma;") 11 = Some (9, 11, [L "main"; L "master"]) /\
  cf_glob arrays1 (fun _ => []) (fun _ => [L "file"]) true (L "a|git  a") 8 = Some (7, 8, [L "add"]) /\
  cf_glob arrays1 (fun _ => []) (fun _ => [L "file"]) true (L "a|git  f") 8 = Some (7, 8, [L "file"]) /\
  cf_glob arrays1 (fun t => [t ++ L "t"]) (fun _ => [L "file"]) true (L "a|gi") 4 = Some (2, 4, [L "git"]).
Proof.
  split; [|split; [apply (ap_two (L "a|git  ") "x" " "); [discriminate|now left]|repeat split]].
  split.
  - exists (L "a|"), [], (L "  "), [(L "x", L " ")]. split; [reflexivity|]. split; [reflexivity|].
    split; [right; exists (L "a"), "|"%char; split; [reflexivity|left; cbn; tauto]|]. repeat split; try discriminate; repeat constructor; try discriminate; cbn; intuition discriminate.
  - split; [discriminate|]. repeat constructor.
Qed.

Definition env_of0 files : env := Env 60 60 [] 1 [] false [SP; TAB; NL] (fun f => cf_glob (fun _ _ => None) (fun _ => []) files true).
(** What the editor of C64 takes for granted about completion holds: a part of the line, and names that are those looked up. *)
Theorem c73_glob_sane : forall arrays commands files cmds t c a b l (ok : cstr -> Prop),
  (forall n i r x, arrays n i = Some r -> In x r -> ok x) -> (forall u x, In x (commands u) -> ok x) -> (forall u x, In x (files u) -> ok x) ->
  cf_glob arrays commands files cmds t c = Some (a, b, l) -> c <= length t -> a <= b <= length t /\ l <> [] /\ forall w, In w l -> ok w.
Proof.
  intros arrays commands files cmds t c a b l ok A C F G H. unfold cf_glob in G. destruct (c73_locate_safe t c H) as [s [n [i [E [S1 S2]]]]]. rewrite E in G.
  destruct ((n =? 0) && (i && cmds)); [discriminate|].
  set (ws := if i && cmds then _ else _) in G. destruct ws as [|w0 ws'] eqn:W; [discriminate|]. injection G as <- <- <-.
  split; [lia|]. split; [discriminate|]. rewrite <- W. unfold ws. intros w I. destruct (i && cmds); [now apply C in I|].
  destruct (try_array arrays t s n) as [|y ys] eqn:T; [now apply F in I|]. rewrite <- T in I. unfold try_array in I.
  destruct (s =? 0); [contradiction|]. destruct (forallb _ _); [|contradiction].
  destruct (arrays _ (Some _)) as [r|] eqn:Q.
  - apply filter_In in I. destruct I as [I _]. exact (A _ _ _ _ Q I).
  - destruct (arrays _ None) as [r|] eqn:Q2; [|contradiction]. apply filter_In in I. destruct I as [I _]. exact (A _ _ _ _ Q2 I).
Qed.
Print Assumptions c73_glob_sane.
Example c73_glob_sane_example : forall f t c a b l, glob (env_of0 (fun _ => [L "file"])) f t c = Some (a, b, l) -> c <= length t ->
  a <= b <= length t /\ l <> [] /\ forall w, In w l -> w <> [].
Proof. intros f t c a b l G H. eapply c73_glob_sane; [..|exact G|exact H]; cbn; [discriminate|intros ? ? []|]; intros _ x [<-|[]]; discriminate. Qed.

(** What is inserted for several names is the longest text they all start with. *)
Theorem c73_prefix : forall l, l <> [] -> longest_common (firstn (longest l) (nth 0 l [])) l.
Proof. intros l H. now apply longest_ok. Qed.
Print Assumptions c73_prefix.

(** The word is replaced by that text, written so that it stands for it, with a blank after the only name unless it ends in a slash;
    the cursor is after it, the rest is as before; and then the word there is found whole, so it can be completed again. *)
Theorem c73_completed : forall e flags s p w q k l,
  txt s = p ++ src_of w ++ q -> cur s = length p + k -> k <= length (src_of w) -> apart p -> Forall part_ok w -> ended q ->
  glob e flags (txt s) (cur s) = Some (length p, length p + length (src_of w), l) -> l <> [] ->
  (forall v, In v l -> writable (ifs e) v /\ length (txt s) + 2 * length v + 1 < cap e) ->
  (forall n, longest_common n l -> length l = 1 /\ n <> [] \/ length (src_of w) < length n) ->
  exists name w' s' t, longest_common name l /\ Forall part_ok w' /\ text_of_segs w' = name /\
    do_complete e flags false s = Ok s' /\ txt s' = p ++ src_of w' ++ t ++ q /\ cur s' = length (p ++ src_of w' ++ t) /\
    (length l = 1 /\ (forall d, name <> d ++ L "/") -> t = L " ") /\ (length l <> 1 \/ (exists d, name = d ++ L "/") -> t = []) /\
    (forall j, j <= length (src_of w') -> exists cmd, locate (txt s') (length p + j) = Some (length p, length (src_of w'), cmd)).
Proof.
  intros e flags s p w q k l T C Hk A F E G Nl W N. pose proof (c73_prefix l Nl) as LC. destruct (longest_ok l Nl) as [_ Ln].
  set (name := firstn (longest l) (nth 0 l [])) in *. assert (I0 : In (nth 0 l []) l) by (destruct l; [contradiction|now left]).
  destruct (W _ I0) as [W0 R0]. assert (Lname : length name = longest l) by (now apply firstn_length_le).
  destruct (complete_ok e flags s (length p) (length p + length (src_of w)) l) as [s' [D [T' C']]]; auto; try lia.
  { rewrite T, !app_length. lia. }
  { fold name. intros X. destruct (N name LC) as [[_ Y]|Y]; [exact Y|]. intros Z. rewrite Z in Y. cbn in Y. lia. }
  { fold name. destruct (N name LC) as [[Y _]|Y]; [now left|right; lia]. }
  { fold name. lia. }
  fold name in T', C'. set (t := if (length l =? 1) && _ then _ else _) in *.
  assert (Wn : writable (ifs e) name).
  { intros c I. apply W0. unfold name in I. rewrite <- (firstn_skipn (longest l) (nth 0 l [])). apply in_or_app. now left. }
  assert (T2 : txt s' = p ++ src_of (esc e name) ++ t ++ q).
  { rewrite T', T. rewrite firstn_app, firstn_all, Nat.sub_diag, firstn_O, app_nil_r. do 3 f_equal. rewrite app_assoc, <- app_length.
    rewrite skipn_app, skipn_all, Nat.sub_diag. reflexivity. }
  exists name, (esc e name), s', t. split; [exact LC|]. split; [now apply esc_ok|]. split; [apply esc_text|]. split; [exact D|].
  split; [exact T2|]. split; [rewrite C', !app_length; lia|]. split; [|split].
  - intros [L1 NS]. unfold t. rewrite L1. cbn [Nat.eqb andb]. destruct (ceq (last name NUL) "/") eqn:X; [|reflexivity]. exfalso.
    apply ceq_true in X. destruct name as [|c0 n0] eqn:Z; [discriminate|]. destruct (exists_last (l := c0 :: n0)) as [u [c Y]]; [discriminate|].
    rewrite Y in X. rewrite last_last in X. subst c. now apply (NS u).
  - intros [L1|[d L1]]; unfold t.
    + apply Nat.eqb_neq in L1. now rewrite L1.
    + rewrite L1. change (L "/") with ["/"%char]. rewrite last_last, ceq_refl. now rewrite Bool.andb_false_r.
  - intros j J. rewrite T2. destruct (c73_locate p (esc e name) (t ++ q) j) as [cmd [X _]]; auto; [now apply esc_ok| |now exists cmd].
    unfold t. destruct (_ && _); [now left|exact E].
Qed.
Print Assumptions c73_completed.
Definition here (t : cstr) (n : nat) : ed := Ed t n (Some 1) [] 0 0 None None false 0 (-1) None None [].
Definition env_of (c : nat) files : env := Env c c [] 1 [] false [SP; TAB; NL] (fun f => cf_glob (fun _ _ => None) files files (negb (f =? 1))).
Definition result (r : res ed) : option (cstr * nat) := match r with Ok s => Some (txt s, cur s) | _ => None end.
Example c73_completed_example :
  let e := env_of 60 (fun t => [L "my file{1}.c"; L "my file{1}.h"]) in let e1 := env_of 60 (fun t => [L "a&b/"]) in let e2 := env_of 60 (fun t => [L "a b"]) in
  result (do_complete e 1 false (here (L "cp my\ ;") 5)) = Some (L "cp my\ file\{1\}.;", 17) /\
  result (do_complete e1 1 false (here (L "cp a ;") 4)) = Some (L "cp a\&b/ ;", 8) /\ result (do_complete e2 1 false (here (L "cp a|b") 4)) = Some (L "cp a\ b |b", 8) /\
  longest_common (L "my file{1}.") [L "my file{1}.c"; L "my file{1}.h"] /\ writable [SP; TAB; NL] (L "my file{1}.c") /\ apart (L "cp ").
Proof.
  cbv zeta. split; [vm_compute; reflexivity|]. split; [vm_compute; reflexivity|]. split; [vm_compute; reflexivity|].
  split; [apply (c73_prefix [L "my file{1}.c"; L "my file{1}.h"]); discriminate|]. split.
  - intros c H. cbn in H. repeat (destruct H as [<-|H]; [split; [discriminate|split; [discriminate|split; [discriminate|cbn; intuition discriminate]]]|]). contradiction.
  - apply (ap_two (L "c") "p" " "); [discriminate|now left].
Qed.

(** And the shell reads what is written so as one word, which stands for exactly the name. *)
Theorem c73_read_back : forall e cf hs st bl w rest n rounds k g,
  fresh st -> text_of st = bl ++ src_of w ++ rest -> Forall (fun c => c = SP \/ c = TAB) bl -> w <> [] -> Forall part_ok w ->
  match rest with c :: _ => ~ In c (L "<>(") | [] => True end -> ends_word rest ->
  oneword cf = false -> letexpr cf = false -> heredelim cf = false -> heredoc cf = false -> keyword cf = false -> aliases e = [] ->
  length (text_of st) < n -> 0 < rounds ->
  exists items id i, yylex rounds n e cf hs (Input st k g) = LTok (LWORD (enc items ++ [EOS]) id) [] i /\
    denotes false items (text_of_segs w) /\ text_of (srcs i) = rest.
Proof.
  intros e cf hs st bl w rest n rounds k g F T B Nw P R E O1 O2 O3 O4 K A N Rd. apply (c24_plain_word e cf hs st bl w rest n rounds k g); auto.
  - eapply Forall_impl; [|exact P]. intros [t|t|c|c] X; cbn in *; tauto.
  - destruct rest as [|c r]; [exact Logic.I|]. cbn in R. split; intros ->; apply R; cbn; tauto.
  - left. destruct rest as [|c r]; [discriminate|]. cbn in R |- *. intros X. injection X as ->. tauto.
Qed.
Print Assumptions c73_read_back.
Definition line_of (t : cstr) := [Src (KLines [t ++ [NL]]) [] [] false false].
Definition word_read (t : cstr) : option cstr := match yylex 1 100 (LEnv false false [] []) noflags [] (Input (line_of t) 0 0) with LTok (LWORD w _) [] _ => Some w | _ => None end.
Example c73_read_back_example : word_read (L " a\&b/") = Some (enc [Chr "a"; Qch "&"; Chr "b"; Chr "/"]%char ++ [EOS]).
Proof. vm_compute. reflexivity. Qed.

(** A name with a newline is completed to a text which the shell reads as another name. *)
Theorem c73_newline_refuted :
  let e := env_of 60 (fun _ => [L "a" ++ [NL] ++ L "b"]) in
  result (do_complete e 1 false (here (L "a") 1)) = Some (L "a\" ++ [NL] ++ L "b ", 5) /\ word_read (L "a\" ++ [NL] ++ L "b ") = Some (enc [Chr "a"; Chr "b"]%char ++ [EOS]).
Proof. split; vm_compute; reflexivity. Qed.
Print Assumptions c73_newline_refuted.
(** So is one that starts with a tilde: it is not quoted. *)
Theorem c73_tilde_refuted :
  let e := env_of 60 (fun _ => [L "~root"]) in result (do_complete e 1 false (here (L "cat ") 4)) = Some (L "cat ~root ", 10).
Proof. vm_compute. reflexivity. Qed.
Print Assumptions c73_tilde_refuted.
(** In a line that is nearly full the backslash fits and the character does not, and it counts as done: what follows is then quoted. *)
Theorem c73_full_refuted :
  let e := env_of 8 (fun _ => [L "ab&"]) in result (do_complete e 1 false (here (L "cat a") 5)) = Some (L "cat ab\", 7) /\
  let e := env_of 8 (fun _ => [L "ab&"]) in fst (escape e [] (L "ab&") (here (L "cat ") 4)) = true.
Proof. split; vm_compute; reflexivity. Qed.
Print Assumptions c73_full_refuted.
(** The length of the names is compared with that of the word as written, so what all names have in common may not be inserted. *)
Theorem c73_quoted_refuted :
  let e := env_of 60 (fun _ => [L "a b c1"; L "a b c2"]) in
  longest_common (L "a b c") [L "a b c1"; L "a b c2"] /\ result (do_complete e 1 false (here (L "cat a\ b\ ") 10)) = Some (L "cat a\ b\ ", 10).
Proof. split; [apply (c73_prefix [L "a b c1"; L "a b c2"]); discriminate|vm_compute; reflexivity]. Qed.
Print Assumptions c73_quoted_refuted.
(** If the only thing offered is an empty element of an array, the character before it is read. *)
Theorem c73_empty_refuted :
  let e := Env 60 60 [] 1 [] false [SP] (fun f => cf_glob (fun n i => match i with None => Some [[]] | _ => None end) (fun _ => []) (fun _ => []) true) in
  do_complete e 2 false (here (L "cat ") 4) = UB.
Proof. vm_compute. reflexivity. Qed.
Print Assumptions c73_empty_refuted.

(** The word is looked up as a prefix, unless it has a wildcard or parameter of its own or names a user. *)
Theorem c73_pattern : forall w r, Forall part_ok w ->
  add_glob (src_of w) = src_of w ++ L "*" /\
  (forall c, In c (L "*[?$") -> add_glob (src_of w ++ c :: r) = src_of w ++ c :: r) /\
  (forall c, In c (L "+@!") -> add_glob (src_of w ++ c :: "("%char :: r) = src_of w ++ c :: "("%char :: r) /\
  (~ In (Plain "/") w -> add_glob ("~"%char :: src_of w) = "~"%char :: src_of w) /\
  (In (Plain "/") w -> add_glob ("~"%char :: src_of w) = "~"%char :: src_of w ++ L "*").
Proof.
  intros w r F. assert (S0 : scan (src_of w) false = (false, existsb plain_slash w)).
  { rewrite <- (app_nil_r (src_of w)), scan_src by (auto; discriminate). reflexivity. }
  assert (ST : scan ("~"%char :: src_of w) false = (false, existsb plain_slash w)).
  { rewrite scan_step; [change (false || ceq "~" "/") with false; exact S0|discriminate|cbn; intuition discriminate|].
    rewrite <- (app_nil_r (src_of w)). apply hd_src; [exact F|discriminate]. }
  assert (PS : existsb plain_slash w = true <-> In (Plain "/") w).
  { rewrite existsb_exists. split; [intros [s [I X]]|intros I; exists (Plain "/"); now split].
    destruct s as [t|t|c|c]; try discriminate. apply ceq_true in X. now subst. }
  split; [|split; [|split; [|split]]].
  - unfold add_glob. rewrite S0. cbn [negb andb]. destruct F as [|s w P F]; [reflexivity|].
    destruct s as [t|t|c|c]; try contradiction; cbn [src_of flat_map seg_src app]; [reflexivity|].
    destruct P as [P _]. destruct (ceq c "~") eqn:X; [apply ceq_true in X; subst; discriminate|reflexivity].
  - intros c I. unfold add_glob. rewrite scan_src by (auto; cbn in I |- *; intuition (subst; discriminate)).
    assert (X : forall b, scan (c :: r) b = (true, b)) by (intros b; cbn in I; intuition (subst; destruct r; reflexivity)). rewrite X. reflexivity.
  - intros c I. unfold add_glob. rewrite scan_src by (auto; cbn in I |- *; intuition (subst; discriminate)).
    assert (X : forall b, scan (c :: "("%char :: r) b = (true, b)) by (intros b; cbn in I; intuition (subst; reflexivity)). rewrite X. reflexivity.
  - intros N. unfold add_glob. rewrite ST. destruct (existsb plain_slash w); [exfalso; now apply N, PS|reflexivity].
  - intros I. unfold add_glob. rewrite ST. rewrite (proj2 PS I). reflexivity.
Qed.
Print Assumptions c73_pattern.
Example c73_pattern_example : map add_glob (map L ["a\*"; "a*"; "~u"; "~u/b"; "+(a)"; ""]%string) = map L ["a\**"; "a*"; "~u"; "~u/b*"; "+(a)"; "*"]%string.
Proof. vm_compute. reflexivity. Qed.

(** In lists of files only the last part of the path is shown, with the slashes after it. *)
Theorem c73_basename : (forall d t, last_name d t -> basename (d ++ t) = length d) /\ basename [] = 0 /\ basename (L "/") = 0.
Proof. split; [exact basename_name|auto]. Qed.
Print Assumptions c73_basename.
Example c73_basename_example : map basename (map L ["/etc"; "/etc//"; "/etc/fo"; "foo"; ""; "/"; "a//b/"]%string) = [1; 1; 5; 0; 0; 0; 3] /\ last_name (L "a//") (L "b/").
Proof. split; [vm_compute; reflexivity|]. apply (ln_after (L "a/") (L "b") (L "/")); [discriminate|cbn; intuition discriminate|repeat constructor]. Qed.
(** Of slashes alone the offset is 1, not the length less one as the comment says. *)
Theorem c73_slashes_refuted : (forall sl, Forall (eq "/"%char) sl -> 2 <= length sl -> basename sl = 1) /\ basename (L "///") <> 2.
Proof. split; [exact basename_slashes|vm_compute; discriminate]. Qed.
Print Assumptions c73_slashes_refuted.
