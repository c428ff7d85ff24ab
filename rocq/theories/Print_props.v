(** C41: print and echo. *)
From Verif Require Import Base Num_model SimplifyPath_model XString_model Opt_model Opt_spec Opt_proof Opt_props Print_model Print_spec Print_proof.
Local Open Scope nat_scope.

(** ** The text *)
(** An argument has one reading only. *)
Lemma octal_split ds : forall ds' s s', Forall octal ds -> Forall octal ds' -> length ds <= 3 -> length ds' <= 3 ->
  (length ds = 3 \/ forall d r, s = d :: r -> ~ octal d) -> (length ds' = 3 \/ forall d r, s' = d :: r -> ~ octal d) ->
  ds ++ s = ds' ++ s' -> ds = ds' /\ s = s'.
Proof.
  intros ds' s s' F F' L1 L2 M M' E. destruct (Nat.eq_dec (length ds) (length ds')) as [EL|NL].
  - apply app_eq_app in E as (m & [[-> ->]|[-> ->]]); rewrite app_length in EL; assert (m = []) as -> by (destruct m; cbn in EL; [auto|lia]); rewrite ?app_nil_r; auto.
  - exfalso. apply app_eq_app in E as (m & [[-> ->]|[-> ->]]); rewrite app_length in *.
    + destruct m as [|d m]; [cbn in NL; lia|]. apply Forall_app in F as [_ F]. inversion F; subst.
      destruct M' as [M'|M']; [cbn in *; lia|]. eapply M'; [reflexivity|auto].
    + destruct m as [|d m]; [cbn in NL; lia|]. apply Forall_app in F' as [_ F']. inversion F'; subst.
      destruct M as [M|M]; [cbn in *; lia|]. eapply M; [reflexivity|auto].
Qed.
Lemma stands_for_det e z z' : stands_for e z -> stands_for e z' -> z = z'.
Proof. intros F F'. destruct F; inversion F'; reflexivity. Qed.
Lemma stands_for_in e z : stands_for e z -> In e (L "abfnrtv\").
Proof. destruct 1; cbn; auto 10. Qed.
Lemma ccode_eq c d : ccode c = ccode d -> c = d.
Proof. unfold ccode. intros H. apply N2Z.inj in H. rewrite <- (ascii_N_embedding c), <- (ascii_N_embedding d), H. reflexivity. Qed.
Theorem c41_decode_unique : forall s t b, decodes s t b -> forall t' b', decodes s t' b' -> t = t' /\ b = b'.
Proof.
  assert (forall e z, stands_for e z -> e <> "c"%char /\ e <> "0"%char /\ In e (L "abcfnrtv0\")) as SF by (destruct 1; repeat split; cbn; auto 12; discriminate).
  intros s t b D. induction D as [|c s t b N D IH| |e z c s t b F C D IH|s t b D IH|ds c s t b FO LE M C D IH|e s t b NI D IH]; intros t' b' D'.
  - inversion D'; auto.
  - inversion D'; subst; try (exfalso; apply N; reflexivity). match goal with H : decodes s _ _ |- _ => destruct (IH _ _ H) as [-> ->] end. auto.
  - inversion D'; subst; auto. exfalso. match goal with H : _ <> BSL |- _ => apply H end. reflexivity.
  - inversion D' as [|? ? ? ? N'| |e' z' c' s' t2 b2 F' C' D2|s' t2 b2 D2|ds' c' s' t2 b2 FO' LE' M' C' D2|e' s' t2 b2 NI' D2]; subst.
    + exfalso; apply N'; reflexivity.
    + destruct (IH _ _ D2) as [-> ->]. pose proof (stands_for_det _ _ _ F F') as EC. apply ccode_eq in EC. subst. auto.
    + destruct (SF _ _ F) as (X & _). congruence.
    + destruct (SF _ _ F) as (_ & X & _). congruence.
    + destruct (SF _ _ F) as (_ & _ & X). contradiction.
  - inversion D' as [|? ? ? ? N'| |e' z' c' s' t2 b2 F' C' D2|s' t2 b2 D2|ds' c' s' t2 b2 FO' LE' M' C' D2|e' s' t2 b2 NI' D2]; subst.
    + exfalso; apply N'; reflexivity.
    + destruct (SF _ _ F') as (X & _). congruence.
    + destruct (IH _ _ D2) as [-> _]. auto.
    + exfalso. apply NI'. cbn. auto 10.
  - inversion D' as [|? ? ? ? N'| |e' z' c' s' t2 b2 F' C' D2|s' t2 b2 D2|ds' c' s' t2 b2 FO' LE' M' C' D2 EQ|e' s' t2 b2 NI' D2]; subst.
    + exfalso; apply N'; reflexivity.
    + destruct (SF _ _ F') as (_ & X & _). congruence.
    + destruct (octal_split ds' ds s' s FO' FO LE' LE M' M EQ) as [-> ->]. destruct (IH _ _ D2) as [-> ->].
      replace c' with c by (apply ccode_eq; congruence). auto.
    + exfalso. apply NI'. cbn. auto 12.
  - inversion D' as [|? ? ? ? N'| |e' z' c' s' t2 b2 F' C' D2|s' t2 b2 D2|ds' c' s' t2 b2 FO' LE' M' C' D2|e' s' t2 b2 NI' D2]; subst.
    + exfalso; apply N'; reflexivity.
    + destruct (SF _ _ F') as (_ & _ & X). contradiction.
    + exfalso. apply NI. cbn. auto 10.
    + exfalso. apply NI. cbn. auto 12.
    + destruct (IH _ _ D2) as [-> ->]. auto.
Qed.
Print Assumptions c41_decode_unique.

(** the part of the text that a C string keeps *)
Definition c_part (t t' : cstr) : Prop := nul_free t' = true /\ (t = t' \/ exists s, t = t' ++ NUL :: s).
(** what is to be done with the text *)
Definition delivered (w : wish) (ops : list cstr) (r : pres) : Prop :=
  exists t, written (w_ex w) (w_nl w) ops t /\
    if w_hist w then exists t', c_part t t' /\ r = PHist t' else r = PWrite (w_fd w) t.
Lemma cut_nul_part t : c_part t (cut_nul (t ++ [NUL])).
Proof.
  induction t as [|c t [IH1 IH2]]; [split; auto|]. cbn. destruct (is_nul c) eqn:E.
  - unfold is_nul in E. apply ceq_true in E. subst c. split; [reflexivity|right; exists t; reflexivity].
  - split; [cbn; unfold nul_free in *; cbn; now rewrite E|]. destruct IH2 as [IH2|(s & IH2)]; [left; congruence|right; exists s; cbn; congruence].
Qed.
Lemma output_ok f ops : ~ crowded ops -> exists r, output f ops = Ok r /\ delivered (wish_of f) ops r.
Proof.
  intros N. destruct (build_ok (p_ex f) (p_nl f) (p_hist f) ops N) as (t & E & W).
  unfold output. rewrite E. destruct (p_hist f) eqn:H.
  - eexists. split; [reflexivity|]. exists t. split; auto. cbn. rewrite H. eexists. split; [apply cut_nul_part|reflexivity].
  - eexists. split; [reflexivity|]. exists t. split; auto. cbn. rewrite H, app_nil_r. reflexivity.
Qed.

Section Env.
Context (posix : bool) (coproc_fd : option nat) (check_fd : cstr -> option nat).
(** the operands: without --, a lone dash before them is skipped *)
Definition operands (mm : bool) (rest : list cstr) : list cstr :=
  match rest with a :: r => if negb mm && str_eqb a (L "-") then r else rest | [] => [] end.

Lemma told_det evs w r : told coproc_fd check_fd evs w r -> forall r', told coproc_fd check_fd evs w r' -> r = r'.
Proof.
  induction 1; intros r' T'; inversion T'; subst; auto; try congruence; try contradiction.
  all: apply IHtold; match goal with H' : Some _ = Some _ |- _ => injection H' as <- | H : ?a = Some ?x, H' : ?a = Some ?y |- _ => rewrite H in H'; injection H' as <- end; auto.
Qed.
(** print obeys its options (without -R) and writes its operands: with escapes unless
    -r is given, with a newline unless -n or \c; provided that no six empty arguments
    follow each other (see below) *)
Theorem c41_print_partial : forall n name args evs rest mm r,
  n <> "e"%char -> cstrings ((n :: name) :: args) ->
  scan (L "Rnprsu,") false None args evs rest mm -> ~ Exists is_R evs ->
  told coproc_fd check_fd evs (Wish true true false 1) r ->
  match r with
  | None => c_print posix coproc_fd check_fd (enough args) ((n :: name) :: args) = Ok PFail
  | Some w => ~ crowded (operands mm rest) ->
      exists p, c_print posix coproc_fd check_fd (enough args) ((n :: name) :: args) = Ok p /\ delivered w (operands mm rest) p
  end.
Proof.
  intros n name args evs rest mm r NE CS SC NR T.
  destruct (print_opts_ok coproc_fd check_fd ((n :: name) :: args) CS (enough args) (L "Rnprsu,") (getopt_reset 0 false) None args pf0) as (evs' & rest' & mm' & o & E & NF & SC' & H).
  - now left.
  - apply At_none; cbn; auto; lia.
  - unfold enough, size_. lia.
  - destruct (scan_det _ _ _ _ _ _ _ SC _ _ _ SC') as (<- & <- & <-). destruct H as [X|(r' & T' & EN)]; [contradiction|].
    assert (r = r') as <-.
    { eapply told_det; [exact T|exact T']. }
    unfold c_print. destruct (ceq_spec n "e"); [contradiction|]. rewrite E. cbn [bind]. destruct r as [w|]; cbn [ended] in EN.
    + destruct EN as (f & g & -> & W & PM & LI & SK & GM). intros NC. cbn [getopt_reset g_mm orb] in GM.
      rewrite argv_at_ok by exact LI. cbn [bind]. rewrite GM, PM. cbn [pf0 p_mm].
      assert (skipn (if mm then optind g else match nth_error ((n :: name) :: args) (optind g) with
                                              | Some s => if str_eqb s (L "-") then S (optind g) else optind g | None => optind g end)
                    ((n :: name) :: args) = operands mm rest) as ->.
      { unfold operands. destruct rest as [|a rest].
        - destruct mm; auto. apply skipn_nil_inv in SK as [SK1 SK2]. rewrite SK1. apply skipn_all2; auto.
        - destruct (skipn_cons_inv _ _ _ _ SK) as (S1 & S2 & S3). rewrite S1. destruct mm; cbn [negb andb]; auto.
          destruct (str_eqb a (L "-")); auto. }
      rewrite <- W in *. destruct (output_ok f (operands mm rest) NC) as (p & EP & D). exists p. split; auto.
    + subst o. reflexivity.
Qed.

(** print -r -- writes its arguments as they are. *)
Theorem c41_raw_partial : forall args, cstrings args -> ~ crowded args ->
  c_print posix coproc_fd check_fd (enough (L "-r" :: L "--" :: args)) (L "print" :: L "-r" :: L "--" :: args)
  = Ok (PWrite 1 (spaced args ++ ["010"%char])).
Proof.
  intros args CS NC.
  assert (declares (L "Rnprsu,") "r" Plain) as DR by (apply (D_next (L "Rnprsu,") "r" (L "Rnp") "s" (L "u,")); [intros I; cbn in I; repeat destruct I as [I|I]; discriminate||contradiction| |reflexivity]; intros I; cbn in I; repeat destruct I as [I|I]; discriminate||contradiction).
  destruct (c41_print_partial "p" (L "rint") (L "-r" :: L "--" :: args) [Opt false Plain "r"%char None] args true (Some (Wish false true false 1))) as (p & E & t & W & P).
  - discriminate.
  - repeat (constructor; [reflexivity|]). exact CS.
  - apply S_word; [exists "-"%char, "r"%char, []; repeat split; auto; discriminate|]. apply S_plain; auto. apply S_done. apply S_ddash.
  - intros X. inversion X as [? ? H|? ? H]; subst; [discriminate|inversion H].
  - apply T_r. constructor.
  - unfold operands. destruct args; auto.
  - unfold operands in *. replace (match args with a :: r => if negb true && str_eqb a (L "-") then r else args | [] => [] end) with args in W by (destruct args; reflexivity).
    change (L "print") with ("p"%char :: L "rint"). rewrite E. cbn in P. subst p. destruct W as (outs & stop & [-> ->] & ->). reflexivity.
Qed.

(** print -R: only n and e are options, and -- is written. *)
Theorem c41_R_partial : forall args evs rest mm r,
  cstrings args -> scan (L "ne") false None args evs rest mm ->
  told coproc_fd check_fd evs (Wish false true false 1) r ->
  let ops := if mm then L "--" :: rest else operands false rest in
  match r with
  | None => c_print posix coproc_fd check_fd (enough (L "-R" :: args)) (L "print" :: L "-R" :: args) = Ok PFail
  | Some w => ~ crowded ops ->
      exists p, c_print posix coproc_fd check_fd (enough (L "-R" :: args)) (L "print" :: L "-R" :: args) = Ok p /\ delivered w ops p
  end.
Proof.
  intros args evs rest mm r CS SC T ops. set (argv := L "print" :: L "-R" :: args).
  assert (cstrings argv) as CA by (repeat (constructor; [reflexivity|]); exact CS).
  set (g1 := Go 2 0 None false false false 2).
  assert (print_opts coproc_fd check_fd (enough (L "-R" :: args)) argv (getopt_reset 0 false) (L "Rnprsu,") pf0
          = print_opts coproc_fd check_fd (S (S (S (fold_right (fun a n => S (length a) + n) 0 args)))) argv g1 (L "ne") (PF false true true false 1)) as E1 by reflexivity.
  destruct (print_opts_ok coproc_fd check_fd argv CA (S (S (S (fold_right (fun a n => S (length a) + n) 0 args)))) (L "ne") g1 (Some (false, [])) args (PF false true true false 1)) as (evs' & rest' & mm' & o & E & NF & SC' & H).
  - now right.
  - eapply (At_word _ _ 1 (L "-R")); cbn; auto.
  - unfold size_. cbn [length]. lia.
  - assert (scan (L "ne") false (Some (false, [])) args evs rest mm) as SC2 by (now apply S_done).
    destruct (scan_det _ _ _ _ _ _ _ SC2 _ _ _ SC') as (<- & <- & <-). destruct H as [X|(r' & T' & EN)].
    { exfalso. clear - SC X. assert (forall cur args evs rest mm, scan (L "ne") false cur args evs rest mm -> ~ Exists is_R evs) as K; [|eapply K; eauto].
      clear. induction 1; intros X; inversion X as [? ? Y|? ? Y]; subst; auto; cbn in Y; subst; try contradiction; try discriminate; try (now inversion Y).
      all: match goal with H : declares _ "R" ?k |- _ => apply declares_after in H as (_ & o & A & _); vm_compute in A; discriminate end. }
    assert (r = r') as <-.
    { eapply told_det; [exact T|exact T']. }
    unfold c_print. fold argv. change (L "print") with ("p"%char :: L "rint"). change (ceq "p" "e") with false. cbn iota.
    change (("p"%char :: L "rint") :: L "-R" :: args) with argv. rewrite E1, E. cbn [bind]. destruct r as [w|]; cbn [ended] in EN.
    + destruct EN as (f & g & -> & W & PM & LI & SK & GM). intros NC. cbn [g1 g_mm orb] in GM.
      rewrite argv_at_ok by exact LI. cbn [bind]. rewrite GM, PM. cbn [p_mm].
      assert (skipn (if mm then optind g - 1 else match nth_error argv (optind g) with
                                              | Some s => if str_eqb s (L "-") then S (optind g) else optind g | None => optind g end)
                    argv = ops) as ->.
      { unfold ops. destruct mm.
        - assert (exists pre, args = pre ++ L "--" :: rest) as (pre & EA).
          { clear - SC. assert (forall cur args evs rest mm, scan (L "ne") false cur args evs rest mm -> mm = true -> exists pre, args = pre ++ L "--" :: rest) as K; [|eapply K; eauto].
            clear. induction 1; intros M; try discriminate; try (now apply IHscan); try (destruct (IHscan M) as (pre & ->)).
            - exists []. reflexivity.
            - exists ((s :: t) :: pre). reflexivity.
            - exists (a :: pre). reflexivity.
            - exists (a :: pre). reflexivity. }
          assert (optind g = length argv - length rest /\ length argv >= length rest) as [EO _].
          { assert (length (skipn (optind g) argv) = length rest) as EL by (now rewrite SK). rewrite skipn_length in EL. lia. }
          subst argv. rewrite EA in EO |- *. cbn [length] in EO. rewrite app_length in EO. cbn [length] in EO.
          replace (optind g - 1) with (S (S (length pre))) by lia. cbn [skipn]. now rewrite skipn_app, skipn_all, Nat.sub_diag.
        - unfold operands. destruct rest as [|a rest].
          + apply skipn_nil_inv in SK as [SK1 SK2]. rewrite SK1. apply skipn_all2; auto.
          + destruct (skipn_cons_inv _ _ _ _ SK) as (S1 & S2 & S3). rewrite S1. cbn [negb andb].
            destruct (str_eqb a (L "-")); auto. }
      rewrite <- W in *. destruct (output_ok f ops NC) as (p & EP & D). exists p. split; auto.
    + subst o. reflexivity.
Qed.

(** echo: its options, then the operands *)
Theorem c41_echo_partial : forall name opts rest, posix = false ->
  Forall echo_option opts -> (forall w r, rest = w :: r -> ~ echo_option w) -> ~ crowded rest ->
  exists p, c_print posix coproc_fd check_fd 0 (("e"%char :: name) :: opts ++ rest) = Ok p /\
    delivered (Wish (last_eE (concat opts) true) (negb (mem "n" (concat opts))) false 1) rest p.
Proof.
  intros name opts rest P F R N. unfold c_print. change (ceq "e" "e") with true. cbn iota. rewrite P.
  rewrite (echo_opts_ok opts rest F R). cbn [andb]. apply (output_ok (PF _ _ false false 1) rest N).
Qed.
(** in posix mode only one -n *)
Theorem c41_echo_posix_partial : forall name args, posix = true -> ~ crowded args ->
  exists p, c_print posix coproc_fd check_fd 0 (("e"%char :: name) :: args) = Ok p /\
    ((exists r, args = L "-n" :: r /\ delivered (Wish true false false 1) r p) \/
     ((forall r, args <> L "-n" :: r) /\ delivered (Wish true true false 1) args p)).
Proof.
  intros name args P N. unfold c_print. change (ceq "e" "e") with true. cbn iota. rewrite P.
  destruct args as [|a args].
  - destruct (output_ok (PF true true false false 1) [] N) as (p & E & D). exists p. split; auto. right. split; auto. discriminate.
  - destruct (str_eqb_spec a (L "-n")) as [->|NE].
    + destruct (output_ok (PF true false false false 1) args (crowded_tail _ _ N)) as (p & E & D). exists p. split; auto. left. eauto.
    + destruct (output_ok (PF true true false false 1) (a :: args) N) as (p & E & D). exists p. split; auto. right. split; auto. intros r [= -> _]. auto.
Qed.

(** The buffer is not checked before the spaces: more than 136 empty arguments are
    written behind it. *)
Theorem c41_overflow_refuted : forall n, 136 < n ->
  c_print posix coproc_fd check_fd (enough (repeat [] n)) (L "print" :: repeat [] n) = UB.
Proof.
  intros n H.
  assert (forall n, put_args true true (repeat [] (S n)) = (repeat (XPut " "%char) n, true)) as PA.
  { clear. induction n as [|n IH]; [reflexivity|]. change (repeat [] (S (S n))) with (@nil char :: repeat [] (S n)). cbn [put_args put_arg].
    rewrite IH. reflexivity. }
  assert (forall m os x, xalloc x <= length (xtext x) + m -> length (xtext x) <= xalloc x -> os <> [] -> Forall (fun o => exists c, o = XPut c) os -> xrun (repeat (XPut " "%char) m ++ os) x = None) as XR.
  { clear. induction m as [|m IH]; intros os x H1 H2 NE F; cbn.
    - destruct os as [|o os]; [congruence|]. inversion F as [|? ? (c & ->) _]; subst. cbn. unfold xput. destruct (Nat.ltb_spec (length (xtext x)) (xalloc x)); [lia|reflexivity].
    - unfold xput. destruct (Nat.ltb_spec (length (xtext x)) (xalloc x)); [|reflexivity]. apply IH; cbn; auto; rewrite app_length; cbn; lia. }
  destruct n as [|n]; [lia|].
  assert (output pf0 (repeat [] (S n)) = UB) as O.
  { unfold output, build. cbn [pf0 p_ex p_nl p_hist]. rewrite PA. rewrite XR; auto; cbn [xinit xalloc xtext length]; [unfold X_EXTRA; lia|unfold X_EXTRA; lia|discriminate|].
    repeat constructor. eexists; reflexivity. }
  cbn [repeat] in *. exact O.
Qed.
End Env.
Print Assumptions c41_print_partial.
Print Assumptions c41_raw_partial.
Print Assumptions c41_R_partial.
Print Assumptions c41_echo_partial.
Print Assumptions c41_echo_posix_partial.
Print Assumptions c41_overflow_refuted.

(** ** Writing *)
(** Whatever the kernel does, what has been written is a prefix of the text, and all
    of it at the end. *)
Theorem c41_write : forall evs s,
  match write_all evs s [] with
  | WOk t => t = s
  | WFail t | WLeft t | WBlocked t => exists u, u <> [] /\ t ++ u = s
  end.
Proof.
  intros evs s. enough (forall sent, match write_all evs s sent with WOk t => t = sent ++ s | WFail t | WLeft t | WBlocked t => exists u, u <> [] /\ t ++ u = sent ++ s end) as H by (apply (H [])).
  revert s. induction evs as [|e evs IH]; intros s sent.
  - destruct s; cbn; [now rewrite app_nil_r|]. eexists; split; [|reflexivity]. discriminate.
  - destruct s as [|c s]; cbn [write_all]; [now rewrite app_nil_r|]. destruct e as [n|[|]|].
    + specialize (IH (skipn n (c :: s)) (sent ++ firstn n (c :: s))). rewrite <- app_assoc, firstn_skipn in IH. exact IH.
    + apply IH.
    + eexists; split; [|reflexivity]. discriminate.
    + eexists; split; [|reflexivity]. discriminate.
Qed.
Print Assumptions c41_write.
(** Interruptions and partial writes only delay it: when every write makes progress or
    is interrupted, as many writes as there are bytes are enough. *)
Definition progress (e : wev) : bool := match e with WDone n => negb (n =? 0) | _ => false end.
Theorem c41_write_ends : forall evs s, Forall (fun e => progress e = true \/ e = WIntr true) evs ->
  length s <= length (filter progress evs) -> write_all evs s [] = WOk s.
Proof.
  intros evs s F H. pose proof (c41_write evs s) as W.
  assert (exists t, write_all evs s [] = WOk t) as (t & E); [|rewrite E in *; congruence].
  clear W. generalize (@nil char) as sent. revert s H. induction F as [|e evs [P| ->] F IH]; intros s H sent.
  - destruct s; cbn in *; [eauto|lia].
  - destruct s as [|c s]; [cbn; eauto|]. destruct e as [n| |]; try discriminate. cbn [write_all]. apply IH.
    cbn [filter] in H. rewrite P in H. cbn in P. destruct n as [|n]; [discriminate|]. cbn [skipn]. rewrite skipn_length. cbn in H. lia.
  - destruct s as [|c s]; [cbn; eauto|]. cbn [write_all]. apply IH. exact H.
Qed.
Print Assumptions c41_write_ends.

(** ** Cases *)
Definition pr := c_print false (Some 7) (fun s => if str_eqb s (L "2") then Some 2 else None) 40.
Example c41_ex : pr [L "print"; L "-r"; L "--"; L "-a\n"; L ""; L "b "] = Ok (PWrite 1 (L "-a\n  b " ++ ["010"%char]))
  /\ pr [L "print"; L "-nu2"; L "-"; L "a\tb\q\\\0101\c"; L "c\"] = Ok (PWrite 2 (L "a" ++ ["009"%char] ++ L "b\q\A c\"))
  /\ pr [L "print"; L "-s"; L "a\0b"] = Ok (PHist (L "a"))
  /\ pr [L "print"; L "-p"; L "x\c"; L "y"] = Ok (PWrite 7 (L "x y"))
  /\ pr [L "print"; L "-u9"; L "x"] = Ok PFail /\ pr [L "print"; L "-z"; L "x"] = Ok PFail
  /\ pr [L "print"; L "-R"; L "-n"; L "--"; L "a\n"] = Ok (PWrite 1 (L "-- a\n"))
  /\ pr [L "echo"; L "-nE"; L "-e"; L "-nq"; L "a\\"] = Ok (PWrite 1 (L "-nq a\")).
Proof. vm_compute. repeat split. Qed.
Example c41_decode_ex : decodes (L "a\0018\c") ["a"%char; "001"%char; "8"%char] true.
Proof.
  apply D_plain; [discriminate|]. apply (D_octal (L "01") "001"%char (L "8\c") (L "8") true); try (cbn; auto; fail); try reflexivity.
  - repeat (apply Forall_cons || apply Forall_nil); unfold octal; cbn; auto 12.
  - right. intros d s' [= <- <-] I. cbn in I. repeat destruct I as [I|I]; discriminate || contradiction.
  - apply D_plain; [discriminate|]. eapply D_c. constructor.
Qed.
Example c41_write_ex : write_all [WDone 2; WIntr true; WDone 0; WDone 9] (L "hello") [] = WOk (L "hello") /\ write_all [WDone 2; WErr] (L "hello") [] = WFail (L "he").
Proof. split; reflexivity. Qed.
(** \c drops the newline and nothing else *)
Example c41_c_ex : pr [L "print"; L "a\cb"; L "c"] = Ok (PWrite 1 (L "ab c")).
Proof. reflexivity. Qed.
