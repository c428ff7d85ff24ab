(** C19: option parsing visits every option once; C20: the options of the shell. *)
From Verif Require Import Base Num_model SimplifyPath_model Var_model Var_array Opt_model Opt_spec Opt_proof Opt_flags.
Local Open Scope nat_scope.

Definition enough (args : list cstr) : nat := S (fold_right (fun a n => S (length a) + n) 0 args).

(** Calling ksh_getopt on any argument vector until it returns -1 finds exactly the
    events of the specification, never reads outside the vector or a string, comes to
    an end (the number of calls is bounded by the size of the arguments) and leaves
    the index at the first operand.  The specification has no byte 255. *)
Theorem c19_scan : forall opts plus name args, cstrings (name :: args) -> ~ In "255"%char opts ->
  exists l g evs rest mm,
    getopt_loop (enough args) (name :: args) (getopt_reset 0 plus) opts = Ok (Some (l, g)) /\
    scan opts plus None args evs rest mm /\
    Forall2 (fun e x => agree opts e (s_ret x) (s_plus x) (s_arg x)) evs l /\
    optind g <= length (name :: args) /\ skipn (optind g) (name :: args) = rest /\ g_mm g = mm.
Proof.
  intros opts plus name args CS H. apply (getopt_loop_spec (name :: args) opts CS H (enough args) (getopt_reset 0 plus) None args).
  - apply At_none; cbn; auto; lia.
  - unfold enough, size_. lia.
Qed.
Print Assumptions c19_scan.
(** There is one reading of the arguments only. *)
Theorem c19_unambiguous : forall opts plus args evs rest mm evs' rest' mm',
  scan opts plus None args evs rest mm -> scan opts plus None args evs' rest' mm' -> evs = evs' /\ rest = rest' /\ mm = mm'.
Proof. intros; eapply scan_det; eauto. Qed.
Print Assumptions c19_unambiguous.
Example c19_ex : exists g, getopt_loop 30 [L "cmd"; L "-abx"; L "-c"; L "arg"; L "+n5k"; L "-n"; L "12"; L "-u2"; L "--"; L "-a"] (getopt_reset 0 true) (L "ab:c:n#ku,")
   = Ok (Some ([Seen 97 false None; Seen 98 false (Some (L "x")); Seen 99 false (Some (L "arg")); Seen 110 true (Some (L "5k"));
                Seen 110 false (Some (L "12")); Seen 117 false (Some (L "2"))], g))
  /\ optind g = 9 /\ g_mm g = true.
Proof. eexists. vm_compute. auto. Qed.
Example c19_ex_missing : exists g, getopt_loop 30 [L "cmd"; L "-zb"] (getopt_reset 0 false) (L ":ab:")
   = Ok (Some ([Seen 63 false (Some (L "z")); Seen 58 false (Some (L "b"))], g)) /\ optind g = 2.
Proof. eexists. vm_compute. auto. Qed.
(** An option letter with byte 255 comes back as -1, the end of the options. *)
Theorem c19_byte255_refuted : exists g, getopt_loop 30 [L "cmd"; ["-"%char; "255"%char; "a"%char]] (getopt_reset 0 false) ["a"%char; "255"%char]
   = Ok (Some ([], g)) /\ optind g = 2.
Proof. eexists. vm_compute. auto. Qed.
Print Assumptions c19_byte255_refuted.

(** getopts, repeated on the same arguments, reports every event, then fails with
    OPTIND at the first operand. *)
Theorem c19_getopts : forall opts posix name args g0, cstrings (name :: args) -> Forall (fun c => (ccode c < 128)%Z) opts ->
  exists l g evs rest mm,
    getopts_loop (enough args) (getopts_reset g0 1 posix) (name :: args) opts = Ok (Some (l ++ [GSet (L "?") None 1], g)) /\
    scan opts (negb posix) None args evs rest mm /\ Forall2 (gagree opts) evs l /\
    uoptind g <= length (name :: args) /\ skipn (uoptind g) (name :: args) = rest.
Proof.
  intros opts posix name args g0 CS H.
  apply (getopts_loop_spec (name :: args) opts CS H (enough args) (getopts_reset g0 1 posix) None args).
  - cbn. lia.
  - apply At_none; cbn; auto; lia.
  - unfold enough, size_. lia.
Qed.
Print Assumptions c19_getopts.
Example c19_getopts_ex : exists g, getopts_loop 30 (getopts_reset (getopt_reset 0 false) 1 false) [L "sh"; L "-ab"; L "v"; L "+q"; L "x"] (L "ab:")
   = Ok (Some ([GSet (L "a") None 0; GSet (L "b") (Some (L "v")) 0; GSet (L "?") None 0; GSet (L "?") None 1], g)) /\ uoptind g = 4.
Proof. eexists. vm_compute. auto. Qed.

(** Whatever OPTIND is assigned, whatever arguments, options and functions come and
    go between the calls: getopts never reads outside its arguments. *)
Theorem c19_getopts_safe : forall l posix, exists g saved, gops (getopts_reset (getopt_reset 0 false) 1 posix) [] l = Ok (g, saved).
Proof.
  intros l posix.
  enough (forall l g saved, sane g -> Forall sane saved -> exists g' saved', gops g saved l = Ok (g', saved')) as K
    by (apply K; [cbn; unfold sane; cbn; lia|constructor]).
  clear. induction l as [|[v px|wp o|px|] l IH]; intros g saved S F; cbn.
  - eauto.
  - apply IH; auto. now apply reset_sane.
  - destruct (c_getopts_safe g wp o S) as (r & g' & -> & S'). cbn. apply IH; auto.
  - apply IH; [unfold sane; cbn; lia|constructor; auto].
  - destruct saved as [|s saved]; [apply IH; auto|]. inversion F; subst. apply IH; auto.
Qed.
Print Assumptions c19_getopts_safe.
Example c19_getopts_safe_ex : exists g, gops (getopts_reset (getopt_reset 0 false) 1 false) []
  [GGetopts [L "sh"; L "-abc"] (L "abc"); GGetopts [L "sh"; L "-abc"] (L "abc"); GGetopts [L "sh"; L "-a"] (L "abc");
   GCall false; GGetopts [L "f"; L "-b"] (L "b"); GReturn; GReset 7 false; GGetopts [L "sh"; L "-a"] (L "abc")] = Ok (g, [])
  /\ optind g = 7.
Proof. eexists. vm_compute. auto. Qed.

(** An option letter outside ASCII makes getopts report the end of the options. *)
Theorem c19_getopts_8bit_refuted : exists g, getopts_loop 30 (getopts_reset (getopt_reset 0 false) 1 false) [L "sh"; ["-"%char; "233"%char]] ["233"%char]
   = Ok (Some ([GSet (L "?") None 1], g)).
Proof. eexists. vm_compute. reflexivity. Qed.
Print Assumptions c19_getopts_8bit_refuted.
(** After the end announced by --, the next getopts goes on with the operands. *)
Theorem c19_getopts_past_end_refuted : exists g g2, getopts_loop 30 (getopts_reset (getopt_reset 0 false) 1 false) [L "sh"; L "--"; L "-a"] (L "a")
   = Ok (Some ([GSet (L "?") None 1], g)) /\ uoptind g = 2 /\
   c_getopts g [L "sh"; L "--"; L "-a"] (L "a") = Ok (GSet (L "a") None 0, g2).
Proof. do 2 eexists. vm_compute. auto. Qed.
Print Assumptions c19_getopts_past_end_refuted.

(** ** C20 *)
Definition set_string : cstr := L "A:o;saekXmCnfbuphvx".
Definition cmd_string : cstr := L "o:aceiklXmCnfbuprshvx".
Lemma opts_set : opts_of OF_SET = set_string. Proof. reflexivity. Qed.
Lemma opts_cmd : opts_of OF_CMDLINE = cmd_string. Proof. reflexivity. Qed.

(** lone - : the events ended there without -- *)
Definition lone_minus (rest : list cstr) (mm : bool) : Prop := mm = false /\ exists r, rest = L "-" :: r.

Lemma is_name_identifier n : is_name n = true <-> identifier n.
Proof.
  assert (forall d, Arith_model.letnum d = true <-> isalpha d = true \/ isdigit d = true \/ d = "_"%char) as LN.
  { intros d. unfold Arith_model.letnum, Arith_model.letter. rewrite !orb_true_iff, ceq_true. tauto. }
  split.
  - intros H. destruct (is_name_letter _ H) as (c & r & -> & LC). exists c, r. split; auto.
    split; [unfold Arith_model.letter in LC; rewrite orb_true_iff, ceq_true in LC; exact LC|].
    apply is_name_letnum in H. cbn in H. apply andb_true_iff in H as [_ H]. rewrite forallb_forall in H. apply Forall_forall. intros d I. apply LN. auto.
  - intros (c & r & -> & HC & F). unfold is_name, skip_varname.
    assert (Arith_model.letter c = true) as LC by (unfold Arith_model.letter; rewrite orb_true_iff, ceq_true; exact HC).
    rewrite LC. replace (c :: r) with ((c :: r) ++ []) by apply app_nil_r. rewrite span_all; auto.
    cbn. unfold Arith_model.letnum at 1. rewrite LC. cbn. apply forallb_forall. intros d I. apply LN. rewrite Forall_forall in F. auto.
Qed.

(** the operands: a lone - or + before them is skipped *)
Definition operands (rest : list cstr) (mm : bool) (ops : list cstr) : Prop :=
  (exists x, mm = false /\ (x = L "-" \/ x = L "+") /\ rest = x :: ops) \/
  (ops = rest /\ forall x r, rest = x :: r -> mm = true \/ x <> L "-" /\ x <> L "+").

(** set with any arguments: it comes to an end without reading outside its
    arguments, and the options are switched as the events ask, one after the other. *)
Lemma parse_args_spec w self fl name args : w <> OF_SPECIAL -> cstrings (name :: args) ->
  let fl0 := match w with OF_CMDLINE => upd fl FLOGIN (if login_name name then 1%Z else 0%Z) | _ => fl end in
  exists evs rest mm r, scan (opts_of w) true None args evs rest mm /\
    parse_args (enough args) self w fl (name :: args) = Ok (Some r) /\
    ((exists fl1, obeys (inter self w) (okset w) fl0 evs fl1 /\
       (forall i, pd_flags r i = fl1 i \/ (i = FXTRACE \/ i = FVERBOSE) /\ lone_minus rest mm /\ fl1 FPOSIX = 0%Z /\ pd_flags r i = 0%Z) /\
       (lone_minus rest mm -> fl1 FPOSIX = 0%Z -> pd_flags r FXTRACE = 0%Z /\ pd_flags r FVERBOSE = 0%Z) /\
       (w = OF_SET -> pd_array r = fold_left array_one evs None /\ pd_sort r = existsb sort_one evs) /\
       (pd_ret r = None <-> exists b n, pd_array r = Some (b, n) /\ ~ identifier n) /\
       (forall i b, pd_ret r = Some (i, b) -> i <= length (name :: args) /\ operands rest mm (skipn i (name :: args)) /\
          (b = true <-> pd_array r = None /\ (mm = true \/ skipn i (name :: args) <> [])))) \/
     (exists evs1 e evs2, evs = evs1 ++ e :: evs2 /\ pd_ret r = None /\
        obeys (inter self w) (okset w) fl0 evs1 (pd_flags r) /\ refused (okset w) (pd_flags r) e)).
Proof.
  intros W CS fl0. unfold parse_args. fold fl0.
  assert (at_ (name :: args) (getopt_reset 0 true) None args) as A by (apply At_none; cbn; auto; lia).
  destruct (parse_loop_spec self w (name :: args) W CS (enough args) (Pa fl0 false None) (getopt_reset 0 true) None args A)
    as (evs & rest & mm & SC & R); [unfold enough, size_; lia|].
  exists evs, rest, mm. destruct R as [(s & g & E & O & SD & I & K & M)|(s & e1 & e & e2 & E & -> & O & RF)]; rewrite E; cbn [bind].
  2:{ eexists. split; [exact SC|]. split; [reflexivity|]. right. exists e1, e, e2. auto. }
  cbn in M, O. rewrite argv_at_ok by auto. cbn [bind]. rewrite M.
  assert (nth_error (name :: args) (optind g) = hd_error rest) as HD.
  { rewrite <- K. destruct (skipn (optind g) (name :: args)) as [|x r] eqn:Q.
    - apply skipn_nil_inv in Q. apply Q.
    - apply skipn_cons_inv in Q. apply Q. }
  rewrite HD.
  set (lone := fun c => negb mm && match hd_error rest with Some x => str_eqb x [c] | None => false end).
  assert (forall c, lone c = true -> mm = false /\ exists r, rest = [c] :: r) as LN.
  { intros c H. unfold lone in H. apply andb_true_iff in H as [H1 H2]. split; [destruct mm; auto; discriminate|].
    destruct rest as [|x r]; [discriminate|]. cbn in H2. apply str_eqb_true in H2. subst. eauto. }
  assert (forall r c, rest = [c] :: r -> mm = false -> lone c = true) as NL.
  { intros r c -> ->. unfold lone. cbn. apply str_eqb_refl. }
  set (i := if lone "-"%char || lone "+"%char then S (optind g) else optind g).
  assert (i <= length (name :: args)) as IL.
  { unfold i. destruct (lone "-"%char || lone "+"%char) eqn:Q; auto.
    apply orb_true_iff in Q. assert (exists c r, rest = [c] :: r) as (c & r & ->) by (destruct Q as [Q|Q]; apply LN in Q as (_ & r & ->); eauto).
    apply skipn_cons_inv in K. lia. }
  rewrite argv_at_ok by exact IL. cbn [bind].
  set (fl1 := if lone "-"%char && (pa_flags s FPOSIX =? 0)%Z then upd (upd (pa_flags s) FXTRACE 0) FVERBOSE 0 else pa_flags s).
  match goal with |- context [if match pa_array s with Some _ => _ | None => _ end then ?A else ?B] =>
    set (rA := A); set (rB := B) end.
  set (bad := match pa_array s with Some (_, n) => negb (is_name n) | None => false end).
  set (b := match pa_array s with None => mm || match nth_error (name :: args) i with Some _ => true | None => false end | Some _ => false end).
  set (r := Pd fl1 (if bad then None else Some (i, b)) (pa_sort s) (pa_array s)).
  assert ((if bad then rA else rB) = Ok (Some r)) as -> by (unfold r; destruct bad; reflexivity).
  exists r. split; [exact SC|]. split; [reflexivity|]. left. exists (pa_flags s). split; [exact O|].
  unfold r. cbn [pd_flags pd_ret pd_sort pd_array]. split; [|split; [|split; [|split]]].
  - intros j. unfold fl1. destruct (lone "-"%char && (pa_flags s FPOSIX =? 0)%Z) eqn:Q; auto.
    apply andb_true_iff in Q as [Q1 Q2]. apply LN in Q1. apply Z.eqb_eq in Q2. unfold upd.
    destruct (Nat.eqb_spec j FVERBOSE) as [->|]; [right; auto|].
    destruct (Nat.eqb_spec j FXTRACE) as [->|]; [right; auto|auto].
  - intros (-> & r' & RE) PX. unfold fl1. rewrite (NL _ _ RE eq_refl), PX. cbn. auto.
  - intros WE. apply SD in WE. exact WE.
  - unfold bad. destruct (pa_array s) as [[b0 n]|].
    + destruct (is_name n) eqn:IN; cbn; split; intros H; auto; try discriminate.
      * destruct H as (b1 & n1 & [= <- <-] & H). apply is_name_identifier in IN. contradiction.
      * exists b0, n. split; auto. rewrite <- is_name_identifier. congruence.
    + split; [discriminate|]. intros (b1 & n1 & H & _). discriminate.
  - intros i' b' Q. assert (i' = i /\ b' = b) as [-> ->] by (destruct bad; [discriminate|]; now inversion Q). split; [exact IL|].
    split.
    + unfold i. destruct (lone "-"%char || lone "+"%char) eqn:Q2.
      * left. apply orb_true_iff in Q2.
        assert (exists c r, (c = "-"%char \/ c = "+"%char) /\ mm = false /\ rest = [c] :: r) as (c & r' & HC & HM & HR)
          by (destruct Q2 as [Q2|Q2]; apply LN in Q2 as (M2 & r' & ->); eauto 8).
        exists [c]. split; auto. split; [destruct HC as [->| ->]; auto|]. rewrite HR in K. destruct (skipn_cons_inv _ _ _ _ K) as (_ & -> & _). exact HR.
      * right. split; auto. intros x r' HR. destruct mm; auto. right. apply orb_false_iff in Q2 as [Q2 Q3].
        split; intros ->; [rewrite (NL _ _ HR eq_refl) in Q2|rewrite (NL _ _ HR eq_refl) in Q3]; discriminate.
    + unfold b. destruct (pa_array s) as [x|]; [split; [discriminate|intros (X & _); discriminate]|].
      destruct (nth_error (name :: args) i) as [x|] eqn:EN.
      * rewrite orb_true_r. split; auto. intros _. split; auto. right. rewrite (nth_error_skipn _ _ _ EN). discriminate.
      * rewrite orb_false_r. apply nth_error_None in EN. rewrite skipn_all2 by exact EN. split; [auto|]. intros (_ & [X|X]); [exact X|congruence].
Qed.

Theorem c20_set : forall self fl name args, cstrings (name :: args) ->
  exists evs rest mm r, scan set_string true None args evs rest mm /\
    parse_args (enough args) self OF_SET fl (name :: args) = Ok (Some r) /\
    ((exists fl1, obeys self settable fl evs fl1 /\
       (forall i, pd_flags r i = fl1 i \/ (i = FXTRACE \/ i = FVERBOSE) /\ lone_minus rest mm /\ fl1 FPOSIX = 0%Z /\ pd_flags r i = 0%Z) /\
       (lone_minus rest mm -> fl1 FPOSIX = 0%Z -> pd_flags r FXTRACE = 0%Z /\ pd_flags r FVERBOSE = 0%Z) /\
       pd_array r = fold_left array_one evs None /\ pd_sort r = existsb sort_one evs /\
       (pd_ret r = None <-> exists b n, pd_array r = Some (b, n) /\ ~ identifier n) /\
       (forall i b, pd_ret r = Some (i, b) -> i <= length (name :: args) /\ operands rest mm (skipn i (name :: args)) /\
          (b = true <-> pd_array r = None /\ (mm = true \/ skipn i (name :: args) <> [])))) \/
     (exists evs1 e evs2, evs = evs1 ++ e :: evs2 /\ pd_ret r = None /\
        obeys self settable fl evs1 (pd_flags r) /\ refused settable (pd_flags r) e)).
Proof.
  intros self fl name args CS. destruct (parse_args_spec OF_SET self fl name args ltac:(discriminate) CS) as (evs & rest & mm & r & SC & E & R).
  exists evs, rest, mm, r. split; [exact SC|]. split; [exact E|]. destruct R as [(fl1 & A1 & A2 & A3 & A4 & A5)|R]; [left|right; exact R].
  exists fl1. destruct (A4 eq_refl). split; [exact A1|]. split; [exact A2|]. auto.
Qed.
Print Assumptions c20_set.

(** the last word counts: an ordinary option has the value it was last asked to
    have, and is what it was if nothing was asked *)
Theorem c20_last_request : forall self fl name args, cstrings (name :: args) ->
  exists evs rest mm r, scan set_string true None args evs rest mm /\
    parse_args (enough args) self OF_SET fl (name :: args) = Ok (Some r) /\
    forall n b i, pd_ret r = Some (n, b) -> ordinary i -> ~ lone_minus rest mm ->
      (forall e1 e e2 v, evs = e1 ++ e :: e2 -> asks settable e i v -> (forall e' v', In e' e2 -> ~ asks settable e' i v') -> pd_flags r i = v) /\
      ((forall e v, In e evs -> ~ asks settable e i v) -> pd_flags r i = fl i).
Proof.
  intros self fl name args CS. destruct (c20_set self fl name args CS) as (evs & rest & mm & r & SC & E & R).
  exists evs, rest, mm, r. split; auto. split; auto. intros n b i P OI LM.
  destruct R as [(fl1 & O & F & _)|(? & ? & ? & _ & N & _)]; [|congruence].
  assert (pd_flags r i = fl1 i) as -> by (destruct (F i) as [|(_ & X & _)]; auto; contradiction).
  split.
  - intros e1 e e2 v -> A N. eapply obeys_last; eauto.
  - intros N. eapply obeys_never; eauto.
Qed.
Print Assumptions c20_last_request.
(** what the examples look at *)
Definition view (r : res (option parsed)) (l : list nat) : option (option (nat * bool) * cstr * list Z * option (bool * cstr)) :=
  match r with Ok (Some r) => Some (pd_ret r, getoptions (pd_flags r), map (pd_flags r) l, pd_array r) | _ => None end.
Definition viewf (r : res (option flags)) (l : list nat) : option (list Z) :=
  match r with Ok (Some fl) => Some (map fl l) | _ => None end.
Example c20_ex : view (parse_args 40 true OF_SET (fun _ => 0%Z) [L "set"; L "-eo"; L "vi"; L "+e"; L "-o"; L "noglob"; L "--"; L "-x"]) [FVI; FEMACS]
  = Some (Some (7, true), L "f", [1%Z; 0%Z], None).
Proof. vm_compute. reflexivity. Qed.
Example c20_ex_array : view (parse_args 40 true OF_SET (fun _ => 1%Z) [L "set"; L "+A"; L "v"; L "-s"; L "-"; L "b"; L "a"]) [FVERBOSE; FXTRACE]
  = Some (Some (5, false), L "aceiklXmCnfbuprshvx", [1%Z; 1%Z], Some (false, L "v")).
Proof. vm_compute. reflexivity. Qed.

(** the options that set may not change (restricted, interactive, login, -c, -s) are
    never changed by it, successful or not *)
Theorem c20_set_keeps : forall self fl name args i, cstrings (name :: args) -> ~ settable i ->
  exists r, parse_args (enough args) self OF_SET fl (name :: args) = Ok (Some r) /\ pd_flags r i = fl i.
Proof.
  intros self fl name args i CS NS. destruct (c20_set self fl name args CS) as (evs & rest & mm & r & SC & E & R).
  exists r. split; auto.
  assert (forall j n c, nth_error documented j = Some (n, c, true) -> i <> j) as NJ by (intros j n c D ->; apply NS; exists n, c; exact D).
  assert (forall fl evs fl', obeys self settable fl evs fl' -> fl' i = fl i) as K.
  { intros f ev f' O. eapply obeys_untouched; eauto.
    - rewrite editing_iff. intros [->|[->| ->]]; (eapply NJ; [|reflexivity]; reflexivity).
    - rewrite brace_iff. intros ->. eapply NJ; [|reflexivity]; reflexivity.
    - intros (n & c & D). discriminate. }
  destruct R as [(fl1 & O & F & _)|(e1 & e & e2 & _ & _ & O & _)]; [|eauto].
  destruct (F i) as [->|(D & _)]; [eauto|]. exfalso.
  destruct D as [->| ->]; (eapply NJ; [|reflexivity]; reflexivity).
Qed.
Print Assumptions c20_set_keeps.
Example c20_keeps_ex : view (parse_args 40 true OF_SET (fun i => if i =? 25 then 1%Z else 0%Z) [L "set"; L "-e"; L "+o"; L "restricted"]) [25]
  = Some (None, L "er", [1%Z], None).
Proof. vm_compute. reflexivity. Qed.

(** ** Any history of options *)
Inductive oop := OSet (argv : list cstr) | OCmdline (argv : list cstr) | OEditor (s : cstr) | OPosixly | OFlag (i : nat) (v : Z).
(** set; the command line; EDITOR or VISUAL assigned; POSIXLY_CORRECT assigned
    (var.c:996); a direct assignment to another option (exec.c:611, 624 xtrace,
    c_sh.c:467 errexit, main.c, jobs.c) *)
Definition ostep (self : bool) (fl : flags) (o : oop) : res (option flags) :=
  match o with
  | OSet argv => do r <- parse_args (enough (tl argv)) self OF_SET fl argv ; Ok (option_map pd_flags r)
  | OCmdline argv => do r <- parse_args (enough (tl argv)) self OF_CMDLINE fl argv ; Ok (option_map pd_flags r)
  | OEditor s => Ok (Some (set_editmode self fl s))
  | OPosixly => Ok (Some (change_flag self fl FPOSIX OF_SPECIAL 1))
  | OFlag i v => Ok (Some (upd fl i v))
  end.
Fixpoint osteps (self : bool) (fl : flags) (l : list oop) : res (option flags) :=
  match l with [] => Ok (Some fl) | o :: l' => do r <- ostep self fl o ; match r with Some fl' => osteps self fl' l' | None => Ok None end end.
Definition oop_ok (o : oop) : Prop :=
  match o with
  | OSet argv | OCmdline argv => argv <> [] /\ cstrings argv
  | OFlag i v => ~ editing i
  | _ => True
  end.

Theorem c20_one_editor : forall self l fl, Forall oop_ok l -> at_most_one (fl FVI) (fl FEMACS) (fl FGMACS) ->
  exists fl', osteps self fl l = Ok (Some fl') /\ at_most_one (fl' FVI) (fl' FEMACS) (fl' FGMACS).
Proof.
  intros self l. induction l as [|o l IH]; intros fl F O; cbn; [eauto|].
  inversion F as [|? ? OK F']; subst.
  enough (exists fl1, ostep self fl o = Ok (Some fl1) /\ one_editor fl1) as (fl1 & -> & O1) by (cbn; apply IH; auto).
  change (one_editor fl) in O.
  assert (forall w argv, w <> OF_SPECIAL -> argv <> [] -> cstrings argv -> exists fl1,
    (do r <- parse_args (enough (tl argv)) self w fl argv ; Ok (option_map pd_flags r)) = Ok (Some fl1) /\ one_editor fl1) as PA.
  { intros w [|name args] W NE CS; [congruence|]. cbn [tl].
    destruct (parse_args_spec w self fl name args W CS) as (evs & rest & mm & r & SC & -> & R). cbn. exists (pd_flags r). split; auto.
    set (fl0 := match w with OF_CMDLINE => upd fl FLOGIN (if login_name name then 1%Z else 0%Z) | _ => fl end) in R.
    assert (one_editor fl0) as O0 by (unfold fl0; destruct w; exact O).
    destruct R as [(fl1 & OB & FF & _)|(e1 & e & e2 & _ & _ & OB & _)]; [|eauto using obeys_one].
    pose proof (obeys_one _ _ _ _ _ OB O0) as O1. unfold one_editor in *.
    assert (forall i, i <> FXTRACE -> i <> FVERBOSE -> pd_flags r i = fl1 i) as Q by (intros i N1 N2; destruct (FF i) as [|([->| ->] & _)]; congruence).
    rewrite !Q by discriminate. exact O1. }
  assert (forall i, i <> FTALKING_I -> one_editor (change_flag self fl i OF_SPECIAL 1)) as CF
    by (intros i NI; eapply switched_one; [apply change_flag_switched|]; auto).
  destruct o as [argv|argv|s| |i v]; cbn in OK |- *.
  - apply PA; try tauto; discriminate.
  - apply PA; try tauto; discriminate.
  - eexists; split; [reflexivity|]. unfold set_editmode. destruct (strstr _ _); [|destruct (strstr _ _); [|destruct (strstr _ _)]]; auto; apply CF; discriminate.
  - eexists; split; [reflexivity|]. exact (CF FPOSIX ltac:(discriminate)).
  - eexists; split; [reflexivity|]. rewrite editing_iff in OK. unfold one_editor, upd in *.
    destruct (Nat.eqb_spec FVI i) as [<-|_]; [tauto|]. destruct (Nat.eqb_spec FEMACS i) as [<-|_]; [tauto|].
    destruct (Nat.eqb_spec FGMACS i) as [<-|_]; [tauto|]. exact O.
Qed.
Print Assumptions c20_one_editor.
Example c20_one_ex : viewf (osteps true (fun _ => 0%Z) [OEditor (L "/usr/bin/emacs"); OSet [L "set"; L "-o"; L "gmacs"]; OEditor (L "/emacs/nvi")]) [FVI; FEMACS; FGMACS]
  = Some [1; 0; 0]%Z.
Proof. vm_compute. reflexivity. Qed.

(** EDITOR and VISUAL choose the editing mode by the last component of the value *)
Definition contains (s p : cstr) : Prop := exists a b, s = a ++ p ++ b.
Lemma prefixb_iff p : forall s, prefixb p s = true <-> exists b, s = p ++ b.
Proof.
  induction p as [|c p IH]; intros s; cbn; [split; eauto|].
  destruct s as [|d s]; [split; [discriminate|intros (b & E); discriminate]|].
  rewrite andb_true_iff, ceq_true, IH. split; [intros (-> & b & ->); eauto|intros (b & [= -> ->]); eauto].
Qed.
Lemma strstr_iff p : forall s, strstr s p = true <-> contains s p.
Proof.
  induction s as [|d s IH]; cbn; rewrite orb_true_iff, prefixb_iff.
  - split; [intros [(b & E)|X]; [exists [], b; exact E|discriminate]|].
    intros (a & b & E). destruct a; [left; exists b; exact E|discriminate].
  - rewrite IH. split.
    + intros [(b & E)|(a & b & ->)]; [exists [], b; exact E|exists (d :: a), b; reflexivity].
    + intros ([|x a] & b & E); [left; exists b; exact E|right; injection E as <- ->; exists a, b; reflexivity].
Qed.
Lemma basename_base b : ~ In "/"%char b -> forall cur, basename_ b cur = cur.
Proof.
  induction b as [|c b IH]; intros N cur; auto. cbn. destruct (ceq_spec c "/") as [->|X]; [destruct N; now left|].
  apply IH. intros I; apply N; now right.
Qed.
Lemma basename_dir d b : ~ In "/"%char b -> forall cur, basename_ (d ++ "/"%char :: b) cur = b.
Proof.
  intros N. induction d as [|c d IH]; intros cur; cbn; [now apply basename_base|]. destruct (ceq c "/"); apply IH.
Qed.
Theorem c20_editor : forall self fl dir base, (dir = [] \/ exists d, dir = d ++ L "/") -> ~ In "/"%char base ->
  let fl' := set_editmode self fl (dir ++ base) in
  (contains base (L "emacs") -> switched false fl FEMACS 1 fl') /\
  (~ contains base (L "emacs") -> contains base (L "gmacs") -> switched false fl FGMACS 1 fl') /\
  (~ contains base (L "emacs") -> ~ contains base (L "gmacs") -> contains base (L "vi") -> switched false fl FVI 1 fl') /\
  (~ contains base (L "emacs") -> ~ contains base (L "gmacs") -> ~ contains base (L "vi") -> fl' = fl).
Proof.
  intros self fl dir base D N. cbn zeta.
  assert (basename_ (dir ++ base) (dir ++ base) = base) as E.
  { destruct D as [->|(d & ->)]; [now apply basename_base|]. rewrite <- app_assoc. now apply basename_dir. }
  unfold set_editmode. rewrite E. rewrite <- !strstr_iff.
  assert (forall i, i <> FTALKING_I -> switched false fl i 1 (change_flag self fl i OF_SPECIAL 1)) as C
    by (intros i H; now apply (change_flag_switched self fl i OF_SPECIAL 1)).
  destruct (strstr base (L "emacs")) eqn:E1; [|destruct (strstr base (L "gmacs")) eqn:E2; [|destruct (strstr base (L "vi")) eqn:E3]];
    (split; [|split; [|split]]); intros; try congruence; apply C; discriminate.
Qed.
Print Assumptions c20_editor.
Example c20_editor_ex : map (set_editmode true (fun _ => 0%Z) (L "/emacs/vim")) [FVI; FEMACS] = [1; 0]%Z /\
  map (set_editmode true (fun _ => 0%Z) (L "/vi/xemacs-vi")) [FVI; FEMACS] = [0; 1]%Z.
Proof. split; vm_compute; reflexivity. Qed.

(** every switch on its own; [FTALKING_I] is the internal option, which nobody names *)
Theorem c20_change : forall self w fl i v, i <> FTALKING_I ->
  switched (match w with OF_SPECIAL => false | _ => self end) fl i v (change_flag self fl i w v).
Proof. intros. now apply change_flag_switched. Qed.
Print Assumptions c20_change.
(** so turning posix on turns brace expansion off *)
Theorem c20_posix_braces : forall self fl, change_flag self fl FPOSIX OF_SET 1 FBRACEEXPAND = 0%Z
  /\ forall i, i <> FPOSIX -> i <> FBRACEEXPAND -> change_flag self fl FPOSIX OF_SET 1 i = fl i.
Proof.
  intros self fl. destruct (change_flag_switched self fl FPOSIX OF_SET 1) as (A1 & A2 & A3 & A4 & A5); [discriminate|]. split.
  - apply A3; [discriminate|apply name_posix|apply name_brace].
  - intros i N1 N2. apply A5; auto.
    + intros (_ & E & _). apply editing_iff in E. cbv in E. lia.
    + rewrite brace_iff. tauto.
    + rewrite inter_iff. intros (_ & X & _). discriminate.
Qed.
Print Assumptions c20_posix_braces.
(** but only when it was off: with posix on, set -o posix leaves braces alone *)
Theorem c20_posix_again_refuted : viewf (osteps true (fun _ => 0%Z)
   [OSet [L "set"; L "-o"; L "posix"]; OSet [L "set"; L "-o"; L "braceexpand"]; OSet [L "set"; L "-o"; L "posix"]]) [FPOSIX; FBRACEEXPAND] = Some [1; 1]%Z.
Proof. vm_compute. reflexivity. Qed.
Print Assumptions c20_posix_again_refuted.

(** ** set +o prints a command that restores the options (misc.c:237-247) *)
Definition plus_o (fl : flags) : list cstr :=
  flat_map (fun i => match nth_error sh_options i with
    | Some o => match o_name o with Some n => [if (fl i =? 0)%Z then L "+o" else L "-o"; n] | None => [] end
    | None => [] end) (seq 0 (length sh_options)).

Definition plus_ev (fl : flags) (i : nat) : list ev :=
  match nth_error sh_options i with
  | Some o => match o_name o with Some n => [Opt (fl i =? 0)%Z Optional "o"%char (Some n)] | None => [] end
  | None => [] end.
Lemma scan_plus fl l : scan set_string true None
  (flat_map (fun i => match nth_error sh_options i with
    | Some o => match o_name o with Some n => [if (fl i =? 0)%Z then L "+o" else L "-o"; n] | None => [] end
    | None => [] end) l) (flat_map (plus_ev fl) l) [] false.
Proof.
  assert (declares set_string "o" Optional) as D.
  { change Optional with (kind_char ";"). apply (D_next _ _ (L "A:") ";"%char (L "saekXmCnfbuphvx")); try reflexivity; vm_compute; intuition discriminate. }
  induction l as [|i l IH]; cbn [flat_map]; [constructor|]. unfold plus_ev at 1.
  destruct (nth_error sh_options i) as [o|]; [|exact IH]. destruct (o_name o) as [n|]; [|exact IH]. cbn [app].
  destruct (fl i =? 0)%Z.
  - apply (S_word _ _ "+"%char ["o"%char]); [exists "+"%char, "o"%char, []; repeat split; auto; discriminate|].
    eapply S_next; auto.
  - apply (S_word _ _ "-"%char ["o"%char]); [exists "-"%char, "o"%char, []; repeat split; auto; discriminate|].
    eapply S_next; auto.
Qed.

Theorem c20_restore : forall self fl fl2,
  (forall i, fl i = 0%Z \/ fl i = 1%Z) -> one_editor fl ->
  (forall i, ~ settable i -> fl2 i = fl i) ->
  (fl FPOSIX = 1%Z -> fl FBRACEEXPAND = 1%Z -> fl2 FPOSIX = 1%Z) ->
  exists r i, parse_args (enough (plus_o fl)) self OF_SET fl2 (L "set" :: plus_o fl) = Ok (Some r) /\
    pd_ret r = Some (i, false) /\ forall i, i < 36 -> pd_flags r i = fl i.
Proof.
  intros self fl fl2 B O1 NS PB.
  assert (cstrings (L "set" :: plus_o fl)) as CS.
  { constructor; [reflexivity|]. apply Forall_forall. intros x I. unfold plus_o in I. apply in_flat_map in I as (i & _ & I).
    assert (forall i o n, nth_error sh_options i = Some o -> o_name o = Some n -> nul_free n = true) as NF.
    { intros i0 o n EO EN. apply nth_error_In in EO.
      assert (forallb (fun o => match o_name o with Some n => nul_free n | None => true end) sh_options = true) as T by (vm_compute; reflexivity).
      rewrite forallb_forall in T. specialize (T _ EO). rewrite EN in T. exact T. }
    destruct (nth_error sh_options i) as [o|] eqn:EO; [|destruct I]. destruct (o_name o) as [n|] eqn:EN; [|destruct I].
    destruct I as [<-|[<-|[]]]; [destruct (fl i =? 0)%Z; reflexivity|eauto]. }
  destruct (c20_set self fl2 (L "set") (plus_o fl) CS) as (evs & rest & mm & r & SC & E & R).
  pose proof (scan_plus fl (seq 0 (length sh_options))) as SP. fold (plus_o fl) in SP.
  destruct (scan_det _ _ _ _ _ _ _ SC _ _ _ SP) as (-> & -> & ->). clear SC SP.
  set (evs := flat_map (plus_ev fl) (seq 0 (length sh_options))) in *.
  assert (forall e, In e evs -> exists i n, has_name i n /\ e = Opt (fl i =? 0)%Z Optional "o"%char (Some n)) as EV.
  { intros e I. apply in_flat_map in I as (i & _ & I). unfold plus_ev in I.
    destruct (nth_error sh_options i) as [o|] eqn:EO; [|destruct I]. destruct (o_name o) as [n|] eqn:EN; [|destruct I].
    destruct I as [<-|[]]. exists i, n. split; auto. rewrite nth_documented in EO.
    destruct (nth_error documented i) as [[[m c] b]|] eqn:D; [|discriminate]. injection EO as <-. cbn in EN.
    destruct m as [m|]; [|discriminate]. injection EN as <-. exists m, c, b. auto. }
  assert (forall i n, has_name i n -> exists e v, In e evs /\ asks settable e i v) as VE.
  { intros i n (m & c & b & D & ->). exists (Opt (fl i =? 0)%Z Optional "o"%char (Some (L m))), (sign_value (fl i =? 0)%Z). split.
    - apply in_flat_map. exists i. split.
      + apply in_seq. split; [lia|]. change (0 + length sh_options) with (length documented). apply nth_error_Some. congruence.
      + unfold plus_ev. rewrite nth_documented, D. cbn. now left.
    - constructor. exists m, c, b. auto. }
  assert (forall i, sign_value (fl i =? 0)%Z = fl i) as SV by (intros i; destruct (B i) as [-> | ->]; reflexivity).
  assert (toward settable fl evs) as TW.
  { intros e i v I A. destruct (EV e I) as (j & n & HN & ->). rewrite (asks_i _ _ _ _ _ _ _ HN A). inversion A; subst. apply SV. }
  assert (forall evs1 e evs2 f, evs = evs1 ++ e :: evs2 -> obeys self settable fl2 evs1 f -> refused settable f e -> False) as NR.
  { intros evs1 e evs2 f EE O RF. assert (In e evs) as I by (rewrite EE; apply in_elt).
    destruct (EV e I) as (j & n & HN & ->). inversion RF as [| |b k n' NN|b k n' j' HN' NO NV]; subst.
    - destruct (NN _ HN).
    - assert (j' = j) as -> by eauto using name_inj. apply NV. rewrite SV. rewrite <- (NS j NO).
      assert (forall x n c, nth_error documented x = Some (n, c, true) -> j <> x) as NJ by (intros x n0 c D ->; apply NO; exists n0, c; exact D).
      eapply obeys_untouched; eauto.
      + rewrite editing_iff. intros [->|[->| ->]]; (eapply NJ; [|reflexivity]; reflexivity).
      + rewrite brace_iff. intros ->. eapply NJ; [|reflexivity]; reflexivity.
      + intros (n0 & c & D). discriminate. }
  destruct R as [(fl1 & O & F & _ & AR & _ & NN & PI)|(e1 & e & e2 & EE & _ & O & RF)]; [|destruct (NR _ _ _ _ EE O RF)].
  (* no operands, no array *)
  assert (exists i, pd_ret r = Some (i, false)) as (i & PR).
  { assert (pd_array r = None) as AN.
    { rewrite AR. assert (forall l, (forall e, In e l -> exists b n, e = Opt b Optional "o"%char (Some n)) -> fold_left array_one l None = None) as Q.
      { induction l as [|e l IHl]; intros H; auto. cbn. destruct (H e (or_introl eq_refl)) as (b & n & ->). cbn. apply IHl. intros; apply H; now right. }
      apply Q. intros e I. destruct (EV e I) as (? & ? & _ & ->). eauto. }
    destruct (pd_ret r) as [[i b]|] eqn:PR; [|destruct (proj1 NN eq_refl) as (? & ? & ? & _); congruence].
    destruct (PI i b eq_refl) as (IL & OP & BI). exists i. f_equal. f_equal. destruct b; auto. destruct (proj1 BI eq_refl) as (_ & [X|X]); [discriminate|].
    destruct OP as [(x & _ & _ & X2)|(X2 & _)]; [discriminate|contradiction]. }
  exists r, i. split; [exact E|]. split; [exact PR|]. intros j J.
  assert (pd_flags r j = fl1 j) as ->.
  { destruct (F j) as [|(_ & (_ & ? & ?) & _)]; auto. discriminate. }
  assert (fl2 j = fl j \/ exists e, In e evs /\ exists v, asks settable e j v) as H.
  { destruct (nth_error documented j) as [[[[m|] c] b]|] eqn:D.
    - right. destruct (VE j (L m)) as (e & v & I & A); [exists m, c, b; auto|]. eauto.
    - left. apply NS. intros (n & c' & D'). assert (forallb (fun i => match nth_error documented i with Some (None, _, b) => negb b | _ => true end) (seq 0 37) = true) as T by (vm_compute; reflexivity).
      rewrite forallb_forall in T. specialize (T j). rewrite D in T. rewrite D in D'. injection D' as <- <- ->. discriminate T. apply in_seq. lia.
    - apply nth_error_None in D. cbn in D. lia. }
  destruct (Nat.eq_dec j FBRACEEXPAND) as [->|NB].
  - eapply obeys_toward_brace; eauto. destruct (B FPOSIX) as [P|P]; auto. destruct (B FBRACEEXPAND) as [Q|Q]; auto.
    right. right. rewrite P. auto.
  - eapply obeys_toward; eauto. rewrite brace_iff. exact NB.
Qed.
Print Assumptions c20_restore.
Example c20_restore_ex : let want i := if (i =? FVI) || (i =? FBRACEEXPAND) || (i =? 6) then 1%Z else 0%Z in
  viewf (osteps true (fun i => if (i =? FEMACS) || (i =? FPOSIX) then 1%Z else 0%Z) [OSet (L "set" :: plus_o want)]) (seq 0 36) = Some (map want (seq 0 36)).
Proof. vm_compute. reflexivity. Qed.
(** braceexpand comes before posix in the list, and turning posix on clears it *)
Theorem c20_restore_posix_refuted : let want i := if (i =? FPOSIX) || (i =? FBRACEEXPAND) then 1%Z else 0%Z in
  viewf (osteps true (fun _ => 0%Z) [OSet (L "set" :: plus_o want)]) [FPOSIX; FBRACEEXPAND] = Some [1; 0]%Z.
Proof. vm_compute. reflexivity. Qed.
Print Assumptions c20_restore_posix_refuted.

Lemma getoptions_from_in l : forall i fl c, In c (getoptions_from l i fl) <-> exists j o, nth_error l j = Some o /\ o_c o = Some c /\ fl (i + j) <> 0%Z.
Proof.
  induction l as [|o l IH]; intros i fl c; cbn.
  - split; [intros []|intros ([|j] & o & E & _); discriminate].
  - assert (In c (getoptions_from l (S i) fl) <-> exists j o', nth_error (o :: l) (S j) = Some o' /\ o_c o' = Some c /\ fl (i + S j) <> 0%Z) as H.
    { rewrite IH. setoid_rewrite Nat.add_succ_r. reflexivity. }
    assert (In c (getoptions_from l (S i) fl) -> exists j o', nth_error (o :: l) j = Some o' /\ o_c o' = Some c /\ fl (i + j) <> 0%Z) as H1.
    { rewrite H. intros (j & Q). exists (S j). exact Q. }
    assert (forall j o', nth_error (o :: l) j = Some o' -> o_c o' = Some c -> fl (i + j) <> 0%Z -> (o' = o /\ fl i <> 0%Z) \/ In c (getoptions_from l (S i) fl)) as H2.
    { intros [|j] o' E EC F; [left; injection E as <-; rewrite Nat.add_0_r in F; auto|right; apply H; eauto]. }
    destruct (o_c o) as [d|] eqn:D; [destruct (Z.eqb_spec (fl i) 0) as [Z0|Z0]|].
    + split; auto. intros (j & o' & E & EC & F). destruct (H2 _ _ E EC F) as [(-> & X)|X]; auto. contradiction.
    + split.
      * intros [->|I]; auto. exists 0, o. rewrite Nat.add_0_r. auto.
      * intros (j & o' & E & EC & F). destruct (H2 _ _ E EC F) as [(-> & X)|X]; [left; congruence|right; exact X].
    + split; auto. intros (j & o' & E & EC & F). destruct (H2 _ _ E EC F) as [(-> & X)|X]; auto. congruence.
Qed.
Lemma getoptions_in fl c : In c (getoptions fl) <-> exists j o, nth_error sh_options j = Some o /\ o_c o = Some c /\ fl j <> 0%Z.
Proof. apply getoptions_from_in. Qed.
Fixpoint all_letters (l : list sh_option) : cstr := match l with [] => [] | o :: l' => match o_c o with Some c => c :: all_letters l' | None => all_letters l' end end.
Lemma getoptions_from_nodup l : forall i fl, NoDup (all_letters l) -> NoDup (getoptions_from l i fl) /\ incl (getoptions_from l i fl) (all_letters l).
Proof.
  induction l as [|o l IH]; intros i fl ND; cbn in *; [split; [constructor|intros ? []]|].
  destruct (o_c o) as [c|]; [|now apply IH]. inversion ND; subst. destruct (IH (S i) fl) as [A B]; auto.
  destruct (fl i =? 0)%Z; [split; auto; intros x X; right; auto|]. split.
  - constructor; auto.
  - intros x [->|X]; [now left|right; auto].
Qed.
Lemma getoptions_nodup fl : NoDup (getoptions fl).
Proof. apply getoptions_from_nodup. vm_compute. repeat constructor; cbn; intuition discriminate. Qed.

(** ** $- lists exactly the letters of the options that are on, each once *)
Theorem c20_dollar_minus : forall fl c, In c (getoptions fl) <-> exists i, has_letter i c /\ fl i <> 0%Z.
Proof.
  intros fl c. rewrite getoptions_in. split.
  - intros (i & o & E & EC & F). exists i. split; auto. rewrite nth_documented in E.
    destruct (nth_error documented i) as [[[n d] b]|] eqn:D; [|discriminate]. injection E as <-. cbn in EC. subst. exists n, b. auto.
  - intros (i & (n & b & D) & F). exists i, (doc_option (n, Some c, b)). rewrite nth_documented, D. cbn. destruct n; auto.
Qed.
Print Assumptions c20_dollar_minus.
Theorem c20_dollar_minus_once : forall fl, NoDup (getoptions fl).
Proof. intros fl. apply getoptions_nodup. Qed.
Print Assumptions c20_dollar_minus_once.
