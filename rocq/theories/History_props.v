(** C44, C52, C55: the history, and fc -s. *)
From Verif Require Import Base Num_model History_model History_spec History_proof.
Local Open Scope nat_scope.

(** The commands read back, oldest first. *)
Definition contents (s : hst) : list (option cstr) := map (entry s) (seq 0 (cnt s)).

Lemma contents_R s p : R s p -> contents s = map Some (cmds p).
Proof.
  intros [[ids [rest H]] _]. pose proof (Forall2_len _ _ _ (hi_live _ _ _ _ H)) as Le. pose proof (hi_cnt _ _ _ _ H) as Lc.
  unfold contents. rewrite (map_ext_in _ (nth_error (cmds p))).
  2:{ intros i Hi. apply in_seq in Hi. apply (HI_entry _ _ _ _ _ H). lia. }
  rewrite Lc, Le. clear. induction (cmds p) as [|c l IH]; [reflexivity|]. cbn [length seq map nth_error]. f_equal.
  rewrite <- seq_shift, map_map. exact IH.
Qed.

(** C44: whatever is done, the history is the bounded list of the specification, and no freed
    or unset entry is ever read or freed again. *)
Theorem c44_history : forall n os, 0 < n ->
  exists s p, run_ops os (init_histvec n) = Some s /\ sruns (Spec [] n false false) os p
    /\ contents s = map Some (cmds p) /\ hsize s = size p
    /\ forall p', sruns (Spec [] n false false) os p' -> p' = p.
Proof.
  intros n os P. destruct (run_ok os _ _ (R_init n P)) as [s [p [E [S H]]]]. exists s, p.
  split; [exact E|]. split; [exact S|]. split; [apply contents_R, H|]. split; [symmetry; apply H|].
  intros p' S'. eapply sruns_det; eassumption.
Qed.
Print Assumptions c44_history.

(** C44: the strings allocated are exactly the entries of the vector, each once: nothing is
    leaked. *)
Theorem c44_memory : forall n os s, 0 < n -> run_ops os (init_histvec n) = Some s ->
  cnt s <= hsize s /\
  exists ids, NoDup ids /\ map (@Some nat) ids = firstn (cnt s) (vec s)
    /\ forall k, In k ids <-> exists c, nth_error (heap s) k = Some (Some c).
Proof.
  intros n os s P E. destruct (run_ok os _ _ (R_init n P)) as [s' [p [E' [_ [[ids [rest H]] _]]]]].
  rewrite E in E'. injection E' as <-. split.
  - rewrite (hi_cnt _ _ _ _ H). unfold hsize. rewrite (hi_vec _ _ _ _ H), app_length, map_length. lia.
  - exists ids. split; [apply (hi_nd _ _ _ _ H)|]. split.
    + rewrite (hi_cnt _ _ _ _ H), (hi_vec _ _ _ _ H), firstn_app, map_length, Nat.sub_diag. cbn [firstn].
      rewrite app_nil_r. symmetry. apply firstn_all2. rewrite map_length. lia.
    + intros k. split.
      * intros Hk. pose proof (hi_live _ _ _ _ H) as F. clear -F Hk. induction F as [|x y a b X F IH]; [destruct Hk|].
        destruct Hk as [->|Hk]; [eauto|auto].
      * intros [c Hc]. apply (hi_leak _ _ _ _ H k c Hc).
Qed.
Print Assumptions c44_memory.

(** C44: with nothing to be skipped, the history holds the most recently saved lines in order,
    at most HISTSIZE of them, and at least the last [k] if HISTSIZE was never below [k]. *)
Theorem c44_most_recent : forall n os s k, 0 < n -> run_ops os (init_histvec n) = Some s ->
  forallb plain os = true -> k <= n -> never_below k os ->
  exists ls l, Forall2 line_of (saves os) ls /\ contents s = map Some l
    /\ (exists dropped, ls = dropped ++ l) /\ length l <= hsize s /\ Nat.min k (length ls) <= length l.
Proof.
  intros n os s k P E F K NB. destruct (run_ok os _ _ (R_init n P)) as [s' [p [E' [S H]]]].
  rewrite E in E'. injection E' as <-.
  destruct (recent_ok k os _ _ [] S F eq_refl eq_refl NB K) as [ls [A [B [C D]]]]; cbn [cmds size length].
  - exists []. reflexivity.
  - lia.
  - lia.
  - cbn [app] in B, D. exists ls, (cmds p). split; [exact A|]. split; [apply contents_R, H|]. split; [exact B|].
    split; [|exact D]. destruct H as [_ [<- _]]. exact C.
Qed.
Print Assumptions c44_most_recent.

Example c44_ex_run : exists s, run_ops [OSave (L "one"); OSave (L "two"); OControl (Some (L "a:ignorespace:ignoredups"));
    OSave (L "two"); OSave (L " three"); OSave (L "four" ++ [NL]); OSize 2; OSave (L "five")] (init_histvec 3) = Some s
  /\ contents s = map Some [L "four"; L "five"] /\ hsize s = 2.
Proof. eexists. split; [vm_compute; reflexivity|]. split; vm_compute; reflexivity. Qed.
Example c44_ex_recent : exists s, run_ops [OSave (L "a"); OSize 5; OSave (L "b"); OSave (L "c"); OSize 0; OSave (L "d")] (init_histvec 3) = Some s
  /\ contents s = map Some [L "a"; L "b"; L "c"; L "d"]
  /\ never_below 3 [OSave (L "a"); OSize 5; OSave (L "b"); OSave (L "c"); OSize 0; OSave (L "d")].
Proof.
  eexists. split; [vm_compute; reflexivity|]. split; [vm_compute; reflexivity|].
  intros n [H|[H|[H|[H|[H|[H|[]]]]]]]; try discriminate; injection H as <-; lia.
Qed.

(** C44: a size change whose reallocarray fails after the old entries were freed leaves freed
    strings in the vector (sethistsize frees and moves before it allocates); the next look
    at the history reads them. *)
Theorem c44_resize_failure_refuted : exists s s',
  run_ops [OSave (L "a"); OSave (L "b"); OSave (L "c")] (init_histvec 3) = Some s
  /\ contents s = map Some [L "a"; L "b"; L "c"]
  /\ sethistsize 1 false s = Some s' /\ cnt s' = 3
  /\ contents s' <> map Some [L "a"; L "b"; L "c"]
  /\ findhist s' (-1) true (L "x") = FUB /\ histreset s' = None.
Proof.
  eexists. eexists. split; [vm_compute; reflexivity|]. split; [vm_compute; reflexivity|].
  split; [vm_compute; reflexivity|]. split; [reflexivity|]. split; [vm_compute; discriminate|]. split; vm_compute; reflexivity.
Qed.
Print Assumptions c44_resize_failure_refuted.

(** * C52 *)
(** The argument old=new: split at the first = after the first character, so old is not empty. *)
Theorem c52_argument : forall arg,
  match fc_subst arg with
  | Some (old, new) => arg = old ++ "="%char :: new /\ old <> [] /\ ~ In "="%char (tl old)
  | None => ~ In "="%char (tl arg)
  end.
Proof.
  intros [|c r]; [cbn; auto|]. cbn [fc_subst tl]. pose proof (split_eq_spec r) as H. destruct (split_eq r) as [[a b]|]; [|exact H].
  destruct H as [-> H]. split; [reflexivity|]. split; [discriminate|exact H].
Qed.
Print Assumptions c52_argument.

(** The text is the command with the leftmost occurrence, or with -g all occurrences from the
    left, replaced; it fails exactly if there is none; it always ends. *)
Theorem c52_replace : forall hp arg old new g, fc_subst arg = Some (old, new) ->
  match hist_replace hp (Some (old, new)) g with
  | RText t => occurs old hp /\ replaced old new g hp t /\ forall t', replaced old new g hp t' -> t' = t
  | RFailed => ~ occurs old hp
  | RFuel => False
  end.
Proof.
  intros hp arg old new g E. pose proof (c52_argument arg) as A. rewrite E in A. destruct A as [_ [NE _]].
  pose proof (hist_replace_ok hp old new g NE) as H. destruct (hist_replace hp (Some (old, new)) g); auto.
  destruct H as [O R]. split; [exact O|]. split; [exact R|]. intros t' R'. eapply replaced_det; eassumption.
Qed.
Print Assumptions c52_replace.
Theorem c52_unchanged : forall hp g, hist_replace hp None g = RText hp.
Proof. reflexivity. Qed.
Print Assumptions c52_unchanged.

Example c52_ex_all : fc_subst (L "aa=b") = Some (L "aa", L "b")
  /\ hist_replace (L "xaaaay") (Some (L "aa", L "b")) true = RText (L "xbby")
  /\ hist_replace (L "xaaaay") (Some (L "aa", L "b")) false = RText (L "xbaay")
  /\ hist_replace (L "xay") (Some (L "aa", L "b")) true = RFailed
  /\ fc_subst (L "=x=y") = Some (L "=x", L "y") /\ fc_subst (L "=x") = None.
Proof. vm_compute. auto 10. Qed.

(** What is run: the text without one newline at its end; what is put in the history: its
    lines, each saved whole. *)
Theorem c52_executed : forall cmd,
  (forall t, cmd = t ++ [NL] -> exec_text cmd = t) /\ ((forall t, cmd <> t ++ [NL]) -> exec_text cmd = cmd)
  /\ Forall (fun l => ~ In NL l /\ hist_line l = l) (exec_lines [] cmd)
  /\ join_nl (exec_lines [] cmd) = exec_text cmd.
Proof.
  intros cmd. pose proof (exec_text_ok cmd) as T. pose proof (cut_last_nl_spec cmd) as C.
  assert (A1 : forall t, cmd = t ++ [NL] -> exec_text cmd = t).
  { intros t E. rewrite T. destruct (cut_last_nl cmd) as [u|].
    - destruct C as [r [E2 H]]. rewrite E in E2. destruct r as [|x r].
      + apply app_inj_tail in E2. destruct E2 as [-> _]. rewrite E, str_eqb_refl. reflexivity.
      + exfalso. destruct r as [|y r] using rev_ind.
        * change (u ++ [NL; x]) with (u ++ [NL] ++ [x]) in E2. rewrite app_assoc in E2. apply app_inj_tail in E2. destruct E2 as [_ <-]. apply H. left. reflexivity.
        * change (u ++ NL :: x :: r ++ [y]) with (u ++ (NL :: x :: r) ++ [y]) in E2. rewrite app_assoc in E2.
          apply app_inj_tail in E2. destruct E2 as [_ <-]. apply H. right. apply in_elt.
    - destruct C. rewrite E. apply in_elt. }
  assert (A2 : (forall t, cmd <> t ++ [NL]) -> exec_text cmd = cmd).
  { intros N. rewrite T. destruct (cut_last_nl cmd) as [u|]; [|reflexivity]. destruct (str_eqb_spec cmd (u ++ [NL])) as [X|X]; [destruct (N _ X)|reflexivity]. }
  split; [exact A1|]. split; [exact A2|].
  destruct (exec_lines_ok cmd [] ltac:(intros [])) as [F E]. cbn [rev app] in E. split.
  - eapply Forall_impl; [|exact F]. intros l H. split; [exact H|]. unfold hist_line. pose proof (cut_last_nl_spec l) as X.
    destruct (cut_last_nl l) as [u|]; [|reflexivity]. destruct X as [r [-> _]]. destruct H. apply in_elt.
  - destruct E as [E|E].
    + destruct (list_eq_dec ascii_dec cmd []) as [->|NE]; [reflexivity|].
      destruct (exists_last NE) as [u [x EX]]. destruct (ceq_spec x NL) as [->|NX].
      * (* the last line would be empty, which is not produced *)
        exfalso. clear -E EX.
        assert (K : forall cmd cur, ~ In NL cur -> (exists u, cmd = u ++ [NL]) -> rev cur ++ cmd = join_nl (exec_lines cur cmd) -> False).
        { clear. induction cmd as [|c r IH]; intros cur N [u U] E; [destruct u; discriminate|]. cbn [exec_lines] in E.
          destruct (ceq_spec c NL) as [->|NC].
          - destruct r as [|d r].
            + cbn in E. apply (f_equal (@length _)) in E. rewrite app_length in E. cbn in E. lia.
            + destruct u as [|x u]; [discriminate|]. cbn in U. injection U as _ U.
              assert (NN : exec_lines [] (d :: r) <> []).
              { cbn. destruct (ceq d NL); [destruct r; discriminate|]. clear. generalize [d]. induction r as [|x r IH]; intros k; cbn; [discriminate|].
                destruct (ceq x NL); [destruct r; discriminate|apply IH]. }
              destruct (exec_lines [] (d :: r)) as [|l ls] eqn:EL; [congruence|].
              change (join_nl (rev cur :: l :: ls)) with (rev cur ++ NL :: join_nl (l :: ls)) in E.
              apply app_inv_head in E. injection E as E. apply (IH [] ltac:(intros []) (ex_intro _ u U)). cbn [rev app].
              rewrite EL. exact E.
          - destruct u as [|x u]; [cbn in U; injection U as U _; congruence|]. cbn in U. injection U as _ U.
            apply (IH (c :: cur)); [intros [X|X]; [congruence|auto]|exists u; exact U|]. cbn [rev]. rewrite <- app_assoc. exact E. }
        apply (K cmd [] ltac:(intros []) (ex_intro _ u EX) E).
      * rewrite A2; [symmetry; exact E|]. intros t X. rewrite EX in X. apply app_inj_tail in X. destruct X as [_ X]. congruence.
    + symmetry. apply A1. exact E.
Qed.
Print Assumptions c52_executed.
Example c52_ex_executed : exec_lines [] (L "a b" ++ NL :: NL :: L "c" ++ [NL]) = [L "a b"; []; L "c"]
  /\ exec_text (L "a b" ++ NL :: L "c" ++ [NL]) = L "a b" ++ NL :: L "c".
Proof. vm_compute. auto. Qed.

(** * C55 *)
(** [str] selects the entry [t]: ?text anywhere in the command, text at its beginning. *)
Definition selects (str t : cstr) : Prop :=
  match str with
  | c :: r => if ceq c "?" then occurs r t else exists b, t = str ++ b
  | [] => True
  end.
Lemma selects_spec str t : selects str t <->
  hmatch (match str with c :: _ => negb (ceq c "?") | [] => true end)
         (match str with c :: r => if ceq c "?" then r else str | [] => [] end) t = true.
Proof.
  unfold selects. destruct str as [|c r]; cbn.
  - split; auto.
  - destruct (ceq c "?"); cbn [negb]; rewrite hmatch_spec; reflexivity.
Qed.
(** With at least one command before the current one, the entry found is the most recent of
    those selected, never the current command (the last entry). *)
Theorem c55_search : forall n os s str, 0 < n -> run_ops os (init_histvec n) = Some s -> 2 <= cnt s ->
  match hist_get_str s str with
  | FAt i => i < cnt s - 1 /\ (exists t, entry s i = Some t /\ selects str t)
             /\ forall j t, i < j < cnt s - 1 -> entry s j = Some t -> ~ selects str t
  | FNone => forall j t, j < cnt s - 1 -> entry s j = Some t -> ~ selects str t
  | FUB => False
  end.
Proof.
  intros n os s str P E C. destruct (run_ok os _ _ (R_init n P)) as [s' [p [E' [_ [[ids [rest H]] _]]]]].
  rewrite E in E'. injection E' as <-.
  set (anch := match str with c :: _ => negb (ceq c "?") | [] => true end).
  set (pt := match str with c :: r => if ceq c "?" then r else str | [] => [] end).
  assert (EQ : hist_get_str s str = find_down s anch pt (cnt s - 1)).
  { unfold hist_get_str, findhist. cbv zeta.
    assert (B : ((Z.of_nat (cnt s) - 2 <? 0) || (Z.of_nat (cnt s) - 1 <=? Z.of_nat (cnt s) - 2))%Z = false).
    { apply orb_false_iff. split; [apply Z.ltb_ge; lia|apply Z.leb_gt; lia]. }
    rewrite B. replace (Z.to_nat (Z.of_nat (cnt s) - 2 + 1)) with (cnt s - 1) by lia.
    subst anch pt. destruct str as [|c r]; [reflexivity|]. destruct (ceq c "?"); reflexivity. }
  rewrite EQ. pose proof (find_down_ok s (cmds p) ids rest anch pt H (cnt s - 1) ltac:(lia)) as F.
  assert (NS : forall t, hmatch anch pt t = false -> ~ selects str t).
  { intros t X Y. apply selects_spec in Y. subst anch pt. congruence. }
  destruct (find_down s anch pt (cnt s - 1)) as [|i|].
  - intros j t J T. rewrite (HI_entry _ _ _ _ _ H) in T by lia. apply NS. apply (F j t J T).
  - destruct F as [A [[t [T M]] B]]. split; [exact A|]. split.
    + exists t. rewrite (HI_entry _ _ _ _ _ H) by lia. split; [exact T|]. apply selects_spec. exact M.
    + intros j u J U. rewrite (HI_entry _ _ _ _ _ H) in U by lia. apply NS. apply (B j u J U).
  - exact F.
Qed.
Print Assumptions c55_search.
Example c55_ex : exists s, run_ops [OSave (L "echo a"); OSave (L "echo b"); OSave (L "ls"); OSave (L "fc -s echo")] (init_histvec 5) = Some s
  /\ hist_get_str s (L "echo") = FAt 1 /\ hist_get_str s (L "?o a") = FAt 0 /\ hist_get_str s (L "fc") = FNone.
Proof. eexists. split; [vm_compute; reflexivity|]. vm_compute. auto. Qed.

(** If the current command is the only entry, it is found itself: fc -s f runs fc again
    (and is then refused as recursive). *)
Theorem c55_search_refuted : exists s, run_ops [OSave (L "fc -s f")] (init_histvec 5) = Some s
  /\ cnt s = 1 /\ hist_get_str s (L "f") = FAt 0.
Proof. eexists. split; [vm_compute; reflexivity|]. vm_compute. auto. Qed.
Print Assumptions c55_search_refuted.

(** By number: the newest entry has number [line], the one before it [line - 1] and so on; a
    negative number counts back from the newest.  The current command (the newest) is found
    only if allowed. *)
Theorem c55_number : forall s line m allow_cur,
  let i := (Z.of_nat (cnt s) - 1 - (if m <? 0 then - m else line - m))%Z in
  let ok := (0 <= i < Z.of_nat (cnt s) /\ (allow_cur = false -> i <> Z.of_nat (cnt s) - 1))%Z in
  (ok -> hist_get_num s line m false allow_cur = FAt (Z.to_nat i))
  /\ (~ ok -> hist_get_num s line m false allow_cur = FNone).
Proof.
  intros s line m ac i ok. unfold hist_get_num. cbv zeta.
  replace ((Z.of_nat (cnt s) - 1 + (if (m <? 0)%Z then m else m - line)))%Z with i by (subst i; destruct (m <? 0)%Z; lia).
  destruct (Z.ltb_spec i 0) as [A|A]; [split; [intros [X _]; lia|reflexivity]|].
  destruct (Z.ltb_spec (Z.of_nat (cnt s) - 1) i) as [B|B]; [split; [intros [X _]; lia|reflexivity]|].
  destruct (Z.eqb_spec i (Z.of_nat (cnt s) - 1)) as [Q|Q]; destruct ac; cbn [negb andb].
  - split; [reflexivity|]. intros X. destruct X. split; [lia|discriminate].
  - split; [intros [_ X]; destruct (X eq_refl Q)|reflexivity].
  - split; [reflexivity|]. intros X. destruct X. split; [lia|discriminate].
  - split; [reflexivity|]. intros X. destruct X. split; [lia|auto].
Qed.
Print Assumptions c55_number.
(** The bounds of a listing are cut to the entries there are. *)
Theorem c55_number_approx : forall s line m allow_cur, 2 <= cnt s ->
  exists i, hist_get_num s line m true allow_cur = FAt i /\ i < cnt s
    \/ hist_get_num s line m true allow_cur = FNone /\ allow_cur = false
       /\ (Z.of_nat (cnt s) - 1 - (if m <? 0 then - m else line - m) = Z.of_nat (cnt s) - 1)%Z.
Proof.
  intros s line m ac C. unfold hist_get_num. cbv zeta.
  set (hp := (Z.of_nat (cnt s) - 1 + (if (m <? 0)%Z then m else m - line))%Z).
  destruct (Z.ltb_spec hp 0).
  { exists 0. left. destruct (Z.leb_spec (Z.of_nat (cnt s) - 1) 0); [lia|]. split; [reflexivity|lia]. }
  destruct (Z.ltb_spec (Z.of_nat (cnt s) - 1) hp).
  { destruct (Z.ltb_spec (Z.of_nat (cnt s) - 1) 0); [lia|]. destruct (Z.eqb_spec (Z.of_nat (cnt s) - 1) 0); [lia|].
    rewrite andb_false_r. eexists. left. cbn [orb]. split; [reflexivity|]. destruct ac; lia. }
  destruct (Z.eqb_spec hp (Z.of_nat (cnt s) - 1)) as [Q|Q]; destruct ac; cbn [negb andb].
  - eexists. left. split; [reflexivity|lia].
  - exists 0. right. split; [reflexivity|]. split; [reflexivity|]. subst hp. destruct (m <? 0)%Z; lia.
  - eexists. left. split; [reflexivity|lia].
  - eexists. left. split; [reflexivity|lia].
Qed.
Print Assumptions c55_number_approx.
Example c55_ex_number : exists s, run_ops [OSave (L "a"); OSave (L "b"); OSave (L "c"); OSave (L "fc")] (init_histvec 5) = Some s
  /\ hist_get_num s 14 12 false false = FAt 1 /\ hist_get_num s 14 (-1) false false = FAt 2
  /\ hist_get_num s 14 14 false false = FNone /\ hist_get_num s 14 2 true false = FAt 0.
Proof. eexists. split; [vm_compute; reflexivity|]. vm_compute. auto. Qed.
