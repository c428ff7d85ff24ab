(** C71, C72: special variables. *)
From Verif Require Import Base Num_model Num_spec Num_proof Special_model Special_spec Special_proof Special_follow Special_flush Special_time.
Local Open Scope Z_scope.

Section Shell.
Variable ev : cstr -> option Z.
Variable usable_dir : cstr -> bool.
Variable def_path : cstr.
Variable rand : Z -> Z -> Z.
Notation step := (step ev usable_dir def_path rand).
Notation next := (next ev usable_dir def_path rand).
Notation start := (start def_path).

Lemma name_followed n i : In (n, i) followed -> n = name_of i.
Proof. intros [H|[H|[H|[H|[H|[H|[]]]]]]]; injection H as <- <-; reflexivity. Qed.
Lemma start_inv i t : In (name_of i, i) followed -> inv usable_dir def_path i (start t).
Proof.
  assert (G : forall j s, goods [Some (Var true true j false false (VStr s))] -> goods [Some (Var true true j false false (VStr s))]) by auto.
  intros H. assert (N : goods [None]) by (intros v [E|[]]; discriminate).
  assert (Y : forall s, goods [Some (Var true true true false false (VStr s))]) by (intros s v [[= <-]|[]]; unfold good; cbn; sp; eauto; discriminate).
  assert (C : consistent (start t)) by (intros m j; apply assoc_names).
  destruct H as [E|[E|[E|[E|[E|[E|[]]]]]]]; injection E as E1 E2; clear E1; rewrite <- E2 in *; (split; [constructor; [first [exact N | exact (Y _)]|reflexivity|exact C|cbn; lia]|]); cbn; auto.
  split; discriminate.
Qed.
Lemma reaches_inv i t st : In (name_of i, i) followed -> reaches ev usable_dir def_path rand (start t) st -> inv usable_dir def_path i st.
Proof.
  intros H R. induction R as [|st1 o st2 R IH HL NX]; [now apply start_inv|]. pose proof (step_inv ev usable_dir def_path rand i H o st1 IH HL) as X. unfold Special_model.next in NX.
  destruct (step o st1); try discriminate; injection NX as <-; exact X.
Qed.
Lemma inv_shows i st : inv usable_dir def_path i st -> shows (visl (ol st (name_of i))) (vtext (visl (ol st (name_of i)))).
Proof.
  intros [[G _ _ _] _]. unfold shows, vtext. destruct (visl (ol st (name_of i))) as [v|] eqn:V; auto. destruct (isset v) eqn:IS; [right|left; auto]. split; auto.
  assert (GV : good v). { apply G. clear - V. induction (ol st (name_of i)) as [|[w|] l IH]; cbn in *; [discriminate| |auto]. destruct (defined w); [injection V as ->; auto|auto]. }
  destruct GV as (_ & _ & X & _). destruct (X IS) as (_ & s & ->). eauto.
Qed.

(** C71.  After any operations that are harmless (see the specification), the search path, the field separators, the directory for
    temporary files, the history control and the mailboxes in force are those the visible variables say. *)
Theorem c71_settings t st : reaches ev usable_dir def_path rand (start t) st -> coherent usable_dir def_path st.
Proof.
  intros R n i H. pose proof (name_followed n i H) as ->. pose proof (reaches_inv i t st H R) as I. exists (visl (ol st (name_of i))), (vtext (visl (ol st (name_of i)))).
  sp; [now apply means_visl|now apply inv_shows|apply I].
Qed.
(** C71.  What $PATH and the others give is what the shell goes by. *)
Theorem c71_read t st n i r st' : reaches ev usable_dir def_path rand (start t) st -> In (n, i) followed -> step (Get n) st = Ok_ r st' -> agrees usable_dir def_path i r st'.
Proof.
  intros R H E. pose proof (name_followed n i H) as ->. pose proof (reaches_inv i t st H R) as [B A].
  destruct (own_global ev usable_dir def_path rand i st B) as (k & v & H1 & H2 & H3 & H4 & H5 & H6 & H7 & H8 & H9 & _).
  cbn [Special_model.step] in E. unfold read in E. destruct (global st (name_of i)) as [k' st1]. cbn [fst snd] in *. subst k'.
  assert (GS : getspec ev usable_dir rand st1 k (name_of i) = Ok_ tt st1) by (unfold getspec; rewrite (b_id _ _ H2); destruct (six i H) as [E'|[E'|[E'|[E'|[E'|E']]]]]; now rewrite E').
  rewrite GS in E. assert (X : match text_of (get st1 k (name_of i)) with Some o => Ok_ o st1 | None => Bad end = Ok_ r st') by (destruct (special _) in E; exact E). clear E.
  rewrite H3 in X. assert (T : text_of v = Some (vtext (Some v))).
  { assert (G : good v) by (rewrite <- H3, get_ol; apply goods_nth; apply H2). destruct G as (G1 & G2 & G3 & G4). unfold text_of, vtext. destruct (isset v) eqn:IS; auto. destruct (G3 eq_refl) as (_ & s & ->). now rewrite G2. }
  rewrite T in X. assert (Q1 : r = vtext (Some v)) by congruence. assert (Q2 : st' = st1) by congruence. rewrite Q1, Q2. rewrite <- H7, H8. eapply agrees_texts; [exact H| |exact A]. intros j _. now rewrite H9.
Qed.
(** C71.  Whatever is done, the search path does not change without the found commands being forgotten. *)
Theorem c71_forgets t st o st' : anyhow ev usable_dir def_path rand (start t) st -> next o st = Some st' ->
  texts st' X_path <> texts st X_path -> nums st N_flushes < nums st' N_flushes.
Proof.
  intros A NX D. pose proof (step_flushed ev usable_dir def_path rand o st (anyhow_consistent ev usable_dir def_path rand t st A)) as X. unfold Special_model.next in NX.
  destruct (step o st); try discriminate; injection NX as <-; destruct X as [[[X _]|X] _]; auto; contradiction.
Qed.

(** C72 *)
Lemma start_ready_int i t : i = V_SECONDS \/ i = V_RANDOM -> ready i true (start t).
Proof.
  intros [-> | ->]; [exists (Some (ivar true (VInt 0)))|exists (Some (ivar false VNone))]; (split; [constructor; [exists O; reflexivity|reflexivity|intros m j; apply assoc_names]|]); cbn; unfold shape; cbn; sp; auto; discriminate.
Qed.
Lemma start_ready_line t : ready V_LINENO false (start t).
Proof. exists None. split; [constructor; [exists O; reflexivity|reflexivity|intros m j; apply assoc_names]|]. cbn. unfold shape. cbn. sp; auto. discriminate. Qed.
Lemma nano_div s s0 z ns ns0 : 0 <= ns < 1000000000 -> 0 <= ns0 < 1000000000 ->
  s - (s0 - z) - (if ns <? ns0 then 1 else 0) = z + ((s * 1000000000 + ns) - (s0 * 1000000000 + ns0)) / 1000000000.
Proof.
  intros A B. assert (X : ((s * 1000000000 + ns) - (s0 * 1000000000 + ns0)) / 1000000000 = s - s0 - (if ns <? ns0 then 1 else 0)); [|lia].
  symmetry. destruct (Z.ltb_spec ns ns0).
  - apply (Z.div_unique _ _ _ (ns - ns0 + 1000000000)); lia.
  - apply (Z.div_unique _ _ _ (ns - ns0)); lia.
Qed.
(** C72.  SECONDS, read at any later time, is the number assigned to it plus the whole seconds gone by since. *)
Theorem c72_seconds t st e z st1 l st2 : steadily ev usable_dir def_path rand (L "SECONDS") (start t) st -> ev e = Some z ->
  step (Assign (L "SECONDS") e) st = Ok_ None st1 -> draws ev usable_dir def_path rand (L "SECONDS") st1 l st2 ->
  0 <= snd (now st) < 1000000000 -> 0 <= snd (now st2) < 1000000000 ->
  let n := z + (nanos (now st2) - nanos (now st)) / 1000000000 in INT64_MIN < n <= INT64_MAX ->
  exists s st3, step (Get (L "SECONDS")) st2 = Ok_ (Some s) st3 /\ numeral s 10 n.
Proof.
  intros SD EV AS DR N0 N2 n R. change (L "SECONDS") with (name_of V_SECONDS) in *. assert (NV' : V_SECONDS <> V_VISUAL) by discriminate.
  pose proof (steadily_int ev usable_dir def_path rand V_SECONDS NV' _ _ (or_introl eq_refl) (start_ready_int _ t (or_introl eq_refl)) SD) as RD.
  pose proof (assign_int ev usable_dir def_path rand V_SECONDS st e (or_introl eq_refl) RD) as X. rewrite AS in X. destruct X as (RD1 & z' & EV' & NW & _ & SX & _). rewrite EV in EV'. injection EV' as <-. destruct (SX eq_refl) as [S1 S2].
  destruct (draws_ready ev usable_dir def_path rand V_SECONDS NV' true _ _ _ ltac:(cbn; auto) RD1 DR) as ((x & H & SH & SET) & NK & _).
  assert (M : made rand V_SECONDS st2 = n).
  { unfold made, seconds_since. rewrite (NK N_sec), (NK N_nsec) by (reflexivity || discriminate). rewrite S1, S2. unfold n, nanos. now apply nano_div. }
  destruct (read_ok ev usable_dir def_path rand V_SECONDS st2 x true ltac:(cbn; auto) H SH SET ltac:(now rewrite M)) as (s & st3 & A & B). exists s, st3. split; auto. now rewrite <- M.
Qed.
(** C72.  Before, it is the seconds since the start. *)
Theorem c72_seconds_since_start t l st : draws ev usable_dir def_path rand (L "SECONDS") (start t) l st -> 0 <= snd t < 1000000000 -> 0 <= snd (now st) < 1000000000 ->
  let n := (nanos (now st) - nanos t) / 1000000000 in INT64_MIN < n <= INT64_MAX ->
  exists s st3, step (Get (L "SECONDS")) st = Ok_ (Some s) st3 /\ numeral s 10 n.
Proof.
  intros DR N0 N2 n R. change (L "SECONDS") with (name_of V_SECONDS) in *. assert (NV' : V_SECONDS <> V_VISUAL) by discriminate.
  destruct (draws_ready ev usable_dir def_path rand V_SECONDS NV' true _ _ _ ltac:(cbn; auto) (start_ready_int _ t (or_introl eq_refl)) DR) as ((x & H & SH & SET) & NK & _).
  assert (M : made rand V_SECONDS st = n).
  { unfold made, seconds_since. rewrite (NK N_sec), (NK N_nsec) by (reflexivity || discriminate). cbn. unfold n, nanos. pose proof (nano_div (fst (now st)) (fst t) 0 (snd (now st)) (snd t) N2 N0) as X. rewrite Z.sub_0_r in X. rewrite X. apply Z.add_0_l. }
  destruct (read_ok ev usable_dir def_path rand V_SECONDS st x true ltac:(cbn; auto) H SH SET ltac:(now rewrite M)) as (s & st3 & A & B). exists s, st3. split; auto. now rewrite <- M.
Qed.

Lemma land_range z : 0 <= Z.land z 32767 <= 32767.
Proof. change 32767 with (Z.ones 15). rewrite Z.land_ones by lia. pose proof (Z.mod_pos_bound z (2 ^ 15) ltac:(lia)). change (Z.ones 15) with 32767. lia. Qed.
(** C72.  The numbers RANDOM gives are from 0 to 32767, and the k-th since an assignment depends on the number assigned and on k alone. *)
Lemma random_draws st l st' seed : ready V_RANDOM true st -> nums st N_seed = seed -> nums st N_rands = 0 -> draws ev usable_dir def_path rand (L "RANDOM") st l st' ->
  forall k, (k < length l)%nat -> exists s, nth_error l k = Some (Some s) /\ numeral s 10 (Z.land (rand seed (Z.of_nat k)) 32767).
Proof.
  change (L "RANDOM") with (name_of V_RANDOM) in *. assert (NV' : V_RANDOM <> V_VISUAL) by discriminate. intros RD S0 R0 DR.
  induction DR as [|l st1 o st2 D IH AP NX|l st1 r st2 D IH E]; intros k K; [cbn in K; lia|auto|].
  destruct (draws_ready ev usable_dir def_path rand V_RANDOM NV' true _ _ _ ltac:(cbn; auto) RD D) as (RD1 & NK & RK).
  rewrite app_length in K. cbn in K. destruct (Nat.eq_dec k (length l)) as [->|NE].
  - rewrite nth_error_app2, Nat.sub_diag by lia. cbn. destruct (ready_read ev usable_dir def_path rand V_RANDOM st1 r st2 true ltac:(cbn; auto) RD1 E) as (_ & _ & s & -> & T). exists s. split; auto.
    unfold made in T. rewrite (NK N_seed), (RK eq_refl), R0, S0 in T by (reflexivity || discriminate). destruct (num_text (Z.land (rand seed (0 + Z.of_nat (length l))) 32767)) as (s' & T' & N').
    { pose proof (land_range (rand seed (0 + Z.of_nat (length l)))). unfold INT64_MIN, INT64_MAX. lia. }
    rewrite T in T'. injection T' as <-. exact N'.
  - rewrite nth_error_app1 by lia. apply IH. lia.
Qed.
Theorem c72_random t st e z st1 l st2 : steadily ev usable_dir def_path rand (L "RANDOM") (start t) st -> ev e = Some z ->
  step (Assign (L "RANDOM") e) st = Ok_ None st1 -> draws ev usable_dir def_path rand (L "RANDOM") st1 l st2 ->
  exists f : nat -> Z, (forall k, 0 <= f k <= 32767) /\ (forall k, f k = rand (z mod 2 ^ 32) (Z.of_nat k) mod 2 ^ 15) /\
    forall k, (k < length l)%nat -> exists s, nth_error l k = Some (Some s) /\ numeral s 10 (f k).
Proof.
  intros SD EV AS DR. assert (NV' : V_RANDOM <> V_VISUAL) by discriminate.
  pose proof (steadily_int ev usable_dir def_path rand V_RANDOM NV' _ _ (or_intror eq_refl) (start_ready_int _ t (or_intror eq_refl)) SD) as RD.
  pose proof (assign_int ev usable_dir def_path rand V_RANDOM st e (or_intror eq_refl) RD) as X. change (name_of V_RANDOM) with (L "RANDOM") in X. rewrite AS in X. destruct X as (RD1 & z' & EV' & _ & _ & _ & RX). rewrite EV in EV'. injection EV' as <-. destruct (RX eq_refl) as [R1 R2].
  exists (fun k => Z.land (rand (to_uint z) (Z.of_nat k)) 32767). sp.
  - intros k. apply land_range.
  - intros k. change 32767 with (Z.ones 15). now rewrite Z.land_ones by lia.
  - eapply random_draws; eauto.
Qed.
Theorem c72_random_from_start t l st : draws ev usable_dir def_path rand (L "RANDOM") (start t) l st ->
  forall k, (k < length l)%nat -> exists s z, nth_error l k = Some (Some s) /\ numeral s 10 z /\ 0 <= z <= 32767.
Proof.
  intros DR k K. destruct (random_draws _ l st 1 (start_ready_int _ t (or_intror eq_refl)) eq_refl eq_refl DR k K) as (s & A & B). exists s. eexists. sp; eauto; apply land_range.
Qed.

(** C72.  LINENO is the current line ... *)
Theorem c72_lineno t l st : draws ev usable_dir def_path rand (L "LINENO") (start t) l st -> 0 <= lineno st <= INT_MAX ->
  exists s st3, step (Get (L "LINENO")) st = Ok_ (Some s) st3 /\ numeral s 10 (lineno st).
Proof.
  intros DR R. assert (NV' : V_LINENO <> V_VISUAL) by discriminate. change (L "LINENO") with (name_of V_LINENO) in *.
  destruct (draws_ready ev usable_dir def_path rand V_LINENO NV' false _ _ _ ltac:(cbn; auto) (start_ready_line t) DR) as ((x & H & SH & SET) & NK & _).
  assert (M : made rand V_LINENO st = lineno st) by (unfold made; rewrite (NK N_lineno) by (reflexivity || discriminate); cbn; lia).
  destruct (read_ok ev usable_dir def_path rand V_LINENO st x false ltac:(cbn; auto) H SH SET) as (s & st3 & A & B); [rewrite M; unfold INT64_MIN, INT64_MAX, INT_MAX in *; lia|]. exists s, st3. split; auto. now rewrite <- M.
Qed.
(** ... and after a number was assigned to it, that number is the number of the next line. *)
Theorem c72_lineno_assigned t l0 st e z st1 l st2 : draws ev usable_dir def_path rand (L "LINENO") (start t) l0 st -> numeral e 10 z -> 0 <= z <= INT_MAX ->
  step (Assign (L "LINENO") e) st = Ok_ None st1 -> draws ev usable_dir def_path rand (L "LINENO") st1 l st2 ->
  0 <= lineno st <= INT_MAX -> 0 <= lineno st2 <= INT_MAX -> 0 < lineno st + 1 - z + INT_MAX ->
  exists s st3, step (Get (L "LINENO")) st2 = Ok_ (Some s) st3 /\ numeral s 10 (z + (lineno st2 - (lineno st + 1))).
Proof.
  intros D0 NM ZR AS DR R0 R2 RR. assert (NV' : V_LINENO <> V_VISUAL) by discriminate. change (L "LINENO") with (name_of V_LINENO) in *.
  destruct (draws_ready ev usable_dir def_path rand V_LINENO NV' false _ _ _ ltac:(cbn; auto) (start_ready_line t) D0) as (RD & _ & _).
  assert (GI : getint false false e = Ok (10, z)).
  { apply getint_numeral; auto; [unfold INT64_MAX, INT_MAX in *; lia|discriminate]. }
  destruct (assign_line ev usable_dir def_path rand V_LINENO st e z eq_refl RD GI) as (st1' & A1 & RD1 & _ & LN & NL). rewrite AS in A1. injection A1 as <-.
  destruct (draws_ready ev usable_dir def_path rand V_LINENO NV' false _ _ _ ltac:(cbn; auto) RD1 DR) as ((x & H & SH & SET) & NK & _).
  assert (M : made rand V_LINENO st2 = z + (lineno st2 - (lineno st + 1))).
  { unfold made. rewrite (NK N_lineno) by (reflexivity || discriminate). rewrite NL. 
    assert (T : to_int32 (to_uint (to_uint z - lineno st - 1)) = z - lineno st - 1); [|lia].
    unfold to_int32, to_uint, INT_MAX in *. rewrite (Z.mod_small z) by lia. rewrite Z.mod_mod by lia.
    destruct (Z.leb_spec 0 (z - lineno st - 1)).
    - rewrite Z.mod_small by lia. destruct (Z.leb_spec (z - lineno st - 1) 2147483647); lia.
    - assert (E : (z - lineno st - 1) mod 4294967296 = z - lineno st - 1 + 4294967296) by (symmetry; apply (Z.mod_unique _ _ (-1)); lia). rewrite E.
      destruct (Z.leb_spec (z - lineno st - 1 + 4294967296) 2147483647); lia. }
  destruct (read_ok ev usable_dir def_path rand V_LINENO st2 x false ltac:(cbn; auto) H SH SET) as (s & st3 & A & B); [rewrite M; unfold INT64_MIN, INT64_MAX, INT_MAX in *; lia|]. exists s, st3. split; auto. now rewrite <- M.
Qed.
End Shell.
Print Assumptions c71_settings.
Print Assumptions c71_read.
Print Assumptions c71_forgets.
Print Assumptions c72_seconds.
Print Assumptions c72_seconds_since_start.
Print Assumptions c72_random.
Print Assumptions c72_random_from_start.
Print Assumptions c72_lineno.
Print Assumptions c72_lineno_assigned.

(** * A shell to run: expressions are numbers, all directories are usable *)
Definition x_ev (s : cstr) : option Z := match getint false false s with Ok (_, z) => Some z | _ => None end.
Definition x_dir (_ : cstr) : bool := true.
Definition x_path : cstr := L "/bin".
Definition x_rand (seed k : Z) : Z := seed * 100000 + 40000 * k.
Definition x_start : state := start x_path (100, 500000000).
Fixpoint x_run (l : list op) (st : state) : option state :=
  match l with [] => Some st | o :: l => match next x_ev x_dir x_path x_rand o st with Some st => x_run l st | None => None end end.
Lemma x_anyhow l st st' : x_run l st = Some st' -> anyhow x_ev x_dir x_path x_rand st st'.
Proof.
  revert st'. induction l as [|o l IH] using rev_ind; intros st' H; [injection H as <-; constructor|].
  assert (A : forall l st, x_run (l ++ [o]) st = match x_run l st with Some st1 => next x_ev x_dir x_path x_rand o st1 | None => None end).
  { clear. induction l as [|p l IH]; intros st; cbn; [now destruct (next _ _ _ _ o st)|]. destruct (next _ _ _ _ p st); auto. }
  rewrite A in H. destruct (x_run l st) as [st1|]; [|discriminate]. econstructor; eauto.
Qed.
Definition x_state (l : list op) : state := match x_run l x_start with Some st => st | None => x_start end.
Lemma x_app o : forall l st, x_run (l ++ [o]) st = match x_run l st with Some st1 => next x_ev x_dir x_path x_rand o st1 | None => None end.
Proof. induction l as [|p l IH]; intros st; cbn; [now destruct (next _ _ _ _ o st)|]. destruct (next _ _ _ _ p st); auto. Qed.
Lemma x_next l o : is_some (x_run (l ++ [o]) x_start) = true -> next x_ev x_dir x_path x_rand o (x_state l) = Some (x_state (l ++ [o])).
Proof. unfold x_state. rewrite x_app. destruct (x_run l x_start) as [st|]; [|discriminate]. destruct (next _ _ _ _ o st); [reflexivity|discriminate]. Qed.
Lemma x_any l : is_some (x_run l x_start) = true -> anyhow x_ev x_dir x_path x_rand x_start (x_state l).
Proof. unfold x_state. destruct (x_run l x_start) eqn:E; [|discriminate]. intros _. eapply x_anyhow; eauto. Qed.
Definition ok_ {A} (m : out A) : bool := match m with Ok_ _ _ => true | _ => false end.
Lemma x_ok {A} (m : out A) : ok_ m = true -> exists a st, m = Ok_ a st.
Proof. destruct m; [eauto|discriminate|discriminate]. Qed.
Definition x_quiet (m : out (option cstr)) : bool := match m with Ok_ None _ => true | _ => false end.
Definition x_get (n : cstr) (st : state) : option cstr := match step x_ev x_dir x_path x_rand (Get n) st with Ok_ r _ => r | _ => None end.

(** C71, a run: a function with its own PATH and IFS, and no TMPDIR. *)
Definition x_ops : list op :=
  [Assign (L "PATH") (L "/a"); Assign (L "TMPDIR") (L "/t"); Push; Typeset (L "PATH") (Some (L "/b")) false; Typeset (L "IFS") (Some (L ":")) false; Unset (L "TMPDIR"); Readonly (L "IFS"); Get (L "PATH")].
Example c71_example :
  (reaches x_ev x_dir x_path x_rand x_start (x_state x_ops) /\ texts (x_state x_ops) X_path = Some (L "/b") /\ texts (x_state x_ops) X_ifs = Some (L ":") /\ texts (x_state x_ops) X_tmpdir = None) /\
  (reaches x_ev x_dir x_path x_rand x_start (x_state (x_ops ++ [Pop])) /\ texts (x_state (x_ops ++ [Pop])) X_path = Some (L "/a") /\
   texts (x_state (x_ops ++ [Pop])) X_ifs = Some [SP; TAB; NL] /\ nums (x_state (x_ops ++ [Pop])) N_flushes = 3).
Proof.
  assert (R : reaches x_ev x_dir x_path x_rand x_start (x_state x_ops)).
  { apply (re_next _ _ _ _ _ (x_state (firstn 7 x_ops)) (Get (L "PATH"))); [|exact Logic.I|apply (x_next (firstn 7 x_ops)); vm_compute; reflexivity].
    apply (re_next _ _ _ _ _ (x_state (firstn 6 x_ops)) (Readonly (L "IFS"))); [|exact Logic.I|apply (x_next (firstn 6 x_ops)); vm_compute; reflexivity].
    apply (re_next _ _ _ _ _ (x_state (firstn 5 x_ops)) (Unset (L "TMPDIR"))); [|  |apply (x_next (firstn 5 x_ops)); vm_compute; reflexivity].
    - apply (re_next _ _ _ _ _ (x_state (firstn 4 x_ops)) (Typeset (L "IFS") (Some (L ":")) false)); [|cbn; discriminate|apply (x_next (firstn 4 x_ops)); vm_compute; reflexivity].
      apply (re_next _ _ _ _ _ (x_state (firstn 3 x_ops)) (Typeset (L "PATH") (Some (L "/b")) false)); [|cbn; discriminate|apply (x_next (firstn 3 x_ops)); vm_compute; reflexivity].
      apply (re_next _ _ _ _ _ (x_state (firstn 2 x_ops)) Push); [|exact Logic.I|apply (x_next (firstn 2 x_ops)); vm_compute; reflexivity].
      apply (re_next _ _ _ _ _ (x_state (firstn 1 x_ops)) (Assign (L "TMPDIR") (L "/t"))); [|exact Logic.I|apply (x_next (firstn 1 x_ops)); vm_compute; reflexivity].
      apply (re_next _ _ _ _ _ x_start (Assign (L "PATH") (L "/a"))); [constructor|exact Logic.I|apply (x_next []); vm_compute; reflexivity].
    - cbn [harmless]. intros i b pre post v _ BL M. apply means_visl. destruct post as [|c post]; [reflexivity|]. exfalso.
      assert (LN : length (blocks (x_state (firstn 5 x_ops))) = 2%nat) by (vm_compute; reflexivity). destruct pre as [|p pre]; [|rewrite BL in LN; cbn [app length] in LN; rewrite app_length in LN; cbn in LN; lia].
      vm_compute in BL. injection BL as <- _ _. apply means_visl in M. vm_compute in M. discriminate. }
  split; [split; [exact R|repeat split; vm_compute; reflexivity]|]. split; [|repeat split; vm_compute; reflexivity].
  apply (re_next _ _ _ _ _ (x_state x_ops) Pop); [exact R| |apply (x_next x_ops); vm_compute; reflexivity].
  cbn [harmless]. apply x_ok. vm_compute. reflexivity.
Qed.

Lemma incoherent st n i : In (n, i) followed -> (forall t, shows (visl (ol st n)) t -> ~ agrees x_dir x_path i t st) -> ~ coherent x_dir x_path st.
Proof. intros H X C. destruct (C n i H) as (o & t & M & S & A). apply means_visl in M. subst o. exact (X t S A). Qed.
(** C71, finding: typeset PATH without a value in a function hides the variable, but not what the shell goes by. *)
Theorem c71_local_refuted : exists st, anyhow x_ev x_dir x_path x_rand x_start st /\ x_get (L "PATH") st = None /\ texts st X_path = Some (L "/a") /\ ~ coherent x_dir x_path st.
Proof.
  exists (x_state [Assign (L "PATH") (L "/a"); Push; Typeset (L "PATH") None false]). sp; [apply x_any; vm_compute; reflexivity|vm_compute; reflexivity|vm_compute; reflexivity|].
  apply (incoherent _ (L "PATH") V_PATH); [now left|]. intros t S A. vm_compute in S, A. destruct S as [[_ ->]|[S _]]; discriminate.
Qed.
Print Assumptions c71_local_refuted.
(** C71, finding: unset of a local PATH shows the outer one again, but the shell goes by the default one. *)
Theorem c71_unset_refuted : exists st, anyhow x_ev x_dir x_path x_rand x_start st /\ x_get (L "PATH") st = Some (L "/a") /\ texts st X_path = Some x_path /\ ~ coherent x_dir x_path st.
Proof.
  exists (x_state [Assign (L "PATH") (L "/a"); Push; Typeset (L "PATH") (Some (L "/b")) false; Unset (L "PATH")]). sp; [apply x_any; vm_compute; reflexivity|vm_compute; reflexivity|vm_compute; reflexivity|].
  apply (incoherent _ (L "PATH") V_PATH); [now left|]. intros t S A. vm_compute in S, A. destruct S as [[S _]|[_ (s & [= <-] & ->)]]; discriminate.
Qed.
Print Assumptions c71_unset_refuted.
(** C71, finding: a function that ends with an error for one variable leaves the search path of the function behind: its local HISTSIZE hid one
    that is no number. *)
Theorem c71_end_refuted : exists st, anyhow x_ev x_dir x_path x_rand x_start st /\ length (blocks st) = 1%nat /\ x_get (L "PATH") st = Some x_path /\ texts st X_path = Some (L "/b").
Proof.
  exists (x_state [Assign (L "HISTSIZE") (L "abc"); Push; Typeset (L "HISTSIZE") (Some (L "5")) false; Typeset (L "PATH") (Some (L "/b")) false; Pop]).
  sp; [apply x_any; vm_compute; reflexivity|vm_compute; reflexivity|vm_compute; reflexivity|vm_compute; reflexivity].
Qed.
Print Assumptions c71_end_refuted.
(** C71, example of what c71_forgets is about *)
Example c71_forgets_example : exists st st', anyhow x_ev x_dir x_path x_rand x_start st /\ next x_ev x_dir x_path x_rand Pop st = Some st' /\ texts st' X_path <> texts st X_path.
Proof. exists (x_state x_ops), (x_state (x_ops ++ [Pop])). sp; [apply x_any; vm_compute; reflexivity|apply x_next; vm_compute; reflexivity|vm_compute; discriminate]. Qed.

(** C72, examples *)
Example c72_seconds_example :
  x_get (L "SECONDS") (x_state [Tick (110, 400000000) 3]) = Some (L "9") /\
  x_get (L "SECONDS") (x_state [Tick (110, 400000000) 3; Assign (L "SECONDS") (L "50"); Push; Tick (112, 400000001) 4; Get (L "SECONDS"); Tick (113, 0) 9; Pop]) = Some (L "52").
Proof. split; vm_compute; reflexivity. Qed.
Example c72_seconds_runs : exists st1 st2, steadily x_ev x_dir x_path x_rand (L "SECONDS") x_start x_start /\ step x_ev x_dir x_path x_rand (Assign (L "SECONDS") (L "50")) x_start = Ok_ None st1 /\
  draws x_ev x_dir x_path x_rand (L "SECONDS") st1 [Some (L "50")] st2 /\ fst (now st2) = 113.
Proof.
  set (a := x_state [Assign (L "SECONDS") (L "50")]). exists a, (x_state [Assign (L "SECONDS") (L "50"); Get (L "SECONDS"); Tick (113, 0) 9]). sp; [constructor|vm_compute; reflexivity| |vm_compute; reflexivity].
  apply (dr_other _ _ _ _ _ _ _ (x_state [Assign (L "SECONDS") (L "50"); Get (L "SECONDS")]) (Tick (113, 0) 9)); [|exact Logic.I|vm_compute; reflexivity].
  apply (dr_read _ _ _ _ _ _ [] a (Some (L "50"))); [constructor|vm_compute; reflexivity].
Qed.
Example c72_random_example :
  x_get (L "RANDOM") (x_state [Assign (L "RANDOM") (L "3"); Get (L "RANDOM"); Push; Get (L "RANDOM")]) = Some (L "19552") /\
  x_get (L "RANDOM") (x_state [Get (L "RANDOM"); Assign (L "RANDOM") (L "4294967299"); Get (L "RANDOM"); Get (L "RANDOM")]) = Some (L "19552").
Proof. split; vm_compute; reflexivity. Qed.
Example c72_lineno_example :
  x_get (L "LINENO") (x_state [Tick (100, 0) 7]) = Some (L "7") /\
  x_get (L "LINENO") (x_state [Tick (100, 0) 7; Assign (L "LINENO") (L "50"); Tick (100, 0) 8]) = Some (L "50") /\
  x_get (L "LINENO") (x_state [Tick (100, 0) 7; Assign (L "LINENO") (L "50"); Tick (100, 0) 12]) = Some (L "54").
Proof. repeat split; vm_compute; reflexivity. Qed.
(** C72, finding: a wrong number assigned to LINENO (or HISTSIZE) is refused, yet it stays as the value, and the variable is an ordinary one
    from then on. *)
Theorem c72_wrong_number_refuted : exists st, anyhow x_ev x_dir x_path x_rand x_start st /\
  (exists st', step x_ev x_dir x_path x_rand (Assign (L "LINENO") (L "abc")) x_start = Fail st' /\ anyhow x_ev x_dir x_path x_rand st' st) /\
  lineno st = 30 /\ x_get (L "LINENO") st = Some (L "1").
Proof.
  exists (x_state [Assign (L "LINENO") (L "abc"); Assign (L "LINENO") (L "1"); Tick (100, 0) 30]). sp; [apply x_any; vm_compute; reflexivity| |vm_compute; reflexivity|vm_compute; reflexivity].
  exists (x_state [Assign (L "LINENO") (L "abc")]). split; [vm_compute; reflexivity|]. apply (x_anyhow [Assign (L "LINENO") (L "1"); Tick (100, 0) 30]). vm_compute. reflexivity.
Qed.
Print Assumptions c72_wrong_number_refuted.
(** C72, finding: RANDOM given to a command or made local in a function before it was ever read has no value any more afterwards. *)
Theorem c72_random_local_refuted : exists st, anyhow x_ev x_dir x_path x_rand x_start st /\ length (blocks st) = 1%nat /\ x_get (L "RANDOM") x_start = Some (L "1696") /\ x_get (L "RANDOM") st = None.
Proof.
  exists (x_state [Push; Typeset (L "RANDOM") (Some (L "1")) true; Pop]). sp; [apply x_any; vm_compute; reflexivity|vm_compute; reflexivity|vm_compute; reflexivity|vm_compute; reflexivity].
Qed.
Print Assumptions c72_random_local_refuted.
