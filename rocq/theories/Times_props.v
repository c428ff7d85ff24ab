(** C79: times and time. *)
From Verif Require Import Base Num_model Num_spec Printf_model Times_model Times_spec Times_proof.
From Coq Require Import Lia.
Local Open Scope Z_scope.

(** a time the kernel gives *)
Definition proper (u : Z) (t : timev) : Prop := 0 <= tv_sec t < 2 ^ 60 /\ 0 <= tv_frac t < u.
Definition proper_ru (r : rusage) : Prop := proper 1000000 (ru_utime r) /\ proper 1000000 (ru_stime r).
(** its nanoseconds *)
Definition ns_tv (t : timev) : Z := tv_sec t * 1000000000 + tv_frac t * 1000.
Definition ns_ts (t : timev) : Z := tv_sec t * 1000000000 + tv_frac t.
Lemma ns_units t : ns_tv t = units 1000000 t * 1000.
Proof. unfold ns_tv, units. lia. Qed.
Lemma proper_norm u t : proper u t -> norm u t.
Proof. intros [A B]. split; [lia|auto]. Qed.

(** times prints the four times, each cut to hundredths *)
Theorem c79_times : forall self children, proper_ru self -> proper_ru children ->
  exists t, c_times self children = Ok t /\ times_text (ns_tv (ru_utime self)) (ns_tv (ru_stime self)) (ns_tv (ru_utime children)) (ns_tv (ru_stime children)) t.
Proof.
  intros self children [A B] [C D]. unfold c_times.
  destruct (p_tv_ok false (ru_utime self) 0 [] (L " ") (proper_norm _ _ A)) as (a & -> & PA); [lia|].
  destruct (p_tv_ok false (ru_stime self) 0 [] ["010"%char] (proper_norm _ _ B)) as (b & -> & PB); [lia|].
  destruct (p_tv_ok false (ru_utime children) 0 [] (L " ") (proper_norm _ _ C)) as (c & -> & PC); [lia|].
  destruct (p_tv_ok false (ru_stime children) 0 [] ["010"%char] (proper_norm _ _ D)) as (d & -> & PD); [lia|].
  cbn [seq2]. eexists. split; [reflexivity|]. rewrite !ns_units. cbn [app]. rewrite <- !app_assoc. now constructor.
Qed.
Print Assumptions c79_times.

(** time of a command: the time that passed, the time of the shell for it and that of the last
    job; the clocks do not go backwards *)
Theorem c79_time : forall posix ts0 ts1 ru0 cru0 ru1 j_usr j_sys,
  proper 1000000000 ts0 -> proper 1000000000 ts1 -> proper_ru ru0 -> proper_ru ru1 -> proper 1000000 j_usr -> proper 1000000 j_sys ->
  ns_ts ts0 <= ns_ts ts1 -> ns_tv (ru_utime ru0) <= ns_tv (ru_utime ru1) -> ns_tv (ru_stime ru0) <= ns_tv (ru_stime ru1) ->
  exists t, timex true posix ts0 ts1 ru0 cru0 ru1 j_usr j_sys = Ok t /\
    time_text (Some (ns_ts ts1 - ns_ts ts0)) (ns_tv (ru_utime ru1) - ns_tv (ru_utime ru0) + ns_tv j_usr) (ns_tv (ru_stime ru1) - ns_tv (ru_stime ru0) + ns_tv j_sys) posix t.
Proof.
  intros posix ts0 ts1 ru0 cru0 ru1 ju js T0 T1 [U0 S0] [U1 S1] JU JS M1 M2 M3. unfold timex.
  assert (R : norm 1000000000 (timespecsub ts1 ts0) /\ units 1000000000 (timespecsub ts1 ts0) = ns_ts ts1 - ns_ts ts0).
  { destruct T0 as [T0 F0], T1 as [T1 F1]. destruct (tsub_ok 1000000000 ts1 ts0) as [E F]; [lia|auto|auto|]. unfold timespecsub. split; [|exact E]. apply norm_units; [lia|auto|]. rewrite E. unfold ns_ts, units in *. lia. }
  assert (K : forall a b j, proper 1000000 a -> proper 1000000 b -> proper 1000000 j -> ns_tv a <= ns_tv b ->
     norm 1000000 (timeradd (timersub b a) j) /\ units 1000000 (timeradd (timersub b a) j) * 1000 = ns_tv b - ns_tv a + ns_tv j).
  { intros a b j [A FA] [B FB] [J FJ] M. unfold timeradd, timersub. destruct (tsub_ok 1000000 b a) as [E F]; [lia|auto|auto|]. destruct (tadd_ok 1000000 (tsub 1000000 b a) j) as [E' F']; [lia|auto|auto|].
    split; [|rewrite E', E, !ns_units; lia]. apply norm_units; [lia|auto|]. rewrite E', E. rewrite !ns_units in M. unfold units in *. lia. }
  destruct R as [RN RU]. destruct (K _ _ _ U0 U1 JU M2) as [UN UU]. destruct (K _ _ _ S0 S1 JS M3) as [SN SU].
  set (usr := timeradd (timersub (ru_utime ru1) (ru_utime ru0)) ju) in *. set (sys := timeradd (timersub (ru_stime ru1) (ru_stime ru0)) js) in *.
  destruct posix.
  - destruct (p_ts_ok true (timespecsub ts1 ts0) 5 (L "real ") ["010"%char] RN) as (a & -> & PA); [lia|].
    destruct (p_tv_ok true usr 5 (L "user ") ["010"%char] UN) as (b & -> & PB); [lia|]. destruct (p_tv_ok true sys 5 (L "sys  ") ["010"%char] SN) as (c & -> & PC); [lia|].
    cbn [seq2]. eexists. split; [reflexivity|]. unfold units in *. rewrite RU in PA. rewrite UU in PB. rewrite SU in PC. rewrite <- !app_assoc. now constructor.
  - destruct (p_ts_ok false (timespecsub ts1 ts0) 5 [] (L " real ") RN) as (a & -> & PA); [lia|].
    destruct (p_tv_ok false usr 5 [] (L " user ") UN) as (b & -> & PB); [lia|]. destruct (p_tv_ok false sys 5 [] (L " system" ++ ["010"%char]) SN) as (c & -> & PC); [lia|].
    cbn [seq2]. eexists. split; [reflexivity|]. unfold units in *. rewrite RU in PA. rewrite UU in PB. rewrite SU in PC. change ([] ++ ?x) with x. rewrite <- !app_assoc. now constructor.
Qed.
Print Assumptions c79_time.

(** time without a command: the shell and its children *)
Theorem c79_time_shell : forall posix ts0 ts1 ru0 cru0 ru1 j_usr j_sys, proper_ru ru0 -> proper_ru cru0 ->
  exists t, timex false posix ts0 ts1 ru0 cru0 ru1 j_usr j_sys = Ok t /\
    time_text None (ns_tv (ru_utime ru0) + ns_tv (ru_utime cru0)) (ns_tv (ru_stime ru0) + ns_tv (ru_stime cru0)) posix t.
Proof.
  intros posix ts0 ts1 ru0 cru0 ru1 ju js [U0 S0] [U1 S1]. unfold timex.
  assert (K : forall a b, proper 1000000 a -> proper 1000000 b -> norm 1000000 (timeradd a b) /\ units 1000000 (timeradd a b) * 1000 = ns_tv a + ns_tv b).
  { intros a b [A FA] [B FB]. unfold timeradd. destruct (tadd_ok 1000000 a b) as [E F]; [lia|auto|auto|]. split; [|rewrite E, !ns_units; lia]. apply norm_units; [lia|auto|]. rewrite E. unfold units. lia. }
  destruct (K _ _ U0 U1) as [UN UU]. destruct (K _ _ S0 S1) as [SN SU].
  set (usr := timeradd (ru_utime ru0) (ru_utime cru0)) in *. set (sys := timeradd (ru_stime ru0) (ru_stime cru0)) in *.
  destruct posix.
  - destruct (p_tv_ok true usr 5 (L "user ") ["010"%char] UN) as (b & -> & PB); [lia|]. destruct (p_tv_ok true sys 5 (L "sys  ") ["010"%char] SN) as (c & -> & PC); [lia|].
    cbn [seq2]. eexists. split; [reflexivity|]. unfold units in *. rewrite UU in PB. rewrite SU in PC. change ([] ++ ?x) with x. rewrite <- !app_assoc. now constructor.
  - destruct (p_tv_ok false usr 5 [] (L " user ") UN) as (b & -> & PB); [lia|]. destruct (p_tv_ok false sys 5 [] (L " system" ++ ["010"%char]) SN) as (c & -> & PC); [lia|].
    cbn [seq2]. eexists. split; [reflexivity|]. unfold units in *. rewrite UU in PB. rewrite SU in PC. change ([] ++ ?x) with x. rewrite <- !app_assoc. now constructor.
Qed.
Print Assumptions c79_time_shell.

(** A duration has only one text. *)
Lemma denotes_len_det ds n : denotes 10 ds n -> forall es, denotes 10 es n -> length ds = length es -> ds = es.
Proof.
  assert (DG : forall c d, digit_of c = Some d -> 0 <= d) by (intros c d; unfold digit_of; repeat match goal with |- context [if ?b then _ else _] => destruct b eqn:? end; intros [= <-]; repeat match goal with H : _ && _ = true |- _ => apply andb_prop in H; destruct H end; lia).
  assert (DC : forall c d e, digit_of c = Some d -> digit_of e = Some d -> d < 10 -> c = e).
  { intros c d e A B LT. pose proof (DG _ _ A).
    assert (Q : forall x, digit_of x = Some d -> x = ascii_of_N (Z.to_N (48 + d))).
    { intros x. clear - LT H. assert (K : In d (map Z.of_nat (seq 0 10))) by (apply in_map_iff; exists (Z.to_nat d); rewrite in_seq; lia). cbn in K.
      repeat (destruct K as [<-|K]; [destruct x as [[] [] [] [] [] [] [] []]; vm_compute; intros X; try discriminate X; reflexivity|]). destruct K. }
    rewrite (Q c A), (Q e B). reflexivity. }
  induction 1 as [c d A LT|ds n c d H IH A LT]; intros es E LE.
  - destruct es as [|e [|? ?]]; try discriminate. inversion E as [e' d' B LT' EQ|ds' n' e' d' H' B LT' EQ]; subst.
    + f_equal. eauto.
    + destruct ds'; [inversion H'; subst; destruct ds; discriminate|]. destruct ds'; discriminate.
  - inversion E as [e d' B LT' EQ|es' n' e d' H' B LT' EQ]; subst.
    + rewrite app_length in LE. cbn in LE. destruct ds; [inversion H; subst; match goal with X : _ ++ [_] = [] |- _ => destruct (app_cons_not_nil _ _ _ (eq_sym X)) end|cbn in LE; lia].
    + pose proof (DG _ _ A). pose proof (DG _ _ B). assert (n = n' /\ d = d') as [-> ->] by lia. rewrite !app_length in LE. cbn in LE. rewrite (IH es' H') by lia. f_equal. f_equal. eauto.
Qed.

Ltac sp := repeat match goal with |- _ /\ _ => split end.
Lemma canonical_len ds n : denotes 10 ds n -> (0 <= n) /\ n < 10 ^ Z.of_nat (length ds) /\ (ds <> [] /\ (hd NUL ds <> "0"%char -> 10 ^ (Z.of_nat (length ds) - 1) <= n)).
Proof.
  assert (DO : forall c d, digit_of c = Some d -> 0 <= d /\ (c <> "0"%char -> 1 <= d)).
  { intros c d H. destruct c as [[] [] [] [] [] [] [] []]; vm_compute in H; try discriminate; injection H as <-; (split; [lia|intros N; try lia; exfalso; now apply N]). }
  induction 1 as [c d D R|ds n c d DN (A & B & C & IH) D R].
  - destruct (DO _ _ D) as [D0 D1]. cbn. sp; try lia; try discriminate; intros N; specialize (D1 N); lia.
  - destruct (DO _ _ D) as [D0 _]. rewrite app_length, Nat2Z.inj_add. change (Z.of_nat (length [c])) with 1. rewrite Z.pow_add_r by lia. change (10 ^ 1) with 10.
    sp; [nia|nia|destruct ds; discriminate|]. intros N. assert (N' : hd NUL ds <> "0"%char) by (destruct ds; [congruence|exact N]). specialize (IH N').
    destruct ds as [|x ds]; [congruence|]. replace (Z.of_nat (length (x :: ds)) + 1 - 1) with (Z.of_nat (length (x :: ds)) - 1 + 1) by lia.
    rewrite Z.pow_add_r by (cbn [length]; lia). change (10 ^ 1) with 10. nia.
Qed.
Lemma numeral_det ds es n : numeral_of ds n -> numeral_of es n -> ds = es.
Proof.
  intros [A CA] [B CB]. apply (denotes_len_det ds n A es B). destruct (canonical_len _ _ A) as (P & U & NE & LO). destruct (canonical_len _ _ B) as (_ & U' & NE' & LO').
  assert (K : forall xs ys : cstr, canonical xs -> xs <> [] -> ys <> [] -> (hd NUL xs <> "0"%char -> 10 ^ (Z.of_nat (length xs) - 1) <= n) -> n < 10 ^ Z.of_nat (length ys) -> (length xs <= length ys)%nat).
  { intros xs ys C N1 N2 LX UY. destruct xs as [|c [|d xs]]; [congruence|destruct ys; [congruence|cbn; lia]|]. cbn [canonical] in C. specialize (LX C).
    destruct (Nat.le_gt_cases (length (c :: d :: xs)) (length ys)); auto. exfalso. assert (10 ^ Z.of_nat (length ys) <= 10 ^ (Z.of_nat (length (c :: d :: xs)) - 1)) by (apply Z.pow_le_mono_r; lia). lia. }
  apply Nat.le_antisymm; eapply K; eauto.
Qed.
Lemma two_det ds es n : two_digits ds n -> two_digits es n -> ds = es.
Proof. intros [A LA] [B LB]. apply (denotes_len_det ds n A es B). congruence. Qed.
Theorem c79_prints_unique : forall w ns posix t t', prints w ns posix t -> prints w ns posix t' -> t = t'.
Proof.
  intros w ns posix t t' H H'. inversion H as [m s c dm ds dc Q S C N1 N2 N3|s c ds dc Q C N1 N2]; subst; inversion H' as [m' s' c' dm' ds' dc' Q' S' C' N1' N2' N3'|s' c' ds' dc' Q' C' N1' N2']; subst.
  - rewrite Q in Q'. assert (m = m' /\ s = s' /\ c = c') as (<- & <- & <-) by lia. rewrite (numeral_det _ _ _ N1 N1'), (two_det _ _ _ N2 N2'), (two_det _ _ _ N3 N3'). reflexivity.
  - rewrite Q in Q'. assert (s = s' /\ c = c') as (<- & <-) by lia. rewrite (numeral_det _ _ _ N1 N1'), (two_det _ _ _ N2 N2'). reflexivity.
Qed.
Print Assumptions c79_prints_unique.

(** Examples: 0, 61.239 and 3599.999999 seconds *)
Definition z_ := Tv 0 0.
Example c79_ex : c_times (Ru (Tv 61 239000) z_) (Ru (Tv 3599 999999) (Tv 36000 10000)) = Ok (L "1m01.23s 0m00.00s" ++ [NL] ++ L "59m59.99s 600m00.01s" ++ [NL])
  /\ timex true false (Tv 10 900000000) (Tv 12 100000000) (Ru (Tv 1 0) z_) (Ru z_ z_) (Ru (Tv 1 500000) z_) (Tv 0 600000) (Tv 0 10000) = Ok (L "    0m01.20s real     0m01.10s user     0m00.01s system" ++ [NL])
  /\ timex true true (Tv 10 900000000) (Tv 12 100000000) (Ru (Tv 1 0) z_) (Ru z_ z_) (Ru (Tv 1 500000) z_) (Tv 0 600000) (Tv 0 10000)
     = Ok (L "real     1.20" ++ [NL] ++ L "user     1.10" ++ [NL] ++ L "sys      0.01" ++ [NL]).
Proof. vm_compute. repeat split. Qed.
Example c79_ex_proper : proper_ru (Ru (Tv 3599 999999) (Tv 36000 10000)).
Proof. repeat split; cbn; lia. Qed.
