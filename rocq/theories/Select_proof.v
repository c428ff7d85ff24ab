From Verif Require Import Base Num_model Num_spec Num_proof Num_props SimplifyPath_model XString_model Read_model Read_spec Read_proof Read_props
  Columns_model Columns_props Kill_model Kill_spec Kill_proof Kill_props Select_model Select_spec.
From Coq Require Import Permutation.
Local Open Scope Z_scope.
Local Notation NL := Read_spec.NL.

(** ** The choice *)
Lemma strtonum_getn s hi : hi < 2147483647 -> strtonum_1 s hi = match getn s with Some n => if (1 <=? n) && (n <=? hi) then Some n else None | None => None end.
Proof.
  intros H. unfold strtonum_1, getn. destruct (strtol10 s) as [n p].
  destruct s as [|c s]; [destruct (hi <? 1); auto|]. destruct p as [|x p]; [|destruct (hi <? 1); auto].
  unfold INT_MIN, INT_MAX. destruct (Z.ltb_spec hi 1); destruct (Z.leb_spec n (-2147483648)); destruct (Z.leb_spec 2147483647 n); cbn [orb];
    destruct (Z.leb_spec 1 n); destruct (Z.leb_spec n hi); cbn [andb]; auto; lia.
Qed.
Lemma choice ap s : Z.of_nat (length ap) < 2147483647 ->
  exists w, selects ap s w /\
   match strtonum_1 s (Z.of_nat (length ap)) with
   | None => Some []
   | Some i => nth_error ap (Z.to_nat (i - 1)) end = Some w.
Proof.
  intros H. rewrite strtonum_getn by auto. destruct (getn s) as [n|] eqn:G.
  - apply int_text_spec in G. destruct ((1 <=? n) && (n <=? Z.of_nat (length ap))) eqn:B.
    + destruct (nth_error ap (Z.to_nat (n - 1))) as [w|] eqn:E.
      * exists w. split; auto. left. exists (Z.to_nat (n - 1)). split; auto. replace (Z.of_nat (Z.to_nat (n - 1)) + 1) with n by lia. auto.
      * apply nth_error_None in E. lia.
    + exists []. split; auto. right. split; auto. intros i x I E. apply int_text_spec in G. apply int_text_spec in I. rewrite G in I. injection I as ->.
      assert (i < length ap)%nat by (apply nth_error_Some; congruence). lia.
  - exists []. split; auto. right. split; auto. intros i x I. apply int_text_spec in I. congruence.
Qed.
Lemma selects_det ap s w w' : selects ap s w -> selects ap s w' -> w = w'.
Proof.
  intros [(i & I & N)|[A ->]] [(j & J & M)|[B ->]]; auto.
  - apply int_text_spec in I. apply int_text_spec in J. rewrite I in J. injection J as J. assert (i = j) by lia. subst. congruence.
  - exfalso. eapply B; eauto.
  - exfalso. eapply A; eauto.
Qed.

(** ** The lines read *)
Lemma line_det expand esc evs toks e hs rest : line expand esc evs toks e hs rest ->
  forall toks' e' hs' rest', line expand esc evs toks' e' hs' rest' -> toks = toks' /\ e = e' /\ rest = rest'.
Proof.
  induction 1 as [esc x evs toks e hs rest N L IH|rest|esc rest|esc code rest C|evs toks e hs rest E L IH|evs toks e hs rest L IH|c evs toks e hs rest A B L IH|c evs toks e hs rest A B C L IH];
    intros toks' e' hs' rest' H.
  - inversion H; subst; try (destruct N; discriminate); eauto; exfalso; destruct N as [N|N]; try discriminate; injection N; congruence.
  - inversion H; subst; auto; try congruence. match goal with X : noise _ |- _ => destruct X; discriminate end.
  - inversion H; subst; auto; try congruence. match goal with X : noise _ |- _ => destruct X; discriminate end.
  - inversion H; subst; auto; try congruence. match goal with X : noise _ |- _ => destruct X as [X|X]; congruence end.
  - inversion H; subst; auto; try congruence; eauto; [match goal with X : noise _ |- _ => destruct X; discriminate end|exfalso; match goal with X : true = true -> _ <> _ |- _ => exact (X eq_refl eq_refl) end].
  - inversion H; subst; auto; try congruence; eauto; match goal with X : noise _ |- _ => destruct X; discriminate end.
  - inversion H; subst; auto; try congruence.
    + match goal with X : noise _ |- _ => destruct X as [X|X]; congruence end.
    + match goal with X : line _ _ evs _ _ _ _ |- _ => destruct (IH _ _ _ _ X) as (-> & -> & ->) end. auto.
  - inversion H; subst; auto; try congruence.
    + match goal with X : noise _ |- _ => destruct X as [X|X]; congruence end.
    + exfalso. apply C; auto.
    + match goal with X : line _ _ evs _ _ _ _ |- _ => destruct (IH _ _ _ _ X) as (-> & -> & ->) end. auto.
Qed.
Lemma line_shorter expand esc evs toks e hs rest : line expand esc evs toks e hs rest -> (length rest < length evs)%nat.
Proof. induction 1; cbn; lia. Qed.

Section Ask.
Context {St : Type} (x_cols : Z) (ifs : St -> char -> bool) (assign : St -> cstr -> cstr -> option St) (value : St -> cstr -> cstr).
Context (ap : list cstr) (AL : Z.of_nat (length ap) < 2147483647).
Lemma asks_text again st : asks value (pr_menu x_cols ap) again st
  ((if again || match value st (L "REPLY") with [] => true | _ => false end then pr_menu x_cols ap else []) ++ value st (L "PS3")).
Proof.
  unfold asks. destruct again; cbn [orb]; [left; auto|]. destruct (value st (L "REPLY")); [left; auto|right]. sp; auto. discriminate.
Qed.
Lemma asks_det again st t t' : asks value (pr_menu x_cols ap) again st t -> asks value (pr_menu x_cols ap) again st t' -> t = t'.
Proof. intros [[[A|A] ->]|(A & B & ->)] [[[C|C] ->]|(C & D & ->)]; congruence. Qed.
Lemma answer_det st evs e st' rest e2 st2 rest2 : answer ifs assign st evs e st' rest -> answer ifs assign st evs e2 st2 rest2 -> e = e2 /\ st' = st2 /\ rest = rest2.
Proof.
  intros (toks & hs & v & LN & V & ->) (toks2 & hs2 & v2 & LN2 & V2 & ->). destruct (line_det _ _ _ _ _ _ _ LN _ _ _ _ LN2) as (<- & <- & <-).
  pose proof (c42_values_unique _ _ _ _ _ V V2) as E. injection E as ->. auto.
Qed.
Lemma asked_det again st evs t r : asked ifs assign value ap (pr_menu x_cols ap) again st evs t r ->
  forall t2 r2, asked ifs assign value ap (pr_menu x_cols ap) again st evs t2 r2 -> t = t2 /\ r = r2.
Proof.
  assert (W : forall st evs e s rest, answer ifs assign st evs e s rest -> (forall toks e hs rest, ~ line false false evs toks e hs rest) -> False).
  { intros st0 evs0 e s rest (a & b & c & LN & _) N. eapply N; eauto. }
  induction 1 as [again st evs t st' rest w A B C D|again st evs t st' rest t' r A B C D IH|again st evs t e st' rest A B C|again st evs t e rest A B|again st evs t A B];
    intros t2 r2 H; inversion H; subst; try (exfalso; eapply W; eassumption);
    repeat match goal with
    | X : asks _ _ again st t, Y : asks _ _ again st ?t1 |- _ => first [constr_eq t t1; fail 1|pose proof (asks_det _ _ _ _ X Y); subst; clear Y]
    end;
    try (match goal with X : answer _ _ st evs _ _ _, Y : answer _ _ st evs _ _ _ |- _ => 
      lazymatch X with Y => fail | _ => destruct (answer_det _ _ _ _ _ _ _ _ X Y) as (E1 & E2 & E3) end end;
      try discriminate; try congruence; injection E2 as E2; subst).
  all: try congruence; auto.
  - match goal with X : selects _ _ w, Y : selects _ _ ?w2 |- _ => rewrite (selects_det _ _ _ _ X Y) end. auto.
  - match goal with X : asked _ _ _ _ _ true _ _ _ _ |- _ => destruct (IH _ _ X) as [-> ->] end. auto.
Qed.
Lemma ask_ok : forall fuel again evs st, (length evs < fuel)%nat -> exists t r,
  do_selectargs x_cols ifs assign value fuel ap again evs st = Ok (t, r) /\ asked ifs assign value ap (pr_menu x_cols ap) again st evs t r.
Proof.
  induction fuel as [|f IH]; intros again evs st F; [lia|]. cbn [do_selectargs].
  pose proof (asks_text again st) as A. set (t := _ ++ value st (L "PS3")) in *. clearbody t.
  destruct (line_dec false evs false) as [(toks & e & hs & rest & LN)|N].
  - destruct (c42_read (ifs st) false false St assign [L "REPLY"] evs st toks e hs rest LN) as (vals & ok & st' & r & V & AS & -> & R).
    cbn [length] in V. assert (exists v, vals = [v]) as (v & ->) by (inversion V; eauto).
    inversion AS as [|? ? ? ? ? AN|s s1 s2 ok0 nm v0 nms vs AN AS']; subst.
    + destruct R as (rest' & ->). exists t, (ANull st'). split; auto. eapply As_readonly; eauto. exists toks, hs, v. eauto.
    + inversion AS'; subst. cbv iota in R. subst r. assert (ANS : answer ifs assign st evs e (Some st') rest) by (exists toks, hs, v; eauto).
      destruct e as [| |code]; cbn [exit_code].
      * destruct (value st' (L "REPLY")) as [|c s] eqn:VR.
        -- destruct (IH true rest st') as (t' & r & -> & D); [pose proof (line_shorter _ _ _ _ _ _ _ LN); lia|]. do 2 eexists. split; eauto. eapply As_blank; eauto.
        -- destruct (choice ap (c :: s) AL) as (w & SE & E). rewrite <- VR in SE.
           destruct (strtonum_1 (c :: s) (Z.of_nat (length ap))) as [i|]; [rewrite E|injection E as <-]; do 2 eexists; (split; [reflexivity|]); eapply As_word; eauto; congruence.
      * do 2 eexists. split; eauto. eapply As_end; eauto. discriminate.
      * assert (code <> 0)%nat by (clear - LN; remember (Killed code) as e; induction LN; subst; auto; try discriminate; congruence).
        destruct code; [congruence|]. do 2 eexists. split; eauto. eapply As_end; eauto. discriminate.
  - unfold c_read. cbn [vars].
    destruct (field_wait (ifs st) false false false evs false (xback 0 (xinit 128)) (xinit 128)) as (r & -> & [->|(M & _)]); [..|discriminate]; auto.
    + split; unfold X_EXTRA; cbn; auto using Nat.le_0_l.
    + split; unfold X_EXTRA; cbn; auto using Nat.le_0_l.
    + cbn [bind]. do 2 eexists. split; [reflexivity|]. now apply As_wait.
Qed.

(** ** The loop *)
Context (body : St -> list rdev -> bout * St * list rdev) (name : cstr).
Notation sel := (selecting ifs assign value ap (pr_menu x_cols ap) body name).
Notation run := (select_loop x_cols ifs assign value body name ap).
Lemma loop_sound : forall fuel first evs st t r, run fuel first evs st = Ok (t, r) -> sel first st evs t r.
Proof.
  induction fuel as [|f IH]; intros first evs st t r H; [discriminate|]. cbn [select_loop] in H.
  destruct (ask_ok (S (length evs)) first evs st) as (t1 & a & E & A); [lia|]. rewrite E in H. clear E.
  destruct a as [w st1 rest1|st1|st1]; [|injection H as <- <-; eauto using Se_end, Se_wait..].
  destruct (assign st1 name w) as [st2|] eqn:AS; [|injection H as <- <-; eauto using Se_readonly].
  destruct (body st2 rest1) as [[b st3] rest3] eqn:B.
  destruct b; try (injection H as <- <-; eauto using Se_break, Se_unwind).
  all: destruct (run f false rest3 st3) as [[t' r']| |] eqn:R; try discriminate; injection H as <- <-; eapply Se_next; eauto.
Qed.
Lemma loop_complete first st evs t r : sel first st evs t r -> exists fuel, forall more, run (fuel + more)%nat first evs st = Ok (t, r).
Proof.
  assert (K : forall first st evs t a, asked ifs assign value ap (pr_menu x_cols ap) first st evs t a ->
    do_selectargs x_cols ifs assign value (S (length evs)) ap first evs st = Ok (t, a)).
  { intros first0 st0 evs0 t0 a A. destruct (ask_ok (S (length evs0)) first0 evs0 st0) as (t1 & a1 & E & A1); [lia|].
    destruct (asked_det _ _ _ _ _ A _ _ A1) as [-> ->]. auto. }
  induction 1 as [first st evs t st' A|first st evs t st' A|first st evs t w st' rest A B|first st evs t w st1 rest1 st2 st3 rest3 A B C
    |first st evs t w st1 rest1 st2 st3 rest3 A B C|first st evs t w st1 rest1 st2 b st3 rest3 t' r A B C D H IH];
    [exists 1%nat..|destruct IH as (fuel & IH); exists (S fuel)]; intros more; cbn [plus select_loop]; rewrite (K _ _ _ _ _ A); auto; rewrite B; auto; rewrite C; auto.
  rewrite IH. destruct D as [-> | ->]; auto.
Qed.
End Ask.

(** ** The menu *)
Lemma canonical_len ds n : denotes 10 ds n -> (0 <= n) /\ n < 10 ^ Z.of_nat (length ds) /\ (ds <> [] /\ (hd NUL ds <> "0"%char -> 10 ^ (Z.of_nat (length ds) - 1) <= n)).
Proof.
  assert (DO : forall c d, digit_of c = Some d -> 0 <= d /\ (c <> "0"%char -> 1 <= d)).
  { intros c d H. destruct c as [[] [] [] [] [] [] [] []]; vm_compute in H; try discriminate; injection H as <-; (split; [lia|intros N; try lia; exfalso; now apply N]). }
  induction 1 as [c d D R|ds n c d DN (A & B & C & IH) D R].
  - destruct (DO _ _ D) as [D0 D1]. cbn. sp; try lia; try discriminate; intros N; specialize (D1 N); lia.
  - destruct (DO _ _ D) as [D0 _]. rewrite app_length, Nat2Z.inj_add. change (Z.of_nat (length [c])) with 1. rewrite Z.pow_add_r by lia. change (10 ^ 1) with 10.
    sp; [nia|nia|destruct ds; discriminate|]. intros N. assert (N' : hd NUL ds <> "0"%char) by (destruct ds; [congruence|exact N]). specialize (IH N').
    destruct ds as [|x ds]; [congruence|]. replace (Z.of_nat (length (x :: ds)) + 1 - 1) with (Z.of_nat (length (x :: ds)) - 1 + 1) by lia.
    rewrite Z.pow_add_r by (cbn [length]; lia). change (10 ^ 1) with 10. nia.
Qed.
Lemma decimal_len d n : 1 <= n -> decimal d n -> 1 <= Z.of_nat (length d) /\ 10 ^ (Z.of_nat (length d) - 1) <= n < 10 ^ Z.of_nat (length d).
Proof.
  intros P [(_ & DN & C)|(N & _)]; [|lia]. destruct (canonical_len d n DN) as (A & B & NE & D). destruct d as [|c [|x d]]; [congruence| |].
  - cbn in *. lia.
  - cbn [canonical] in C. specialize (D C). cbn [length] in *. lia.
Qed.
Lemma ndigits_ok : forall f i, 1 <= i < 10 ^ Z.of_nat (S f) -> 1 <= ndigits f i /\ 10 ^ (ndigits f i - 1) <= i < 10 ^ ndigits f i.
Proof.
  induction f as [|f IH]; intros i R.
  - cbn in *. lia.
  - cbn [ndigits]. destruct (Z.leb_spec 10 i) as [T|T]; [|cbn; lia].
    assert (D : 1 <= i / 10) by (apply Z.div_le_lower_bound; lia).
    destruct (IH (i / 10)) as (A & B & C).
    { split; auto. apply Z.div_lt_upper_bound; [lia|]. replace (10 * 10 ^ Z.of_nat (S f)) with (10 ^ Z.of_nat (S (S f))); [lia|].
      rewrite (Nat2Z.inj_succ (S f)), Z.pow_succ_r by lia. reflexivity. }
    set (k := ndigits f (i / 10)) in *. pose proof (Z.div_mod i 10 ltac:(lia)). pose proof (Z.mod_pos_bound i 10 ltac:(lia)).
    replace (1 + k - 1) with (k - 1 + 1) by lia. rewrite (Z.add_comm 1 k), !Z.pow_add_r by lia. change (10 ^ 1) with 10. lia.
Qed.
Lemma pow_le_inv a b n m : 1 <= a -> 0 <= b -> 10 ^ (a - 1) <= n -> m < 10 ^ b -> n <= m -> a <= b.
Proof. intros A B H1 H2 H3. destruct (Z_le_gt_dec a b); auto. assert (10 ^ b <= 10 ^ (a - 1)) by (apply Z.pow_le_mono_r; lia). lia. Qed.
Lemma nwidth_ge ap : forall x, In x ap -> Z.of_nat (length x) <= nwidth ap.
Proof.
  unfold nwidth. assert (K : forall l w, w <= fold_left (fun w (s : cstr) => let i := Z.of_nat (length s) in if w <? i then i else w) l w /\
    forall x, In x l -> Z.of_nat (length x) <= fold_left (fun w (s : cstr) => let i := Z.of_nat (length s) in if w <? i then i else w) l w).
  { induction l as [|x l IH]; intros w; cbn [fold_left]; [split; [lia|intros i []]|]. cbv zeta in *. destruct (IH (if w <? Z.of_nat (length x) then Z.of_nat (length x) else w)) as [A B].
    split; [destruct (Z.ltb_spec w (Z.of_nat (length x))); lia|]. intros i [->|I]; auto. destruct (Z.ltb_spec w (Z.of_nat (length i))); lia. }
  intros x. apply K.
Qed.
Lemma nwidth_pos ap : 0 <= nwidth ap.
Proof.
  unfold nwidth. assert (K : forall l w, w <= fold_left (fun w (s : cstr) => let i := Z.of_nat (length s) in if w <? i then i else w) l w).
  { induction l as [|x l IH]; intros w; cbn [fold_left]; [lia|]. cbv zeta in *. etransitivity; [|apply IH]. destruct (Z.ltb_spec w (Z.of_nat (length x))); lia. }
  apply K.
Qed.
Lemma entry_ok ap i : Z.of_nat (length ap) < 2147483647 -> (i < length ap)%nat ->
  let s := select_fmt_entry ap (dwidth ap) (dwidth ap + nwidth ap + 2 + 1) (Z.of_nat i) in
  item_entry ap (Z.to_nat (dwidth ap)) i s /\ Z.of_nat (length s) <= dwidth ap + nwidth ap + 2.
Proof.
  intros AL I s. set (n := Z.of_nat (length ap)) in *. destruct (ndigits_ok 10 n) as (D1 & D2 & D3); [split; [lia|]; change (10 ^ Z.of_nat 11) with 100000000000; lia|].
  assert (DW : ndigits 10 n = dwidth ap) by reflexivity. rewrite DW in D1, D2, D3.
  pose proof (dec_decimal (Z.of_nat i + 1) ltac:(lia)) as DD. destruct (decimal_len _ (Z.of_nat i + 1) ltac:(lia) DD) as (L1 & L2 & L3).
  assert (LE : Z.of_nat (length (dec (Z.of_nat i + 1))) <= dwidth ap) by (eapply (pow_le_inv _ _ (Z.of_nat i + 1) n); lia).
  destruct (nth_error ap i) as [x|] eqn:E; [|apply nth_error_None in E; lia].
  pose proof (nwidth_ge ap x (nth_error_In _ _ E)) as XW.
  assert (TX : s = rpad (dwidth ap) (dec (Z.of_nat i + 1)) ++ L ") " ++ x /\ Z.of_nat (length s) = dwidth ap + 2 + Z.of_nat (length x)).
  { subst s. unfold select_fmt_entry. rewrite Nat2Z.id, (nth_error_nth _ _ _ E).
    assert (LL : length (rpad (dwidth ap) (dec (Z.of_nat i + 1)) ++ L ") " ++ x) = (Z.to_nat (dwidth ap) + 2 + length x)%nat).
    { unfold rpad. rewrite !app_length, repeat_length. change (length (L ") ")) with 2%nat. lia. }
    rewrite firstn_all2 by lia. split; auto. lia. }
  destruct TX as [TX TL]. split; [|lia]. exists (dec (Z.of_nat i + 1)), x, (Z.to_nat (dwidth ap) - length (dec (Z.of_nat i + 1)))%nat.
  sp; auto; [|lia]. rewrite TX. unfold rpad. now rewrite <- app_assoc.
Qed.
Lemma menu_ok x_cols ap : 0 < x_cols -> Z.of_nat (length ap) < 2147483647 -> menu ap (pr_menu x_cols ap).
Proof.
  intros X AL. unfold pr_menu. set (mw := dwidth ap + nwidth ap + 2). set (f := select_fmt_entry ap (dwidth ap) (mw + 1)).
  assert (DP : 1 <= dwidth ap). { unfold dwidth. cbn [ndigits]. destruct (10 <=? _); [|lia]. assert (K : forall g j, 1 <= ndigits g j) by (induction g; intros j; cbn [ndigits]; [lia|]; destruct (10 <=? j); [|lia]; specialize (IHg (j / 10)); lia). pose proof (K 9%nat (Z.of_nat (length ap) / 10)) as K9. cbn [ndigits] in K9. lia. }
  pose proof (nwidth_pos ap) as NP.
  destruct (c48_every_entry_once x_cols (Z.of_nat (length ap)) mw true f) as (items & R & P & S & _); [lia..|].
  exists f, items, (print_columns x_cols (Z.of_nat (length ap)) mw true f), (Z.to_nat (dwidth ap)). sp; auto.
  - intros i I. apply entry_ok; auto.
  - intros NE. assert (0 < length ap)%nat by (destruct ap; [congruence|cbn; lia]). exists (dec (Z.of_nat (length ap))).
    pose proof (dec_decimal (Z.of_nat (length ap)) ltac:(lia)) as DD. split; auto. destruct (decimal_len _ (Z.of_nat (length ap)) ltac:(lia) DD) as (L1 & L2 & L3).
    destruct (ndigits_ok 10 (Z.of_nat (length ap))) as (D1 & D2 & D3); [split; [lia|]; change (10 ^ Z.of_nat 11) with 100000000000; lia|].
    fold (dwidth ap) in *. pose proof (pow_le_inv _ (dwidth ap) _ (Z.of_nat (length ap)) L1 ltac:(lia) L2 D3 ltac:(lia)).
    pose proof (pow_le_inv _ (Z.of_nat (length (dec (Z.of_nat (length ap))))) _ (Z.of_nat (length ap)) D1 ltac:(lia) D2 ltac:(lia) ltac:(lia)). lia.
Qed.
