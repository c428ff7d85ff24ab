(** Keys, commands and sessions of the line editor. *)
From Verif Require Import Base Vi_model Vi_spec Vi_proof Vi_inv.
Local Open Scope Z_scope.

Section P.
Variable k : cfg.
Notation nc := (nocont k).
Notation good := (good k).
Notation Eok := (Eok k).
Notation core := (core k).
Notation ready := (ready k).
Notation cpost := (cpost k).
Hint Resolve c_es c_un c_swapped c_hb c_hl c_ib c_il c_sil c_fi c_yb c_yl c_fcmd c_fch c_lcmd c_lac c_lsrch c_spat
  c_lpat c_sl c_ins c_hn c_ohn c_modi c_cc c_cl c_a1 c_a2 c_xp c_xb c_cb k_es k_un k_hb k_ib k_yb k_lcmd k_cc k_lpat
  c_touch good_nc : core.

Ltac rs := repeat match goal with |- _ /\ _ => split end.
Ltac cc := cbn [holds brk ret].
Ltac brk_ := cc; apply cpost_brk; [auto with core|cbn; congruence].
Lemma command_ok a cmd s : ready s -> 0 <= a -> (a = 0 -> is_zerocount (cmd0 cmd) = true) -> nc cmd ->
  cmd0 cmd <> "R"%char -> cmd0 cmd <> "v"%char -> ~ (len (es s) = 0 /\ cmd0 cmd = "c"%char /\ In (cmd1 cmd) (L "wW")) ->
  holds (command k a cmd None s) cpost.
Proof.
  intros R Ha Haz Hnc HR HV Hcw. pose proof R as (H & Hi & Hp). pose proof (k_es _ _ H) as (D & E & F). unfold command.
  set (c0 := cmd0 cmd) in *.
  destruct (_ || ceq c0 cE); [brk_|].
  destruct (ceq c0 "a").
  { eapply holds_bind with (P := fun i => 0 <= i <= len (es s)).
    - destruct (Z.eqb_spec (len (es s)) 0); [cbn; lia|]. destruct Hp as [Hp|]; [|lia].
      rewrite (fwd_ok k) by (auto; lia). cbn. lia.
    - intros i Hii. cc. apply cpost_brk; [|cbn; discriminate]. apply c_ins. apply c_setcur; auto with core. }
  destruct (ceq c0 "A").
  { unfold upd. rewrite bind_assoc.
    eapply holds_bind; [apply (del_ok k 0 0); cbn; auto; lia|]. cbn beta. intros e' (G1 & G2 & G3). cbn [bind]. cc.
    apply cpost_brk; [|cbn; discriminate]. apply c_ins. apply c_setcur; cbn; cbn in G2, G3; [|lia].
    apply c_es; auto with core. unfold Vi_proof.Eok. split; auto. lia. }
  destruct (ceq c0 "S").
  { eapply holds_bind; [apply (caret_ok k); apply H|]. cbn beta. intros i Hi'.
    eapply holds_bind; [apply (upd_del_ok k i (len (es s)) (setcur i s)); [apply c_setcur; auto; lia|cbn; lia..]|].
    cbn beta. intros s' (A & B & _). brk_. }
  destruct (ceq_spec c0 "Y").
  { apply cmd_cdy_ok; auto.
    - intros Z0. specialize (Haz Z0). rewrite e in Haz. discriminate.
    - intros (_ & X & _). discriminate. }
  destruct (ceq c0 "c" || ceq c0 "d" || ceq c0 "y") eqn:Ec.
  { apply cmd_cdy_ok; auto. intros Z0. specialize (Haz Z0). exfalso.
    apply orb_prop in Ec as [Ec|Ec]; [apply orb_prop in Ec as [Ec|Ec]|]; apply ceq_true in Ec; rewrite Ec in Haz; discriminate. }
  destruct (ceq c0 "p"); [apply cmd_p_ok; auto|].
  destruct (ceq c0 "P"); [apply put_end_ok; auto with core|].
  destruct (ceq c0 "C").
  { eapply holds_bind; [apply (upd_del_ok k); auto with core; cbn; lia|]. cbn beta. intros s' (A & B & _). brk_. }
  destruct (ceq c0 "D").
  { eapply holds_bind; [apply (yank_ok k); auto; lia|]. cbn beta. intros s1 (A1 & B1 & C1).
    eapply holds_bind; [apply (upd_del_ok k); auto; rewrite ?B1; lia|]. cbn beta. intros s' (A & B & _). brk_. }
  destruct (ceq c0 "g"); [apply cmd_G_ok; auto|].
  destruct (ceq c0 "G"); [apply cmd_G_ok; auto|].
  destruct (ceq c0 "i"); [brk_|].
  destruct (ceq c0 "I").
  { eapply holds_bind; [apply (caret_ok k); apply H|]. cbn beta. intros i Hi'. cc. apply cpost_brk; [|cbn; discriminate].
    apply c_ins, c_setcur; auto with core. cbn. lia. }
  destruct (_ || ceq c0 cN).
  { eapply holds_bind; [apply holds_int with (Q := fun _ => True); auto|]. intros n' _. apply cmd_grab_ok; auto. }
  destruct (_ || ceq c0 cP).
  { eapply holds_bind; [apply holds_int with (Q := fun _ => True); auto|]. intros n' _. apply cmd_grab_ok; auto. }
  destruct (ceq c0 "r").
  { apply cmd_r_ok; auto. unfold cmd1. destruct (nth_in_or_default 1 cmd NUL) as [I| ->]; [|apply isu8_plain; reflexivity].
    unfold nocont in Hnc. rewrite Forall_forall in Hnc. auto. }
  destruct (ceq_spec c0 "R"); [contradiction|].
  destruct (ceq c0 "s"); [apply cmd_s_ok; auto|].
  destruct (ceq_spec c0 "v"); [contradiction|].
  destruct (ceq c0 "x"); [apply cmd_x_ok; auto|].
  destruct (ceq c0 "X"); [apply cmd_X_ok; auto|].
  destruct (ceq c0 "u"); [brk_|].
  destruct (ceq c0 "U"); [destruct (modi s); [apply cmd_grab_ok; auto|cc; apply cpost_err; auto]|].
  destruct (_ || ceq c0 "N"); [apply cmd_search_ok; auto|].
  destruct (ceq c0 "_"); [apply cmd_under_ok; auto|].
  destruct (ceq c0 "~"); [apply cmd_tilde_ok; auto|].
  destruct (ceq c0 "#").
  { eapply holds_bind; [apply (comment_ok k); apply H|]. cbn beta. intros [r e'] [(Hr & G1 & G2)|(-> & ->)]; cc.
    - unfold Vi_inv.cpost. destruct Hr as [-> | ->]; cbn [Z.leb Z.compare].
      + left. rs; auto; try lia. apply c_es; auto. unfold Vi_proof.Eok, set_cur; cbn. split; auto. lia. unfold cpos; cbn; lia.
      + right. split; auto. apply base_es_len; auto.
    - cbn [Z.leb Z.compare]. apply cpost_err. split; [apply c_es; auto; apply H|]. split; auto. }
  assert (CW : forall mu, holds (let! s := complete_word true mu None s in brk s) cpost).
  { intros mu. unfold complete_word. cbn [negb]. destruct (xp s); cbn [bind]; brk_. }
  destruct (ceq c0 cI); [destruct (tabc k); [apply CW|cc; apply cpost_err; auto]|].
  destruct (ceq c0 ESC && _); [cc; apply cpost_err; auto|].
  destruct (_ || ceq c0 cF); [apply CW|].
  destruct (_ || ceq c0 cX).
  { unfold expand_word. cbn [negb]. destruct (xp s); cbn [bind]; brk_. }
  brk_.
Qed.

Definition vpost (cmd : cstr) (m : bool) (x : Z * st) : Prop := let (r, s') := x in
  (r = 1 \/ r = 2 /\ cmd0 cmd = "v"%char) /\ base k s' \/ r = -1 /\ ready s' \/
  r = 0 /\ core s' /\ (ins s' = COMMAND -> cpos (es s')) /\
  (ins s' = REPLACE -> cmd0 cmd = "R"%char /\ (m = false -> cur (un s') = cur (es s'))).
Lemma vi_cmd_ok a cmd m s : ready s -> 0 <= a -> cmdbuf k cmd ->
  ~ (len (es s) = 0 /\ cmd0 cmd = "c"%char /\ In (cmd1 cmd) (L "wW")) ->
  holds (vi_cmd k a cmd m None s) (vpost cmd m).
Proof.
  intros R Ha Hcmd Hcw. unfold vi_cmd. set (a' := if _ && _ then 1 else a).
  assert (Ha' : 0 <= a' /\ (a' = 0 -> is_zerocount (cmd0 cmd) = true)).
  { unfold a'. destruct (Z.eqb_spec a 0); destruct (is_zerocount (cmd0 cmd)); cbn; split; auto; lia. }
  clearbody a'. destruct Ha' as [Ha' Haz]. pose proof R as (H & Hi & Hp). pose proof (k_es _ _ H) as (D & E & F).
  destruct (is_move (cmd0 cmd)).
  - eapply holds_bind; [apply domove_ok; auto; apply H|]. cbn beta. intros [r s1] [S1 Hr].
    destruct (same_core k _ _ S1 H) as (H1 & E1 & I1 & _).
    destruct r as [n|]; [|cbn; right; left; split; auto; split; auto; rewrite I1, E1; auto].
    destruct Hr as [Hn _]. rewrite E1.
    eapply holds_bind with (P := fun m => 0 <= m /\ (m < len (es s) \/ m = 0)).
    { destruct (Z.eqb_spec n (len (es s))); destruct (Z.eqb_spec n 0); cbn [andb negb]; try (cbn; lia).
      rewrite (back_ok k) by (auto; lia). cbn. lia. }
    intros n' Hn'. cbn. right. right. split; auto. split; [apply c_setcur; auto; rewrite E1; lia|].
    split; [intros _; unfold cpos, setcur; cbn; rewrite E1; lia|]. intros X. exfalso. cbn in X. congruence.
  - eapply holds_bind with (P := fun s1 => ready s1 /\ es s1 = es s /\
       (is_undoable (cmd0 cmd) = true -> m = false -> cur (un s1) = cur (es s))).
    { destruct (is_undoable (cmd0 cmd)) eqn:Eu; cbn [andb]; [|cbn; split; auto; split; auto; discriminate].
      destruct m; cbn [negb]; [cbn; split; auto; split; auto; discriminate|].
      pose proof (k_un _ _ H) as (D' & E' & F'). pose proof (good_len _ _ D).
      eapply holds_bind; [apply (move_good k); auto with core; lia|]. cbn beta. intros b Hb. cbn.
      split; [|auto]. split; [|split; auto]. apply c_un; [apply c_lac; [apply c_lcmd; [auto|split; [auto|]]|auto]|].
      { intros X. rewrite X in Eu. discriminate. } unfold Vi_proof.Eok; cbn; auto. }
    intros s1 (R1 & E1 & U1). destruct (ceq_spec (cmd0 cmd) "R") as [ER|NR].
    + unfold command. rewrite ER. cbn [ceq Ascii.eqb Bool.eqb orb andb brk bind].
      change (ins (set_ins REPLACE (touch s1))) with REPLACE. cbn [is_ins negb andb holds].
      right. right. split; auto. split; [apply c_ins, c_touch; apply R1|]. split; [cbn; discriminate|].
      intros _. split; auto. intros ->. cbn. rewrite E1. apply U1; auto. rewrite ER. reflexivity.
    + assert (G : holds (command k a' cmd None s1) (fun x => cpost x \/ fst x = Some 2 /\ base k (snd x) /\ cmd0 cmd = "v"%char)).
      { destruct (ceq_spec (cmd0 cmd) "v") as [EV|NV].
        - assert (Q : command k a' cmd None s1 = cmd_v a' s1) by (unfold command; rewrite EV; reflexivity). rewrite Q.
          eapply holds_mono; [apply cmd_v_ok; exact R1|]. cbn beta. intuition.
        - eapply holds_mono; [apply command_ok; auto; [apply Hcmd|rewrite E1; auto]|]. cbn beta. intuition. }
      eapply holds_bind; [exact G|]. cbn beta. intros [[z|] s2] Hz; cbn [fst snd] in Hz.
      * destruct Hz as [[(_ & [-> | ->] & A & B & C)|(-> & B)]|(E2 & B & V)].
        -- cbn. right. right. split; auto. split; auto. split; auto. congruence.
        -- cbn. right. left. split; auto. split; auto.
        -- cbn. left. auto.
        -- injection E2 as ->. cbn. left. auto.
      * destruct Hz as [Hz|[Hz _]]; [|discriminate].
        destruct Hz as [A B]. pose proof (k_es _ _ A) as (G1 & G2 & G3).
        destruct (is_ins (ins s2)) eqn:Ei; cbn [negb andb].
        -- cbn. right. right. split; auto. split; auto. split; [intros X; rewrite X in Ei; discriminate|]. contradiction.
        -- assert (C2 : ins s2 = COMMAND) by (destruct (ins s2); auto; discriminate).
           destruct (Z.leb_spec (len (es s2)) (cur (es s2))).
           ++ rewrite (back0_ok k) by (auto; lia). cbn. right. right. split; auto.
              split; [apply c_setcur; auto; destruct (Z.eqb_spec (cur (es s2)) 0); lia|].
              split; [|cbn; congruence]. intros _. unfold cpos, setcur. cbn. destruct (Z.eqb_spec (cur (es s2)) 0); lia.
           ++ cbn. right. right. split; auto. split; auto. split; [intros _; left; lia|congruence].
Qed.

(** ** The search line *)
Lemma set_sl0 s : sl s = 0 -> set_sl 0 s = s.
Proof. intros E. unfold set_sl. rewrite <- E. destruct s; reflexivity. Qed.
Definition slen (b : cstr) (n : nat) : Z := fold_right (fun c z => char_len k c + z) 0 (firstn n b).
Lemma char_len_b c : 1 <= char_len k c <= 4.
Proof. unfold char_len. destruct (hi8 c && show8 k); destruct (_ || _); lia. Qed.
Lemma slen_b b n : 0 <= slen b n <= 4 * Z.of_nat n.
Proof.
  unfold slen. pose proof (firstn_le_length n b) as L1.
  assert (G : forall l : cstr, 0 <= fold_right (fun c z => char_len k c + z) 0 l <= 4 * Z.of_nat (length l)).
  { induction l; cbn [fold_right length]; [lia|]. pose proof (char_len_b a). lia. }
  specialize (G (firstn n b)). lia.
Qed.
Lemma fold_app l c : fold_right (fun c z => char_len k c + z) 0 (l ++ [c]) = fold_right (fun c z => char_len k c + z) 0 l + char_len k c.
Proof. induction l; cbn; [lia|]. rewrite IHl. lia. Qed.
Lemma firstn_snoc {A} (b : list A) n c : nth_error b n = Some c -> firstn (S n) b = firstn n b ++ [c].
Proof.
  revert b. induction n; intros [|x b] E; cbn in *; try discriminate; [congruence|]. f_equal. apply IHn; auto.
Qed.
Lemma slen_S b n c : nth_error b n = Some c -> slen b (S n) = slen b n + char_len k c.
Proof. intros E. unfold slen. rewrite (firstn_snoc _ _ _ E). apply fold_app. Qed.
Lemma rd_nth b i c : rd b i = Ok c -> 0 <= i /\ nth_error b (Z.to_nat i) = Some c.
Proof. unfold rd. destruct (Z.ltb_spec i 0); [discriminate|]. destruct (nth_error _ _); [|discriminate]. intros E; injection E as ->. auto. Qed.
Lemma slen_rd b i c : rd b i = Ok c -> slen b (Z.to_nat (i + 1)) = slen b (Z.to_nat i) + char_len k c.
Proof. intros E. apply rd_nth in E as [A B]. rewrite <- (slen_S _ _ _ B). f_equal. lia. Qed.
Lemma echo_len c : Z.of_nat (length (echo k c)) = char_len k c.
Proof. unfold echo, char_len. destruct (hi8 c && show8 k); destruct (_ || _); reflexivity. Qed.
Lemma echo_nc c : ccode c < 128 -> nc (echo k c).
Proof.
  intros Hc. unfold echo. replace (hi8 c) with false by (unfold hi8; lia). cbn [andb app].
  destruct (_ || _) eqn:E.
  - constructor; [apply isu8_plain; reflexivity|]. constructor; [|constructor]. apply isu8_plain.
    assert (Q : forall c, implb (ccode c <? 128) (ccode (ascii_of_N (N.lxor (N_of_ascii c) 64)) <? 128) = true)
      by (apply char_sweep; vm_compute; reflexivity).
    specialize (Q c). replace (ccode c <? 128) with true in Q by lia. cbn [implb] in Q. lia.
  - constructor; [apply isu8_plain; auto|constructor].
Qed.
Lemma put_echo_ok t : nc t -> forall e, good (buf e) -> 0 <= len e -> len e + Z.of_nat (length t) <= LINE ->
  holds (put_echo t e) (fun e' => good (buf e') /\ len e' = len e + Z.of_nat (length t)).
Proof.
  induction 1 as [|c t Hc Ht IH]; intros e Hg Hl HL; cbn [put_echo length] in *; [cbn; split; auto; lia|].
  eapply holds_bind; [apply (wr_good k); [exact Hg|lia|exact Hc]|]. cbn beta. intros b Hb.
  eapply holds_mono; [apply IH; cbn; auto; lia|]. cbn. intros e' [A B]. split; auto. lia.
Qed.
Definition slive (s : st) : Prop :=
  core (set_vs VNORMAL (set_sl 0 s)) /\ ins s = COMMAND /\ 0 <= sl s <= SRCHLEN - 1 /\ cur (es s) = len (es s) /\
  len (es s) = 1 + slen (lpat s) (Z.to_nat (sl s)).
Lemma sum_len_ok b : forall f i n, 0 <= n <= i -> i <= Z.of_nat (length b) -> (Z.to_nat i < f)%nat ->
  holds (sum_len k f b i n) (fun d => d = slen b (Z.to_nat i) - slen b (Z.to_nat n)).
Proof.
  induction f; intros i n Hn Hi Hf; [lia|]. cbn [sum_len]. destruct (Z.ltb_spec (i - 1) n).
  - cbn. replace i with n by lia. lia.
  - destruct (rd_ok b (i - 1)) as (c & Ec & _); [lia|]. rewrite Ec. cbn [bind].
    eapply holds_bind; [apply IHf; lia|]. cbn beta. intros t ->. cbn.
    pose proof (slen_rd _ _ _ Ec) as Q. replace (i - 1 + 1) with i in Q by lia. lia.
Qed.
Lemma splice_firstn b i t : (i <= length b)%nat -> firstn i (splice b i t) = firstn i b.
Proof.
  intros. unfold splice. rewrite firstn_app, firstn_firstn, firstn_length, Nat.min_id.
  replace (i - Nat.min i (length b))%nat with O by lia. cbn. apply app_nil_r.
Qed.
Lemma splice_nth b i c : (i < length b)%nat -> nth_error (splice b i [c]) i = Some c.
Proof. intros. unfold splice. rewrite nth_error_app2; rewrite firstn_length; [|lia]. replace (i - Nat.min i (length b))%nat with O by lia. reflexivity. Qed.
Ltac sl_ := unfold slive, to_end; cbn [es sl lpat ins cur len buf set_es set_sl set_cur set_lpat].
Ltac ces s0 := match goal with |- Vi_inv.core _ (set_vs _ (set_sl _ (set_es ?e _))) => apply (c_es k e s0); auto; unfold Vi_proof.Eok; cbn [cur len buf set_cur]; split; auto end.
Lemma search_key_ok c s : slive s -> vs s = VSEARCH -> ccode c < 128 ->
  holds (search_key k c s) (fun '(go, s') =>
    if go : bool then vs s' = VCMD /\ core (set_vs VNORMAL (set_sl 0 s')) /\ ins s' = COMMAND /\ cpos (es s') /\ cc s' = cc s /\ 0 <= sl s'
    else vs s' = VSEARCH /\ cc s' = cc s /\ slive s' \/ ready s').
Proof.
  intros (H & Hi & Hsl & Hcl & Hlen) Hv Hc. unfold search_key.
  pose proof (k_es _ _ H) as (D & E & F). cbn in D, E, F. destruct (k_lpat _ _ H) as [PL PN]. cbn in PL, PN.
  assert (RC : holds (restore_cbuf s) (fun s' => core (set_vs VNORMAL (set_sl 0 s')) /\ cpos (es s') /\ ins s' = ins s /\ sl s' = sl s /\ lpat s' = lpat s /\ spat s' = spat s /\ vs s' = vs s /\ cc s' = cc s)).
  { unfold restore_cbuf. pose proof (k_hl _ _ H) as Hhl. cbn in Hhl. pose proof (k_hb _ _ H) as Hhb. cbn in Hhb. pose proof (good_len _ _ Hhb).
    eapply holds_bind; [apply (move_good k); auto with core; lia|]. cbn beta. intros t Ht. cbn [holds]. split.
    - change (core (set_es (Ed t (hl s) 0) (set_vs VNORMAL (set_sl 0 s)))). apply c_es; auto. unfold Vi_proof.Eok; cbn. split; auto. lia.
    - rs; auto. unfold cpos; cbn. lia. }
  destruct (_ || ceq c NL).
  { eapply holds_bind; [exact RC|]. cbn beta. intros s1 (A1 & A2 & A3 & A4 & A5 & A6 & A7 & A8). rewrite A4.
    destruct (Z.eqb_spec (sl s) 0).
    - destruct (spat s1); cbn [holds].
      + right. split; [|split; cbn; auto; congruence].
        rewrite (set_sl0 s1) in A1 by congruence. auto.
      + cbn. split; auto. split; [exact A1|]. split; [congruence|]. split; auto. split; auto. lia.
    - rewrite A5. eapply holds_bind; [apply (wr_ok k); auto; [rewrite PL; lia|apply isu8_plain; reflexivity]|]. cbn beta. intros t [T1 T2].
      cbn. split; auto. split; [|split; [congruence|split; auto; split; [auto|lia]]].
      apply (c_spat k _ (set_vs VNORMAL (set_sl 0 (set_lpat t s1)))). apply (c_lpat k t (set_vs VNORMAL (set_sl 0 s1))); auto.
      split; [rewrite T1; auto|auto]. }
  destruct (_ || ceq c cH).
  { destruct (Z.eqb_spec (sl s) 0).
    - eapply holds_bind; [exact RC|]. cbn beta. intros s1 (A1 & A2 & A3 & A4 & _). cbn [holds]. right.
      split; [|split; cbn; auto; congruence].
      rewrite (set_sl0 s1) in A1 by congruence. auto.
    - cbn [serase_loop]. destruct (rd_ok (lpat s) (sl s - 1)) as (d & Ed & Id); [lia|].
      assert (Hd : isu8cont k d = false) by (unfold nocont in PN; rewrite Forall_forall in PN; auto).
      rewrite Ed. cbn [bind]. rewrite Hd, andb_false_r. cbn [bind holds]. left. split; [exact Hv|split; [reflexivity|]].
      pose proof (slen_rd _ _ _ Ed) as Q. replace (sl s - 1 + 1) with (sl s) in Q by lia.
      pose proof (slen_b (lpat s) (Z.to_nat (sl s - 1))).
      sl_. split; [|split; auto; split; [lia|split; [reflexivity|lia]]].
      ces (set_vs VNORMAL (set_sl 0 s)).
 pose proof (char_len_b d).
 lia. }
  destruct (is_key (kill k) c).
  { cbn [holds]. left. split; [exact Hv|split; [reflexivity|]]. sl_. split; [|split; auto; split; [unfold SRCHLEN; lia|split; auto]].
    apply (c_es k _ (set_vs VNORMAL (set_sl 0 s))); auto. unfold Vi_proof.Eok, LINE; cbn. split; auto. lia. }
  destruct (is_key (werase k) c).
  { eapply holds_bind; [apply (backword_ok k); auto; lia|]. cbn beta. intros n Hn.
    eapply holds_bind; [apply sum_len_ok; lia|]. cbn beta. intros d ->. cbn [holds]. left. split; [exact Hv|split; [reflexivity|]].
    pose proof (slen_b (lpat s) (Z.to_nat n)). sl_. split; [|split; auto; split; [lia|split; [reflexivity|lia]]].
    ces (set_vs VNORMAL (set_sl 0 s)).
    assert (slen (lpat s) (Z.to_nat n) <= 160) by (unfold SRCHLEN in *; lia). unfold LINE. lia. }
  destruct (Z.eqb_spec (sl s) (SRCHLEN - 1)).
  { cbn [holds]. left. split; [exact Hv|split; [reflexivity|]]. unfold slive. auto. }
  assert (W : wr (lpat s) (sl s) c = Ok (splice (lpat s) (Z.to_nat (sl s)) [c])).
  { unfold wr. replace (_ || _) with false by lia. reflexivity. }
  rewrite W. cbn [bind]. pose proof (slen_b (lpat s) (Z.to_nat (sl s))) as SB. pose proof (char_len_b c). pose proof (echo_len c) as EL.
  assert (LB : len (es s) + char_len k c < LINE) by (unfold SRCHLEN, LINE in *; lia).
  eapply holds_bind; [apply put_echo_ok; [apply echo_nc; auto|auto|lia|lia]|]. cbn beta. intros e' (G1 & G2). cbn [holds]. left. split; [exact Hv|split; [reflexivity|]].
  assert (PB : patbuf k (splice (lpat s) (Z.to_nat (sl s)) [c])).
  { split; [rewrite splice_length; [auto|cbn; lia]|]. apply splice_nocont; auto. constructor; [apply isu8_plain; auto|constructor]. }
  sl_. split; [|split; auto; split; [lia|split; [reflexivity|]]].
  - apply (c_es k _ (set_vs VNORMAL (set_sl 0 (set_lpat (splice (lpat s) (Z.to_nat (sl s)) [c]) s)))).
    + apply (c_lpat k _ (set_vs VNORMAL (set_sl 0 s))); auto.
    + change (Eok (set_cur (len e') e')). unfold Vi_proof.Eok; cbn [cur len buf set_cur]. split; auto. lia.
  - replace (Z.to_nat (sl s + 1)) with (S (Z.to_nat (sl s))) by lia.
    rewrite (slen_S _ _ c) by (apply splice_nth; lia). unfold slen at 1. rewrite splice_firstn by lia. fold (slen (lpat s) (Z.to_nat (sl s))). lia.
Qed.

(** ** Between two keys *)
Definition vready (s : st) : Prop := core (set_vs VNORMAL s) /\ ins s = COMMAND /\ cpos (es s).
Definition is_sq (c : char) : Prop := c = "/"%char \/ c = "?"%char.
Definition live (s : st) : Prop :=
  match vs s with
  | VNORMAL => core s /\ imode s
  | VLIT => core (set_vs VNORMAL s) /\ cur (es s) < len (es s) /\
      match ins s with
      | COMMAND => False
      | INSERT => il s <= len (es s)
      | REPLACE => il s <= cur (es s) + 1 /\ cur (un s) <= cur (es s)
      end
  | VSEARCH => slive s /\ is_sq (cmd0 (cc s))
  | VARG1 => vready s /\ cl s = 0
  | VEXTCMD | VARG2 => vready s /\ cl s = 1 /\ is_extend (cmd0 (cc s)) = true
  | VXCH => vready s /\ (cl s = 1 /\ is_long (cmd0 (cc s)) = true \/
                         cl s = 2 /\ is_extend (cmd0 (cc s)) = true /\ is_long (cmd1 (cc s)) = true)
  | _ => False
  end.
Definition inv (s : st) : Prop := fin s = true /\ base k s \/ live s.
(** Before the second switch of vi_hook. *)
Definition mid (D : Prop) (m : bool) (s : st) : Prop :=
  match vs s with
  | VCMD => core (set_vs VNORMAL (set_sl 0 s)) /\ ins s = COMMAND /\ cpos (es s) /\ (sl s = 0 \/ is_sq (cmd0 (cc s))) /\
      (cmd0 (cc s) = "R"%char -> m = false) /\ ~ (len (es s) = 0 /\ cmd0 (cc s) = "c"%char /\ In (cmd1 (cc s)) (L "wW"))
  | VREDO => D /\ vready s /\ ~ (len (es s) = 0 /\ cmd0 (lcmd s) = "c"%char)
  | VFAIL => vready s
  | _ => live s
  end.
Definition hpost (D : Prop) (m : bool) (x : option Z * st) : Prop := let (r, s') := x in
  match r with
  | Some z => z <> 0 /\ base k s' \/ z = 0 /\ live s'
  | None => mid D m s'
  end.
(** The classes, ASCII. *)
Lemma move_next c : ccode c < 128 -> is_move c = true -> nextstate c = VXCH /\ is_long c = true \/ nextstate c = VCMD.
Proof.
  intros A B.
  assert (Q : forall c, implb ((ccode c <? 128) && is_move c)
    (match nextstate c with VXCH => is_long c | VCMD => true | _ => false end) = true) by (apply char_sweep; vm_compute; reflexivity).
  specialize (Q c). rewrite B in Q. replace (ccode c <? 128) with true in Q by lia. cbn [andb implb] in Q.
  destruct (nextstate c); try discriminate; auto.
Qed.
Lemma next_class c : ccode c < 128 ->
  match nextstate c with
  | VEXTCMD => is_extend c = true
  | VSEARCH => is_sq c
  | VXCH => is_long c = true
  | VREDO => c = "."%char
  | VCMD => c <> "c"%char
  | VFAIL => True
  | _ => False
  end.
Proof.
  intros A.
  assert (Q : forall c, implb (ccode c <? 128) (match nextstate c with
    | VEXTCMD => is_extend c | VSEARCH => ceq c "/" || ceq c "?" | VXCH => is_long c | VREDO => ceq c "." | VCMD => negb (ceq c "c")
    | VFAIL => true | _ => false end) = true) by (apply char_sweep; vm_compute; reflexivity).
  specialize (Q c). replace (ccode c <? 128) with true in Q by lia. cbn [implb] in Q.
  destruct (nextstate c); auto; try discriminate.
  - intros ->. discriminate.
  - apply ceq_true in Q; auto.
  - apply orb_prop in Q as [Q|Q]; apply ceq_true in Q; [left|right]; auto.
Qed.
Lemma c_more a c : 0 <= a -> isdigit c = true -> holds (more a c) (fun n => 0 <= n).
Proof.
  intros Ha Hd. unfold more. assert (48 <= ccode c).
  { assert (Q : forall c, implb (isdigit c) (48 <=? ccode c) = true) by (apply char_sweep; vm_compute; reflexivity).
    specialize (Q c). rewrite Hd in Q. cbn [implb] in Q. lia. }
  eapply holds_bind; [apply holds_int with (Q := fun t => t = a * 10); auto|]. intros t ->.
  eapply holds_bind; [apply holds_int with (Q := fun t => t = a * 10 + ccode c); auto|]. intros t ->. cbn. lia.
Qed.
Lemma push_ok c s : vready s -> 0 <= cl s < 3 -> isu8cont k c = false ->
  holds (push_cmd c s) (fun s' => vready s' /\ vs s' = vs s /\ cl s' = cl s + 1 /\ es s' = es s /\ lcmd s' = lcmd s /\ sl s' = sl s /\
    nth (Z.to_nat (cl s)) (cc s') NUL = c /\ (forall i, i <> Z.to_nat (cl s) -> nth i (cc s') NUL = nth i (cc s) NUL)).
Proof.
  intros (H & Hi & Hp) Hl Hc. unfold push_cmd. destruct (k_cc _ _ H) as [A B]. cbn in A, B.
  unfold wr. replace (_ || _) with false by lia. cbn [bind holds].
  destruct (cc s) as [|x0 [|x1 [|x2 [|]]]] eqn:E; cbn in A; try lia.
  assert (C : cl s = 0 \/ cl s = 1 \/ cl s = 2) by lia.
  inversion B as [|? ? B0 B1]; subst. inversion B1 as [|? ? B2 B3]; subst. inversion B3 as [|? ? B4 B5]; subst.
  rs; auto.
  - unfold vready. rs; auto. apply (c_cc k _ (set_cl (cl s + 1) (set_vs VNORMAL s))); [apply c_cl; auto|]. split.
    + destruct C as [-> |[-> | ->]]; reflexivity.
    + destruct C as [-> |[-> | ->]]; cbn; repeat constructor; auto.
  - destruct C as [-> |[-> | ->]]; reflexivity.
  - intros i Hni. destruct C as [C|[C|C]]; cbn [cc set_cc]; rewrite C in *; destruct i as [|[|[|[|i]]]]; try reflexivity; contradiction Hni; reflexivity.
Qed.
Lemma lit_ok s : okcfg k -> core s -> imode s -> ins s <> COMMAND ->
  holds (vi_insert k "^" None s) (fun '(r, s') => r = -1 /\ core s' /\ imode s' \/
    r = 0 /\ core s' /\ 0 < cur (es s') <= len (es s') /\
    match ins s' with COMMAND => False | INSERT => il s' <= len (es s') | REPLACE => il s' <= cur (es s') /\ cur (un s') < cur (es s') end).
Proof.
  intros (K1 & K2 & K3) H Hm Hi. unfold vi_insert. rewrite K1, K2, K3. cbn [orb].
  replace (ceq "^" cH) with false by reflexivity.
  set (s1 := if fi s && _ then _ else s).
  assert (H1 : core s1 /\ imode s1 /\ ins s1 = ins s /\ es s1 = es s).
  { unfold s1. destruct (_ && _); [split; [apply c_sil; auto; assert (0 < LINE) by reflexivity; lia|]|split; [auto|]]; cbn; auto. }
  clearbody s1. destruct H1 as (A & B & C & D). rewrite <- C in Hi.
  replace (is_nul "^") with false by reflexivity. replace (ceq "^" CR || ceq "^" NL) with false by reflexivity.
  replace (ceq "^" ESC) with false by reflexivity. replace (ceq "^" cX) with false by reflexivity.
  cbn [orb andb].
  match goal with |- holds (if ?b then _ else _) _ => replace b with false end.
  2: { destruct (tabc k); reflexivity. }
  match goal with |- holds (if ?b then _ else _) _ => replace b with false by reflexivity end.
  eapply holds_mono; [apply (ins_char_ok k); auto; apply isu8_plain; reflexivity|]. intros [r s'] Hc.
  destruct Hc as [[-> ->]|(-> & E1 & E2 & E3 & E4 & E5 & E6)]; [left; auto|]. right. split; auto. split; auto.
  pose proof (k_es _ _ A) as (G1 & G2 & G3). pose proof (k_es _ _ E1) as (G1' & G2' & G3').
  unfold imode in B. rewrite E2, E3, E4, E5. split; [lia|]. destruct (ins s1); cbn in E6; [congruence|lia|lia].
Qed.
Lemma core_vs s v : core (set_vs VNORMAL s) -> core (set_vs VNORMAL (set_vs v s)).
Proof. exact (fun H => H). Qed.
Lemma normal_core s : vs s = VNORMAL -> core (set_vs VNORMAL s) -> core s.
Proof. intros E H. destruct H; constructor; cbn in *; auto. Qed.
Lemma core_normal s : core s -> core (set_vs VNORMAL s).
Proof. intros H. destruct H; constructor; cbn in *; auto. Qed.
Lemma core_sl s : core (set_vs VNORMAL s) -> core (set_vs VNORMAL (set_sl 0 s)).
Proof. intros H. destruct H; constructor; cbn in *; auto. Qed.

Lemma save_v s : vready s -> holds (save_cbuf s) (fun s' => vready s' /\ es s' = es s /\ vs s' = vs s /\ cc s' = cc s /\ sl s' = sl s).
Proof.
  intros (H & Hi & Hp). destruct (k_es _ _ H) as (A & B & C). cbn in A, B, C. unfold save_cbuf.
  pose proof (k_hb _ _ H) as Hhb. cbn in Hhb.
  eapply holds_bind; [apply (move_good k); auto; try rewrite (good_len _ _ A); auto with core; lia|]. cbn beta. intros t Ht.
  eapply holds_bind; [apply (wr_good k); [exact Ht|lia|apply isu8_plain; reflexivity]|]. cbn beta. intros t' Ht'.
  cbn [holds]. unfold vready. rs; auto. apply (c_hb k t' (set_hl (len (es s)) (set_vs VNORMAL s))); auto. apply c_hl; auto. lia.
Qed.
Lemma vr_sl s : vready s -> sl s = 0.
Proof. intros (H & _). exact (k_sl _ _ H). Qed.
Lemma vr_vs v s : vready s -> vready (set_vs v s).
Proof. exact (fun H => H). Qed.
Lemma mid_cmd D m s : vready s -> vs s = VCMD -> (cmd0 (cc s) = "R"%char -> m = false) ->
  ~ (len (es s) = 0 /\ cmd0 (cc s) = "c"%char /\ In (cmd1 (cc s)) (L "wW")) -> mid D m s.
Proof.
  intros R E A B. pose proof (vr_sl _ R) as S0. destruct R as (H & Hi & Hp). unfold mid. rewrite E. rs; auto. apply core_sl; auto.
Qed.
Lemma long_not c : is_long c = true -> c <> "c"%char /\ c <> "R"%char /\ ~ In c (L "wW").
Proof. intros H. split; [intros ->; discriminate|]. split; [intros ->; discriminate|]. intros [<-|[<-|[]]]; discriminate. Qed.
Lemma next_ok D c m s : vready s -> cl s = 1 -> cmd0 (cc s) = c -> ccode c < 128 -> is_sq c -> vs s = VSEARCH ->
  holds (let! s := save_cbuf s in
         let! (ok, e) := putbuf [if ceq c "/" then c else "?"%char] 1 false (Ed (buf (es s)) 0 0) in
         if ok then brk (set_es e s) else ret (-1) (set_es e s)) (hpost D m).
Proof.
  intros R Hl Hc0 Hc Hsq Hv. eapply holds_bind; [apply save_v; auto|]. cbn beta. intros s1 (R1 & E1 & V1 & C1 & S1).
  pose proof (vr_sl _ R1) as S0. destruct R1 as (H1 & I1 & P1). pose proof (k_es _ _ H1) as (Dd & E & F). cbn in Dd, E, F.
  eapply holds_bind; [apply (putbuf_ok k); [unfold Vi_proof.Eok; cbn; split; auto; unfold LINE; lia|cbn; lia|]|].
  { constructor; [|constructor]. apply isu8_plain. destruct (ceq c "/"); [auto|reflexivity]. }
  cbn beta. intros [ok e] [Ee He]. destruct ok; cbn [holds brk ret hpost].
  - unfold mid. cbn [vs set_es]. rewrite V1, Hv. unfold live. cbn [vs set_es]. rewrite V1, Hv. cbn [cc set_es]. rewrite C1, Hc0.
    split; auto. unfold slive. cbn [ins sl es set_es lpat]. destruct He as (He1 & He2 & He3). cbn in He1, He2, He3. specialize (He3 eq_refl).
    rs; auto; try lia.
    + apply (c_es k e (set_vs VNORMAL (set_sl 0 s1))); auto. apply core_sl; auto.
    + rewrite S0. unfold SRCHLEN. lia.
    + rewrite S0. cbn. lia.
  - left. split; [lia|]. destruct H1. constructor; cbn in *; auto. destruct (swapped s1); [apply Ee|apply k_un].
Qed.
Lemma dispatch_ok (D : Prop) c m s : vready s -> cl s = 0 -> ccode c < 128 -> ~ (m = true /\ c = "R"%char) ->
  (c = "."%char -> D /\ ~ (len (es s) = 0 /\ cmd0 (lcmd s) = "c"%char)) ->
  holds (push_cmd c s) (fun s' => vready s' /\ cl s' = 1 /\ cmd0 (cc s') = c /\
    (nextstate c <> VSEARCH -> mid D m (set_vs (nextstate c) s')) /\ (nextstate c = VSEARCH -> is_sq c)).
Proof.
  intros R Hl Hc HR Hdot. eapply holds_mono; [apply push_ok; auto; [lia|apply isu8_plain; auto]|]. cbn beta.
  intros s' (R1 & V1 & L1 & E1 & M1 & S1 & N1 & N2). rewrite Hl in *. cbn in N1. assert (C0 : cmd0 (cc s') = c) by exact N1.
  rs; auto; try lia; pose proof (next_class c Hc) as NC.
  - intros Hn. destruct (nextstate c) eqn:En; try contradiction.
    + unfold mid. cbn [vs set_vs]. unfold live. cbn [vs set_vs cl cc]. rewrite C0. rs; auto; try apply R1.
    + unfold mid. cbn [vs set_vs]. unfold live. cbn [vs set_vs cl cc]. rewrite C0. split; [exact R1|]. left. split; auto.
    + exact R1.
    + apply mid_cmd; auto; cbn [cc es set_vs]; rewrite C0.
      * intros ->. destruct m; auto. exfalso; auto.
      * intros (_ & X & _); auto.
    + destruct (Hdot NC) as [X Y]. split; [exact X|]. split; [exact R1|]. cbn [es lcmd set_vs]. rewrite E1, M1. auto.
  - intros Hn. rewrite Hn in NC. auto.
Qed.
Lemma ext_ok D c m s : vready s -> cl s = 1 -> is_extend (cmd0 (cc s)) = true -> ccode c < 128 ->
  ~ (len (es s) = 0 /\ cmd0 (cc s) = "c"%char /\ In c (L "wW")) ->
  holds (let! s := ext_char c s in brk s) (hpost D m).
Proof.
  intros R Hl Hx Hc Hcw. unfold ext_char. rewrite bind_assoc.
  eapply holds_bind; [apply push_ok; auto; [lia|apply isu8_plain; auto]|]. cbn beta.
  intros s' (R1 & V1 & L1 & E1 & M1 & S1 & N1 & N2). rewrite Hl in *. cbn in N1.
  assert (C0 : cmd0 (cc s') = cmd0 (cc s)) by (apply N2; cbn; lia). assert (C1 : cmd1 (cc s') = c) by exact N1.
  cbn [bind holds brk]. unfold hpost.
  assert (K : mid D m (set_vs VCMD s')).
  { apply mid_cmd; auto; cbn [cc es set_vs]; rewrite ?C0, ?C1, ?E1; auto. intros X. rewrite X in Hx. discriminate. }
  destruct (_ && _); [exact K|]. destruct (is_move c) eqn:Em; [|exact R1].
  destruct (move_next c Hc Em) as [[-> Lg]| ->]; [|exact K].
  unfold mid. cbn [vs set_vs]. unfold live. cbn [vs set_vs]. split; [exact R1|]. right. cbn [cl cc set_vs]. rewrite C0, C1. rs; auto.
Qed.
Lemma hook1_ok c m s : okcfg k -> live s -> ccode c < 128 ->
  ~ (vs s = VNORMAL /\ ins s = REPLACE /\ (is_key (kill k) c = true \/ is_key (werase k) c = true)) ->
  ~ (vs s = VARG1 /\ is_srch c = true) -> ~ (vs s = VLIT /\ c = NUL) -> ~ (m = true /\ c = "R"%char) ->
  ~ (len (es s) = 0 /\ (vs s = VEXTCMD \/ vs s = VARG2) /\ cmd0 (cc s) = "c"%char /\ In c (L "wW")) ->
  (c = "."%char -> vs s = VARG1 \/ vs s = VNORMAL /\ ins s = COMMAND -> ~ (len (es s) = 0 /\ cmd0 (lcmd s) = "c"%char)) ->
  holds (hook1 k c None s) (hpost (c = "."%char /\ (vs s = VARG1 \/ vs s = VNORMAL /\ ins s = COMMAND)) m).
Proof.
  intros K Hlv Hc H1 H2 H3 H4 H5 H6. unfold hook1. unfold live in Hlv. set (D := c = "."%char /\ _).
  assert (HD : c = "."%char -> (vs s = VARG1 \/ vs s = VNORMAL /\ ins s = COMMAND) -> D) by (intros; split; auto). clearbody D.
  destruct (vs s) eqn:Ev; try contradiction.
  - destruct Hlv as [H Hm]. destruct (is_ins (ins s)) eqn:Ei.
    + assert (Ni : ins s <> COMMAND) by (intros X; rewrite X in Ei; discriminate).
      destruct (ceq c cV).
      * eapply holds_bind; [apply lit_ok; auto|]. cbn beta. intros [r s'] [(-> & A & B)|(-> & A & B & C)]; cbn [Z.eqb].
        -- cbn [holds brk hpost]. unfold mid. rewrite (k_vs _ _ A). unfold live. rewrite (k_vs _ _ A). auto.
        -- cbn [holds brk hpost]. unfold mid. cbn [vs set_vs]. unfold live. cbn [vs set_vs].
           split; [apply (core_normal (setcur (cur (es s') - 1) s')); apply c_setcur; auto; lia|]. unfold setcur; cbn [es set_vs set_es set_cur cur len ins il un].
           split; [lia|]. destruct (ins s'); [auto|auto|lia].
      * eapply holds_bind; [apply vi_insert_ok; auto|]. cbn beta.
        intros [r s'] (Hr & A & B). destruct Hr as [-> |[-> | ->]]; cbn [Z.eqb Pos.eqb holds brk ret hpost].
        -- unfold mid. rewrite (k_vs _ _ A). unfold live. rewrite (k_vs _ _ A). auto.
        -- unfold mid. rewrite (k_vs _ _ A). unfold live. rewrite (k_vs _ _ A). auto.
        -- left. split; [lia|]. apply core_base; auto.
    + assert (Ci : ins s = COMMAND) by (destruct (ins s); auto; discriminate). unfold imode in Hm. rewrite Ci in Hm.
      destruct (_ || _); [cbn; left; split; [lia|apply core_base; auto]|].
      assert (R0 : vready (set_cl 0 (set_a1 0 s))).
      { unfold vready. rs; auto. apply core_normal. apply c_cl, c_a1; auto. lia. }
      destruct (is19 c) eqn:E9.
      * cbn [holds brk hpost]. unfold mid. cbn [vs set_vs set_a1]. unfold live. cbn [vs set_vs set_a1]. split; [|reflexivity].
        unfold vready. rs; auto. apply (c_a1 k (digit c) (set_vs VNORMAL (set_cl 0 (set_a1 0 s)))); [apply R0|].
        assert (Q : forall c, implb (is19 c) (0 <=? digit c) = true) by (apply char_sweep; vm_compute; reflexivity).
        specialize (Q c). rewrite E9 in Q. cbn [implb] in Q. lia.
      * eapply holds_bind; [apply (dispatch_ok D c m); auto; cbn [es lcmd set_cl set_a1]; auto 7|]. cbn beta. intros s1 (A1 & A2 & A3 & A4 & A5).
        change (vs (set_vs (nextstate c) s1)) with (nextstate c).
        destruct (nextstate c) eqn:En; try (cbn [holds brk hpost]; apply A4; discriminate).
        apply next_ok; auto.
  - destruct Hlv as [(H & Hi & Hp) Hl]. destruct (isdigit c) eqn:Ed.
    + eapply holds_bind; [apply c_more; auto; exact (k_a1 _ _ H)|]. cbn beta. intros n Hn. cbn [holds brk hpost].
      unfold mid. cbn [vs set_a1]. rewrite Ev. unfold live. cbn [vs set_a1]. rewrite Ev. split; [|exact Hl].
      unfold vready. rs; auto. apply (c_a1 k n (set_vs VNORMAL s)); auto.
    + eapply holds_bind; [apply (dispatch_ok D c m); auto; split; auto|]. cbn beta. intros s1 (A1 & A2 & A3 & A4 & A5).
      cbn [holds brk hpost]. apply A4. intros X. apply H2. split; auto. destruct (A5 X) as [-> | ->]; reflexivity.
  - destruct Hlv as [(H & Hi & Hp) [Hl Hx]]. destruct (is19 c) eqn:E9.
    + cbn [holds ret hpost]. right. split; auto. unfold live. cbn [vs set_vs set_a2 cl cc]. rs; auto.
      unfold vready. rs; auto. apply (c_a2 k (digit c) (set_a2 0 (set_vs VNORMAL s))); [apply c_a2; auto; lia|].
      assert (Q : forall c, implb (is19 c) (0 <=? digit c) = true) by (apply char_sweep; vm_compute; reflexivity).
      specialize (Q c). rewrite E9 in Q. cbn [implb] in Q. lia.
    + apply ext_ok; auto. unfold vready. rs; auto. apply (c_a2 k 0 (set_vs VNORMAL s)); auto; lia.
      cbn [es cc set_a2]. intros (X1 & X2 & X3). apply H5; auto.
  - destruct Hlv as [(H & Hi & Hp) [Hl Hx]]. destruct (isdigit c) eqn:Ed.
    + eapply holds_bind; [apply c_more; auto; exact (k_a2 _ _ H)|]. cbn beta. intros n Hn. cbn [holds brk hpost].
      unfold mid. cbn [vs set_a2]. rewrite Ev. unfold live. cbn [vs set_a2]. rewrite Ev. split; [|auto].
      unfold vready. rs; auto. apply (c_a2 k n (set_vs VNORMAL s)); auto.
    + eapply holds_bind with (P := fun n => 0 <= n).
      { pose proof (k_a1 _ _ H) as P1. pose proof (k_a2 _ _ H) as P2. cbn in P1, P2. destruct (a1 s =? 0); [cbn; auto|].
        apply holds_int. apply Z.mul_nonneg_nonneg; auto. }
      intros n Hn. apply ext_ok; auto. unfold vready. rs; auto. apply (c_a1 k n (set_vs VNORMAL s)); auto; lia.
      cbn [es cc set_a1]. intros (X1 & X2 & X3). apply H5; auto.
  - destruct Hlv as [R HL]. destruct (ceq c ESC).
    + cbn [holds brk hpost]. unfold mid. cbn [vs set_vs]. unfold live. cbn [vs set_vs]. destruct R as (A & B & C). split; auto.
      unfold imode. cbn [ins set_vs es]. rewrite B. auto.
    + eapply holds_bind; [apply push_ok; auto; [lia|apply isu8_plain; auto]|]. cbn beta.
      intros s' (R1 & V1 & L1 & E1 & M1 & S1 & N1 & N2). cbn [holds brk hpost].
      apply mid_cmd; auto; cbn [cc es set_vs]; destruct HL as [[HL X]|(HL & X & Y)]; rewrite HL in N1, N2; cbn in N1.
      * assert (C0 : cmd0 (cc s') = cmd0 (cc s)) by (apply N2; cbn; lia). rewrite C0. intros Z1. rewrite Z1 in X. discriminate.
      * assert (C0 : cmd0 (cc s') = cmd0 (cc s)) by (apply N2; cbn; lia). rewrite C0. intros Z1. rewrite Z1 in X. discriminate.
      * assert (C0 : cmd0 (cc s') = cmd0 (cc s)) by (apply N2; cbn; lia). rewrite C0. intros (_ & Z1 & _). rewrite Z1 in X. discriminate.
      * assert (C0 : cmd1 (cc s') = cmd1 (cc s)) by (apply N2; cbn; lia). rewrite C0. intros (_ & _ & Z1). apply long_not in Y. tauto.
  - destruct Hlv as (H & Hcl & Hm). pose proof (k_es _ _ H) as (Dd & E & F). cbn in Dd, E, F.
    replace (is_bad c) with false.
    2: { destruct (is_bad c) eqn:Eb; auto. exfalso. apply H3. split; auto.
         assert (Q : forall c, implb ((ccode c <? 128) && is_bad c) (ceq c NUL) = true) by (apply char_sweep; vm_compute; reflexivity).
         specialize (Q c). rewrite Eb in Q. replace (ccode c <? 128) with true in Q by lia. cbn [andb implb] in Q. apply ceq_true; auto. }
    rewrite bind_assoc. eapply holds_bind; [apply (wr_good k); [exact Dd|lia|apply isu8_plain; auto]|]. cbn beta. intros b Hb.
    cbn [bind holds brk hpost]. unfold mid. cbn [vs set_vs]. unfold live. cbn [vs set_vs]. split.
    + apply (c_es k (Ed b (len (es s)) (cur (es s) + 1)) (set_vs VNORMAL s)); auto. unfold Vi_proof.Eok; cbn. split; auto. lia.
    + unfold imode. cbn [ins set_vs set_es il es len cur un]. destruct (ins s); [contradiction|auto|lia].
  - destruct Hlv as [SL SQ]. eapply holds_bind; [apply search_key_ok; auto|]. cbn beta. intros [go s'] HS. destruct go; cbn [holds brk ret hpost].
    + destruct HS as (A1 & A2 & A3 & A4 & A5 & A6). unfold mid. rewrite A1, A5. rs; auto.
      * intros X. rewrite X in SQ. destruct SQ; discriminate.
      * intros (_ & X & _). rewrite X in SQ. destruct SQ; discriminate.
    + right. split; auto. destruct HS as [(A & B & C)|(A & B & C)].
      * unfold live. rewrite A, B. auto.
      * unfold live. rewrite (k_vs _ _ A). split; auto. unfold imode. rewrite B. auto.
Qed.

Definition kpost (x : Z * st) : Prop := let (r, s') := x in r <> 0 /\ base k s' \/ r = 0 /\ live s'.
Lemma core_live s : core s -> imode s -> live s.
Proof. intros A B. unfold live. rewrite (k_vs _ _ A). auto. Qed.
Lemma vi_cmd_sq a cmd m s : is_sq (cmd0 cmd) -> vi_cmd k a cmd m None s = vi_cmd k a cmd m None (set_sl 0 s).
Proof.
  intros Hq.
  assert (Q : forall a s, command k a cmd None s = cmd_search (cmd0 cmd) s).
  { intros. unfold command. destruct Hq as [-> | ->]; reflexivity. }
  assert (Q' : forall s, cmd_search (cmd0 cmd) s = cmd_search (cmd0 cmd) (set_sl 0 s)).
  { intros s1. unfold cmd_search. destruct Hq as [-> | ->].
    - reflexivity.
    - cbn [ceq Ascii.eqb Bool.eqb orb andb]. change (hn (set_sl 0 s1)) with (hn s1). change (hlast (set_sl 0 s1)) with (hlast s1).
      destruct (hn s1 =? hlast s1); reflexivity. }
  unfold vi_cmd. replace (is_move (cmd0 cmd)) with false by (destruct Hq as [-> | ->]; reflexivity).
  replace (is_undoable (cmd0 cmd)) with true by (destruct Hq as [-> | ->]; reflexivity).
  destruct m; cbn [negb andb bind].
  - rewrite !Q, Q'. reflexivity.
  - change (es (set_sl 0 s)) with (es s). change (un (set_sl 0 s)) with (un s).
    match goal with |- context [move ?a1 ?a2 ?a3 ?a4 ?a5] => generalize (move a1 a2 a3 a4 a5) end.
    intros [b| |]; cbn [bind]; [|reflexivity|reflexivity]. rewrite !Q, Q'. reflexivity.
Qed.
Lemma hook2_ok D m s : mid D m s -> vs s <> VREDO -> holds (hook2 k m None s) kpost.
Proof.
  intros Hm Hn. unfold hook2, mid in *. destruct (vs s) eqn:Ev; try (cbn; right; split; [reflexivity|exact Hm]); try congruence.
  - destruct Hm as (A & B & C). cbn [holds kpost]. right. split; [reflexivity|]. apply core_live; [exact A|]. unfold imode. cbn. rewrite B. auto.
  - destruct Hm as (A & B & C & Dq & E & F).
    assert (G : holds (vi_cmd k (a1 s) (cc s) m None (set_vs VNORMAL s)) (vpost (cc s) m)).
    { assert (R : ready (set_sl 0 (set_vs VNORMAL s))) by (split; [exact A|split; auto]).
      replace (vi_cmd k (a1 s) (cc s) m None (set_vs VNORMAL s)) with (vi_cmd k (a1 s) (cc s) m None (set_sl 0 (set_vs VNORMAL s))).
      - apply vi_cmd_ok; auto; [exact (k_a1 _ _ A)|exact (k_cc _ _ A)].
      - destruct Dq as [Dq|Dq]; [rewrite set_sl0; auto|symmetry; apply vi_cmd_sq; auto]. }
    eapply holds_bind; [exact G|]. intros [r s'] Hr. unfold vpost in Hr. destruct Hr as [[[-> |[-> V]] Hb]|[[-> (R1 & R2 & R3)]|(-> & R1 & R2 & R3)]].
    + cbn. left. split; [lia|auto].
    + cbn. left. split; [lia|auto].
    + cbn [Z.eqb holds kpost]. right. split; [reflexivity|]. apply core_live; auto. unfold imode. rewrite R2. auto.
    + cbn [Z.eqb holds kpost]. right. split; auto. destruct (is_ins (ins s')) eqn:Ei.
      * apply core_live; [apply c_il; auto; assert (0 < LINE) by reflexivity; lia|]. unfold imode. cbn [ins set_il il es un].
        pose proof (k_es _ _ R1) as (G1 & G2 & G3). destruct (ins s'); [discriminate|lia|]. destruct (R3 eq_refl) as [Q1 Q2]. rewrite Q2 by auto. lia.
      * apply core_live; auto. unfold imode. destruct (ins s'); auto; discriminate.
Qed.
Lemma hook2_redo D m s : mid D m s -> vs s = VREDO ->
  holds (hook2 k m None s) (fun '(r, s') => r <> 0 /\ base k s' \/ r = 0 /\ core s' /\ (ins s' = COMMAND -> cpos (es s'))).
Proof.
  intros Hm Hv. unfold hook2, mid in *. rewrite Hv in *. destruct Hm as (_ & (A & B & C) & Dq).
  set (s1 := if a1 (set_vs VNORMAL s) =? 0 then _ else _).
  assert (R : ready s1 /\ lcmd s1 = lcmd s /\ es s1 = es s).
  { unfold s1. destruct (_ =? 0); [split; [split; [exact A|split; auto]|auto]|]. split; [|auto]. split; [|split; auto].
    apply c_lac; auto. exact (k_a1 _ _ A). }
  clearbody s1. destruct R as (R & E1 & E2). pose proof (k_lcmd _ _ (proj1 R)) as [L1 L2].
  eapply holds_bind; [apply vi_cmd_ok; auto; [exact (k_lac _ _ (proj1 R))|rewrite E1, E2; tauto]|].
  intros [r s'] Hr. unfold vpost in Hr. destruct Hr as [[[-> |[-> V]] Hb]|[[-> (R1 & R2 & R3)]|(-> & R1 & R2 & R3)]].
  - cbn. left. split; [lia|auto].
  - contradiction.
  - cbn. right. auto.
  - cbn [Z.eqb]. destruct (is_ins (ins s')) eqn:Ei.
    + eapply holds_bind; [apply redo_ok; auto|]. intros [ok s2] [Q1 Q2]. cbn [holds]. right. split; auto. split; auto.
      destruct ok; [tauto|]. destruct Q2 as (Q2 & _). intros X. rewrite <- Q2, X in Ei. discriminate.
    + cbn. right. auto.
Qed.
Lemma vi_hook_ok c m s : okcfg k -> live s -> ccode c < 128 ->
  ~ (vs s = VNORMAL /\ ins s = REPLACE /\ (is_key (kill k) c = true \/ is_key (werase k) c = true)) ->
  ~ (vs s = VARG1 /\ is_srch c = true) -> ~ (vs s = VLIT /\ c = NUL) -> ~ (m = true /\ c = "R"%char) ->
  ~ (len (es s) = 0 /\ (vs s = VEXTCMD \/ vs s = VARG2) /\ cmd0 (cc s) = "c"%char /\ In c (L "wW")) ->
  (c = "."%char -> vs s = VARG1 \/ vs s = VNORMAL /\ ins s = COMMAND -> ~ (len (es s) = 0 /\ cmd0 (lcmd s) = "c"%char)) ->
  holds (vi_hook k c m None s) (fun '(r, s') => r <> 0 /\ base k s' \/ r = 0 /\ (live s' \/
    core s' /\ (ins s' = COMMAND -> cpos (es s')) /\ c = "."%char /\ (vs s = VARG1 \/ vs s = VNORMAL /\ ins s = COMMAND))).
Proof.
  intros. unfold vi_hook. eapply holds_bind; [apply hook1_ok with (m := m); auto|]. cbn beta. intros [r s1] Hr.
  destruct r as [z|]; [cbn in Hr |- *; tauto|]. cbn [hpost] in Hr. destruct (vs s1) eqn:Ev;
    try (eapply holds_mono; [eapply hook2_ok; [exact Hr|congruence]|]; intros [r s2] Hk; unfold kpost in Hk; tauto).
  eapply holds_mono; [eapply hook2_redo; [exact Hr|auto]|]. intros [r s2] Hk. unfold mid in Hr. rewrite Ev in Hr. tauto.
Qed.
Lemma base_fin s b : base k s -> base k (set_fin b s).
Proof. intros []. constructor; cbn; auto. Qed.
Lemma base_vs s v : base k (set_vs v s) -> base k s.
Proof. intros []. constructor; cbn in *; auto. Qed.
Lemma live_base s : live s -> ~ (fin s = false /\ vs s = VSEARCH /\ sl s <> 0) -> base k s.
Proof.
  intros H Hn. unfold live in H. destruct (vs s) eqn:E; try contradiction.
  - apply core_base, H.
  - exact (base_vs _ _ (core_base _ _ (proj1 (proj1 H)))).
  - exact (base_vs _ _ (core_base _ _ (proj1 (proj1 H)))).
  - exact (base_vs _ _ (core_base _ _ (proj1 (proj1 H)))).
  - exact (base_vs _ _ (core_base _ _ (proj1 (proj1 H)))).
  - exact (base_vs _ _ (core_base _ _ (proj1 H))).
  - destruct H as [(A & _) _]. pose proof (k_fin _ _ A) as F. cbn in F.
    assert (S0 : sl s = 0) by (destruct (Z.eq_dec (sl s) 0); auto; exfalso; auto).
    rewrite (set_sl0 _ S0) in A. exact (base_vs _ _ (core_base _ _ A)).
Qed.
Lemma live_fin s : live s -> fin s = false.
Proof.
  unfold live. destruct (vs s); try contradiction; intros H.
  - apply H.
  - exact (k_fin _ _ (proj1 (proj1 H))).
  - exact (k_fin _ _ (proj1 (proj1 H))).
  - exact (k_fin _ _ (proj1 (proj1 H))).
  - exact (k_fin _ _ (proj1 (proj1 H))).
  - exact (k_fin _ _ (proj1 H)).
  - exact (k_fin _ _ (proj1 (proj1 H))).
Qed.
Lemma live_line s : live s -> in_line (es s).
Proof.
  intros H. assert (E : Eok (es s)).
  { unfold live in H. destruct (vs s); try contradiction.
    - apply H.
    - exact (k_es _ _ (proj1 (proj1 H))).
    - exact (k_es _ _ (proj1 (proj1 H))).
    - exact (k_es _ _ (proj1 (proj1 H))).
    - exact (k_es _ _ (proj1 (proj1 H))).
    - exact (k_es _ _ (proj1 H)).
    - exact (k_es _ _ (proj1 (proj1 H))). }
  destruct E as (A & B & C). unfold in_line. rs; auto; try lia. symmetry. apply (good_len _ _ A).
Qed.
Lemma step_ok v s : okcfg k -> inv s -> allowed k v s -> holds (step k v s) inv.
Proof.
  intros K Hi Ha. destruct v as [c m x|b h n].
  - cbn [step]. destruct Hi as [[Hf Hb]|Hl]; [rewrite Hf; cbn; left; auto|]. rewrite (live_fin _ Hl).
    destruct Ha as (Hc & -> & A1 & A2 & A3 & A4 & A5 & A6).
    assert (G : holds (vi_hook k c m None s) (fun '(r, s') => r <> 0 /\ base k s' \/ r = 0 /\ (live s' \/
      core s' /\ (ins s' = COMMAND -> cpos (es s')) /\ c = "."%char /\ (vs s = VARG1 \/ vs s = VNORMAL /\ ins s = COMMAND)))).
    { apply vi_hook_ok; auto. intros X Y. apply (proj1 (A6 X Y)). }
    assert (ST : step k (Key c m None) s = let! (r, s) := vi_hook k c m None s in Ok (if r =? 0 then s else set_fin true s)).
    { cbn [step]. rewrite (live_fin _ Hl). reflexivity. }
    destruct (vi_hook k c m None s) as [[r s']| |]; cbn in G |- *; auto; [].
    destruct G as [[R B]|[-> [L|(C1 & C2 & C3 & C4)]]].
    + replace (r =? 0) with false by lia. left. split; auto. apply base_fin; auto.
    + right. auto.
    + cbn [Z.eqb]. right. destruct (A6 C3 C4) as [_ D]. specialize (D s' ST). apply core_live; auto. unfold imode. rewrite D. auto.
  - destruct Ha as (B1 & B2 & B3 & B4). cbn [step holds].
    assert (Bs : base k s) by (destruct Hi as [[_ Hb]|Hl]; [auto|apply live_base; auto]).
    right. unfold vi_reset. apply core_live.
    + assert (0 < LINE) by reflexivity. destruct Bs. constructor; cbn; auto; try lia; unfold Vi_proof.Eok; cbn; auto.
      * split; [split; auto|lia].
      * split; [exact b_un|lia].
    + unfold imode. cbn. lia.
Qed.
Lemma st0_inv : inv st0.
Proof.
  left. split; [reflexivity|].
  assert (Z0 : forall n, nc (zeros n)).
  { intros n. unfold zeros. induction (Z.to_nat n); cbn; constructor; auto. apply isu8_plain. reflexivity. }
  assert (L0 : forall n, 0 <= n -> Z.of_nat (length (zeros n)) = n) by (intros; unfold zeros; rewrite repeat_length; lia).
  assert (G0 : good (zeros LINE)) by (split; [apply L0; unfold LINE; lia|apply Z0]).
  assert (C0 : cmdbuf k (zeros 3)) by (split; [apply L0; lia|apply Z0]).
  assert (P0 : patbuf k (zeros SRCHLEN)) by (split; [apply L0; unfold SRCHLEN; lia|apply Z0]).
  assert (0 < LINE) by reflexivity.
  unfold st0. constructor; cbn [swapped un buf es sl hb ib il sil yb yl lcmd cc lpat lac a1 a2 xb cb]; auto; try lia.
  split; [exact C0|]. cbn. discriminate.
Qed.
Lemma run_ok l : forall s, okcfg k -> inv s -> allowed_run k l s -> holds (run k l s) inv.
Proof.
  induction l as [|v l IH]; intros s K Hi Ha; cbn [run]; [exact Hi|]. cbn [allowed_run] in Ha. destruct Ha as [A1 A2].
  pose proof (step_ok v s K Hi A1) as G. destruct (step k v s) as [s'| |]; cbn in G |- *; auto.
Qed.
End P.
