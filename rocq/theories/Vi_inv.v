(** The invariant of the line editor, and each command. *)
From Verif Require Import Base Vi_model Vi_spec Vi_proof.
From Coq Require Import DecimalString.
Local Open Scope Z_scope.

Section P.
Variable k : cfg.
Notation nc := (nocont k).
Notation good := (good k).
Notation Eok := (Eok k).

Ltac rs := repeat match goal with |- _ /\ _ => split end.
Definition cmdbuf (b : cstr) : Prop := Z.of_nat (length b) = 3 /\ nc b.
Definition lastbuf (b : cstr) : Prop := cmdbuf b /\ cmd0 b <> "v"%char.
Definition patbuf (b : cstr) : Prop := Z.of_nat (length b) = SRCHLEN /\ nc b.
(** What is kept from line to line. *)
Record base (s : st) : Prop := Base {
  b_un : good (if swapped s then buf (es s) else buf (un s)); b_sl : sl s = 0;
  b_hb : good (hb s); b_ib : good (ib s); b_il : 0 <= il s < LINE; b_sil : 0 <= sil s < LINE;
  b_yb : good (yb s); b_yl : 0 <= yl s < LINE; b_lcmd : lastbuf (lcmd s); b_cc : cmdbuf (cc s); b_lpat : patbuf (lpat s);
  b_lac : 0 <= lac s; b_a1 : 0 <= a1 s; b_a2 : 0 <= a2 s; b_xb : xb s = None; b_cb : cb s = None }.
(** What holds between two keys, but for the mode. *)
Record core (s : st) : Prop := Core {
  k_vs : vs s = VNORMAL; k_fin : fin s = false; k_es : Eok (es s); k_un : Eok (un s); k_hl : 0 <= hl s < LINE;
  k_hist : Forall nc (hist s); k_sl : sl s = 0;
  k_hb : good (hb s); k_ib : good (ib s); k_il : 0 <= il s < LINE; k_sil : 0 <= sil s < LINE;
  k_yb : good (yb s); k_yl : 0 <= yl s < LINE; k_lcmd : lastbuf (lcmd s); k_cc : cmdbuf (cc s); k_lpat : patbuf (lpat s);
  k_lac : 0 <= lac s; k_a1 : 0 <= a1 s; k_a2 : 0 <= a2 s; k_xb : xb s = None; k_cb : cb s = None }.
Lemma core_base s : core s -> base s.
Proof. intros []. constructor; auto. destruct (swapped s); [apply k_es0|apply k_un0]. Qed.

Ltac cset := intros; match goal with H : core _ |- _ => destruct H end; constructor; cbn; auto; try lia.
Lemma c_es e s : core s -> Eok e -> core (set_es e s). Proof. cset. Qed.
Lemma c_un e s : core s -> Eok e -> core (set_un e s). Proof. cset. Qed.
Lemma c_swapped v s : core s -> core (set_swapped v s). Proof. cset. Qed.
Lemma c_hb v s : core s -> good v -> core (set_hb v s). Proof. cset. Qed.
Lemma c_hl v s : core s -> 0 <= v < LINE -> core (set_hl v s). Proof. cset. Qed.
Lemma c_ib v s : core s -> good v -> core (set_ib v s). Proof. cset. Qed.
Lemma c_il v s : core s -> 0 <= v < LINE -> core (set_il v s). Proof. cset. Qed.
Lemma c_sil v s : core s -> 0 <= v < LINE -> core (set_sil v s). Proof. cset. Qed.
Lemma c_fi v s : core s -> core (set_fi v s). Proof. cset. Qed.
Lemma c_yb v s : core s -> good v -> core (set_yb v s). Proof. cset. Qed.
Lemma c_yl v s : core s -> 0 <= v < LINE -> core (set_yl v s). Proof. cset. Qed.
Lemma c_fcmd v s : core s -> core (set_fcmd v s). Proof. cset. Qed.
Lemma c_fch v s : core s -> core (set_fch v s). Proof. cset. Qed.
Lemma c_lcmd v s : core s -> lastbuf v -> core (set_lcmd v s). Proof. cset. Qed.
Lemma c_lac v s : core s -> 0 <= v -> core (set_lac v s). Proof. cset. Qed.
Lemma c_lsrch v s : core s -> core (set_lsrch v s). Proof. cset. Qed.
Lemma c_spat v s : core s -> core (set_spat v s). Proof. cset. Qed.
Lemma c_lpat v s : core s -> patbuf v -> core (set_lpat v s). Proof. cset. Qed.
Lemma c_sl s : core s -> core (set_sl 0 s). Proof. cset. Qed.
Lemma c_ins v s : core s -> core (set_ins v s). Proof. cset. Qed.
Lemma c_hn v s : core s -> core (set_hn v s). Proof. cset. Qed.
Lemma c_ohn v s : core s -> core (set_ohn v s). Proof. cset. Qed.
Lemma c_modi v s : core s -> core (set_modi v s). Proof. cset. Qed.
Lemma c_cc v s : core s -> cmdbuf v -> core (set_cc v s). Proof. cset. Qed.
Lemma c_cl v s : core s -> core (set_cl v s). Proof. cset. Qed.
Lemma c_a1 v s : core s -> 0 <= v -> core (set_a1 v s). Proof. cset. Qed.
Lemma c_a2 v s : core s -> 0 <= v -> core (set_a2 v s). Proof. cset. Qed.
Lemma c_xp v s : core s -> core (set_xp v s). Proof. cset. Qed.
Lemma c_xb s : core s -> core (set_xb None s). Proof. cset. Qed.
Lemma c_cb s : core s -> core (set_cb None s). Proof. cset. Qed.
Hint Resolve c_es c_un c_swapped c_hb c_hl c_ib c_il c_sil c_fi c_yb c_yl c_fcmd c_fch c_lcmd c_lac c_lsrch c_spat
  c_lpat c_sl c_ins c_hn c_ohn c_modi c_cc c_cl c_a1 c_a2 c_xp c_xb c_cb k_es k_un k_hb k_ib k_yb k_lcmd k_cc k_lpat : core.
Lemma c_touch s : core s -> core (touch s).
Proof. unfold touch. auto with core. Qed.
Hint Resolve c_touch : core.
Lemma Eok_cur e i : Eok e -> 0 <= i <= len e -> Eok (set_cur i e).
Proof. intros (A & B & C) ?. unfold Vi_proof.Eok, set_cur. cbn. auto. Qed.
Lemma c_setcur i s : core s -> 0 <= i <= len (es s) -> core (setcur i s).
Proof. intros. unfold setcur. auto using Eok_cur with core. Qed.
Lemma Eok_del a b e e' : Eok e -> 0 <= a <= b -> b <= len e -> good (buf e') /\ len e' = len e - (b - a) /\ cur e' = cur e ->
  cur e <= a -> Eok e'.
Proof. intros (A & B & C) ? ? (D & E & F) ?. unfold Vi_proof.Eok. rewrite E, F. split; auto. lia. Qed.
Lemma good_nc b : good b -> nc b.
Proof. intros []; auto. Qed.
Lemma good_len b : good b -> Z.of_nat (length b) = LINE.
Proof. intros []; auto. Qed.
Hint Resolve good_nc : core.

(** ** The pieces *)
Lemma save_ok s : core s -> holds (save_cbuf s) (fun s' => core s' /\ es s' = es s /\ ins s' = ins s /\ hist s' = hist s).
Proof.
  intros H. destruct (k_es s H) as (A & B & C). unfold save_cbuf.
  eapply holds_bind; [apply (move_good k); [apply H|..]; try rewrite (good_len _ A); auto with core; lia|]. cbn beta. intros t Ht.
  eapply holds_bind; [apply (wr_good k); [exact Ht|lia|unfold isu8cont; cbn; destruct (show8 k); reflexivity]|]. cbn beta. intros t' Ht'.
  cbn [holds]. split; [|cbn; auto]. apply c_hb; auto. apply c_hl; auto. lia.
Qed.
Lemma restore_ok s : core s -> holds (restore_cbuf s) (fun s' => core s' /\ cpos (es s') /\ ins s' = ins s /\ hist s' = hist s).
Proof.
  intros H. pose proof (k_hl s H). unfold restore_cbuf. destruct (k_es s H) as (A & B & C).
  eapply holds_bind; [apply (move_good k); auto; try rewrite (good_len _ (k_hb s H)); auto with core; lia|]. cbn beta. intros t Ht.
  cbn [holds]. split; [|cbn; split; auto; unfold cpos; cbn; lia]. apply c_es; auto. unfold Vi_proof.Eok. cbn. split; auto. lia.
Qed.
Lemma load_ok h s : core s -> nc h -> holds (load h s) (fun s' => core s' /\ cpos (es s') /\ ins s' = ins s /\ hist s' = hist s).
Proof.
  intros H Hh. unfold load. set (l := if _ <=? _ then _ else _).
  assert (Hl : 0 <= l < LINE /\ l <= Z.of_nat (length h)).
  { unfold l. assert (0 < LINE) by reflexivity. destruct (Z.leb_spec LINE (Z.of_nat (length h))); lia. }
  clearbody l. destruct (k_es s H) as (A & B & C).
  eapply holds_bind; [apply (move_good k); auto; lia|]. cbn beta. intros t Ht.
  cbn [holds]. split; [|cbn; split; auto; unfold cpos; cbn; lia]. apply c_es; auto. unfold Vi_proof.Eok. cbn. split; auto. lia.
Qed.
Lemma nth_nc n l : Forall nc l -> nc (nth n l []).
Proof.
  intros H. destruct (nth_in_or_default n l []) as [I| ->]; [|constructor].
  rewrite Forall_forall in H. auto.
Qed.
Lemma grabhist_ok save n s : core s -> cpos (es s) ->
  holds (grabhist save n s) (fun '(ok, s') => core s' /\ cpos (es s') /\ ins s' = ins s).
Proof.
  intros H Hp. unfold grabhist. destruct (_ || _); [cbn; auto|]. destruct (_ =? _).
  - eapply holds_bind; [apply restore_ok; auto|]. cbn beta. intros s' (A & B & C & _). cbn. auto with core.
  - eapply holds_bind with (P := fun s' => core s' /\ ins s' = ins s).
    { destruct save; [|cbn; auto]. eapply holds_mono; [apply save_ok; auto|]. cbn beta. intuition. }
    intros s1 (H1 & I1). eapply holds_bind; [apply load_ok; auto; apply nth_nc, H1|]. cbn beta. intros s2 (A & B & C & _).
    cbn. rewrite C. auto with core.
Qed.
Lemma grabsearch_ok save n f p s : core s -> cpos (es s) ->
  holds (grabsearch save n f p s) (fun '(r, s') => core s' /\ cpos (es s') /\ ins s' = ins s).
Proof.
  intros H Hp. unfold grabsearch. destruct (_ || _); [cbn; auto|].
  match goal with |- holds (let (_, _) := ?x in _) _ => destruct x as [anch q] end.
  destruct (findhist _ _ _ _ _).
  - eapply holds_bind with (P := fun s' => core s' /\ ins s' = ins s).
    { destruct save; [|cbn; auto]. eapply holds_mono; [apply save_ok; auto|]. cbn beta. intuition. }
    intros s1 (H1 & I1). eapply holds_bind; [apply load_ok; auto; apply nth_nc, H1|]. cbn beta. intros s2 (A & B & C & _).
    cbn. rewrite C. auto.
  - destruct (_ && _ && _); [|cbn; auto].
    eapply holds_bind; [apply restore_ok; auto|]. cbn beta. intros s' (A & B & C & _). cbn. auto.
Qed.
Lemma yank_ok a b s : core s -> 0 <= a <= b -> b <= len (es s) ->
  holds (yank_range a b s) (fun s' => core s' /\ es s' = es s /\ ins s' = ins s).
Proof.
  intros H Ha Hb. unfold yank_range. destruct (k_es s H) as (A & B & C). pose proof (good_len _ A).
  eapply holds_bind with (P := good).
  - destruct (_ =? 0); [cbn; apply H|]. apply (move_good k); auto with core; lia.
  - intros t Ht. cbn. split; auto. apply c_yb; auto. apply c_yl; auto. lia.
Qed.
Lemma redo_loop_ok n s : core s -> holds (redo_loop n s) (fun '(ok, s') => core s' /\ ins s' = ins s /\ un s' = un s /\ il s' = il s /\
  cur (es s) <= cur (es s') /\ len (es s) <= len (es s')).
Proof.
  revert s. induction n; intros s H; [cbn; rs; auto; lia|]. cbn [redo_loop].
  eapply holds_bind; [apply (putbuf_ok k); [apply H| |]; [pose proof (k_il s H); rewrite (good_len _ (k_ib s H)); lia|auto with core]|].
  cbn beta. intros [ok e] [He Hok]. destruct ok.
  - pose proof (k_il s H). eapply holds_mono; [apply IHn; auto with core|]. cbn. intros [ok' s'] (A & B & C & D & E & F).
    rs; auto; lia.
  - cbn. subst e. split; auto with core. rs; auto; lia.
Qed.
Lemma redo_ok n s : core s -> holds (redo_insert k n s) (fun '(ok, s') => core s' /\
  (if ok : bool then ins s' = COMMAND /\ cpos (es s')
   else ins s' = ins s /\ un s' = un s /\ il s' = il s /\ cur (es s) <= cur (es s') /\ len (es s) <= len (es s'))).
Proof.
  intros H. unfold redo_insert. eapply holds_bind; [apply redo_loop_ok; auto|]. cbn beta. intros [ok s1] (A & B & C & D & E & F).
  destruct ok; [|cbn; rs; auto]. destruct (k_es s1 A) as (G1 & G2 & G3).
  destruct (Z.ltb_spec 0 (cur (es s1))).
  - rewrite back_ok by (auto; lia). cbn [bind holds]. split; [apply c_ins, c_es; auto; apply Eok_cur; auto; lia|].
    cbn. split; auto. unfold cpos; cbn; lia.
  - cbn [bind holds]. split; [apply c_ins, c_es; auto; apply Eok_cur; auto; lia|]. cbn. split; auto. unfold cpos; cbn; lia.
Qed.

(** ** Insert mode *)
Definition imode (s : st) : Prop :=
  match ins s with
  | COMMAND => cpos (es s)
  | INSERT => il s <= len (es s)
  | REPLACE => il s <= cur (es s) /\ cur (un s) <= cur (es s)
  end.
Definition ipost (x : Z * st) : Prop := let (r, s') := x in (r = 0 \/ r = -1 \/ r = 1) /\ core s' /\ imode s'.
Lemma less_il_v d s : 0 <= d -> 0 <= il s -> less_il d s = set_il (Z.max 0 (il s - d)) s.
Proof. intros. unfold less_il. f_equal. destruct (Z.ltb_spec (il s) d); lia. Qed.
Lemma ins_erase_ok s : core s -> imode s -> ins s <> COMMAND -> holds (ins_erase k s) ipost.
Proof.
  intros H Hm Hi. unfold ins_erase. pose proof (k_es s H) as He. destruct He as (A & B & C). pose proof (k_un s H) as (A' & B' & C').
  pose proof (k_il s H). pose proof (good_len _ A). unfold imode in Hm.
  destruct (ins s) eqn:Ei; [congruence| |]; cbn [is_repl is_insm].
  - destruct (Z.eqb_spec (cur (es s)) 0); [cbn; split; [lia|]; split; auto; unfold imode; rewrite Ei; auto|].
    rewrite tback_ok by (auto; lia). cbn [bind].
    eapply holds_bind; [apply (move_good k); auto with core; lia|]. cbn beta. intros t Ht. cbn [andb bind holds].
    rewrite less_il_v by lia. unfold ipost. split; [lia|]. split.
    + apply c_xp, c_es; [apply c_il; auto; lia|]. unfold Vi_proof.Eok; cbn. split; auto. lia.
    + unfold imode. cbn. rewrite Ei. cbn. lia.
  - destruct (Z.eqb_spec (cur (es s)) (cur (un s))); [cbn; split; [lia|]; split; auto; unfold imode; rewrite Ei; auto|].
    rewrite tback_ok by (auto; lia). cbn [bind].
    eapply holds_bind with (P := fun '(b, l) => good b /\ cur (es s) - 1 <= l < LINE).
    { destruct (Z.ltb_spec (cur (es s)) (len (un s))); cbn [andb].
      - eapply holds_bind; [apply (move_good k); auto with core; try rewrite (good_len _ A'); lia|]. intros b Hb. cbn. split; auto. lia.
      - cbn. split; auto. lia. }
    intros [b l] [Hb Hl]. cbn [holds]. rewrite less_il_v by lia. unfold ipost. split; [lia|]. split.
    + apply c_xp, c_es; [apply c_il; auto; lia|]. unfold Vi_proof.Eok; cbn. split; auto. lia.
    + unfold imode. cbn. rewrite Ei. cbn. lia.
Qed.
Lemma ins_kill_ok s : core s -> imode s -> ins s = INSERT -> holds (ins_kill s) ipost.
Proof.
  intros H Hm Hi. unfold ins_kill. pose proof (k_es s H) as He. destruct He as (A & B & C). pose proof (good_len _ A).
  unfold imode in Hm; rewrite Hi in Hm.
  destruct (Z.eqb_spec (cur (es s)) 0); [cbn; split; [lia|]; split; auto with core; unfold imode; cbn; rewrite Hi; auto|].
  eapply holds_bind; [apply (move_good k); auto with core; lia|]. cbn beta. intros t Ht. cbn [holds].
  unfold ipost. split; [lia|]. split.
  - apply c_xp, c_es; [apply c_il; auto; lia|]. unfold Vi_proof.Eok; cbn. split; auto. lia.
  - unfold imode. cbn. rewrite Hi. lia.
Qed.
Lemma ins_werase_ok s : core s -> imode s -> ins s = INSERT -> holds (ins_werase s) ipost.
Proof.
  intros H Hm Hi. unfold ins_werase. pose proof (k_es s H) as He. destruct He as (A & B & C). pose proof (good_len _ A).
  unfold imode in Hm; rewrite Hi in Hm. pose proof (k_il s H).
  destruct (Z.eqb_spec (cur (es s)) 0); [cbn; split; [lia|]; split; auto with core; unfold imode; cbn; rewrite Hi; auto|].
  eapply holds_bind; [apply (backword_ok k); auto with core; lia|]. cbn beta. intros m Hm'.
  eapply holds_bind; [apply (move_good k); auto with core; lia|]. cbn beta. intros t Ht. cbn [holds].
  rewrite less_il_v by lia. unfold ipost. split; [lia|]. split.
  - apply c_xp, c_es; [apply c_il; auto; lia|]. unfold Vi_proof.Eok; cbn. split; auto. lia.
  - unfold imode. cbn. rewrite Hi. lia.
Qed.
(** A character put in. *)
Definition pchar (s : st) (x : Z * st) : Prop := let (r, s') := x in
  r = -1 /\ s' = s \/
  r = 0 /\ core s' /\ ins s' = ins s /\ un s' = un s /\ il s' = il s + 1 /\ cur (es s') = cur (es s) + 1 /\
  (if is_repl (ins s) then len (es s) <= len (es s') else len (es s') = len (es s) + 1).
Lemma ins_char_ok c s : core s -> imode s -> ins s <> COMMAND -> isu8cont k c = false -> holds (ins_char c s) (pchar s).
Proof.
  intros H Hm Hi Hc. unfold ins_char. pose proof (k_es s H) as He. destruct He as (A & B & C). pose proof (good_len _ A).
  pose proof (k_il s H). destruct (Z.leb_spec (LINE - 1) (len (es s))); [cbn; auto|].
  assert (il s + 1 < LINE) by (unfold imode in Hm; destruct (ins s); [congruence|lia|lia]).
  eapply holds_bind; [apply (wr_good k); [apply H|lia|auto]|]. cbn beta. intros t Ht. cbn [ins set_ib set_il].
  eapply holds_bind with (P := good).
  { destruct (is_insm (ins s)); [|cbn; auto]. apply (move_good k); auto with core; lia. }
  intros b Hb. eapply holds_bind; [apply (wr_good k); [exact Hb|lia|auto]|]. cbn beta. intros b' Hb'. cbn [holds].
  unfold pchar. right. split; auto. split.
  - apply c_xp, c_es; [apply c_ib; auto; apply c_il; auto; lia|]. unfold Vi_proof.Eok; cbn. split; auto.
    destruct (ins s); [congruence| |]; cbn [is_insm is_repl andb]; [lia|]. destruct (Z.ltb_spec (len (es s)) (cur (es s) + 1)); lia.
  - cbn. rs; auto. destruct (ins s); [congruence| |]; cbn [is_insm is_repl andb]; [lia|]. destruct (Z.ltb_spec (len (es s)) (cur (es s) + 1)); lia.
Qed.
Lemma pchar_ipost s x : core s -> imode s -> ins s <> COMMAND -> pchar s x -> ipost x.
Proof.
  destruct x as [r s']. cbn. intros Hs Hm Hi [[-> ->]|(-> & A & B & C & D & E & F)].
  - auto.
  - split; auto. split; auto. unfold imode in *. rewrite B, C, D, E. destruct (ins s); cbn in F; [congruence|lia|lia].
Qed.
Lemma code_ok r : holds r (fun '(ok, s') => core s' /\ imode s') -> holds (code_of r) ipost.
Proof. intros. unfold code_of. eapply holds_bind; [exact H|]. cbn beta. intros [[] s'] [A B]; cbn; auto. Qed.
Lemma redo_imode n s : core s -> imode s -> ins s <> COMMAND -> holds (redo_insert k n s) (fun '(ok, s') => core s' /\ imode s').
Proof.
  intros H Hm Hi. eapply holds_mono; [apply redo_ok; auto|]. cbn beta. intros [[] s'] [A B]; split; auto; unfold imode in *.
  - destruct B as [-> B]. auto.
  - destruct B as (-> & -> & -> & B & C). destruct (ins s); [congruence|lia|lia].
Qed.
Lemma redo0_imode s : core s -> holds (redo_insert k 0 s) (fun '(ok, s') => core s' /\ imode s').
Proof.
  intros H. unfold redo_insert. cbn [Z.to_nat redo_loop bind]. destruct (k_es s H) as (G1 & G2 & G3).
  destruct (Z.ltb_spec 0 (cur (es s))).
  - rewrite back_ok by (auto; lia). cbn [bind holds]. split; [apply c_ins, c_es; auto; apply Eok_cur; auto; lia|].
    unfold imode. cbn. unfold cpos; cbn; lia.
  - cbn [bind holds]. split; [apply c_ins, c_es; auto; apply Eok_cur; auto; lia|]. unfold imode. cbn. unfold cpos; cbn; lia.
Qed.
Lemma isu8_plain c : ccode c < 128 -> isu8cont k c = false.
Proof. intros. unfold isu8cont. replace (128 <=? ccode c) with false by lia. rewrite andb_false_r. reflexivity. Qed.
Lemma a_cmdbuf v : cmdbuf v -> cmdbuf ("a"%char :: skipn 1 v).
Proof.
  intros [A B]. destruct v as [|x v]; [cbn in A; lia|]. split; [exact A|]. constructor; [apply isu8_plain; reflexivity|].
  inversion B; auto.
Qed.
Lemma a_lastbuf v : lastbuf v -> lastbuf ("a"%char :: skipn 1 v).
Proof. intros [A _]. split; [apply a_cmdbuf; auto|cbn; discriminate]. Qed.
Lemma ins_esc_ok s : core s -> imode s -> ins s <> COMMAND -> holds (ins_esc k s) ipost.
Proof.
  intros H Hm Hi. unfold ins_esc.
  assert (G : forall s, core s -> imode s -> ins s <> COMMAND ->
    holds (if sc_cmd (cmd0 (lcmd s)) then code_of (redo_insert k 0 s)
           else let! n := int (lac s - 1) in code_of (redo_insert k n s)) ipost).
  { intros s1 A B C. destruct (sc_cmd _); [apply code_ok, redo0_imode; auto|].
    eapply holds_bind; [apply holds_int with (Q := fun _ => True); auto|]. intros n _. apply code_ok, redo_imode; auto. }
  cbn [fi set_xp]. destruct (fi s).
  - cbn [il set_xp set_fi]. destruct (il s =? 0).
    + apply code_ok, redo0_imode. apply c_il; auto with core. apply H.
    + apply G; [apply c_lac; [apply c_lcmd; auto with core; apply a_lastbuf; apply H|lia]|unfold imode in *; cbn in *; exact Hm|exact Hi].
  - apply G; auto with core.
Qed.
Lemma vi_insert_ok c s : core s -> imode s -> ins s <> COMMAND -> ccode c < 128 ->
  ~ (ins s = REPLACE /\ (is_key (kill k) c = true \/ is_key (werase k) c = true)) ->
  holds (vi_insert k c None s) ipost.
Proof.
  intros H Hm Hi Hc Hr. unfold vi_insert.
  destruct (_ || ceq c cH); [apply ins_erase_ok; auto|].
  assert (R : is_key (kill k) c = true \/ is_key (werase k) c = true -> ins s = INSERT).
  { intros. destruct (ins s); [congruence|auto|]. exfalso; apply Hr; auto. }
  destruct (is_key (kill k) c) eqn:Ek; [apply ins_kill_ok; auto|].
  destruct (is_key (werase k) c) eqn:Ew; [apply ins_werase_ok; auto|]. clear R Hr.
  set (s1 := if fi s && _ then _ else s).
  assert (H1 : core s1 /\ imode s1 /\ ins s1 <> COMMAND /\ xb s1 = None /\ cb s1 = None).
  { unfold s1. destruct (_ && _); [split; [apply c_sil; auto; assert (0 < LINE) by reflexivity; lia|]|split; [auto|]]; cbn; destruct H; auto. }
  clearbody s1. destruct H1 as (A & B & C & Xb & Cb).
  destruct (is_nul c); [cbn; auto|]. destruct (_ || ceq c NL); [cbn; auto|].
  destruct (ceq c ESC); [apply ins_esc_ok; auto|].
  destruct (ceq c cX).
  { unfold expand_word. rewrite Xb. cbn [negb]. destruct (xp s1); cbn; auto with core. }
  destruct (ceq c cF || _).
  { unfold complete_word. rewrite Cb. cbn [negb]. destruct (xp s1); cbn; auto with core. }
  destruct (_ || ceq c cR); [cbn; auto|].
  eapply holds_mono; [apply ins_char_ok; auto using isu8_plain|]. intros x. apply pchar_ipost; auto.
Qed.

(** ** Commands *)
Definition cpost (x : option Z * st) : Prop := let (r, s') := x in
  match r with
  | None => core s' /\ ins s' <> REPLACE
  | Some z => z <= 0 /\ (z = 0 \/ z = -1) /\ core s' /\ ins s' = COMMAND /\ cpos (es s') \/ z = 1 /\ base s'
  end.
Definition ready (s : st) : Prop := core s /\ ins s = COMMAND /\ cpos (es s).
Ltac rd_ := unfold ready; rs.
Lemma cpost_brk s : core s -> ins s <> REPLACE -> cpost (None, s).
Proof. cbn; auto. Qed.
Lemma cpost_err s : ready s -> cpost (Some (-1), s).
Proof. intros (A & B & C). cbn. left. rs; auto; lia. Qed.
Lemma ready_touch s : ready s -> ready (touch s).
Proof. intros (A & B & C). rd_; auto with core. Qed.
Lemma nwc m : m = COMMAND -> m <> REPLACE. Proof. congruence. Qed.

Lemma cdy_end_ok c0 c1 c2 s : ready s -> 0 <= c1 <= c2 -> c2 <= len (es s) -> holds (cdy_end c0 c1 c2 s) cpost.
Proof.
  intros (H & Hi & Hp) Hc Hl. unfold cdy_end.
  eapply holds_bind with (P := fun s1 => core s1 /\ es s1 = es s /\ ins s1 = ins s).
  { destruct (_ && _); [apply yank_ok; auto|cbn; auto]. }
  intros s1 (A & B & C).
  eapply holds_bind with (P := fun s2 => core s2 /\ ins s2 = ins s).
  { destruct (ceq c0 "y"); [cbn; auto|]. destruct (k_es s1 A) as (D & E & F).
    eapply holds_bind; [apply (del_ok k c1 c2); auto; rewrite B in *; lia|]. cbn beta. intros e' (G1 & G2 & G3). cbn.
    split; auto. apply c_es; auto. unfold Vi_proof.Eok, set_cur. cbn. split; auto. rewrite B in *. lia. }
  intros s2 (A2 & C2). cbn [holds brk]. apply cpost_brk.
  - destruct (ceq c0 "c"); auto with core.
  - destruct (ceq c0 "c"); cbn; congruence.
Qed.
Lemma trail_ok b : good b -> forall f n lo c, rd b lo = Ok c -> isspace c = false -> 0 <= lo < n -> n <= LINE ->
  (Z.to_nat n < f)%nat -> holds (trail_loop f b n) (fun m => lo < m <= n).
Proof.
  intros Hb. induction f; intros n lo c E Es Hn HL Hf; [lia|]. cbn [trail_loop].
  destruct (rd_good k b (n - 1)) as (d & Ed & _); auto; [lia|]. rewrite Ed. cbn [bind].
  destruct (isspace d) eqn:Esd; [|cbn; lia].
  assert (lo <> n - 1) by (intros ->; congruence).
  eapply holds_mono; [apply (IHf (n - 1) lo c E Es); lia|]. cbn. intros; lia.
Qed.
Lemma same_core s s' : same_but_f s s' -> core s -> core s' /\ es s' = es s /\ ins s' = ins s /\ un s' = un s.
Proof. intros E H. rewrite E. cbn. auto with core. Qed.
Lemma is_move_c : is_move "c" = false. Proof. reflexivity. Qed.
Lemma cmd_cdy_ok a c0 c1 c2 s : ready s -> 0 <= a -> (a = 0 -> is_zerocount c1 = true) ->
  ~ (len (es s) = 0 /\ c0 = "c"%char /\ In c1 (L "wW")) ->
  holds (cmd_cdy k a c0 c1 c2 s) cpost.
Proof.
  intros R Ha Haz Hcw. pose proof R as (H & Hi & Hp). unfold cmd_cdy. destruct (k_es s H) as (A & B & C).
  destruct (ceq c0 c1).
  { eapply holds_bind with (P := fun p => 0 <= p <= len (es s)).
    - destruct (ceq c0 "c"); [|cbn; lia]. eapply holds_mono; [apply (caret_ok k); apply H|]. cbn. intros; lia.
    - intros p Hpp. apply cdy_end_ok; auto; lia. }
  destruct (negb (is_move c1)); [cbn [holds ret]; apply cpost_err; auto|].
  eapply holds_bind; [apply domove_ok; auto; apply H|]. cbn beta. intros [r s1] [S1 Hr].
  destruct (same_core _ _ S1 H) as (H1 & E1 & I1 & _).
  assert (R1 : ready s1) by (split; auto; rewrite I1, E1; auto).
  destruct r as [n|]; [|cbn [holds ret]; apply cpost_err; auto]. rewrite E1. destruct Hr as (Hn & Hw & Hpc).
  eapply holds_bind with (P := fun m => 0 <= m <= len (es s) /\ (c1 = "%"%char -> cur (es s) < len (es s))).
  { destruct (ceq_spec c0 "c"); cbn [andb]; [|cbn; auto].
    destruct (ceq c1 "w" || ceq c1 "W") eqn:Ew; [|cbn; auto].
    assert (W : c1 = "w"%char \/ c1 = "W"%char) by (apply orb_prop in Ew; rewrite !ceq_true in Ew; exact Ew).
    assert (N : cur (es s) < len (es s)).
    { destruct Hp as [|[Z1 Z2]]; auto. exfalso. apply Hcw. rs; auto. cbn. destruct W; auto. }
    destruct (rd_good k (buf (es s)) (cur (es s))) as (d & Ed & _); auto; [lia|]. rewrite Ed. cbn [bind].
    destruct (isspace d) eqn:Esd; [cbn; auto|].
    specialize (Hw W N). eapply holds_mono; [eapply (trail_ok (buf (es s)) A _ n (cur (es s))); eauto; lia|]. cbn. intros. split; auto. lia. }
  intros m [Hm Hm']. destruct (Z.ltb_spec (cur (es s)) m).
  - apply cdy_end_ok; auto; rewrite ?E1; lia.
  - apply cdy_end_ok; auto; rewrite ?E1; destruct (ceq_spec c1 "%"); lia.
Qed.
Lemma put_loop_ok : forall f a s, core s -> (Z.to_nat a < f)%nat ->
  holds (put_loop f a s) (fun '(a', s') => core s' /\ ins s' = ins s).
Proof.
  induction f; intros a s H Hf; [lia|]. cbn [put_loop].
  eapply holds_bind; [apply (putbuf_ok k); [apply H| |]; [pose proof (k_yl s H); rewrite (good_len _ (k_yb s H)); lia|auto with core]|].
  cbn beta. intros [ok e] [He _]. destruct ok; [|cbn; auto with core].
  destruct (Z.ltb_spec 0 (a - 1)); [|cbn; auto with core].
  eapply holds_mono; [apply IHf; auto with core; lia|]. cbn. intros [a' s']; auto.
Qed.
Lemma put_end_ok a s : core s -> ins s = COMMAND -> holds (put_end k a s) cpost.
Proof.
  intros H Hi. unfold put_end. eapply holds_bind; [apply put_loop_ok; auto; lia|]. cbn beta. intros [a' s1] (A & B).
  destruct (k_es s1 A) as (D & E & F). rewrite back0_ok by (auto; lia). cbn [bind].
  assert (R : ready (setcur (if cur (es s1) =? 0 then 0 else cur (es s1) - 1) s1)).
  { destruct (Z.eqb_spec (cur (es s1)) 0); (split; [apply c_setcur; auto; lia|]); (split; [cbn; congruence|]); unfold cpos; cbn; lia. }
  destruct (a' =? 0); cbn [holds brk ret]; [|apply cpost_err; auto]. destruct R as (R1 & R2 & _). apply cpost_brk; auto using nwc.
Qed.
Lemma cmd_p_ok a s : ready s -> holds (cmd_p k a s) cpost.
Proof.
  intros R. pose proof (ready_touch _ R) as (H & Hi & Hp). unfold cmd_p. destruct (k_es _ H) as (D & E & F).
  rewrite fwd0_ok by (auto; lia). cbn [bind]. apply put_end_ok; [|exact Hi]. apply c_setcur; auto.
  destruct (Z.eqb_spec (len (es (touch s))) (cur (es (touch s)))); lia.
Qed.
Lemma cmd_grab_ok n s : ready s -> holds (cmd_grab n s) cpost.
Proof.
  intros (H & Hi & Hp). unfold cmd_grab. eapply holds_bind; [apply grabhist_ok; auto|]. cbn beta. intros [ok s1] (A & B & C).
  destruct ok; cbn [holds brk ret].
  - apply cpost_brk; [auto with core|]. cbn. congruence.
  - apply cpost_err. split; auto. split; congruence || auto.
Qed.
Lemma cmd_G_ok a s : ready s -> holds (cmd_G a s) cpost.
Proof.
  intros R. unfold cmd_G. eapply holds_bind with (P := fun _ => True).
  { destruct (a =? 0); [cbn; auto|]. eapply holds_bind; [apply holds_int with (Q := fun _ => True); auto|]. intros d _. apply holds_int; auto. }
  intros a' _. eapply holds_bind; [apply holds_int with (Q := fun _ => True); auto|]. intros n _. apply cmd_grab_ok; auto.
Qed.
Lemma r_loop_ok b l : good b -> 0 <= l < LINE -> forall f n c a, 0 <= n <= l -> (Z.to_nat (l - n) < f)%nat ->
  holds (r_loop k f b l n c a) (fun '(m, c') => n <= m <= l).
Proof.
  intros Hb Hl. induction f; intros n c a Hn Hf; [lia|]. cbn [r_loop].
  destruct (Z.leb_spec l n); [cbn; lia|]. destruct (rd_good k b n) as (d & E & Ed); auto; [lia|]. rewrite E. cbn [bind]. rewrite Ed.
  destruct (Z.ltb_spec a (c + 1)); [cbn; lia|]. eapply holds_mono; [apply IHf; lia|]. cbn. intros [m c']. lia.
Qed.
Lemma put_n_ok t : nc t -> (1 <= length t)%nat -> forall n e, Eok e -> holds (put_n n t e) Eok.
Proof.
  intros Ht Hl. induction n; intros e He; [cbn; auto|]. cbn [put_n].
  eapply holds_bind; [apply (putbuf_ok k); auto; lia|]. cbn beta. intros [ok e'] [He' _]. auto.
Qed.
Lemma cmd_r_ok a c1 s : ready s -> isu8cont k c1 = false -> holds (cmd_r k a c1 s) cpost.
Proof.
  intros R Hc1. unfold cmd_r. destruct (Z.eqb_spec (len (es s)) 0); [cbn [holds ret]; apply cpost_err; auto|].
  pose proof (ready_touch _ R) as RT. destruct (is_nul c1); [destruct RT as (R1 & R2 & _); cbn [holds brk]; apply cpost_brk; auto using nwc|].
  destruct RT as (H & Hi & Hp). destruct (k_es _ H) as (D & E & F).
  eapply holds_bind; [apply r_loop_ok; auto; lia|]. cbn beta. intros [m c] Hm.
  destruct (c <? a); [cbn [holds ret]; apply cpost_err; split; auto|].
  eapply holds_bind; [apply (del_ok k); auto; lia|]. cbn beta. intros e1 He1.
  eapply holds_bind; [apply put_n_ok with (t := [c1]); [repeat constructor; auto|cbn; lia|]|].
  { eapply (Eok_del (cur (es (touch s))) m); [apply H|..]; try exact He1; lia. }
  cbn beta. intros e2 (G1 & G2 & G3). rewrite back0_ok by (auto; lia). cbn [bind].
  eapply holds_bind; [apply (wr_good k); [exact G1|lia|apply isu8_plain; reflexivity]|]. cbn beta. intros b Hb.
  cbn [holds brk]. apply cpost_brk; [|cbn in *; congruence]. apply c_es; auto. unfold Vi_proof.Eok; cbn. split; auto.
  destruct (Z.eqb_spec (cur e2) 0); lia.
Qed.
Lemma upd_del_ok a b s : core s -> 0 <= a <= b -> b <= len (es s) -> cur (es s) <= a ->
  holds (upd (del_range a b) s) (fun s' => core s' /\ ins s' = ins s /\ len (es s') = len (es s) - (b - a)).
Proof.
  intros H Ha Hb Hc. unfold upd. destruct (k_es s H) as (D & E & F).
  eapply holds_bind; [apply (del_ok k); auto|]. cbn beta. intros e' He'. cbn. split; [|split; [auto|apply He']].
  apply c_es; auto. eapply (Eok_del a b); [apply H|..]; try exact He'; lia.
Qed.
Lemma cmd_s_ok a s : ready s -> holds (cmd_s k a s) cpost.
Proof.
  intros R. unfold cmd_s. destruct (_ =? 0); [cbn [holds ret]; apply cpost_err; auto|].
  destruct (ready_touch _ R) as (H & Hi & Hp). destruct (k_es _ H) as (D & E & F).
  eapply holds_bind; [apply right_ok; auto; lia|]. cbn beta. intros n Hn.
  eapply holds_bind; [apply upd_del_ok; auto; lia|]. cbn beta. intros s' (A & B & C). cbn [holds brk].
  apply cpost_brk; auto with core. cbn. discriminate.
Qed.
Lemma cmd_x_ok a s : ready s -> holds (cmd_x k a s) cpost.
Proof.
  intros R. unfold cmd_x. destruct (_ =? 0); [cbn [holds ret]; apply cpost_err; auto|].
  destruct (ready_touch _ R) as (H & Hi & Hp). destruct (k_es _ H) as (D & E & F).
  eapply holds_bind; [apply right_ok; auto; lia|]. cbn beta. intros n Hn.
  eapply holds_bind; [apply yank_ok; auto; lia|]. cbn beta. intros s1 (A1 & B1 & C1).
  eapply holds_bind; [apply upd_del_ok; auto; rewrite ?B1; lia|]. cbn beta. intros s' (A & B & C). cbn [holds brk].
  apply cpost_brk; auto. congruence.
Qed.
Lemma cmd_X_ok a s : ready s -> holds (cmd_X k a s) cpost.
Proof.
  intros R. unfold cmd_X. destruct (_ =? 0); [cbn [holds ret]; apply cpost_err; auto|].
  destruct (ready_touch _ R) as (H & Hi & Hp). destruct (k_es _ H) as (D & E & F).
  eapply holds_bind; [apply left_ok; auto; lia|]. cbn beta. intros n Hn.
  eapply holds_bind; [apply yank_ok; auto; lia|]. cbn beta. intros s1 (A1 & B1 & C1).
  unfold upd. rewrite B1. rewrite bind_assoc.
  eapply holds_bind; [apply (del_ok k n (cur (es (touch s)))); auto; lia|]. cbn beta. intros e' (G1 & G2 & G3). cbn [bind holds brk].
  apply cpost_brk; [|cbn; congruence]. change (setcur n (set_es e' s1)) with (set_es (set_cur n e') s1). apply c_es; auto.
  unfold Vi_proof.Eok, set_cur. cbn. split; auto. lia.
Qed.
Lemma base_es_len s e : core s -> good (buf e) -> base (set_es e s).
Proof. intros [] G. constructor; cbn; auto. destruct (swapped s); auto. apply k_un0. Qed.
Lemma cmd_v_ok a s : ready s -> holds (cmd_v a s) (fun x => cpost x \/ fst x = Some 2 /\ base (snd x)).
Proof.
  intros R. unfold cmd_v. destruct (_ && _); [cbn [holds ret]; left; apply cpost_err; auto|].
  destruct R as (H & Hi & Hp).
  eapply holds_bind with (P := fun '(n, s1) => core s1).
  { destruct (a =? 0); [|cbn; auto]. destruct (modi s).
    - destruct (k_es _ H) as (D & E & F). eapply holds_bind; [apply (wr_good k); [exact D|lia|apply isu8_plain; reflexivity]|].
      cbn beta. intros b Hb. cbn. apply c_es; auto. unfold Vi_proof.Eok; cbn; auto.
    - eapply holds_bind; [apply holds_int with (Q := fun _ => True); auto|]. intros; cbn; auto. }
  intros [n s1] H1.
  match goal with |- context [firstn ?m ?t] => set (u := firstn m t) end.
  assert (Hu : Z.of_nat (length u) < LINE). { unfold u. rewrite firstn_length. assert (0 < LINE) by reflexivity. lia. }
  assert (Nu : nc u).
  { unfold u. apply Forall_firstn. apply Forall_app. split.
    - apply Forall_forall. intros c Hc. apply isu8_plain. cbn in Hc. repeat (destruct Hc as [<-|Hc]; [reflexivity|]). contradiction.
    - destruct (n =? 0); [constructor|]. constructor; [apply isu8_plain; reflexivity|].
      assert (Q : forall d, nc (L (NilEmpty.string_of_uint d))).
      { induction d; cbn; try (constructor; [apply isu8_plain; reflexivity|exact IHd]). constructor. }
      assert (Q' : forall d, nc (L (NilZero.string_of_uint d))).
      { destruct d; try apply Q. cbn. constructor; [apply isu8_plain; reflexivity|constructor]. }
      destruct (Z.to_int n); cbn; [apply Q'|]. constructor; [apply isu8_plain; reflexivity|apply Q']. }
  clearbody u. destruct (k_es _ H1) as (D & E & F).
  eapply holds_bind; [apply (move_good k); auto; try lia|].
  - rewrite app_length. cbn. lia.
  - apply Forall_app. split; auto. constructor; [apply isu8_plain; reflexivity|constructor].
  - cbn beta. intros b Hb. cbn [holds ret]. unfold cpost. right. split; auto. apply base_es_len; auto.
Qed.
Lemma cmd_search_ok c0 s : ready s -> holds (cmd_search c0 s) cpost.
Proof.
  intros R. unfold cmd_search.
  set (s1 := if ceq c0 "?" && _ then _ else s). assert (R1 : ready s1).
  { unfold s1. destruct R as (A & B & C). destruct (_ && _); rd_; auto with core. }
  clearbody s1. clear R. set (c3 := ceq c0 "?" || _). clearbody c3.
  set (s2 := if c3 then _ else s1). assert (R2 : ready s2).
  { unfold s2. destruct R1 as (A & B & C). destruct c3; rd_; auto with core. }
  clearbody s2. clear R1. destruct (ceq (lsrch s2) " "); [cbn [holds ret]; apply cpost_err; auto|].
  destruct R2 as (A & B & C).
  eapply holds_bind; [apply grabsearch_ok; auto|]. cbn beta. intros [r s3] (A3 & B3 & C3).
  destruct r as [h|]; [cbn [holds brk]; apply cpost_brk; [auto with core|cbn; congruence]|].
  eapply holds_bind with (P := fun s4 => ready s4).
  { destruct c3; [|cbn; split; auto; split; congruence || auto].
    eapply holds_mono; [apply restore_ok; auto|]. cbn beta. intros s4 (A4 & B4 & C4 & _). split; auto. split; congruence || auto. }
  intros s4 R4. cbn [holds ret]. apply cpost_err; auto.
Qed.
Lemma take_len p t : (length (take_while p t) <= length t)%nat.
Proof. induction t; cbn; [lia|]. destruct (p a); cbn; lia. Qed.
Lemma drop_nc p t : nc t -> nc (drop_while p t).
Proof. induction t; cbn; auto. intros H. destruct (p a); auto. apply IHt. inversion H; auto. Qed.
Lemma nth_word_nc f : forall a p, nc p -> nc (nth_word f a p).
Proof.
  induction f; intros a p H; [constructor|]. cbn [nth_word]. destruct p as [|x p]; [constructor|].
  destruct (_ =? 0); auto. apply IHf. apply drop_nc, drop_nc, H.
Qed.
Lemma last_word_nc p : forall sp b, nc p -> nc sp -> nc (last_word p sp b).
Proof.
  induction p; intros sp b Hp Hs; cbn [last_word]; auto. assert (nc p) by (inversion Hp; auto).
  destruct (issp a); auto. destruct b; auto.
Qed.
Lemma cmd_under_ok a s : ready s -> holds (cmd_under a s) cpost.
Proof.
  intros R. unfold cmd_under. destruct (hist s) eqn:Eh; [cbn [holds ret]; apply cpost_err; auto|]. rewrite <- Eh.
  set (p := last (hist s) []). assert (Hpn : nc p).
  { unfold p. pose proof (k_hist _ (proj1 R)) as F. clear - F. induction (hist s) as [|x l IH]; [constructor|].
    inversion F; subst. destruct l; auto. }
  match goal with |- holds (match ?x with Some _ => _ | None => _ end) _ => destruct x as [sp|] eqn:Esp end;
    [|cbn [holds ret]; apply cpost_err; auto].
  assert (Hs : nc sp).
  { destruct (a =? 0); [injection Esp as <-; apply last_word_nc; auto|].
    destruct (nth_word _ _ _) eqn:En; [discriminate|]. injection Esp as <-. rewrite <- En. apply nth_word_nc, drop_nc; auto. }
  clear Esp. destruct (ready_touch _ R) as (H & Hi & Hpos). destruct (k_es _ H) as (D & E & F).
  set (e := if cur (es (touch s)) =? len (es (touch s)) then _ else _).
  assert (He : Eok e /\ (0 < cur e \/ len e = 0)).
  { unfold e. destruct Hpos as [Hpos|[Z1 Z2]].
    - destruct (Z.eqb_spec (cur (es (touch s))) (len (es (touch s)))); [lia|]. split; [apply Eok_cur; [apply H|lia]|cbn [cur len set_cur]; lia].
    - rewrite Z1, Z2. cbn. split; [apply H|]. auto. }
  clearbody e. destruct He as [He Hz].
  eapply holds_bind; [apply (putbuf_ok k); auto; [cbn; lia|repeat constructor; apply isu8_plain; reflexivity]|]. cbn beta. intros [ok1 e1] [He1 Ho1].
  eapply holds_bind with (P := fun '(ok, e2) => Eok e2 /\ (ok = false -> 0 < cur e2 \/ len e2 = 0)).
  { destruct ok1; [|cbn; subst e1; auto]. eapply holds_mono; [apply (putbuf_ok k); auto|].
    - pose proof (take_len notsp sp). lia.
    - cbn beta. intros [[] e2] [A B]; split; auto; [discriminate|]. intros _. subst e2. left. destruct He as (? & ? & ?). lia. }
  intros [ok2 e2] [He2 Ho2]. destruct ok2; cbn [holds brk ret].
  - apply cpost_brk; [auto with core|cbn; discriminate].
  - apply cpost_err. destruct He2 as (G1 & G2 & G3). specialize (Ho2 eq_refl). destruct (Z.eqb_spec (cur e2) 0).
    + split; [apply c_es; auto; unfold Vi_proof.Eok; auto|]. split; [exact Hi|]. unfold cpos; cbn. lia.
    + split; [apply c_es; auto; apply Eok_cur; unfold Vi_proof.Eok; auto; lia|]. split; [exact Hi|]. unfold cpos; cbn. lia.
Qed.
Lemma case_plain c : isu8cont k (toupper c) = true -> islower c = true -> False.
Proof.
  intros A B. unfold isu8cont in A. apply andb_prop in A as [A _]. apply andb_prop in A as [_ A].
  revert A B. revert c. 
  assert (Q : forall c, implb (128 <=? ccode (toupper c)) (negb (islower c)) = true) by (apply char_sweep; vm_compute; reflexivity).
  intros c A B. specialize (Q c). rewrite A, B in Q. discriminate.
Qed.
Lemma case_plain' c : isu8cont k (tolower c) = true -> isupper c = true -> False.
Proof.
  intros A B. unfold isu8cont in A. apply andb_prop in A as [A _]. apply andb_prop in A as [_ A].
  revert A B. revert c. 
  assert (Q : forall c, implb (128 <=? ccode (tolower c)) (negb (isupper c)) = true) by (apply char_sweep; vm_compute; reflexivity).
  intros c A B. specialize (Q c). rewrite A, B in Q. discriminate.
Qed.
Lemma tilde_ok n : forall s, core s -> ins s = COMMAND -> cur (es s) < len (es s) ->
  holds (tilde_loop n s) (fun s' => core s' /\ ins s' = COMMAND).
Proof.
  induction n; intros s H Hi Hp; [cbn; auto|]. cbn [tilde_loop]. destruct (k_es _ H) as (D & E & F).
  destruct (rd_good k (buf (es s)) (cur (es s))) as (c & Ec & Hc); auto; [lia|]. rewrite Ec. cbn [bind].
  eapply holds_bind with (P := fun '(b, s1) => good b /\ core s1 /\ ins s1 = COMMAND).
  { destruct (islower c) eqn:Elo.
    - eapply holds_bind; [apply (wr_good k); [exact D|lia|]|]. { destruct (isu8cont k (toupper c)) eqn:X; auto. exfalso; eapply case_plain; eauto. }
      cbn beta. intros b Hb. cbn [holds]. split; [exact Hb|]. split; [auto with core|exact Hi].
    - destruct (isupper c) eqn:Eup; [|cbn; auto].
      eapply holds_bind; [apply (wr_good k); [exact D|lia|]|]. { destruct (isu8cont k (tolower c)) eqn:X; auto. exfalso; eapply case_plain'; eauto. }
      cbn beta. intros b Hb. cbn [holds]. split; [exact Hb|]. split; [auto with core|exact Hi]. }
  intros [b s1] (G1 & G2 & G3). apply IHn; [apply c_es; auto; unfold Vi_proof.Eok; cbn; split; auto|exact G3|cbn].
  all: destruct (Z.ltb_spec (cur (es s)) (len (es s) - 1)); lia.
Qed.
Lemma cmd_tilde_ok a s : ready s -> holds (cmd_tilde a s) cpost.
Proof.
  intros R. unfold cmd_tilde. destruct (Z.eqb_spec (len (es s)) 0); [cbn [holds ret]; apply cpost_err; auto|].
  destruct R as (A & B & C). eapply holds_bind; [apply tilde_ok; auto; destruct C; lia|]. cbn beta. intros s' (A' & B').
  cbn [holds brk]. apply cpost_brk; auto using nwc.
Qed.
Lemma uncomment_len t : forall b, (length (uncomment b t) <= length t)%nat.
Proof. induction t; intros b; cbn; [lia|]. destruct (_ && _); cbn; specialize (IHt (ceq a NL)); lia. Qed.
Lemma uncomment_nc t : forall b, nc t -> nc (uncomment b t).
Proof.
  induction t; intros b H; cbn; [constructor|]. inversion H; subst. destruct (_ && _); [apply IHt; auto|]. constructor; auto. apply IHt; auto.
Qed.
Lemma comment_nc t : nc t -> nc (comment t).
Proof.
  induction t; intros H; cbn; [constructor|]. inversion H; subst. destruct (ceq a NL); repeat constructor; auto; [apply isu8_plain; reflexivity|apply IHt; auto..].
Qed.
Lemma comment_ok e : Eok e -> holds (do_comment e) (fun '(r, e') => (r = 0 \/ r = 1) /\ good (buf e') /\ 0 <= len e' < LINE \/ r = -1 /\ e' = e).
Proof.
  intros (A & B & C). unfold do_comment. destruct (Z.eqb_spec (len e) 0); [cbn; left; split; auto; split; auto; lia|].
  assert (Ht : nc (firstn (Z.to_nat (len e)) (buf e))) by (apply Forall_firstn, A).
  destruct (rd_good k (buf e) 0) as (c & Ec & _); auto; [lia|]. rewrite Ec. cbn [bind]. destruct (ceq c "#").
  - set (u := uncomment _ _). assert (Hu : nc u) by (apply uncomment_nc, Forall_skipn; auto).
    assert (Hl : Z.of_nat (length u) < LINE).
    { unfold u. pose proof (uncomment_len (skipn 1 (firstn (Z.to_nat (len e)) (buf e))) false) as X. rewrite skipn_length, firstn_length in X. lia. }
    clearbody u. eapply holds_bind; [apply (move_good k); auto; lia|]. cbn beta. intros b Hb. cbn. left. split; auto. split; auto. lia.
  - set (u := _ :: comment _). assert (Hu : nc u) by (constructor; [apply isu8_plain; reflexivity|apply comment_nc; auto]).
    clearbody u. destruct (Z.leb_spec LINE (Z.of_nat (length u))); [cbn; auto|].
    eapply holds_bind; [apply (move_good k); auto; lia|]. cbn beta. intros b Hb. cbn. left. split; auto. split; auto. lia.
Qed.
End P.
