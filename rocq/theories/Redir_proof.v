From Coq Require Import ZArith List Bool Lia FinFun.
From Verif Require Import Redir_model Redir_spec.
Import ListNotations.
Local Open Scope Z_scope.

Ltac cases := repeat match goal with
  | |- context [?a =? ?b] => destruct (Z.eqb_spec a b); try lia; subst; auto
  | H : context [?a =? ?b] |- _ => destruct (Z.eqb_spec a b); try lia; subst; auto
  end.

Lemma suffix_refl {A} (l : list A) : suffix l l.
Proof. exists []. reflexivity. Qed.
Lemma suffix_trans {A} (a b c : list A) : suffix a b -> suffix b c -> suffix a c.
Proof. intros (p & ->) (q & ->). exists (q ++ p). now rewrite app_assoc. Qed.
Lemma suffix_cons {A} (x : A) l : suffix l (x :: l).
Proof. exists [x]. reflexivity. Qed.

(** the parts of a state besides the table *)
Definition fr (s s' : st) : Prop := lim s' = lim s /\ cr s' = cr s /\ crw s' = crw s /\ cw s' = cw s /\ fsh s' = fsh s /\ suffix (orc s') (orc s).
Lemma fr_refl s : fr s s.
Proof. unfold fr; auto 10 using suffix_refl. Qed.
Lemma fr_trans a b c : fr a b -> fr b c -> fr a c.
Proof. unfold fr. intros (A1 & A2 & A3 & A4 & A5 & A6) (B1 & B2 & B3 & B4 & B5 & B6). repeat split; try congruence. eauto using suffix_trans. Qed.
Lemma fr_tab s t : fr s (with_tab s t).
Proof. unfold fr; cbn; auto 10 using suffix_refl. Qed.
Lemma fr_close s i : fr s (sys_close s i).
Proof. apply fr_tab. Qed.
Lemma fr_cloexec s i : fr s (sys_cloexec s i).
Proof. unfold sys_cloexec. destruct (tab s i) as [[]|]; [apply fr_tab|apply fr_refl]. Qed.
Lemma fr_dup2 s a b s' : sys_dup2 s a b = Some s' -> fr s s'.
Proof. unfold sys_dup2. destruct (tab s a) as [[]|]; [|discriminate]. destruct (b <? lim s); [|discriminate]. intros [= <-]. apply fr_tab. Qed.
Lemma fr_restfd s a b : fr s (restfd s a b).
Proof.
  unfold restfd. destruct (b <? 0); [apply fr_close|]. destruct (a =? b); [apply fr_refl|].
  destruct (sys_dup2 s b a) eqn:E; [|apply fr_close]. eapply fr_trans; [eapply fr_dup2; eauto|apply fr_close].
Qed.

Lemma pop_fr s r s' : pop s = (r, s') -> fr s s' /\ tab s' = tab s /\ (match r with Some f => orc s = Some f :: orc s' | None => orc s = orc s' \/ exists x, orc s = x :: orc s' end).
Proof.
  unfold pop. destruct (orc s) as [|x l] eqn:E; intros [= <- <-]; cbn.
  - split; [apply fr_refl|]. auto.
  - split; [|split; [reflexivity|destruct x; eauto]]. unfold fr; cbn. rewrite E. repeat split; apply suffix_cons.
Qed.

Lemma lowest_some t n : forall base k, lowest t base n = Some k -> base <= k < base + Z.of_nat n /\ t k = None.
Proof.
  induction n as [|n IH]; cbn [lowest]; intros base k H; [discriminate|].
  destruct (t base) eqn:E; [apply IH in H as (A & B); split; [lia|auto]|]. injection H as <-. split; [lia|auto].
Qed.
Lemma free_some s base k : free s base = Some k -> base <= k < lim s /\ tab s k = None.
Proof. unfold free. intros H. apply lowest_some in H as (A & B). split; auto. lia. Qed.

Lemma sys_open_some s n s' : sys_open s = (Some n, s') -> exists f,
  0 <= n < lim s /\ tab s n = None /\ (forall i, tab s' i = if i =? n then Some (f, false) else tab s i) /\ fr s s' /\ orc s = Some f :: orc s'.
Proof.
  unfold sys_open. destruct (pop s) as (r, s1) eqn:E. apply pop_fr in E as (F & E & H). destruct r as [f|]; [|discriminate].
  destruct (free s1 0) as [k|] eqn:K; [|discriminate]. intros [= <- <-]. apply free_some in K as (K1 & K2). exists f.
  rewrite E in *. destruct F as (FL & F). rewrite FL in K1. split; [lia|]. split; [auto|]. split; [intros i; cbn; rewrite ?E; reflexivity|].
  split; [|exact H]. eapply fr_trans; [|apply fr_tab]. split; auto.
Qed.
Lemma sys_open_none s s' : sys_open s = (None, s') -> tab s' = tab s /\ fr s s' /\ (orc s = orc s' \/ exists x, orc s = x :: orc s').
Proof.
  unfold sys_open. destruct (pop s) as (r, s1) eqn:E. apply pop_fr in E as (F & E & H). destruct r as [f|].
  - destruct (free s1 0) as [k|] eqn:K; [discriminate|]. intros [= <-]. eauto.
  - intros [= <-]. auto.
Qed.

(** savefd *)
Lemma savefd_user s fd n s' : user fd -> savefd s fd = Some (n, s') ->
  (tab s fd = None /\ n = -1 /\ s' = s) \/
  (exists f b, tab s fd = Some (f, b) /\ 10 <= n < lim s /\ tab s n = None /\ (forall i, tab s' i = if i =? n then Some (f, true) else tab s i) /\ fr s s' /\ orc s' = orc s).
Proof.
  unfold savefd, user, FDBASE. intros U. replace (fd <? 10) with true by (symmetry; apply Z.ltb_lt; lia).
  destruct (tab s fd) as [(f, b)|]; [|intros [= <- <-]; auto]. unfold sys_dupfd.
  destruct (free s 10) as [k|] eqn:K; [|discriminate]. intros [= <- <-]. apply free_some in K as (K1 & K2). right. exists f, b.
  split; [auto|]. split; [lia|]. split; [auto|]. split; [reflexivity|]. split; [apply fr_tab|reflexivity].
Qed.
Lemma hi_end_ok s fd n s' f : 0 <= fd -> tab s fd = Some (f, false) -> hi_end s fd = Some (n, s') ->
  10 <= n /\ (n = fd \/ fd < 10 /\ tab s n = None) /\ (forall i, tab s' i = if i =? n then Some (f, true) else if i =? fd then None else tab s i) /\ fr s s' /\ orc s' = orc s.
Proof.
  intros F0 E. unfold hi_end. destruct (savefd s fd) as [(k, s1)|] eqn:K; [|discriminate]. intros [= <- <-].
  destruct (Z.lt_ge_cases fd 10) as [H|H].
  - apply savefd_user in K; [|unfold user; lia]. destruct K as [(K & _)|(f' & b & K1 & K2 & K3 & K4 & K5 & K6)]; [congruence|].
    assert (f' = f) by congruence. subst f'. destruct (Z.eqb_spec k fd) as [->|N]; [lia|]. split; [lia|]. split; [auto|].
    split; [|split; [eapply fr_trans; [exact K5|apply fr_close]|exact K6]].
    intros i. cbn. unfold upd. rewrite K4. cases.
  - unfold savefd, FDBASE in K. replace (fd <? 10) with false in K by (symmetry; apply Z.ltb_ge; lia). injection K as <- <-.
    rewrite Z.eqb_refl. split; [lia|]. split; [auto|]. unfold sys_cloexec. rewrite E. split; [|split; [apply fr_tab|reflexivity]].
    intros i. cbn. unfold upd. cases.
Qed.

Lemma openpipe_ok s p q s' : openpipe s = (Some (p, q), s') -> exists f g,
  10 <= p /\ 10 <= q /\ p <> q /\ tab s p = None /\ tab s q = None /\ q < lim s /\
  (forall i, tab s' i = if i =? p then Some (f, true) else if i =? q then Some (g, true) else tab s i) /\ fr s s'.
Proof.
  unfold openpipe. destruct (sys_open s) as ([a|], s1) eqn:EA; [|discriminate].
  apply sys_open_some in EA as (f & A1 & A2 & A3 & A4 & _).
  destruct (sys_open s1) as ([b|], s2) eqn:EB; [|discriminate].
  apply sys_open_some in EB as (g & B1 & B2 & B3 & B4 & _).
  assert (a <> b) as AB. { intros <-. rewrite A3, Z.eqb_refl in B2. discriminate. }
  assert (tab s b = None) as B2' by (rewrite A3 in B2; destruct (b =? a); [discriminate|auto]).
  assert (lim s1 = lim s) as L1 by (apply A4). assert (lim s2 = lim s1) as L2 by apply B4.
  destruct (hi_end s2 a) as [(p', s3)|] eqn:EP; [|discriminate].
  assert (tab s2 a = Some (f, false)) as Ta. { rewrite B3, A3, Z.eqb_refl. destruct (Z.eqb_spec a b); [lia|auto]. }
  destruct (hi_end_ok s2 a p' s3 f) as (P1 & P2 & P3 & P4 & _); [lia|exact Ta|exact EP|].
  assert (tab s2 b = Some (g, false)) as Tb. { rewrite B3, Z.eqb_refl. auto. }
  assert (p' <> b) as PB. { destruct P2 as [->|(_ & P2)]; [lia|intros ->; congruence]. }
  assert (tab s3 b = Some (g, false)) as Tb'. { rewrite P3. destruct (Z.eqb_spec b p'); [congruence|]. destruct (Z.eqb_spec b a); [congruence|]. exact Tb. }
  destruct (hi_end s3 b) as [(q', s4)|] eqn:EQ; [|discriminate]. intros [= <- <- <-].
  assert (q' < lim s3) as QL. { revert EQ. unfold hi_end, savefd. destruct (b <? FDBASE); [|intros [= <- _]; destruct P4 as (P4 & _); lia].
    rewrite Tb'. unfold sys_dupfd. destruct (free s3 FDBASE) as [k|] eqn:K; [|discriminate]. intros [= <- _]. apply free_some in K as (K & _). lia. }
  destruct (hi_end_ok s3 b q' s4 g) as (Q1 & Q2 & Q3 & Q4 & _); [lia|exact Tb'|exact EQ|].
  assert (p' <> q') as PQ. { destruct Q2 as [->|(_ & Q2)]; [lia|intros ->; rewrite P3, Z.eqb_refl in Q2; discriminate]. }
  assert (tab s p' = None) as Fp. { destruct P2 as [->|(_ & P2)]; [exact A2|]. rewrite B3, A3 in P2. destruct (p' =? b); [discriminate|]. destruct (p' =? a); [discriminate|auto]. }
  assert (tab s q' = None) as Fq. { destruct Q2 as [->|(QB & Q2)]; [exact B2'|]. rewrite P3, B3, A3 in Q2. destruct (Z.eqb_spec q' p'); [congruence|].
    destruct (Z.eqb_spec q' a) as [->|]; [exact A2|]. destruct (Z.eqb_spec q' b); [lia|exact Q2]. }
  exists f, g. split; [lia|]. split; [lia|]. split; [exact PQ|]. split; [exact Fp|]. split; [exact Fq|]. split; [destruct P4 as (P4 & _); lia|]. split.
  - intros i. rewrite Q3, P3, B3, A3. destruct (Z.eqb_spec i q') as [->|]; [destruct (Z.eqb_spec q' p'); [congruence|auto]|].
    destruct (Z.eqb_spec i p') as [->|]; [destruct (Z.eqb_spec p' b); [congruence|auto]|].
    destruct (Z.eqb_spec i b) as [->|]; [symmetry; exact B2'|]. destruct (Z.eqb_spec i a) as [->|]; [symmetry; exact A2|auto].
  - eapply fr_trans; [eapply fr_trans; [eapply fr_trans; [exact A4|exact B4]|exact P4]|exact Q4].
Qed.

Lemma fork_ok s b s' : fork s = (b, s') -> fr s s' /\ tab s' = tab s.
Proof. unfold fork. destruct (pop s) as (r, s1) eqn:E. apply pop_fr in E as (F & E & _). intros [= _ <-]. auto. Qed.

(** dup2 onto a user descriptor from an open one, within the limit *)
Lemma dup2_ok s a b f c : tab s a = Some (f, c) -> b < lim s -> exists s', sys_dup2 s a b = Some s' /\ (forall i, tab s' i = if i =? b then Some (f, false) else tab s i) /\ fr s s' /\ orc s' = orc s.
Proof.
  intros E H. unfold sys_dup2. rewrite E. replace (b <? lim s) with true by (symmetry; apply Z.ltb_lt; lia). eexists. split; [reflexivity|].
  split; [reflexivity|]. split; [apply fr_tab|reflexivity].
Qed.

Lemma pipe_loop_ok n : forall s o s', pipe_loop n s = (o, s') -> o <> Sys -> o = Done /\ fr s s' /\ forall i, i <> 0 -> i <> 1 -> tab s' i = tab s i.
Proof.
  induction n as [|n IH]; cbn [pipe_loop]; intros s o s' H NS.
  - injection H as <- <-. split; [auto|]. split; [apply fr_refl|auto].
  - destruct (openpipe s) as ([(p, q)|], s1) eqn:EP; [|injection H as <- <-; congruence].
    apply openpipe_ok in EP as (f & g & P1 & Q1 & PQ & Fp & Fq & QL & T1 & F1).
    assert (lim s1 = lim s) as L1 by apply F1.
    destruct (dup2_ok s1 q 1 g true) as (s2 & E2 & T2 & F2 & _).
    { rewrite T1. destruct (Z.eqb_spec q p); [congruence|]. now rewrite Z.eqb_refl. } { lia. }
    rewrite E2 in H. destruct (fork s2) as (b, s3) eqn:EF. apply fork_ok in EF as (F3 & T3).
    destruct b; [|injection H as <- <-; congruence].
    destruct (dup2_ok s3 p 0 f true) as (s4 & E4 & T4 & F4 & _).
    { rewrite T3, T2, T1. destruct (Z.eqb_spec p 1); [lia|]. now rewrite Z.eqb_refl. }
    { assert (lim s3 = lim s) by (rewrite (proj1 F3), (proj1 F2); exact L1). lia. }
    rewrite E4 in H. apply IH in H as (HO & HF & HT); [|exact NS]. split; [exact HO|]. split.
    + eapply fr_trans; [|exact HF]. eapply fr_trans; [|apply fr_close]. eapply fr_trans; [|apply fr_close]. eapply fr_trans; [|exact F4].
      eapply fr_trans; [|exact F3]. eapply fr_trans; [exact F1|exact F2].
    + intros i I0 I1. rewrite HT by assumption. cbn. unfold upd. rewrite T4, T3, T2, T1.
      destruct (Z.eqb_spec i q) as [->|]; [congruence|]. destruct (Z.eqb_spec i p) as [->|]; [congruence|].
      destruct (Z.eqb_spec i 0); [congruence|]. destruct (Z.eqb_spec i 1); [congruence|auto].
Qed.

Lemma short_small x : -32768 <= x < 32768 -> short x = x.
Proof. intros H. unfold short. rewrite Z.mod_small by lia. lia. Qed.

(** restfd of a user descriptor *)
Lemma restfd_closed s fd ofd : ofd < 0 -> forall i, tab (restfd s fd ofd) i = if i =? fd then None else tab s i.
Proof. intros H i. unfold restfd. replace (ofd <? 0) with true by (symmetry; apply Z.ltb_lt; lia). reflexivity. Qed.
Lemma restfd_back s fd ofd f c : user fd -> 10 <= ofd -> tab s ofd = Some (f, c) -> 10 < lim s ->
  forall i, tab (restfd s fd ofd) i = if i =? ofd then None else if i =? fd then Some (f, false) else tab s i.
Proof.
  intros U O E LM i. unfold restfd, user in *. replace (ofd <? 0) with false by (symmetry; apply Z.ltb_ge; lia).
  destruct (Z.eqb_spec fd ofd); [lia|]. destruct (dup2_ok s ofd fd f c E) as (s' & E' & T' & _); [lia|]. rewrite E'. cbn. unfold upd. now rewrite T'.
Qed.
Lemma restfd_orc s fd ofd : orc (restfd s fd ofd) = orc s.
Proof.
  unfold restfd. destruct (ofd <? 0); [reflexivity|]. destruct (fd =? ofd); [reflexivity|]. cbn. unfold sys_dup2.
  destruct (tab s ofd) as [[]|]; [|reflexivity]. destruct (fd <? lim s); reflexivity.
Qed.

(** what stays the same: the shell's own descriptors exactly, the user's up to the flag *)
Definition neutral (s s' : st) : Prop := fr s s' /\ (forall i, ~ user i -> tab s' i = tab s i) /\ forall i, user i -> file s' i = file s i.
Lemma neutral_refl s : neutral s s.
Proof. split; [apply fr_refl|]. auto. Qed.
Lemma neutral_trans a b c : neutral a b -> neutral b c -> neutral a c.
Proof. intros (A1 & A2 & A3) (B1 & B2 & B3). split; [eauto using fr_trans|]. split; intros i H; [rewrite B2, A2|rewrite B3, A3]; auto. Qed.

(** quitenv with at most one saved descriptor *)
Definition undo_fd (sv : saved) (s : st) (fd : Z) : st := if sv fd =? 0 then s else restfd s fd (sv fd).
Lemma undo_skip sv l : forall s, (forall x, In x l -> sv x = 0) -> fold_left (undo_fd sv) l s = s.
Proof.
  induction l as [|x l IH]; intros s H; cbn [fold_left]; [reflexivity|].
  unfold undo_fd at 2. rewrite (H x) by (left; reflexivity). cbn. apply IH. intros y Y. apply H. right. exact Y.
Qed.
Lemma fds32_nodup : NoDup fds32.
Proof. apply FinFun.Injective_map_NoDup; [intros a b; lia|apply seq_NoDup]. Qed.
Lemma fds32_user fd : user fd -> In fd fds32.
Proof. intros U. unfold fds32. apply in_map_iff. exists (Z.to_nat fd). unfold user in U. split; [lia|]. apply in_seq. lia. Qed.
Lemma quitenv_one fd n s : user fd -> n <> 0 -> quitenv (upd (fun _ => 0) fd n) s = restfd s fd n.
Proof.
  intros U N. change (fold_left (undo_fd (upd (fun _ => 0) fd n)) fds32 s = restfd s fd n).
  destruct (in_split fd fds32 (fds32_user fd U)) as (l1 & l2 & E). pose proof fds32_nodup as ND. rewrite E in ND |- *.
  apply NoDup_remove in ND as (_ & ND). rewrite fold_left_app. cbn [fold_left].
  assert (forall x, In x l1 \/ In x l2 -> upd (fun _ => 0) fd n x = 0) as K.
  { intros x X. unfold upd. destruct (Z.eqb_spec x fd) as [->|]; [|reflexivity]. exfalso. apply ND. apply in_or_app. exact X. }
  rewrite undo_skip by auto. rewrite undo_skip by auto. unfold undo_fd, upd. rewrite Z.eqb_refl. destruct (Z.eqb_spec n 0); [congruence|reflexivity].
Qed.

Lemma pipeline_ok n s o s' : lim s <= 32768 -> (forall i, i < 0 -> tab s i = None) -> pipeline n s = (o, s') -> o <> Sys -> o = Done /\ neutral s s'.
Proof.
  intros LM NG. unfold pipeline. destruct (savefd s 0) as [(a, s1)|] eqn:EA; [|intros [= <- <-]; congruence].
  destruct (savefd s1 1) as [(b, s2)|] eqn:EB; [|intros [= <- <-]; congruence].
  destruct (pipe_loop n s2) as (o2, s3) eqn:EL. intros H NS.
  apply savefd_user in EA; [|unfold user; lia]. apply savefd_user in EB; [|unfold user; lia].
  assert (fr s s1) as F1 by (destruct EA as [(_ & _ & ->)|(? & ? & _ & _ & _ & _ & ? & _)]; [apply fr_refl|assumption]).
  assert (fr s1 s2) as F2 by (destruct EB as [(_ & _ & ->)|(? & ? & _ & _ & _ & _ & ? & _)]; [apply fr_refl|assumption]).
  assert (lim s1 = lim s) as L1 by apply F1. assert (lim s2 = lim s1) as L2 by apply F2.
  assert (o2 <> Sys) as NS2 by (destruct o2; congruence).
  apply pipe_loop_ok in EL as (-> & F3 & T3); [|exact NS2].
  set (sv1 := upd _ _ (short b)) in H. change (sv1 1) with (short b) in H. clearbody sv1.
  destruct (fork (restfd s3 1 (short b))) as (k, s5) eqn:EF. apply fork_ok in EF as (F5 & T5).
  destruct k; [|injection H as <- <-; congruence].
  assert (short a = a) as SA by (apply short_small; destruct EA as [(_ & -> & _)|(? & ? & _ & R & _)]; lia).
  assert (short b = b) as SB by (apply short_small; destruct EB as [(_ & -> & _)|(? & ? & _ & R & _)]; lia).
  rewrite SA, SB in *. injection H as <- <-. split; [reflexivity|].
  assert (a <> 0) as A0 by (destruct EA as [(_ & -> & _)|(? & ? & _ & R & _)]; lia).
  rewrite quitenv_one; [|unfold user; lia|exact A0].
  (* the table before the last restfd *)
  assert (forall i, tab (restfd s3 1 b) i = if i =? 1 then match b with -1 => None | _ => option_map (fun x => (fst x, false)) (tab s1 1) end else if i =? 0 then tab s3 0 else tab s1 i) as T4.
  { intros i. destruct EB as [(B1 & -> & ->)|(f & c & B1 & B2 & B3 & B4 & B5 & B6)].
    - rewrite restfd_closed by lia. destruct (Z.eqb_spec i 1); [auto|]. destruct (Z.eqb_spec i 0) as [->|]; [auto|]. apply T3; auto.
    - assert (tab s3 b = Some (f, true)) as Tb. { rewrite T3 by lia. now rewrite B4, Z.eqb_refl. }
      rewrite (restfd_back s3 1 b f true); [|unfold user; lia|lia|exact Tb|destruct F3 as (F3 & _); lia].
      destruct (Z.eqb_spec i b) as [->|]; [destruct (Z.eqb_spec b 1); [lia|]; destruct (Z.eqb_spec b 0); [lia|]; symmetry; exact B3|].
      destruct (Z.eqb_spec i 1) as [->|]; [rewrite B1; destruct b as [|b|b]; [lia|auto|lia]|]. destruct (Z.eqb_spec i 0) as [->|]; [auto|]. rewrite T3 by assumption. rewrite B4. destruct (Z.eqb_spec i b); [congruence|auto]. }
  assert (file s1 1 = file s 1) as U1. { unfold file. destruct EA as [(_ & _ & ->)|(f & c & A1 & A2 & A3 & A4 & _)]; [auto|]. rewrite A4. destruct (Z.eqb_spec 1 a); [lia|auto]. }
  assert (option_map fst (match b with -1 => None | _ => option_map (fun x => (fst x, false)) (tab s1 1) end) = file s1 1) as UB.
  { unfold file. destruct EB as [(B1 & -> & _)|(f & c & B1 & B2 & _)]; [rewrite B1; reflexivity|]. rewrite B1. destruct b as [|b|b]; try lia. reflexivity. }
  assert (fr s s5) as F. { eapply fr_trans; [exact F1|]. eapply fr_trans; [exact F2|]. eapply fr_trans; [exact F3|]. eapply fr_trans; [apply fr_restfd|exact F5]. }
  split; [|split].
  - eapply fr_trans; [exact F|]. eapply fr_trans; [apply fr_close|]. apply fr_restfd.
  - intros i NU. destruct EA as [(A1 & -> & ->)|(f & c & A1 & A2 & A3 & A4 & A5 & A6)].
    + rewrite restfd_closed by lia. destruct (Z.eqb_spec i 0); [unfold user in NU; lia|]. cbn. unfold upd. destruct (Z.eqb_spec i 0); [lia|].
      rewrite T5, T4. destruct (Z.eqb_spec i 1); [unfold user in NU; lia|]. destruct (Z.eqb_spec i 0); [lia|auto].
    + rewrite (restfd_back _ 0 a f true).
      * destruct (Z.eqb_spec i a) as [->|]; [auto|]. destruct (Z.eqb_spec i 0); [unfold user in NU; lia|]. cbn. unfold upd. destruct (Z.eqb_spec i 0); [lia|].
        rewrite T5, T4. destruct (Z.eqb_spec i 1); [unfold user in NU; lia|]. destruct (Z.eqb_spec i 0); [lia|]. rewrite A4. destruct (Z.eqb_spec i a); [congruence|auto].
      * unfold user; lia.
      * lia.
      * cbn. unfold upd. destruct (Z.eqb_spec a 0); [lia|]. rewrite T5, T4. destruct (Z.eqb_spec a 1); [lia|]. destruct (Z.eqb_spec a 0); [lia|]. now rewrite A4, Z.eqb_refl.
      * assert (lim s5 = lim s) by apply F. cbn. lia.
  - intros i UI. unfold user in UI. unfold file at 1. destruct EA as [(A1 & -> & ->)|(f & c & A1 & A2 & A3 & A4 & A5 & A6)].
    + rewrite restfd_closed by lia. destruct (Z.eqb_spec i 0) as [->|]; [unfold file; now rewrite A1|]. cbn. unfold upd. destruct (Z.eqb_spec i 0); [lia|].
      rewrite T5, T4. destruct (Z.eqb_spec i 1) as [->|]; [exact UB|]. destruct (Z.eqb_spec i 0); [lia|reflexivity].
    + rewrite (restfd_back _ 0 a f true).
      * destruct (Z.eqb_spec i a) as [->|]; [lia|]. destruct (Z.eqb_spec i 0) as [->|]; [unfold file; rewrite A1; reflexivity|]. cbn. unfold upd. destruct (Z.eqb_spec i 0); [lia|].
        rewrite T5, T4. destruct (Z.eqb_spec i 1) as [->|]; [rewrite UB; exact U1|]. destruct (Z.eqb_spec i 0); [lia|]. rewrite A4. destruct (Z.eqb_spec i a); [congruence|reflexivity].
      * unfold user; lia.
      * lia.
      * cbn. unfold upd. destruct (Z.eqb_spec a 0); [lia|]. rewrite T5, T4. destruct (Z.eqb_spec a 1); [lia|]. destruct (Z.eqb_spec a 0); [lia|]. now rewrite A4, Z.eqb_refl.
      * assert (lim s5 = lim s) by apply F. cbn. lia.
Qed.

Lemma comsub_ok n s o s' : lim s <= 32768 -> (forall i, i < 0 -> tab s i = None) -> comsub n s = (o, s') -> o <> Sys -> o = Done /\ neutral s s'.
Proof.
  intros LM NG. unfold comsub. destruct (openpipe s) as ([(p, q)|], s1) eqn:EP; [|intros [= <- <-]; congruence].
  apply openpipe_ok in EP as (f & g & P1 & Q1 & PQ & Fp & Fq & QL & T1 & F1). assert (lim s1 = lim s) as L1 by apply F1.
  destruct (savefd s1 1) as [(b, s2)|] eqn:EB; [|intros [= <- <-]; congruence].
  apply savefd_user in EB; [|unfold user; lia].
  assert (fr s1 s2) as F2 by (destruct EB as [(_ & _ & ->)|(? & ? & _ & _ & _ & _ & ? & _)]; [apply fr_refl|assumption]).
  assert (lim s2 = lim s1) as L2 by apply F2.
  assert (tab s2 q = Some (g, true)) as Tq.
  { assert (tab s1 q = Some (g, true)) as K. { rewrite T1. destruct (Z.eqb_spec q p); [congruence|]. now rewrite Z.eqb_refl. }
    destruct EB as [(_ & _ & ->)|(? & ? & _ & _ & B3 & B4 & _)]; [exact K|]. rewrite B4. destruct (Z.eqb_spec q b) as [->|]; [congruence|exact K]. }
  destruct (Z.eqb_spec q 1); [lia|]. destruct (dup2_ok s2 q 1 g true Tq) as (s3 & E3 & T3 & F3 & _); [lia|]. rewrite E3.
  set (s4 := sys_close s3 q). assert (fr s3 s4) as F4 by apply fr_close.
  assert (forall i, tab s4 i = if i =? q then None else if i =? 1 then Some (g, false) else tab s2 i) as T4.
  { intros i. cbn. unfold upd. rewrite T3. reflexivity. }
  clearbody s4. assert (fr s s4) as F. { eapply fr_trans; [exact F1|]. eapply fr_trans; [exact F2|]. eapply fr_trans; [exact F3|exact F4]. }
  intros H NS.
  set (r := match n with O => _ | _ => _ end) in H.
  assert (exists o5 s5, r = (o5, s5)) as (o5 & s5 & ER) by (destruct r; eauto). rewrite ER in H.
  assert (o5 <> Sys) as NS5 by (destruct o5; congruence).
  assert (o5 = Done /\ neutral s4 s5) as (-> & N5).
  { subst r. destruct n.
    - destruct (fork s4) as (k, s6) eqn:EF. apply fork_ok in EF as (FF & TF). injection ER as <- <-. destruct k; [|congruence]. split; [auto|].
      split; [exact FF|]. unfold file. rewrite TF. auto.
    - eapply pipeline_ok; [| |exact ER|exact NS5].
      + assert (lim s4 = lim s) by apply F. lia.
      + intros i I. rewrite T4. destruct (Z.eqb_spec i q); [lia|]. destruct (Z.eqb_spec i 1); [lia|].
        assert (tab s1 i = None) as K. { rewrite T1. destruct (Z.eqb_spec i p); [lia|]. destruct (Z.eqb_spec i q); [lia|auto]. }
        destruct EB as [(_ & _ & ->)|(? & ? & _ & B2 & B3 & B4 & _)]; [exact K|]. rewrite B4. destruct (Z.eqb_spec i b); [lia|exact K]. }
  clear ER r. injection H as <- <-. split; [auto|]. destruct N5 as (F5 & H5 & U5). assert (lim s5 = lim s) as L5 by (rewrite (proj1 F5); apply F).
  assert (file s1 1 = file s 1) as U1. { unfold file. rewrite T1. destruct (Z.eqb_spec 1 p); [lia|]. destruct (Z.eqb_spec 1 q); [lia|auto]. }
  split; [|split].
  - eapply fr_trans; [exact F|]. eapply fr_trans; [exact F5|]. eapply fr_trans; [apply fr_restfd|apply fr_close].
  - intros i NU. cbn. unfold upd. destruct (Z.eqb_spec i p) as [->|]; [auto|]. destruct EB as [(B1 & -> & ->)|(h & c & B1 & B2 & B3 & B4 & _)].
    + rewrite restfd_closed by lia. destruct (Z.eqb_spec i 1); [unfold user in NU; lia|]. rewrite H5, T4 by exact NU. destruct (Z.eqb_spec i q) as [->|]; [auto|].
      destruct (Z.eqb_spec i 1); [lia|]. rewrite T1. destruct (Z.eqb_spec i p); [congruence|]. destruct (Z.eqb_spec i q); [congruence|auto].
    + assert (b <> q) as BQ. { intros ->. rewrite T1 in B3. destruct (Z.eqb_spec q p); [congruence|]. rewrite Z.eqb_refl in B3. discriminate. }
      assert (b <> p) as BP. { intros ->. rewrite T1 in B3. rewrite Z.eqb_refl in B3. discriminate. }
      rewrite (restfd_back _ 1 b h true); [|unfold user; lia|lia| |lia].
      * destruct (Z.eqb_spec i b) as [->|]; [rewrite T1 in B3; destruct (b =? p); [discriminate|]; destruct (b =? q); [discriminate|auto]|].
        destruct (Z.eqb_spec i 1); [unfold user in NU; lia|]. rewrite H5, T4 by exact NU. destruct (Z.eqb_spec i q) as [->|]; [auto|].
        destruct (Z.eqb_spec i 1); [lia|]. rewrite B4, T1. destruct (Z.eqb_spec i b); [congruence|]. destruct (Z.eqb_spec i p); [congruence|]. destruct (Z.eqb_spec i q); [congruence|auto].
      * rewrite H5 by (unfold user; lia). rewrite T4. destruct (Z.eqb_spec b q); [congruence|]. destruct (Z.eqb_spec b 1); [lia|]. now rewrite B4, Z.eqb_refl.
  - intros i UI. unfold file at 1. cbn. unfold upd. assert (user i) as UI' by exact UI. unfold user in UI. destruct (Z.eqb_spec i p) as [->|]; [lia|].
    assert (i <> 1 -> option_map fst (tab s5 i) = file s i) as K.
    { intros N1. change (file s5 i = file s i). rewrite U5 by exact UI'. unfold file. rewrite T4. destruct (Z.eqb_spec i q); [lia|]. destruct (Z.eqb_spec i 1); [lia|].
      assert (tab s2 i = tab s1 i) as -> by (destruct EB as [(_ & _ & ->)|(? & ? & _ & ? & _ & B4 & _)]; [auto|rewrite B4; destruct (Z.eqb_spec i b); [lia|auto]]).
      rewrite T1. destruct (Z.eqb_spec i p); [lia|]. destruct (Z.eqb_spec i q); [lia|auto]. }
    destruct EB as [(B1 & -> & ->)|(h & c & B1 & B2 & B3 & B4 & _)].
    + rewrite restfd_closed by lia. destruct (Z.eqb_spec i 1) as [->|]; [rewrite <- U1; unfold file; now rewrite B1|auto].
    + assert (b <> q) as BQ. { intros ->. rewrite T1 in B3. destruct (Z.eqb_spec q p); [congruence|]. rewrite Z.eqb_refl in B3. discriminate. }
      rewrite (restfd_back _ 1 b h true); [|unfold user; lia|lia| |lia].
      * destruct (Z.eqb_spec i b) as [->|]; [lia|]. destruct (Z.eqb_spec i 1) as [->|]; [rewrite <- U1; unfold file; rewrite B1; reflexivity|auto].
      * rewrite H5 by (unfold user; lia). rewrite T4. destruct (Z.eqb_spec b q); [congruence|]. destruct (Z.eqb_spec b 1); [lia|]. now rewrite B4, Z.eqb_refl.
Qed.

Lemma do_subs_ok l : forall s o s', 10 < lim s <= 32768 -> (forall i, i < 0 -> tab s i = None) -> do_subs l s = (o, s') -> o <> Sys -> o = Done /\ neutral s s'.
Proof.
  induction l as [|n l IH]; cbn [do_subs]; intros s o s' LM NG H NS; [injection H as <- <-; split; [auto|apply neutral_refl]|].
  destruct (comsub n s) as (o1, s1) eqn:E.
  assert (o1 <> Sys) as NS1 by (destruct o1; [| | |injection H as <- <-]; congruence).
  apply comsub_ok in E as (-> & N1); [|lia|exact NG|exact NS1].
  apply IH in H as (HO & N2); [split; [auto|eauto using neutral_trans]| | |exact NS].
  - rewrite (proj1 (proj1 N1)). exact LM.
  - intros i I. destruct N1 as (_ & N1 & _). rewrite N1 by (unfold user; lia). auto.
Qed.
Lemma expand_ok w s o s' : good s -> expand w s = (o, s') -> o <> Sys -> o = (if werr w then Abort else Done) /\ neutral s s'.
Proof.
  intros G. destruct w as [l e]. unfold expand, werr. destruct (do_subs l s) as (o1, s1) eqn:E. intros H NS.
  assert (o1 <> Sys) as NS1 by (destruct o1; [| | |injection H as <- <-]; congruence).
  apply do_subs_ok in E as (-> & N1); [|apply G|apply G|exact NS1]. injection H as <- <-. auto.
Qed.

Lemma fr_cop s s' i : fr s s' -> cop s' i <-> cop s i.
Proof. intros (_ & A & B & C & _). unfold cop. rewrite A, B, C. tauto. Qed.
Lemma good_keep s s' : good s -> fr s s' -> (forall i, i < 0 -> tab s' i = tab s i) -> (forall i, cop s i -> tab s' i <> None) -> good s'.
Proof.
  intros [G1 G2 G3 G4] F H1 H2. split.
  - rewrite (proj1 F). exact G1.
  - intros i I. rewrite H1; auto.
  - intros i I. apply (fr_cop s s' i F) in I. split; [apply G3; auto|auto].
  - destruct F as (_ & A & B & C & _). rewrite A, B, C. exact G4.
Qed.
Lemma good_neutral s s' : good s -> neutral s s' -> good s'.
Proof.
  intros G (F & N & _). apply (good_keep s); auto.
  - intros i I. apply N. unfold user; lia.
  - intros i I. destruct G as [_ _ G _]. destruct (G i I) as (G1 & G2). rewrite N by (unfold user; lia). exact G2.
Qed.
Lemma look_cop s i : good s -> i = cr s \/ i = cw s -> (if i <? 0 then None else file s i) = None -> i < 0.
Proof.
  intros G E H. destruct (Z.ltb_spec i 0) as [|I]; [lia|]. destruct (g_cop s G i) as (_ & K); [unfold cop; intuition lia|].
  unfold file in H. destruct (tab s i) as [[]|]; [discriminate|congruence].
Qed.
(** what is seen of a state whose own descriptors are kept *)
Lemma quiet_keep s s' : good s -> fr s s' -> (forall i, cop s i -> tab s' i = tab s i) -> (forall i, user i -> file s' i = file s i) -> quiet (look s) (look s').
Proof.
  intros G F H U. unfold quiet, look; cbn. split; [exact U|]. destruct F as (_ & A & B & C & _ & D). rewrite A, C. split; [|split; [|exact D]].
  - destruct (Z.ltb_spec (cr s) 0); [reflexivity|]. unfold file. rewrite H; [reflexivity|unfold cop; auto].
  - destruct (Z.ltb_spec (cw s) 0); [reflexivity|]. unfold file. rewrite H; [reflexivity|unfold cop; auto].
Qed.
Lemma quiet_neutral s s' : good s -> neutral s s' -> quiet (look s) (look s').
Proof.
  intros G (F & N & U). apply quiet_keep; auto. intros i I. apply N. destruct (g_cop s G i I). unfold user; lia.
Qed.
Lemma quiet_refl A : quiet A A.
Proof. unfold quiet. auto using suffix_refl. Qed.
Lemma quiet_trans A B C : quiet A B -> quiet B C -> quiet A C.
Proof.
  intros (A1 & A2 & A3 & A4) (B1 & B2 & B3 & B4). split; [intros i I; rewrite B1, A1; auto|]. split; [congruence|]. split; [congruence|]. eauto using suffix_trans.
Qed.

(** ** Saved descriptors *)
Record held (s0 : st) (sv : saved) (s : st) : Prop := {
  h_good : good s;
  h_lim : lim s = lim s0 /\ fsh s = fsh s0;
  h_out : forall i, ~ user i -> sv i = 0;
  h_val : forall i, sv i = 0 \/ (sv i = -1 /\ file s0 i = None) \/
    (10 <= sv i /\ exists f, tab s (sv i) = Some (f, true) /\ file s0 i = Some f /\ ~ cop s (sv i) /\ (tab s0 (sv i) = None \/ cop s0 (sv i)));
  h_inj : forall i j, 0 < sv i -> sv i = sv j -> i = j;
  h_priv : forall k, 10 <= k -> (forall i, sv i <> k) -> tab s k = tab s0 k \/ cop s0 k /\ tab s k = None /\ ~ cop s k;
  h_cop : forall k, cop s k -> cop s0 k
}.
(** the descriptors that have not been redirected are as before *)
Definition intact (s0 : st) (sv : saved) (s : st) : Prop := forall i, user i -> sv i = 0 -> file s i = file s0 i.

Lemma held_start s : good s -> held s (fun _ => 0) s /\ intact s (fun _ => 0) s.
Proof. intros G. split; [split; auto|intros i _ _; auto]. intros i j H. lia. Qed.
Lemma held_neutral s0 sv s s' : held s0 sv s -> neutral s s' -> held s0 sv s'.
Proof.
  intros [G (L1 & L2) O V I P C] N. pose proof (good_neutral _ _ G N) as G'. destruct N as (F & N & U). pose proof (fr_cop s s') as FC. specialize (fun i => FC i F).
  split; auto.
  - destruct F as (F1 & _ & _ & _ & F2 & _). split; congruence.
  - intros i. destruct (V i) as [V0|[V1|(V2 & f & V3 & V4 & V5 & V6)]]; auto. right. right. split; [auto|]. exists f. rewrite FC. rewrite N by (unfold user; lia). auto.
  - intros k K1 K2. rewrite FC. rewrite N by (unfold user; lia). auto.
  - intros k K. apply C. apply FC. exact K.
Qed.
Lemma intact_neutral s0 sv s s' : intact s0 sv s -> neutral s s' -> intact s0 sv s'.
Proof. intros H (_ & _ & U) i I J. rewrite U by auto. auto. Qed.

(** one more descriptor is saved *)
Lemma held_put s0 sv s s' unit n : held s0 sv s -> intact s0 sv s -> user unit -> fr s s' ->
  (sv unit <> 0 /\ n = sv unit /\ (forall i, i <> unit -> tab s' i = tab s i)) \/
  (sv unit = 0 /\ tab s unit = None /\ n = -1 /\ (forall i, i <> unit -> tab s' i = tab s i)) \/
  (sv unit = 0 /\ 10 <= n /\ tab s n = None /\ (exists g b, tab s unit = Some (g, b) /\ tab s' n = Some (g, true)) /\ (forall i, i <> unit -> i <> n -> tab s' i = tab s i)) ->
  held s0 (upd sv unit n) s' /\ intact s0 (upd sv unit n) s'.
Proof.
  intros [G (L1 & L2) O V I P C] IN U F H. pose proof (fr_cop s s') as FC. specialize (fun i => FC i F).
  assert (forall i, i < 0 \/ 10 <= i -> n <> i \/ sv unit <> 0 \/ n < 0 -> tab s' i = tab s i) as T.
  { unfold user in U. intros i I1 I2. destruct H as [(_ & _ & H)|[(_ & _ & _ & H)|(H1 & H2 & _ & _ & H)]]; try (apply H; lia). }
  assert (forall i, cop s i -> n <> i \/ sv unit <> 0 \/ n < 0) as CN.
  { intros i CI. destruct (g_cop s G i CI) as (_ & K). destruct H as [(H & _)|[(_ & _ & H & _)|(_ & _ & H & _)]]; [auto|right; right; lia|]. left. intros ->. congruence. }
  assert (good s') as G'.
  { apply (good_keep s); auto.
    - intros i I1. apply T; [lia|]. destruct H as [(H & _)|[(_ & _ & H & _)|(_ & H & _)]]; [auto|right; right; lia|lia].
    - intros i CI. destruct (g_cop s G i CI) as (K1 & K2). rewrite T; auto. }
  assert (sv unit = 0 -> file s unit = file s0 unit) as FU by (intros E; apply IN; auto).
  split; [split|].
  - exact G'.
  - destruct F as (F1 & _ & _ & _ & F2 & _). split; congruence.
  - intros i NI. unfold upd. destruct (Z.eqb_spec i unit) as [->|]; [contradiction|]. auto.
  - intros i. unfold upd. destruct (Z.eqb_spec i unit) as [->|NE].
    + destruct H as [(H1 & -> & H)|[(H1 & H2 & -> & H)|(H1 & H2 & H3 & (g & b & H4 & H5) & H)]].
      * destruct (V unit) as [V0|[V1|(V2 & f & V3 & V4 & V5 & V6)]]; auto. right. right. split; [auto|]. exists f. rewrite FC. rewrite T by lia. auto.
      * right. left. split; [auto|]. rewrite <- FU by auto. unfold file. now rewrite H2.
      * right. right. split; [lia|]. exists g. split; [auto|]. split; [rewrite <- FU by auto; unfold file; now rewrite H4|].
        assert (~ cop s n) as NC by (intros K; destruct (g_cop s G n K); congruence). split; [rewrite FC; exact NC|].
        destruct (P n H2) as [K|K]; [|left; congruence|right; tauto].
        intros j J. destruct (V j) as [V0|[V1|(V2 & f & V3 & _)]]; [lia|lia|congruence].
    + destruct (V i) as [V0|[V1|(V2 & f & V3 & V4 & V5 & V6)]]; auto. right. right. split; [auto|]. exists f. rewrite FC.
      rewrite T; [auto|lia|]. destruct H as [(H & _)|[(_ & _ & H & _)|(_ & _ & H & _)]]; [auto|right; right; lia|]. left. intros ->. congruence.
  - intros i j. unfold upd. assert (forall k, k <> unit -> 0 < n -> n = sv k -> False) as K.
    { intros k K1 K2 K3. destruct H as [(H1 & H2 & _)|[(_ & _ & H & _)|(_ & _ & H & _)]]; [apply K1; symmetry; apply I; lia|lia|].
      destruct (V k) as [V0|[V1|(V2 & f & V3 & _)]]; [lia|lia|congruence]. }
    destruct (Z.eqb_spec i unit) as [->|NE]; destruct (Z.eqb_spec j unit) as [->|NE']; intros H1 H2; auto; exfalso; [apply (K j); auto|apply (K i); auto; lia].
  - intros k K1 K2. rewrite FC. assert (n <> k) as NK by (specialize (K2 unit); unfold upd in K2; rewrite Z.eqb_refl in K2; exact K2).
    rewrite T; [|lia|auto]. apply P; [auto|]. intros i E. destruct (Z.eqb_spec i unit) as [->|NE].
    + destruct H as [(_ & H & _)|[(H & _)|(H & _)]]; lia.
    + specialize (K2 i). unfold upd in K2. destruct (Z.eqb_spec i unit); [congruence|]. auto.
  - intros k K. apply C. apply FC. exact K.
  - intros i UI. unfold upd. destruct (Z.eqb_spec i unit) as [->|NE].
    + intros N0. destruct H as [(H1 & H2 & _)|[(_ & _ & H & _)|(_ & H & _)]]; lia.
    + intros E. unfold file. replace (tab s' i) with (tab s i); [apply IN; auto|]. unfold user in UI.
      destruct H as [(_ & _ & H)|[(_ & _ & _ & H)|(_ & H2 & _ & _ & H)]]; symmetry; apply H; auto; lia.
Qed.

(** ** Restoring *)
Lemma undo_all sv l : forall s, NoDup l -> 10 < lim s ->
  (forall i, In i l -> sv i = 0 \/ user i /\ (sv i = -1 \/ 10 <= sv i /\ tab s (sv i) <> None)) ->
  (forall i j, In i l -> In j l -> 0 < sv i -> sv i = sv j -> i = j) ->
  let s' := fold_left (undo_fd sv) l s in
  fr s s' /\ orc s' = orc s /\
  (forall i, In i l -> sv i <> 0 -> file s' i = if sv i <? 0 then None else file s (sv i)) /\
  (forall k, user k -> ~ In k l \/ sv k = 0 -> tab s' k = tab s k) /\
  (forall k, 10 <= k -> (exists i, In i l /\ sv i = k) -> tab s' k = None) /\
  (forall k, ~ user k -> (forall i, In i l -> sv i = k -> k < 0) -> tab s' k = tab s k).
Proof.
  induction l as [|x l IH]; intros s ND LM V I; cbn [fold_left].
  - split; [apply fr_refl|]. split; [auto|]. split; [intros i []|]. split; [auto|]. split; [intros k _ (i & [] & _)|auto].
  - inversion ND as [|? ? NX ND']; subst.
    assert (exists s1, undo_fd sv s x = s1 /\ fr s s1 /\ orc s1 = orc s /\
      (sv x = 0 -> s1 = s) /\ (sv x = -1 -> forall i, tab s1 i = if i =? x then None else tab s i) /\
      (10 <= sv x -> exists f c, tab s (sv x) = Some (f, c) /\ forall i, tab s1 i = if i =? sv x then None else if i =? x then Some (f, false) else tab s i)) as (s1 & E & F1 & O1 & Z1 & M1 & P1).
    { eexists. split; [reflexivity|]. unfold undo_fd. destruct (Z.eqb_spec (sv x) 0) as [E|NE].
      - split; [apply fr_refl|]. split; [auto|]. split; [auto|]. split; intros; lia.
      - split; [apply fr_restfd|]. split; [apply restfd_orc|]. split; [lia|]. split.
        + intros E. rewrite E. apply restfd_closed. lia.
        + intros G. destruct (V x) as [V0|(U & [V1|(V1 & V2)])]; [left; auto|lia|lia|]. destruct (tab s (sv x)) as [(f, c)|] eqn:T; [|congruence].
          exists f, c. split; [auto|]. apply (restfd_back _ _ _ f c); auto. }
    rewrite E. assert (lim s1 = lim s) as L1 by apply F1.
    assert (user x \/ sv x = 0) as UX by (destruct (V x) as [|(U & _)]; [left; auto|auto|auto]).
    assert (sv x = 0 \/ sv x = -1 \/ 10 <= sv x) as TX by (destruct (V x) as [|(U & [|(? & _)])]; [left; auto|auto|auto|auto]).
    assert (forall k, ~ user k -> k <> sv x -> tab s1 k = tab s k) as KEEP.
    { intros k NU NK. destruct TX as [TX|[TX|TX]].
      - rewrite Z1; auto.
      - rewrite M1 by auto. destruct (Z.eqb_spec k x) as [->|]; [|auto]. destruct UX; [contradiction|lia].
      - destruct (P1 TX) as (f & c & _ & P). rewrite P. destruct (Z.eqb_spec k (sv x)); [congruence|]. destruct (Z.eqb_spec k x) as [->|]; [|auto]. destruct UX; [contradiction|lia]. }
    assert (forall i, In i l -> 0 < sv i -> sv i <> sv x) as DX.
    { intros i Hi P Q. apply NX. rewrite <- (I i x); auto; [right; auto|left; auto]. }
    destruct (IH s1 ND') as (A1 & A2 & A3 & A4 & A5 & A6).
    { lia. }
    { intros i Hi. destruct (V i) as [V0|(U & [V1|(V1 & V2)])]; [right; auto|auto|auto|]. right. split; [auto|]. right. split; [auto|].
      rewrite KEEP; auto. { unfold user; lia. } apply DX; [auto|lia]. }
    { intros i j Hi Hj. apply I; right; auto. }
    split; [eauto using fr_trans|]. split; [congruence|]. split; [|split; [|split]].
    + intros i Hi NZ. destruct (Z.eq_dec i x) as [->|NE].
      * unfold file at 1. destruct UX as [UX|UX]; [|congruence]. rewrite A4; [|auto|left; auto]. destruct TX as [TX|[TX|TX]]; [congruence| |].
        -- rewrite M1, Z.eqb_refl by auto. rewrite TX. reflexivity.
        -- destruct (P1 TX) as (f & c & T & P). rewrite P. unfold user in UX. destruct (Z.eqb_spec x (sv x)); [lia|]. rewrite Z.eqb_refl.
           replace (sv x <? 0) with false by (symmetry; apply Z.ltb_ge; lia). unfold file. rewrite T. reflexivity.
      * destruct Hi as [Hi|Hi]; [congruence|]. rewrite A3 by auto. destruct (Z.ltb_spec (sv i) 0); [auto|]. unfold file. rewrite KEEP; auto.
        { destruct (V i) as [V0|(U & [V1|(V1 & V2)])]; [right; auto|lia|lia|unfold user; lia]. } apply DX; [auto|lia].
    + intros k UK NK. rewrite A4; [|auto|]. 2:{ destruct NK as [NK|NK]; [left; intros K; apply NK; right; auto|auto]. }
      assert (k <> x \/ sv x = 0) as NKX by (destruct NK as [NK|NK]; [left; intros ->; apply NK; left; auto|destruct (Z.eq_dec k x); [subst; auto|auto]]).
      destruct TX as [TX|[TX|TX]]; [rewrite Z1; auto| |].
      * rewrite M1 by auto. destruct (Z.eqb_spec k x); [lia|auto].
      * destruct (P1 TX) as (f & c & _ & P). rewrite P. unfold user in UK. destruct (Z.eqb_spec k (sv x)); [lia|]. destruct (Z.eqb_spec k x); [lia|auto].
    + intros k GK (i & [->|Hi] & E'); [|apply A5; eauto]. rewrite A6.
      * destruct (P1 ltac:(lia)) as (f & c & _ & P). rewrite P. rewrite E', Z.eqb_refl. auto.
      * unfold user; lia.
      * intros j Hj EJ. exfalso. apply (DX j Hj); lia.
    + intros k NU H. destruct (Z.eq_dec k (sv x)) as [EK|NK].
      * assert (k < 0) by (apply (H x); [left; auto|auto]). rewrite A6; [|auto|intros; lia].
        destruct TX as [TX|[TX|TX]]; [lia| |lia]. rewrite M1 by auto. destruct (Z.eqb_spec k x) as [->|]; [|auto]. destruct UX; [contradiction|lia].
      * rewrite A6; [|auto|intros i Hi; apply H; right; auto]. auto.
Qed.

Lemma held_dec s0 sv s k : held s0 sv s -> (exists i, In i fds32 /\ sv i = k) \/ (forall i, In i fds32 -> sv i <> k).
Proof.
  intros _. destruct (in_dec Z.eq_dec k (map sv fds32)) as [H|H].
  - apply in_map_iff in H as (i & A & B). eauto.
  - right. intros i Hi E. apply H. apply in_map_iff. eauto.
Qed.
Lemma held_undo s0 sv s : held s0 sv s -> let s' := quitenv sv s in
  good s' /\ lim s' = lim s0 /\ (forall i, user i -> file s' i = if sv i =? 0 then file s i else file s0 i) /\ private_kept s0 s' /\
  (forall k, cop s' k <-> cop s k) /\ (forall k, cop s k -> tab s' k = tab s k) /\ fr s s' /\ orc s' = orc s.
Proof.
  intros H. destruct H as [G (L1 & L2) O V I P C] eqn:HE. clear HE. change (quitenv sv s) with (fold_left (undo_fd sv) fds32 s).
  destruct (undo_all sv fds32 s) as (A1 & A2 & A3 & A4 & A5 & A6).
  { apply fds32_nodup. } { apply G. }
  { intros i _. destruct (V i) as [V0|[V1|(V2 & f & V3 & _)]]; [auto| |].
    - right. split; [|tauto]. destruct (Z_le_dec 0 i), (Z_lt_dec i 10); [split; auto| | |]; exfalso; rewrite O in V1 by (unfold user; lia); lia.
    - right. split; [|right; split; [auto|congruence]]. destruct (Z_le_dec 0 i), (Z_lt_dec i 10); [split; auto| | |]; exfalso; rewrite O in V2 by (unfold user; lia); lia. }
  { intros i j _ _. apply I. }
  set (s' := fold_left (undo_fd sv) fds32 s) in *. cbn zeta. clearbody s'.
  assert (forall k, cop s' k <-> cop s k) as CC by (intros k; apply fr_cop; auto).
  assert (forall k, cop s k -> forall i, sv i <> k) as CN.
  { intros k CK i E. destruct (V i) as [V0|[V1|(V2 & f & V3 & V4 & V5 & _)]]; [| |subst; auto]; destruct (g_cop s G k CK); lia. }
  assert (forall k, cop s k -> tab s' k = tab s k) as CT.
  { intros k CK. apply A6; [destruct (g_cop s G k CK); unfold user; lia|]. intros i _ E. exfalso. apply (CN k CK i E). }
  split; [|split; [rewrite (proj1 A1); auto|split; [|split; [|split; [exact CC|split; [exact CT|split; [exact A1|exact A2]]]]]]].
  - apply (good_keep s); auto.
    + intros i I1. apply A6; [unfold user; lia|]. intros j _ _. lia.
    + intros i CI. rewrite CT by auto. apply (g_cop s G i CI).
  - intros i UI. destruct (Z.eqb_spec (sv i) 0) as [E|NE]; [unfold file; rewrite A4; auto|].
    rewrite A3; [|apply fds32_user; auto|auto]. destruct (V i) as [V0|[(V1 & V1')|(V2 & f & V3 & V4 & _)]]; [lia|rewrite V1; cbn; auto|].
    replace (sv i <? 0) with false by (symmetry; apply Z.ltb_ge; lia). unfold file at 1. rewrite V3. cbn. auto.
  - intros k GK. destruct (held_dec s0 sv s k) as [(i & Hi & E)|NK]; [split; auto| |].
    + rewrite A5; eauto. rewrite CC. destruct (V i) as [V0|[(V1 & V1')|(V2 & f & V3 & V4 & V5 & V6)]]; [lia|lia|]. rewrite E in *. destruct V6; [left; auto|right; auto].
    + rewrite A6; [|unfold user; lia|intros i Hi E; exfalso; eapply NK; eauto]. rewrite CC. apply P; [auto|]. intros i E.
      destruct (Z_le_dec 0 i), (Z_lt_dec i 10); [apply (NK i); [apply fds32_user; unfold user; lia|auto]| | |]; rewrite O in E by (unfold user; lia); lia.
Qed.

(** exec: the saved descriptors are closed, the redirections stay *)
Definition exec_fd (sv : saved) (s : st) (i : Z) : st :=
  let s := if 0 <? sv i then sys_close s (sv i) else s in if negb (fsh s) && (2 <? i) && negb (sv i =? 0) then sys_cloexec s i else s.
Lemma exec_all sv l : forall s,
  (forall i, sv i = 0 \/ user i /\ (sv i = -1 \/ 10 <= sv i)) ->
  let s' := fold_left (exec_fd sv) l s in
  fr s s' /\ orc s' = orc s /\
  (forall k, user k -> file s' k = file s k) /\
  (forall k, 10 <= k -> (exists i, In i l /\ sv i = k) -> tab s' k = None) /\
  (forall k, ~ user k -> (forall i, In i l -> sv i = k -> k < 0) -> tab s' k = tab s k) /\
  (forall k, 10 <= k -> tab s k = None -> tab s' k = None).
Proof.
  induction l as [|x l IH]; intros s V; cbn [fold_left].
  - split; [apply fr_refl|]. split; [auto|]. split; [auto|]. split; [intros k _ (i & [] & _)|auto].
  - assert (exists s1, exec_fd sv s x = s1 /\ fr s s1 /\ orc s1 = orc s /\ (forall k, user k -> file s1 k = file s k) /\ (forall k, ~ user k -> tab s1 k = if (k =? sv x) && (0 <? sv x) then None else tab s k)) as (s1 & E & F & OO & U & N).
    { eexists. split; [reflexivity|]. unfold exec_fd. set (s1 := if 0 <? sv x then sys_close s (sv x) else s).
      assert (fr s s1) as F1 by (subst s1; destruct (0 <? sv x); [apply fr_close|apply fr_refl]).
      assert (orc s1 = orc s) as O1 by (subst s1; destruct (0 <? sv x); reflexivity).
      assert (forall k, user k -> file s1 k = file s k) as U1.
      { intros k K. subst s1. destruct (Z.ltb_spec 0 (sv x)); [|auto]. unfold file. cbn. unfold upd. destruct (V x) as [|(_ & [|])]; try lia. unfold user in K. destruct (Z.eqb_spec k (sv x)); [lia|auto]. }
      assert (forall k, tab s1 k = if (k =? sv x) && (0 <? sv x) then None else tab s k) as N1.
      { intros k. subst s1. destruct (Z.ltb_spec 0 (sv x)); [|now rewrite andb_false_r]. cbn. unfold upd. destruct (k =? sv x); reflexivity. }
      clearbody s1. destruct (negb (fsh s1) && (2 <? x) && negb (sv x =? 0)) eqn:C; [|auto].
      split; [eapply fr_trans; [exact F1|apply fr_cloexec]|]. split; [unfold sys_cloexec; destruct (tab s1 x) as [[]|]; auto|].
      assert (user x) as UX. { destruct (V x) as [V0|(UX & _)]; [|auto]. rewrite V0 in C. cbn in C. rewrite andb_false_r in C. discriminate. }
      split.
      - intros k K. rewrite <- U1 by auto. unfold sys_cloexec, file. destruct (tab s1 x) as [[]|] eqn:T; [|auto]. cbn. unfold upd. destruct (Z.eqb_spec k x) as [->|]; [now rewrite T|auto].
      - intros k K. rewrite <- N1. unfold sys_cloexec. destruct (tab s1 x) as [[]|]; [|auto]. cbn. unfold upd. destruct (Z.eqb_spec k x) as [->|]; [contradiction|auto]. }
    rewrite E. destruct (IH s1 V) as (A1 & A2 & A3 & A4 & A5 & A6).
    split; [eauto using fr_trans|]. split; [congruence|]. split; [intros k K; rewrite A3, U; auto|]. split; [|split].
    + intros k K (i & [<-|Hi] & EK); [|apply A4; eauto]. apply A6; [auto|]. rewrite N by (unfold user; lia). rewrite EK, Z.eqb_refl.
      replace (0 <? k) with true by (symmetry; apply Z.ltb_lt; lia). auto.
    + intros k K H. rewrite A5; [|auto|intros i Hi; apply H; right; auto]. rewrite N by auto.
      destruct (Z.eqb_spec k (sv x)) as [EK|]; [|auto]. assert (k < 0) by (apply (H x); [left; auto|auto]). replace (0 <? sv x) with false by (symmetry; apply Z.ltb_ge; lia). auto.
    + intros k K H. apply A6; [auto|]. rewrite N by (unfold user; lia). destruct (_ && _); auto.
Qed.
Lemma held_exec s0 sv s : held s0 sv s -> let s' := c_exec sv s in
  good s' /\ lim s' = lim s0 /\ (forall i, user i -> file s' i = file s i) /\ private_kept s0 s' /\
  (forall k, cop s' k <-> cop s k) /\ (forall k, cop s k -> tab s' k = tab s k) /\ fr s s' /\ orc s' = orc s.
Proof.
  intros [G (L1 & L2) O V I P C]. change (c_exec sv s) with (fold_left (exec_fd sv) fds32 s).
  destruct (exec_all sv fds32 s) as (A1 & A2 & A3 & A5 & A6 & A7).
  { intros i. destruct (V i) as [V0|[V1|(V2 & _)]]; [auto| |]; right; (split; [|tauto]); destruct (Z_le_dec 0 i), (Z_lt_dec i 10); [split; auto| | | |split; auto| | |]; exfalso; rewrite O in * by (unfold user; lia); lia. }
  set (s' := fold_left (exec_fd sv) fds32 s) in *. cbn zeta. clearbody s'.
  assert (forall k, cop s' k <-> cop s k) as CC by (intros k; apply fr_cop; auto).
  assert (forall k, cop s k -> forall i, sv i <> k) as CN.
  { intros k CK i E. destruct (V i) as [V0|[V1|(V2 & f & V3 & V4 & V5 & _)]]; [| |subst; auto]; destruct (g_cop s G k CK); lia. }
  assert (forall k, cop s k -> tab s' k = tab s k) as CT.
  { intros k CK. apply A6; [destruct (g_cop s G k CK); unfold user; lia|]. intros i _ E. exfalso. apply (CN k CK i E). }
  split; [|split; [rewrite (proj1 A1); auto|split; [exact A3|split; [|split; [exact CC|split; [exact CT|split; [exact A1|exact A2]]]]]]].
  - apply (good_keep s); auto.
    + intros i I1. apply A6; [unfold user; lia|]. intros j _ _. lia.
    + intros i CI. rewrite CT by auto. apply (g_cop s G i CI).
  - intros k GK. destruct (held_dec s0 sv s k) as [(i & Hi & E)|NK]; [split; auto| |].
    + rewrite A5; eauto. rewrite CC. destruct (V i) as [V0|[(V1 & V1')|(V2 & f & V3 & V4 & V5 & V6)]]; [lia|lia|]. rewrite E in *. destruct V6; [left; auto|right; auto].
    + rewrite A6; [|unfold user; lia|intros i Hi E; exfalso; eapply NK; eauto]. rewrite CC. apply P; [auto|]. intros i E.
      destruct (Z_le_dec 0 i), (Z_lt_dec i 10); [apply (NK i); [apply fds32_user; unfold user; lia|auto]| | |]; rewrite O in E by (unfold user; lia); lia.
Qed.

(** ** Placing a descriptor *)
Definition touched (sv : saved) : Z -> bool := fun i => negb (sv i =? 0).
Definition stage (s : st) (sv : saved) (unit u : Z) : option (Z * st) :=
  if sv unit =? 0 then
    if u =? unit then Some (-1, s)
    else match savefd s unit with None => None | Some (n, s) => Some (short n, s) end
  else Some (sv unit, s).
Lemma stage_ok s sv unit u n s2 : user unit -> lim s <= 32768 -> stage s sv unit u = Some (n, s2) ->
  (sv unit <> 0 /\ n = sv unit /\ s2 = s) \/
  (sv unit = 0 /\ u = unit /\ n = -1 /\ s2 = s) \/
  (sv unit = 0 /\ u <> unit /\ tab s unit = None /\ n = -1 /\ s2 = s) \/
  (sv unit = 0 /\ u <> unit /\ exists g b, tab s unit = Some (g, b) /\ 10 <= n < lim s /\ tab s n = None /\
    (forall i, tab s2 i = if i =? n then Some (g, true) else tab s i) /\ fr s s2 /\ orc s2 = orc s).
Proof.
  intros U LM. unfold stage. destruct (Z.eqb_spec (sv unit) 0) as [E|NE]; [|intros [= <- <-]; auto].
  destruct (Z.eqb_spec u unit) as [->|NU]; [intros [= <- <-]; auto 6|].
  destruct (savefd s unit) as [(k, s1)|] eqn:ES; [|discriminate]. intros [= <- <-].
  apply savefd_user in ES; [|exact U]. destruct ES as [(K1 & -> & ->)|(g & b & K1 & K2 & K3 & K4 & K5 & K6)].
  - right. right. left. auto.
  - right. right. right. rewrite short_small by lia. split; [auto|]. split; [auto|]. exists g, b. auto 10.
Qed.
Lemma touch_upd sv unit n : n <> 0 -> touch (touched sv) unit (touched (upd sv unit n)).
Proof. intros N i. unfold touched, upd. destruct (Z.eqb_spec i unit); [|reflexivity]. cbn. apply Z.eqb_neq in N. now rewrite N. Qed.

Lemma place_open s0 sv s1 s unit u f c o sv' s' ex rd : held s0 sv s1 -> intact s0 sv s1 -> user unit -> 0 <= u -> tab s1 u = None ->
  (forall i, tab s i = if i =? u then Some (f, c) else tab s1 i) -> fr s1 s ->
  place s sv unit u false false ex rd = (o, sv', s') -> o <> Sys ->
  o = Done /\ held s0 sv' s' /\ intact s0 sv' s' /\ touch (touched sv) unit (touched sv') /\ fr s1 s' /\ orc s' = orc s /\
  (forall i, user i -> file s' i = if i =? unit then Some f else file s1 i) /\ (forall k, cop s1 k -> tab s' k = tab s1 k).
Proof.
  intros HE IN U U0 FU T F. pose proof (h_good _ _ _ HE) as G. unfold place. fold (stage s sv unit u).
  assert (lim s = lim s1) as LS by apply F. pose proof (g_lim s1 G) as LM.
  destruct (stage s sv unit u) as [(n, s2)|] eqn:ES; [|intros [= <- <- <-]; congruence].
  apply stage_ok in ES; [|exact U|lia]. intros H NS.
  assert (n <> 0) as N0 by (destruct ES as [(A & -> & _)|[(_ & _ & -> & _)|[(_ & _ & _ & -> & _)|(_ & _ & g & b & _ & B & _)]]]; lia).
  destruct (Z.eqb_spec u unit) as [->|NU].
  - (* the unit was closed *)
    assert (s2 = s) as -> by (destruct ES as [(_ & _ & A)|[(_ & _ & _ & A)|[(_ & A & _)|(_ & A & _)]]]; congruence).
    injection H as <- <- <-. split; [auto|].
    destruct (held_put s0 sv s1 s unit n HE IN U F) as (H1 & H2).
    { destruct ES as [(A & -> & _)|[(A & _ & -> & _)|[(_ & A & _)|(_ & A & _)]]]; [left|right; left|congruence|congruence].
      - split; [auto|]. split; [auto|]. intros i I. rewrite T. destruct (Z.eqb_spec i unit); [congruence|auto].
      - split; [auto|]. split; [auto|]. split; [auto|]. intros i I. rewrite T. destruct (Z.eqb_spec i unit); [congruence|auto]. }
    split; [exact H1|]. split; [exact H2|]. split; [apply touch_upd; exact N0|]. split; [exact F|]. split; [auto|]. split.
    + intros i UI. unfold file. rewrite T. destruct (i =? unit); reflexivity.
    + intros k CK. destruct (g_cop s1 G k CK). rewrite T. unfold user in U. destruct (Z.eqb_spec k unit); [lia|auto].
  - (* dup2 and close *)
    assert (tab s2 u = Some (f, c) /\ fr s1 s2 /\ orc s2 = orc s) as (Tu & F2 & O2).
    { destruct ES as [(_ & _ & ->)|[(_ & A & _)|[(_ & _ & _ & _ & ->)|(_ & _ & g & b & B1 & B2 & B3 & B4 & B5 & B6)]]]; [|congruence| |].
      - split; [now rewrite T, Z.eqb_refl|auto].
      - split; [now rewrite T, Z.eqb_refl|auto].
      - split; [|split; [eauto using fr_trans|auto]]. rewrite B4. destruct (Z.eqb_spec u n) as [->|]; [rewrite T, Z.eqb_refl in B3; discriminate|]. now rewrite T, Z.eqb_refl. }
    destruct (dup2_ok s2 u unit f c Tu) as (s3 & E3 & T3 & F3 & O3). { rewrite (proj1 F2). unfold user in U. lia. }
    rewrite E3 in H. injection H as <- <- <-. split; [auto|].
    assert (forall i, i <> unit -> (10 <= n -> i <> n \/ sv unit <> 0) -> tab (sys_close s3 u) i = tab s1 i) as TT.
    { intros i I1 I2. cbn. unfold upd. rewrite T3. destruct (Z.eqb_spec i u) as [->|]; [auto|]. destruct (Z.eqb_spec i unit); [congruence|].
      destruct ES as [(_ & _ & ->)|[(_ & A & _)|[(_ & _ & _ & _ & ->)|(B0 & _ & g & b & B1 & B2 & B3 & B4 & B5 & B6)]]]; [|congruence| |].
      - rewrite T. destruct (Z.eqb_spec i u); [congruence|auto].
      - rewrite T. destruct (Z.eqb_spec i u); [congruence|auto].
      - rewrite B4. destruct (Z.eqb_spec i n); [lia|]. rewrite T. destruct (Z.eqb_spec i u); [congruence|auto]. }
    assert (fr s1 (sys_close s3 u)) as FF by (eapply fr_trans; [exact F2|]; eapply fr_trans; [exact F3|apply fr_close]).
    assert (tab s unit = tab s1 unit) as TU by (rewrite T; destruct (Z.eqb_spec unit u); [congruence|auto]).
    destruct (held_put s0 sv s1 (sys_close s3 u) unit n HE IN U FF) as (H1 & H2).
    { destruct ES as [(A & -> & _)|[(_ & A & _)|[(A & _ & A2 & -> & _)|(B0 & _ & g & b & B1 & B2 & B3 & B4 & B5 & B6)]]]; [left|congruence|right; left|right; right].
      - split; [auto|]. split; [auto|]. intros i I. apply TT; auto.
      - split; [auto|]. split; [congruence|]. split; [auto|]. intros i I. apply TT; [auto|lia].
      - assert (n <> u) as NU' by (intros ->; rewrite T, Z.eqb_refl in B3; discriminate).
        split; [auto|]. split; [lia|]. split; [rewrite T in B3; destruct (n =? u); [discriminate|auto]|]. split.
        + exists g, b. split; [congruence|]. cbn. unfold upd. unfold user in U. destruct (Z.eqb_spec n u); [congruence|]. rewrite T3. destruct (Z.eqb_spec n unit); [lia|]. now rewrite B4, Z.eqb_refl.
        + intros i I1 I2. apply TT; auto. }
    split; [exact H1|]. split; [exact H2|]. split; [apply touch_upd; exact N0|]. split; [exact FF|]. split; [cbn; congruence|]. split.
    + intros i UI. destruct (Z.eqb_spec i unit) as [->|NE].
      * unfold file. cbn. unfold upd. destruct (Z.eqb_spec unit u); [congruence|]. now rewrite T3, Z.eqb_refl.
      * unfold file. rewrite TT; [auto|auto|unfold user in UI; lia].
    + intros k CK. destruct (g_cop s1 G k CK) as (K1 & K2). apply TT; [unfold user in U; lia|]. intros _.
      destruct ES as [(A & _)|[(_ & A & _)|[(A & _ & A2 & -> & _)|(B0 & _ & g & b & B1 & B2 & B3 & B4 & B5 & B6)]]]; [auto|congruence|lia|].
      left. intros ->. rewrite T in B3. destruct (n =? u); [discriminate|congruence].
Qed.

(** from an open descriptor, or closing *)
Lemma place_dup s0 sv s unit u cl n s2 : held s0 sv s -> intact s0 sv s -> user unit -> u <> unit ->
  (cl = None \/ exists f c, cl = Some f /\ tab s u = Some (f, c)) ->
  stage s sv unit u = Some (n, s2) -> forall s3,
  (match cl with None => s3 = sys_close s2 unit | Some _ => sys_dup2 s2 u unit = Some s3 end) ->
  held s0 (upd sv unit n) s3 /\ intact s0 (upd sv unit n) s3 /\ touch (touched sv) unit (touched (upd sv unit n)) /\ fr s s3 /\ orc s3 = orc s /\
  (forall i, user i -> file s3 i = if i =? unit then cl else file s i) /\ (forall k, cop s k -> tab s3 k = tab s k).
Proof.
  intros HE IN U NU CL ES s3 H3. pose proof (h_good _ _ _ HE) as G. pose proof (g_lim s G) as LM.
  apply stage_ok in ES; [|exact U|lia].
  assert (n <> 0) as N0 by (destruct ES as [(A & -> & _)|[(_ & _ & -> & _)|[(_ & _ & _ & -> & _)|(_ & _ & g & b & _ & B & _)]]]; lia).
  assert (fr s s2 /\ orc s2 = orc s) as (F2 & O2).
  { destruct ES as [(_ & _ & ->)|[(_ & _ & _ & ->)|[(_ & _ & _ & _ & ->)|(_ & _ & g & b & B1 & B2 & B3 & B4 & B5 & B6)]]]; auto using fr_refl. }
  assert (fr s2 s3 /\ orc s3 = orc s2 /\ (forall i, i <> unit -> tab s3 i = tab s2 i) /\ file s3 unit = cl) as (F3 & O3 & T3 & FU).
  { destruct CL as [->|(f & c & -> & Tu)].
    - subst s3. split; [apply fr_close|]. split; [reflexivity|]. split; [|unfold file; cbn; unfold upd; now rewrite Z.eqb_refl].
      intros i I. cbn. unfold upd. destruct (Z.eqb_spec i unit); [congruence|auto].
    - assert (tab s2 u = Some (f, c)) as Tu2.
      { destruct ES as [(_ & _ & ->)|[(_ & _ & _ & ->)|[(_ & _ & _ & _ & ->)|(_ & _ & g & b & B1 & B2 & B3 & B4 & B5 & B6)]]]; auto. rewrite B4. destruct (Z.eqb_spec u n) as [->|]; [congruence|auto]. }
      destruct (dup2_ok s2 u unit f c Tu2) as (s3' & E3 & T3 & F3 & O3). { rewrite (proj1 F2). unfold user in U. lia. }
      rewrite E3 in H3. injection H3 as <-. split; [exact F3|]. split; [exact O3|]. split; [|unfold file; now rewrite T3, Z.eqb_refl].
      intros i I. rewrite T3. destruct (Z.eqb_spec i unit); [congruence|auto]. }
  assert (fr s s3) as FF by eauto using fr_trans.
  assert (forall i, i <> unit -> (10 <= n -> i <> n \/ sv unit <> 0) -> tab s3 i = tab s i) as TT.
  { intros i I1 I2. rewrite T3 by auto. destruct ES as [(_ & _ & ->)|[(_ & _ & _ & ->)|[(_ & _ & _ & _ & ->)|(B0 & _ & g & b & B1 & B2 & B3 & B4 & B5 & B6)]]]; auto.
    rewrite B4. destruct (Z.eqb_spec i n); [lia|auto]. }
  destruct (held_put s0 sv s s3 unit n HE IN U FF) as (H1 & H2).
  { destruct ES as [(A & -> & _)|[(_ & A & _)|[(A & _ & A2 & -> & _)|(B0 & _ & g & b & B1 & B2 & B3 & B4 & B5 & B6)]]]; [left|congruence|right; left|right; right].
    - split; [auto|]. split; [auto|]. intros i I. apply TT; auto.
    - split; [auto|]. split; [auto|]. split; [auto|]. intros i I. apply TT; [auto|lia].
    - split; [auto|]. split; [lia|]. split; [auto|]. split.
      + exists g, b. split; [auto|]. rewrite T3 by (unfold user in U; lia). now rewrite B4, Z.eqb_refl.
      + intros i I1 I2. apply TT; auto. }
  split; [exact H1|]. split; [exact H2|]. split; [apply touch_upd; exact N0|]. split; [exact FF|]. split; [congruence|]. split.
  - intros i UI. destruct (Z.eqb_spec i unit) as [->|NE]; [exact FU|]. unfold file. rewrite TT; [auto|auto|unfold user in UI; lia].
  - intros k CK. destruct (g_cop s G k CK) as (K1 & K2). apply TT; [unfold user in U; lia|]. intros _.
    destruct ES as [(A & _)|[(_ & A & _)|[(A & _ & A2 & -> & _)|(B0 & _ & g & b & B1 & B2 & B3 & B4 & B5 & B6)]]]; [auto|congruence|lia|]. left. intros ->. congruence.
Qed.

(** giving up the coprocess *)
Lemma held_drop s0 sv s s' (D : Z -> Prop) : held s0 sv s -> lim s' = lim s -> fsh s' = fsh s -> good s' -> (forall k, D k \/ ~ D k) ->
  (forall k, cop s' k -> cop s k) -> (forall k, D k -> cop s k /\ tab s' k = None /\ ~ cop s' k) -> (forall k, ~ D k -> tab s' k = tab s k) ->
  held s0 sv s'.
Proof.
  intros [G (L1 & L2) O V I P C] EL EF G' DD C1 D1 T. split; auto.
  - split; congruence.
  - intros i. destruct (V i) as [V0|[V1|(V2 & f & V3 & V4 & V5 & V6)]]; auto. right. right. split; [auto|]. exists f. rewrite T; [auto 10|]. intros K. apply D1 in K as (K & _). contradiction.
  - intros k K1 K2. destruct (DD k) as [K|K]; [destruct (D1 k K) as (A & B & E); right; auto|]. rewrite T by auto. destruct (P k K1 K2) as [|(A & B & E)]; [auto|]. right. split; [auto|]. split; [auto|]. intros X. apply E. auto.
Qed.
Lemma cop_write s : good s -> 0 <= cw s -> exists s', coproc_write_close s (cw s) = s' /\ good s' /\ lim s' = lim s /\ fsh s' = fsh s /\ orc s' = orc s /\
  cr s' = cr s /\ cw s' = -1 /\ (forall k, cop s' k -> cop s k) /\ ~ cop s' (cw s) /\ (forall k, tab s' k = if k =? cw s then None else tab s k).
Proof.
  intros G H. eexists. split; [reflexivity|]. unfold coproc_write_close. replace (0 <=? cw s) with true by (symmetry; apply Z.leb_le; lia). rewrite Z.eqb_refl. cbn.
  destruct G as [G1 G2 G3 (G4 & G5)].
  assert (forall k, cop (with_cop (sys_close s (cw s)) (cr s) (crw s) (-1)) k -> cop s k) as C1 by (unfold cop; cbn; intros k K; intuition lia).
  assert (~ cop (with_cop (sys_close s (cw s)) (cr s) (crw s) (-1)) (cw s)) as C2 by (unfold cop; cbn; intros K; intuition lia).
  split; [|split; [auto|]; split; [auto|]; split; [auto|]; split; [auto|]; split; [auto|]; split; [exact C1|]; split; [exact C2|]; reflexivity].
  split; cbn; auto.
  - intros i I. unfold upd. rewrite G2 by auto. destruct (i =? cw s); auto.
  - intros i K. pose proof (C1 i K) as K1. split; [apply G3; auto|]. unfold upd. destruct (Z.eqb_spec i (cw s)) as [->|]; [contradiction|apply G3; auto].
  - split; [intros K; split; [apply G4; auto|lia]|lia].
Qed.
Lemma cop_read s : good s -> 0 <= cr s -> exists s', coproc_read_close s (cr s) = s' /\ good s' /\ lim s' = lim s /\ fsh s' = fsh s /\ orc s' = orc s /\
  cw s' = cw s /\ cr s' = -1 /\ (forall k, cop s' k -> cop s k) /\ ~ cop s' (cr s) /\ ~ cop s' (crw s) /\ (forall k, 0 <= k -> tab s' k = if (k =? cr s) || (k =? crw s) then None else tab s k).
Proof.
  intros G H. eexists. split; [reflexivity|]. unfold coproc_read_close. replace (0 <=? cr s) with true by (symmetry; apply Z.leb_le; lia). rewrite Z.eqb_refl. cbn [andb].
  unfold coproc_readw_close. replace (0 <=? cr s) with true by (symmetry; apply Z.leb_le; lia). rewrite Z.eqb_refl, !andb_true_r.
  destruct G as [G1 G2 G3 (G4 & G5)]. specialize (G4 H).
  destruct (Z.leb_spec 0 (crw s)) as [W|W].
  - set (s' := with_cop _ _ _ _).
    assert (forall k, cop s' k -> cop s k) as C1 by (unfold cop, s'; cbn; intros k K; intuition lia).
    assert (~ cop s' (cr s)) as C2 by (unfold cop, s'; cbn; intros K; intuition lia).
    assert (~ cop s' (crw s)) as C3 by (unfold cop, s'; cbn; intros K; intuition lia).
    assert (forall k, tab s' k = if (k =? cr s) || (k =? crw s) then None else tab s k) as T.
    { intros k. unfold s'. cbn. unfold upd. destruct (k =? cr s), (k =? crw s); reflexivity. }
    split; [|split; [auto|]; split; [auto|]; split; [auto|]; split; [auto|]; split; [auto|]; split; [exact C1|]; split; [exact C2|]; split; [exact C3|]; auto].
    split; auto.
    + intros i I. rewrite T, G2 by auto. destruct (_ || _); auto.
    + intros i K. pose proof (C1 i K) as K1. split; [apply G3; auto|]. rewrite T. destruct (Z.eqb_spec i (cr s)) as [->|]; [contradiction|]. destruct (Z.eqb_spec i (crw s)) as [->|]; [contradiction|]. cbn. apply G3; auto.
  - set (s' := with_cop _ _ _ _).
    assert (forall k, cop s' k -> cop s k) as C1 by (unfold cop, s'; cbn; intros k K; intuition lia).
    assert (~ cop s' (cr s)) as C2 by (unfold cop, s'; cbn; intros K; intuition lia).
    assert (~ cop s' (crw s)) as C3 by (unfold cop, s'; cbn; intros K; intuition lia).
    assert (forall k, tab s' k = if k =? cr s then None else tab s k) as T by reflexivity.
    split; [|split; [auto|]; split; [auto|]; split; [auto|]; split; [auto|]; split; [auto|]; split; [exact C1|]; split; [exact C2|]; split; [exact C3|]].
    2:{ intros k K. rewrite T. destruct (Z.eqb_spec k (cr s)); [auto|]. destruct (Z.eqb_spec k (crw s)); [lia|auto]. }
    split; auto.
    + intros i I. rewrite T, G2 by auto. destruct (i =? cr s); auto.
    + intros i K. pose proof (C1 i K) as K1. split; [apply G3; auto|]. rewrite T. destruct (Z.eqb_spec i (cr s)) as [->|]; [contradiction|]. apply G3; auto.
Qed.

(** ** One redirection, and lists of them *)
Lemma put_look s s' B unit v : good s -> fr s s' -> orc s' = vo B -> quiet (look s) B -> (forall k, cop s k -> tab s' k = tab s k) ->
  (forall i, user i -> file s' i = if i =? unit then v else file s i) -> put B unit v (look s').
Proof.
  intros G F O (Q1 & Q2 & Q3 & _) C U. unfold put. split; [intros i I; cbn; rewrite U, Q1; auto|].
  pose proof (quiet_keep s s') as _. destruct F as (_ & A1 & A2 & A3 & _). split; [|split; [|exact O]].
  - rewrite Q2. cbn. rewrite A1. destruct (Z.ltb_spec (cr s) 0); [auto|]. unfold file. rewrite C; [auto|unfold cop; auto].
  - rewrite Q3. cbn. rewrite A3. destruct (Z.ltb_spec (cw s) 0); [auto|]. unfold file. rewrite C; [auto|unfold cop; auto].
Qed.

(** the view in the middle of an open *)
Definition mid (s s' : st) : view := View (file s) (vr (look s)) (vw (look s)) (orc s').
Lemma mid_quiet s s' : fr s s' -> quiet (look s) (mid s s').
Proof. intros F. unfold quiet, mid; cbn. repeat (split; [auto|]). apply F. Qed.
Lemma mid_opened s s' f : fr s s' -> orc s = Some f :: orc s' -> opened (look s) (Some f) (mid s s').
Proof. intros F O. split; [apply mid_quiet; auto|]. exact O. Qed.
Lemma open_fail s s' : good s -> tab s' = tab s -> fr s s' -> orc s = orc s' \/ (exists x, orc s = x :: orc s') -> opened (look s) None (look s').
Proof.
  intros G T F O. split; [|exact O]. apply quiet_keep; auto; intros i _; [|unfold file]; now rewrite T.
Qed.
Lemma neutral_tab s s' : tab s' = tab s -> fr s s' -> neutral s s'.
Proof. intros T F. split; [auto|]. unfold file. rewrite T. auto. Qed.

(** two descriptors are opened and something neutral happens *)
Lemma over_open s u f s1 : 0 <= u -> tab s u = None -> (forall i, tab s1 i = if i =? u then Some (f, false) else tab s i) -> fr s s1 -> good s -> good s1.
Proof.
  intros U0 T T1 F G. apply (good_keep s); auto.
  - intros i I. rewrite T1. destruct (Z.eqb_spec i u); [lia|auto].
  - intros i I. rewrite T1. destruct (i =? u); [discriminate|]. apply (g_cop s G i I).
Qed.
Lemma neutral_back s u f s1 s2 : 0 <= u -> tab s u = None -> (forall i, tab s1 i = if i =? u then Some (f, false) else tab s i) -> fr s s1 ->
  neutral s1 s2 -> neutral s (sys_close s2 u).
Proof.
  intros U0 T T1 F (F2 & N & U). split; [eapply fr_trans; [exact F|]; eapply fr_trans; [exact F2|apply fr_close]|]. split.
  - intros i I. cbn. unfold upd. destruct (Z.eqb_spec i u) as [->|NE]; [auto|]. rewrite N by auto. rewrite T1. destruct (Z.eqb_spec i u); [congruence|auto].
  - intros i I. unfold file at 1. cbn. unfold upd. destruct (Z.eqb_spec i u) as [->|NE]; [unfold file; now rewrite T|].
    change (file s2 i = file s i). rewrite U by auto. unfold file. rewrite T1. destruct (Z.eqb_spec i u); [congruence|auto].
Qed.

Lemma iosetup_ok ex s0 i sv s o sv' s' : held s0 sv s -> intact s0 sv s -> io_ok i -> iosetup ex i sv s = (o, sv', s') -> o <> Sys ->
  held s0 sv' s' /\ intact s0 sv' s' /\ rstep ex i (look s) (touched sv) o (look s') (touched sv').
Proof.
  intros HE IN OK. pose proof (h_good _ _ _ HE) as G. destruct i as [unit w|unit w|unit rd w src|unit w|w]; cbn [io_ok] in OK; unfold iosetup.
  - (* open *)
    destruct (expand w s) as (o1, s1) eqn:EX. intros H NS.
    assert (o1 <> Sys) as NS1 by (destruct o1; congruence). apply expand_ok in EX as (EO & N1); auto.
    pose proof (held_neutral _ _ _ _ HE N1) as HE1. pose proof (intact_neutral _ _ _ _ IN N1) as IN1. pose proof (quiet_neutral _ _ G N1) as Q1.
    pose proof (h_good _ _ _ HE1) as G1.
    destruct (werr w) eqn:W; subst o1.
    + injection H as <- <- <-. split; [exact HE1|]. split; [exact IN1|]. apply R_err; auto. discriminate.
    + destruct (sys_open s1) as ([u|], s2) eqn:EO.
      * apply sys_open_some in EO as (f & A1 & A2 & A3 & A4 & A5).
        destruct (place_open s0 sv s1 s2 unit u f false o sv' s' ex false HE1 IN1 OK ltac:(lia) A2 A3 A4 H NS) as (-> & B1 & B2 & B3 & B4 & B5 & B6 & B7).
        split; [exact B1|]. split; [exact B2|]. apply (R_open ex unit w (look s) _ (look s1) f (mid s1 s2)); auto.
        -- apply mid_opened; auto.
        -- apply (put_look s1); auto. apply mid_quiet; auto.
      * apply sys_open_none in EO as (A1 & A2 & A3). injection H as <- <- <-. pose proof (neutral_tab s1 s2 A1 A2) as N2.
        split; [eapply held_neutral; eauto|]. split; [eapply intact_neutral; eauto|]. apply (R_open_fail ex unit w _ _ (look s1)); auto. apply open_fail; auto.
  - (* here *)
    unfold herein. destruct (sys_open s) as ([t|], s1) eqn:ET.
    2:{ apply sys_open_none in ET as (A1 & A2 & A3). intros H NS. injection H as <- <- <-. pose proof (neutral_tab s s1 A1 A2) as N2.
        split; [eapply held_neutral; eauto|]. split; [eapply intact_neutral; eauto|]. apply (R_here_fail ex unit w _ _ (look s)); auto. apply open_fail; auto. }
    apply sys_open_some in ET as (ft & A1 & A2 & A3 & A4 & A5). pose proof (over_open s t ft s1 ltac:(lia) A2 A3 A4 G) as G1.
    destruct (sys_open s1) as ([u|], s2) eqn:EU.
    2:{ apply sys_open_none in EU as (B1 & B2 & B3). intros H NS. injection H as <- <- <-. pose proof (neutral_tab s1 s2 B1 B2) as N2.
        pose proof (neutral_back s t ft s1 s2 ltac:(lia) A2 A3 A4 N2) as N.
        split; [eapply held_neutral; eauto|]. split; [eapply intact_neutral; eauto|].
        apply (R_here_fail ex unit w _ _ (mid s s1)); [right; exists ft; apply mid_opened; auto|].
        split; [|cbn; exact B3]. pose proof (quiet_neutral _ _ G N) as (Q1 & Q2 & Q3 & _). unfold quiet. split; [exact Q1|]. split; [exact Q2|]. split; [exact Q3|]. apply B2. }
    apply sys_open_some in EU as (fu & B1 & B2 & B3 & B4 & B5). pose proof (over_open s1 u fu s2 ltac:(lia) B2 B3 B4 G1) as G2.
    destruct (expand w s2) as (o3, s3) eqn:EX. intros H NS.
    assert (o3 <> Sys) as NS3 by (destruct o3; [| | |injection H as <- <- <-]; congruence). apply expand_ok in EX as (EO & N3); auto.
    destruct (werr w) eqn:W; subst o3.
    + injection H as <- <- <-.
      (* close t, then u *)
      assert (neutral s (sys_close (sys_close s3 t) u)) as N.
      { split; [eapply fr_trans; [exact A4|]; eapply fr_trans; [exact B4|]; eapply fr_trans; [apply N3|]; eapply fr_trans; apply fr_close|].
        assert (t <> u) as TU by (intros ->; rewrite A3, Z.eqb_refl in B2; discriminate).
        assert (tab s u = None) as Tu by (rewrite A3 in B2; destruct (u =? t); [discriminate|auto]). destruct N3 as (_ & N3 & U3). split.
        - intros i I. cbn. unfold upd. destruct (Z.eqb_spec i u) as [->|]; [auto|]. destruct (Z.eqb_spec i t) as [->|]; [auto|].
          rewrite N3 by auto. rewrite B3, A3. destruct (Z.eqb_spec i u); [congruence|]. destruct (Z.eqb_spec i t); [congruence|auto].
        - intros i I. unfold file at 1. cbn. unfold upd. destruct (Z.eqb_spec i u) as [->|]; [unfold file; now rewrite Tu|]. destruct (Z.eqb_spec i t) as [->|]; [unfold file; now rewrite A2|].
          change (file s3 i = file s i). rewrite U3 by auto. unfold file. rewrite B3, A3. destruct (Z.eqb_spec i u); [congruence|]. destruct (Z.eqb_spec i t); [congruence|auto]. }
      split; [eapply held_neutral; eauto|]. split; [eapply intact_neutral; eauto|].
      apply (R_here_err ex unit w _ _ ft (mid s s1) fu (View (file s) (vr (look s)) (vw (look s)) (orc s2))); auto.
      * apply mid_opened; auto.
      * split; [unfold quiet, mid; cbn; repeat (split; [auto|]); apply B4|exact B5].
      * pose proof (quiet_neutral _ _ G N) as (Q1 & Q2 & Q3 & _). unfold quiet. split; [exact Q1|]. split; [exact Q2|]. split; [exact Q3|]. cbn. apply N3.
    + (* s4 := without t: as if only u had been opened *)
      set (s4 := sys_close s3 t) in H.
      assert (t <> u) as TU by (intros ->; rewrite A3, Z.eqb_refl in B2; discriminate).
      assert (tab s u = None) as Tu by (rewrite A3 in B2; destruct (u =? t); [discriminate|auto]).
      set (s5 := sys_close s4 u).
      assert (neutral s s5) as N5.
      { split; [eapply fr_trans; [exact A4|]; eapply fr_trans; [exact B4|]; eapply fr_trans; [apply N3|]; eapply fr_trans; apply fr_close|].
        destruct N3 as (_ & N3 & U3). split.
        - intros i I. cbn. unfold upd. destruct (Z.eqb_spec i u) as [->|]; [auto|]. destruct (Z.eqb_spec i t) as [->|]; [auto|].
          rewrite N3 by auto. rewrite B3, A3. destruct (Z.eqb_spec i u); [congruence|]. destruct (Z.eqb_spec i t); [congruence|auto].
        - intros i I. unfold file at 1. cbn. unfold upd. destruct (Z.eqb_spec i u) as [->|]; [unfold file; now rewrite Tu|]. destruct (Z.eqb_spec i t) as [->|]; [unfold file; now rewrite A2|].
          change (file s3 i = file s i). rewrite U3 by auto. unfold file. rewrite B3, A3. destruct (Z.eqb_spec i u); [congruence|]. destruct (Z.eqb_spec i t); [congruence|auto]. }
      pose proof (held_neutral _ _ _ _ HE N5) as HE5. pose proof (intact_neutral _ _ _ _ IN N5) as IN5. pose proof (quiet_neutral _ _ G N5) as Q5.
      assert (exists c, tab s4 u = Some (fu, c)) as (c & Tc).
      { assert (file s4 u = Some fu) as FU.
        { unfold file, s4. cbn. unfold upd. destruct (Z.eqb_spec u t); [congruence|]. destruct N3 as (_ & N3 & U3).
          destruct (Z_lt_dec u 10).
          - change (file s3 u = Some fu). rewrite U3 by (unfold user; lia). unfold file. now rewrite B3, Z.eqb_refl.
          - rewrite N3 by (unfold user; lia). now rewrite B3, Z.eqb_refl. }
        unfold file in FU. destruct (tab s4 u) as [(x, c)|]; [|discriminate]. injection FU as ->. eauto. }
      assert (fr s5 s4) as F54 by (unfold fr, s5; cbn; repeat (split; [auto|]); apply suffix_refl).
      destruct (place_open s0 sv s5 s4 unit u fu c o sv' s' ex false) as (-> & C1 & C2 & C3 & C4 & C5 & C6 & C7); auto; [lia|..].
      { unfold s5. cbn. unfold upd. now rewrite Z.eqb_refl. }
      { intros i. unfold s5. cbn [tab sys_close with_tab]. unfold upd at 1. destruct (Z.eqb_spec i u) as [->|]; auto. }
      split; [exact C1|]. split; [exact C2|].
      apply (R_here ex unit w _ _ ft (mid s s1) fu (View (file s) (vr (look s)) (vw (look s)) (orc s2)) (look s5)); auto.
      * apply mid_opened; auto.
      * split; [unfold quiet, mid; cbn; repeat (split; [auto|]); apply B4|exact B5].
      * destruct Q5 as (Q1 & Q2 & Q3 & _). unfold quiet. split; [exact Q1|]. split; [exact Q2|]. split; [exact Q3|]. cbn. apply N3.
      * apply (put_look s5); auto; [apply (good_neutral s); auto|apply quiet_refl].
  - (* dup *)
    destruct OK as (OK & OD). destruct (expand w s) as (o1, s1) eqn:EX. intros H NS.
    assert (o1 <> Sys) as NS1 by (destruct o1; congruence). apply expand_ok in EX as (EO & N1); auto.
    pose proof (held_neutral _ _ _ _ HE N1) as HE1. pose proof (intact_neutral _ _ _ _ IN N1) as IN1. pose proof (quiet_neutral _ _ G N1) as Q1.
    pose proof (h_good _ _ _ HE1) as G1.
    destruct (werr w) eqn:W; subst o1; [injection H as <- <- <-; split; [exact HE1|]; split; [exact IN1|]; apply R_err; auto; discriminate|].
    set (u := match src with Digit d => _ | Coproc => _ end) in H.
    assert (u < 0 -> source (look s1) rd src = None) as SN.
    { intros HU. subst u. destruct src as [d|]; cbn.
      - unfold file. destruct (tab s1 d); [unfold user in OD; lia|reflexivity].
      - destruct rd; [replace (cr s1 <? 0) with true by (symmetry; apply Z.ltb_lt; lia); auto|replace (cw s1 <? 0) with true by (symmetry; apply Z.ltb_lt; lia); auto]. }
    assert (0 <= u -> exists f c, source (look s1) rd src = Some f /\ tab s1 u = Some (f, c)) as SS.
    { intros HU. subst u. destruct src as [d|]; cbn.
      - unfold file. destruct (tab s1 d) as [(f, c)|] eqn:E; [exists f, c; rewrite E; auto|lia].
      - destruct rd.
        + replace (cr s1 <? 0) with false by (symmetry; apply Z.ltb_ge; lia). destruct (g_cop s1 G1 (cr s1)) as (_ & K); [unfold cop; auto|]. unfold file. destruct (tab s1 (cr s1)) as [(f, c)|]; [|congruence]. cbn. eauto.
        + replace (cw s1 <? 0) with false by (symmetry; apply Z.ltb_ge; lia). destruct (g_cop s1 G1 (cw s1)) as (_ & K); [unfold cop; auto|]. unfold file. destruct (tab s1 (cw s1)) as [(f, c)|]; [|congruence]. cbn. eauto. }
    destruct (Z.ltb_spec u 0) as [UN|UP].
    { injection H as <- <- <-. split; [exact HE1|]. split; [exact IN1|]. apply R_dup_fail; auto. }
    destruct (SS UP) as (f & c & SF & TF). destruct (Z.eqb_spec u unit) as [EU|NU].
    { injection H as <- <- <-. split; [exact HE1|]. split; [exact IN1|].
      assert (src = Digit unit) as ->.
      { subst u. destruct src as [d|]; [f_equal; destruct (tab s1 d); [auto|lia]|]. exfalso. unfold user in OK. destruct rd; [destruct (g_cop s1 G1 (cr s1)); [unfold cop; auto|lia]|destruct (g_cop s1 G1 (cw s1)); [unfold cop; auto|lia]]. }
      eapply R_dup_self; eauto. }
    assert (src <> Digit unit) as NSRC by (intros ->; subst u; destruct (tab s1 unit); [congruence|lia]).
    unfold place in H. fold (stage s1 sv unit u) in H. destruct (stage s1 sv unit u) as [(n, s2)|] eqn:ES; [|injection H as <- <- <-; congruence].
    destruct (Z.eqb_spec u unit) as [|_]; [congruence|].
    assert (exists s3, sys_dup2 s2 u unit = Some s3) as (s3 & E3).
    { pose proof ES as ES'. apply stage_ok in ES; [|exact OK|apply G1].
      assert (lim s2 = lim s1 /\ tab s2 u = Some (f, c)) as (L2 & T2).
      { destruct ES as [(_ & _ & ->)|[(_ & _ & _ & ->)|[(_ & _ & _ & _ & ->)|(_ & _ & g & b & B1 & B2 & B3 & B4 & B5 & B6)]]]; auto.
        split; [apply B5|]. rewrite B4. destruct (Z.eqb_spec u n) as [->|]; [congruence|auto]. }
      destruct (dup2_ok s2 u unit f c T2) as (s3 & E3 & _); [|eauto]. pose proof (g_lim s1 G1). unfold user in OK. lia. }
    rewrite E3 in H. destruct (place_dup s0 sv s1 unit u (Some f) n s2 HE1 IN1 OK NU) with (s3 := s3) as (C1 & C2 & C3 & C4 & C5 & C6 & C7); [right; eauto|exact ES|exact E3|].
    pose proof (h_good _ _ _ C1) as G3.
    assert (put (look s1) unit (Some f) (look s3)) as PUT by (apply (put_look s1); auto; apply quiet_refl).
    injection H as <- <- <-.
    (* the coprocess *)
    set (s4 := if ex then _ else s3).
    assert (held s0 (upd sv unit n) s4 /\ forget ex rd src (look s3) (look s4) /\ forall i, user i -> tab s4 i = tab s3 i) as (D1 & D2 & D3).
    { assert (held s0 (upd sv unit n) s3 /\ forget false rd src (look s3) (look s3) /\ forall i, user i -> tab s3 i = tab s3 i) as TRIV by (split; [auto|]; split; [unfold forget; auto|auto]).
      destruct ex; [|exact TRIV]. subst s4. destruct C4 as (_ & CR & CRW & CW & _). destruct rd.
      - destruct src as [d|].
        + unfold coproc_read_close. destruct (Z.leb_spec 0 (cr s3)) as [HC|HC]; cbn [andb]; [|exact TRIV]. destruct (Z.eqb_spec u (cr s3)) as [EU|]; [|exact TRIV]. exfalso.
          destruct (g_cop s3 G3 (cr s3)) as (K & _); [unfold cop; auto|]. subst u. destruct (tab s1 d); unfold user in OD; lia.
        + assert (u = cr s3) as -> by (subst u; congruence). destruct (cop_read s3 G3 UP) as (s5 & E5 & K1 & K2 & K3 & K4 & K5 & K6 & K7 & K8 & K9 & K10). rewrite E5.
          assert (forall i, user i -> tab s5 i = tab s3 i) as KU.
          { intros i I. unfold user in I. rewrite K10 by lia. destruct (g_cop s3 G3 (cr s3)) as (M & _); [unfold cop; auto|]. destruct (Z.eqb_spec i (cr s3)); [lia|]. cbn.
            destruct (Z.eqb_spec i (crw s3)) as [->|]; [|auto]. destruct (g_cop s3 G3 (crw s3)) as (M' & _); [unfold cop; split; [lia|auto]|lia]. }
          split; [|split; [|exact KU]].
          * apply (held_drop s0 _ s3 s5 (fun k => 0 <= k /\ (k = cr s3 \/ k = crw s3))); auto.
            -- intros k. lia.
            -- intros k (Kk & [->| ->]); (split; [unfold cop; auto|]); (split; [rewrite K10, ?Z.eqb_refl, ?orb_true_r by lia; auto|auto]).
            -- intros k Nk. destruct (Z_lt_dec k 0); [rewrite (g_neg s3 G3), (g_neg s5 K1) by lia; auto|]. rewrite K10 by lia. destruct (Z.eqb_spec k (cr s3)); [lia|]. destruct (Z.eqb_spec k (crw s3)); [lia|auto].
          * unfold forget. split; [|split; [cbn; congruence|]].
            -- intros i I. cbn. unfold file. now rewrite KU.
            -- cbn. rewrite K6, K5. cbn. split; [auto|]. destruct (Z.ltb_spec (cw s3) 0); [auto|]. unfold file. rewrite K10 by lia.
               destruct (g_dist s3 G3) as (M1 & M2). destruct (Z.eqb_spec (cw s3) (cr s3)); [lia|]. destruct (Z.eqb_spec (cw s3) (crw s3)); [lia|auto].
      - destruct src as [d|].
        + unfold coproc_write_close. destruct (Z.leb_spec 0 (cw s3)) as [HC|HC]; cbn [andb]; [|exact TRIV]. destruct (Z.eqb_spec u (cw s3)) as [EU|]; [|exact TRIV]. exfalso.
          destruct (g_cop s3 G3 (cw s3)) as (K & _); [unfold cop; auto|]. subst u. destruct (tab s1 d); unfold user in OD; lia.
        + assert (u = cw s3) as -> by (subst u; congruence). destruct (cop_write s3 G3 UP) as (s5 & E5 & K1 & K2 & K3 & K4 & K5 & K6 & K7 & K8 & K9). rewrite E5.
          assert (forall i, user i -> tab s5 i = tab s3 i) as KU.
          { intros i I. unfold user in I. rewrite K9. destruct (g_cop s3 G3 (cw s3)) as (M & _); [unfold cop; auto|]. destruct (Z.eqb_spec i (cw s3)); [lia|auto]. }
          split; [|split; [|exact KU]].
          * apply (held_drop s0 _ s3 s5 (fun k => k = cw s3)); auto.
            -- intros k. lia.
            -- intros k ->. split; [unfold cop; auto|]. split; [rewrite K9, Z.eqb_refl; auto|auto].
            -- intros k Nk. rewrite K9. destruct (Z.eqb_spec k (cw s3)); [congruence|auto].
          * unfold forget. split; [intros i I; cbn; unfold file; now rewrite KU|]. split; [cbn; congruence|].
            cbn. rewrite K6, K5. cbn. split; [|auto]. destruct (Z.ltb_spec (cr s3) 0); [auto|]. unfold file. rewrite K9.
            destruct (g_dist s3 G3) as (M1 & M2). destruct (Z.eqb_spec (cr s3) (cw s3)); [lia|auto]. }
    split; [exact D1|]. split; [intros i I1 I2; unfold file; rewrite D3 by auto; apply C2; auto|].
    eapply R_dup; eauto.
  - (* close *)
    destruct (expand w s) as (o1, s1) eqn:EX. intros H NS.
    assert (o1 <> Sys) as NS1 by (destruct o1; congruence). apply expand_ok in EX as (EO & N1); auto.
    pose proof (held_neutral _ _ _ _ HE N1) as HE1. pose proof (intact_neutral _ _ _ _ IN N1) as IN1. pose proof (quiet_neutral _ _ G N1) as Q1.
    pose proof (h_good _ _ _ HE1) as G1.
    destruct (werr w) eqn:W; subst o1; [injection H as <- <- <-; split; [exact HE1|]; split; [exact IN1|]; apply R_err; auto; discriminate|].
    destruct (Z.eqb_spec 1009 unit) as [EU|NU]; [unfold user in OK; lia|].
    unfold place in H. fold (stage s1 sv unit 1009) in H. destruct (stage s1 sv unit 1009) as [(n, s2)|] eqn:ES; [|injection H as <- <- <-; congruence].
    injection H as <- <- <-.
    destruct (place_dup s0 sv s1 unit 1009 None n s2 HE1 IN1 OK NU) with (s3 := sys_close s2 unit) as (C1 & C2 & C3 & C4 & C5 & C6 & C7); [auto|exact ES|reflexivity|].
    split; [exact C1|]. split; [exact C2|]. eapply R_close; eauto. apply (put_look s1); auto. apply quiet_refl.
  - (* refused *)
    destruct (expand w s) as (o1, s1) eqn:EX. intros H NS.
    assert (o1 <> Sys) as NS1 by (destruct o1; congruence). apply expand_ok in EX as (EO & N1); auto.
    pose proof (held_neutral _ _ _ _ HE N1) as HE1. pose proof (intact_neutral _ _ _ _ IN N1) as IN1. pose proof (quiet_neutral _ _ G N1) as Q1.
    destruct (werr w) eqn:W; subst o1; injection H as <- <- <-; (split; [exact HE1|]; split; [exact IN1|]); [apply R_err; auto; discriminate|apply R_bad; auto].
Qed.

Lemma io_all_ok ex s0 l : forall sv s o sv' s', held s0 sv s -> intact s0 sv s -> Forall io_ok l -> io_all ex l sv s = (o, sv', s') -> o <> Sys ->
  held s0 sv' s' /\ rsteps ex l (look s) (touched sv) o (look s') (touched sv').
Proof.
  induction l as [|i l IH]; cbn [io_all]; intros sv s o sv' s' HE IN OK H NS.
  - injection H as <- <- <-. split; [auto|]. constructor.
  - destruct (iosetup ex i sv s) as ((o1, sv1), s1) eqn:E. inversion OK as [|? ? OK1 OK2]; subst.
    assert (o1 <> Sys) as NS1 by (destruct o1; congruence).
    destruct (iosetup_ok ex s0 i sv s o1 sv1 s1 HE IN OK1 E NS1) as (H1 & H2 & H3).
    destruct o1; try congruence.
    + destruct (IH sv1 s1 o sv' s' H1 H2 OK2 H NS) as (K1 & K2). split; [auto|]. eapply Rs_cons; eauto.
    + injection H as <- <- <-. split; [auto|]. apply Rs_stop; [auto|discriminate].
    + injection H as <- <- <-. split; [auto|]. apply Rs_stop; [auto|discriminate].
Qed.

(** ** Commands *)
Definition kept (s s' : st) : Prop := good s' /\ lim s' = lim s /\ fsh s' = fsh s /\ private_kept s s' /\ (forall k, cop s' k -> cop s k).
Lemma kept_trans a b c : kept a b -> kept b c -> kept a c.
Proof.
  intros (A1 & A2 & A3 & A4 & A5) (B1 & B2 & B3 & B4 & B5). split; [auto|]. split; [congruence|]. split; [congruence|]. split; [|auto].
  intros i I. destruct (A4 i I) as [E|(E1 & E2 & E3)], (B4 i I) as [F|(F1 & F2 & F3)].
  - left. congruence.
  - right. auto.
  - right. split; [auto|]. split; [congruence|]. auto.
  - right. auto.
Qed.
Lemma kept_neutral s s' : good s -> neutral s s' -> kept s s'.
Proof.
  intros G N. pose proof (good_neutral _ _ G N) as G'. destruct N as (F & N & _). split; [auto|]. split; [apply F|]. split; [apply F|]. split.
  - intros i I. left. apply N. unfold user; lia.
  - intros k. apply (fr_cop s s' k F).
Qed.
Lemma held_body s0 sv s s' : held s0 sv s -> kept s s' -> held s0 sv s'.
Proof.
  intros [G (L1 & L2) O V I P C] (G' & K1 & K2 & K3 & K4). split; auto.
  - split; congruence.
  - intros i. destruct (V i) as [V0|[V1|(V2 & f & V3 & V4 & V5 & V6)]]; auto. right. right. split; [auto|]. exists f.
    destruct (K3 (sv i) V2) as [E|(E & _)]; [|contradiction]. rewrite E. auto 10.
  - intros k Kk NK. destruct (K3 k Kk) as [E|(E1 & E2 & E3)].
    + rewrite E. destruct (P k Kk NK) as [|(Q1 & Q2 & Q3)]; [auto|]. right. split; [auto|]. split; [auto|]. intros X. apply Q3. auto.
    + right. split; [auto|]. auto.
Qed.
Lemma same_look s s' : good s -> fr s s' -> orc s' = orc s -> (forall k, cop s k -> tab s' k = tab s k) -> (forall i, user i -> file s' i = file s i) -> same (look s) (look s').
Proof.
  intros G F O C U. destruct (quiet_keep s s' G F C U) as (Q1 & Q2 & Q3 & _). unfold same. auto.
Qed.
Lemma undo_look s0 sv s : held s0 sv s -> undo (look s0) (touched sv) (look s) (look (quitenv sv s)) /\ kept s0 (quitenv sv s).
Proof.
  intros HE. pose proof (h_good _ _ _ HE) as G. destruct (held_undo s0 sv s HE) as (A1 & A2 & A3 & A4 & A5 & A6 & A7 & A8). cbn zeta in *.
  set (s' := quitenv sv s) in *. clearbody s'. split.
  - unfold undo. split; [|split; [|split; [|exact A8]]].
    + intros i I. cbn. rewrite A3 by auto. unfold touched. destruct (sv i =? 0); reflexivity.
    + cbn. destruct A7 as (_ & B1 & _). rewrite B1. destruct (Z.ltb_spec (cr s) 0); [auto|]. unfold file. rewrite A6; [auto|unfold cop; auto].
    + cbn. destruct A7 as (_ & _ & _ & B1 & _). rewrite B1. destruct (Z.ltb_spec (cw s) 0); [auto|]. unfold file. rewrite A6; [auto|unfold cop; auto].
  - split; [auto|]. split; [auto|]. split; [|split; [auto|]].
    + destruct A7 as (_ & _ & _ & _ & B & _). rewrite B. apply HE.
    + intros k K. apply (h_cop _ _ _ HE). apply A5. exact K.
Qed.

Lemma shf_open_some s n s' : shf_open s = (Some n, s') -> exists f,
  10 <= n /\ tab s n = None /\ (forall i, tab s' i = if i =? n then Some (f, true) else tab s i) /\ fr s s' /\ orc s = Some f :: orc s'.
Proof.
  unfold shf_open. destruct (sys_open s) as ([fd|], s1) eqn:E; [|discriminate]. apply sys_open_some in E as (f & A1 & A2 & A3 & A4 & A5).
  unfold FDBASE. destruct (Z.ltb_spec fd 10) as [I|I].
  - rewrite A3, Z.eqb_refl. unfold sys_dupfd. destruct (free s1 10) as [k|] eqn:EK; [|discriminate]. apply free_some in EK as (K1 & K2). intros [= <- <-].
    exists f. split; [lia|]. assert (tab s k = None) as TK by (rewrite A3 in K2; destruct (k =? fd); [discriminate|auto]). split; [auto|].
    set (s2 := sys_close _ fd). assert (forall i, tab s2 i = if i =? k then Some (f, false) else tab s i) as T2.
    { intros i. unfold s2. cbn. unfold upd. rewrite A3. destruct (Z.eqb_spec i fd) as [->|]; [destruct (Z.eqb_spec fd k); [lia|auto]|auto]. }
    assert (fr s s2) as F2 by (eapply fr_trans; [exact A4|]; unfold s2; unfold fr; cbn; repeat (split; [auto|]); apply suffix_refl).
    assert (orc s2 = orc s1) as O2 by reflexivity. clearbody s2. split; [|split; [eapply fr_trans; [exact F2|apply fr_cloexec]|]].
    + intros i. unfold sys_cloexec. rewrite T2, Z.eqb_refl. cbn. unfold upd. rewrite T2. destruct (i =? k); auto.
    + unfold sys_cloexec. rewrite T2, Z.eqb_refl. cbn. congruence.
  - intros [= <- <-]. exists f. split; [lia|]. split; [auto|]. split; [|split; [eapply fr_trans; [exact A4|apply fr_cloexec]|]].
    + intros i. unfold sys_cloexec. rewrite A3, Z.eqb_refl. cbn. unfold upd. rewrite A3. destruct (i =? fd); auto.
    + unfold sys_cloexec. rewrite A3, Z.eqb_refl. cbn. congruence.
Qed.
Lemma shf_open_none s s' : shf_open s = (None, s') -> fr s s' /\ (forall i, tab s' i = tab s i) /\ (orc s = orc s' \/ exists x, orc s = x :: orc s').
Proof.
  unfold shf_open. destruct (sys_open s) as ([fd|], s1) eqn:E.
  - apply sys_open_some in E as (f & A1 & A2 & A3 & A4 & A5). unfold FDBASE. destruct (fd <? 10); [|discriminate]. rewrite A3, Z.eqb_refl.
    unfold sys_dupfd. destruct (free s1 10) as [k|] eqn:EK; [discriminate|]. intros [= <-]. split; [eapply fr_trans; [exact A4|apply fr_close]|]. split; [|right; eauto].
    intros i. cbn. unfold upd. rewrite A3. destruct (Z.eqb_spec i fd) as [->|]; auto.
  - apply sys_open_none in E as (A1 & A2 & A3). intros [= <-]. split; [auto|]. split; [now rewrite A1|auto].
Qed.

Lemma redirected_stop ex rs s o sv s1 : Forall io_ok rs -> good s -> io_all ex rs (fun _ => 0) s = (o, sv, s1) -> o <> Sys ->
  held s sv s1 /\ rsteps ex rs (look s) none o (look s1) (touched sv).
Proof.
  intros OK G E NS. destruct (held_start s G) as (H1 & H2). exact (io_all_ok ex s rs (fun _ => 0) s o sv s1 H1 H2 OK E NS).
Qed.

Theorem exec_ok c : forall s o s', cmd_ok c -> good s -> exec c s = (o, s') -> o <> Sys -> kept s s' /\ sem c (look s) o (look s').
Proof.
  induction c as [|rs sp fo fa|rs|rs c IH|c1 IH1 c2 IH2|w|n|c IH|c IH|n]; intros s o s' OK G H NS; cbn [exec cmd_ok] in *.
  - injection H as <- <-. split; [apply kept_neutral; auto using neutral_refl|constructor].
  - unfold redirected in H. destruct (io_all false rs (fun _ => 0) s) as ((o1, sv), s1) eqn:E.
    assert (o1 <> Sys) as NS1 by (destruct o1; try congruence; injection H as <- <-; congruence).
    destruct (redirected_stop false rs s o1 sv s1 OK G E NS1) as (H1 & H2).
    destruct o1; try congruence.
    + set (r := if fo then _ else _) in H. assert (exists o2 s2, r = (o2, s2)) as (o2 & s2 & ER) by (destruct r; eauto). rewrite ER in H.
      assert (o2 <> Sys) as NS2 by (intros ->; injection H as <- <-; congruence).
      assert (o2 = (if negb fo && fa then Abort else Done) /\ neutral s1 s2) as (EO & N2).
      { subst r. destruct fo; cbn.
        - destruct (fork s1) as (k, s3) eqn:EF. apply fork_ok in EF as (F & T). injection ER as <- <-. destruct k; [|congruence]. split; [auto|apply neutral_tab; auto].
        - injection ER as <- <-. split; [auto|apply neutral_refl]. }
      pose proof (held_neutral _ _ _ _ H1 N2) as H3. destruct (undo_look s sv s2 H3) as (U1 & U2).
      assert (o = o2 /\ s' = quitenv sv s2) as (-> & ->) by (injection H as <- <-; split; [subst o2; destruct (negb fo && fa); reflexivity|reflexivity]).
      split; [exact U2|]. rewrite EO. eapply S_simple; eauto. apply quiet_neutral; auto. apply H1.
    + destruct (undo_look s sv s1 H1) as (U1 & U2). injection H as <- <-. split; [exact U2|]. eapply S_simple_stop; eauto; discriminate.
    + destruct (undo_look s sv s1 H1) as (U1 & U2). injection H as <- <-. split; [exact U2|].
      replace Abort with (if sp then Abort else Abort) by (destruct sp; auto). eapply S_simple_stop; eauto; discriminate.
  - unfold redirected in H. destruct (io_all true rs (fun _ => 0) s) as ((o1, sv), s1) eqn:E.
    assert (o1 <> Sys) as NS1 by (destruct o1; congruence).
    destruct (redirected_stop true rs s o1 sv s1 OK G E NS1) as (H1 & H2).
    destruct o1; try congruence; injection H as <- <-.
    + pose proof (h_good _ _ _ H1) as G1. destruct (held_exec s sv s1 H1) as (A1 & A2 & A3 & A4 & A5 & A6 & A7 & A8). cbn zeta in *.
      match goal with |- kept s ?x /\ _ => set (s' := x) in *; clearbody s' end. split.
      * split; [auto|]. split; [auto|]. split; [|split; [auto|]].
        -- destruct A7 as (_ & _ & _ & _ & B & _). rewrite B. apply H1.
        -- intros k K. apply (h_cop _ _ _ H1). apply A5. exact K.
      * eapply S_exec; [exact H2|]. apply same_look; auto.
    + destruct (undo_look s sv s1 H1) as (U1 & U2). split; [exact U2|]. eapply S_exec_stop; eauto; discriminate.
    + destruct (undo_look s sv s1 H1) as (U1 & U2). split; [exact U2|]. eapply S_exec_stop; eauto; discriminate.
  - destruct OK as (OK & OKC). unfold redirected in H. destruct (io_all false rs (fun _ => 0) s) as ((o1, sv), s1) eqn:E.
    assert (o1 <> Sys) as NS1 by (destruct o1; congruence).
    destruct (redirected_stop false rs s o1 sv s1 OK G E NS1) as (H1 & H2).
    destruct o1; try congruence.
    + destruct (exec c s1) as (o2, s2) eqn:E2. injection H as <- <-. destruct (IH s1 o2 s2 OKC) as (K1 & K2); auto; [apply H1|].
      pose proof (held_body _ _ _ _ H1 K1) as H3. destruct (undo_look s sv s2 H3) as (U1 & U2). split; [exact U2|]. eapply S_group; eauto.
    + injection H as <- <-. destruct (undo_look s sv s1 H1) as (U1 & U2). split; [exact U2|]. eapply S_group_stop; eauto; discriminate.
    + injection H as <- <-. destruct (undo_look s sv s1 H1) as (U1 & U2). split; [exact U2|]. eapply S_group_stop; eauto; discriminate.
  - destruct OK as (OK1 & OK2). destruct (exec c1 s) as (o1, s1) eqn:E1.
    assert (o1 <> Sys) as NS1 by (destruct o1; congruence). destruct (IH1 s o1 s1) as (K1 & K2); auto.
    destruct o1; try congruence.
    + destruct (IH2 s1 o s') as (K3 & K4); auto; [apply K1|]. split; [eapply kept_trans; eauto|]. eapply S_seq; eauto.
    + destruct (IH2 s1 o s') as (K3 & K4); auto; [apply K1|]. split; [eapply kept_trans; eauto|]. eapply S_seq; eauto.
    + injection H as <- <-. split; [exact K1|]. apply S_seq_stop; auto.
  - apply expand_ok in H as (-> & N); auto. split; [apply kept_neutral; auto|]. constructor. apply quiet_neutral; auto.
  - apply pipeline_ok in H as (-> & N); [|apply G|apply G|auto]. split; [apply kept_neutral; auto|]. constructor. apply quiet_neutral; auto.
  - destruct (exec c s) as (o1, s1) eqn:E1. injection H as <- <-. assert (o1 <> Sys) as NS1 by (intros ->; congruence).
    destruct (IH s o1 s1) as (K1 & K2); auto. split; [auto|]. constructor. auto.
  - destruct (shf_open s) as ([fd|], s1) eqn:EO.
    + apply shf_open_some in EO as (f & A1 & A2 & A3 & A4 & A5). destruct (exec c s1) as (o2, s2) eqn:E2. injection H as <- <-.
      assert (o2 <> Sys) as NS2 by (intros ->; congruence).
      assert (forall k, cop s k -> k <> fd) as NC by (intros k K ->; destruct (g_cop s G fd K); congruence).
      assert (good s1) as G1.
      { apply (good_keep s); auto.
        - intros i I. rewrite A3. destruct (Z.eqb_spec i fd); [lia|auto].
        - intros i I. rewrite A3. pose proof (NC i I). destruct (Z.eqb_spec i fd); [congruence|]. apply (g_cop s G i I). }
      destruct (IH s1 o2 s2) as ((B1 & B2 & B3 & B4 & B5) & B6); auto.
      assert (forall k, cop s2 k -> k <> fd) as NC2 by (intros k K; apply NC; apply (fr_cop s s1 k A4); auto).
      split; [split; [|split; [|split; [|split]]]|].
      * apply (good_keep s2); auto; [apply fr_close|..]; intros i I; cbn; unfold upd.
        -- destruct (Z.eqb_spec i fd); [lia|auto].
        -- pose proof (NC2 i I). destruct (Z.eqb_spec i fd); [congruence|]. apply (g_cop s2 B1 i I).
      * cbn. rewrite B2. apply A4.
      * cbn. rewrite B3. apply A4.
      * intros i I. cbn. unfold upd. destruct (Z.eqb_spec i fd) as [->|NE]; [left; auto|].
        destruct (B4 i I) as [E|(F1 & F2 & F3)]; [left; rewrite E, A3; destruct (Z.eqb_spec i fd); [congruence|auto]|].
        right. split; [apply (fr_cop s s1 i A4); auto|]. split; [auto|]. exact F3.
      * intros k K. apply (fr_cop s s1 k A4). apply B5. exact K.
      * apply (S_dot c (look s) f (look s1) o2 (look s2)); auto.
        -- split; [|exact A5]. apply quiet_keep; auto.
           ++ intros i I. pose proof (NC i I). rewrite A3. destruct (Z.eqb_spec i fd); [congruence|auto].
           ++ intros i I. unfold file. rewrite A3. unfold user in I. destruct (Z.eqb_spec i fd); [lia|auto].
        -- apply same_look; auto; [apply fr_close|..].
           ++ intros k K. pose proof (NC2 k K). cbn. unfold upd. destruct (Z.eqb_spec k fd); [congruence|auto].
           ++ intros i I. unfold file. cbn. unfold upd. unfold user in I. destruct (Z.eqb_spec i fd); [lia|auto].
    + apply shf_open_none in EO as (A1 & A2 & A3). injection H as <- <-.
      assert (neutral s s1) as N by (split; [auto|]; unfold file; split; intros i _; rewrite A2; auto). split; [apply kept_neutral; auto|]. constructor.
      split; [apply quiet_neutral; auto|]. exact A3.
  - contradiction.
Qed.

(** without exec nothing changes *)
Lemma rsteps_coproc l A T o A' T' : rsteps false l A T o A' T' -> vr A' = vr A /\ vw A' = vw A.
Proof.
  intros H. remember false as ex eqn:E. induction H; subst; auto.
  - assert (vr A1 = vr A /\ vw A1 = vw A) as (E1 & E2); [|destruct IHrsteps; auto; split; congruence].
    clear - H. inversion H; subst; unfold opened, quiet, put, forget in *; intuition congruence.
  - clear - H. inversion H; subst; unfold opened, quiet, put, forget in *; try (intuition congruence).
    destruct H0 as [->|(t & H0)]; intuition congruence.
Qed.

(** ** Without exec *)
Lemma fr_pop s x s' : pop s = (x, s') -> fr s s'.
Proof. unfold pop. destruct (orc s) as [|y r] eqn:E; intros [= <- <-]; [apply fr_refl|]. unfold fr; cbn. rewrite E. auto 10 using suffix_cons. Qed.
Lemma fr_open s x s' : sys_open s = (x, s') -> fr s s'.
Proof.
  unfold sys_open. destruct (pop s) as ([f|], s1) eqn:E; apply fr_pop in E.
  - destruct (free s1 0); intros [= <- <-]; [|auto]. eapply fr_trans; [exact E|apply fr_tab].
  - intros [= <- <-]. auto.
Qed.
Lemma fr_dupfd s f b c n s' : sys_dupfd s f b c = Some (n, s') -> fr s s'.
Proof. unfold sys_dupfd. destruct (free s b); intros [= <- <-]. apply fr_tab. Qed.
Lemma fr_savefd s i n s' : savefd s i = Some (n, s') -> fr s s'.
Proof.
  unfold savefd. destruct (i <? FDBASE); [destruct (tab s i) as [[f c]|]; [apply fr_dupfd|]|]; intros [= <- <-]; auto using fr_refl, fr_cloexec.
Qed.
Lemma fr_hi s i n s' : hi_end s i = Some (n, s') -> fr s s'.
Proof.
  unfold hi_end. destruct (savefd s i) as [(m, s1)|] eqn:E; [|discriminate]. apply fr_savefd in E. intros [= <- <-]. destruct (m =? i); [auto|].
  eapply fr_trans; [exact E|apply fr_close].
Qed.
Lemma fr_openpipe s x s' : openpipe s = (x, s') -> fr s s'.
Proof.
  unfold openpipe. destruct (sys_open s) as ([a|], s1) eqn:E1; apply fr_open in E1; [|now intros [= <- <-]].
  destruct (sys_open s1) as ([b|], s2) eqn:E2; apply fr_open in E2; [|intros [= <- <-]; eauto using fr_trans, fr_close].
  destruct (hi_end s2 a) as [(p, s3)|] eqn:E3; [apply fr_hi in E3|intros [= <- <-]; eauto using fr_trans].
  destruct (hi_end s3 b) as [(q, s4)|] eqn:E4; [apply fr_hi in E4|]; intros [= <- <-]; eauto using fr_trans.
Qed.
Lemma fr_fork s x s' : fork s = (x, s') -> fr s s'.
Proof. unfold fork. destruct (pop s) as (y, s1) eqn:E. apply fr_pop in E. now intros [= <- <-]. Qed.
Lemma fr_dup2' s a b : fr s (match sys_dup2 s a b with Some s' => s' | None => s end).
Proof. destruct (sys_dup2 s a b) eqn:E; [eapply fr_dup2; eauto|apply fr_refl]. Qed.
Lemma fr_quitenv sv s : fr s (quitenv sv s).
Proof.
  unfold quitenv. generalize fds32. intros l. revert s. induction l as [|i l IH]; cbn [fold_left]; intros s; [apply fr_refl|].
  eapply fr_trans; [|apply IH]. destruct (sv i =? 0); [apply fr_refl|apply fr_restfd].
Qed.
Lemma fr_pipe_loop n : forall s o s', pipe_loop n s = (o, s') -> fr s s'.
Proof.
  induction n as [|n IH]; cbn [pipe_loop]; intros s o s'; [intros [= <- <-]; apply fr_refl|].
  destruct (openpipe s) as ([(p, q)|], s1) eqn:E1; apply fr_openpipe in E1; [|intros [= <- <-]; auto].
  set (s2 := match sys_dup2 s1 q 1 with Some s => s | None => s1 end). pose proof (fr_dup2' s1 q 1 : fr s1 s2) as F2. clearbody s2.
  destruct (fork s2) as (k, s3) eqn:E3. apply fr_fork in E3. assert (fr s s3) as F3 by eauto using fr_trans. destruct k; [|intros [= <- <-]; auto].
  intros H. apply IH in H. eapply fr_trans; [exact F3|]. eapply fr_trans; [|exact H]. eapply fr_trans; [apply (fr_dup2' s3 p 0)|].
  eapply fr_trans; apply fr_close.
Qed.
Lemma fr_pipeline n s o s' : pipeline n s = (o, s') -> fr s s'.
Proof.
  unfold pipeline. destruct (savefd s 0) as [(a, s1)|] eqn:E1; [|intros [= <- <-]; apply fr_refl]. apply fr_savefd in E1.
  destruct (savefd s1 1) as [(b, s2)|] eqn:E2; [|intros [= <- <-]; eauto using fr_trans, fr_quitenv]. apply fr_savefd in E2.
  destruct (pipe_loop n s2) as (o2, s3) eqn:E3. apply fr_pipe_loop in E3. assert (fr s s3) as F by eauto using fr_trans. clear E1 E2 E3.
  destruct o2; [|intros [= <- <-]; eauto using fr_trans, fr_quitenv..]. cbv zeta.
  set (s4 := restfd s3 1 _). assert (fr s s4) as F4 by (eapply fr_trans; [exact F|apply fr_restfd]). clearbody s4.
  destruct (fork s4) as (k, s5) eqn:E5. apply fr_fork in E5. assert (fr s s5) as F5 by eauto using fr_trans.
  destruct k; intros [= <- <-]; [|eauto using fr_trans, fr_quitenv]. eapply fr_trans; [exact F5|]. eapply fr_trans; [apply fr_close|apply fr_quitenv].
Qed.
Lemma fr_comsub n s o s' : comsub n s = (o, s') -> fr s s'.
Proof.
  unfold comsub. destruct (openpipe s) as ([(p, q)|], s1) eqn:E1; apply fr_openpipe in E1; [|intros [= <- <-]; auto].
  destruct (savefd s1 1) as [(a, s2)|] eqn:E2; [|intros [= <- <-]; auto]. apply fr_savefd in E2.
  set (s3 := if q =? 1 then s2 else _). assert (fr s s3) as F3.
  { subst s3. destruct (q =? 1); [eauto using fr_trans|]. eapply fr_trans; [|apply fr_close]. eapply fr_trans; [|apply fr_dup2']. eauto using fr_trans. }
  clearbody s3. set (r := match n with O => _ | S _ => _ end). assert (exists o2 s4, r = (o2, s4)) as (o2 & s4 & ER) by (destruct r; eauto). rewrite ER.
  assert (fr s s4) as F4.
  { subst r. eapply fr_trans; [exact F3|]. destruct n; [|eapply fr_pipeline; eauto]. destruct (fork s3) as (k, s5) eqn:E5. apply fr_fork in E5. now injection ER as <- <-. }
  destruct o2; intros [= <- <-]; auto. eapply fr_trans; [exact F4|]. eapply fr_trans; [apply fr_restfd|apply fr_close].
Qed.
Lemma fr_do_subs l : forall s o s', do_subs l s = (o, s') -> fr s s'.
Proof.
  induction l as [|n l IH]; cbn [do_subs]; intros s o s'; [intros [= <- <-]; apply fr_refl|].
  destruct (comsub n s) as (o1, s1) eqn:E. apply fr_comsub in E. destruct o1; intros H; try (injection H as <- <-; auto). apply IH in H. eauto using fr_trans.
Qed.
Lemma fr_expand w s o s' : expand w s = (o, s') -> fr s s'.
Proof. unfold expand. destruct w as [l e]. destruct (do_subs l s) as (o1, s1) eqn:E. apply fr_do_subs in E. destruct o1; intros [= <- <-]; auto. Qed.
Lemma fr_place s sv u v d c rd o sv' s' : place s sv u v d c false rd = (o, sv', s') -> fr s s'.
Proof.
  unfold place. set (r := if sv u =? 0 then _ else _). destruct r as [(n, s1)|] eqn:ER; [|intros [= <- <- <-]; apply fr_refl].
  assert (fr s s1) as F.
  { subst r. destruct (sv u =? 0); [|injection ER as <- <-; apply fr_refl]. destruct (v =? u); [injection ER as <- <-; apply fr_refl|].
    destruct (savefd s u) as [(m, s2)|] eqn:E; [|discriminate]. apply fr_savefd in E. now injection ER as <- <-. }
  cbv zeta. destruct c; [intros [= <- <- <-]; eauto using fr_trans, fr_close|]. destruct (v =? u); [intros [= <- <- <-]; auto|].
  destruct (sys_dup2 s1 v u) as [s2|] eqn:E; intros [= <- <- <-].
  - apply fr_dup2 in E. destruct d; eauto using fr_trans, fr_close.
  - destruct d; eauto using fr_trans, fr_close.
Qed.
Lemma fr_herein w s x s' : herein w s = (x, s') -> fr s s'.
Proof.
  unfold herein. destruct (sys_open s) as ([t|], s1) eqn:E1; apply fr_open in E1; [|intros [= <- <-]; auto].
  destruct (sys_open s1) as ([u|], s2) eqn:E2; apply fr_open in E2; [|intros [= <- <-]; eauto using fr_trans, fr_close].
  destruct (expand w s2) as (o, s3) eqn:E3. apply fr_expand in E3. assert (fr s s3) as F by eauto using fr_trans.
  assert (forall a b, fr s (sys_close (sys_close s3 a) b)) as F2 by (intros a b; eapply fr_trans; [exact F|]; eapply fr_trans; apply fr_close).
  destruct o; intros [= <- <-]; auto.
Qed.
Lemma fr_iosetup i s sv o sv' s' : iosetup false i sv s = (o, sv', s') -> fr s s'.
Proof.
  destruct i as [u w|u w|u rd w src|u w|w]; cbn [iosetup].
  2:{ destruct (herein w s) as ([[v|]|], s1) eqn:E; apply fr_herein in E; [|intros [= <- <- <-]; auto..]. intros H. apply fr_place in H. eauto using fr_trans. }
  all: destruct (expand w s) as (o1, s1) eqn:E; apply fr_expand in E; destruct o1; try (intros [= <- <- <-]; now auto).
  - destruct (sys_open s1) as ([v|], s2) eqn:E2; apply fr_open in E2; [|intros [= <- <- <-]; eauto using fr_trans]. intros H. apply fr_place in H. eauto using fr_trans.
  - cbv zeta. set (v := match src with Digit _ => _ | Coproc => _ end). clearbody v. destruct (v <? 0); [intros [= <- <- <-]; auto|].
    destruct (v =? u); [intros [= <- <- <-]; auto|]. intros H. apply fr_place in H. eauto using fr_trans.
  - destruct (1009 =? u); [intros [= <- <- <-]; auto|]. intros H. apply fr_place in H. eauto using fr_trans.
Qed.
Lemma fr_io_all l : forall sv s o sv' s', io_all false l sv s = (o, sv', s') -> fr s s'.
Proof.
  induction l as [|i l IH]; cbn [io_all]; intros sv s o sv' s'; [intros [= <- <- <-]; apply fr_refl|].
  destruct (iosetup false i sv s) as ((o1, sv1), s1) eqn:E. apply fr_iosetup in E. destruct o1; intros H; try (injection H as <- <- <-; auto). apply IH in H. eauto using fr_trans.
Qed.
Lemma fr_exec c : cmd_ok c -> no_exec c -> forall s o s', exec c s = (o, s') -> fr s s'.
Proof.
  induction c as [|rs sp fo fa|rs|rs c IH|c1 IH1 c2 IH2|w|n|c IH|c IH|n]; intros OK NE s o s' H; cbn [exec cmd_ok no_exec] in *.
  - injection H as <- <-. apply fr_refl.
  - unfold redirected in H. destruct (io_all false rs (fun _ => 0) s) as ((o1, sv), s1) eqn:E. apply fr_io_all in E.
    set (r := match o1 with Done => _ | _ => _ end) in H. assert (exists o2 s2, r = (o2, s2)) as (o2 & s2 & ER) by (destruct r; eauto). rewrite ER in H.
    assert (fr s s2); [|now injection H as <- <-]. eapply fr_trans; [exact E|]. subst r. clear E H.
    destruct o1; [|injection ER as <- <-; apply fr_quitenv..].
    destruct fo; [|injection ER as <- <-; apply fr_quitenv]. destruct (fork s1) as (k, s3) eqn:E3. apply fr_fork in E3. injection ER as <- <-. eauto using fr_trans, fr_quitenv.
  - contradiction.
  - unfold redirected in H. destruct (io_all false rs (fun _ => 0) s) as ((o1, sv), s1) eqn:E. apply fr_io_all in E.
    destruct o1; [|injection H as <- <-; eauto using fr_trans, fr_quitenv..]. destruct (exec c s1) as (o2, s2) eqn:E2. apply IH in E2; [|tauto..].
    injection H as <- <-. eauto using fr_trans, fr_quitenv.
  - destruct (exec c1 s) as (o1, s1) eqn:E1. apply IH1 in E1; [|tauto..]. destruct OK, NE. destruct o1; try (injection H as <- <-; auto); eapply fr_trans; [exact E1|eapply IH2; eauto|exact E1|eapply IH2; eauto].
  - eapply fr_expand; eauto.
  - eapply fr_pipeline; eauto.
  - destruct (exec c s) as (o1, s1) eqn:E1. apply IH in E1; auto. now injection H as <- <-.
  - destruct (shf_open s) as ([fd|], s1) eqn:E.
    + apply shf_open_some in E as (_ & _ & _ & _ & F & _). destruct (exec c s1) as (o2, s2) eqn:E2. apply IH in E2; auto. injection H as <- <-. eauto using fr_trans, fr_close.
    + apply shf_open_none in E as (F & _). now injection H as <- <-.
  - contradiction.
Qed.
Lemma rsteps_untouched ex : forall l A T o A1 T', rsteps ex l A T o A1 T' -> forall i, user i -> T' i = false -> vu A1 i = vu A i /\ T i = false.
Proof.
  intros l B T p B1 T' HR. induction HR as [| k l B T B2 T2 p B3 T3 HS HR IHrsteps | k l B T p B3 T3 HS HN]; intros n I HT; auto.
    - destruct (IHrsteps n I HT) as (E1 & E2). assert (vu B2 n = vu B n /\ T n = false) as (E3 & E4); [|split; congruence].
      clear - HS E2 I. inversion HS; subst; unfold opened, quiet, put, touch, forget in *; repeat match goal with H : _ /\ _ |- _ => destruct H end; auto;
        match goal with H : forall i, T2 i = _ |- _ => rewrite H in E2 end; apply orb_false_iff in E2 as (E2 & E3); split; auto;
        repeat match goal with H : forall i, user i -> _ = _ |- _ => rewrite H by auto end; now rewrite ?E2.
    - clear - HS HN I HT. inversion HS; subst; unfold opened, quiet in *; try congruence; repeat match goal with H : _ /\ _ |- _ => destruct H end; split; auto;
        try match goal with H : _ = _ \/ _ |- _ => destruct H as [->|(t & H)] end; unfold opened, quiet in *; repeat match goal with H : _ /\ _ |- _ => destruct H end; auto;
        repeat match goal with H : forall i, user i -> _ = _ |- _ => rewrite H by auto end; auto.
Qed.
Lemma sem_same c A o A' : sem c A o A' -> no_exec c -> forall i, user i -> vu A' i = vu A i.
Proof.
  pose proof (rsteps_untouched false) as R.
  assert (forall l A o A1 T A2 A', rsteps false l A none o A1 T -> (forall i, user i -> vu A2 i = vu A1 i) -> undo A T A2 A' -> forall i, user i -> vu A' i = vu A i) as U.
  { intros l A0 o0 A1 T A2 A3 RS Q (D & _) i I. rewrite D by auto. destruct (T i) eqn:ET; [auto|]. rewrite Q by auto. apply (R _ _ _ _ _ _ RS i I ET). }
  induction 1; cbn [no_exec]; intros NE i I; auto.
  - apply (U _ _ _ _ _ _ _ H (proj1 H0) H1); auto.
  - apply (U _ _ _ _ _ A1 _ H); auto.
  - contradiction.
  - contradiction.
  - apply (U _ _ _ _ _ _ _ H (fun j J => IHsem NE j J) H1); auto.
  - apply (U _ _ _ _ _ A1 _ H); auto.
  - destruct NE. rewrite IHsem2, IHsem1; auto.
  - destruct NE. auto.
  - apply H. auto.
  - apply H. auto.
  - apply H. auto.
  - destruct H1 as (H1 & _). rewrite H1, IHsem by auto. apply H. auto.
Qed.
