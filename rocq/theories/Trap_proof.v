From Coq Require Import ZArith List Bool Lia FinFun.
From Verif Require Import Base Trap_model Trap_spec.
Import ListNotations.
Local Open Scope Z_scope.

Lemma upd_same {A} (f : Z -> A) p v : upd f p v p = v.
Proof. unfold upd. now rewrite Z.eqb_refl. Qed.
Lemma upd_other {A} (f : Z -> A) p v q : q <> p -> upd f p v q = f q.
Proof. intros H. unfold upd. apply Z.eqb_neq in H. now rewrite H. Qed.
Lemma heq_true a b : heq a b = true <-> a = b.
Proof. destruct a, b; cbn; split; congruence. Qed.

(** setsig on one signal *)
Definition sig1 (e : ent) (d : hand) (talk : bool) (f : hand) (r : restore) (force user shtrap : bool) : bool * ent * hand :=
  let '(e, d) := match orig e with
                 | Some _ => (e, d)
                 | None => (set_cur (set_orig e (Some (if heq d HIgn then HIgn else HDfl))) HIgn, HIgn)
                 end in
  if is_ign (orig e) && negb force && (negb user || negb talk) then (false, e, d)
  else
    let e := set_exe e (match r with RCurr => None | ROrig => if is_ign (orig e) then Some HIgn else Some HDfl | RDfl => Some HDfl | RIgn => Some HIgn end) in
    let e := if user then e else set_sht e shtrap in
    if heq (cur e) f then (true, e, d) else (true, set_cur e f, f).
(** nothing changes but the signal [p] *)
Definition fr (p : Z) (s s' : st) : Prop :=
  (forall q, q <> p -> ents s' q = ents s q /\ disp s' q = disp s q) /\
  trapf s' = trapf s /\ intrf s' = intrf s /\ fatalf s' = fatalf s /\ talking s' = talking s /\ monitor s' = monitor s /\ errexit s' = errexit s /\ exstat s' = exstat s /\ undef s' = undef s /\ cut s' = cut s /\ log s' = log s.
Lemma fr_refl p s : fr p s s.
Proof. unfold fr. auto 20. Qed.
Lemma fr_trans p a b c : fr p a b -> fr p b c -> fr p a c.
Proof.
  intros (A0 & A) (B0 & B). split; [|decompose [and] A; decompose [and] B; repeat split; congruence].
  intros q Q. destruct (A0 q Q), (B0 q Q). split; congruence.
Qed.
Lemma fr_ent p s e : fr p s (with_ent s p e).
Proof. split; [|cbn; auto 20]. intros q Q. cbn. now rewrite upd_other. Qed.
Lemma fr_sigaction p s h : fr p s (sigaction s p h).
Proof. unfold sigaction. destruct (settable p); [|apply fr_refl]. split; [|cbn; auto 20]. intros q Q. cbn. now rewrite upd_other. Qed.
Lemma setsig_sig1 s p f r force user shtrap b s' : (p =? SIGEXIT) || (p =? SIGERR) = false -> settable p = true ->
  setsig s p f r force user shtrap = (b, s') ->
  sig1 (ents s p) (disp s p) (talking s) f r force user shtrap = (b, ents s' p, disp s' p) /\ fr p s s'.
Proof.
  intros NS SE H. unfold setsig in H. rewrite NS in H. unfold sig1. cbv zeta in H. rewrite SE in H.
  match type of H with context [match orig (ents s p) with Some _ => s | None => ?x end] => set (s0 := x) in H end.
  set (s1 := match orig (ents s p) with Some _ => s | None => s0 end) in H.
  assert (fr p s s1 /\ (match orig (ents s p) with Some _ => (ents s p, disp s p)
    | None => (set_cur (set_orig (ents s p) (Some (if heq (disp s p) HIgn then HIgn else HDfl))) HIgn, HIgn) end) = (ents s1 p, disp s1 p)) as (F & ->).
  { subst s1. destruct (orig (ents s p)); [split; [apply fr_refl|auto]|]. subst s0. split.
    - eapply fr_trans; [apply fr_sigaction|apply fr_ent].
    - unfold sigaction. rewrite SE. cbn. rewrite !upd_same. auto. }
  clearbody s1. clear s0. assert (talking s1 = talking s) as T1 by apply F. rewrite T1 in H.
  destruct (is_ign (orig (ents s1 p)) && negb force && (negb user || negb (talking s))).
  - injection H as <- <-. auto.
  - set (s2 := setexecsig s1 p r) in H.
    assert (fr p s1 s2) as F2 by apply fr_ent. assert (disp s2 = disp s1) as D2 by reflexivity.
    match goal with |- context [set_exe ?a ?b] => assert (ents s2 p = set_exe a b) as E2 by (unfold s2, setexecsig; cbn; rewrite upd_same; reflexivity) end.
    cbv zeta. rewrite <- E2. clearbody s2. clear E2. set (s3 := if user then s2 else _) in H.
    assert (fr p s2 s3) as F3 by (unfold s3; destruct user; [apply fr_refl|apply fr_ent]).
    assert ((if user then ents s2 p else set_sht (ents s2 p) shtrap) = ents s3 p) as -> by (unfold s3; destruct user; cbn; rewrite ?upd_same; reflexivity).
    assert (disp s3 = disp s1) as D3 by (unfold s3; destruct user; exact D2). clearbody s3. rewrite <- D3. clear D3 D2.
    assert (fr p s s3) as F4 by eauto using fr_trans.
    destruct (heq (cur (ents s3 p)) f); injection H as <- <-; [auto|]. split.
    + unfold sigaction. rewrite SE. cbn. rewrite !upd_same. auto.
    + eapply fr_trans; [exact F4|]. eapply fr_trans; [apply fr_ent|apply fr_sigaction].
Qed.

(** Nothing changes but the signal [p] (and pending flags, the log..) *)
Definition only (p : Z) (s s' : st) : Prop :=
  (forall q, q <> p -> ents s' q = ents s q /\ disp s' q = disp s q) /\ talking s' = talking s /\ monitor s' = monitor s.
Lemma only_refl p s : only p s s.
Proof. unfold only. auto. Qed.
Lemma only_trans p a b c : only p a b -> only p b c -> only p a c.
Proof. intros (A0 & A1 & A2) (B0 & B1 & B2). split; [|split; congruence]. intros q Q. destruct (A0 q Q), (B0 q Q). split; congruence. Qed.
Lemma only_ent p s e : only p s (with_ent s p e).
Proof. split; [|cbn; auto]. intros q Q. cbn. now rewrite upd_other. Qed.
Lemma only_sigaction p s h : only p s (sigaction s p h).
Proof. unfold sigaction. destruct (settable p); [|apply only_refl]. split; [|cbn; auto]. intros q Q. cbn. now rewrite upd_other. Qed.
Lemma only_undef p s : only p s (with_undef s).
Proof. unfold only. cbn. auto. Qed.
Lemma only_setsig s p f r a b c : only p s (snd (setsig s p f r a b c)).
Proof.
  unfold setsig. destruct ((p =? SIGEXIT) || (p =? SIGERR)); [apply only_refl|]. cbv zeta.
  set (s1 := match orig (ents s p) with Some _ => s | None => _ end). assert (only p s s1) as F1.
  { subst s1. destruct (orig (ents s p)); [apply only_refl|]. eapply only_trans; [|apply only_ent]. eapply only_trans; [|apply only_sigaction].
    destruct (settable p); [apply only_refl|apply only_undef]. }
  clearbody s1. destruct (is_ign (orig (ents s1 p)) && negb a && (negb b || negb (talking s1))); [exact F1|].
  set (s2 := setexecsig s1 p r). assert (only p s s2) as F2 by (eapply only_trans; [exact F1|apply only_ent]). clearbody s2.
  set (s3 := if b then s2 else _). assert (only p s s3) as F3 by (subst s3; destruct b; [auto|eapply only_trans; [exact F2|apply only_ent]]). clearbody s3.
  cbn [snd]. destruct (heq (cur (ents s3 p)) f); [auto|]. eapply only_trans; [exact F3|]. eapply only_trans; [apply only_ent|apply only_sigaction].
Qed.
Lemma only_note p s e : only p s (note s e).
Proof. unfold only. cbn. auto. Qed.
Lemma only_settrap s p t : only p s (settrap s p t).
Proof.
  unfold settrap. cbv zeta. set (e := set_uset _). set (f := match t with None => _ | Some _ => _ end). set (s1 := note _ _).
  assert (only p s s1) as F by (eapply only_trans; [apply only_ent|apply only_note]). clearbody s1.
  destruct ((dfli e || fatal e) && heq f HDfl); [eapply only_trans; [exact F|apply only_setsig]|].
  destruct (uses e); [|eapply only_trans; [exact F|apply only_setsig]]. destruct (negb (is_ign (orig e)) || talking s1); [|auto].
  eapply only_trans; [exact F|apply only_ent].
Qed.
Definition trap1 (e : ent) (d : hand) (talk : bool) (t : option text) : ent * hand :=
  let f := match t with None => HDfl | Some [] => HIgn | Some _ => HTrap end in
  let e := set_uset (set_chg (set_tr e t) true) in
  if (dfli e || fatal e) && heq f HDfl then let '(_, e, d) := sig1 e d talk HTrap RCurr false true false in (e, d)
  else if uses e then (if negb (is_ign (orig e)) || talk then set_exe e (Some (if heq f HIgn then HIgn else HDfl)) else e, d)
  else let '(_, e, d) := sig1 e d talk f RCurr false true false in (e, d).
Lemma not_special p : is_sig p -> (p =? SIGEXIT) || (p =? SIGERR) = false.
Proof. intros (H & _). unfold SIGEXIT, SIGERR, NSIG. apply orb_false_iff. split; apply Z.eqb_neq; lia. Qed.
Lemma settrap_one s p t : is_sig p -> trap1 (ents s p) (disp s p) (talking s) t = (ents (settrap s p t) p, disp (settrap s p t) p).
Proof.
  intros SG. pose proof (not_special p SG) as NS. destruct SG as (_ & SE). unfold trap1, settrap. cbv zeta. set (e := set_uset _). set (f := match t with None => _ | Some _ => _ end).
  set (s1 := note _ _). assert (ents s1 p = e) as E1 by (subst s1; cbn; apply upd_same). assert (disp s1 p = disp s p) as D1 by reflexivity.
  assert (talking s1 = talking s) as T1 by reflexivity. clearbody s1. clearbody e. rewrite <- E1, <- D1, <- T1.
  assert (forall f, (let '(_, e0, d) := sig1 (ents s1 p) (disp s1 p) (talking s1) f RCurr false true false in (e0, d)) =
    (ents (snd (setsig s1 p f RCurr false true false)) p, disp (snd (setsig s1 p f RCurr false true false)) p)) as X.
  { intros g. destruct (setsig s1 p g RCurr false true false) as (b, s2) eqn:E. apply setsig_sig1 in E as (E & _); auto. now rewrite E. }
  destruct ((dfli (ents s1 p) || fatal (ents s1 p)) && heq f HDfl); [apply X|]. destruct (uses (ents s1 p)); [|apply X].
  destruct (negb (is_ign (orig (ents s1 p))) || talking s1); cbn; rewrite ?upd_same; auto.
Qed.

(** ** The invariant *)
Record pinv (ign talk k tm : bool) (t : option text) (b u : bool) (e : ent) (d : hand) : Prop := {
  i_uses : uses e = k;
  i_term : dfli e || fatal e = tm;
  i_tr : tr e = t;
  i_us : uset e = u;
  i_un : u = false -> t = None;
  i_k : k = true -> b = false /\ tm = false;
  i_b : b = true -> tm = true;
  i_ab : action t = true -> b = false;
  i_orig : match orig e with
           | None => tm = false /\ k = false /\ u = false /\ d = (if ign then HIgn else HDfl) /\ exe e = None
           | Some h => h = (if ign then HIgn else HDfl) /\ cur e = d end;
  i_disp : d = if k then HTrap else if ign && (negb talk || negb u) then HIgn else
           match t with Some [] => HIgn | Some _ => HTrap | None => if b then HIgn else if tm then HTrap else HDfl end;
  i_exe : match exe e with Some h => h = wants (ign && (negb talk || negb u)) t b | None => k = false end }.
Ltac fin := repeat match goal with
  | H : ?x = true |- _ => is_var x; subst x
  | H : ?x = false |- _ => is_var x; subst x
  end.
Lemma pinv_trap ign talk k tm t b u e d t' : pinv ign talk k tm t b u e d ->
  let '(e', d') := trap1 e d talk t' in pinv ign talk k tm t' false true e' d'.
Proof.
  intros [H1 H2 H3 H4 H5 H6 H7 H7b H8 H9 H10]. destruct e as [tr0 pe us ut or ex di ch fa cu sh]. cbn in *. subst.
  unfold trap1, sig1. cbn. destruct k.
  - destruct (H6 eq_refl) as (-> & E). rewrite E. cbn. destruct or as [h|]; [|destruct H8 as (_ & H8 & _); discriminate]. destruct H8 as (-> & ->). destruct ex as [x|]; [|discriminate]. subst x.
    destruct ign, talk, u; cbn; destruct t' as [[|]|]; (split; cbn; auto; try discriminate).
  - destruct (di || fa) eqn:TM.
    + destruct or as [h|]; [|destruct H8; discriminate]. destruct H8 as (-> & ->).
      destruct ign, talk, u, t' as [[|c' l']|], t as [[|c l]|], b; cbn; (split; cbn; auto); intuition congruence.
    + destruct or as [h|].
      * destruct H8 as (-> & ->). destruct ign, talk, u, t' as [[|c' l']|], t as [[|c l]|], b; cbn; (split; cbn; auto); intuition congruence.
      * destruct H8 as (_ & _ & -> & -> & ->). destruct ign, talk, t' as [[|c' l']|]; cbn; (split; cbn; auto); intuition congruence.
Qed.

(** the other steps on one signal *)
Lemma pinv_pend ign talk k tm t b u e d v : pinv ign talk k tm t b u e d -> pinv ign talk k tm t b u (set_pend e v) d.
Proof. intros [H1 H2 H3 H4 H5 H6 H7 H7b H8 H9 H10]. split; auto. Qed.
Lemma pinv_bg ign t b u e d : pinv ign false false true t b u e d -> action t = false ->
  let '(_, e', d') := sig1 e d false HIgn RIgn true false false in pinv ign false false true t true u e' d'.
Proof.
  intros [H1 H2 H3 H4 H5 H6 H7 H7b H8 H9 H10] AT. destruct e as [tr0 pe us ut or ex di ch fa cu sh]. cbn in *. subst.
  unfold sig1. cbn. destruct or as [h|]; [|destruct H8; discriminate]. destruct H8 as (-> & ->).
  destruct ign, u, t as [[|c l]|], b; cbn; try discriminate AT; (split; cbn; auto; try discriminate).
Qed.
Definition print1 (e : ent) (d : hand) (talk : bool) : ent * hand :=
  let '(r, e, d) := match orig e with
                    | None => let '(_, e, d) := sig1 e d talk HIgn RCurr false false false in (negb (is_ign (orig e)), e, d)
                    | Some _ => if heq (cur e) HDfl then let '(_, e, d) := sig1 e d talk HIgn RCurr false false false in (true, e, d) else (false, e, d)
                    end in
  if r then let '(_, e, d) := sig1 e d talk HDfl RCurr false false false in (e, d) else (e, d).
Lemma pinv_print ign talk t b u e d : pinv ign talk false false t b u e d -> let '(e', d') := print1 e d talk in pinv ign talk false false t b u e' d'.
Proof.
  intros [H1 H2 H3 H4 H5 H6 H7 H7b H8 H9 H10]. destruct e as [tr0 pe us ut or ex di ch fa cu sh]. cbn in *. subst.
  destruct b; [discriminate (H7 eq_refl)|]. unfold print1, sig1. cbn. destruct or as [h|].
  - destruct H8 as (-> & ->). destruct ign, talk, u, t as [[|c l]|], ex as [x|]; cbn in *; subst; cbn; try (specialize (H5 eq_refl); discriminate); (split; cbn; auto; try discriminate).
  - destruct H8 as (_ & _ & -> & -> & ->). rewrite (H5 eq_refl) in *. destruct ign, talk; cbn; (split; cbn; auto; try discriminate).
Qed.
Lemma print_one s : print1 (ents s SIGPIPE) (disp s SIGPIPE) (talking s) = (ents (act s LPrint) SIGPIPE, disp (act s LPrint) SIGPIPE) /\ only SIGPIPE s (act s LPrint).
Proof.
  assert (forall s f, let s' := snd (setsig s SIGPIPE f RCurr false false false) in exists b,
    sig1 (ents s SIGPIPE) (disp s SIGPIPE) (talking s) f RCurr false false false = (b, ents s' SIGPIPE, disp s' SIGPIPE) /\ talking s' = talking s) as X.
  { intros s1 f. destruct (setsig s1 SIGPIPE f RCurr false false false) as (b, s') eqn:E. cbn. exists b. apply setsig_sig1 in E as (E & F); auto. split; [auto|apply F]. }
  unfold act, print1, block_pipe. cbv zeta.
  destruct (X s HIgn) as (b & E & T). set (s1 := snd (setsig s SIGPIPE HIgn RCurr false false false)) in *.
  assert (only SIGPIPE s s1) as F1 by apply only_setsig. clearbody s1.
  assert (forall s1, only SIGPIPE s s1 -> talking s1 = talking s -> forall r : bool, (if r then let '(_, e, d) := sig1 (ents s1 SIGPIPE) (disp s1 SIGPIPE) (talking s) HDfl RCurr false false false in (e, d) else (ents s1 SIGPIPE, disp s1 SIGPIPE)) =
    (ents (restore_pipe r s1) SIGPIPE, disp (restore_pipe r s1) SIGPIPE) /\ only SIGPIPE s (restore_pipe r s1)) as Y.
  { intros s2 F2 T2 r. unfold restore_pipe. destruct r; [|auto]. destruct (X s2 HDfl) as (b2 & E2 & _). rewrite <- T2, E2. split; [auto|]. eapply only_trans; [exact F2|apply only_setsig]. }
  destruct (orig (ents s SIGPIPE)).
  - destruct (heq (cur (ents s SIGPIPE)) HDfl); [rewrite E; apply (Y s1 F1 T true)|]. apply (Y s (only_refl _ _) eq_refl false).
  - rewrite E. apply (Y s1 F1 T).
Qed.

Definition inv (o : Z -> bool) (talk : bool) (g : setting) (s : st) : Prop :=
  talking s = talk /\ monitor s = false /\
  forall p, is_sig p -> pinv (o p) talk (p =? SIGCHLD) (terminal p) (g_tr g p) (g_bg g p) (g_us g p) (ents s p) (disp s p).

Lemma fold_one (f : st -> Z -> st) (l : list Z) : (forall s p, only p s (f s p)) -> NoDup l -> forall s,
  talking (fold_left f l s) = talking s /\ monitor (fold_left f l s) = monitor s /\
  (forall q, ~ In q l -> ents (fold_left f l s) q = ents s q /\ disp (fold_left f l s) q = disp s q) /\
  (forall q, In q l -> exists s1, ents s1 q = ents s q /\ disp s1 q = disp s q /\ talking s1 = talking s /\
     ents (fold_left f l s) q = ents (f s1 q) q /\ disp (fold_left f l s) q = disp (f s1 q) q).
Proof.
  intros F. induction l as [|p l IH]; intros ND s; cbn [fold_left].
  - repeat split; auto. intros q [].
  - inversion ND as [|? ? NI ND']; subst. destruct (IH ND' (f s p)) as (A & B & C & D). destruct (F s p) as (G1 & G2 & G3).
    split; [congruence|]. split; [congruence|]. split.
    + intros q Q. cbn in Q. destruct (C q) as (C1 & C2); [tauto|]. destruct (G1 q) as (G4 & G5); [intros ->; tauto|]. split; congruence.
    + intros q [->|Q].
      * exists s. destruct (C q NI) as (C1 & C2). auto.
      * destruct (D q Q) as (s1 & D1 & D2 & D3 & D4 & D5). destruct (G1 q) as (G4 & G5); [intros ->; tauto|]. exists s1. repeat split; congruence.
Qed.
Lemma sigs_nodup : NoDup sigs.
Proof. unfold sigs. apply FinFun.Injective_map_NoDup; [intros a b; apply Nat2Z.inj|apply seq_NoDup]. Qed.
Lemma sigs_in p : In p sigs <-> 0 <= p <= 65.
Proof. unfold sigs. rewrite in_map_iff. split; [intros (n & <- & H); apply in_seq in H; lia|]. intros H. exists (Z.to_nat p). split; [lia|]. apply in_seq. lia. Qed.
Lemma only_clear1 s p : only p s (clear1 s p).
Proof. unfold clear1. cbv zeta. destruct (_ && _); [eapply only_trans; [apply only_ent|apply only_settrap]|apply only_ent]. Qed.

Lemma inv_child o g bg s : inv o false g s -> (bg = true -> action (g_tr g SIGINT) = false /\ action (g_tr g SIGQUIT) = false) -> inv o false (set1 g (LChild bg)) (child bg s).
Proof.
  intros (T & M & I) OK. unfold child. rewrite M, andb_true_r.
  set (s1 := if bg then snd (setsig (snd (setsig s SIGINT HIgn RIgn true false false)) SIGQUIT HIgn RIgn true false false) else s).
  assert (inv o false (Setting (g_tr g) (fun p => g_bg g p || bg && ((p =? SIGINT) || (p =? SIGQUIT))) (g_us g)) s1) as (T1 & M1 & I1).
  { subst s1. destruct bg; cbn [andb].
    - destruct (OK eq_refl) as (OK1 & OK2).
      destruct (setsig s SIGINT HIgn RIgn true false false) as (b1, s2) eqn:E1. apply setsig_sig1 in E1 as (E1 & F1); [|auto..]. cbn [snd].
      destruct (setsig s2 SIGQUIT HIgn RIgn true false false) as (b2, s3) eqn:E2. apply setsig_sig1 in E2 as (E2 & F2); [|auto..]. cbn [snd].
      pose proof F1 as (G1 & _ & _ & _ & T2 & M2 & _). pose proof F2 as (G2 & _ & _ & _ & T3 & M3 & _).
      split; [congruence|]. split; [congruence|]. intros p P. cbn [g_tr g_bg g_us]. destruct (Z.eq_dec p SIGINT) as [->|N1]; [|destruct (Z.eq_dec p SIGQUIT) as [->|N2]].
      + destruct (G2 SIGINT) as (-> & ->); [discriminate|]. pose proof (pinv_bg _ _ _ _ _ _ (I SIGINT P) OK1) as X. rewrite T in E1. rewrite E1 in X. rewrite orb_true_r. exact X.
      + destruct (G1 SIGQUIT) as (Y1 & Y2); [discriminate|]. pose proof (pinv_bg _ _ _ _ _ _ (I SIGQUIT P) OK2) as X. rewrite T2, T, Y1, Y2 in E2. rewrite E2 in X. rewrite orb_true_r. exact X.
      + destruct (G1 p N1) as (Y1 & Y2), (G2 p N2) as (Y3 & Y4). rewrite Y3, Y4, Y1, Y2. apply Z.eqb_neq in N1, N2. rewrite N1, N2, orb_false_r. apply I; auto.
    - split; [auto|]. split; [auto|]. intros p P. cbn. rewrite orb_false_r. apply I; auto. }
  clearbody s1. unfold cleartraps. set (s2 := with_flags (with_talk s1 false false) false false false).
  destruct (fold_one clear1 sigs only_clear1 sigs_nodup s2) as (T2 & M2 & _ & D). split; [exact T2|]. split; [exact M2|].
  intros p P. destruct (D p) as (s3 & D1 & D2 & D3 & D4 & D5); [apply sigs_in; destruct P; lia|]. rewrite D4, D5. specialize (I1 p P). cbn [g_tr g_bg g_us set1] in *.
  change (ents s2 p) with (ents s1 p) in D1. change (disp s2 p) with (disp s1 p) in D2. rewrite <- D1, <- D2 in I1. clear D4 D5 D1 D2.
  unfold clear1. cbv zeta. set (s4 := with_ent s3 p (set_pend (ents s3 p) false)).
  assert (ents s4 p = set_pend (ents s3 p) false) as E4 by (unfold s4; cbn; apply upd_same). assert (disp s4 p = disp s3 p) as E5 by reflexivity.
  assert (talking s4 = false) as E6 by (cbn; rewrite D3; reflexivity). apply (pinv_pend _ _ _ _ _ _ _ _ _ false) in I1. rewrite <- E4, <- E5 in I1. clearbody s4. clear E4 E5 D3 s3.
  rewrite (i_us _ _ _ _ _ _ _ _ _ I1), (i_tr _ _ _ _ _ _ _ _ _ I1). pose proof (i_ab _ _ _ _ _ _ _ _ _ I1) as AB. pose proof (i_un _ _ _ _ _ _ _ _ _ I1) as UN. unfold action in AB |- *.
  destruct (g_tr g p) as [[|c l]|] eqn:ET; try (rewrite andb_false_r; exact I1).
  destruct (g_us g p) eqn:EU; [|specialize (UN eq_refl); discriminate]. cbn [andb]. rewrite AB by auto.
  pose proof (pinv_trap _ _ _ _ _ _ _ _ _ None I1) as X. pose proof (settrap_one s4 p None P) as Y. rewrite E6 in Y. rewrite Y in X. exact X.
Qed.
Lemma trapsig_eq s p : ents (trapsig s p) = upd (ents s) p (set_pend (ents s p) true) /\ disp (trapsig s p) = disp s /\ talking (trapsig s p) = talking s /\ monitor (trapsig s p) = monitor s /\
  trapf (trapsig s p) = true /\ exstat (trapsig s p) = exstat s /\ errexit (trapsig s p) = errexit s /\ cut (trapsig s p) = cut s /\ log (trapsig s p) = Deliv p :: log s.
Proof. unfold trapsig. cbv zeta. destruct (_ && _); cbn; auto 20. Qed.
Lemma pinv_act o talk g s l : inv o talk g s -> fine talk g [l] -> inv o talk (set1 g l) (act s l).
Proof.
  intros (T & M & I) OK.
  assert (forall p, inv o talk g (trapsig s p)) as XS.
  { intros p. unfold inv. destruct (trapsig_eq s p) as (-> & -> & -> & -> & _). split; [auto|]. split; [auto|]. intros q Q. unfold upd. destruct (Z.eqb_spec q p) as [->|]; auto using pinv_pend. }
  destruct l as [p t|p| |p|p e|a b c|v|e| |b| |bg]; cbn [act set1]; try (split; [exact T|split; [exact M|exact I]]).
  - pose proof (only_settrap s p t) as (O1 & O2 & O3). split; [congruence|]. split; [congruence|]. intros q Q. cbn.
    destruct (Z.eq_dec q p) as [->|N].
    + rewrite !upd_same. pose proof (pinv_trap _ _ _ _ _ _ _ _ _ t (I p Q)) as X. pose proof (settrap_one s p t Q) as Y. rewrite T in Y. rewrite Y in X. exact X.
    + rewrite !upd_other by auto. destruct (O1 q N) as (-> & ->). auto.
  - unfold deliver. destruct (disp s p); try (split; [exact T|split; [exact M|exact I]]). apply XS; auto.
  - apply XS; auto.
  - split; [exact T|]. split; [exact M|]. intros q Q. cbn. unfold upd. destruct (Z.eqb_spec q p) as [->|]; auto using pinv_pend.
  - destruct ((p =? SIGEXIT) || (p =? SIGERR)) eqn:SP; [|split; [exact T|split; [exact M|exact I]]]. split; [exact T|]. split; [exact M|]. intros q Q. cbn. rewrite upd_other; auto.
    intros ->. rewrite not_special in SP; auto. discriminate.
  - change (inv o talk g (act s LPrint)). destruct (print_one s) as (E & O1 & O2 & O3). split; [congruence|]. split; [congruence|]. intros q Q. destruct (Z.eq_dec q SIGPIPE) as [->|N].
    + pose proof (pinv_print _ _ _ _ _ _ _ (I SIGPIPE Q)) as X. rewrite T in E. rewrite E in X. exact X.
    + destruct (O1 q N) as (-> & ->). auto.
  - destruct OK as ((-> & OK) & _). apply inv_child; [split; [exact T|split; [exact M|exact I]]|auto].
Qed.
Lemma inv_acts o talk ls : forall g s, inv o talk g s -> fine talk g ls -> inv o talk (fold_left set1 ls g) (acts ls s).
Proof.
  induction ls as [|l ls IH]; intros g s I F; [exact I|]. cbn [fold_left acts]. destruct F as (F1 & F2). apply IH; [|exact F2]. apply pinv_act; [auto|]. split; [exact F1|exact Logic.I].
Qed.

(** ** The start *)
Lemma inv_init o talk : inv o talk setting0 (init o talk).
Proof.
  unfold init. cbv zeta. set (fl := fun p : Z => _). set (s0 := St fl _ _ _ _ _ _ _ _ _ _ _).
  assert (forall s p r fo sh, is_sig p -> exists s', snd (setsig s p HTrap r fo false sh) = s' /\ (exists b, sig1 (ents s p) (disp s p) (talking s) HTrap r fo false sh = (b, ents s' p, disp s' p)) /\ only p s s') as X.
  { intros s p r fo sh P. destruct (setsig s p HTrap r fo false sh) as (b, s') eqn:E. exists s'. split; [auto|]. split.
    - exists b. apply setsig_sig1 in E; [apply E|apply not_special; auto|apply P].
    - pose proof (only_setsig s p HTrap r fo false sh) as Y. now rewrite E in Y. }
  destruct (X s0 SIGINT ROrig false false) as (s1 & -> & (b1 & E1) & O1 & T1 & M1); [split; [unfold SIGINT; lia|auto]|].
  destruct (X s1 SIGQUIT ROrig false false) as (s2 & -> & (b2 & E2) & O2 & T2 & M2); [split; [unfold SIGQUIT; lia|auto]|].
  destruct (X s2 SIGTERM ROrig false false) as (s3 & -> & (b3 & E3) & O3 & T3 & M3); [split; [unfold SIGTERM; lia|auto]|].
  destruct (X s3 SIGHUP ROrig false false) as (s4 & -> & (b4 & E4) & O4 & T4 & M4); [split; [unfold SIGHUP; lia|auto]|].
  destruct (X s4 SIGCHLD ROrig true true) as (s5 & -> & (b5 & E5) & O5 & T5 & M5); [split; [unfold SIGCHLD; lia|auto]|]. clear X.
  assert (talking s5 = talk) as TT by (rewrite T5, T4, T3, T2, T1; reflexivity). assert (monitor s5 = false) as MM by (rewrite M5, M4, M3, M2, M1; reflexivity).
  split; [auto|]. split; [auto|]. intros p P.
  assert (forall a b, (a =? b) = false -> a <> b) as NE by (intros a b; apply Z.eqb_neq).
  destruct (p =? SIGCHLD) eqn:K5.
  { apply Z.eqb_eq in K5. subst p. destruct (O4 SIGCHLD), (O3 SIGCHLD), (O2 SIGCHLD), (O1 SIGCHLD); try discriminate.
    assert (ents s4 SIGCHLD = ents s0 SIGCHLD /\ disp s4 SIGCHLD = disp s0 SIGCHLD) as (EE & DD) by (split; congruence). rewrite EE, DD in E5. cbn in E5.
    destruct (o SIGCHLD); cbn in E5; injection E5 as <- <- <-; (split; cbn; auto; try discriminate; destruct talk; reflexivity). }
  apply NE in K5. destruct (O5 p K5) as (-> & ->). cbn [g_tr g_bg g_us setting0].
  destruct (Z.eq_dec p SIGHUP) as [->|K4].
  { destruct (O3 SIGHUP), (O2 SIGHUP), (O1 SIGHUP); try discriminate.
    assert (ents s3 SIGHUP = ents s0 SIGHUP /\ disp s3 SIGHUP = disp s0 SIGHUP) as (EE & DD) by (split; congruence). rewrite EE, DD in E4. cbn in E4.
    destruct (o SIGHUP); cbn in E4; injection E4 as <- <- <-; (split; cbn; auto; try discriminate; destruct talk; reflexivity). }
  destruct (O4 p K4) as (-> & ->). destruct (Z.eq_dec p SIGTERM) as [->|K3].
  { destruct (O2 SIGTERM), (O1 SIGTERM); try discriminate.
    assert (ents s2 SIGTERM = ents s0 SIGTERM /\ disp s2 SIGTERM = disp s0 SIGTERM) as (EE & DD) by (split; congruence). rewrite EE, DD in E3. cbn in E3.
    destruct (o SIGTERM); cbn in E3; injection E3 as <- <- <-; (split; cbn; auto; try discriminate; destruct talk; reflexivity). }
  destruct (O3 p K3) as (-> & ->). destruct (Z.eq_dec p SIGQUIT) as [->|K2].
  { destruct (O1 SIGQUIT); try discriminate.
    assert (ents s1 SIGQUIT = ents s0 SIGQUIT /\ disp s1 SIGQUIT = disp s0 SIGQUIT) as (EE & DD) by (split; congruence). rewrite EE, DD in E2. cbn in E2.
    destruct (o SIGQUIT); cbn in E2; injection E2 as <- <- <-; (split; cbn; auto; try discriminate; destruct talk; reflexivity). }
  destruct (O2 p K2) as (-> & ->). destruct (Z.eq_dec p SIGINT) as [->|K1].
  { cbn in E1. destruct (o SIGINT); cbn in E1; injection E1 as <- <- <-; (split; cbn; auto; try discriminate; destruct talk; reflexivity). }
  destruct (O1 p K1) as (-> & ->). unfold terminal. apply Z.eqb_neq in K1, K2, K3, K4, K5. cbn. unfold fl. rewrite K1, K2, K3, K4, K5. cbn. destruct (o p); (split; cbn; auto; try discriminate; destruct talk; reflexivity).
Qed.

(** ** Programs *)
Lemma only_restore1 s p : only p s (match exe (ents s p) with Some h => snd (setsig s p h RCurr true false false) | None => s end).
Proof. destruct (exe (ents s p)); [apply only_setsig|apply only_refl]. Qed.
Lemma program_inv o talk g s p bg : inv o talk g s -> is_sig p -> program false bg s p = wants (stays o talk g p) (g_tr g p) (g_bg g p).
Proof.
  intros (T & M & I) P. unfold program. cbn [andb]. unfold restoresigs.
  destruct (fold_one _ sigs only_restore1 sigs_nodup s) as (_ & _ & _ & D). destruct (D p) as (s1 & D1 & D2 & D3 & _ & ->); [apply sigs_in; destruct P; lia|].
  specialize (I p P). rewrite <- D1, <- D2 in I. clear D1 D2 D. destruct I as [H1 H2 H3 H4 H5 H6 H7 H7b H8 H9 H10]. unfold stays.
  destruct (exe (ents s1 p)) as [h|] eqn:EX.
  - subst h. destruct (setsig s1 p _ RCurr true false false) as (b, s2) eqn:E. apply setsig_sig1 in E as (E & _); [|apply not_special; auto|apply P]. cbn [snd].
    assert (disp s2 p = wants (o p && (negb talk || negb (g_us g p))) (g_tr g p) (g_bg g p)) as ->.
    { unfold sig1 in E. destruct (orig (ents s1 p)) as [h|] eqn:EO; [|destruct H8 as (_ & _ & _ & _ & H8); congruence]. rewrite EO in E. cbn in E. rewrite andb_false_r in E. cbn in E.
      destruct H8 as (_ & H8). rewrite H8 in E. destruct (heq (disp s1 p) _) eqn:HE in E; injection E as _ _ E; [|congruence]. apply heq_true in HE. congruence. }
    unfold wants. destruct (o p && _); [auto|]. destruct (g_tr g p) as [[|]|]; auto. destruct (g_bg g p); auto.
  - rewrite H10 in H9. rewrite H9. unfold wants. destruct (o p && _); [auto|]. destruct (g_tr g p) as [[|]|]; auto. destruct (g_bg g p); auto. destruct (terminal p); auto.
Qed.

(** ** Every run is a sequence of such steps *)
Definition plain (l : label) : Prop := match l with LChild _ | LPrint => False | _ => True end.
Definition steps (s s' : st) : Prop := exists ls, Forall plain ls /\ s' = acts ls s.
Lemma steps_refl s : steps s s.
Proof. exists []. auto. Qed.
Lemma steps_trans a b c : steps a b -> steps b c -> steps a c.
Proof. intros (l1 & F1 & ->) (l2 & F2 & ->). exists (l1 ++ l2). split; [apply Forall_app; auto|]. unfold acts. now rewrite fold_left_app. Qed.
Lemma steps_one l s : plain l -> steps s (act s l).
Proof. intros P. exists [l]. auto. Qed.
Lemma run_steps body n : forall t s s', state (run body n t s) = Some s' -> steps s s'.
Proof.
  induction n as [|n IH]; [discriminate|]. intros t s s'.
  assert (forall r k s, (forall s1, state r = Some s1 -> steps s s1) -> (forall s1 s2, state (k s1) = Some s2 -> steps s1 s2) -> state (bind r k) = Some s' -> steps s s') as B.
  { intros r k s1 R K H. destruct r as [s2|s2|s2|]; cbn in H; [|injection H as <-; apply R; reflexivity..|discriminate].
    eapply steps_trans; [apply R; reflexivity|]. eauto. }
  destruct t as [[|o l]|o|f|f [|p l]|p|ex]; cbn [run].
  - intros [= <-]. apply steps_refl.
  - apply B; eauto.
  - destruct o as [p t|p|v| | | | | |l|b].
    + intros [= <-]. apply (steps_one (LTrap p t)). exact I.
    + intros [= <-]. apply (steps_one (LSignal p)). exact I.
    + destruct (v =? 0); [intros [= <-]; apply (steps_one (LExstat v)); exact I|]. intros H. eapply steps_trans; [apply (steps_one (LExstat v)); exact I|].
      eapply steps_trans; [apply (steps_one LErr); exact I|]. cbn [act] in *. cbv zeta in H. destruct (errexit _); [eauto|]. injection H as <-. apply steps_refl.
    + destruct (trapf s); [eauto|]. intros [= <-]. apply steps_refl.
    + destruct (intrf s); [eauto|]. intros [= <-]. apply steps_refl.
    + intros [= <-]. apply steps_refl.
    + eauto.
    + eauto.
    + destruct (run body n (TList l) s) eqn:E; cbn; intros H; try discriminate; injection H as <-; apply (IH (TList l)); rewrite E; reflexivity.
    + intros [= <-]. apply (steps_one (LErrexit b)). exact I.
  - set (s1 := match f with RAll => _ | RIntr => _ | RFatal => _ end). assert (steps s s1) as F1.
    { subst s1. destruct f; [apply (steps_one (LFlags _ _ _)); exact I|apply (steps_one (LFlags _ _ _)); exact I|apply (steps_one (LFlags _ _ _)); exact I]. }
    clearbody s1. destruct (run body n (TLoop f sigs) s1) eqn:E; cbn; intros H; try discriminate; injection H as <-; (eapply steps_trans; [exact F1|]).
    + apply (IH (TLoop f sigs)). rewrite E. reflexivity.
    + eapply steps_trans; [apply (IH (TLoop f sigs)); rewrite E; reflexivity|]. apply (steps_one LCut). exact I.
    + apply (IH (TLoop f sigs)). rewrite E. reflexivity.
  - intros [= <-]. apply steps_refl.
  - destruct (pend (ents s p) && wanted f (ents s p)); [apply B; eauto|eauto].
  - set (s1 := note _ _). assert (steps s s1) as F1.
    { eapply steps_trans; [apply (steps_one (LTake p)); exact I|]. apply (steps_one (LNote _)). exact I. }
    clearbody s1. destruct (tr (ents s p)) as [[|c a]|].
    + intros [= <-]. auto.
    + cbv zeta. set (sp := (p =? SIGEXIT) || (p =? SIGERR)). set (s2 := if sp then _ else _). assert (steps s1 s2) as F2.
      { subst s2. destruct sp eqn:SP; [|apply steps_refl]. unfold sp in SP. pose proof (steps_one (LSpecial p (set_tr (set_chg (ents s1 p) false) None)) s1 I) as X. cbn [act] in X. rewrite SP in X. exact X. }
      clearbody s2. apply B.
      * intros s3 H. eapply steps_trans; [exact F1|]. eapply steps_trans; [exact F2|]. eauto.
      * intros s3 s4 H. injection H as <-. eapply steps_trans; [apply (steps_one (LExstat (exstat s1))); exact I|]. cbn [act]. set (s4 := with_exstat s3 (exstat s1)). clearbody s4.
        destruct sp eqn:SP; [|apply steps_refl]. unfold sp in SP. match goal with |- steps s4 (with_ent s4 p ?e) => pose proof (steps_one (LSpecial p e) s4 I) as X end. cbn [act] in X. rewrite SP in X. exact X.
    + destruct (fatal (ents s p)); [intros [= <-]; eapply steps_trans; [exact F1|]; apply (steps_one (LExstat _)); exact I|].
      destruct (dfli (ents s p)); [|intros [= <-]; auto]. intros H. eapply steps_trans; [exact F1|]. eapply steps_trans; [apply (steps_one (LExstat (128 + p))); exact I|]. eauto.
  - assert (forall q s, state (bind (if trapf s then run body n (TRun RAll) s else Fin s) (fun s => match run body n (TTrap q) s with Fin s => Gone s | Unw s => Unw (with_cut s) | r => r end)) = Some s' -> steps s s') as X.
    { intros q s1. apply B.
      - intros s2. destruct (trapf s1); [eauto|]. intros [= <-]. apply steps_refl.
      - intros s2 s3. destruct (run body n (TTrap q) s2) eqn:E; cbn; intros H; try discriminate; injection H as <-.
        + apply (IH (TTrap q)); rewrite E; reflexivity.
        + eapply steps_trans; [apply (IH (TTrap q)); rewrite E; reflexivity|]. apply (steps_one LCut). exact I.
        + apply (IH (TTrap q)); rewrite E; reflexivity. }
    destruct (ex || _); [apply X|]. destruct (errexit s); [apply X|]. intros [= <-]. apply steps_refl.
Qed.
