(** The steps of the vi editor: what they leave alone. *)
From Verif Require Import Base Vi_model Vi_frame.
Local Open Scope Z_scope.

(** ibuf is an array of a fixed size. *)
Definition Q (s s' : st) : Prop := length (ib s') = length (ib s).
Lemma K_Q s s' : K s s' -> Q s s'.
Proof. intros H. apply H. Qed.
Section G.
Variable k : cfg.
Lemma vi_cmd_Q a cmd m x s : ph (vi_cmd k a cmd m x s) (fun y => Q s (snd y)).
Proof.
  unfold vi_cmd. cbv zeta. destruct (is_move _).
  - apply (ph_bind _ _ (fun y => K s (snd y))); [apply domove_K, K_refl|]. intros [r s'] H. cbn [snd] in H.
    destruct r; [|apply K_Q; auto]. apply ph_any. intros n. apply K_Q in H. exact H.
  - apply (ph_bind _ _ (Q s)).
    + destruct (_ && _); [|exact eq_refl]. apply ph_any. intros b. exact eq_refl.
    + intros s1 H1. apply (ph_bind _ _ (fun y => Q s (snd y))).
      * destruct (ceq (cmd0 cmd) "u") eqn:E.
        -- apply ceq_true in E. unfold command. rewrite E. cbv zeta. unfold brk. exact H1.
        -- eapply ph_mono; [apply command_K; [apply K_refl|]|].
           ++ intros F. rewrite F in E. discriminate.
           ++ intros [? s2] H2. cbn [snd] in *. apply K_Q in H2. unfold Q in *. congruence.
      * intros [r s2] H2. cbn [snd] in H2. destruct r; [exact H2|]. destruct (_ && _); [|exact H2]. apply ph_any. intros i. exact H2.
Qed.
Lemma push_Q s0 c s : Q s0 s -> ph (push_cmd c s) (Q s0).
Proof. intros H. unfold push_cmd. apply ph_any. intros t. exact H. Qed.
Lemma ext_Q s0 c s : Q s0 s -> ph (ext_char c s) (Q s0).
Proof. intros H. unfold ext_char. apply (ph_bind _ _ (Q s0)); [apply push_Q; auto|]. intros s' H'. exact H'. Qed.
Lemma K_Q' s0 s s' : Q s0 s -> K s s' -> Q s0 s'.
Proof. intros H G. apply K_Q in G. unfold Q in *. congruence. Qed.
Lemma serase_Q s0 f : forall s, Q s0 s -> ph (serase_loop k f s) (Q s0).
Proof.
  induction f as [|f IH]; intros s H; cbn [serase_loop]; [exact I|]. apply ph_any. intros c. cbv zeta.
  destruct (_ && _); [apply IH|]; exact H.
Qed.
Lemma search_Q s0 c s : Q s0 s -> ph (search_key k c s) (fun y => Q s0 (snd y)).
Proof.
  intros H. assert (R : ph (restore_cbuf s) (Q s0)).
  { eapply ph_mono; [apply restore_K, K_refl|]. intros s' G. eapply K_Q'; eauto. }
  unfold search_key. cbv zeta. destruct (_ || _).
  { apply (ph_bind _ _ (Q s0)); [exact R|]. intros s1 H1. destruct (_ =? _); [destruct (spat s1); exact H1|].
    apply ph_any. intros t. exact H1. }
  destruct (_ || _).
  { destruct (_ =? _); [apply (ph_bind _ _ (Q s0)); [exact R|]; intros s1 H1; exact H1|].
    apply (ph_bind _ _ (Q s0)); [apply serase_Q; exact H|]. intros s1 H1. exact H1. }
  destruct (is_key _ _); [exact H|]. destruct (is_key _ _).
  { apply ph_any. intros n. apply ph_any. intros d. exact H. }
  destruct (_ =? _); [exact H|]. apply ph_any. intros t. apply ph_any. intros e. exact H.
Qed.
Lemma hook1_Q c x s : ph (hook1 k c x s) (fun y => Q s (snd y)).
Proof.
  assert (R : Q s s) by exact eq_refl. unfold hook1. cbv zeta. destruct (vs s).
  - destruct (is_ins _).
    + apply (ph_bind _ _ (fun y => K s (snd y))); [apply vi_insert_K, K_refl|]. intros [r s'] H. cbn [snd] in H. apply K_Q in H.
      destruct (_ =? _); [exact H|]. destruct (_ =? _); [|exact H]. destruct (ceq c cV); exact H.
    + destruct (_ || _); [exact R|]. destruct (is19 c); [exact R|]. apply (ph_bind _ _ (Q s)); [apply push_Q; exact R|].
      intros s1 H1. destruct (vs _); try exact H1. apply (ph_bind _ _ (Q s)).
      * eapply ph_mono; [apply save_K, K_refl|]. intros s2 H2. eapply K_Q'; [|exact H2]. exact H1.
      * intros s2 H2. apply ph_any. intros [ok e]. destruct ok; exact H2.
  - destruct (isdigit c); [apply ph_any; intros n; exact R|]. apply (ph_bind _ _ (Q s)); [apply push_Q; exact R|]. intros s1 H1. exact H1.
  - destruct (is19 c); [exact R|]. apply (ph_bind _ _ (Q s)); [apply ext_Q; exact R|]. intros s1 H1. exact H1.
  - destruct (isdigit c); [apply ph_any; intros n; exact R|]. apply ph_any. intros n.
    apply (ph_bind _ _ (Q s)); [apply ext_Q; exact R|]. intros s1 H1. exact H1.
  - destruct (ceq c ESC); [exact R|]. apply (ph_bind _ _ (Q s)); [apply push_Q; exact R|]. intros s1 H1. exact H1.
  - exact R.
  - exact R.
  - exact R.
  - apply ph_any. intros e. exact R.
  - apply (ph_bind _ _ (fun y => Q s (snd y))); [apply search_Q; exact R|]. intros [go s1] H1. destruct go; exact H1.
Qed.
Lemma hook2_Q m x s : ph (hook2 k m x s) (fun y => Q s (snd y)).
Proof.
  unfold hook2. cbv zeta. destruct (vs s); try exact eq_refl.
  - apply (ph_bind _ _ (fun y => Q s (snd y))); [exact (vi_cmd_Q _ _ _ _ (set_vs VNORMAL s))|]. intros [r s1] H.
    cbn [snd] in H. destruct (_ =? _); [destruct (is_ins _); exact H|]. destruct (_ =? _); exact H.
  - apply (ph_bind _ _ (fun y => Q s (snd y))).
    + eapply ph_mono; [apply vi_cmd_Q|]. intros [r s1] H. cbn [snd] in *. unfold Q in *. rewrite H. destruct (_ =? _); exact eq_refl.
    + intros [r s1] H. cbn [snd] in H. destruct (_ =? _); [|destruct (_ =? _); exact H]. destruct (is_ins _); [|exact H].
      apply (ph_bind _ _ (fun y => Q s (snd y))).
      * eapply ph_mono; [apply redo_insert_K, K_refl|]. intros [ok s2] H2. cbn [snd] in *. eapply K_Q'; eauto.
      * intros [ok s2] H2. exact H2.
Qed.
Lemma step_Q v s : ph (step k v s) (Q s).
Proof.
  destruct v as [c m x|b h n]; cbn [step]; [|exact eq_refl]. destruct (fin s); [exact eq_refl|].
  apply (ph_bind _ _ (fun y => Q s (snd y))).
  - unfold vi_hook. apply (ph_bind _ _ (fun y => Q s (snd y))); [apply hook1_Q|]. intros [r s1] H. cbn [snd] in H.
    destruct r; [exact H|]. eapply ph_mono; [apply hook2_Q|]. intros [r s2] H2. cbn [snd] in *. unfold Q in *. congruence.
  - intros [r s1] H. cbn [snd] in H. destruct (_ =? _); exact H.
Qed.
Lemma run_Q l : forall s s', run k l s = Ok s' -> length (ib s') = length (ib s).
Proof.
  induction l as [|v l IH]; intros s s' H; cbn [run] in H; [injection H as <-; reflexivity|].
  destruct (step k v s) as [s1| |] eqn:E; try discriminate. cbn [bind] in H. rewrite (IH _ _ H). exact (ph_ok _ _ _ (step_Q v s) E).
Qed.

(** A key in insert mode leaves the other edit state alone. *)
Lemma insert_un c m x s : is_ins (ins s) = true -> vs s = VNORMAL \/ vs s = VLIT ->
  ph (step k (Key c m x) s) (fun s' => un s' = un s /\ (vs s' = VNORMAL \/ vs s' = VLIT)).
Proof.
  intros Hi Hv. cbn [step]. destruct (fin s); [cbn; auto|].
  apply (ph_bind _ _ (fun y => un (snd y) = un s /\ (vs (snd y) = VNORMAL \/ vs (snd y) = VLIT))).
  - unfold vi_hook. apply (ph_bind _ _ (fun y => un (snd y) = un s /\ (vs (snd y) = VNORMAL \/ vs (snd y) = VLIT))).
    + unfold hook1. cbv zeta. destruct Hv as [Hv|Hv]; rewrite Hv.
      * rewrite Hi. apply (ph_bind _ _ (fun y => K s (snd y))); [apply vi_insert_K, K_refl|]. intros [r s'] (A & B & _). cbn [snd] in *.
        assert (B' : vs s' = VNORMAL) by congruence.
        unfold ret, brk. destruct (_ =? _); [cbn; auto|]. destruct (_ =? _); [|cbn; auto].
        destruct (ceq c cV); cbn; auto.
      * apply ph_any. intros e. cbn. auto.
    + intros [r s1] [A B]. cbn [snd] in *. destruct r; [cbn; auto|]. unfold hook2. cbv zeta. destruct B as [B|B]; rewrite B; cbn; auto.
  - intros [r s1] [A B]. cbn [snd] in *. destruct (_ =? _); cbn; auto.
Qed.
End G.
