From Verif Require Import Base Num_model SimplifyPath_model SimplifyPath_proof Glob_model Glob_spec Glob_proof Trim_model Trim_spec.

(** ** trimming *)
Lemma split_at {A} (s : list A) k : k <= length s -> exists a b, s = a ++ b /\ length a = k.
Proof. intros H. exists (firstn k s), (skipn k s). rewrite firstn_skipn, firstn_length. split; [reflexivity|lia]. Qed.

Lemma c_string_nul a r : nul_free a = true -> c_string (a ++ NUL :: r) = Ok a.
Proof.
  induction a as [|c a IH]; intros H; [reflexivity|]. cbn [nul_free forallb] in H. apply andb_prop in H. destruct H as [H1 H2].
  cbn [app c_string]. apply negb_true_iff in H1. rewrite H1, IH by exact H2. reflexivity.
Qed.

Section Trim.
Variables (pat : cstr) (P : cstr -> Prop).
Hypothesis HP : forall s, decides (gmatch s pat) (P s).

Definition mb (s : cstr) : bool := match gmatch s pat with Some b => b | None => false end.
Lemma mb_ok s : mb s = true <-> P s.
Proof. unfold mb. destruct (HP s) as (b & -> & H). exact H. Qed.
Lemma gm_mb a r : nul_free a = true -> gm (a ++ NUL :: r) pat = Ok (mb a).
Proof. intros H. unfold gm, mb. rewrite c_string_nul by exact H. cbn [bind]. destruct (HP a) as (b & -> & _). reflexivity. Qed.

Lemma try_prefix_ok a b : nul_free (a ++ b) = true ->
  try_prefix ((a ++ b) ++ [NUL]) (length a) pat = Ok (mb a, (a ++ b) ++ [NUL]).
Proof.
  intros H. rewrite nul_free_app in H. apply andb_prop in H. destruct H as [H1 H2].
  unfold try_prefix. rewrite <- app_assoc.
  destruct (b ++ [NUL]) as [|c t] eqn:E; [destruct b; discriminate|].
  rewrite rd_mid by reflexivity. cbn [bind]. rewrite wr_mid by reflexivity. cbn [bind].
  rewrite gm_mb by exact H1. cbn [bind]. rewrite wr_mid by reflexivity. reflexivity.
Qed.

Lemma try_prefixes_ok s ks : nul_free s = true -> (forall k, In k ks -> k <= length s) ->
  try_prefixes ks (s ++ [NUL]) pat = Ok (find (fun k => mb (firstn k s)) ks, s ++ [NUL]).
Proof.
  intros Hs. induction ks as [|k ks IH]; intros Hk; [reflexivity|]. cbn [try_prefixes find].
  destruct (split_at s k) as (a & b & -> & <-); [apply Hk; left; reflexivity|].
  rewrite try_prefix_ok by exact Hs. cbn [bind fst snd]. rewrite firstn_len.
  destruct (mb a); [reflexivity|]. apply IH. intros k' H. apply Hk. right. exact H.
Qed.

Lemma skipn_buf a b : skipn (length a) ((a ++ b) ++ [NUL]) = b ++ [NUL].
Proof. rewrite <- app_assoc. apply skipn_len. Qed.

Lemma try_suffixes_ok s ks : nul_free s = true -> (forall k, In k ks -> k <= length s) ->
  try_suffixes ks (s ++ [NUL]) pat = Ok (find (fun k => mb (skipn k s)) ks).
Proof.
  intros Hs. induction ks as [|k ks IH]; intros Hk; [reflexivity|]. cbn [try_suffixes find].
  destruct (split_at s k) as (a & b & -> & <-); [apply Hk; left; reflexivity|].
  pose proof Hs as Hs'. rewrite nul_free_app in Hs'. apply andb_prop in Hs'. destruct Hs' as [_ H2].
  rewrite skipn_buf, (gm_mb b []) by exact H2. cbn [bind]. rewrite skipn_len.
  destruct (mb b); [reflexivity|]. apply IH. intros k' H. apply Hk. right. exact H.
Qed.

Lemma find_up f n : 
  match find f (seq 0 (S n)) with
  | Some k => k <= n /\ f k = true /\ forall j, j <= n -> f j = true -> k <= j
  | None => forall j, j <= n -> f j = false
  end.
Proof.
  assert (G : forall len a, match find f (seq a len) with
    | Some k => a <= k < a + len /\ f k = true /\ forall j, a <= j < a + len -> f j = true -> k <= j
    | None => forall j, a <= j < a + len -> f j = false end).
  { induction len as [|len IH]; intros a; cbn [seq find]; [intros; lia|].
    destruct (f a) eqn:E; [repeat split; auto; lia|].
    specialize (IH (S a)). destruct (find f (seq (S a) len)) as [k|].
    - destruct IH as (H1 & H2 & H3). repeat split; auto; try lia. intros j Hj Fj.
      destruct (Nat.eq_dec j a) as [->|]; [congruence|]. apply H3; auto. lia.
    - intros j Hj. destruct (Nat.eq_dec j a) as [->|]; [exact E|]. apply IH. lia. }
  specialize (G (S n) 0). destruct (find f (seq 0 (S n))) as [k|].
  - destruct G as (H1 & H2 & H3). repeat split; auto; [lia|]. intros j Hj Fj. apply H3; auto. lia.
  - intros j Hj. apply G. lia.
Qed.

Lemma find_down f n : 
  match find f (rev (seq 0 (S n))) with
  | Some k => k <= n /\ f k = true /\ forall j, j <= n -> f j = true -> j <= k
  | None => forall j, j <= n -> f j = false
  end.
Proof.
  induction n as [|n IH].
  - cbn. destruct (f 0) eqn:E; [repeat split; auto; intros; lia|]. intros j Hj. assert (j = 0) by lia. subst. exact E.
  - rewrite seq_S, rev_app_distr. cbn [rev app find Nat.add]. destruct (f (S n)) eqn:E; [repeat split; auto; intros; lia|].
    destruct (find f (rev (seq 0 (S n)))) as [k|].
    + destruct IH as (H1 & H2 & H3). repeat split; auto. intros j Hj Fj.
      destruct (Nat.eq_dec j (S n)) as [->|]; [congruence|]. apply H3; auto. lia.
    + intros j Hj. destruct (Nat.eq_dec j (S n)) as [->|]; [exact E|]. apply IH. lia.
Qed.

Lemma trimsub_ok s h : nul_free s = true -> exists r,
  trimsub s pat h = Ok (r, s ++ [NUL]) /\ (best_part h P s r \/ (r = s /\ no_part h P s)).
Proof.
  intros Hs. unfold trimsub.
  assert (Hup : forall k, In k (seq 0 (S (length s))) -> k <= length s) by (intros k Hk; apply in_seq in Hk; lia).
  assert (Hdn : forall k, In k (rev (seq 0 (S (length s)))) -> k <= length s) by (intros k Hk; apply in_rev, Hup in Hk; exact Hk).
  assert (PRE : forall k, k <= length s -> c_string (skipn k (s ++ [NUL])) = Ok (skipn k s) /\ s = firstn k s ++ skipn k s /\ length (firstn k s) = k).
  { intros k Hk. destruct (split_at s k Hk) as (a & b & -> & <-). rewrite skipn_buf, skipn_len, firstn_len.
    rewrite nul_free_app in Hs. apply andb_prop in Hs. destruct Hs as [_ H2]. rewrite (c_string_nul b []) by exact H2. auto. }
  assert (CUT : forall a b, s = a ++ b -> length a <= length s /\ firstn (length a) s = a /\ skipn (length a) s = b).
  { intros a b ->. rewrite app_length, firstn_len, skipn_len. repeat split. lia. }
  assert (E0 : c_string (s ++ [NUL]) = Ok s) by (apply (c_string_nul s []), Hs).
  destruct h; [| | |].
  - rewrite try_prefixes_ok by assumption. cbn [bind fst snd].
    pose proof (find_up (fun k => mb (firstn k s)) (length s)) as F.
    destruct (find _ (seq 0 (S (length s)))) as [k|].
    + destruct F as (F1 & F2 & F3). destruct (PRE k F1) as (E1 & E2 & E3). rewrite E1. eexists. split; [reflexivity|].
      left. exists (firstn k s). split; [exact E2|]. split; [apply mb_ok, F2|].
      intros a b E Ha. destruct (CUT a b E) as (G1 & G2 & G3). rewrite E3. apply F3; [exact G1|]. rewrite G2. apply mb_ok, Ha.
    + rewrite E0. eexists. split; [reflexivity|]. right. split; [reflexivity|]. intros a b E Ha.
      destruct (CUT a b E) as (G1 & G2 & G3). specialize (F _ G1). cbv beta in F. rewrite G2 in F. apply mb_ok in Ha. congruence.
  - rewrite try_prefixes_ok by assumption. cbn [bind fst snd].
    pose proof (find_down (fun k => mb (firstn k s)) (length s)) as F.
    destruct (find _ (rev (seq 0 (S (length s))))) as [k|].
    + destruct F as (F1 & F2 & F3). destruct (PRE k F1) as (E1 & E2 & E3). rewrite E1. eexists. split; [reflexivity|].
      left. exists (firstn k s). split; [exact E2|]. split; [apply mb_ok, F2|].
      intros a b E Ha. destruct (CUT a b E) as (G1 & G2 & G3). rewrite E3. apply F3; [exact G1|]. rewrite G2. apply mb_ok, Ha.
    + rewrite E0. eexists. split; [reflexivity|]. right. split; [reflexivity|]. intros a b E Ha.
      destruct (CUT a b E) as (G1 & G2 & G3). specialize (F _ G1). cbv beta in F. rewrite G2 in F. apply mb_ok in Ha. congruence.
  - rewrite try_suffixes_ok by assumption. cbn [bind].
    pose proof (find_down (fun k => mb (skipn k s)) (length s)) as F.
    destruct (find _ (rev (seq 0 (S (length s))))) as [k|].
    + destruct F as (F1 & F2 & F3). destruct (PRE k F1) as (E1 & E2 & E3). eexists. split; [reflexivity|].
      left. exists (skipn k s). split; [exact E2|]. split; [apply mb_ok, F2|].
      intros a b E Ha. destruct (CUT a b E) as (G1 & G2 & G3).
      assert (length a <= k) by (apply F3; [exact G1|]; rewrite G3; apply mb_ok, Ha).
      rewrite skipn_length. rewrite E at 1. rewrite app_length. lia.
    + rewrite E0. eexists. split; [reflexivity|]. right. split; [reflexivity|]. intros a b E Ha.
      destruct (CUT a b E) as (G1 & G2 & G3). specialize (F _ G1). cbv beta in F. rewrite G3 in F. apply mb_ok in Ha. congruence.
  - rewrite try_suffixes_ok by assumption. cbn [bind].
    pose proof (find_up (fun k => mb (skipn k s)) (length s)) as F.
    destruct (find _ (seq 0 (S (length s)))) as [k|].
    + destruct F as (F1 & F2 & F3). destruct (PRE k F1) as (E1 & E2 & E3). eexists. split; [reflexivity|].
      left. exists (skipn k s). split; [exact E2|]. split; [apply mb_ok, F2|].
      intros a b E Ha. destruct (CUT a b E) as (G1 & G2 & G3).
      assert (k <= length a) by (apply F3; [exact G1|]; rewrite G3; apply mb_ok, Ha).
      rewrite skipn_length. apply (f_equal (@length char)) in E. rewrite app_length in E. lia.
    + rewrite E0. eexists. split; [reflexivity|]. right. split; [reflexivity|]. intros a b E Ha.
      destruct (CUT a b E) as (G1 & G2 & G3). specialize (F _ G1). cbv beta in F. rewrite G3 in F. apply mb_ok in Ha. congruence.
Qed.
End Trim.

(** ** marking *)
Lemma debunk_magic d r : debunk (MAGIC :: d :: r) =
  if is_ext d then (if ceq (low7 d) " " then [] else [low7 d]) ++ "("%char :: debunk r else d :: debunk r.
Proof. reflexivity. Qed.
Lemma debunk_raw c r : ismagic c = false -> debunk (c :: r) = c :: debunk r.
Proof. intros H. cbn [debunk]. rewrite H. reflexivity. Qed.

Lemma debunk_last c r : debunk ((if ismagic c then [MAGIC; c] else [c]) ++ r) = c :: debunk r.
Proof.
  destruct (ismagic c) eqn:E; cbn [app].
  - unfold ismagic in E. apply ceq_true in E. subst c. reflexivity.
  - apply debunk_raw, E.
Qed.

Lemma debunk_emits pat brace w : forallb tok_ok w = true -> forall seen,
  debunk (emits pat brace seen w) = flat_map tok_text w.
Proof.
  induction w as [|t w IH]; intros Hw seen; [reflexivity|]. cbn [forallb] in Hw. apply andb_prop in Hw. destruct Hw as [Ht Hw].
  cbn [emits flat_map]. destruct t as [c|c|c| |]; cbn [emit tok_text tok_ok] in *.
  - rewrite debunk_last, IH by exact Hw. reflexivity.
  - destruct (mem c (L "[!-]*?")) eqn:E.
    + assert (K : (negb (ismagic c) && negb (is_ext c)) = true)
        by (clear Ht; revert c E; apply sweep_imp; vm_compute; reflexivity).
      apply andb_prop in K. destruct K as [K1 K2]. apply negb_true_iff in K1, K2. rewrite K1.
      destruct pat; cbn [app].
      * rewrite debunk_magic, K2, IH by exact Hw. reflexivity.
      * rewrite debunk_raw, IH by assumption. reflexivity.
    + destruct (mem c (L "{,}")) eqn:E2.
      * assert (K : (negb (ismagic c) && negb (is_ext c)) = true)
          by (clear Ht E; revert c E2; apply sweep_imp; vm_compute; reflexivity).
        apply andb_prop in K. destruct K as [K1 K2]. apply negb_true_iff in K1, K2. rewrite K1.
        destruct (brace && (ceq c "{" || seen)); cbn [app].
        -- rewrite debunk_magic, K2, IH by exact Hw. reflexivity.
        -- rewrite debunk_raw, IH by assumption. reflexivity.
      * rewrite debunk_last, IH by exact Hw. reflexivity.
  - cbn [app]. rewrite debunk_magic, IH by exact Hw.
    assert (K : (is_ext (hi_of c) && ceq (low7 (hi_of c)) c) = true) by (revert c Ht; apply sweep_imp; vm_compute; reflexivity).
    apply andb_prop in K. destruct K as [K1 K2]. apply ceq_true in K2. rewrite K1, K2. destruct (ceq c " "); reflexivity.
  - rewrite <- (IH Hw seen). reflexivity.
  - rewrite <- (IH Hw seen). reflexivity.
Qed.

Lemma debunk_short s : length (debunk s) <= length s.
Proof.
  induction s as [s IH] using (well_founded_induction (well_founded_ltof _ (@length char))).
  destruct s as [|c [|d r]]; [apply le_n|cbn [debunk]; destruct (ismagic c); cbn; lia|].
  destruct (ismagic c) eqn:E.
  - unfold ismagic in E. apply ceq_true in E. subst c. rewrite debunk_magic.
    assert (G : length (debunk r) <= length r) by (apply IH; unfold ltof; cbn; lia).
    destruct (is_ext d), (ceq (low7 d) " "); cbn [length app]; lia.
  - rewrite debunk_raw by exact E. cbn [length]. specialize (IH (d :: r)).
    assert (length (debunk (d :: r)) <= length (d :: r)) by (apply IH; unfold ltof; cbn; lia). cbn [length] in *. lia.
Qed.

(** quoted text as pattern elements *)
Fixpoint lits (t : cstr) (q : pseq) : pseq :=
  match t with [] => q | c :: t' => SCons (ELit (ismagic c) c) (lits t' q) end.
Fixpoint sapp (a b : pseq) : pseq := match a with SNil => b | SCons x a' => SCons x (sapp a' b) end.

Lemma enc_lits pat brace t : forall seen q, enc_seq (lits t q) = emits pat brace seen (map TQ t) ++ enc_seq q.
Proof.
  induction t as [|c t IH]; intros seen q; [reflexivity|]. cbn [lits enc_seq enc_elt map emits emit].
  rewrite (IH seen), <- app_assoc. reflexivity.
Qed.
Lemma enc_sapp a b : enc_seq (sapp a b) = enc_seq a ++ enc_seq b.
Proof. induction a as [|x a IH]; [reflexivity|]. cbn [sapp enc_seq]. rewrite IH, app_assoc. reflexivity. Qed.
Lemma ok_sapp a b : ok_seq a -> ok_seq b -> ok_seq (sapp a b).
Proof. induction a as [|x a IH]; [auto|]. cbn [sapp ok_seq]. intros [H1 H2] Hb. auto. Qed.
Lemma ok_lits t q : nul_free t = true -> ok_seq q -> ok_seq (lits t q).
Proof.
  induction t as [|c t IH]; [auto|]. cbn [nul_free forallb lits ok_seq]. intros H Hq. apply andb_prop in H. destruct H as [H1 H2].
  split; [|apply IH; assumption]. cbn [ok_elt]. unfold ok_lit. change (ceq c NUL) with (is_nul c). rewrite H1.
  destruct (ismagic c) eqn:E; [unfold ismagic in E; apply ceq_true in E; subst c; reflexivity|]. unfold ismagic in E. rewrite E. reflexivity.
Qed.
Lemma lang_sapp a b s : lang_seq (sapp a b) s <-> exists s1 s2, s = s1 ++ s2 /\ lang_seq a s1 /\ lang_seq b s2.
Proof.
  revert s. induction a as [|x a IH]; intros s; cbn [sapp lang_seq].
  - split; [intros H; exists [], s; auto|intros (s1 & s2 & -> & -> & H); exact H].
  - split.
    + intros (s1 & s2 & -> & Hx & H). apply IH in H. destruct H as (s3 & s4 & -> & H3 & H4).
      exists (s1 ++ s3), s4. rewrite app_assoc. repeat split; auto. exists s1, s3. auto.
    + intros (s1 & s2 & -> & (s3 & s4 & -> & Hx & H) & Hb). exists s3, (s4 ++ s2). rewrite app_assoc. repeat split; auto.
      apply IH. exists s4, s2. auto.
Qed.
Lemma lang_lits t q s : lang_seq (lits t q) s <-> exists s2, s = t ++ s2 /\ lang_seq q s2.
Proof.
  revert s. induction t as [|c t IH]; intros s; cbn [lits lang_seq lang_elt].
  - split; [intros H; exists s; auto|intros (s2 & -> & H); exact H].
  - split.
    + intros (s1 & s2 & -> & -> & H). apply IH in H. destruct H as (s3 & -> & H). exists s3. auto.
    + intros (s2 & -> & H). exists [c], (t ++ s2). repeat split. apply IH. eauto.
Qed.

Lemma quoted_ok q1 q2 t s pat brace seen : ok_seq q1 -> ok_seq q2 -> nul_free t = true ->
  decides (gmatch s (enc_seq q1 ++ emits pat brace seen (map TQ t) ++ enc_seq q2))
    (exists s1 s2, s = s1 ++ t ++ s2 /\ lang_seq q1 s1 /\ lang_seq q2 s2).
Proof.
  intros H1 H2 Ht. rewrite <- enc_lits, <- enc_sapp.
  eapply decides_iff; [apply gmatch_ok, ok_sapp; [exact H1|apply ok_lits; assumption]|].
  rewrite lang_sapp. split.
  - intros (s1 & s2 & -> & Ha & Hb). apply lang_lits in Hb. destruct Hb as (s3 & -> & Hb). eauto.
  - intros (s1 & s2 & -> & Ha & Hb). exists s1, (t ++ s2). repeat split; auto. apply lang_lits. eauto.
Qed.
