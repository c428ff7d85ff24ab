(** Killing, yanking and moving (C64). *)
From Verif Require Import Base Num_model Emacs_model Emacs_spec Emacs_proof.
From Coq Require Import ZArith Lia.

Lemma with_txt_eta : forall s, with_txt (txt s) (cur s) s = s. Proof. intros []. reflexivity. Qed.
Lemma goto_inv_ : forall p s s', goto p s = Ok s' -> s' = with_txt (txt s) p s /\ p <= length (txt s).
Proof. intros p s s' H. unfold goto in H. destruct (p <=? length (txt s)) eqn:L; [ | discriminate ]. inversion H. split; auto. apply Nat.leb_le. exact L. Qed.

(** ** Moving *)
Lemma set_arg_frame : forall f first n c s a s', set_arg f first n c s = Ok (a, s') -> exists u m i, s' = with_in u m i s.
Proof.
  intros f. induction f as [|f IH]; intros first n c s a s' H; cbn [set_arg] in H; destruct (_ && _) in H.
  - destruct (_ <? _)%Z in H; discriminate.
  - destruct (_ || _) in H; inversion H; subst; [ destruct s'; do 3 eexists; reflexivity | unfold ungetc; do 3 eexists; reflexivity ].
  - destruct (_ <? _)%Z in H; [ discriminate | ]. destruct (getc s) as (c', s1) eqn:G. destruct (getc_shape _ _ _ G) as (m & i & ->).
    apply IH in H. destruct H as (u' & m' & i' & ->). cbn. do 3 eexists. reflexivity.
  - destruct (_ || _) in H; inversion H; subst; [ destruct s'; do 3 eexists; reflexivity | unfold ungetc; do 3 eexists; reflexivity ].
Qed.
Definition frame (s s' : ed) : Prop := txt s' = txt s /\ kills s' = kills s /\ ksp s' = ksp s.
Lemma frame_goto : forall p s s', goto p s = Ok s' -> frame s s'.
Proof. intros p s s' H. apply goto_inv_ in H. destruct H as (-> & _). unfold frame. cbn. auto. Qed.
Lemma frame_refl : forall s, frame s s. Proof. intros. unfold frame. auto. Qed.
Lemma std_inv : forall r x s', std r = Ok (x, s') -> x = KSTD /\ r = Ok s'.
Proof. intros [s| |] x s' H; cbn in H; inversion H; subst; auto. Qed.
Lemma motion_frame : forall e f g c a s r s', motion g -> run e f g c a s = Ok (r, s') -> r = KSTD /\ frame s s'.
Proof.
  intros e f g c a s r s' M H. unfold motion in M. cbn [In] in M.
  unfold run in H. cbv zeta in H. set (n := match a with Some n => n | None => 1 end) in H.
  destruct g; try (exfalso; intuition discriminate); clear M.
  all: try (apply std_inv in H; destruct H as (-> & H); split; [ reflexivity | ]).
  all: try solve [ injection H as <-; unfold frame; cbn; auto ].
  all: try (eapply frame_goto; eassumption).
  - unfold do_complete in H. destruct (glob _ _ _ _) as [((?, ?), ?)|]; inversion H; subst; unfold frame; cbn; auto.
  - unfold do_complete in H. destruct (glob _ _ _ _) as [((?, ?), ?)|]; inversion H; subst; unfold frame; cbn; auto.
  - unfold do_complete in H. destruct (glob _ _ _ _) as [((?, ?), ?)|]; inversion H; subst; unfold frame; cbn; auto.
  - unfold x_mv_back in H. destruct (_ =? _) in H; [ inversion H; subst; unfold frame; cbn; auto | eapply frame_goto; eassumption ].
  - unfold x_bword in H. destruct (cur s =? 0) in H; cbn in H; [ inversion H; subst; unfold frame; cbn; auto | ].
    destruct (goto _ _) eqn:G in H; cbn in H; inversion H; subst. eapply frame_goto; eassumption.
  - unfold x_mv_forw in H. destruct (_ =? _) in H; [ inversion H; subst; unfold frame; cbn; auto | eapply frame_goto; eassumption ].
  - unfold x_search_char_forw in H. destruct (getc s) as (cc, s1) eqn:G. destruct (getc_shape _ _ _ G) as (m & i & ->).
    destruct n; [ apply frame_goto in H; exact H | ]. destruct (_ <? _)%Z in H; [ inversion H; subst; unfold frame; cbn; auto | ].
    destruct (chars_forw _ _ _ _) in H; [ apply frame_goto in H; exact H | inversion H; subst; unfold frame; cbn; auto ].
  - unfold x_search_char_back in H. destruct (getc s) as (cc, s1) eqn:G. destruct (getc_shape _ _ _ G) as (m & i & ->).
    destruct n; [ apply frame_goto in H; exact H | ]. destruct (_ <? _)%Z in H; [ inversion H; subst; unfold frame; cbn; auto | ].
    destruct (chars_back _ _ _ _) in H; [ apply frame_goto in H; exact H | inversion H; subst; unfold frame; cbn; auto ].
  - unfold x_xchg in H. destruct (mark s) in H; [ apply frame_goto in H; exact H | inversion H; subst; unfold frame; cbn; auto ].
  - destruct (set_arg _ _ _ _ _) as [(k, s1)| |] eqn:SA in H; cbn in H; inversion H; subst. apply set_arg_frame in SA. destruct SA as (u & m & i & ->). split; [ reflexivity | unfold frame; cbn; auto ].
Qed.

(** ** Killing *)
Lemma split3 : forall (t : cstr) c n, c + n <= length t -> t = firstn c t ++ firstn n (skipn c t) ++ skipn (c + n) t.
Proof.
  intros t c n L. rewrite <- (firstn_skipn c t) at 1. f_equal. rewrite <- (firstn_skipn n (skipn c t)) at 1. f_equal.
  revert c L. induction t as [|a t IH]; intros c L; [ cbn in *; destruct c, n; reflexivity | ]. destruct c; [ reflexivity | ]. cbn in *. apply IH. lia.
Qed.
Lemma skipn_skipn_ : forall {A} n c (t : list A), skipn n (skipn c t) = skipn (c + n) t.
Proof. intros A n c. induction c as [|c IH]; intros t; [ reflexivity | ]. destruct t; cbn; [ destruct n; reflexivity | apply IH ]. Qed.
Lemma delete_killed : forall n s s1, cur s <= length (txt s) -> delete n true s = Ok s1 -> txt s1 <> txt s ->
  killed s s1 (firstn (cur s) (txt s)) (firstn n (skipn (cur s) (txt s))) (skipn (cur s + n) (txt s)) /\ 0 < n /\ cur s + n <= length (txt s) /\
  mark s1 = match mark s with Some m => Some (if cur s <? m then if m <? cur s + n then cur s else m - n else m) | None => None end.
Proof.
  intros n s s1 LE H NE. unfold delete in H. destruct (n =? 0) eqn:Z; [ inversion H; subst; congruence | ]. apply Nat.eqb_neq in Z.
  destruct (length (txt s) <? cur s + n) eqn:L; [ discriminate | ]. apply Nat.ltb_ge in L. cbv zeta in H. inversion H. clear H.
  assert (K : forall s', txt s' = txt s -> cur s' = cur s -> kills s' = kills s -> ksp s' = ksp s ->
     killed s (with_txt (firstn (cur (push n s')) (txt (push n s')) ++ skipn (cur (push n s') + n) (txt (push n s'))) (cur (push n s')) (push n s'))
       (firstn (cur s) (txt s)) (firstn n (skipn (cur s) (txt s))) (skipn (cur s + n) (txt s))).
  { intros s' T C K1 K2. unfold killed. cbn. rewrite T, C, K1, K2. sp; auto.
    - apply split3. exact L.
    - rewrite firstn_length. lia. }
  destruct (mark s) as [m|] eqn:M; [ destruct (cur s <? m) eqn:CM | ].
  - split; [ exact (K (with_mark (Some (if m <? cur s + n then cur s else m - n)) s) eq_refl eq_refl eq_refl eq_refl) | ]. sp; auto; try lia.
  - split; [ exact (K s eq_refl eq_refl eq_refl eq_refl) | ]. sp; auto; try lia.
  - split; [ exact (K s eq_refl eq_refl eq_refl eq_refl) | ]. sp; auto; try lia.
Qed.
Lemma ins_fits : forall e t s, length (txt s) + length t < cap e ->
  ins e t s = with_txt (firstn (cur s) (txt s) ++ t ++ skipn (cur s) (txt s)) (cur s + length t) s.
Proof. intros e t s L. unfold ins, do_ins. replace (cap e <=? _) with false by (symmetry; apply Nat.leb_gt; exact L). reflexivity. Qed.
Lemma nth_set_nth : forall {A} (l : list A) i v d, i < length l -> nth i (set_nth l i v) d = v.
Proof. intros A l. induction l as [|a l IH]; intros [|i] v d L; cbn in *; try lia; auto. apply IH. lia. Qed.
Lemma nth_set_nth_ne : forall {A} (l : list A) i j v d, i <> j -> nth j (set_nth l i v) d = nth j l d.
Proof. intros A l. induction l as [|a l IH]; intros [|i] [|j] v d NE; cbn; auto; try congruence. Qed.
(** What yank brings back *)
Lemma yank_killed : forall e s s1 l k r, inv e s -> killed s s1 l k r ->
  exists s2, x_yank e s1 = s2 /\ txt s2 = txt s /\ cur s2 = length (l ++ k) /\ mark s2 = Some (length l).
Proof.
  intros e s s1 l k r I (T & T1 & C1 & K1 & K2). eexists. split; [ reflexivity | ]. unfold x_yank. cbv zeta.
  destruct I as ((A & B & C) & (R1 & R2 & _) & _).
  assert (E : (if ksp s1 =? 0 then KILLSIZE else ksp s1) - 1 = ksp s).
  { rewrite K1. destruct (Nat.eq_dec (ksp s) 19) as [->|NE]; [ reflexivity | ]. rewrite Nat.mod_small by lia. replace (ksp s + 1 =? 0) with false by (symmetry; apply Nat.eqb_neq; lia). lia. }
  rewrite E. cbn [kills with_ktp]. rewrite K2, nth_set_nth by lia.
  rewrite ins_fits.
  - cbn. rewrite T1, C1. rewrite firstn_app, Nat.sub_diag, firstn_all, skipn_app, Nat.sub_diag, skipn_all. cbn. rewrite app_nil_r, T, app_length. auto.
  - cbn. rewrite T1, !app_length. rewrite T, !app_length in B. lia.
Qed.
Lemma mfs_spec : forall c, is_mfs c = true <-> ~ word_byte c.
Proof.
  assert (W : forall c, is_mfs c = false <-> word_byte c).
  { intros c. unfold is_mfs, is_alnum, word_byte. cbv zeta. rewrite Bool.negb_false_iff, !Bool.orb_true_iff, !andb_true_iff, !Nat.leb_le, !ceq_true. intuition. }
  intros c. rewrite <- W. destruct (is_mfs c); split; intros; congruence.
Qed.
Lemma span_spec : forall p t, Forall (fun c => p c = true) (firstn (span p t) t) /\ match skipn (span p t) t with c :: _ => p c = false | [] => True end.
Proof.
  intros p t. induction t as [|c t IH]; cbn; auto. destruct (p c) eqn:P; cbn; auto. destruct IH. split; auto. 
Qed.
Lemma words1_right : forall t, word_right (firstn (words 1 t) t) (skipn (words 1 t) t).
Proof.
  intros t. cbn [words]. cbv zeta. set (a := span is_mfs t). set (b := span (fun c => negb (is_mfs c)) (skipn a t)).
  replace (a + b + 0) with (a + b) by lia. pose proof (span_spec is_mfs t) as (A1 & A2). fold a in A1, A2.
  pose proof (span_spec (fun c => negb (is_mfs c)) (skipn a t)) as (B1 & B2). fold b in B1, B2.
  exists (firstn a t), (firstn b (skipn a t)). sp.
  - pose proof (span_le is_mfs t) as SA. fold a in SA. rewrite <- (firstn_skipn a t) at 1. rewrite firstn_app, firstn_firstn, firstn_length.
    replace (Nat.min (a + b) a) with a by lia. replace (a + b - Nat.min a (length t)) with b by lia. reflexivity.
  - apply Forall_impl with (2 := A1). intros c H. apply mfs_spec. exact H.
  - apply Forall_impl with (2 := B1). intros c H. apply Bool.negb_true_iff in H. destruct (is_mfs c) eqn:M; [ discriminate | ].
    assert (~ ~ word_byte c) by (intros Q; apply mfs_spec in Q; congruence).
    unfold word_byte in *. destruct (Nat.le_gt_cases 128 (nat_of_ascii c)); [ tauto | ]. cbv zeta in *.
    unfold is_mfs, is_alnum in M. cbv zeta in M. rewrite Bool.negb_false_iff, !Bool.orb_true_iff, !andb_true_iff, !Nat.leb_le, !ceq_true in M. intuition.
  - intros Bn. rewrite <- skipn_skipn_. destruct (skipn a t) as [|c u] eqn:K; [ destruct b; reflexivity | ].
    unfold b in Bn. cbn in Bn. rewrite A2 in Bn. cbn in Bn. discriminate.
  - rewrite <- skipn_skipn_. destruct (skipn b (skipn a t)); auto. apply mfs_spec. apply Bool.negb_false_iff. exact B2.
Qed.
Lemma firstn_app_exact : forall {A} (l r : list A), firstn (length l) (l ++ r) = l.
Proof. intros. rewrite firstn_app, Nat.sub_diag, firstn_all. cbn. apply app_nil_r. Qed.
Lemma skipn_app_exact : forall {A} (l r : list A), skipn (length l) (l ++ r) = r.
Proof. intros. rewrite skipn_app, Nat.sub_diag, skipn_all. reflexivity. Qed.
Lemma words1_left : forall t n, n = words 1 (rev t) -> word_left (firstn (length t - n) t) (skipn (length t - n) t).
Proof.
  intros t n E. unfold word_left. pose proof (words1_right (rev t)) as W. rewrite <- E in W. pose proof (words_le 1 (rev t)) as LE. rewrite rev_length, <- E in LE.
  replace (rev (skipn (length t - n) t)) with (firstn n (rev t)).
  - replace (rev (firstn (length t - n) t)) with (skipn n (rev t)); [ exact W | ].
    rewrite <- (firstn_skipn (length t - n) t) at 1. rewrite rev_app_distr.
    replace n with (length (rev (skipn (length t - n) t))) at 1 by (rewrite rev_length, skipn_length; lia). apply skipn_app_exact.
  - rewrite <- (firstn_skipn (length t - n) t) at 1. rewrite rev_app_distr.
    replace n with (length (rev (skipn (length t - n) t))) at 1 by (rewrite rev_length, skipn_length; lia). apply firstn_app_exact.
Qed.
Lemma kill_run : forall e f g c a s r s1, inv e s -> kill_cmd g -> run e f g c a s = Ok (r, s1) -> txt s1 <> txt s ->
  r = KSTD /\ exists l k z, killed s s1 l k z /\ kills_what a g s l k z /\ k <> [].
Proof.
  intros e f g c a s r s1 I G H NE. pose proof (cur_le e s I) as LE. unfold kill_cmd in G. cbn [In] in G.
  unfold run in H. cbv zeta in H. set (n := match a with Some n => n | None => 1 end) in H.
  destruct G as [<-|[<-|[<-|[<-|[<-|[]]]]]]; apply std_inv in H; destruct H as (-> & H); (split; [ reflexivity | ]).
  - destruct (bword_ok e n s I) as (k & s' & E & I' & T & C & (p & EP)). rewrite E in H. cbn [then_ fst snd] in H.
    pose proof (cur_le e s' I'). rewrite <- T in NE. apply delete_killed in H; auto. destruct H as (K & N & L & _).
    exists (firstn (cur s') (txt s')), (firstn k (skipn (cur s') (txt s'))), (skipn (cur s' + k) (txt s')).
    subst s'. cbn in *. split; [ exact K | ]. split.
    2: { intros Q. apply (f_equal (@length char)) in Q. rewrite firstn_length, skipn_length in Q. cbn in Q. lia. }
    split; [ rewrite app_length, !firstn_length, skipn_length; lia | ].
    intros ->. subst n. unfold x_bword in E. destruct (cur s =? 0) eqn:Z; [ inversion E; lia | ].
    remember (words 1 (rev (firstn (cur s) (txt s)))) as w eqn:KE in E.
    destruct (goto _ s) as [s3| |] in E; cbn [then_] in E; inversion E as [[EK ES]]. rewrite EK in KE.
    pose proof (words1_left (firstn (cur s) (txt s)) k KE) as W. rewrite firstn_length in W. replace (Nat.min (cur s) (length (txt s)) - k) with p in W by lia.
    rewrite firstn_firstn in W. replace (Nat.min p (cur s)) with p in W by lia.
    replace (firstn k (skipn p (txt s))) with (skipn p (firstn (cur s) (txt s))); [ exact W | ].
    rewrite skipn_firstn_comm. f_equal. lia.
  - assert (W := words1_right (skipn (cur s) (txt s))). apply delete_killed in H; auto. destruct H as (K & N & L & _).
    do 3 eexists. split; [ exact K | ]. split.
    + split; [ rewrite firstn_length; lia | ]. intros ->. subst n. rewrite skipn_skipn_ in W. exact W.
    + intros Q. apply (f_equal (@length char)) in Q. rewrite firstn_length, skipn_length in Q. cbn [length] in Q. lia.
  - unfold x_kill in H. set (a0 := match a with Some n => _ | None => _ end) in H.
    assert (A0 : a0 <= length (txt s)) by (unfold a0; destruct a; lia). pose proof (more_forw_le (length (txt s)) a0 (length (txt s)) 0 s A0) as A.
    assert (DEF : a = None -> more_forw (length (txt s)) a0 (length (txt s)) 0 s = length (txt s)).
    { intros ->. unfold a0. destruct (length (txt s)) as [|q]; [ reflexivity | ]. cbn [more_forw]. replace (S q <? S q) with false by (symmetry; apply Nat.ltb_irrefl). reflexivity. }
    set (b := more_forw _ _ _ _ _) in *. cbv zeta in H. destruct (b <? cur s) eqn:L.
    + apply Nat.ltb_lt in L. destruct (goto_post e b s I A) as (E & I'). rewrite E in H. cbn [then_] in H.
      apply delete_killed in H; [ | cbn; lia | exact NE ]. destruct H as (K & N & L' & _). do 3 eexists. split; [ exact K | ]. split.
      * cbn. intros Q. rewrite (DEF Q) in L. lia.
      * cbn. intros Q. apply (f_equal (@length char)) in Q. rewrite firstn_length, skipn_length in Q. cbn [length] in Q. cbn in L'. lia.
    + apply Nat.ltb_ge in L. apply delete_killed in H; auto. destruct H as (K & N & L' & _). do 3 eexists. split; [ exact K | ]. split.
      * cbn. intros Q. split; auto. rewrite (DEF Q). replace (cur s + (length (txt s) - cur s)) with (length (txt s)) by lia. apply skipn_all.
      * intros Q. apply (f_equal (@length char)) in Q. rewrite firstn_length, skipn_length in Q. cbn [length] in Q. lia.
  - unfold x_kill_region in H. destruct (mark s) as [m|] eqn:M; [ | inversion H; subst; congruence ]. cbv zeta in H.
    destruct (goto _ s) as [s'| |] eqn:GG in H; cbn [then_] in H; try discriminate. apply goto_inv_ in GG. destruct GG as (-> & GL).
    destruct (delete _ _ _) as [s2| |] eqn:D in H; cbn [then_] in H; try discriminate. inversion H. subst s1. clear H.
    apply delete_killed in D; [ | exact GL | exact NE ]. destruct D as (K & N & L & _). cbn [cur txt with_txt] in *.
    do 3 eexists. split; [ exact K | ]. split.
    + exists m. split; auto. rewrite app_length, !firstn_length, skipn_length. destruct (Nat.le_gt_cases m (cur s)); [ left | right ]; lia.
    + intros Q. apply (f_equal (@length char)) in Q. rewrite firstn_length, skipn_length in Q. cbn [length] in Q. lia.
  - inversion H. subst s1. exists [], (txt s), []. unfold killed, x_del_line. cbn. rewrite app_nil_r, firstn_all. sp; auto.
Qed.

(** ** The ring *)
Definition order (s : ed) : list (option cstr) := rev (firstn (ksp s) (kills s)) ++ rev (skipn (ksp s) (kills s)).
Definition somes (l : list (option cstr)) : list cstr := flat_map (fun o => match o with Some t => [t] | None => [] end) l.
Lemma ring_somes : forall s, ring s = somes (order s). Proof. reflexivity. Qed.
Lemma set_nth_split : forall {A} (l : list A) i v, i < length l -> set_nth l i v = firstn i l ++ v :: skipn (S i) l.
Proof. intros A l. induction l as [|a l IH]; intros [|i] v L; cbn in *; try lia; auto. f_equal. apply IH. lia. Qed.
Lemma nth_split_ : forall {A} (l : list A) i d, i < length l -> l = firstn i l ++ nth i l d :: skipn (S i) l.
Proof. intros A l. induction l as [|a l IH]; intros [|i] d L; cbn in *; try lia; auto. f_equal. apply IH. lia. Qed.
Lemma order_push : forall s s1 k, length (kills s) = 20 -> ksp s < 20 -> ksp s1 = (ksp s + 1) mod 20 -> kills s1 = set_nth (kills s) (ksp s) (Some k) ->
  exists o, order s = o ++ [nth (ksp s) (kills s) None] /\ order s1 = Some k :: o.
Proof.
  intros s s1 k L R K1 K2. exists (rev (firstn (ksp s) (kills s)) ++ rev (skipn (S (ksp s)) (kills s))). unfold order. split.
  - rewrite <- app_assoc. f_equal.
    assert (E : skipn (ksp s) (kills s) = nth (ksp s) (kills s) None :: skipn (S (ksp s)) (kills s)).
    { rewrite (nth_split_ (kills s) (ksp s) None) at 1 by lia. rewrite <- (firstn_length_le (kills s) (n := ksp s)) at 1 by lia. apply skipn_app_exact. }
    rewrite E. reflexivity.
  - rewrite K2, set_nth_split by lia. rewrite K1. destruct (Nat.eq_dec (ksp s) 19) as [E|NE].
    + assert (S0 : skipn (S (ksp s)) (kills s) = []) by (apply skipn_all2; lia). rewrite S0. rewrite E at 1 3. change ((19 + 1) mod 20) with 0.
      change (firstn 0 (firstn (ksp s) (kills s) ++ [Some k])) with (@nil (option cstr)). change (skipn 0 (firstn (ksp s) (kills s) ++ [Some k])) with (firstn (ksp s) (kills s) ++ [Some k]).
      rewrite rev_app_distr. cbn [rev app]. rewrite app_nil_r. reflexivity.
    + rewrite Nat.mod_small by lia.
      replace (firstn (ksp s) (kills s) ++ Some k :: skipn (S (ksp s)) (kills s)) with ((firstn (ksp s) (kills s) ++ [Some k]) ++ skipn (S (ksp s)) (kills s)) by (rewrite <- app_assoc; reflexivity).
      assert (LL : length (firstn (ksp s) (kills s) ++ [Some k]) = ksp s + 1) by (rewrite app_length, firstn_length; cbn; lia).
      rewrite <- LL. rewrite firstn_app_exact, skipn_app_exact. rewrite rev_app_distr. cbn. reflexivity.
Qed.
Lemma somes_app : forall a b, somes (a ++ b) = somes a ++ somes b. Proof. intros. apply flat_map_app. Qed.
Lemma somes_full : forall l, (forall o, In o l -> o <> None) -> length (somes l) = length l.
Proof. intros l. induction l as [|o l IH]; intros H; cbn; auto. destruct o as [t|]; [ | exfalso; apply (H None); cbn; auto ]. cbn. f_equal. apply IH. intros x X. apply H. cbn; auto. Qed.
Lemma order_in : forall s o, In o (order s) <-> In o (kills s).
Proof. intros s o. unfold order. rewrite in_app_iff, <- !in_rev, <- in_app_iff, firstn_skipn. tauto. Qed.
Lemma order_length : forall s, length (order s) = length (kills s).
Proof. intros s. unfold order. rewrite app_length, !rev_length, <- app_length, firstn_skipn. reflexivity. Qed.
Lemma somes_le : forall l, length (somes l) <= length l.
Proof. intros l. induction l as [|[|] l IH]; cbn; auto; unfold somes in IH; lia. Qed.
Lemma ring_killed : forall s s1 l k z, ring_wf (kills s) (ksp s) -> killed s s1 l k z ->
  ring s1 = k :: firstn 19 (ring s) /\ ring_wf (kills s1) (ksp s1).
Proof.
  intros s s1 l k z (R1 & R2 & R3) (_ & _ & _ & K1 & K2). destruct (order_push s s1 k R1 R2 K1 K2) as (o & O1 & O2). rewrite !ring_somes, O1, O2. cbn [somes flat_map app].
  assert (LO : length o = 19) by (apply (f_equal (@length (option cstr))) in O1; rewrite order_length, app_length in O1; cbn in O1; lia).
  split.
  - f_equal. rewrite somes_app. fold (somes o). destruct (nth (ksp s) (kills s) None) as [t|] eqn:N.
    + destruct R3 as [F|F]; [ | apply F in R2; exfalso; assert (ksp s < ksp s) by (apply R2; rewrite N; discriminate); lia ].
      assert (FU : length (somes o) = 19).
      { rewrite <- LO. apply somes_full. intros x X. assert (IN : In x (order s)) by (rewrite O1; apply in_or_app; auto). apply order_in in IN.
        apply In_nth with (d := None) in IN. destruct IN as (i & Li & Ei). rewrite <- Ei. apply F. lia. }
      rewrite <- FU. symmetry. apply firstn_app_exact.
    + change (somes [None]) with (@nil cstr). rewrite app_nil_r. symmetry. apply firstn_all2. pose proof (somes_le o). lia.
  - unfold ring_wf. rewrite K2, set_nth_length, K1. split; [ exact R1 | ]. split; [ apply Nat.mod_upper_bound; lia | ].
    destruct R3 as [F|F].
    + left. intros i Li. destruct (Nat.eq_dec (ksp s) i) as [->|NE]; [ rewrite nth_set_nth by lia; discriminate | rewrite nth_set_nth_ne by exact NE; apply F; exact Li ].
    + destruct (Nat.eq_dec (ksp s) 19) as [E|NE].
      * left. intros i Li. destruct (Nat.eq_dec (ksp s) i) as [->|N]; [ rewrite nth_set_nth by lia; discriminate | rewrite nth_set_nth_ne by exact N; apply F; lia ].
      * right. intros i Li. rewrite Nat.mod_small by lia. destruct (Nat.eq_dec (ksp s) i) as [->|N].
        { rewrite nth_set_nth by lia. split; intros; [ lia | discriminate ]. }
        { rewrite nth_set_nth_ne by exact N. rewrite (F i Li). lia. }
Qed.
