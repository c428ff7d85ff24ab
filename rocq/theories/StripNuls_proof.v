From Verif Require Import Base StripNuls_model.

Definition keep (c : char) : bool := negb (is_nul c).

Lemma nth_app_exact (A : list char) k l d : nth (length A + k) (A ++ l) d = nth k l d.
Proof. rewrite app_nth2 by lia. f_equal. lia. Qed.

(** every byte list splits into a NUL-free block and a rest that starts with NUL *)
Lemma split_block (l : list char) : exists B R, l = B ++ R /\ forallb keep B = true /\
  (R = [] \/ exists R', R = NUL :: R').
Proof.
  induction l as [|c l (B & R & -> & HB & HR)].
  - exists [], []. auto.
  - destruct (is_nul c) eqn:E.
    + apply ceq_true in E. subst c. exists [], (NUL :: B ++ R). eauto.
    + exists (c :: B), R. repeat split; auto. cbn. unfold keep at 1. rewrite E. auto.
Qed.

(** ... and into a block of NULs and a rest that does not *)
Lemma split_nuls (l : list char) : exists N R, l = N ++ R /\ forallb is_nul N = true /\
  (R = [] \/ exists c R', R = c :: R' /\ is_nul c = false).
Proof.
  induction l as [|c l (N & R & -> & HN & HR)].
  - exists [], []. auto.
  - destruct (is_nul c) eqn:E.
    + exists (c :: N), R. repeat split; auto. cbn. rewrite E. auto.
    + exists [], (c :: N ++ R). repeat split; auto. right. eauto.
Qed.

Lemma memchr0_block A B R n : forallb keep B = true ->
  length B < n -> memchr0 (A ++ B ++ NUL :: R) (length A) n = Some (length A + length B).
Proof.
  revert A n. induction B as [|c B IH]; intros A n HB Hn; cbn [length] in *.
  - destruct n; [lia|]. cbn [memchr0].
    replace (length A) with (length A + 0) at 1 by lia. rewrite nth_app_exact. cbn.
    f_equal; lia.
  - destruct n; [lia|]. cbn [memchr0].
    replace (length A) with (length A + 0) at 1 by lia. rewrite nth_app_exact. cbn [nth app].
    cbn in HB. apply andb_true_iff in HB. destruct HB as [Hc HB].
    unfold keep in Hc. destruct (is_nul c); [discriminate|].
    specialize (IH (A ++ [c]) n HB). rewrite <- app_assoc in IH. cbn in IH.
    rewrite app_length in IH. cbn in IH. replace (S (length A)) with (length A + 1) by lia.
    rewrite IH by lia. f_equal. lia.
Qed.

Lemma memchr0_all A B : forallb keep B = true ->
  memchr0 (A ++ B) (length A) (length B) = None.
Proof.
  revert A. induction B as [|c B IH]; intros A HB; cbn [length memchr0]; [reflexivity|].
  replace (length A) with (length A + 0) at 1 by lia. rewrite nth_app_exact. cbn [nth app].
  cbn in HB. apply andb_true_iff in HB. destruct HB as [Hc HB].
  unfold keep in Hc. destruct (is_nul c); [discriminate|].
  specialize (IH (A ++ [c]) HB). rewrite <- app_assoc in IH. cbn in IH.
  rewrite app_length in IH. cbn in IH. replace (S (length A)) with (length A + 1) by lia.
  apply IH.
Qed.

Lemma skip_nul_block A N R fuel : forallb is_nul N = true ->
  (R = [] \/ exists c R', R = c :: R' /\ is_nul c = false) ->
  length N <= fuel ->
  skip_nul (A ++ N ++ R) fuel (length A) = length A + length N.
Proof.
  revert A fuel. induction N as [|c N IH]; intros A fuel HN HR Hf; cbn [length app] in *.
  - destruct fuel; cbn [skip_nul]; [lia|].
    destruct HR as [->|(c & R' & -> & Hc)].
    + rewrite app_nil_r, Nat.ltb_irrefl. cbn. lia.
    + replace (nth (length A) (A ++ c :: R') SP) with c.
      2:{ replace (length A) with (length A + 0) by lia. rewrite nth_app_exact. reflexivity. }
      rewrite Hc, andb_false_r. lia.
  - destruct fuel; [lia|]. cbn [skip_nul].
    cbn in HN. apply andb_true_iff in HN. destruct HN as [Hc HN].
    replace (nth (length A) (A ++ c :: N ++ R) SP) with c.
    2:{ replace (length A) with (length A + 0) by lia. rewrite nth_app_exact. reflexivity. }
    rewrite Hc. rewrite app_length. cbn [length].
    replace (length A <? length A + S (length (N ++ R))) with true by (symmetry; apply Nat.ltb_lt; lia).
    cbn [andb].
    specialize (IH (A ++ [c]) fuel HN HR). rewrite <- app_assoc in IH. cbn in IH.
    rewrite app_length in IH. cbn in IH. replace (S (length A)) with (length A + 1) by lia.
    rewrite IH by lia. lia.
Qed.

Lemma filter_keep_all B : forallb keep B = true -> filter keep B = B.
Proof.
  induction B as [|c B IH]; intros H; [reflexivity|]. cbn in *.
  apply andb_true_iff in H. destruct H as [-> H]. f_equal; auto.
Qed.

Lemma filter_keep_none N : forallb is_nul N = true -> filter keep N = [].
Proof.
  induction N as [|c N IH]; intros H; [reflexivity|]. cbn in *.
  apply andb_true_iff in H. destruct H as [H1 H]. unfold keep at 1. rewrite H1. auto.
Qed.

Lemma firstn_len_app {A} (a b : list A) : firstn (length a) (a ++ b) = a.
Proof. rewrite firstn_app, Nat.sub_diag, firstn_all. cbn. apply app_nil_r. Qed.
Lemma skipn_len_app {A} (a b : list A) : skipn (length a) (a ++ b) = b.
Proof. rewrite skipn_app, Nat.sub_diag, skipn_all. reflexivity. Qed.

(** the loop: [D] is the finished output, [G] stale bytes, [R] unread input *)
Lemma strip_loop_spec : forall fuel R D G,
  length R < fuel ->
  (R = [] \/ exists R', R = NUL :: R') ->
  length G <= length G + length R ->
  exists b, strip_loop fuel (D ++ G ++ R) (length D + length G) (length D)
            = Some (b, length D + length (filter keep R)) /\
    length b = length (D ++ G ++ R) /\
    firstn (length D + length (filter keep R)) b = D ++ filter keep R.
Proof.
  induction fuel as [|f IH]; intros R D G Hf HR _; [lia|].
  cbn [strip_loop].
  destruct HR as [->|(R' & ->)].
  - rewrite !app_length. cbn [length].
    replace (length D + length G <? length D + (length G + 0)) with false
      by (symmetry; apply Nat.ltb_ge; lia).
    exists (D ++ G ++ []). cbn [filter length]. rewrite Nat.add_0_r, !app_nil_r.
    repeat split. { rewrite app_length; lia. } apply firstn_len_app.
  - destruct (split_nuls R') as (N & R1 & -> & HN & HR1).
    destruct (split_block R1) as (B & R2 & -> & HB & HR2).
    replace (length D + length G <? length (D ++ G ++ NUL :: N ++ B ++ R2)) with true.
    2:{ symmetry; apply Nat.ltb_lt. rewrite !app_length; cbn [length]. lia. }
    set (buf := D ++ G ++ NUL :: N ++ B ++ R2) in *.
    assert (E1 : skip_nul buf (length buf) (S (length D + length G)) =
                 length D + length G + 1 + length N).
    { unfold buf at 1.
      replace (D ++ G ++ NUL :: N ++ B ++ R2) with ((D ++ G ++ [NUL]) ++ N ++ (B ++ R2))
        by (rewrite <- !app_assoc; reflexivity).
      replace (S (length D + length G)) with (length (D ++ G ++ [NUL]))
        by (rewrite !app_length; cbn; lia).
      rewrite skip_nul_block; auto.
      - rewrite !app_length; cbn; lia.
      - unfold buf; rewrite !app_length; cbn; rewrite !app_length; lia. }
    rewrite E1.
    set (p1 := length D + length G + 1 + length N) in *.
    assert (Elen : length buf - p1 = length B + length R2).
    { unfold buf, p1; rewrite !app_length; cbn; rewrite !app_length; lia. }
    assert (E2 : (match memchr0 buf p1 (length buf - p1) with
               | Some q => q | None => length buf end) = p1 + length B).
    { rewrite Elen.
      assert (Eb : buf = (D ++ G ++ NUL :: N) ++ B ++ R2)
        by (unfold buf; rewrite <- !app_assoc; reflexivity).
      assert (Ep : p1 = length (D ++ G ++ NUL :: N))
        by (unfold p1; rewrite !app_length; cbn; lia).
      destruct HR2 as [->|(R3 & ->)].
      - rewrite app_nil_r in Eb. cbn [length]. rewrite Nat.add_0_r, Eb at 1. rewrite Ep at 1.
        rewrite memchr0_all by assumption.
        unfold buf, p1; rewrite !app_length; cbn; rewrite !app_length; cbn; lia.
      - rewrite Eb, Ep. rewrite memchr0_block; auto. cbn; lia. }
    rewrite E2. replace (p1 + length B - p1) with (length B) by lia.
    assert (E3 : exists G', memmove buf (length D) p1 (length B) = (D ++ B) ++ G' ++ R2 /\
                 length G' = length G + 1 + length N).
    { unfold memmove. unfold buf.
      rewrite firstn_len_app.
      replace (D ++ G ++ NUL :: N ++ B ++ R2) with ((D ++ G ++ NUL :: N) ++ B ++ R2)
        by (rewrite <- !app_assoc; reflexivity).
      replace p1 with (length (D ++ G ++ NUL :: N))
        by (unfold p1; rewrite !app_length; cbn; lia).
      rewrite skipn_len_app, firstn_len_app.
      exists (firstn (length G + 1 + length N) (skipn (length D + length B) ((D ++ G ++ NUL :: N) ++ B))).
      split.
      - rewrite <- !app_assoc. f_equal. f_equal.
        rewrite !app_assoc. rewrite <- (app_assoc _ B R2).
        rewrite app_assoc.
        rewrite skipn_app.
        replace (length D + length B - length (((D ++ G) ++ NUL :: N) ++ B)) with 0
          by (rewrite !app_length; cbn; lia).
        cbn [skipn]. f_equal. symmetry. apply firstn_all2.
        rewrite skipn_length, !app_length. cbn; lia.
      - rewrite firstn_length, skipn_length, !app_length. cbn. lia. }
    destruct E3 as (G' & -> & HG').
    replace (p1 + length B) with (length (D ++ B) + length G')
      by (unfold p1; rewrite app_length; lia).
    replace (length D + length B) with (length (D ++ B)) by (rewrite app_length; lia).
    destruct (IH R2 (D ++ B) G') as (b & Hb1 & Hb2 & Hb3).
    { cbn [length] in Hf. rewrite !app_length in Hf. lia. }
    { assumption. }
    { lia. }
    rewrite Hb1. exists b.
    assert (EF : filter keep (NUL :: N ++ B ++ R2) = B ++ filter keep R2).
    { change (filter keep (NUL :: N ++ B ++ R2)) with (filter keep (N ++ B ++ R2)).
      rewrite !filter_app, filter_keep_none, filter_keep_all by assumption. reflexivity. }
    rewrite EF, app_length. rewrite app_length in Hb3 |- *.
    replace (length D + (length B + length (filter keep R2))) with
       (length D + length B + length (filter keep R2)) by lia.
    split; [reflexivity|]. split.
    { rewrite Hb2. unfold buf. rewrite !app_length; cbn; rewrite !app_length; lia. }
    rewrite Hb3. rewrite app_assoc. reflexivity.
Qed.

Lemma upd_length buf i c : i < length buf -> length (upd buf i c) = length buf.
Proof. intros. unfold upd. rewrite app_length, firstn_length. cbn [length]. rewrite skipn_length. lia. Qed.

Lemma strip_nuls_correct buf :
  exists b n, strip_nuls buf = Some (b, n) /\ n = length (filter keep buf) /\
    length b = length buf /\ firstn n b = filter keep buf /\
    (n < length buf -> nth n b SP = NUL).
Proof.
  unfold strip_nuls.
  destruct (split_block buf) as (B & R & E & HB & HR).
  destruct HR as [->|(R' & ->)].
  - rewrite app_nil_r in E. subst buf.
    pose proof (memchr0_all [] B HB) as H. cbn [app length] in H. rewrite H.
    exists B, (length B). rewrite filter_keep_all by assumption.
    repeat split; auto using firstn_all. lia.
  - pose proof (memchr0_block [] B R' (length buf) HB) as H. cbn [app length] in H.
    rewrite <- E in H. rewrite H by (subst buf; rewrite app_length; cbn; lia). cbn [Nat.add].
    destruct (strip_loop_spec (S (length buf)) (NUL :: R') B []) as (b & H1 & H2 & H3).
    { subst buf; rewrite app_length; cbn; lia. }
    { eauto. } { cbn; lia. }
    cbn [app length] in H1, H2, H3. rewrite Nat.add_0_r, <- E in H1. rewrite H1.
    assert (EF : filter keep buf = B ++ filter keep (NUL :: R'))
      by (subst buf; rewrite filter_app, filter_keep_all by assumption; reflexivity).
    assert (Hlt : length B + length (filter keep (NUL :: R')) < length buf).
    { subst buf. rewrite app_length. cbn.
      assert (G : forall l, length (filter keep l) <= length l)
        by (induction l as [|x l IHl]; cbn; [lia|]; destruct (keep x); cbn; lia).
      specialize (G R'). lia. }
    set (n := length B + length (filter keep (NUL :: R'))) in *.
    exists (upd b n NUL), n.
    assert (Hlb : length b = length buf) by (rewrite H2, E; reflexivity).
    repeat split.
    + rewrite EF, app_length. reflexivity.
    + rewrite upd_length by lia. assumption.
    + unfold upd. rewrite firstn_app, firstn_firstn, firstn_length.
      replace (min n n) with n by lia. replace (n - min n (length b)) with 0 by lia.
      cbn [firstn]. rewrite app_nil_r, EF. exact H3.
    + intros _. unfold upd.
      replace n with (length (firstn n b) + 0) at 1 by (rewrite firstn_length; lia).
      rewrite nth_app_exact. reflexivity.
Qed.
