(** Yanking older kills, and moving by characters (C64). *)
From Verif Require Import Base Num_model Emacs_model Emacs_spec Emacs_proof Emacs_kill.
From Coq Require Import ZArith Lia.

Definition pos (sp p : nat) : nat := (sp + 19 - p) mod 20.
Lemma order_nth : forall s p, length (kills s) = 20 -> ksp s < 20 -> p < 20 -> nth p (order s) None = nth (pos (ksp s) p) (kills s) None.
Proof.
  intros s p L R P. unfold order, pos. destruct (Nat.lt_ge_cases p (ksp s)) as [C|C].
  - rewrite app_nth1 by (rewrite rev_length, firstn_length; lia). rewrite rev_nth by (rewrite firstn_length; lia). rewrite firstn_length.
    replace (Nat.min (ksp s) (length (kills s)) - S p) with (ksp s - S p) by lia.
    replace (ksp s + 19 - p) with ((ksp s - S p) + 1 * 20) by lia. rewrite Nat.mod_add by lia. rewrite Nat.mod_small by lia.
    rewrite <- (firstn_skipn (ksp s) (kills s)) at 2. rewrite app_nth1; [ reflexivity | rewrite firstn_length; lia ].
  - rewrite app_nth2 by (rewrite rev_length, firstn_length; lia). rewrite rev_length, firstn_length. rewrite rev_nth by (rewrite skipn_length; lia). rewrite skipn_length.
    replace (Nat.min (ksp s) (length (kills s))) with (ksp s) by lia. rewrite Nat.mod_small by lia.
    rewrite <- (firstn_skipn (ksp s) (kills s)) at 3. rewrite app_nth2 by (rewrite firstn_length; lia). rewrite firstn_length. f_equal. lia.
Qed.
Lemma prev_pos : forall sp p, sp < 20 -> p < 20 -> prev_kill (pos sp p) = pos sp ((p + 1) mod 20).
Proof.
  intros sp p S P. unfold prev_kill, pos, KILLSIZE.
  destruct (Nat.eq_dec p 19) as [->|N].
  - change ((19 + 1) mod 20) with 0. replace (sp + 19 - 19) with sp by lia. rewrite (Nat.mod_small sp) by lia. destruct (sp =? 0) eqn:Z.
    + apply Nat.eqb_eq in Z. subst. reflexivity.
    + apply Nat.eqb_neq in Z. replace (sp + 19 - 0) with ((sp - 1) + 1 * 20) by lia. rewrite Nat.mod_add by lia. rewrite Nat.mod_small by lia. reflexivity.
  - rewrite (Nat.mod_small (p + 1)) by lia. destruct (Nat.lt_ge_cases p sp) as [C|C].
    + replace (sp + 19 - p) with ((sp - 1 - p) + 1 * 20) by lia. rewrite Nat.mod_add by lia. rewrite Nat.mod_small by lia. destruct (sp - 1 - p =? 0) eqn:Z.
      * apply Nat.eqb_eq in Z. replace (sp + 19 - (p + 1)) with 19 by lia. reflexivity.
      * apply Nat.eqb_neq in Z. replace (sp + 19 - (p + 1)) with ((sp - 1 - p - 1) + 1 * 20) by lia. rewrite Nat.mod_add by lia. rewrite Nat.mod_small by lia. lia.
    + rewrite !Nat.mod_small by lia. replace (sp + 19 - p =? 0) with false by (symmetry; apply Nat.eqb_neq; lia). lia.
Qed.
(** The next kill that there is, around the ring *)
Lemma older_next : forall f l sp p j t, sp < 20 -> p < 20 -> older f l (pos sp p) = Some (j, t) ->
  exists d, 1 <= d <= f /\ j = pos sp ((p + d) mod 20) /\ nth j l None = Some t /\ forall d', 1 <= d' < d -> nth (pos sp ((p + d') mod 20)) l None = None.
Proof.
  intros f. induction f as [|f IH]; intros l sp p j t Ss P H; cbn [older] in H; [ discriminate | ]. cbv zeta in H. rewrite prev_pos in H by assumption.
  destruct (nth (pos sp ((p + 1) mod 20)) l None) eqn:N.
  - inversion H. subst. exists 1. sp; auto; try lia.
  - apply IH in H; [ | exact Ss | apply Nat.mod_upper_bound; lia ]. destruct H as (d & D & J & T & B). exists (S d).
    assert (M : forall x, ((p + 1) mod 20 + x) mod 20 = (p + S x) mod 20) by (intros x; rewrite Nat.add_mod_idemp_l by lia; f_equal; lia).
    rewrite M in J. sp; auto; try lia. intros d' D'. destruct d' as [|[|d']]; [ lia | exact N | ]. rewrite <- M. apply B. lia.
Qed.
Definition count (l : list (option cstr)) (p : nat) : nat := length (somes (firstn p l)).
Lemma somes_none : forall l, (forall i, i < length l -> nth i l None = None) -> somes l = [].
Proof.
  intros l. induction l as [|o l IH]; intros H; cbn; auto. pose proof (H 0 ltac:(cbn; lia)) as H0. cbn in H0. subst. cbn. apply IH. intros i Li. apply (H (S i)). cbn. lia.
Qed.
Lemma count_split : forall l p t, p < length l -> nth p l None = Some t ->
  somes l = somes (firstn p l) ++ t :: somes (skipn (S p) l) /\ nth (count l p) (somes l) [] = t /\ count l p < length (somes l).
Proof.
  intros l p t P N. assert (E : somes l = somes (firstn p l) ++ t :: somes (skipn (S p) l)).
  { rewrite (nth_split_ l p None P) at 1. rewrite somes_app. f_equal. cbn. rewrite N. reflexivity. }
  split; [ exact E | ]. unfold count. rewrite E. split.
  - rewrite app_nth2 by lia. rewrite Nat.sub_diag. reflexivity.
  - rewrite app_length. cbn. lia.
Qed.
Lemma nth_skipn_ : forall {A} n (l : list A) i d, nth i (skipn n l) d = nth (n + i) l d.
Proof. intros A n. induction n as [|n IH]; intros l i d; [ reflexivity | ]. destruct l; cbn; [ destruct i; reflexivity | apply IH ]. Qed.
Lemma nth_firstn_ : forall {A} n (l : list A) i d, i < n -> nth i (firstn n l) d = nth i l d.
Proof. intros A n. induction n as [|n IH]; intros l i d L; [ lia | ]. destruct l; [ reflexivity | ]. destruct i; cbn; auto. apply IH. lia. Qed.
Lemma count_next : forall l p d t u, length l = 20 -> p < 20 -> 1 <= d <= 20 -> nth p l None = Some t -> nth ((p + d) mod 20) l None = Some u ->
  (forall d', 1 <= d' < d -> nth ((p + d') mod 20) l None = None) -> count l ((p + d) mod 20) = (count l p + 1) mod length (somes l).
Proof.
  intros l p d t u L P D N U B. destruct (count_split l p t ltac:(lia) N) as (E & _ & C). destruct (Nat.lt_ge_cases (p + d) 20) as [Q|Q].
  - rewrite (Nat.mod_small (p + d)) in * by lia.
    assert (CC : count l (p + d) = count l p + 1).
    { unfold count.
      assert (F : firstn (p + d) l = firstn p l ++ nth p l None :: firstn (d - 1) (skipn (S p) l)).
      { rewrite (nth_split_ l p None) at 1 by lia. replace (p + d) with (length (firstn p l) + S (d - 1)) by (rewrite firstn_length; lia).
        rewrite firstn_app. rewrite firstn_all2 by lia. f_equal. replace (length (firstn p l) + S (d - 1) - length (firstn p l)) with (S (d - 1)) by lia. reflexivity. }
      rewrite F, somes_app, app_length. f_equal. cbn. rewrite N. cbn. f_equal. replace (flat_map _ _) with (somes (firstn (d - 1) (skipn (S p) l))) by reflexivity.
      rewrite somes_none; [ reflexivity | ]. intros i Li. rewrite firstn_length in Li. rewrite nth_firstn_ by lia. rewrite nth_skipn_.
      specialize (B (S i) ltac:(lia)). rewrite Nat.mod_small in B by lia. replace (S p + i) with (p + S i) by lia. exact B. }
    rewrite CC. symmetry. apply Nat.mod_small. rewrite <- CC. apply (count_split l (p + d) u); [ lia | exact U ].
  - assert (R : (p + d) mod 20 = p + d - 20). { replace (p + d) with ((p + d - 20) + 1 * 20) at 1 by lia. rewrite Nat.mod_add by lia. apply Nat.mod_small. lia. }
    assert (A : somes (skipn (S p) l) = []).
    { apply somes_none. intros i Li. rewrite skipn_length in Li. rewrite nth_skipn_. specialize (B (S i) ltac:(lia)). rewrite Nat.mod_small in B by lia. replace (S p + i) with (p + S i) by lia. exact B. }
    assert (Z : count l ((p + d) mod 20) = 0).
    { unfold count. rewrite R. rewrite somes_none; [ reflexivity | ]. intros i Li. rewrite firstn_length in Li. rewrite nth_firstn_ by lia.
      specialize (B (20 - p + i) ltac:(lia)). replace ((p + (20 - p + i)) mod 20) with i in B; [ exact B | ].
      replace (p + (20 - p + i)) with (i + 1 * 20) by lia. rewrite Nat.mod_add by lia. symmetry. apply Nat.mod_small. lia. }
    rewrite Z. rewrite E, A, app_length. cbn. unfold count. replace (length (somes (firstn p l)) + 1) with (length (somes (firstn p l)) + 1) by lia. symmetry. apply Nat.mod_same. lia.
Qed.
Lemma delete_plain : forall n s, cur s + n <= length (txt s) -> exists s', delete n false s = Ok s' /\
  txt s' = firstn (cur s) (txt s) ++ skipn (cur s + n) (txt s) /\ cur s' = cur s /\ kills s' = kills s /\ ksp s' = ksp s /\ ktp s' = ktp s /\ last_cmd s' = last_cmd s.
Proof.
  intros n s L. unfold delete. destruct (n =? 0) eqn:Z.
  - apply Nat.eqb_eq in Z. subst. exists s. rewrite Nat.add_0_r, firstn_skipn. sp; auto.
  - replace (length (txt s) <? cur s + n) with false by (symmetry; apply Nat.ltb_ge; exact L). cbv zeta. eexists. split; [ reflexivity | ].
    destruct (mark s) as [m|]; [ destruct (cur s <? m) | ]; cbn; sp; auto.
Qed.

(** The state after a yank and [j] times meta-yank *)
Definition yanked (s s' : ed) (j : nat) : Prop :=
  kills s' = kills s /\ ksp s' = ksp s /\ (last_cmd s' = Some F_yank \/ last_cmd s' = Some F_meta_yank) /\
  exists p t, p < 20 /\ ktp s' = pos (ksp s) p /\ nth p (order s) None = Some t /\ count (order s) p = j mod length (ring s) /\
    txt s' = firstn (cur s) (txt s) ++ t ++ skipn (cur s) (txt s) /\ cur s' = cur s + length t.
Lemma ring_first : forall s, ring_wf (kills s) (ksp s) -> ring s <> [] -> nth 0 (order s) None <> None.
Proof.
  intros s (L & R & F) NE. rewrite order_nth by (auto; lia). destruct F as [F|F]; [ apply F; apply Nat.mod_upper_bound; lia | ].
  destruct (Nat.eq_dec (ksp s) 0) as [Z|Z].
  - exfalso. apply NE. rewrite ring_somes. apply somes_none. intros i Li. rewrite order_length, L in Li. rewrite order_nth by auto.
    set (q := pos _ _). assert (q < 20) by (apply Nat.mod_upper_bound; lia). destruct (nth q (kills s) None) eqn:N; auto. exfalso. assert (q < ksp s) by (apply F; [ assumption | rewrite N; discriminate ]). lia.
  - apply F; unfold pos; [ apply Nat.mod_upper_bound; lia | ]. replace (ksp s + 19 - 0) with ((ksp s - 1) + 1 * 20) by lia. rewrite Nat.mod_add by lia. rewrite Nat.mod_small by lia. lia.
Qed.
Lemma yank_first : forall e s s', ring_wf (kills s) (ksp s) -> ring s <> [] -> cur s <= length (txt s) ->
  (forall t, In t (ring s) -> length (txt s) + length t < cap e) -> cmd e F_yank s s' -> yanked s s' 0.
Proof.
  intros e s s' W NE LE FIT (f & c & s1 & H & ->). cbn in H. inversion H. subst s1. clear H. pose proof (ring_first s W NE) as F0.
  destruct (nth 0 (order s) None) as [t|] eqn:N0; [ | congruence ]. clear F0. assert (W' := W). destruct W' as (L & R & _).
  assert (IN : In t (ring s)). { rewrite ring_somes. unfold somes. apply in_flat_map. exists (Some t). split; [ rewrite <- N0; apply nth_In; rewrite order_length; lia | left; reflexivity ]. }
  assert (E : (if ksp s =? 0 then KILLSIZE else ksp s) - 1 = pos (ksp s) 0).
  { unfold pos, KILLSIZE. destruct (ksp s =? 0) eqn:Z; [ apply Nat.eqb_eq in Z; rewrite Z; reflexivity | ]. apply Nat.eqb_neq in Z.
    replace (ksp s + 19 - 0) with ((ksp s - 1) + 1 * 20) by lia. rewrite Nat.mod_add by lia. rewrite Nat.mod_small by lia. reflexivity. }
  unfold x_yank. cbv zeta. rewrite E. cbn [kills with_ktp]. rewrite <- order_nth by (auto; lia). rewrite N0. rewrite ins_fits by (cbn; apply FIT; exact IN).
  unfold yanked. cbn [kills ksp last_cmd ktp txt cur with_last with_arg with_txt with_mark with_ktp]. sp; auto. exists 0, t. sp; auto; try lia.
  unfold count. cbn. symmetry. apply Nat.mod_0_l. destruct (ring s); [ congruence | discriminate ].
Qed.
Lemma yank_next : forall e s s1 s2 j, ring_wf (kills s) (ksp s) -> ring s <> [] -> cur s <= length (txt s) ->
  (forall t, In t (ring s) -> length (txt s) + length t < cap e) -> yanked s s1 j -> cmd e F_meta_yank s1 s2 -> yanked s s2 (S j).
Proof.
  intros e s s1 s2 j W NE LE FIT (K1 & K2 & LC & p & t & P & KT & N & CT & T & C) (f & c & s3 & H & ->). assert (W' := W). destruct W' as (L & R & _).
  cbn [run] in H. apply std_inv in H. destruct H as (_ & H).
  assert (NK : nth (ktp s1) (kills s1) None = Some t) by (rewrite KT, K1, <- order_nth by auto; exact N).
  assert (H' : (if cur s1 <? length t then UB else do s <- goto (cur s1 - length t) s1 ; do s <- delete (length t) false s ;
        match older KILLSIZE (kills s) (ktp s) with Some (i, t) => Ok (ins e t (with_ktp i s)) | None => Err end) = Ok s3).
  { unfold x_meta_yank in H. destruct LC as [LC|LC]; rewrite LC, NK in H; exact H. }
  clear H. rewrite C in H'. replace (cur s + length t <? length t) with false in H' by (symmetry; apply Nat.ltb_ge; lia).
  replace (cur s + length t - length t) with (cur s) in H' by lia. unfold goto in H'.
  assert (LT : length (txt s1) = length (txt s) + length t) by (rewrite T, !app_length, firstn_length, skipn_length; lia).
  replace (cur s <=? length (txt s1)) with true in H' by (symmetry; apply Nat.leb_le; lia). cbn [then_] in H'.
  destruct (delete_plain (length t) (with_txt (txt s1) (cur s) s1)) as (s4 & D & D1 & D2 & D3 & D4 & D5 & D6); [ cbn; lia | ]. rewrite D in H'. cbn [then_] in H'. cbn in D1, D2, D3, D4, D5, D6.
  assert (T4 : txt s4 = txt s).
  { rewrite D1, T. assert (LF : length (firstn (cur s) (txt s)) = cur s) by (rewrite firstn_length; lia). rewrite <- LF at 1. rewrite firstn_app_exact.
    rewrite <- LF at 2. rewrite <- app_length. rewrite app_assoc. rewrite skipn_app_exact. apply firstn_skipn. }
  rewrite D3, D5, KT, K1 in H'. destruct (older KILLSIZE (kills s) (pos (ksp s) p)) as [(i, u)|] eqn:O; [ | discriminate ]. inversion H'. clear H'.
  apply older_next in O; auto. destruct O as (d & Dd & -> & U & B). unfold KILLSIZE in Dd.
  assert (Q : (p + d) mod 20 < 20) by (apply Nat.mod_upper_bound; lia). rewrite <- order_nth in U by auto.
  assert (IN : In u (ring s)). { rewrite ring_somes. unfold somes. apply in_flat_map. exists (Some u). split; [ rewrite <- U; apply nth_In; rewrite order_length; lia | left; reflexivity ]. }
  rewrite ins_fits by (cbn [txt with_ktp]; rewrite T4; apply FIT; exact IN).
  unfold yanked. cbn [kills ksp last_cmd ktp txt cur with_last with_arg with_txt with_mark with_ktp]. sp; auto; try congruence.
  exists ((p + d) mod 20), u. sp; auto; try congruence.
  - rewrite (count_next (order s) p d t u); auto; [ | rewrite order_length; exact L | ].
    + rewrite CT. rewrite <- ring_somes. rewrite Nat.add_mod_idemp_l by (destruct (ring s); [ congruence | discriminate ]). f_equal. lia.
    + intros d' D'. rewrite order_nth by (auto; apply Nat.mod_upper_bound; lia). apply B. exact D'.
Qed.
Lemma yanks_yanked : forall e s j s', ring_wf (kills s) (ksp s) -> ring s <> [] -> cur s <= length (txt s) ->
  (forall t, In t (ring s) -> length (txt s) + length t < cap e) -> yanks e s j s' -> yanked s s' j.
Proof. intros e s j s' W NE LE FIT Y. induction Y as [s1 C|j s1 s2 Y IH C]; [ eapply yank_first; eauto | eapply yank_next; eauto ]. Qed.

(** ** Characters *)
Lemma cont_iff : forall c, cont c = true <-> goes_on c.
Proof.
  intros c. pose proof (char_sweep (fun c => Bool.eqb (cont c) ((128 <=? nat_of_ascii c) && (nat_of_ascii c <? 192))) eq_refl c) as H. cbv beta in H.
  apply Bool.eqb_prop in H. rewrite H. unfold goes_on. rewrite andb_true_iff, Nat.leb_le, Nat.ltb_lt. tauto.
Qed.
Lemma starts_cont : forall c, starts c -> cont c = false.
Proof. intros c S. destruct (cont c) eqn:C; auto. apply cont_iff in C. unfold starts, goes_on in *. lia. Qed.
Lemma back_one : forall s l ch r, txt s = l ++ ch ++ r -> cur s = length (l ++ ch) -> is_char ch -> back_by 1 s = length ch.
Proof.
  intros s l ch r T C (c & q & -> & ST & GO). unfold back_by. rewrite C, app_length. cbn [length]. replace (Nat.min 1 (length l + S (length q))) with 1 by lia.
  assert (B : forall f a, 1 <= a <= S (length q) -> S (length q) - a <= f -> more_back f a (cur s) s = S (length q)).
  { intros f. induction f as [|f IH]; intros a A F; [ cbn; lia | ]. cbn [more_back]. rewrite C at 1. rewrite app_length. cbn [length].
    assert (AT : at_ s (cur s - a) = nth (S (length q) - a) (c :: q) NUL).
    { unfold at_. rewrite T, C, app_length. cbn [length]. rewrite app_nth2 by lia. rewrite app_nth1 by (cbn; lia). f_equal. lia. }
    rewrite AT. destruct (Nat.eq_dec a (S (length q))) as [->|NE].
    - rewrite Nat.sub_diag. cbn [nth]. rewrite (starts_cont c ST), Bool.andb_false_r. reflexivity.
    - replace (S (length q) - a) with (S (length q - a)) by lia. cbn [nth].
      assert (G : goes_on (nth (length q - a) q NUL)) by (rewrite Forall_forall in GO; apply GO; apply nth_In; lia). apply cont_iff in G. rewrite G.
      replace (a <? length l + S (length q)) with true by (symmetry; apply Nat.ltb_lt; lia). cbn [andb]. apply IH; lia. }
  specialize (B (length l + S (length q)) 1 ltac:(lia) ltac:(lia)). rewrite C, app_length in B. exact B.
Qed.
Lemma forw_one : forall s l ch r, txt s = l ++ ch ++ r -> cur s = length l -> is_char ch -> (forall c z, r = c :: z -> starts c) -> forw_by 1 s = length ch.
Proof.
  intros s l ch r T C (c & q & -> & ST & GO) NX. unfold forw_by.
  assert (LL : length (txt s) - cur s = S (length q) + length r) by (rewrite T, C, !app_length; cbn; lia). rewrite LL.
  replace (Nat.min 1 (S (length q) + length r)) with 1 by lia.
  assert (B : forall f a, 1 <= a <= S (length q) -> S (length q) - a <= f -> more_forw f a (S (length q) + length r) (cur s) s = S (length q)).
  { intros f. induction f as [|f IH]; intros a A F; [ cbn; lia | ]. cbn [more_forw]. destruct (Nat.eq_dec a (S (length q))) as [->|NE].
    - destruct r as [|d z]; [ rewrite Nat.add_0_r, Nat.ltb_irrefl; reflexivity | ].
      assert (AT : at_ s (cur s + S (length q)) = d) by (unfold at_; rewrite T, C; rewrite app_nth2 by lia; rewrite app_nth2 by (cbn; lia); cbn [length]; replace (length l + S (length q) - length l - S (length q)) with 0 by lia; reflexivity).
      rewrite AT, (starts_cont d (NX d z eq_refl)), Bool.andb_false_r. reflexivity.
    - assert (AT : at_ s (cur s + a) = nth (a - 1) q NUL).
      { unfold at_. rewrite T, C. rewrite app_nth2 by lia. rewrite app_nth1 by (cbn; lia). replace (length l + a - length l) with (S (a - 1)) by lia. reflexivity. }
      assert (G : goes_on (nth (a - 1) q NUL)) by (rewrite Forall_forall in GO; apply GO; apply nth_In; lia). apply cont_iff in G. rewrite AT, G.
      replace (a <? S (length q) + length r) with true by (symmetry; apply Nat.ltb_lt; lia). cbn [andb]. apply IH; lia. }
  apply B; lia.
Qed.
Lemma char_back : forall e f c s l ch r, txt s = l ++ ch ++ r -> cur s = length (l ++ ch) -> is_char ch ->
  run e f F_mv_back c None s = Ok (KSTD, with_txt (txt s) (length l) s) /\
  exists s1, run e f F_del_back c None s = Ok (KSTD, s1) /\ txt s1 = l ++ r /\ cur s1 = length l /\ kills s1 = kills s.
Proof.
  intros e f c s l ch r T C IC. pose proof (back_one s l ch r T C IC) as B. assert (LC : 1 <= length ch) by (destruct IC as (x & q & -> & _); cbn; lia).
  assert (Z : (cur s =? 0) = false) by (apply Nat.eqb_neq; rewrite C, app_length; lia).
  assert (D : cur s - length ch = length l) by (rewrite C, app_length; lia).
  assert (G : goto (length l) s = Ok (with_txt (txt s) (length l) s)) by (unfold goto; replace (length l <=? length (txt s)) with true; [ reflexivity | symmetry; apply Nat.leb_le; rewrite T, app_length; lia ]).
  split.
  - cbn [run]. unfold x_mv_back. rewrite Z, B, D, G. reflexivity.
  - cbn [run]. unfold x_del_back. rewrite Z, B. cbv zeta. rewrite D, G. cbn [then_].
    destruct (delete_plain (length ch) (with_txt (txt s) (length l) s)) as (s4 & E & D1 & D2 & D3 & _); [ cbn; rewrite T, !app_length; lia | ].
    rewrite E. exists s4. cbn in D1, D2, D3. sp; auto. rewrite D1, T, firstn_app_exact, <- app_length, app_assoc, skipn_app_exact. reflexivity.
Qed.
Lemma char_forw : forall e f c s l ch r, txt s = l ++ ch ++ r -> cur s = length l -> is_char ch -> (forall c z, r = c :: z -> starts c) ->
  run e f F_mv_forw c None s = Ok (KSTD, with_txt (txt s) (length (l ++ ch)) s) /\
  exists s1, run e f F_del_char c None s = Ok (KSTD, s1) /\ txt s1 = l ++ r /\ cur s1 = length l /\ kills s1 = kills s.
Proof.
  intros e f c s l ch r T C IC NX. pose proof (forw_one s l ch r T C IC NX) as B. assert (LC : 1 <= length ch) by (destruct IC as (x & q & -> & _); cbn; lia).
  assert (Z : (length (txt s) =? cur s) = false) by (apply Nat.eqb_neq; rewrite C, T, !app_length; lia).
  split.
  - cbn [run]. unfold x_mv_forw. rewrite Z, B. unfold goto. rewrite C, <- app_length.
    replace (length (l ++ ch) <=? length (txt s)) with true; [ reflexivity | symmetry; apply Nat.leb_le; rewrite T, !app_length; lia ].
  - cbn [run]. unfold x_del_char. rewrite Z, B.
    destruct (delete_plain (length ch) s) as (s4 & E & D1 & D2 & D3 & _); [ rewrite C, T, !app_length; lia | ].
    rewrite E. exists s4. sp; auto; try congruence. rewrite D1, C, <- app_length, T, firstn_app_exact, app_assoc, skipn_app_exact. reflexivity.
Qed.
(** The two bytes before the cursor, or around it *)
Lemma swap_two : forall l a b r, swap (length l) (l ++ a :: b :: r) = l ++ b :: a :: r.
Proof.
  intros l a b r. unfold swap. rewrite firstn_app_exact. f_equal.
  assert (N : forall k, nth (length l + k) (l ++ a :: b :: r) NUL = nth k (a :: b :: r) NUL) by (intros k; rewrite app_nth2 by lia; f_equal; lia).
  replace (S (length l)) with (length l + 1) by lia. rewrite N. pose proof (N 0) as N0. rewrite Nat.add_0_r in N0. rewrite N0. cbn [nth]. do 2 f_equal.
  replace (S (length l + 1)) with (length (l ++ [a; b])) by (rewrite app_length; cbn; lia).
  replace (l ++ a :: b :: r) with ((l ++ [a; b]) ++ r) by (rewrite <- app_assoc; reflexivity). apply skipn_app_exact.
Qed.
Lemma transpose_run : forall e f c n s l a b r, txt s = l ++ a :: b :: r ->
  (cur s = length l + 1 -> gmacs e = false -> run e f F_transpose c n s = Ok (KSTD, with_txt (l ++ b :: a :: r) (length l + 2) s)) /\
  (cur s = length l + 2 -> (gmacs e = true \/ r = []) -> run e f F_transpose c n s = Ok (KSTD, with_txt (l ++ b :: a :: r) (length l + 2) s)).
Proof.
  intros e f c n s l a b r T. split; intros C G; cbn [run]; unfold x_transpose; rewrite C.
  - replace (length l + 1 =? 0) with false by (symmetry; apply Nat.eqb_neq; lia). replace (length l + 1 =? length (txt s)) with false by (symmetry; apply Nat.eqb_neq; rewrite T, app_length; cbn; lia).
    rewrite G. cbn [orb]. unfold goto. replace (length l + 1 - 1) with (length l) by lia. rewrite T, swap_two. cbn [txt with_txt].
    replace (length l + 1 + 1 <=? length (l ++ b :: a :: r)) with true by (symmetry; apply Nat.leb_le; rewrite app_length; cbn; lia). cbn. replace (length l + 1 + 1) with (length l + 2) by lia. reflexivity.
  - replace (length l + 2 =? 0) with false by (symmetry; apply Nat.eqb_neq; lia). replace (length l + 2 =? 1) with false by (symmetry; apply Nat.eqb_neq; lia).
    assert (B : (length l + 2 =? length (txt s)) || gmacs e = true). { destruct G as [->| ->]; [ apply Bool.orb_true_r | ]. replace (length l + 2 =? length (txt s)) with true by (symmetry; apply Nat.eqb_eq; rewrite T, app_length; reflexivity). reflexivity. }
    rewrite B. replace (length l + 2 - 2) with (length l) by lia. rewrite T, swap_two. reflexivity.
Qed.

(** ** Only killing changes the kills. *)
Definition rk (s s' : ed) : Prop := kills s' = kills s /\ ksp s' = ksp s.
Lemma rk_refl : forall s, rk s s. Proof. split; reflexivity. Qed.
Lemma rk_trans : forall a b c, rk a b -> rk b c -> rk a c. Proof. intros a b c (A & B) (C & D). split; congruence. Qed.
Lemma rk_goto : forall p s s', goto p s = Ok s' -> rk s s'. Proof. intros p s s' H. apply goto_inv_ in H. destruct H as (-> & _). split; reflexivity. Qed.
Lemma rk_do_ins : forall e t s, rk s (snd (do_ins e t s)). Proof. intros e t s. unfold do_ins. destruct (_ <=? _); split; reflexivity. Qed.
Lemma rk_delete : forall n s s', delete n false s = Ok s' -> rk s s'.
Proof.
  intros n s s' H. unfold delete in H. destruct (n =? 0); [ inversion H; apply rk_refl | ]. destruct (_ <? _); [ discriminate | ]. cbv zeta in H.
  destruct (mark s) as [m|]; [ destruct (cur s <? m) | ]; inversion H; split; reflexivity.
Qed.
Lemma rk_load : forall e h s, rk s (load_hist e h s). Proof. intros e h s. unfold load_hist. destruct (_ || _); split; reflexivity. Qed.
Lemma rk_escape : forall e w t s, rk s (snd (escape e t w s)).
Proof.
  intros e w. induction w as [|c w IH]; intros t s; cbn [escape].
  - destruct t; [ apply rk_refl | apply rk_do_ins ].
  - destruct (special e c); [ | apply IH ]. destruct (do_ins e t s) as (ok, s1) eqn:D. pose proof (rk_do_ins e t s) as R. rewrite D in R. cbn [snd] in R.
    destruct ok; [ | exact R ]. eapply rk_trans; [ exact R | ]. eapply rk_trans; [ apply rk_do_ins | ]. eapply rk_trans; [ apply rk_do_ins | ]. apply IH.
Qed.
Lemma rk_put : forall e l s, rk s (put_words e l s).
Proof.
  intros e l. induction l as [|w l IH]; intros s; cbn [put_words]; [ apply rk_refl | ]. destruct (escape e [] w s) as (ok, s1) eqn:E.
  pose proof (rk_escape e w [] s) as R. rewrite E in R. cbn [snd] in R. destruct ok; [ | exact R ]. destruct l as [|w' l']; [ exact R | ].
  destruct (do_ins e (L " ") s1) as (ok, s2) eqn:D. pose proof (rk_do_ins e (L " ") s1) as R2. rewrite D in R2. cbn [snd] in R2.
  destruct ok; [ | eapply rk_trans; eauto ]. eapply rk_trans; [ exact R | ]. eapply rk_trans; [ exact R2 | ]. apply IH.
Qed.
Lemma rk_complete : forall e fl l s s', do_complete e fl l s = Ok s' -> rk s s'.
Proof.
  intros e fl l s s' H. unfold do_complete in H. destruct (glob _ _ _ _) as [((a, b), ws)|]; [ | inversion H; apply rk_refl ].
  destruct l; [ inversion H; apply rk_refl | ]. cbv zeta in H.
  match type of H with then_ ?x _ = _ => destruct x as [s1| |] eqn:X end; cbn [then_] in H; try discriminate.
  assert (R : rk s s1).
  { destruct (_ || _) in X; [ | inversion X; apply rk_refl ]. destruct (goto a s) as [s2| |] eqn:G; cbn [then_] in X; try discriminate.
    destruct (delete (b - a) false s2) as [s3| |] eqn:D; cbn [then_] in X; try discriminate. inversion X. subst.
    eapply rk_trans; [ eapply rk_goto; eassumption | ]. eapply rk_trans; [ eapply rk_delete; eassumption | ]. apply rk_escape. }
  destruct (_ =? 1) in H; [ | inversion H; subst; exact R ]. destruct (_ =? 0) in H; [ discriminate | ]. destruct (ceq _ _) in H; inversion H; subst; [ exact R | ].
  eapply rk_trans; [ exact R | apply rk_do_ins ].
Qed.
Lemma rk_in : forall u m i s, rk s (with_in u m i s). Proof. split; reflexivity. Qed.
Lemma rk_getc : forall s c s', getc s = (c, s') -> rk s s'. Proof. intros s c s' G. destruct (getc_shape _ _ _ G) as (m & i & ->). apply rk_in. Qed.
Lemma rk_search : forall e p b s o s', x_search e p b s = Ok (o, s') -> rk s s'.
Proof.
  intros e p b s o s' H. unfold x_search in H. cbv zeta in H. destruct (_ <? _)%Z in H; [ discriminate | ]. destruct (search_down _ _ _) as [(h, i)|]; [ | inversion H; split; reflexivity ].
  destruct (goto _ _) as [s1| |] eqn:G; cbn [then_] in H; try discriminate. inversion H. subst. eapply rk_trans; [ apply rk_load | eapply rk_goto; eassumption ].
Qed.
Lemma rk_search_hist : forall e f p o s s', search_hist e f p o s = Ok s' -> rk s s'.
Proof.
  intros e f. induction f as [|f IH]; intros p o s s' H; cbn [search_hist] in H; [ discriminate | ]. destruct (getc s) as (c, s1) eqn:G. apply rk_getc in G.
  eapply rk_trans; [ exact G | ]. clear G s. destruct (c <? 0)%Z; [ inversion H; apply rk_refl | ]. cbv zeta in H. destruct (_ || _) in H; [ inversion H; apply rk_in | ].
  destruct (func_beq _ _) in H.
  { destruct (x_search e p false s1) as [(o', s2)| |] eqn:X; cbn [then_] in H; try discriminate. apply rk_search in X. eapply rk_trans; [ exact X | eapply IH; eassumption ]. }
  destruct (func_beq _ _) in H.
  { destruct p as [|x p]; [ inversion H; apply rk_refl | ]. destruct (removelast (x :: p)) eqn:RL; [ eapply IH; eassumption | ].
    match type of H with then_ ?x _ = _ => destruct x as [(o', s2)| |] eqn:X end; cbn [then_] in H; try discriminate. apply rk_search in X. eapply rk_trans; [ exact X | eapply IH; eassumption ]. }
  destruct (func_beq _ _) in H; [ | inversion H; apply rk_in ]. destruct (256 <=? _) in H; [ eapply IH; eassumption | ].
  match type of H with match ?x with _ => _ end = _ => destruct x end.
  - destruct (goto _ _) as [s2| |] eqn:X in H; cbn [then_] in H; try discriminate. apply rk_goto in X. eapply rk_trans; [ exact X | eapply IH; eassumption ].
  - match type of H with then_ ?x _ = _ => destruct x as [(o', s2)| |] eqn:X end; cbn [then_] in H; try discriminate. apply rk_search in X. eapply rk_trans; [ exact X | eapply IH; eassumption ].
Qed.
Lemma rk_times : forall e t n s, rk s (times n (ins e t) s).
Proof. intros e t n. induction n as [|n IH]; intros s; cbn [times]; [ apply rk_refl | ]. eapply rk_trans; [ apply rk_do_ins | apply IH ]. Qed.
Lemma rk_newline : forall e s r s', x_newline e s = Ok (r, s') -> rk s s'.
Proof. intros e s r s' H. unfold x_newline in H. destruct (_ <=? _); inversion H. split; reflexivity. Qed.
Lemma rk_char : forall s s' c1 s1 (x : res ed), getc s = (c1, s1) -> (x = Ok s1 \/ exists p, x = goto p s1) -> x = Ok s' -> rk s s'.
Proof. intros s s' c1 s1 x G X H. apply rk_getc in G. eapply rk_trans; [ exact G | ]. destruct X as [->|(p & ->)]; [ inversion H; apply rk_refl | eapply rk_goto; eassumption ]. Qed.
Lemma run_ring : forall e f g c a s r s', ~ kill_cmd g -> run e f g c a s = Ok (r, s') -> rk s s'.
Proof.
  intros e f g c a s r s' NK H. unfold kill_cmd in NK. unfold run in H. cbv zeta in H. set (n := match a with Some n => n | None => 1 end) in H.
  destruct g; try (exfalso; apply NK; cbn; auto 10; fail); clear NK.
  all: try (apply std_inv in H; destruct H as (-> & H)).
  all: try solve [ injection H as <-; split; reflexivity ].
  all: try solve [ injection H as <- <-; split; reflexivity ].
  all: try solve [ injection H as <-; apply rk_load ].
  all: try solve [ injection H as <-; unfold x_insert; destruct (is_nul c); [ apply rk_refl | apply rk_times ] ].
  all: try (eapply rk_goto; eassumption).
  all: try (eapply rk_complete; eassumption).
  all: try (eapply rk_search_hist; eassumption).
  - unfold x_del_back in H. destruct (_ =? _) in H; [ inversion H; apply rk_refl | ]. cbv zeta in H. destruct (goto _ s) as [s1| |] eqn:G; cbn [then_] in H; try discriminate.
    eapply rk_trans; [ eapply rk_goto; eassumption | eapply rk_delete; eassumption ].
  - unfold x_del_char in H. destruct (_ =? _) in H; [ inversion H; apply rk_refl | eapply rk_delete; eassumption ].
  - destruct (_ && _) in H; [ inversion H; apply rk_refl | ]. apply std_inv in H. destruct H as (-> & H). unfold x_del_char in H. destruct (_ =? _) in H; [ inversion H; apply rk_refl | eapply rk_delete; eassumption ].
  - unfold x_meta_yank in H.
    assert (Q : s' = with_ktp (ksp s) s \/ exists t : cstr, (if cur s <? length t then UB else do s <- goto (cur s - length t) s ; do s <- delete (length t) false s ;
        match older KILLSIZE (kills s) (ktp s) with Some (i, t) => Ok (ins e t (with_ktp i s)) | None => Err end) = Ok s').
    { destruct (last_cmd s) as [g|]; [ | left; inversion H; reflexivity ]. destruct (nth (ktp s) (kills s) None) as [t|]; [ | left; destruct g; inversion H; reflexivity ].
      destruct g; try (left; inversion H; reflexivity); right; exists t; exact H. }
    destruct Q as [->|(t & Q)]; [ split; reflexivity | ]. destruct (_ <? _) in Q; [ discriminate | ]. destruct (goto _ s) as [s1| |] eqn:G; cbn [then_] in Q; try discriminate.
    destruct (delete _ false s1) as [s2| |] eqn:D; cbn [then_] in Q; try discriminate. destruct (older _ _ _) as [(i, u)|]; [ | discriminate ]. inversion Q.
    eapply rk_trans; [ eapply rk_goto; eassumption | ]. eapply rk_trans; [ eapply rk_delete; eassumption | ]. destruct (rk_do_ins e u (with_ktp i s2)) as (R1 & R2). split; [ exact R1 | exact R2 ].
  - unfold x_mv_back in H. destruct (_ =? _) in H; [ inversion H; apply rk_refl | eapply rk_goto; eassumption ].
  - unfold x_bword in H. destruct (cur s =? 0) in H; cbn in H; [ inversion H; apply rk_refl | ]. destruct (goto _ s) as [s1| |] eqn:G; cbn in H; inversion H. subst. eapply rk_goto; eassumption.
  - unfold x_mv_forw in H. destruct (_ =? _) in H; [ inversion H; apply rk_refl | eapply rk_goto; eassumption ].
  - eapply rk_newline; eassumption.
  - apply rk_newline in H. exact H.
  - unfold x_prev_histword in H. destruct (hist e); [ discriminate | ]. cbv zeta in H. destruct a; [ inversion H; apply rk_do_ins | ]. destruct (last _ _) in H; inversion H. apply rk_do_ins.
  - unfold x_search_char_forw in H. destruct (getc s) as (c1, s1) eqn:G. eapply rk_char; [ exact G | | exact H ]. destruct n; [ right; eexists; reflexivity | ]. destruct (_ <? _)%Z; [ left; reflexivity | ]. destruct (chars_forw _ _ _ _); [ right; eexists; reflexivity | left; reflexivity ].
  - unfold x_search_char_back in H. destruct (getc s) as (c1, s1) eqn:G. eapply rk_char; [ exact G | | exact H ]. destruct n; [ right; eexists; reflexivity | ]. destruct (_ <? _)%Z; [ left; reflexivity | ]. destruct (chars_back _ _ _ _); [ right; eexists; reflexivity | left; reflexivity ].
  - unfold x_transpose in H. destruct (_ =? _) in H; [ inversion H; apply rk_refl | ]. destruct (_ || _) in H; [ destruct (_ =? _) in H; inversion H; split; reflexivity | ]. apply rk_goto in H. exact H.
  - unfold x_xchg in H. destruct (mark s); [ | inversion H; apply rk_refl ]. apply rk_goto in H. exact H.
  - injection H as <-. unfold x_yank. cbv zeta. destruct (nth _ _ _); [ | split; reflexivity ]. match goal with |- rk _ (ins e ?t ?x) => destruct (rk_do_ins e t x) as (R1 & R2) end. split; [ exact R1 | exact R2 ].
  - unfold x_expand in H. destruct (glob _ _ _ _) as [((x, y), l)|]; [ | inversion H; apply rk_refl ]. destruct (goto x s) as [s1| |] eqn:G; cbn [then_] in H; try discriminate.
    destruct (delete _ false s1) as [s2| |] eqn:D; cbn [then_] in H; try discriminate. inversion H. eapply rk_trans; [ eapply rk_goto; eassumption | ]. eapply rk_trans; [ eapply rk_delete; eassumption | apply rk_put ].
  - unfold x_fold in H. destruct (_ =? _) in H; [ inversion H; apply rk_refl | ]. destruct (fold_words _ _ _ _). apply rk_goto in H. exact H.
  - unfold x_fold in H. destruct (_ =? _) in H; [ inversion H; apply rk_refl | ]. destruct (fold_words _ _ _ _). apply rk_goto in H. exact H.
  - unfold x_fold in H. destruct (_ =? _) in H; [ inversion H; apply rk_refl | ]. destruct (fold_words _ _ _ _). apply rk_goto in H. exact H.
  - destruct (set_arg _ _ _ _ _) as [(x, s1)| |] eqn:X; cbn in H; try discriminate. inversion H. apply set_arg_frame in X. destruct X as (u & m & i & ->). split; reflexivity.
  - unfold x_comment in H. destruct (txt s) as [|x t]; [ eapply rk_newline; eassumption | ]. destruct (ceq x "#"); [ inversion H; split; reflexivity | ]. cbv zeta in H. destruct (_ <=? _) in H; [ inversion H; apply rk_refl | ]. apply rk_newline in H. exact H.
Qed.
