(** Words, case, the history, searches and comments (C66). *)
From Verif Require Import Base Num_model Emacs_model Emacs_spec Emacs_proof Emacs_kill Emacs_pop Emacs_keys Emcmd_spec.
From Coq Require Import ZArith Lia.

(** ** Words *)
Lemma words_S : forall n t, words (S n) t = words 1 t + words n (skipn (words 1 t) t).
Proof. intros n t. cbn [words]. rewrite !Nat.add_0_r. reflexivity. Qed.
Lemma firstn_plus : forall {A} a b (t : list A), firstn (a + b) t = firstn a t ++ firstn b (skipn a t).
Proof. intros A a. induction a as [|a IH]; intros b t; [ reflexivity | ]. destruct t as [|c t]; cbn; [ destruct b; reflexivity | rewrite IH; reflexivity ]. Qed.
Lemma words_right_of : forall n t, words_right n (firstn (words n t) t) (skipn (words n t) t).
Proof.
  intros n. induction n as [|n IH]; intros t; [ constructor | ]. rewrite words_S. pose proof (words1_right t) as W. set (a := words 1 t) in *.
  pose proof (words_le 1 t) as LE. fold a in LE.
  rewrite firstn_plus, <- skipn_skipn_. constructor; [ rewrite firstn_skipn; exact W | apply IH ].
Qed.
Lemma mfs_false : forall c, is_mfs c = false <-> word_byte c.
Proof. intros c. unfold is_mfs, is_alnum, word_byte. cbv zeta. rewrite Bool.negb_false_iff, !Bool.orb_true_iff, !andb_true_iff, !Nat.leb_le, !ceq_true. intuition. Qed.

(** ** Case *)
Lemma upper_of : forall c, case_of true c (upper c).
Proof.
  intros c. pose proof (char_sweep (fun c => let n := nat_of_ascii c in if (97 <=? n) && (n <=? 122) then nat_of_ascii (upper c) + 32 =? n else nat_of_ascii (upper c) =? n) eq_refl c) as H. cbv beta zeta in H.
  unfold case_of. cbv zeta. destruct (97 <=? nat_of_ascii c) eqn:A, (nat_of_ascii c <=? 122) eqn:B; cbn [andb] in H; apply Nat.eqb_eq in H;
    rewrite ?Nat.leb_le, ?Nat.leb_gt in A, B; lia.
Qed.
Lemma lower_of : forall c, case_of false c (lower c).
Proof.
  intros c. pose proof (char_sweep (fun c => let n := nat_of_ascii c in if (65 <=? n) && (n <=? 90) then nat_of_ascii (lower c) =? n + 32 else nat_of_ascii (lower c) =? n) eq_refl c) as H. cbv beta zeta in H.
  unfold case_of. cbv zeta. destruct (65 <=? nat_of_ascii c) eqn:A, (nat_of_ascii c <=? 90) eqn:B; cbn [andb] in H; apply Nat.eqb_eq in H;
    rewrite ?Nat.leb_le, ?Nat.leb_gt in A, B; lia.
Qed.
Lemma case_either : forall (u : bool) c, case_of u c (if u then upper c else lower c).
Proof. intros [] c; [ apply upper_of | apply lower_of ]. Qed.
Lemma case_map : forall (u : bool) t, Forall2 (case_of u) t (map (fun c => if u then upper c else lower c) t).
Proof. intros u t. induction t; cbn; constructor; auto. apply case_either. Qed.
Lemma folded_nil : forall u1 u2 n, folded u1 u2 n [] [] [].
Proof. intros u1 u2 n. induction n as [|n IH]; [ constructor | ]. apply (fd_S u1 u2 n [] [] [] [] [] []); cbn; auto. Qed.
Lemma fold_words_of : forall u1 u2 n t x y, fold_words n u1 u2 t = (x, y) -> exists w, t = w ++ y /\ folded u1 u2 n w x y /\ length x = length w.
Proof.
  intros u1 u2 n. induction n as [|n IH]; intros t x y H; cbn [fold_words] in H.
  - injection H as <- <-. exists []. sp; auto. constructor.
  - pose proof (span_spec is_mfs t) as (A1 & A2). set (a := span is_mfs t) in *. destruct (skipn a t) as [|c r] eqn:K.
    + injection H as <- <-. exists t. rewrite app_nil_r. sp; auto. rewrite <- (firstn_skipn a t), K, app_nil_r.
      pose proof (fd_S u1 u2 n (firstn a t) [] [] [] [] []) as F. cbn in F. rewrite app_nil_r in F. apply F; auto.
      * apply Forall_impl with (2 := A1). intros d D. apply mfs_spec. exact D.
      * apply folded_nil.
    + pose proof (span_spec (fun c => negb (is_mfs c)) r) as (B1 & B2). set (b := span (fun c => negb (is_mfs c)) r) in *.
      destruct (fold_words n u1 u2 (skipn b r)) as (x1, y1) eqn:F. injection H as <- <-. destruct (IH _ _ _ F) as (w & E & FD & LN).
      exists (firstn a t ++ (c :: firstn b r) ++ w). sp.
      * rewrite <- app_assoc. cbn [app]. rewrite <- app_assoc, <- E, firstn_skipn, <- K, firstn_skipn. reflexivity.
      * match goal with |- folded _ _ _ _ (_ ++ ?z :: ?m ++ _) _ => change (z :: m ++ x1) with ((z :: m) ++ x1) end. constructor; auto.
        { apply Forall_impl with (2 := A1). intros d D. apply mfs_spec. exact D. }
        { constructor; [ apply mfs_false; exact A2 | ]. apply Forall_impl with (2 := B1). intros d D. apply mfs_false. apply Bool.negb_true_iff. exact D. }
        { discriminate. }
        { rewrite <- E. destruct (skipn b r); auto. apply mfs_spec. apply Bool.negb_false_iff. exact B2. }
        { split; [ apply case_either | apply case_map ]. }
      * repeat (rewrite ?app_length; cbn [length]). rewrite map_length. lia.
Qed.

(** ** The history *)
Lemma load_shows : forall e h s, sane e -> (0 <= h < Z.of_nat (length (hist e)))%Z -> shows e h s (load_hist e h s).
Proof.
  intros e h s SN R. destruct (load_hist_txt e SN h s) as (T & P); [ unfold histptr; lia | ]. exists (nth (Z.to_nat h) (hist e) []).
  assert (B : (h <? 0)%Z || (histptr e <? h)%Z = false) by (apply Bool.orb_false_iff; unfold histptr; split; apply Z.ltb_ge; lia).
  sp; auto; try (unfold load_hist; rewrite B; reflexivity).
  - apply nth_error_nth'. lia.
  - unfold load_hist in *. rewrite B in *. cbn in *. now rewrite T.
Qed.
Lemma load_none : forall e h s, ~ (0 <= h < Z.of_nat (length (hist e)))%Z -> load_hist e h s = s.
Proof. intros e h s N. unfold load_hist. replace (_ || _) with true; [ reflexivity | ]. symmetry. apply Bool.orb_true_iff. unfold histptr. rewrite !Z.ltb_lt. lia. Qed.

(** ** Searching a character *)
Lemma find_char_some : forall c t i, is_nul c = false -> find_char c t = Some i -> is_at t c i /\ forall j, j < i -> ~ is_at t c j.
Proof.
  intros c t. induction t as [|a t IH]; intros i N H; cbn in H; [ rewrite N in H; discriminate | ].
  destruct (ceq a c) eqn:E.
  - injection H as <-. apply ceq_true in E. subst. split; [ reflexivity | intros; lia ].
  - destruct (find_char c t) as [k|] eqn:F; [ | discriminate ]. injection H as <-. destruct (IH k N eq_refl) as (A & B). split; [ exact A | ].
    intros [|j] J; [ unfold is_at; cbn; intros Q; injection Q as ->; rewrite ceq_refl in E; discriminate | ]. apply B. lia.
Qed.
Lemma find_char_none : forall c t, find_char c t = None -> forall i, ~ is_at t c i.
Proof.
  intros c t. induction t as [|a t IH]; intros H i; cbn in H; [ unfold is_at; destruct i; discriminate | ].
  destruct (ceq a c) eqn:E; [ discriminate | ]. destruct (find_char c t) eqn:F; [ discriminate | ]. destruct i as [|i]; [ | apply IH; reflexivity ].
  unfold is_at. cbn. intros Q. injection Q as ->. rewrite ceq_refl in E. discriminate.
Qed.
Lemma is_at_skip : forall t c p i, is_at (skipn p t) c i <-> is_at t c (p + i).
Proof. intros t c p. revert t. induction p as [|p IH]; intros t i; [ reflexivity | ]. destruct t as [|a t]; cbn; [ unfold is_at; destruct i; cbn; split; intros; discriminate | apply IH ]. Qed.
Lemma is_at_lt : forall t c i, is_at t c i -> i < length t.
Proof. intros t c i H. apply nth_error_Some. rewrite H. discriminate. Qed.
Lemma forw_next : forall c t p, is_nul c = false -> p <= length t ->
  match chars_forw 1 c t p with Some q => next_at t c p q | None => forall i, ~ is_at t c i end.
Proof.
  intros c t p N L. cbn [chars_forw]. cbv zeta.
  assert (NEXT : forall i, (if p =? length t then None else match find_char c (skipn (S p) t) with Some i => Some (S p + i) | None => None end) = Some i -> next_at t c p i).
  { intros i H. destruct (Nat.eqb_spec p (length t)); [ discriminate | ]. destruct (find_char c (skipn (S p) t)) as [k|] eqn:F; [ | discriminate ]. injection H as <-.
    destruct (find_char_some _ _ _ N F) as (A & B). apply (is_at_skip t c (S p) k) in A. split; [ exact A | ]. left. split; [ lia | ]. intros j J Q.
    apply (B (j - S p)); [ lia | ]. apply (is_at_skip t c (S p) (j - S p)). replace (S p + (j - S p)) with j by lia. exact Q. }
  assert (NONE : (if p =? length t then None else match find_char c (skipn (S p) t) with Some i => Some (S p + i) | None => None end) = None -> forall i, p < i -> ~ is_at t c i).
  { intros H i I Q. destruct (Nat.eqb_spec p (length t)); [ apply is_at_lt in Q; lia | ]. destruct (find_char c (skipn (S p) t)) eqn:F; [ discriminate | ].
    apply (find_char_none _ _ F (i - S p)). apply (is_at_skip t c (S p) (i - S p)). replace (S p + (i - S p)) with i by lia. exact Q. }
  destruct (if p =? length t then None else _) as [q|] eqn:E; [ apply NEXT; reflexivity | ]. specialize (NONE eq_refl).
  destruct (find_char c t) as [q|] eqn:F; [ | apply find_char_none; exact F ]. destruct (find_char_some _ _ _ N F) as (A & B). split; [ exact A | right; auto ].
Qed.
Lemma first_of_some : forall p l q, first_of p l = Some q -> exists a b, l = a ++ q :: b /\ p q = true /\ forall i, In i a -> p i = false.
Proof.
  intros p l. induction l as [|i l IH]; intros q H; cbn in H; [ discriminate | ]. destruct (p i) eqn:E.
  - injection H as <-. exists [], l. sp; auto. intros i' [].
  - destruct (IH q H) as (a & b & -> & P & A). exists (i :: a), b. sp; auto. intros j [<-|J]; auto.
Qed.
Lemma first_of_none : forall p l, first_of p l = None -> forall i, In i l -> p i = false.
Proof. intros p l. induction l as [|j l IH]; intros H i I; cbn in *; [ contradiction | ]. destruct (p j) eqn:E; [ discriminate | ]. destruct I as [<-|I]; auto. Qed.
Lemma schar_is : forall s c i, nat_of_ascii c < 128 -> is_nul c = false -> ((schar (at_ s i) =? uchar c)%Z = true <-> is_at (txt s) c i).
Proof.
  intros s c i A N. assert (S1 : forall d, (schar d =? uchar c)%Z = true <-> d = c).
  { intros d. rewrite Z.eqb_eq. unfold schar, uchar. pose proof (nat_ascii_bounded d). split; [ | intros ->; destruct (Z.ltb_spec (Z.of_nat (nat_of_ascii c)) 128); lia ].
    intros H1. assert (nat_of_ascii d = nat_of_ascii c) by (destruct (Z.ltb_spec (Z.of_nat (nat_of_ascii d)) 128); lia). rewrite <- (ascii_nat_embedding d), <- (ascii_nat_embedding c). congruence. }
  rewrite S1. unfold at_, is_at. destruct (nth_error (txt s) i) as [d|] eqn:E.
  - rewrite (nth_error_nth _ _ _ E). split; [ intros -> | intros H; injection H as -> ]; reflexivity.
  - rewrite nth_overflow by (apply nth_error_None; exact E). split; [ intros <-; discriminate | discriminate ].
Qed.
Lemma rev_seq_S : forall n, rev (seq 0 (S n)) = n :: rev (seq 0 n).
Proof. intros n. rewrite seq_S. cbn [plus]. rewrite rev_app_distr. reflexivity. Qed.
Lemma rev_seq_split : forall b n l q r, rev (seq b n) = l ++ q :: r -> (forall i, In i l <-> q < i < b + n) /\ b <= q < b + n.
Proof.
  intros b n. induction n as [|n IH]; intros l q r H; [ destruct l; discriminate | ]. rewrite seq_S, rev_app_distr in H. cbn [rev app] in H.
  destruct l as [|x l]; cbn [app] in H; injection H as H1 H2.
  - subst. split; [ | lia ]. intros i. cbn. lia.
  - destruct (IH _ _ _ H2) as (A & B). split; [ | lia ]. intros i. cbn [In]. rewrite A. subst x. lia.
Qed.
Lemma back_prev : forall c s p, nat_of_ascii c < 128 -> is_nul c = false -> p <= length (txt s) ->
  match chars_back 1 (uchar c) s p with Some q => prev_at (txt s) c p q | None => forall i, is_at (txt s) c i -> i = p end.
Proof.
  intros c s p A N L. cbn [chars_back]. destruct (first_of _ _) as [q|] eqn:F.
  - destruct (first_of_some _ _ _ F) as (a & b & E & P & NA). apply schar_is in P; auto. split; [ exact P | ].
    assert (NA' : forall i, In i a -> ~ is_at (txt s) c i) by (intros i I Q; apply (schar_is s c i A N) in Q; rewrite NA in Q by exact I; discriminate).
    assert (CASE : (exists b1, rev (seq 0 p) = a ++ q :: b1) \/ exists a1, a = rev (seq 0 p) ++ a1 /\ rev (seq (S p) (length (txt s) - p)) = a1 ++ q :: b).
    { clear - E. revert a E. induction (rev (seq 0 p)) as [|x l IH]; intros a E; cbn [app] in E; [ right; exists a; auto | ].
      destruct a as [|y a]; cbn [app] in E; injection E as -> E; [ left; exists l; reflexivity | ].
      destruct (IH _ E) as [(b1 & ->)|(a1 & -> & Q)]; [ left; exists b1; reflexivity | right; exists a1; auto ]. }
    destruct CASE as [(b1 & R)|(a1 & -> & R)].
    + apply rev_seq_split in R. destruct R as (R1 & R2). left. split; [ lia | ]. intros i I. apply NA'. apply R1. lia.
    + apply rev_seq_split in R. destruct R as (R1 & R2). right. split; [ lia | ]. split.
      * intros i I. apply NA'. apply in_or_app. left. apply -> in_rev. apply in_seq. lia.
      * intros i I Q. pose proof (is_at_lt _ _ _ Q). apply (NA' i); auto. apply in_or_app. right. apply R1. lia.
  - intros i Q. pose proof (is_at_lt _ _ _ Q). destruct (Nat.eq_dec i p) as [|NE]; auto. exfalso.
    assert (I : In i (rev (seq 0 p) ++ rev (seq (S p) (length (txt s) - p)))) by (apply in_or_app; destruct (Nat.lt_ge_cases i p); [ left | right ]; apply -> in_rev; apply in_seq; lia).
    pose proof (first_of_none _ _ F i I) as Z. cbv beta in Z. apply (schar_is s c i A N) in Q. congruence.
Qed.

(** ** Comments *)
Lemma comment_join : forall ls, Forall one_line ls -> ls <> [] -> "#"%char :: comment (join ls) = join (map (cons "#"%char) ls).
Proof.
  assert (APP : forall l r, one_line l -> comment (l ++ r) = l ++ comment r).
  { intros l r. induction l as [|c l IH]; intros O; [ reflexivity | ]. cbn [app comment]. destruct (ceq c NL) eqn:C; [ apply ceq_true in C; subst; exfalso; apply O; left; reflexivity | ].
    rewrite IH; [ reflexivity | intros I; apply O; right; exact I ]. }
  intros [|l ls] F NE; [ congruence | ]. clear NE. cbn [join map]. inversion F as [|? ? F1 F2]; subst. rewrite APP by exact F1. cbn [app]. do 2 f_equal.
  clear F F1 l. induction F2 as [|l ls F1 F2 IH]; [ reflexivity | ]. cbn [flat_map map app comment]. rewrite ceq_refl, APP by exact F1. rewrite IH. reflexivity.
Qed.
Lemma uncomment_join : forall l ls, one_line l -> Forall one_line ls -> uncomment false (l ++ flat_map (fun l => NL :: l) ls) = join (l :: map unhash ls).
Proof.
  assert (APP : forall l r, one_line l -> uncomment false (l ++ r) = l ++ uncomment false r).
  { intros l r. induction l as [|c l IH]; intros O; [ reflexivity | ]. cbn [app uncomment andb]. destruct (ceq c NL) eqn:C; [ apply ceq_true in C; subst; exfalso; apply O; left; reflexivity | ].
    rewrite IH; [ reflexivity | intros I; apply O; right; exact I ]. }
  intros l ls O F. rewrite APP by exact O. cbn [join map]. f_equal. clear l O. induction F as [|l ls F1 F2 IH]; [ reflexivity | ].
  cbn [flat_map map app uncomment andb]. rewrite ceq_refl. f_equal. rewrite <- IH. destruct l as [|c l].
  - cbn [unhash app]. destruct (flat_map _ ls) as [|x z] eqn:E; [ reflexivity | ].
    assert (X : x = NL) by (destruct ls; [ discriminate | cbn in E; injection E as <- _; reflexivity ]). subst x. reflexivity.
  - unfold unhash. cbn [app uncomment]. assert (O1 : one_line l) by (intros I; apply F1; right; exact I). assert (C : ceq c NL = false) by (apply ceq_false; intros ->; apply F1; left; reflexivity).
    rewrite C. destruct (ascii_dec c "#") as [->|NE]; [ cbn [ceq andb]; rewrite ceq_refl; cbn [andb]; apply APP; exact O1 | ].
    apply ceq_false in NE. rewrite NE. cbn [andb app]. rewrite APP by exact O1. reflexivity.
Qed.

(** ** Words of the history *)
Lemma cfs_iff : forall c, is_cfs c = true <-> separator c.
Proof. intros c. unfold is_cfs, separator. cbn [In]. rewrite !Bool.orb_true_iff, !ceq_true. intuition. Qed.
Lemma not_cfs_iff : forall c, not_cfs c = true <-> ~ separator c.
Proof. intros c. rewrite <- cfs_iff. unfold not_cfs. destruct (is_cfs c); cbn; split; intros; congruence. Qed.
Lemma not_cfs_false : forall c, not_cfs c = false <-> separator c.
Proof. intros c. rewrite <- cfs_iff. unfold not_cfs. destruct (is_cfs c); cbn; split; intros; congruence. Qed.
Lemma Forall_iff_ : forall {A} (p q : A -> Prop) l, (forall x, p x <-> q x) -> Forall p l -> Forall q l.
Proof. intros A p q l H F. apply Forall_impl with (2 := F). intros x. apply H. Qed.
Lemma last_word_of : forall t, ~ Forall separator t -> last_of t (last_word_c t).
Proof.
  intros t N. unfold last_word_c. destruct (forallb is_cfs t) eqn:FB.
  { exfalso. apply N. apply Forall_forall. intros c I. apply cfs_iff. rewrite forallb_forall in FB. auto. }
  cbv zeta. unfold last_word. set (r := rev t). set (n := span is_cfs r). pose proof (span_spec is_cfs r) as (A1 & A2). fold n in A1, A2.
  set (r1 := skipn n r) in *. pose proof (span_spec not_cfs r1) as (B1 & B2). set (m := span not_cfs r1) in *.
  assert (T : t = rev (skipn m r1) ++ rev (firstn m r1) ++ rev (firstn n r)).
  { rewrite <- !rev_app_distr. rewrite <- app_assoc. rewrite firstn_skipn. unfold r1. rewrite firstn_skipn. unfold r. symmetry. apply rev_involutive. }
  assert (LT : length t = length (skipn m r1) + length (firstn m r1) + length (firstn n r)) by (rewrite T at 1; rewrite !app_length, !rev_length; lia).
  pose proof (span_le is_cfs r) as LN. fold n in LN. assert (FN : length (firstn n r) = n) by (rewrite firstn_length; lia).
  assert (Z : skipn (length t - n) t = rev (firstn n r)).
  { rewrite T at 2. rewrite app_assoc. replace (length t - n) with (length (rev (skipn m r1) ++ rev (firstn m r1))) by (rewrite app_length, !rev_length; lia). apply skipn_app_exact. }
  rewrite Z. exists (rev (skipn m r1)), (rev (firstn m r1)), (rev (firstn n r)). sp; auto.
  - destruct r1 as [|c q] eqn:R1.
    + exfalso. apply N. apply Forall_forall. intros c I. apply cfs_iff. rewrite Forall_forall in A1. apply A1. apply in_rev in I. fold r in I.
      unfold r1 in R1. rewrite <- (firstn_skipn n r), R1, app_nil_r in I. exact I.
    + unfold m. cbn [span]. unfold not_cfs at 1. rewrite A2. cbn. intros Q. apply app_eq_nil in Q. destruct Q; discriminate.
  - apply Forall_rev. apply (Forall_iff_ _ _ _ not_cfs_iff B1).
  - apply Forall_rev. apply (Forall_iff_ _ _ _ cfs_iff A1).
  - destruct (skipn m r1) as [|c q] eqn:K; [ left; reflexivity | right; exists (rev q), c; split; [ reflexivity | apply not_cfs_false; exact B2 ] ].
Qed.
Lemma nth_word_of : forall n t, match t with c :: _ => ~ separator c | [] => True end -> word_no (S n) t (nth_word (S n) t).
Proof.
  intros n. induction n as [|n IH]; intros t H.
  - cbn [nth_word]. pose proof (span_spec not_cfs t) as (A1 & A2). rewrite <- (firstn_skipn (span not_cfs t) t) at 1. constructor.
    + apply (Forall_iff_ _ _ _ not_cfs_iff A1).
    + destruct (skipn _ t) as [|c q]; [ left; reflexivity | right; exists c, q; split; [ reflexivity | apply not_cfs_false; exact A2 ] ].
  - change (nth_word (S (S n)) t) with (let t := skipn (span not_cfs t) t in nth_word (S n) (skipn (span is_cfs t) t)). cbv zeta.
    pose proof (span_spec not_cfs t) as (A1 & A2). set (u := skipn (span not_cfs t) t) in *. pose proof (span_spec is_cfs u) as (B1 & B2).
    rewrite <- (firstn_skipn (span not_cfs t) t) at 1. fold u. rewrite <- (firstn_skipn (span is_cfs u) u) at 1. constructor.
    + apply (Forall_iff_ _ _ _ not_cfs_iff A1).
    + apply (Forall_iff_ _ _ _ cfs_iff B1).
    + intros E. destruct u as [|c q]; [ reflexivity | ]. exfalso. cbn [span] in E. unfold not_cfs in A2. apply Bool.negb_false_iff in A2. rewrite A2 in E. discriminate.
    + destruct (skipn _ u); auto. intros Q. apply cfs_iff in Q. congruence.
    + apply IH. destruct (skipn _ u); auto. intros Q. apply cfs_iff in Q. congruence.
Qed.

(** ** Searching the history *)
Lemma prefix_iff : forall p t, prefix p t = true <-> is_prefix p t.
Proof.
  intros p. induction p as [|a p IH]; intros t; [ split; [ intros _; exists t; reflexivity | reflexivity ] | ]. destruct t as [|b t]; cbn.
  - split; [ discriminate | intros (c & E); discriminate ].
  - rewrite andb_true_iff, ceq_true, IH. split; [ intros (-> & (z & ->)); exists z; reflexivity | intros (z & E); injection E as -> ->; split; [ reflexivity | exists z; reflexivity ] ].
Qed.
Lemma find_some : forall p t i, find p t = Some i -> exists l r, t = l ++ p ++ r /\ length l = i /\ forall l' r', t = l' ++ p ++ r' -> length l <= length l'.
Proof.
  intros p t. induction t as [|c t IH]; intros i H; cbn [find] in H.
  - destruct (prefix p []) eqn:P; [ | discriminate ]. injection H as <-. apply prefix_iff in P. destruct P as (z & P). exists [], z. sp; auto. cbn. lia.
  - destruct (prefix p (c :: t)) eqn:P.
    + injection H as <-. apply prefix_iff in P. destruct P as (z & P). exists [], z. sp; auto. cbn. lia.
    + destruct (find p t) as [k|] eqn:F; [ | discriminate ]. injection H as <-. destruct (IH k eq_refl) as (l & r & E & L & M). exists (c :: l), r. cbn. sp; auto; [ congruence | ].
      intros [|d l'] r' E'; cbn in E'.
      * exfalso. assert (Q : prefix p (c :: t) = true) by (apply prefix_iff; exists r'; exact E'). congruence.
      * injection E' as -> E'. apply M in E'. cbn. lia.
Qed.
Lemma find_none : forall p t, find p t = None -> forall l r, t <> l ++ p ++ r.
Proof.
  intros p t. induction t as [|c t IH]; intros H l r E; cbn [find] in H.
  - destruct (prefix p []) eqn:P; [ discriminate | ]. destruct l; [ | discriminate ]. assert (Q : prefix p [] = true) by (apply prefix_iff; exists r; exact E). congruence.
  - destruct (prefix p (c :: t)) eqn:P; [ discriminate | ]. destruct (find p t) eqn:F; [ discriminate | ]. destruct l as [|d l]; cbn in E.
    + assert (Q : prefix p (c :: t) = true) by (apply prefix_iff; exists r; exact E). congruence.
    + injection E as -> E. apply (IH eq_refl l r E).
Qed.
Lemma matches_caret : forall p t n, matches ("^"%char :: p) t n <-> n = length p /\ is_prefix p t.
Proof. reflexivity. Qed.
Lemma matches_plain : forall pat t n, caret pat = false -> (matches pat t n <-> exists l r, t = l ++ pat ++ r /\ n = length (l ++ pat) /\ forall l' r', t = l' ++ pat ++ r' -> length l <= length l').
Proof.
  intros [|c p] t n C; [ reflexivity | ]. cbn in C. destruct c as [[] [] [] [] [] [] [] []]; try reflexivity. discriminate.
Qed.
Lemma caret_inv : forall pat, caret pat = true -> exists p, pat = "^"%char :: p.
Proof. intros [|c p] C; [ discriminate | ]. cbn in C. apply ceq_true in C. subst. exists p. reflexivity. Qed.
Lemma match_some : forall t pat i, x_match t pat = Some i -> matches pat t (found_at i pat).
Proof.
  intros t pat i H. unfold x_match in H. destruct (caret pat) eqn:C.
  - destruct (caret_inv _ C) as (p & ->). cbn [tl] in H. destruct (prefix p t) eqn:P; [ | discriminate ]. injection H as <-. apply matches_caret. unfold found_at. rewrite C. cbn. split; [ lia | apply prefix_iff; exact P ].
  - apply matches_plain; auto. destruct (find_some _ _ _ H) as (l & r & E & L & M). exists l, r. sp; auto. unfold found_at. rewrite C, app_length. lia.
Qed.
Lemma match_none : forall t pat n, x_match t pat = None -> ~ matches pat t n.
Proof.
  intros t pat n H M. unfold x_match in H. destruct (caret pat) eqn:C.
  - destruct (caret_inv _ C) as (p & ->). cbn [tl] in H. apply matches_caret in M. destruct M as (_ & M). apply prefix_iff in M. rewrite M in H. discriminate.
  - apply matches_plain in M; auto. destruct M as (l & r & E & _). apply (find_none _ _ H l r E).
Qed.
Lemma matches_less : forall pat c t n, matches (pat ++ [c]) t n -> exists n', matches pat t n'.
Proof.
  intros pat c t n M. destruct (x_match t pat) as [i|] eqn:X; [ eexists; apply match_some; eassumption | ]. exfalso. destruct pat as [|a p].
  - unfold x_match in X. cbn [caret] in X. apply (find_none _ _ X [] t). reflexivity.
  - destruct (caret (a :: p)) eqn:C.
    + destruct (caret_inv _ C) as (p' & E). injection E as -> ->. cbn [app] in M. apply matches_caret in M. destruct M as (_ & z & ->).
      apply (match_none _ _ (length p') X). apply matches_caret. split; [ reflexivity | ]. exists ([c] ++ z). rewrite app_assoc. reflexivity.
    + apply matches_plain in M; [ | exact C ]. destruct M as (l & r & E & _). unfold x_match in X. rewrite C in X. apply (find_none _ _ X l ([c] ++ r)). rewrite E, <- app_assoc. reflexivity.
Qed.
Lemma search_down_newest : forall e pat h, h <= length (hist e) ->
  match search_down e pat h with
  | Some (r, i) => r < h /\ (exists t, nth_error (hist e) r = Some t /\ nth r (hist e) [] = t /\ x_match t pat = Some i) /\
      forall h' t' n', r < h' < h -> nth_error (hist e) h' = Some t' -> ~ matches pat t' n'
  | None => forall h' t' n', h' < h -> nth_error (hist e) h' = Some t' -> ~ matches pat t' n'
  end.
Proof.
  intros e pat h. induction h as [|h IH]; intros L; cbn [search_down]; [ intros; lia | ]. specialize (IH ltac:(lia)).
  destruct (x_match (nth h (hist e) []) pat) as [i|] eqn:X.
  - split; [ lia | ]. split; [ exists (nth h (hist e) []); sp; auto; apply nth_error_nth'; lia | intros; lia ].
  - assert (HH : forall t' n', nth_error (hist e) h = Some t' -> ~ matches pat t' n') by (intros t' n' E; rewrite (nth_error_nth _ _ _ E) in X; apply match_none; exact X).
    destruct (search_down e pat h) as [(r, i)|].
    + destruct IH as (A & B & C). split; [ lia | ]. split; [ exact B | ]. intros h' t' n' R E. destruct (Nat.eq_dec h' h) as [->|]; [ apply HH; exact E | apply (C h'); [ lia | exact E ] ].
    + intros h' t' n' R E. destruct (Nat.eq_dec h' h) as [->|]; [ apply HH; exact E | apply (IH h'); [ lia | exact E ] ].
Qed.
Lemma x_search_newest : forall e pat s h0, sane e -> histp s = Z.of_nat h0 -> h0 <= length (hist e) ->
  (forall h t n, h0 <= h -> nth_error (hist e) h = Some t -> ~ matches pat t n) -> (exists h t n, nth_error (hist e) h = Some t /\ matches pat t n) ->
  exists i h t n s', x_search e pat false s = Ok (Some i, s') /\ newest e pat h t n /\ txt s' = t /\ cur s' = n /\ histp s' = Z.of_nat h /\ h <= length (hist e) /\
    unget s' = unget s /\ macro s' = macro s /\ input s' = input s.
Proof.
  intros e pat s h0 SN HP L NONE EX. unfold x_search. rewrite HP. replace (histptr e <? _)%Z with false by (symmetry; apply Z.ltb_ge; unfold histptr; lia).
  replace (Z.to_nat (Z.of_nat h0 - 1 + 1)) with h0 by lia. pose proof (search_down_newest e pat h0 L) as D. destruct (search_down e pat h0) as [(r, i)|].
  - destruct D as (D1 & (t & E1 & E2 & X) & D3). pose proof (match_len _ _ _ X) as ML.
    destruct (load_shows e (Z.of_nat r) s SN) as (t' & Q1 & Q2 & Q3 & Q4 & _); [ lia | ]. rewrite Nat2Z.id in Q1. assert (Q5 : t' = t) by congruence. clear Q1 Q3. rewrite Q5 in Q2. clear t' Q5.
    unfold goto. rewrite Q2. replace (found_at i pat <=? length t) with true by (symmetry; apply Nat.leb_le; exact ML). cbn [then_].
    exists i, r, t, (found_at i pat). eexists. split; [ reflexivity | ]. split.
    { split; [ exact E1 | ]. split; [ apply match_some; exact X | ]. intros h' t' n' E' M'. destruct (Nat.le_gt_cases h' r); auto. exfalso.
      destruct (Nat.lt_ge_cases h' h0); [ apply (D3 h' t' n'); auto | apply (NONE h' t' n'); auto ]. }
    cbn. rewrite Q4. sp; auto; try lia; unfold load_hist; destruct (_ || _); reflexivity.
  - exfalso. destruct EX as (h & t & n & E & M). destruct (Nat.lt_ge_cases h h0); [ apply (D h t n); auto | apply (NONE h t n); auto ].
Qed.
Lemma insert_char : forall e c, pattern_char e c -> find_hist_func e (uchar c) = F_insert.
Proof.
  intros e c ((A & _) & _ & P). unfold find_hist_func. rewrite to_char_uchar. assert (NN : is_nul c = false) by (apply ceq_false; intros ->; cbn in A; lia). cbv zeta. rewrite NN.
  destruct (List.find _ (keys e)) as [k|] eqn:F; [ | reflexivity ]. apply List.find_some in F. destruct F as (I & E). apply P; auto. apply str_eqb_true. exact E.
Qed.
Definition ESC : char := "027"%char.
Lemma search_typed : forall e, sane e -> forall q pat off s f rest, byte_ok s -> view s = q ++ ESC :: rest -> Forall (pattern_char e) q -> length (pat ++ q) <= 256 -> length q < f ->
  (exists h t n, nth_error (hist e) h = Some t /\ matches (pat ++ q) t n) -> pat ++ q <> [] ->
  (pat = [] /\ off = None /\ histp s = Z.of_nat (length (hist e)) \/
   exists i h n, off = Some i /\ newest e pat h (txt s) n /\ cur s = n /\ histp s = Z.of_nat h /\ h <= length (hist e)) ->
  exists s' h n, search_hist e f pat off s = Ok s' /\ newest e (pat ++ q) h (txt s') n /\ cur s' = n /\ histp s' = Z.of_nat h /\ view s' = ESC :: rest.
Proof.
  intros e SN q. induction q as [|c q IH]; intros pat off s f rest B V FP LP LF EX NE ST; (destruct f as [|f]; [ cbn in LF; lia | ]); cbn [search_hist].
  - rewrite app_nil_r in *. pose proof (getc_view s B) as G. rewrite V in G. cbn [app] in G. destruct G as (s1 & -> & B1 & U1 & V1 & E1).
    change (uchar ESC) with 27%Z. cbn [Z.ltb Z.compare Z.eqb Pos.eqb orb]. cbv zeta. destruct ST as [(-> & _)|(i & h & n & _ & NW & C & HP & _)]; [ congruence | ].
    exists (ungetc 27 s1), h, n. split; [ reflexivity | ]. unfold ungetc. cbn. rewrite E1. cbn. sp; auto. unfold view. cbn. f_equal.
    unfold view in V1. rewrite U1 in V1. exact V1.
  - pose proof (getc_view s B) as G. rewrite V in G. cbn [app] in G. destruct G as (s1 & -> & B1 & U1 & V1 & E1). inversion FP as [|? ? PC FP']; subst.
    pose proof (insert_char e c PC) as IC. destruct PC as ((A0 & A1) & A2 & _). unfold uchar in *. replace (Z.of_nat (nat_of_ascii c) <? 0)%Z with false by (symmetry; apply Z.ltb_ge; lia).
    replace ((Z.of_nat (nat_of_ascii c) =? 27)%Z || (Z.of_nat (nat_of_ascii c) =? 0)%Z) with false by (symmetry; apply Bool.orb_false_iff; split; apply Z.eqb_neq; lia). cbv zeta.
    rewrite IC. cbn [func_beq]. rewrite app_length in LP. cbn [length] in LP. replace (256 <=? length pat) with false by (symmetry; apply Nat.leb_gt; lia).
    change (Z.of_nat (nat_of_ascii c)) with (uchar c). rewrite to_char_uchar.
    assert (AS : pat ++ c :: q = (pat ++ [c]) ++ q) by (rewrite <- app_assoc; reflexivity). rewrite AS in *.
    assert (LP' : length ((pat ++ [c]) ++ q) <= 256) by (rewrite !app_length; cbn; lia). cbn [length] in LF.
    assert (EX1 : exists h t n, nth_error (hist e) h = Some t /\ matches (pat ++ [c]) t n).
    { destruct EX as (h & t & n & E & M). clear - E M. revert n M. induction q as [|d q IHq] using rev_ind; intros n M; [ rewrite app_nil_r in M; eauto | ].
      rewrite app_assoc in M. apply matches_less in M. destruct M as (n' & M). eauto. }
    assert (T1 : txt s1 = txt s /\ cur s1 = cur s /\ histp s1 = histp s) by (rewrite E1; auto). destruct T1 as (T1 & C1 & H1).
    assert (SEARCH : forall h0, histp s1 = Z.of_nat h0 -> h0 <= length (hist e) -> (forall h t n, h0 <= h -> nth_error (hist e) h = Some t -> ~ matches (pat ++ [c]) t n) ->
      exists s' h n, (do r <- x_search e (pat ++ [c]) false s1; search_hist e f (pat ++ [c]) (fst r) (snd r)) = Ok s' /\ newest e ((pat ++ [c]) ++ q) h (txt s') n /\ cur s' = n /\ histp s' = Z.of_nat h /\ view s' = ESC :: rest).
    { intros h0 HP L0 NO. destruct (x_search_newest e (pat ++ [c]) s1 h0 SN HP L0 NO EX1) as (i & h & t & n & s2 & -> & NW & T2 & C2 & P2 & L2 & U2 & M2 & I2). cbn [then_ fst snd].
      apply IH; auto; try lia.
      - destruct B1 as (Ba & Bb). split; rewrite ?M2, ?U2; auto.
      - rewrite <- V1. unfold view. rewrite U2, I2. reflexivity.
      - right. exists i, h, n. sp; auto. rewrite T2. exact NW. }
    destruct ST as [(-> & -> & HP)|(i & h & n & -> & NW & CN & HP & HL)].
    + cbv iota. apply (SEARCH (length (hist e))); [ congruence | lia | ]. intros h t n L E. apply nth_error_None in L. congruence.
    + cbv iota. rewrite T1. destruct NW as (N1 & N2 & N3). destruct (x_match (txt s) (pat ++ [c])) as [i'|] eqn:X.
      * pose proof (match_len _ _ _ X) as ML. unfold goto. rewrite T1. replace (found_at i' (pat ++ [c]) <=? length (txt s)) with true by (symmetry; apply Nat.leb_le; exact ML). cbn [then_].
        apply IH; auto; try lia. right. exists i', h, (found_at i' (pat ++ [c])). cbn. rewrite H1. sp; auto. split; [ exact N1 | ]. split; [ apply match_some; exact X | ].
        intros h' t' n' E' M'. apply matches_less in M'. destruct M' as (n2 & M'). apply (N3 h' t' n2 E' M').
      * apply (SEARCH h); [ congruence | exact HL | ]. intros h' t' n' L' E' M'. destruct (matches_less _ _ _ _ M') as (n2 & M2). pose proof (N3 h' t' n2 E' M2). assert (h' = h) by lia. subst h'.
        assert (t' = txt s) by congruence. subst t'. apply (match_none _ _ n' X M').
Qed.
