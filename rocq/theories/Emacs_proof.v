(** The emacs editor stays in its buffer (C63). *)
From Verif Require Import Base Num_model Emacs_model Emacs_spec.
From Coq Require Import ZArith Lia.

Definition post (e : env) (r : res ed) : Prop := match r with Ok s => inv e s | _ => False end.

(** ** Input *)
Lemma getc_in : forall s, exists m i, snd (getc s) = with_in None m i s.
Proof.
  intros s. unfold getc, x_getc. destruct (unget s); [ | destruct (macro s) as [[|]|] ]; cbn;
    try (destruct (input s)); cbn; eexists; eexists; reflexivity.
Qed.
Lemma getc_pending : forall s c s', getc s = (c, s') -> match pending s with [] => c = (-1)%Z /\ pending s' = [] | x :: l => c = x /\ pending s' = l end.
Proof.
  intros s c s'. unfold getc, x_getc, pending. destruct (unget s) as [u|]; cbn.
  - intros E. inversion E. subst. cbn. split; reflexivity.
  - destruct (macro s) as [[|a m]|]; cbn; try (destruct (input s); cbn); intros E; inversion E; subst; cbn; split; reflexivity.
Qed.
Lemma getc_shape : forall s c s', getc s = (c, s') -> exists m i, s' = with_in None m i s.
Proof. intros s c s' E. destruct (getc_in s) as (m & i & H). rewrite E in H. eauto. Qed.
Lemma unget_pending : forall c s, unget s = None -> pending (ungetc c s) = (if (c <? 0)%Z then [] else [c]) ++ pending s.
Proof. intros c s U. unfold pending, ungetc. cbn. rewrite U. destruct (c <? 0)%Z; reflexivity. Qed.
Lemma conts_shape : forall c n s r s', conts c n s = (r, s') -> (exists u m i, s' = with_in u m i s) /\
  length r <= n - 1 /\ length (pending s') <= length (pending s) /\ Forall goes_on r.
Proof.
  intros c n. induction n as [|n IH]; intros s r s' E; cbn [conts] in E.
  - inversion E. subst. repeat split; cbn; auto. destruct s'. cbn. do 3 eexists. reflexivity.
  - destruct n as [|n'].
    + inversion E. subst. repeat split; cbn; auto. destruct s'. cbn. do 3 eexists. reflexivity.
    + destruct (getc s) as (cc, s1) eqn:G. destruct (getc_shape _ _ _ G) as (m & i & ->). pose proof (getc_pending _ _ _ G) as P.
      assert (LP : length (pending (with_in None m i s)) <= length (pending s) /\ ((0 <=? cc)%Z = true -> S (length (pending (with_in None m i s))) = length (pending s) \/ cc = (-1)%Z)).
      { destruct (pending s) as [|x l]; destruct P as (P1 & P2); rewrite P2; cbn; split; auto. }
      set (bad := _ || _ || _ || _ || _) in E. destruct (cc =? -1)%Z eqn:E1.
      * inversion E. subst. repeat split; cbn [length]; auto; try lia. do 3 eexists. reflexivity.
      * apply Z.eqb_neq in E1. destruct bad eqn:B.
        { inversion E. subst. repeat split; cbn [length]; auto; try lia.
          - do 3 eexists. reflexivity.
          - rewrite unget_pending by reflexivity. rewrite app_length. destruct (cc <? 0)%Z eqn:N; cbn [length]; [lia|].
            destruct (proj2 LP) as [H|H]; [ apply Z.ltb_ge in N; apply Z.leb_le; lia | lia | lia ]. }
        { destruct (conts c (S n') (with_in None m i s)) as (r', s2) eqn:C. inversion E. subst.
          destruct (IH _ _ _ C) as ((u & m' & i' & ->) & L1 & L2 & L3). repeat split; cbn [length]; try lia.
          - cbn. do 3 eexists. reflexivity.
          - constructor; auto. subst bad. apply Bool.orb_false_iff in B. destruct B as (B & _). apply Bool.orb_false_iff in B. destruct B as (B & _).
            apply Bool.orb_false_iff in B. destruct B as (B & _). apply Bool.orb_false_iff in B. destruct B as (B & _).
            apply Bool.negb_false_iff in B. unfold u8cont in B. apply Z.eqb_eq in B.
            unfold goes_on, to_char.
            assert (R : (0 <= cc mod 256 < 256)%Z) by (apply Z.mod_pos_bound; lia).
            rewrite nat_ascii_embedding by lia.
            assert (B' : Z.land (cc mod 256) 192 = 128%Z).
            { rewrite <- B. change 256%Z with (2 ^ 8)%Z. rewrite <- Z.land_ones by lia. rewrite <- Z.land_assoc. f_equal. }
            revert B' R. generalize (cc mod 256)%Z. intros z B' R.
            assert (Z.to_nat z < 256) by lia. 
            assert (F : forallb (fun k => implb (Z.land (Z.of_nat k) 192 =? 128)%Z ((128 <=? k) && (k <? 192))) (seq 0 256) = true) by (vm_compute; reflexivity).
            rewrite forallb_forall in F. specialize (F (Z.to_nat z)). rewrite Z2Nat.id in F by lia. rewrite B' in F. cbn [Z.eqb Pos.eqb implb] in F.
            assert (F' := F ltac:(apply in_seq; lia)). apply andb_true_iff in F'. destruct F' as (F1 & F2). apply Nat.leb_le in F1. apply Nat.ltb_lt in F2. lia. }
Qed.
Lemma getu8_shape : forall s r s', getu8 s = (r, s') -> (exists u m i, s' = with_in u m i s) /\
  match r with
  | None => True
  | Some b => length (pending s') < length (pending s) /\ 1 <= length b <= 4 /\ Forall goes_on (tl b)
  end.
Proof.
  intros s r s' E. unfold getu8 in E. destruct (getc s) as (c, s1) eqn:G. destruct (getc_shape _ _ _ G) as (m & i & ->).
  pose proof (getc_pending _ _ _ G) as P. destruct (c =? -1)%Z eqn:E1.
  - inversion E. subst. split; auto. do 3 eexists. reflexivity.
  - match type of E with (let (_, _) := conts c ?x _ in _) = _ => set (n := x) in E end. assert (N : n <= 4) by (unfold n; repeat match goal with |- context [if ?b then _ else _] => destruct b end; lia).
    destruct (conts c n (with_in None m i s)) as (q, s2) eqn:C. inversion E. subst.
    destruct (conts_shape _ _ _ _ _ C) as ((u & m' & i' & ->) & L1 & L2 & L3).
    split; [ cbn; do 3 eexists; reflexivity | ]. cbn [length tl]. repeat split; auto; try lia.
    apply Z.eqb_neq in E1. destruct (pending s) as [|x l]; destruct P as (P1 & P2); [ lia | ]. rewrite P2 in L2. cbn [length]. lia.
Qed.

(** ** The pieces of the line *)
Lemma nf_app : forall a b, no_nul (a ++ b) <-> no_nul a /\ no_nul b.
Proof. intros. unfold no_nul. apply Forall_app. Qed.
Lemma nf_firstn : forall n t, no_nul t -> no_nul (firstn n t).
Proof. intros n t H. rewrite <- (firstn_skipn n t) in H. apply nf_app in H. tauto. Qed.
Lemma nf_skipn : forall n t, no_nul t -> no_nul (skipn n t).
Proof. intros n t H. rewrite <- (firstn_skipn n t) in H. apply nf_app in H. tauto. Qed.

Lemma nf_nil : no_nul []. Proof. constructor. Qed.
Lemma nf_rev : forall t, no_nul t -> no_nul (rev t).
Proof. intros t H. apply Forall_rev. exact H. Qed.
Lemma nf_in : forall t, no_nul t <-> forall c, In c t -> c <> NUL.
Proof. intros. apply Forall_forall. Qed.

Ltac sp := repeat match goal with |- _ /\ _ => split end.

(** ** Primitives *)
Section Safe.
Variable e : env.
Hypothesis SANE : sane e.
Notation inv := (inv e).
Notation post := (post e).

Lemma inv_txt : forall t c s, inv s -> c <= length t -> length t < cap e -> no_nul t -> inv (with_txt t c s).
Proof. intros t c s (W & R & H) A B C. split; [ | split; assumption ]. split; [ exact A | split; [ exact B | exact C ] ]. Qed.
Lemma goto_post : forall p s, inv s -> p <= length (txt s) -> goto p s = Ok (with_txt (txt s) p s) /\ inv (with_txt (txt s) p s).
Proof.
  intros p s I LE. unfold goto. apply Nat.leb_le in LE as LE'. rewrite LE'. split; [ reflexivity | ].
  destruct I as ((W1 & W2 & W3) & I). apply inv_txt; auto. split; [ split; auto | exact I ].
Qed.
Lemma do_ins_inv : forall t s, inv s -> no_nul t -> inv (snd (do_ins e t s)).
Proof.
  intros t s I N. unfold do_ins. destruct (cap e <=? length (txt s) + length t) eqn:C; [ exact I | ].
  apply Nat.leb_gt in C. cbn [snd]. assert (I' := I). destruct I' as ((W1 & W2 & W3) & _). apply inv_txt; auto.
  - rewrite !app_length, firstn_length, skipn_length. lia.
  - rewrite !app_length, firstn_length, skipn_length. lia.
  - apply nf_app. split; [ apply nf_firstn; exact W3 | ]. apply nf_app. split; [ exact N | apply nf_skipn; exact W3 ].
Qed.
Lemma ins_inv : forall t s, inv s -> no_nul t -> inv (ins e t s).
Proof. exact do_ins_inv. Qed.
Lemma times_inv : forall f n s, (forall s, inv s -> inv (f s)) -> inv s -> inv (times n f s).
Proof. intros f n. induction n as [|n IH]; intros s H I; cbn; auto. Qed.
Lemma set_nth_length : forall {A} (l : list A) i v, length (set_nth l i v) = length l.
Proof. intros A l. induction l as [|a l IH]; intros [|i] v; cbn; auto. Qed.
Lemma set_nth_in : forall {A} (l : list A) i v x, In x (set_nth l i v) -> x = v \/ In x l.
Proof. intros A l. induction l as [|a l IH]; intros [|i] v x H; cbn in *; try tauto. - destruct H as [<-|H]; auto. - destruct H as [H|H]; auto. apply IH in H. tauto. Qed.
Lemma push_inv : forall n s, inv s -> inv (push n s).
Proof.
  intros n s (W & (R1 & R2 & R3 & R4) & H). split; [ exact W | split; [ | exact H ] ]. unfold push. cbn [kills ksp ktp with_kills]. unfold ring_ok. sp; auto.
  - rewrite set_nth_length. exact R1.
  - apply Nat.mod_upper_bound. discriminate.
  - intros t E. apply set_nth_in in E. destruct E as [E|E]; [ | apply R4; exact E ]. injection E as ->. apply nf_firstn, nf_skipn. apply W.
Qed.
Lemma delete_post : forall n k s, inv s -> cur s + n <= length (txt s) ->
  exists s', delete n k s = Ok s' /\ inv s' /\ txt s' = firstn (cur s) (txt s) ++ skipn (cur s + n) (txt s) /\ cur s' = cur s /\
    last_cmd s' = last_cmd s /\ histp s' = histp s /\ ktp s' = ktp s /\ (k = false -> kills s' = kills s /\ ksp s' = ksp s).
Proof.
  intros n k s I LE. unfold delete. destruct (n =? 0) eqn:Z.
  - apply Nat.eqb_eq in Z. subst. exists s. rewrite Nat.add_0_r, firstn_skipn. sp; auto.
  - replace (length (txt s) <? cur s + n) with false by (symmetry; apply Nat.ltb_ge; exact LE).
    set (s1 := match mark s with Some _ => _ | None => s end).
    assert (H1 : inv s1 /\ txt s1 = txt s /\ cur s1 = cur s /\ last_cmd s1 = last_cmd s /\ histp s1 = histp s /\ ktp s1 = ktp s /\ kills s1 = kills s /\ ksp s1 = ksp s).
    { unfold s1. destruct (mark s); [ destruct (cur s <? n0) | ]; sp; auto. }
    clearbody s1. destruct H1 as (I1 & T1 & C1 & L1 & P1 & K1 & K2 & K3).
    set (s2 := if k then push n s1 else s1).
    assert (H2 : inv s2 /\ txt s2 = txt s /\ cur s2 = cur s /\ last_cmd s2 = last_cmd s /\ histp s2 = histp s /\ ktp s2 = ktp s /\ (k = false -> kills s2 = kills s /\ ksp s2 = ksp s)).
    { unfold s2. destruct k; [ split; [ apply push_inv; exact I1 | ]; cbn; sp; auto; discriminate | sp; auto ]. }
    clearbody s2. destruct H2 as (I2 & T2 & C2 & L2 & P2 & K4 & K5).
    eexists. split; [ reflexivity | ]. cbn. rewrite T2, C2. sp; auto; try apply K5; auto; try exact I2.
    apply inv_txt; auto.
    + cbn. rewrite app_length, firstn_length, skipn_length. lia.
    + cbn. rewrite app_length, firstn_length, skipn_length. pose proof (proj1 (proj2 (proj1 I))). lia.
    + cbn. apply nf_app. split; [ apply nf_firstn | apply nf_skipn ]; exact (proj2 (proj2 (proj1 I))).
Qed.
Lemma delete_ok : forall n k s, inv s -> cur s + n <= length (txt s) -> post (delete n k s).
Proof. intros n k s I LE. destruct (delete_post n k s I LE) as (s' & E & H & _). rewrite E. exact H. Qed.
Lemma cur_le : forall s, inv s -> cur s <= length (txt s).
Proof. intros s I. apply I. Qed.
Lemma goto_ok : forall p s, inv s -> p <= length (txt s) -> post (goto p s).
Proof. intros p s I LE. destruct (goto_post p s I LE) as (-> & H). exact H. Qed.
Lemma inv_in : forall u m i s, inv s -> inv (with_in u m i s). Proof. intros. exact H. Qed.

Lemma more_back_le : forall f a col s, a <= col -> more_back f a col s <= col.
Proof.
  intros f. induction f as [|f IH]; intros a col s LE; cbn [more_back]; auto. destruct (a <? col) eqn:L; cbn [andb]; auto.
  destruct (cont _); auto. apply IH. apply Nat.ltb_lt in L. lia.
Qed.
Lemma more_forw_le : forall f a col p s, a <= col -> more_forw f a col p s <= col.
Proof.
  intros f. induction f as [|f IH]; intros a col p s LE; cbn [more_forw]; auto. destruct (a <? col) eqn:L; cbn [andb]; auto.
  destruct (cont _); auto. apply IH. apply Nat.ltb_lt in L. lia.
Qed.
Lemma back_le : forall n s, back_by n s <= cur s.
Proof. intros. apply more_back_le. lia. Qed.
Lemma forw_le : forall n s, cur s <= length (txt s) -> cur s + forw_by n s <= length (txt s).
Proof. intros n s LE. unfold forw_by. pose proof (more_forw_le (length (txt s) - cur s) (Nat.min n (length (txt s) - cur s)) (length (txt s) - cur s) (cur s) s). lia. Qed.
Lemma span_le : forall p t, span p t <= length t.
Proof. intros p t. induction t as [|c t IH]; cbn; auto. destruct (p c); lia. Qed.
Lemma words_le : forall n t, words n t <= length t.
Proof.
  intros n. induction n as [|n IH]; intros t; cbn [words]; [ lia | ]. cbv zeta.
  pose proof (span_le is_mfs t). pose proof (span_le (fun c => negb (is_mfs c)) (skipn (span is_mfs t) t)). rewrite skipn_length in H0.
  match goal with |- context [words n ?x] => pose proof (IH x) as H1 end. rewrite skipn_length in H1. lia.
Qed.
Lemma del_back_ok : forall n s, inv s -> post (x_del_back n s).
Proof.
  intros n s I. unfold x_del_back. destruct (cur s =? 0); [ exact I | ]. pose proof (back_le n s) as B. pose proof (cur_le s I).
  destruct (goto_post (cur s - back_by n s) s I) as (-> & I'); [ lia | ]. cbn [then_]. apply delete_ok; [ exact I' | ]. cbn. lia.
Qed.
Lemma bword_ok : forall n s, inv s -> exists a s', x_bword n s = Ok (a, s') /\ inv s' /\ txt s' = txt s /\ cur s' + a = cur s /\
  (exists p, s' = with_txt (txt s) p s).
Proof.
  intros n s I. unfold x_bword. pose proof (cur_le s I). destruct (cur s =? 0).
  - exists 0, s. sp; auto. exists (cur s). destruct s. reflexivity.
  - pose proof (words_le n (rev (firstn (cur s) (txt s)))) as W. rewrite rev_length, firstn_length in W.
    set (a := words _ _) in *. destruct (goto_post (cur s - a) s I) as (-> & I'); [ lia | ]. cbn [then_].
    exists a. eexists. split; [ reflexivity | ]. split; [ exact I' | ]. cbn. sp; [ reflexivity | lia | eexists; reflexivity ].
Qed.
Lemma fword_le : forall n s, inv s -> cur s + x_fword n s <= length (txt s).
Proof. intros n s I. unfold x_fword. pose proof (words_le n (skipn (cur s) (txt s))) as W. rewrite skipn_length in W. pose proof (cur_le s I). lia. Qed.

Lemma find_char_le : forall c t i, find_char c t = Some i -> i <= length t.
Proof.
  intros c t. induction t as [|a t IH]; cbn; intros i H.
  - destruct (is_nul c); inversion H. auto.
  - destruct (ceq a c); [ inversion H; lia | ]. destruct (find_char c t); inversion H. subst. specialize (IH _ eq_refl). lia.
Qed.
Lemma chars_forw_le : forall n c t p q, chars_forw n c t p = Some q -> p <= length t -> q <= length t.
Proof.
  intros n. induction n as [|n IH]; intros c t p q H LE; cbn [chars_forw] in H; [ inversion H; subst; auto | ].
  cbv zeta in H. destruct (p =? length t) eqn:E.
  - destruct (find_char c t) eqn:F; [ | discriminate ]. eapply IH; eauto. eapply find_char_le; eauto.
  - apply Nat.eqb_neq in E. destruct (find_char c (skipn (S p) t)) eqn:F.
    + eapply IH; eauto. apply find_char_le in F. rewrite skipn_length in F. lia.
    + destruct (find_char c t) eqn:F'; [ | discriminate ]. eapply IH; eauto. eapply find_char_le; eauto.
Qed.
Lemma first_of_in : forall p l q, first_of p l = Some q -> In q l.
Proof. intros p l. induction l as [|i l IH]; cbn; intros q H; [ discriminate | ]. destruct (p i); [ inversion H; auto | right; auto ]. Qed.
Lemma chars_back_le : forall n c s p q, chars_back n c s p = Some q -> p <= length (txt s) -> q <= length (txt s).
Proof.
  intros n. induction n as [|n IH]; intros c s p q H LE; cbn [chars_back] in H; [ inversion H; subst; auto | ].
  destruct (first_of _ _) eqn:F in H; [ | discriminate ]. apply first_of_in in F. eapply IH; eauto.
  apply in_app_or in F. destruct F as [F|F]; apply in_rev, in_seq in F; lia.
Qed.
Lemma search_forw_ok : forall n s, inv s -> post (x_search_char_forw n s).
Proof.
  intros n s I. unfold x_search_char_forw. destruct (getc s) as (c, s') eqn:G. destruct (getc_shape _ _ _ G) as (m & i & ->).
  destruct n as [|n]; [ apply goto_ok; [ exact I | apply (cur_le s I) ] | ]. destruct (c <? 0)%Z; [ exact I | ].
  destruct (chars_forw _ _ _ _) eqn:C; [ | exact I ]. apply goto_ok; [ exact I | ]. eapply chars_forw_le; eauto. apply (cur_le s I).
Qed.
Lemma search_back_ok : forall n s, inv s -> post (x_search_char_back n s).
Proof.
  intros n s I. unfold x_search_char_back. destruct (getc s) as (c, s') eqn:G. destruct (getc_shape _ _ _ G) as (m & i & ->).
  destruct n as [|n]; [ apply goto_ok; [ exact I | apply (cur_le s I) ] | ]. destruct (c <? 0)%Z; [ exact I | ].
  destruct (chars_back _ _ _ _) eqn:C; [ | exact I ]. apply goto_ok; [ exact I | ]. eapply chars_back_le; eauto. apply (cur_le s I).
Qed.

(** ** The history *)
Lemma load_hist_inv : forall h s, inv s -> inv (load_hist e h s).
Proof.
  intros h s I. unfold load_hist. destruct ((h <? 0)%Z || (histptr e <? h)%Z) eqn:B; [ exact I | ].
  apply Bool.orb_false_iff in B. destruct B as (B1 & B2). apply Z.ltb_ge in B1. apply Z.ltb_ge in B2.
  assert (IN : In (nth (Z.to_nat h) (hist e) []) (hist e)) by (apply nth_In; unfold histptr in B2; lia).
  destruct (sn_hist _ SANE _ IN) as (N & _ & L). pose proof (sn_cap _ SANE).
  assert (I' : inv (with_txt (firstn (cap e - 1) (nth (Z.to_nat h) (hist e) [])) (length (firstn (cap e - 1) (nth (Z.to_nat h) (hist e) []))) s)).
  { apply inv_txt; auto. - rewrite firstn_length. lia. - apply nf_firstn. exact N. }
  destruct I' as (A & B & C). split; [ exact A | split; [ exact B | ] ]. cbn. lia.
Qed.
Lemma load_hist_txt : forall h s, (0 <= h <= histptr e)%Z ->
  txt (load_hist e h s) = nth (Z.to_nat h) (hist e) [] /\ histp (load_hist e h s) = h.
Proof.
  intros h s R. unfold load_hist. replace ((h <? 0)%Z || (histptr e <? h)%Z) with false by (symmetry; apply Bool.orb_false_iff; split; apply Z.ltb_ge; lia).
  cbn. split; auto. apply firstn_all2.
  assert (IN : In (nth (Z.to_nat h) (hist e) []) (hist e)) by (apply nth_In; unfold histptr in R; lia).
  destruct (sn_hist _ SANE _ IN) as (_ & _ & L). lia.
Qed.
Lemma prefix_len : forall p t, prefix p t = true -> length p <= length t.
Proof. intros p. induction p as [|a p IH]; intros [|b t] H; cbn in *; try lia; try discriminate. apply andb_true_iff in H. destruct H as (_ & H). apply IH in H. lia. Qed.
Lemma find_len : forall p t i, find p t = Some i -> i + length p <= length t.
Proof.
  intros p t. induction t as [|c t IH]; intros i H; cbn [find] in H.
  - destruct (prefix p []) eqn:P; [ | discriminate ]. inversion H. apply prefix_len in P. cbn in *. lia.
  - destruct (prefix p (c :: t)) eqn:P; [ inversion H; apply prefix_len in P; cbn in *; lia | ].
    destruct (find p t) eqn:F; [ | discriminate ]. inversion H. specialize (IH _ eq_refl). cbn. lia.
Qed.
Lemma match_len : forall t pat i, x_match t pat = Some i -> found_at i pat <= length t.
Proof.
  intros t pat i H. unfold x_match, found_at in *. destruct (caret pat) eqn:C.
  - destruct (prefix (tl pat) t) eqn:P; [ | discriminate ]. inversion H. apply prefix_len in P. destruct pat; cbn in *; lia.
  - apply find_len in H. lia.
Qed.
Lemma search_down_spec : forall pat h r i, search_down e pat h = Some (r, i) -> r < h /\ x_match (nth r (hist e) []) pat = Some i.
Proof.
  intros pat h. induction h as [|h IH]; cbn; intros r i H; [ discriminate | ].
  destruct (x_match (nth h (hist e) []) pat) eqn:M; [ inversion H; subst; auto | ]. apply IH in H. destruct H; auto.
Qed.
Lemma x_search_ok : forall pat same s, inv s -> (same = true -> histp s <= histptr e)%Z ->
  exists o s', x_search e pat same s = Ok (o, s') /\ inv s' /\ (histp s' <= histptr e)%Z /\ pending s' = pending s /\ unget s' = unget s.
Proof.
  intros pat same s I HS. unfold x_search.
  assert (F : ((if same then histp s else histp s - 1) <= histptr e)%Z) by (destruct same; [ auto | destruct I as (_ & _ & I); lia ]).
  replace (histptr e <? _)%Z with false by (symmetry; apply Z.ltb_ge; exact F).
  destruct (search_down e pat _) as [(h, i)|] eqn:D.
  - apply search_down_spec in D. destruct D as (D1 & D2).
    assert (R : (0 <= Z.of_nat h <= histptr e)%Z) by lia.
    destruct (load_hist_txt (Z.of_nat h) s R) as (T & P). rewrite Nat2Z.id in T. apply match_len in D2.
    destruct (goto_post (found_at i pat) (load_hist e (Z.of_nat h) s) (load_hist_inv _ _ I)) as (-> & I'); [ rewrite T; exact D2 | ].
    cbn [then_]. do 2 eexists. split; [ reflexivity | ]. split; [ exact I' | ]. cbn. rewrite P. split; [ lia | ].
    unfold pending, load_hist. destruct (_ || _); cbn; auto.
  - do 2 eexists. split; [ reflexivity | ]. split; [ | cbn; sp; auto; lia ]. destruct I as (A & B & C). split; [ exact A | split; [ exact B | cbn; lia ] ].
Qed.
Definition postf (f : nat) (s0 : ed) (r : res ed) : Prop := match r with Ok s => inv s | Err => f <= length (pending s0) | UB => False end.
Lemma search_hist_ok : forall f pat off s, inv s -> (pat <> [] \/ off <> None -> histp s <= histptr e)%Z ->
  postf f s (search_hist e f pat off s).
Proof.
  intros f. induction f as [|f IH]; intros pat off s I HP; [ cbn; lia | ]. cbn [search_hist].
  destruct (getc s) as (c, s') eqn:G. destruct (getc_shape _ _ _ G) as (m & i & ->). pose proof (getc_pending _ _ _ G) as P.
  destruct (c <? 0)%Z eqn:C0; [ exact I | ]. apply Z.ltb_ge in C0.
  assert (F' : forall r s1, pending s1 = pending (with_in None m i s) -> postf f s1 r -> postf (S f) s r).
  { intros r s1 E. unfold postf. destruct r; auto. rewrite E. destruct (pending s); destruct P as (P1 & P2); [ lia | rewrite P2; cbn [length]; lia ]. }
  cbv zeta. destruct ((c =? 27)%Z || (c =? 0)%Z); [ exact I | ].
  destruct (func_beq (find_hist_func e c) F_search_hist).
  { destruct (x_search_ok pat false (with_in None m i s) I) as (o & s2 & -> & I2 & H2 & P2 & _); [ discriminate | ]. cbn [then_ fst snd].
    apply (F' _ s2 P2). apply IH; auto. }
  destruct (func_beq (find_hist_func e c) F_del_back).
  { destruct pat as [|a pat]; [ exact I | ]. destruct (removelast (a :: pat)) eqn:RL.
    - apply (F' _ _ eq_refl). apply IH; [ exact I | intros [H|H]; congruence ].
    - destruct (x_search_ok (a0 :: l) true (with_in None m i s) I) as (o & s2 & -> & I2 & H2 & P2 & _).
      { intros _. apply HP. left. discriminate. }
      cbn [then_ fst snd]. apply (F' _ s2 P2). apply IH; auto. }
  destruct (func_beq (find_hist_func e c) F_insert); [ | exact I ].
  destruct (256 <=? length pat); [ apply (F' _ _ eq_refl); apply IH; [ exact I | exact HP ] | ].
  destruct off as [o|].
  - destruct (x_match (txt (with_in None m i s)) (pat ++ [to_char c])) eqn:M.
    + apply match_len in M. destruct (goto_post _ (with_in None m i s) I M) as (-> & I'). cbn [then_]. 
      apply (F' _ (with_txt (txt (with_in None m i s)) (found_at n (pat ++ [to_char c])) (with_in None m i s)) eq_refl). apply IH; [ exact I' | intros _; apply HP; right; discriminate ].
    + destruct (x_search_ok (pat ++ [to_char c]) false (with_in None m i s) I) as (o' & s2 & -> & I2 & H2 & P2 & _); [ discriminate | ].
      cbn [then_ fst snd]. apply (F' _ s2 P2). apply IH; auto.
  - destruct (x_search_ok (pat ++ [to_char c]) false (with_in None m i s) I) as (o' & s2 & -> & I2 & H2 & P2 & _); [ discriminate | ].
    cbn [then_ fst snd]. apply (F' _ s2 P2). apply IH; auto.
Qed.

(** ** Killing and yanking *)
Lemma kill_ok : forall n s, inv s -> post (x_kill n s).
Proof.
  intros n s I. unfold x_kill. pose proof (cur_le s I) as LE. set (a0 := match n with Some n => _ | None => _ end).
  assert (A0 : a0 <= length (txt s)) by (unfold a0; destruct n; lia). pose proof (more_forw_le (length (txt s)) a0 (length (txt s)) 0 s A0) as A.
  set (a := more_forw _ _ _ _ _) in *. cbv zeta. destruct (a <? cur s) eqn:L.
  - apply Nat.ltb_lt in L. destruct (goto_post a s I A) as (-> & I'). cbn [then_]. apply delete_ok; [ exact I' | cbn; lia ].
  - apply Nat.ltb_ge in L. apply delete_ok; [ exact I | lia ].
Qed.
Lemma inv_mark : forall m s, inv s -> inv (with_mark m s). Proof. intros m s I. exact I. Qed.
Lemma inv_ktp : forall i s, inv s -> i < 20 -> inv (with_ktp i s).
Proof. intros i s (W & (R1 & R2 & R3 & R4) & H) L. split; [ exact W | split; [ | exact H ] ]. unfold ring_ok. cbn. sp; auto. Qed.
Lemma kill_nf : forall s i t, inv s -> nth i (kills s) None = Some t -> no_nul t.
Proof.
  intros s i t (W & (R1 & R2 & R3 & R4) & H) E. apply R4. rewrite <- E. destruct (Nat.lt_ge_cases i (length (kills s))) as [L|L]; [ apply nth_In; exact L | ].
  rewrite nth_overflow in E by exact L. discriminate.
Qed.
Lemma yank_inv : forall s, inv s -> inv (x_yank e s).
Proof.
  intros s I. unfold x_yank. cbv zeta. set (i := (if ksp s =? 0 then KILLSIZE else ksp s) - 1).
  assert (Li : i < 20). { unfold i. destruct I as (_ & (_ & R2 & _) & _). destruct (ksp s =? 0); unfold KILLSIZE; lia. }
  assert (I' := inv_ktp i s I Li). destruct (nth i (kills (with_ktp i s)) None) eqn:N; [ | exact I' ].
  apply ins_inv; [ exact I' | ]. eapply kill_nf; eauto.
Qed.
Lemma older_some : forall f l i j t, older f l i = Some (j, t) -> j < 20 /\ nth j l None = Some t \/ (20 <= i /\ nth j l None = Some t).
Proof.
  intros f. induction f as [|f IH]; intros l i j t H; cbn [older] in H; [ discriminate | ]. cbv zeta in H.
  destruct (nth (prev_kill i) l None) eqn:N.
  - inversion H. subst. unfold prev_kill, KILLSIZE in *. destruct (i =? 0) eqn:Z; [ left; split; [ lia | exact N ] | ]. apply Nat.eqb_neq in Z.
    destruct (Nat.lt_ge_cases i 20); [ left; split; [ lia | exact N ] | right; split; [ lia | exact N ] ].
  - apply IH in H. destruct H as [H|(H & H')]; auto. unfold prev_kill, KILLSIZE in H. destruct (i =? 0) eqn:Z; [ lia | ]. right. split; [ lia | auto ].
Qed.
(** Going round meets the kill itself. *)
Lemma older_down : forall f l i, i < 20 -> older f l i = None -> (forall j, i - f <= j < i -> nth j l None = None) /\ (forall j, i < f -> 20 - (f - i) <= j < 20 -> nth j l None = None).
Proof.
  intros f. induction f as [|f IH]; intros l i Li H; [ split; intros; lia | ]. cbn [older] in H. cbv zeta in H.
  destruct (nth (prev_kill i) l None) eqn:N; [ discriminate | ]. unfold prev_kill, KILLSIZE in *. destruct (i =? 0) eqn:Z.
  - apply Nat.eqb_eq in Z. subst i. change (20 - 1) with 19 in *. apply IH in H; [ | lia ]. destruct H as (H1 & H2). split; intros; [ lia | ].
    destruct (Nat.eq_dec j 19) as [->|NE]; [ exact N | ]. apply H1. lia.
  - apply Nat.eqb_neq in Z. apply IH in H; [ | lia ]. destruct H as (H1 & H2). split; intros j; [ intros R | intros R1 R2 ].
    + destruct (Nat.eq_dec j (i - 1)) as [->|NE]; [ exact N | ]. apply H1. lia.
    + apply H2; lia.
Qed.
Lemma older_exists : forall l i t, i < 20 -> nth i l None = Some t -> older KILLSIZE l i <> None.
Proof.
  intros l i t Li N O. apply older_down in O; [ | exact Li ]. destruct O as (_ & O). specialize (O i). unfold KILLSIZE in O. rewrite O in N by lia. discriminate.
Qed.
Lemma meta_yank_ok : forall s, inv s -> ~ lost_yank s -> post (x_meta_yank e s).
Proof.
  intros s I NL_. unfold x_meta_yank.
  assert (D : post (Ok (with_ktp (ksp s) s))). { apply inv_ktp; [ exact I | ]. destruct I as (_ & (_ & R2 & _) & _). exact R2. }
  assert (G : forall t, nth (ktp s) (kills s) None = Some t -> (last_cmd s = Some F_yank \/ last_cmd s = Some F_meta_yank) ->
    post (if cur s <? length t then UB else do s0 <- goto (cur s - length t) s; do s1 <- delete (length t) false s0;
      match older KILLSIZE (kills s1) (ktp s1) with Some (i, t0) => Ok (ins e t0 (with_ktp i s1)) | None => Err end)).
  { intros t N LC. destruct (cur s <? length t) eqn:L.
    { apply NL_. split; [ exact LC | ]. exists t. split; [ exact N | apply Nat.ltb_lt; exact L ]. }
    apply Nat.ltb_ge in L. pose proof (cur_le s I). destruct (goto_post (cur s - length t) s I) as (-> & I'); [ lia | ]. cbn [then_].
    destruct (delete_post (length t) false _ I') as (s1 & -> & I1 & T1 & C1 & _ & _ & K1 & K2); [ cbn; lia | ]. cbn [then_]. destruct (K2 eq_refl) as (K3 & K4). cbn in K1, K3, K4.
    assert (KT : ktp s < 20) by (destruct I as (_ & (_ & _ & R3 & _) & _); exact R3).
    rewrite K1, K3. destruct (older KILLSIZE (kills s) (ktp s)) as [(j, u)|] eqn:O.
    - apply older_some in O. destruct O as [(J & O)|(O & _)]; [ | lia ]. apply ins_inv; [ apply inv_ktp; assumption | ]. exact (kill_nf s j u I O).
    - exact (older_exists _ _ _ KT N O). }
  destruct (last_cmd s) as [g|] eqn:LC; [ | exact D ].
  destruct g; try exact D; (destruct (nth (ktp s) (kills s) None) as [t|] eqn:N; [ | exact D ]); apply G; auto.
Qed.
Lemma kill_region_ok : forall s, inv s -> ~ stale_mark s -> post (x_kill_region s).
Proof.
  intros s I NS. unfold x_kill_region. destruct (mark s) as [m|] eqn:M; [ | exact I ]. pose proof (cur_le s I).
  assert (Lm : m <= length (txt s)). { destruct (Nat.le_gt_cases m (length (txt s))); auto. exfalso. apply NS. exists m. auto. }
  cbv zeta. destruct (goto_post (Nat.min m (cur s)) s I) as (-> & I'); [ lia | ]. cbn [then_].
  destruct (delete_post (Nat.max m (cur s) - Nat.min m (cur s)) true _ I') as (s1 & -> & I1 & _); [ cbn; lia | ]. exact I1.
Qed.
Lemma xchg_ok : forall s, inv s -> ~ stale_mark s -> post (x_xchg s).
Proof.
  intros s I NS. unfold x_xchg. destruct (mark s) as [m|] eqn:M; [ | exact I ]. apply goto_ok; [ exact I | ].
  destruct (Nat.le_gt_cases m (length (txt s))); auto. exfalso. apply NS. exists m. auto.
Qed.
Lemma del_line_inv : forall s, inv s -> inv (x_del_line s).
Proof.
  intros s I. unfold x_del_line. apply inv_mark, inv_txt; [ | cbn; lia | cbn; apply (sn_cap _ SANE) | constructor ]. apply push_inv.
  apply inv_txt; [ exact I | lia | exact (proj1 (proj2 (proj1 I))) | exact (proj2 (proj2 (proj1 I))) ].
Qed.

(** ** Other changes *)
Lemma swap_facts : forall i t, S i < length t -> length (swap i t) = length t /\ (no_nul t -> no_nul (swap i t)).
Proof.
  intros i t L. unfold swap. split.
  - rewrite app_length, firstn_length. cbn [length]. rewrite skipn_length. lia.
  - intros N. apply nf_app. split; [ apply nf_firstn; exact N | ]. constructor; [ | constructor ].
    + apply nf_in with (t := t); [ exact N | apply nth_In; exact L ].
    + apply nf_in with (t := t); [ exact N | apply nth_In; lia ].
    + apply nf_skipn. exact N.
Qed.
Lemma transpose_ok : forall s, inv s -> post (x_transpose e s).
Proof.
  intros s I. unfold x_transpose. pose proof (cur_le s I) as LE. destruct (cur s =? 0) eqn:Z; [ exact I | ]. apply Nat.eqb_neq in Z.
  destruct ((cur s =? length (txt s)) || gmacs e) eqn:G.
  - destruct (cur s =? 1) eqn:O; [ exact I | ]. apply Nat.eqb_neq in O. destruct (swap_facts (cur s - 2) (txt s)) as (A & B); [ lia | ].
    apply inv_txt; [ exact I | lia | rewrite A; exact (proj1 (proj2 (proj1 I))) | apply B; exact (proj2 (proj2 (proj1 I))) ].
  - apply Bool.orb_false_iff in G. destruct G as (G & _). apply Nat.eqb_neq in G. destruct (swap_facts (cur s - 1) (txt s)) as (A & B); [ lia | ].
    apply goto_ok; [ | cbn; lia ]. apply inv_txt; [ exact I | lia | rewrite A; exact (proj1 (proj2 (proj1 I))) | apply B; exact (proj2 (proj2 (proj1 I))) ].
Qed.
Lemma no_nul1 : forall c, is_nul c = false -> no_nul [c].
Proof. intros c H. constructor; [ | constructor ]. intros ->. discriminate. Qed.
Lemma escape_inv : forall s t st, inv st -> no_nul t -> no_nul s -> inv (snd (escape e t s st)).
Proof.
  intros s. induction s as [|c s IH]; intros t st I N1 N2; cbn [escape].
  - destruct t; [ exact I | ]. apply do_ins_inv; assumption.
  - inversion N2 as [|? ? NC NS]. subst. destruct (special e c).
    + pose proof (do_ins_inv t st I N1) as I1. destruct (do_ins e t st) as (ok, st1). cbn [snd] in I1. destruct ok; [ | exact I1 ].
      apply IH; [ | constructor | exact NS ]. apply do_ins_inv; [ apply do_ins_inv; [ exact I1 | apply no_nul1; reflexivity ] | constructor; [ exact NC | constructor ] ].
    + apply IH; auto. apply nf_app. split; auto. constructor; [ exact NC | constructor ].
Qed.
Lemma put_words_inv : forall l st, inv st -> (forall w, In w l -> no_nul w) -> inv (put_words e l st).
Proof.
  intros l. induction l as [|w l IH]; intros st I N; cbn [put_words]; [ exact I | ].
  pose proof (escape_inv w [] st I nf_nil (N w (or_introl eq_refl))) as I1. destruct (escape e [] w st) as (ok, st1). cbn [snd] in I1.
  destruct ok; [ | exact I1 ]. destruct l as [|w' l]; [ exact I1 | ].
  pose proof (do_ins_inv (L " ") st1 I1 (no_nul1 " "%char eq_refl)) as I2. destruct (do_ins e (L " ") st1) as (ok, st2). cbn [snd] in I2.
  destruct ok; [ | exact I2 ]. apply IH; auto. intros w0 W. apply N. right. exact W.
Qed.
Lemma expand_ok : forall s, inv s -> post (x_expand e s).
Proof.
  intros s I. unfold x_expand. destruct (glob e 1 (txt s) (cur s)) as [((a, b), l)|] eqn:G; [ | exact I ].
  destruct (sn_glob _ SANE _ _ _ _ _ _ G (cur_le s I)) as (AB & NE & W). destruct (goto_post a s I) as (-> & I'); [ lia | ]. cbn [then_].
  destruct (delete_post (b - a) false _ I') as (s1 & -> & I1 & _); [ cbn; lia | ]. cbn [then_]. apply put_words_inv; [ exact I1 | ]. intros w H. apply (W w H).
Qed.
Lemma complete_ok : forall f b s, inv s -> post (do_complete e f b s).
Proof.
  intros f ls s I. unfold do_complete. destruct (glob e f (txt s) (cur s)) as [((a, b), l)|] eqn:G; [ | exact I ].
  destruct ls; [ exact I | ]. destruct (sn_glob _ SANE _ _ _ _ _ _ G (cur_le s I)) as (AB & NE & W). cbv zeta.
  destruct l as [|w l]; [ congruence | ]. cbn [nth].
  assert (NW : no_nul w /\ w <> []) by (apply W; left; reflexivity).
  set (n := longest (w :: l)).
  assert (S1 : exists s1, (if (length (w :: l) =? 1) || (b - a <? n) then do s0 <- goto a s; do s0 <- delete (b - a) false s0; Ok (snd (escape e [] (firstn n w) s0)) else Ok s) = Ok s1 /\ inv s1).
  { destruct (_ || _); [ | exists s; auto ]. destruct (goto_post a s I) as (-> & I'); [ lia | ]. cbn [then_].
    destruct (delete_post (b - a) false _ I') as (s1 & -> & I1 & _); [ cbn; lia | ]. cbn [then_]. eexists. split; [ reflexivity | ].
    apply escape_inv; [ exact I1 | constructor | apply nf_firstn; apply NW ]. }
  destruct S1 as (s1 & -> & I1). cbn [then_]. destruct (length (w :: l) =? 1) eqn:O; [ | exact I1 ].
  apply Nat.eqb_eq in O. destruct l; [ | discriminate ]. assert (n = length w) by reflexivity.
  destruct (n =? 0) eqn:Z. { apply Nat.eqb_eq in Z. destruct w; [ exact (proj2 NW eq_refl) | cbn in *; lia ]. }
  destruct (ceq _ _); [ exact I1 | ]. apply ins_inv; [ exact I1 | apply no_nul1; reflexivity ].
Qed.
Lemma digit_iff : forall c, digit c = true <-> (48 <= c <= 57)%Z.
Proof. intros c. unfold digit. rewrite andb_true_iff, !Z.leb_le. tauto. Qed.
Lemma set_arg_ok : forall f first n c s, inv s -> (0 <= n)%Z ->
  (forall d z, pending s = d ++ z -> digits (c :: d) -> (fold_left (fun n c => n * 10 + (c - 48)) (c :: d) n <= INT_MAX)%Z) ->
  match set_arg f first n c s with
  | Ok (a, s') => inv s'
  | Err => f <= length (pending s)
  | UB => False
  end.
Proof.
  intros f. induction f as [|f IH]; intros first n c s I N H; cbn [set_arg].
  - destruct ((0 <=? c)%Z && digit c) eqn:D.
    + apply andb_true_iff in D. destruct D as (_ & D). apply digit_iff in D. specialize (H [] (pending s) eq_refl). cbn [fold_left] in H.
      replace (INT_MAX <? _)%Z with false; [ lia | ]. symmetry. apply Z.ltb_ge. apply H. intros x [<-|[]]. exact D.
    + destruct (_ || _); exact I.
  - destruct ((0 <=? c)%Z && digit c) eqn:D; [ | destruct (_ || _); exact I ].
    apply andb_true_iff in D. destruct D as (_ & D). apply digit_iff in D.
    replace (INT_MAX <? _)%Z with false.
    2: { symmetry. apply Z.ltb_ge. apply (H [] (pending s) eq_refl). intros x [<-|[]]. exact D. }
    destruct (getc s) as (c', s') eqn:G. destruct (getc_shape _ _ _ G) as (m & i & ->). pose proof (getc_pending _ _ _ G) as P.
    specialize (IH false (n * 10 + (c - 48))%Z c' (with_in None m i s) I ltac:(lia)).
    destruct (pending s) as [|x l] eqn:PE; destruct P as (-> & P2); rewrite P2 in IH.
    + destruct f; exact I.
    + assert (IH' := IH ltac:(intros d z E Dd; apply (H (x :: d) z ltac:(rewrite E; reflexivity)); intros y [<-|Y]; [ exact D | apply Dd; exact Y ])).
      destruct (set_arg f false _ _ _) as [(a, s2)| |]; auto; cbn [length] in *; lia.
Qed.
Lemma uncomment_facts : forall nl t, length (uncomment nl t) <= length t /\ (no_nul t -> no_nul (uncomment nl t)).
Proof.
  intros nl t. revert nl. induction t as [|c t IH]; intros nl; cbn [uncomment]; [ auto | ]. destruct (nl && ceq c "#").
  - destruct (IH (ceq c NL)) as (A & B). split; [ cbn [length]; lia | ]. intros H. inversion H. auto.
  - destruct (IH (ceq c NL)) as (A & B). split; [ cbn [length]; lia | ]. intros H. inversion H. constructor; [ assumption | apply B; assumption ].
Qed.
Lemma comment_nf : forall t, no_nul t -> no_nul (comment t).
Proof.
  intros t H. induction H as [|c t N H IH]; cbn [comment]; [ constructor | ]. destruct (ceq c NL); constructor; auto. constructor; auto. discriminate.
Qed.
(** What is left when a command is done *)
Definition postr (f : nat) (s0 : ed) (r : res (ret * ed)) : Prop :=
  match r with
  | Ok (KEOL, s) => length (txt s) <= cap e /\ no_nul (txt s) /\ ring_ok (kills s) (ksp s) (ktp s)
  | Ok (_, s) => inv s
  | Err => f <= length (pending s0)
  | UB => False
  end.
Lemma newline_ok : forall f s0 s, inv s -> postr f s0 (x_newline e s).
Proof.
  intros f s0 s I. destruct I as ((A & B & C) & R & H). unfold x_newline. replace (cap e <=? length (txt s)) with false by (symmetry; apply Nat.leb_gt; exact B).
  cbn. rewrite app_length. cbn. split; [ lia | split; [ | exact R ] ]. apply nf_app. split; auto. constructor; [ discriminate | constructor ].
Qed.
Lemma comment_ok : forall f s0 s, inv s -> postr f s0 (x_comment e s).
Proof.
  intros f s0 s I. unfold x_comment. destruct (txt s) as [|c t] eqn:T; [ apply newline_ok; exact I | ].
  assert (I' := I). destruct I' as ((A & B & C) & _). rewrite T in B, C. cbn [length] in B. destruct (ceq c "#").
  - destruct (uncomment_facts false t) as (U1 & U2). apply inv_txt; [ exact I | lia | lia | apply U2; inversion C; auto ].
  - destruct (cap e <=? _) eqn:L; [ exact I | ]. apply Nat.leb_gt in L. apply newline_ok. apply inv_txt; [ exact I | lia | exact L | ].
    constructor; [ discriminate | apply comment_nf; exact C ].
Qed.
Lemma nth_word_nf : forall n t, no_nul t -> no_nul (nth_word n t).
Proof.
  intros n. induction n as [|n IH]; intros t H; cbn [nth_word]; [ apply nf_firstn; exact H | ]. destruct n; [ apply nf_firstn; exact H | ].
  apply IH. apply nf_skipn, nf_skipn. exact H.
Qed.
Lemma last_in : forall (l : list cstr) d, l <> [] -> In (last l d) l.
Proof. intros l d. induction l as [|a l IH]; [ congruence | ]. intros _. destruct l; [ left; reflexivity | right; apply IH; discriminate ]. Qed.
Lemma prev_histword_ok : forall n s, inv s -> hist e <> [] -> post (x_prev_histword e n s).
Proof.
  intros n s I H. unfold x_prev_histword. destruct (hist e) as [|h hs] eqn:HE; [ congruence | ].
  assert (IN : In (last (h :: hs) []) (hist e)) by (rewrite HE; apply last_in; discriminate).
  destruct (sn_hist _ SANE _ IN) as (N & NE & _). set (t := last (h :: hs) []) in *. destruct n as [n|].
  - apply ins_inv; [ exact I | apply nth_word_nf, nf_skipn; exact N ].
  - destruct t as [|c t]; [ congruence | ]. set (u := c :: t) in *. cbv zeta. apply ins_inv; [ exact I | ]. unfold last_word_c. destruct (forallb is_cfs u); [ apply nf_skipn; exact N | ].
    cbv zeta. apply nf_app. split; [ | apply nf_skipn; exact N ]. unfold last_word. apply nf_rev, nf_firstn, nf_skipn, nf_rev. exact N.
Qed.
Lemma fold1_nf : forall (u : bool) c, c <> NUL -> (if u then upper c else lower c) <> NUL.
Proof.
  intros u c H E. pose proof (char_sweep (fun c => implb (negb (is_nul c)) (negb (is_nul (upper c)) && negb (is_nul (lower c)))) eq_refl c) as S.
  destruct (is_nul c) eqn:Nc; [ apply H; unfold is_nul in Nc; apply ceq_true; exact Nc | ]. cbv beta in S. rewrite Nc in S. cbn [negb implb] in S. apply andb_true_iff in S. destruct S as (S1 & S2).
  destruct u; rewrite E in *; discriminate.
Qed.
Lemma fold_words_facts : forall n u1 u2 t x y, fold_words n u1 u2 t = (x, y) -> length x + length y = length t /\ (no_nul t -> no_nul x /\ no_nul y).
Proof.
  intros n. induction n as [|n IH]; intros u1 u2 t x y H; cbn [fold_words] in H.
  - inversion H. subst. split; [ reflexivity | ]. intros N. split; [ constructor | exact N ].
  - cbv zeta in H. destruct (skipn (span is_mfs t) t) as [|c r] eqn:K.
    + inversion H. subst. split; [ cbn; lia | ]. intros N. split; [ exact N | constructor ].
    + destruct (fold_words n u1 u2 (skipn (span (fun c => negb (is_mfs c)) r) r)) as (x', y') eqn:F. inversion H. subst. apply IH in F. destruct F as (F1 & F2).
      set (b := span _ r) in *. set (a := span is_mfs t) in *. pose proof (span_le (fun c => negb (is_mfs c)) r) as B. fold b in B. rewrite skipn_length in F1.
      assert (LT : length t = a + S (length r)). { pose proof (span_le is_mfs t) as SA. fold a in SA. apply (f_equal (@length char)) in K. rewrite skipn_length in K. cbn in K. lia. }
      split.
      * rewrite app_length. cbn [length]. rewrite app_length, map_length, !firstn_length. lia.
      * intros N. assert (NK : no_nul (c :: r)) by (rewrite <- K; apply nf_skipn; exact N). inversion NK as [|? ? NC NR]. subst.
        destruct (F2 (nf_skipn b r NR)) as (X & Y). split; [ | exact Y ]. apply nf_app. split; [ apply nf_firstn; exact N | ]. constructor; [ apply fold1_nf; exact NC | ].
        apply nf_app. split; [ | exact X ]. apply Forall_map. apply Forall_impl with (2 := nf_firstn b r NR). intros z. apply fold1_nf.
Qed.
Lemma fold_ok : forall n u1 u2 s, inv s -> post (x_fold n u1 u2 s).
Proof.
  intros n u1 u2 s I. unfold x_fold. destruct (cur s =? length (txt s)); [ exact I | ]. pose proof (cur_le s I) as LE.
  destruct (fold_words n u1 u2 (skipn (cur s) (txt s))) as (x, y) eqn:F. apply fold_words_facts in F. destruct F as (F1 & F2). rewrite skipn_length in F1.
  assert (I' := I). destruct I' as ((A & B & C) & _). destruct (F2 (nf_skipn _ _ C)) as (X & Y).
  assert (LL : length (firstn (cur s) (txt s) ++ x ++ y) = length (txt s)) by (rewrite !app_length, firstn_length; lia).
  apply goto_ok; [ | cbn; lia ]. apply inv_txt; [ exact I | lia | lia | ]. apply nf_app. split; [ apply nf_firstn; exact C | apply nf_app; auto ].
Qed.
Lemma insert_inv : forall n c s, inv s -> inv (x_insert e n c s).
Proof. intros n c s I. unfold x_insert. destruct (is_nul c) eqn:N; [ exact I | ]. apply times_inv; [ | exact I ]. intros s' I'. apply ins_inv; [ exact I' | apply no_nul1; exact N ]. Qed.
Lemma std_ok : forall f s0 r, post r -> postr f s0 (std r).
Proof. intros f s0 [s| |] H; cbn in *; auto; contradiction. Qed.
Lemma std_okf : forall f s0 r, postf f s0 r -> postr f s0 (std r).
Proof. intros f s0 [s| |] H; cbn in *; auto. Qed.

(** A command starts in a state without traps. *)
Lemma run_ok : forall f g c a s, inv s -> ~ stale_mark s -> ~ lost_yank s ->
  (forall d z, pending s = d ++ z -> digits (schar c :: d) -> (number (schar c :: d) <= INT_MAX)%Z) ->
  (hist e = [] -> g <> F_prev_histword) -> postr f s (run e f g c a s).
Proof.
  intros f g c a s I NS NY NN HW. pose proof (cur_le s I) as LE. unfold run. cbv zeta. set (n := match a with Some n => n | None => 1 end).
  destruct g; try (apply std_okf; apply search_hist_ok; [ exact I | intros [H|H]; congruence ]); try (apply std_ok); try exact I; try (apply load_hist_inv; exact I); try (apply complete_ok; exact I); try (apply fold_ok; exact I);
    try (apply goto_ok; [ exact I | lia ]); try (apply insert_inv; exact I).
  - (* abort *) apply inv_txt; [ exact I | cbn; lia | cbn; apply (sn_cap _ SANE) | constructor ].
  - apply del_back_ok; exact I.
  - destruct (bword_ok n s I) as (k & s' & -> & I' & T & C & _). cbn [then_ fst snd]. apply delete_ok; [ exact I' | rewrite T; lia ].
  - unfold x_del_char. destruct (_ =? _); [ exact I | ]. apply delete_ok; [ exact I | apply forw_le; exact LE ].
  - apply delete_ok; [ exact I | apply fword_le; exact I ].
  - apply del_line_inv; exact I.
  - (* end of text *) destruct I as ((A & B & C) & R & _). cbn. sp; auto. lia.
  - destruct (_ && _). { destruct I as ((A & B & C) & R & _). cbn. sp; auto. lia. }
    apply std_ok. unfold x_del_char. destruct (_ =? _); [ exact I | ]. apply delete_ok; [ exact I | apply forw_le; exact LE ].
  - apply kill_ok; exact I.
  - apply kill_region_ok; assumption.
  - apply meta_yank_ok; assumption.
  - unfold x_mv_back. destruct (_ =? _); [ exact I | ]. apply goto_ok; [ exact I | lia ].
  - destruct (bword_ok n s I) as (k & s' & -> & I' & _). exact I'.
  - unfold x_mv_forw. destruct (_ =? _); [ exact I | ]. apply goto_ok; [ exact I | apply forw_le; exact LE ].
  - apply goto_ok; [ exact I | apply fword_le; exact I ].
  - apply newline_ok; exact I.
  - apply newline_ok; exact I.
  - apply prev_histword_ok; [ exact I | ]. intros HE. apply (HW HE). reflexivity.
  - apply search_forw_ok; exact I.
  - apply search_back_ok; exact I.
  - apply transpose_ok; exact I.
  - apply xchg_ok; assumption.
  - apply yank_inv; exact I.
  - apply expand_ok; exact I.
  - pose proof (set_arg_ok f true 0 (schar c) s I ltac:(lia) NN) as H. destruct (set_arg f true 0 (schar c) s) as [(k, s')| |]; cbn; auto.
  - apply comment_ok; exact I.
Qed.

(** ** The keys of a command *)
Definition suffix (a b : list Z) : Prop := exists c, b = c ++ a.
Lemma suffix_refl : forall a, suffix a a. Proof. intros a. exists []. reflexivity. Qed.
Lemma suffix_trans : forall a b c, suffix a b -> suffix b c -> suffix a c.
Proof. intros a b c (x & ->) (y & ->). exists (y ++ x). rewrite app_assoc. reflexivity. Qed.
Lemma getc_suffix : forall s c s', getc s = (c, s') -> suffix (pending s') (pending s) /\ ((0 <= c)%Z -> pending s = c :: pending s').
Proof.
  intros s c s' G. pose proof (getc_pending _ _ _ G) as P. destruct (pending s) as [|x l]; destruct P as (-> & ->).
  - split; [ apply suffix_refl | lia ].
  - split; [ exists [x]; reflexivity | reflexivity ].
Qed.
Lemma conts_suffix : forall c n s r s', conts c n s = (r, s') -> suffix (pending s') (pending s).
Proof.
  intros c n. induction n as [|n IH]; intros s r s' E; cbn [conts] in E.
  - inversion E. apply suffix_refl.
  - destruct n as [|n']; [ inversion E; apply suffix_refl | ]. destruct (getc s) as (cc, s1) eqn:G. destruct (getc_suffix _ _ _ G) as (S1 & S2).
    destruct (cc =? -1)%Z; [ inversion E; subst; exact S1 | ]. destruct (_ || _).
    + inversion E. subst. destruct (getc_shape _ _ _ G) as (m & i & ->). rewrite unget_pending by reflexivity. destruct (cc <? 0)%Z eqn:N; [ exact S1 | ].
      apply Z.ltb_ge in N. rewrite (S2 N). apply suffix_refl.
    + destruct (conts c (S n') s1) as (r', s2) eqn:C. inversion E. subst. apply IH in C. eapply suffix_trans; eauto.
Qed.
Lemma getu8_suffix : forall s r s', getu8 s = (r, s') -> suffix (pending s') (pending s).
Proof.
  intros s r s' E. unfold getu8 in E. destruct (getc s) as (c, s1) eqn:G. destruct (getc_suffix _ _ _ G) as (S1 & _).
  destruct (c =? -1)%Z; [ inversion E; subst; exact S1 | ]. destruct (conts _ _ _) as (q, s2) eqn:C in E. inversion E. subst. apply conts_suffix in C. eapply suffix_trans; eauto.
Qed.
Lemma prefix_iff : forall a b, prefix a b = true <-> is_prefix a b.
Proof.
  intros a. induction a as [|x a IH]; intros b; cbn; [ split; auto; intros _; exists b; reflexivity | ]. destruct b as [|y b].
  - split; [ discriminate | intros (c & H); discriminate ].
  - rewrite andb_true_iff, IH. split.
    + intros (E & (c & ->)). apply ceq_true in E. subst. exists c. reflexivity.
    + intros (c & H). cbn in H. inversion H. subst. split; [ apply ceq_refl | exists c; reflexivity ].
Qed.
Lemma look_spec : forall l ks n m k0 r, look l ks n m = (k0, r) ->
  (n <= k0) /\ (n < k0 -> exists k, In k ks /\ length l <= length (seq_of k)) /\ (r = m \/ exists k, r = Some k /\ In k ks /\ seq_of k = l).
Proof.
  intros l ks. induction ks as [|k ks IH]; intros n m k0 r H; cbn [look] in H.
  - inversion H. subst. sp; auto. lia.
  - destruct (length (seq_of k) <? length l) eqn:L.
    { apply IH in H. destruct H as (A & B & C). sp; auto. - intros Q. destruct (B Q) as (k' & B1 & B2). exists k'. cbn; auto.
      - destruct C as [C|(k' & C1 & C2 & C3)]; auto. right. exists k'. cbn; auto. }
    apply Nat.ltb_ge in L. destruct (prefix l (seq_of k)) eqn:P.
    + cbv zeta in H. set (m' := if length (seq_of k) =? length l then Some k else m) in H.
      assert (M : m' = m \/ exists k', m' = Some k' /\ In k' (k :: ks) /\ seq_of k' = l).
      { unfold m'. destruct (length (seq_of k) =? length l) eqn:EL; auto. right. exists k. sp; cbn; auto. apply Nat.eqb_eq in EL. apply prefix_iff in P. destruct P as (c & P).
        rewrite P in EL. rewrite app_length in EL. destruct c; [ rewrite app_nil_r in P; exact P | cbn in EL; lia ]. }
      destruct (1 <=? n).
      * inversion H. subst. sp; auto. intros _. exists k. cbn; auto.
      * apply IH in H. destruct H as (A & B & C). sp; [ lia | intros _; exists k; cbn; auto | ].
        destruct C as [->|(k' & C1 & C2 & C3)]; auto. right. exists k'. cbn; auto.
    + apply IH in H. destruct H as (A & B & C). sp; auto. * intros Q. destruct (B Q) as (k' & B1 & B2). exists k'. cbn; auto.
      * destruct C as [C|(k' & C1 & C2 & C3)]; auto. right. exists k'. cbn; auto.
Qed.
Definition postt (f : nat) (s0 : ed) (r : res turn) : Prop :=
  match r with
  | Ok (TGo s) | Ok (TIntr s) | Ok (TEof s) => inv s
  | Ok (TLine t s) => length t <= cap e /\ no_nul t /\ ring_ok (kills s) (ksp s) (ktp s)
  | Err => f <= length (pending s0)
  | UB => False
  end.
Lemma after_ok : forall f s0 g k r, postr f s0 r -> postt f s0 (do r <- r ; Ok (after g k r)).
Proof.
  intros f s0 g k [(r, s)| |] H; cbn in *; auto. unfold after. cbn [fst snd]. destruct r; auto. destruct k; exact H.
Qed.
Lemma goes_on_nf : forall t, Forall goes_on t -> no_nul t.
Proof. intros t H. apply Forall_impl with (2 := H). intros c G E. subst. unfold goes_on in G. cbn in G. lia. Qed.
Lemma key_ok : forall f l n s s0, inv s -> suffix (pending s) (pending s0) -> ~ stale_mark s -> ~ lost_yank s -> ~ long_number s0 ->
  length l + 4 <= line_max e -> (n = 0 -> l = []) -> postt f s (key e f l n s).
Proof.
  intros f. induction f as [|f IH]; intros l n s s0 I SU NS NY NL_ LM N0; [ cbn; lia | ]. cbn [key].
  destruct (getu8 s) as (r, s1) eqn:G. pose proof (getu8_suffix _ _ _ G) as S1. destruct (getu8_shape _ _ _ G) as ((u & m & i & ->) & SH).
  destruct r as [b|]; [ | exact I ]. destruct SH as (PL & BL & BG).
  replace (line_max e <? length (l ++ b)) with false by (symmetry; apply Nat.ltb_ge; rewrite app_length; lia).
  cbv zeta. set (s1 := with_in u m i s) in *.
  assert (PT : forall r, postt (S f) s1 r -> postt (S f) s r) by (intros [[]| |]; unfold postt; auto; lia).
  assert (PLAIN : forall s', inv s' -> n = 0 -> inv (match b with [c] => x_insert e (match arg s' with Some n => n | None => 1 end) c s' | _ => ins e (l ++ b) s' end)).
  { intros s' I' Z. rewrite (N0 Z). destruct b as [|c b]; [ cbn in BL; lia | ]. destruct b as [|d b]; [ apply insert_inv; exact I' | ].
    apply ins_inv; [ exact I' | ]. cbn [tl] in BG. constructor; [ | apply goes_on_nf; exact BG ].
    intros ->. clear - G. (* a NUL begins no longer character *)
    unfold getu8 in G. destruct (getc s) as (c, s2). destruct (c =? -1)%Z; [ discriminate | ].
    match type of G with (let (_, _) := conts c ?x _ in _) = _ => set (k := x) in G end.
    destruct (conts c k s2) as (q, s3) eqn:C. inversion G as [[E1 E2 E3]].
    assert (K : k = 1).
    { assert (Z.land c 255 = 0)%Z.
      { unfold to_char in E1. assert (R : (0 <= c mod 256 < 256)%Z) by (apply Z.mod_pos_bound; lia).
        apply (f_equal nat_of_ascii) in E1. rewrite nat_ascii_embedding in E1 by lia. cbn in E1. change 255%Z with (Z.ones 8). rewrite Z.land_ones by lia. change (2 ^ 8)%Z with 256%Z. lia. }
      unfold k. replace 248%Z with (Z.land 255 248) by reflexivity. replace 240%Z with (Z.land 255 240) by reflexivity. replace 224%Z with (Z.land 255 224) at 1 3 by reflexivity.
      rewrite !Z.land_assoc. 
      replace 224%Z with (Z.land 255 224) by reflexivity. rewrite ?Z.land_assoc, H. reflexivity. }
    rewrite K in C. cbn in C. inversion C. subst. discriminate. }
  destruct (lit s1).
  { apply (after_ok (S f) s (last_cmd s1) false (Ok (KSTD, _))). cbn. destruct (n =? 0) eqn:Z; [ apply (PLAIN (with_lit false s1)); [ exact I | apply Nat.eqb_eq; exact Z ] | exact I ]. }
  destruct (look (l ++ b) (keys e) 0 None) as (k0, km) eqn:LK. apply look_spec in LK. destruct LK as (_ & LK1 & LK2).
  assert (REC : 0 < k0 -> postt (S f) s (key e f (l ++ b) (S n) s1)).
  { intros K. destruct (LK1 K) as (k & IK & LE). pose proof (sn_keys _ SANE k IK).
    assert (Q : postt f s1 (key e f (l ++ b) (S n) s1)).
    { apply IH with (s0 := s0); auto; try exact I; [ eapply suffix_trans; eauto | lia | discriminate ]. }
    destruct (key e f (l ++ b) (S n) s1) as [[]| |]; unfold postt in *; auto; lia. }
  destruct k0 as [|[|k0]].
  - apply (after_ok (S f) s None false (Ok (KSTD, _))). cbn. destruct (n =? 0) eqn:Z; [ apply (PLAIN s1); [ exact I | apply Nat.eqb_eq; exact Z ] | exact I ].
  - destruct km as [k|]; [ | apply REC; lia ]. destruct LK2 as [LK2|(k' & E & IK & SQ)]; [ discriminate | ]. inversion E. subst k'.
    assert (RUN : forall g, g = fn k -> postt (S f) s (do r <- run e (S f) g (last (l ++ b) NUL) (arg s1) s1 ; Ok (after (Some g) (func_beq g F_set_arg) r))).
    { intros g Eg. apply PT. apply after_ok. apply run_ok; [ exact I | exact NS | exact NY | | ].
      - intros d z Ed Dd. destruct (Z.le_gt_cases (number (schar (last (l ++ b) NUL) :: d)) INT_MAX) as [LE|GT]; auto. exfalso. apply NL_.
        assert (SS : suffix (pending s1) (pending s0)) by (eapply suffix_trans; eauto). destruct SS as (a & SS). rewrite Ed in SS.
        exists (schar (last (l ++ b) NUL)), a, d, z. auto.
      - intros HE. rewrite Eg. apply (sn_word _ SANE HE k IK). }
    destruct (fn k) eqn:FK; try (apply RUN; reflexivity). destruct (args k); [ | apply RUN; reflexivity ]. destruct (macro s1); [ apply RUN; reflexivity | ]. exact I.
  - apply REC. lia.
Qed.
Lemma key_safe : forall f s, inv s -> ~ trap s -> postt f s (key e f [] 0 s).
Proof.
  intros f s I T. apply key_ok with (s0 := s); auto; try (intros H; apply T; unfold trap; tauto). - apply suffix_refl. - cbn. apply (sn_four _ SANE).
Qed.
Lemma edit_reach : forall f g s s', edit e f g s = Ok (TGo s') -> forall g2, edit e f (g + g2) s = edit e f g2 s'.
Proof.
  intros f g. induction g as [|g IH]; intros s s' H g2; cbn in *; [ inversion H; reflexivity | ].
  destruct (key e f [] 0 s) as [[]| |]; cbn in *; try discriminate. apply IH. exact H.
Qed.
Lemma edit_safe : forall f g s, inv s -> (forall g' s', g' < g -> edit e f g' s = Ok (TGo s') -> ~ trap s') ->
  match edit e f g s with
  | Err => exists g' s', g' < g /\ edit e f g' s = Ok (TGo s') /\ f <= length (pending s')
  | r => postt f s r
  end.
Proof.
  intros f g. induction g as [|g IH]; intros s I T; [ exact I | ]. cbn [edit].
  pose proof (key_safe f s I (T 0 s ltac:(lia) eq_refl)) as K. destruct (key e f [] 0 s) as [t| |] eqn:KE; cbn [then_].
  - destruct t as [s1|t s1|s1|s1]; try exact K.
    assert (IH' := IH s1 K ltac:(intros g' s' L E; apply (T (S g') s'); [ lia | cbn [edit]; rewrite KE; exact E ])).
    destruct (edit e f g s1) as [t| |]; auto. destruct IH' as (g' & s' & L & E & F). exists (S g'), s'. sp; [ lia | cbn [edit]; rewrite KE; exact E | exact F ].
  - exists 0, s. sp; [ lia | reflexivity | exact K ].
  - exact K.
Qed.
Lemma start_inv : forall ks sp_ tp nx u m i, ring_ok ks sp_ tp -> inv (start e ks sp_ tp nx u m i).
Proof.
  intros ks sp_ tp nx u m i R.
  assert (I : inv (Ed [] 0 None ks sp_ tp None None false (histptr e + 1) (-1) u m i)).
  { split; [ | split; [ exact R | cbn; lia ] ]. unfold within. cbn. sp; [ lia | apply (sn_cap _ SANE) | constructor ]. }
  unfold start. cbv zeta. destruct (0 <=? nx)%Z; [ | exact I ]. destruct (_ <=? _)%Z; [ | exact I ]. apply load_hist_inv. exact I.
Qed.
End Safe.
