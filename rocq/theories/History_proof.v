(** Proofs about the history. *)
From Verif Require Import Base Num_model History_model History_spec.
Local Open Scope nat_scope.

(** * Cells *)
Lemma NoDup_app_snoc {A} (l : list A) x : NoDup l -> ~ In x l -> NoDup (l ++ [x]).
Proof.
  induction l as [|a l IH]; cbn; intros N H; [constructor; [intros []|constructor]|]. inversion N; subst. constructor.
  - rewrite in_app_iff. intros [X|[X|[]]]; [auto|subst; apply H; left; reflexivity].
  - apply IH; auto.
Qed.
Lemma set_at_length {A} i (x : A) l : i < length l -> length (set_at i x l) = length l.
Proof. intros H. unfold set_at. rewrite app_length, firstn_length. cbn [length]. rewrite skipn_length. lia. Qed.
Lemma set_at_nth {A} i (x : A) l k : i < length l ->
  nth_error (set_at i x l) k = if Nat.eqb k i then Some x else nth_error l k.
Proof.
  intros H. unfold set_at. assert (Lf : length (firstn i l) = i) by (rewrite firstn_length; lia).
  destruct (Nat.eqb_spec k i) as [->|N].
  - rewrite nth_error_app2 by lia. rewrite Lf, Nat.sub_diag. reflexivity.
  - destruct (Nat.lt_ge_cases k i).
    + rewrite nth_error_app1 by lia. rewrite <- (firstn_skipn i l) at 2. rewrite nth_error_app1 by lia. reflexivity.
    + rewrite nth_error_app2 by lia. rewrite Lf. destruct (k - i) as [|m] eqn:E; [lia|]. cbn [nth_error].
      rewrite <- (firstn_skipn (S i) l) at 2.
      assert (Lg : length (firstn (S i) l) = S i) by (rewrite firstn_length; lia).
      rewrite nth_error_app2 by lia. rewrite Lg. f_equal. lia.
Qed.
Lemma set_at_split {A} (a : list A) y b x : set_at (length a) x (a ++ y :: b) = a ++ x :: b.
Proof.
  unfold set_at. rewrite firstn_app, Nat.sub_diag, firstn_all. cbn [firstn]. rewrite app_nil_r. f_equal. f_equal.
  rewrite skipn_app. rewrite skipn_all2 by lia. cbn [app]. replace (S (length a) - length a) with 1 by lia. reflexivity.
Qed.

(** The first [cnt] cells hold the distinct live strings [ids]; nothing else is live. *)
Record HI (s : hst) (l : list cstr) (ids : list nat) (rest : list (option nat)) : Prop := {
  hi_vec : vec s = map Some ids ++ rest;
  hi_cnt : cnt s = length ids;
  hi_nd : NoDup ids;
  hi_live : Forall2 (fun k c => nth_error (heap s) k = Some (Some c)) ids l;
  hi_leak : forall k c, nth_error (heap s) k = Some (Some c) -> In k ids }.

Lemma afree_cell_ok s i k c : nth_error (vec s) i = Some (Some k) -> nth_error (heap s) k = Some (Some c) ->
  afree_cell i s = Some (Hst (vec s) (cnt s) (set_at k None (heap s)) (dups s) (space s)).
Proof. intros A B. unfold afree_cell, cell, History_model.live. rewrite A, B. reflexivity. Qed.

Lemma afree_cells_ok : forall xs a v cn hp d sp pre post, v = map Some pre ++ map Some xs ++ post -> a = length pre ->
  NoDup xs -> (forall k, In k xs -> exists c, nth_error hp k = Some (Some c)) ->
  exists h', afree_cells a (length xs) (Hst v cn hp d sp) = Some (Hst v cn h' d sp)
    /\ length h' = length hp /\ (forall k, In k xs -> nth_error h' k = Some None)
    /\ (forall k, ~ In k xs -> nth_error h' k = nth_error hp k).
Proof.
  induction xs as [|x xs IH]; intros a v cn hp d sp pre post E Ea N Lv.
  - exists hp. cbn. split; [reflexivity|]. split; [reflexivity|]. split; [intros k []|auto].
  - destruct (Lv x (or_introl eq_refl)) as [c Hc].
    assert (NV : nth_error v a = Some (Some x)).
    { rewrite E, Ea. rewrite nth_error_app2; rewrite map_length; [|lia]. rewrite Nat.sub_diag. reflexivity. }
    cbn [length afree_cells]. rewrite (afree_cell_ok (Hst v cn hp d sp) a x c NV Hc). cbn [vec cnt heap dups space].
    assert (Lx : x < length hp) by (apply nth_error_Some; congruence).
    inversion N; subst x0 l.
    destruct (IH (S a) v cn (set_at x None hp) d sp (pre ++ [x]) post) as [h' [H1' [H2' [H3' H4']]]].
    + rewrite E. rewrite map_app, <- app_assoc. reflexivity.
    + rewrite app_length. cbn. lia.
    + assumption.
    + intros k Hk. rewrite set_at_nth by exact Lx. destruct (Nat.eqb_spec k x) as [->|]; [contradiction|]. apply Lv. right. exact Hk.
    + exists h'. split; [exact H1'|]. rewrite set_at_length in H2' by exact Lx. split; [exact H2'|]. split.
      * intros k [<-|Hk]; [|auto]. rewrite H4' by assumption. rewrite set_at_nth by exact Lx. rewrite Nat.eqb_refl. reflexivity.
      * intros k Hk. rewrite H4' by (intros X; apply Hk; right; exact X). rewrite set_at_nth by exact Lx.
        destruct (Nat.eqb_spec k x) as [->|]; [|reflexivity]. destruct Hk. left. reflexivity.
Qed.

Lemma HI_entry s l ids rest i : HI s l ids rest -> i < cnt s -> entry s i = nth_error l i.
Proof.
  intros H Hi. rewrite (hi_cnt _ _ _ _ H) in Hi. unfold entry, cell. rewrite (hi_vec _ _ _ _ H).
  rewrite nth_error_app1 by (rewrite map_length; lia).
  pose proof (hi_live _ _ _ _ H) as F. clear H. revert l F i Hi. induction ids as [|k ids IH]; intros l F i Hi; [cbn in Hi; lia|].
  inversion F as [|? c ? l' X Y]; subst. destruct i as [|i]; cbn [map nth_error].
  - unfold History_model.live. rewrite X. reflexivity.
  - apply IH; [assumption|cbn in Hi; lia].
Qed.

Lemma Forall2_len {A B} (P : A -> B -> Prop) a b : Forall2 P a b -> length a = length b.
Proof. induction 1; cbn; congruence. Qed.

(** * The line *)
Lemma cut_last_nl_spec s : match cut_last_nl s with
  | Some t => exists r, s = t ++ NL :: r /\ ~ In NL r
  | None => ~ In NL s end.
Proof.
  induction s as [|c s IH]; cbn; [tauto|]. destruct (cut_last_nl s) as [t|].
  - destruct IH as [r [-> Hr]]. exists r. auto.
  - destruct (ceq_spec c NL) as [->|N].
    + exists s. auto.
    + intros [X|X]; [congruence|auto].
Qed.
Lemma hist_line_spec cmd : line_of cmd (hist_line cmd).
Proof.
  unfold hist_line, line_of. pose proof (cut_last_nl_spec cmd) as H. destruct (cut_last_nl cmd); [right; exact H|left; auto].
Qed.
Lemma line_of_det cmd a b : line_of cmd a -> line_of cmd b -> a = b.
Proof.
  assert (K : forall a b r q, a ++ NL :: r = b ++ NL :: q -> ~ In NL r -> ~ In NL q -> a = b).
  { induction a0 as [|x a0 IH]; intros b0 r q E Hr Hq.
    - destruct b0 as [|y b0]; [reflexivity|]. cbn in E. injection E as <- E. destruct Hr. rewrite E. apply in_elt.
    - destruct b0 as [|y b0]; cbn in E.
      + injection E as -> E. destruct Hq. rewrite <- E. apply in_elt.
      + injection E as -> E. f_equal. eapply IH; eassumption. }
  intros [[A1 ->]|[r [E1 H1]]] [[A2 ->]|[q [E2 H2]]]; auto.
  - destruct A1. rewrite E2. apply in_elt.
  - destruct A2. rewrite E1. apply in_elt.
  - eapply K; [rewrite <- E1; exact E2| |]; assumption.
Qed.

(** * HISTCONTROL *)
Lemma words_spec t : forall s cur,
  In t (words_at ":" cur s) <->
  t <> [] /\ ((exists b, ~ In ":"%char b /\ rev cur ++ b = t /\ (s = b \/ exists r, s = b ++ ":"%char :: r))
           \/ (~ In ":"%char t /\ exists a b, s = a ++ ":"%char :: t ++ b /\ (b = [] \/ exists b', b = ":"%char :: b'))).
Proof.
  induction s as [|x s IH]; intros cur.
  - cbn. split.
    + destruct cur as [|c cur]; [intros []|]. intros [<-|[]]. split.
      * intros X. apply (f_equal (@length _)) in X. rewrite rev_length in X. discriminate.
      * left. exists []. rewrite app_nil_r. auto.
    + intros [N [[b [B1 [B2 [B3|[r B3]]]]]|[_ [a [b [E _]]]]]].
      * subst b. rewrite app_nil_r in B2. subst t. destruct cur; [destruct N; reflexivity|left; reflexivity].
      * destruct b; discriminate.
      * destruct a; discriminate.
  - cbn [words_at]. destruct (ceq_spec x ":"%char) as [->|NX].
    + assert (REC : In t (words_at ":" [] s) <-> t <> [] /\ ~ In ":"%char t /\
        ((s = t \/ exists r, s = t ++ ":"%char :: r) \/ (exists a b, s = a ++ ":"%char :: t ++ b /\ (b = [] \/ exists b', b = ":"%char :: b')))).
      { rewrite IH. cbn [rev app]. split.
        - intros [N [[b [B1 [B2 B3]]]|[A B]]]; [subst b|]; auto.
        - intros [N [A [B|B]]]; split; auto. left. exists t. auto. }
      assert (TAIL : (exists a b, ":"%char :: s = a ++ ":"%char :: t ++ b /\ (b = [] \/ exists b', b = ":"%char :: b')) <->
        ((s = t \/ exists r, s = t ++ ":"%char :: r) \/ (exists a b, s = a ++ ":"%char :: t ++ b /\ (b = [] \/ exists b', b = ":"%char :: b')))).
      { split.
        - intros [a [b [E B]]]. destruct a as [|y a].
          + left. cbn in E. injection E as E. destruct B as [->|[b' ->]]; [left; rewrite app_nil_r in E; exact E|right; exists b'; exact E].
          + right. cbn in E. injection E as _ E. exists a, b. auto.
        - intros [[->|[r ->]]|[a [b [-> B]]]].
          + exists [], []. rewrite app_nil_r. auto.
          + exists [], (":"%char :: r). split; [reflexivity|]. right. exists r. reflexivity.
          + exists (":"%char :: a), b. auto. }
      assert (HEADC : (exists b, ~ In ":"%char b /\ rev cur ++ b = t /\ (":"%char :: s = b \/ exists r, ":"%char :: s = b ++ ":"%char :: r)) <-> rev cur = t).
      { split.
        - intros [b [B1 [B2 B3]]]. destruct b as [|y b]; [rewrite app_nil_r in B2; exact B2|]. exfalso.
          destruct B3 as [B3|[r B3]]; injection B3 as <- _; apply B1; left; reflexivity.
        - intros E. exists []. rewrite app_nil_r. split; [intros []|]. split; [exact E|]. right. exists s. reflexivity. }
      rewrite HEADC, TAIL. destruct cur as [|c cur].
      * rewrite REC. cbn [rev]. split.
        -- intros [N [A B]]. split; [exact N|]. right. auto.
        -- intros [N [X|[A B]]]; [destruct N; auto|auto].
      * cbn [In]. rewrite REC. split.
        -- intros [X|[N [A B]]].
           ++ split; [|left; exact X]. rewrite <- X. intros Y. apply (f_equal (@length _)) in Y. rewrite rev_length in Y. discriminate.
           ++ split; [exact N|]. right. auto.
        -- intros [N [X|[A B]]]; [left; exact X|right; auto].
    + rewrite IH. cbn [rev]. split; intros [N H]; (split; [exact N|]).
      * destruct H as [[b [B1 [B2 B3]]]|[A [a [b [E B]]]]].
        -- left. exists (x :: b). split; [intros [X|X]; [congruence|auto]|]. split; [rewrite <- B2, <- app_assoc; reflexivity|].
           destruct B3 as [->|[r ->]]; [left; reflexivity|right; exists r; reflexivity].
        -- right. split; [exact A|]. exists (x :: a), b. rewrite E. auto.
      * destruct H as [[b [B1 [B2 B3]]]|[A [a [b [E B]]]]].
        -- left. destruct b as [|y b].
           ++ exfalso. destruct B3 as [B3|[r B3]]; [discriminate|]. cbn in B3. injection B3 as B3 _. congruence.
           ++ assert (y = x /\ (s = b \/ exists r, s = b ++ ":"%char :: r)) as [-> B3'].
              { destruct B3 as [B3|[r B3]]; cbn in B3; injection B3 as <- B3; split; auto. right. exists r. exact B3. }
              exists b. split; [intros X; apply B1; right; exact X|]. split; [rewrite <- app_assoc; exact B2|exact B3'].
        -- right. split; [exact A|]. destruct a as [|y a]; cbn in E; injection E as E1 E2; [congruence|]. exists a, b. auto.
Qed.
Lemma control_spec s t : t <> [] -> ~ In ":"%char t ->
  (existsb (str_eqb t) (match s with Some t => words_at ":" [] t | None => [] end) = true <-> has_word s t).
Proof.
  intros N C. destruct s as [s|]; cbn [existsb has_word].
  2:{ split; [discriminate|intros []]. }
  assert (K : existsb (str_eqb t) (words_at ":" [] s) = true <-> In t (words_at ":" [] s)).
  { rewrite existsb_exists. split; [intros [x [X Y]]; apply str_eqb_true in Y; subst; exact X|intros X; exists t; split; [exact X|apply str_eqb_refl]]. }
  rewrite K, words_spec. cbn [rev app]. split.
  - intros [_ [[b [_ [-> B]]]|[_ [a [b [-> B]]]]]].
    + split; [exact N|]. split; [exact C|]. destruct B as [->|[r ->]].
      * exists [], []. rewrite app_nil_r. auto.
      * exists [], (":"%char :: r). split; [reflexivity|]. split; [auto|]. right. exists r. reflexivity.
    + split; [exact N|]. split; [exact C|]. exists (a ++ [":"%char]), b. rewrite <- app_assoc. split; [reflexivity|].
      split; [right; exists a; reflexivity|exact B].
  - intros [_ [_ [a [b [-> [A B]]]]]]. split; [exact N|]. destruct A as [->|[a' ->]].
    + left. exists t. split; [exact C|]. split; [reflexivity|].
      destruct B as [->|[b' ->]]; [left; apply app_nil_r|right; exists b'; reflexivity].
    + right. split; [exact C|]. exists a', b. rewrite <- app_assoc. auto.
Qed.

(** * One operation *)
Definition apply_op (o : op) (s : hst) : option hst :=
  match o with
  | OSave c => histsave c s
  | OSize n => sethistsize n true s
  | OControl c => Some (sethistcontrol c s)
  | OBackup => histbackup false s
  | OReset => histreset s
  end.
Fixpoint run_ops (os : list op) (s : hst) : option hst :=
  match os with
  | [] => Some s
  | o :: os => match apply_op o s with Some s => run_ops os s | None => None end
  end.

Definition R (s : hst) (p : spec) : Prop :=
  (exists ids rest, HI s (cmds p) ids rest) /\ size p = hsize s /\ 0 < hsize s
  /\ nodup p = dups s /\ nosp p = space s.

Lemma lastn_all {A} n (l : list A) : length l <= n -> lastn n l = l.
Proof. intros H. unfold lastn. replace (length l - n) with 0 by lia. reflexivity. Qed.

Lemma Forall2_snoc {A B} (P : A -> B -> Prop) a b x y : Forall2 P a b -> P x y -> Forall2 P (a ++ [x]) (b ++ [y]).
Proof. intros H X. apply Forall2_app; [exact H|]. constructor; [exact X|constructor]. Qed.

Lemma F2_weaken {A B} (P Q : A -> B -> Prop) a b : (forall x y, In x a -> P x y -> Q x y) -> Forall2 P a b -> Forall2 Q a b.
Proof.
  intros K H. induction H as [|x y a b X H IH]; constructor; [apply K; [left; reflexivity|exact X]|].
  apply IH. intros u v Hu. apply K. right. exact Hu.
Qed.
Lemma heap_lt {s l ids rest} : HI s l ids rest -> forall k, In k ids -> k < length (heap s).
Proof.
  intros H k Hk. pose proof (hi_live _ _ _ _ H) as F. apply nth_error_Some.
  clear H. induction F as [|x y a b X F IH]; [destruct Hk|]. destruct Hk as [->|Hk]; [congruence|auto].
Qed.

Lemma last_entry s l ids rest : HI s l ids rest -> 0 < cnt s -> exists c x, l = c ++ [x] /\ entry s (cnt s - 1) = Some x.
Proof.
  intros H Hc. rewrite (HI_entry _ _ _ _ _ H) by lia.
  pose proof (Forall2_len _ _ _ (hi_live _ _ _ _ H)) as Le. pose proof (hi_cnt _ _ _ _ H) as Lc.
  destruct l as [|x l] using rev_ind; [cbn in Le; lia|]. clear IHl. exists l, x. split; [reflexivity|].
  rewrite app_length in Le. cbn in Le. rewrite nth_error_app2 by lia. replace (cnt s - 1 - length l) with 0 by lia. reflexivity.
Qed.

Lemma histsave_ok s p cmd : R s p -> exists s' p', histsave cmd s = Some s' /\ sstep p (OSave cmd) p' /\ R s' p'.
Proof.
  intros [[ids [rest H]] [ES [PS [ED EN]]]]. unfold histsave.
  pose proof (Forall2_len _ _ _ (hi_live _ _ _ _ H)) as Le. pose proof (hi_cnt _ _ _ _ H) as Lc.
  destruct (space s && _) eqn:SPC.
  { apply andb_prop in SPC. destruct SPC as [S1 S2]. destruct cmd as [|c r]; [discriminate|]. apply ceq_true in S2. subst c.
    exists s, p. split; [reflexivity|]. split; [apply SSkipSpace; congruence|]. split; [exists ids, rest; exact H|auto]. }
  assert (NSP : nosp p = true -> hd_error cmd <> Some SP).
  { intros X. rewrite EN in X. rewrite X in SPC. cbn in SPC. destruct cmd as [|c r]; [discriminate|]. intros Y. injection Y as ->.
    rewrite ceq_refl in SPC. discriminate. }
  set (c := hist_line cmd). pose proof (hist_line_spec cmd) as LS. fold c in LS. cbv zeta.
  set (add := if Nat.ltb (cnt s) (hsize s) then _ else _).
  assert (ADD : exists s', add = Some s' /\ R s' (Spec (lastn (size p) (cmds p ++ [c])) (size p) (nodup p) (nosp p))).
  { subst add. pose proof (hi_vec _ _ _ _ H) as Hv. assert (LV : hsize s = length ids + length rest).
    { unfold hsize. rewrite Hv, app_length, map_length. reflexivity. }
    assert (FRESH : ~ In (length (heap s)) ids) by (intros X; pose proof (heap_lt H _ X); lia).
    assert (LIVE1 : Forall2 (fun k x => nth_error (heap s ++ [Some c]) k = Some (Some x)) ids (cmds p)).
    { eapply F2_weaken; [|exact (hi_live _ _ _ _ H)]. intros k x Hk X. rewrite nth_error_app1; [exact X|]. apply (heap_lt H _ Hk). }
    assert (NEW : nth_error (heap s ++ [Some c]) (length (heap s)) = Some (Some c))
      by (rewrite nth_error_app2 by lia; rewrite Nat.sub_diag; reflexivity).
    assert (LEAK1 : forall k x, nth_error (heap s ++ [Some c]) k = Some (Some x) -> In k ids \/ k = length (heap s)).
    { intros k x X. destruct (Nat.lt_ge_cases k (length (heap s))).
      - left. rewrite nth_error_app1 in X by assumption. apply (hi_leak _ _ _ _ H k x X).
      - right. assert (k < length (heap s ++ [Some c])) by (apply nth_error_Some; congruence). rewrite app_length in *. cbn in *. lia. }
    destruct (Nat.ltb_spec (cnt s) (hsize s)) as [LT|GE].
    - eexists. split; [reflexivity|]. destruct rest as [|r0 rest]; [cbn in LV; lia|].
      split; [exists (ids ++ [length (heap s)]), rest|cbn; split; [|split]; auto].
      + cbn [cmds]. rewrite lastn_all by (rewrite app_length; cbn [length]; lia).
        split; cbn [vec cnt heap].
        * rewrite Hv, Lc. rewrite <- (map_length Some ids) at 1. rewrite set_at_split, map_app, <- app_assoc. reflexivity.
        * rewrite app_length. cbn. lia.
        * apply NoDup_app_snoc; [exact (hi_nd _ _ _ _ H)|exact FRESH].
        * apply Forall2_snoc; [exact LIVE1|exact NEW].
        * intros k x X. rewrite in_app_iff. destruct (LEAK1 k x X) as [Y| ->]; [left; exact Y|right; left; reflexivity].
      + rewrite ES. unfold hsize. cbn [vec]. rewrite set_at_length; [reflexivity|]. unfold hsize in LT. exact LT.
      + unfold hsize in *. cbn [vec]. rewrite set_at_length; [assumption|exact LT].
    - assert (rest = []) by (destruct rest; [reflexivity|cbn in LV; lia]). subst rest. rewrite app_nil_r in Hv. cbn in LV.
      destruct ids as [|i0 ids]; [cbn in LV; lia|]. destruct (cmds p) as [|c0 cs] eqn:EC; [cbn in Le; lia|].
      inversion LIVE1 as [|? ? ? ? X1 X2]; subst.
      erewrite afree_cell_ok; [|cbn [vec]; rewrite Hv; reflexivity|exact X1]. cbn [vec heap].
      pose proof (hi_nd _ _ _ _ H) as ND. inversion ND as [|? ? N1 N2]; subst.
      assert (I0 : i0 < length (heap s ++ [Some c])) by (apply nth_error_Some; congruence).
      assert (NE0 : i0 <> length (heap s)) by (intros X; apply FRESH; left; exact X).
      eexists. split; [reflexivity|]. rewrite Hv. cbn [map skipn].
      assert (LS2 : set_at (cnt s - 1) (Some (length (heap s))) (map Some ids ++ [None]) = map Some (ids ++ [length (heap s)])).
      { rewrite Lc. cbn [length]. replace (S (length ids) - 1) with (length (map (@Some nat) ids)) by (rewrite map_length; lia).
        rewrite set_at_split, map_app. reflexivity. }
      rewrite LS2. split; [exists (ids ++ [length (heap s)]), []|cbn [size nodup nosp dups space]; split; [|split]; auto].
      + cbn [cmds]. split; cbn [vec cnt heap].
        * rewrite app_nil_r. reflexivity.
        * rewrite app_length. cbn in Lc |- *. lia.
        * apply NoDup_app_snoc; [exact N2|]. intros X. apply FRESH. right. exact X.
        * assert (EL : lastn (size p) (c0 :: cs ++ [c]) = cs ++ [c]).
          { unfold lastn. cbn [length]. rewrite app_length. cbn [length] in *. replace (S (length cs + 1) - size p) with 1 by lia. reflexivity. }
          cbn [app]. rewrite EL. apply Forall2_snoc.
          -- eapply F2_weaken; [|exact X2]. intros k x Hk X. rewrite set_at_nth by exact I0.
             destruct (Nat.eqb_spec k i0) as [->|]; [contradiction|exact X].
          -- rewrite set_at_nth by exact I0. destruct (Nat.eqb_spec (length (heap s)) i0); [congruence|exact NEW].
        * intros k x. rewrite set_at_nth by exact I0. destruct (Nat.eqb_spec k i0) as [->|NK]; [discriminate|].
          intros X. rewrite in_app_iff. destruct (LEAK1 k x X) as [[Y|Y]| ->]; [congruence|left; exact Y|right; left; reflexivity].
      + rewrite ES. unfold hsize. cbn [vec]. rewrite map_length, app_length. rewrite Hv, map_length. cbn. lia.
      + unfold hsize. cbn [vec]. rewrite map_length, app_length. cbn. lia. }
  destruct (dups s && Nat.ltb 0 (cnt s)) eqn:D.
  - apply andb_prop in D. destruct D as [D1 D2]. apply Nat.ltb_lt in D2.
    destruct (last_entry _ _ _ _ H D2) as [cc [x [EX EE]]]. rewrite EE. destruct (str_eqb x c) eqn:Q.
    + apply str_eqb_true in Q. subst x. eexists. exists p. split; [reflexivity|]. split; [eapply SSkipDup; eauto; congruence|].
      split; [|auto]. exists ids, rest. destruct H as [A1 A2 A3 A4 A5]. split; cbn [vec cnt heap]; auto.
      * eapply F2_weaken; [|exact A4]. intros k y Hk X. rewrite nth_error_app1; [exact X|]. apply nth_error_Some. congruence.
      * intros k y X. destruct (Nat.lt_ge_cases k (length (heap s))); [rewrite nth_error_app1 in X by assumption; eauto|].
        rewrite nth_error_app2 in X by assumption. destruct (k - length (heap s)) as [|m]; [discriminate|destruct m; discriminate].
    + destruct ADD as [s' [E' R']]. exists s'. eexists. split; [exact E'|]. split; [|exact R'].
      apply SSave; auto. intros _ c2 X. rewrite EX in X. apply app_inj_tail in X. destruct X as [_ ->]. rewrite str_eqb_refl in Q. discriminate.
  - destruct ADD as [s' [E' R']]. exists s'. eexists. split; [exact E'|]. split; [|exact R'].
    apply SSave; auto. intros ND c2 X. rewrite ED in ND. rewrite ND, andb_true_l in D. apply Nat.ltb_ge in D.
    rewrite X, app_length in Le. cbn in Le. lia.
Qed.

Lemma sethistsize_ok s p n : R s p -> exists s' p', sethistsize n true s = Some s' /\ sstep p (OSize n) p' /\ R s' p'.
Proof.
  intros [[ids [rest H]] [ES [PS [ED EN]]]]. unfold sethistsize. set (m := Z.to_nat n).
  pose proof (Forall2_len _ _ _ (hi_live _ _ _ _ H)) as Le. pose proof (hi_cnt _ _ _ _ H) as Lc.
  pose proof (hi_vec _ _ _ _ H) as Hv. assert (LV : hsize s = length ids + length rest).
  { unfold hsize. rewrite Hv, app_length, map_length. reflexivity. }
  destruct (Z.ltb_spec 0 n) as [P|P].
  2:{ exists s, p. split; [reflexivity|]. split; [apply SSize0; lia|]. split; [exists ids, rest; exact H|auto]. }
  cbn [andb]. assert (Pm : 0 < m) by lia. destruct (Nat.eqb_spec m (hsize s)) as [Q|Q]; cbn [negb].
  { exists s. eexists. split; [reflexivity|]. split; [apply SSize; exact P|]. fold m.
    split; [exists ids, rest|cbn; auto]. cbn. rewrite lastn_all by lia. exact H. }
  destruct (Nat.ltb_spec m (cnt s)) as [LT|GE].
  - set (d := cnt s - m). destruct s as [v cn hp du sp]. cbn [cnt vec heap dups space] in *. unfold hsize in *. cbn [vec] in *.
    pose proof (firstn_skipn d ids) as FS. set (i1 := firstn d ids) in *. set (i2 := skipn d ids) in *.
    assert (L1 : length i1 = d) by (subst i1; rewrite firstn_length; lia).
    assert (L2 : length i2 = m) by (subst i2; rewrite skipn_length; lia).
    pose proof (hi_nd _ _ _ _ H) as ND. pose proof (hi_live _ _ _ _ H) as LI. cbn [heap] in LI. rewrite <- FS in ND, LI.
    assert (NDP : NoDup i1 /\ NoDup i2 /\ forall k, In k i1 -> ~ In k i2).
    { clear -ND. induction i1 as [|a i1 IH]; cbn in ND; [split; [constructor|]; split; [exact ND|intros k []]|].
      inversion ND as [|? ? N1 N2]; subst. destruct (IH N2) as [A [B C]]. rewrite in_app_iff in N1. split; [constructor; auto|]. split; [exact B|].
      intros k [<-|Hk]; [tauto|auto]. }
    destruct NDP as [N1 [N2 DJ]].
    apply Forall2_app_inv_l in LI. destruct LI as [l1 [l2 [F1 [F2 EC]]]].
    destruct (afree_cells_ok i1 0 v cn hp du sp [] (map Some i2 ++ rest)) as [h' [E1 [E2 [E3 E4]]]].
    + rewrite Hv, <- FS, map_app, <- app_assoc. reflexivity.
    + reflexivity.
    + exact N1.
    + intros k Hk. clear -F1 Hk. induction F1 as [|x y a b X F IH]; [destruct Hk|]. destruct Hk as [->|Hk]; [eauto|auto].
    + rewrite L1 in E1. rewrite E1. cbn [cnt vec heap dups space]. fold d.
      assert (EV : resized m (firstn m (skipn d v) ++ skipn m v) = map Some i2).
      { assert (SK : skipn d v = map Some i2 ++ rest).
        { rewrite Hv, <- FS, map_app, <- app_assoc, skipn_app. rewrite map_length, L1, Nat.sub_diag. cbn [skipn].
          rewrite skipn_all2 by (rewrite map_length; lia). reflexivity. }
        assert (FM : firstn m (skipn d v) = map Some i2).
        { rewrite SK, firstn_app, map_length, L2, Nat.sub_diag. cbn [firstn]. rewrite app_nil_r. apply firstn_all2. rewrite map_length. lia. }
        rewrite FM. unfold resized. rewrite app_length, map_length, skipn_length, L2. replace (m - (m + _)) with 0 by lia.
        cbn [repeat]. rewrite app_nil_r, firstn_app, map_length, L2, Nat.sub_diag. cbn [firstn]. rewrite app_nil_r. apply firstn_all2.
        rewrite map_length. lia. }
      rewrite EV. eexists. eexists. split; [reflexivity|]. split; [apply SSize; exact P|]. fold m.
      assert (EL : lastn m (cmds p) = l2).
      { pose proof (Forall2_len _ _ _ F1) as X1. pose proof (Forall2_len _ _ _ F2) as X2. rewrite EC. unfold lastn. rewrite app_length.
        rewrite skipn_app. replace (length l1 + length l2 - m) with (length l1) by lia.
        rewrite skipn_all2 by lia. rewrite Nat.sub_diag. reflexivity. }
      rewrite EL. split; [exists i2, []|unfold hsize; cbn [vec size nodup nosp dups space]; rewrite !map_length; split; [congruence|split; [lia|auto]]]. split; cbn [vec cnt heap cmds].
      * rewrite app_nil_r. reflexivity.
      * congruence.
      * exact N2.
      * eapply F2_weaken; [|exact F2]. intros k x Hk X. rewrite E4; [exact X|]. intros Y. apply (DJ _ Y Hk).
      * intros k x X. destruct (in_dec Nat.eq_dec k i1) as [Y|Y]; [rewrite (E3 _ Y) in X; discriminate|].
        rewrite (E4 _ Y) in X. pose proof (hi_leak _ _ _ _ H k x X) as Z. rewrite <- FS, in_app_iff in Z. tauto.
  - eexists. eexists. split; [reflexivity|]. split; [apply SSize; exact P|]. fold m.
    assert (EV : resized m (vec s) = map Some ids ++ (firstn (m - length ids) rest ++ repeat None (m - length (vec s)))).
    { unfold resized. rewrite Hv at 1. rewrite firstn_app, map_length. rewrite firstn_all2 by (rewrite map_length; lia).
      rewrite <- app_assoc. reflexivity. }
    assert (ER : length (resized m (vec s)) = m).
    { unfold resized. rewrite app_length, firstn_length, repeat_length. lia. }
    rewrite lastn_all by lia. split; [|cbn; rewrite ER; auto].
    exists ids. eexists. split; cbn [vec cnt heap]; [exact EV|exact Lc|exact (hi_nd _ _ _ _ H)|exact (hi_live _ _ _ _ H)|exact (hi_leak _ _ _ _ H)].
Qed.

Lemma histbackup_ok s p : R s p -> exists s' p', histbackup false s = Some s' /\ sstep p OBackup p' /\ R s' p'.
Proof.
  intros [[ids [rest H]] [ES [PS [ED EN]]]]. unfold histbackup.
  pose proof (Forall2_len _ _ _ (hi_live _ _ _ _ H)) as Le. pose proof (hi_cnt _ _ _ _ H) as Lc.
  pose proof (hi_vec _ _ _ _ H) as Hv. destruct (Nat.ltb_spec 0 (cnt s)) as [LT|GE]; cbn [andb negb].
  - destruct ids as [|k ids] using rev_ind; [cbn in Lc; lia|]. clear IHids. rewrite app_length in Lc. cbn in Lc.
    pose proof (hi_live _ _ _ _ H) as LI. apply Forall2_app_inv_l in LI. destruct LI as [l1 [l2 [F1 [F2 EC]]]].
    inversion F2 as [|? c ? ? X Y]; subst. inversion Y; subst.
    erewrite afree_cell_ok; [| |exact X].
    2:{ rewrite Hv, map_app, <- app_assoc. rewrite nth_error_app2 by (rewrite map_length; lia).
        rewrite map_length. replace (cnt s - 1 - length ids) with 0 by lia. reflexivity. }
    cbn [vec cnt heap dups space]. eexists. eexists. split; [reflexivity|]. split; [apply SBackup|].
    rewrite EC, removelast_last. split; [exists ids, (Some k :: rest)|cbn; auto].
    pose proof (hi_nd _ _ _ _ H) as ND. apply NoDup_remove in ND. rewrite app_nil_r in ND. destruct ND as [N1 N2].
    assert (Kl : k < length (heap s)) by (apply nth_error_Some; congruence).
    split; cbn [vec cnt heap cmds].
    + rewrite Hv, map_app, <- app_assoc. reflexivity.
    + lia.
    + exact N1.
    + eapply F2_weaken; [|exact F1]. intros j x Hj Xj. rewrite set_at_nth by exact Kl. destruct (Nat.eqb_spec j k) as [->|]; [contradiction|exact Xj].
    + intros j x. rewrite set_at_nth by exact Kl. destruct (Nat.eqb_spec j k) as [->|NJ]; [discriminate|].
      intros Xj. pose proof (hi_leak _ _ _ _ H j x Xj) as Z. rewrite in_app_iff in Z. destruct Z as [Z|[Z|[]]]; [exact Z|congruence].
  - exists s. eexists. split; [reflexivity|]. split; [apply SBackup|]. assert (cmds p = []) by (destruct (cmds p); [reflexivity|cbn in Le; lia]).
    rewrite H0. split; [exists ids, rest; cbn; rewrite <- H0; exact H|cbn; auto].
Qed.

Lemma histreset_ok s p : R s p -> exists s' p', histreset s = Some s' /\ sstep p OReset p' /\ R s' p'.
Proof.
  intros [[ids [rest H]] [ES [PS [ED EN]]]]. unfold histreset. destruct s as [v cn hp du sp].
  pose proof (hi_cnt _ _ _ _ H) as Lc. pose proof (hi_vec _ _ _ _ H) as Hv. cbn in *.
  destruct (afree_cells_ok ids 0 v cn hp du sp [] rest) as [h' [E1 [E2 [E3 E4]]]].
  - exact Hv.
  - reflexivity.
  - exact (hi_nd _ _ _ _ H).
  - pose proof (hi_live _ _ _ _ H) as F1. cbn in F1. intros k Hk. clear -F1 Hk. induction F1 as [|x y a b X F IH]; [destruct Hk|]. destruct Hk as [->|Hk]; [eauto|auto].
  - subst cn. rewrite E1. cbn. eexists. eexists. split; [reflexivity|]. split; [apply SReset|]. split; [exists [], v|cbn; auto].
    split; cbn; [reflexivity|reflexivity|constructor|constructor|].
    intros k c X. destruct (in_dec Nat.eq_dec k ids) as [Y|Y]; [rewrite (E3 _ Y) in X; discriminate|].
    rewrite (E4 _ Y) in X. apply Y. apply (hi_leak _ _ _ _ H k c X).
Qed.

Lemma apply_ok o s p : R s p -> exists s' p', apply_op o s = Some s' /\ sstep p o p' /\ R s' p'.
Proof.
  intros H. destruct o as [cmd|n|c| |]; cbn [apply_op].
  - apply histsave_ok, H.
  - apply sethistsize_ok, H.
  - destruct H as [[ids [rest H]] [ES [PS [ED EN]]]]. eexists. eexists. split; [reflexivity|]. split.
    + apply SControl; apply (iff_sym (A:=has_word _ _) (B:=_ = true)); symmetry; apply control_spec; try discriminate; cbn; intuition discriminate.
    + split; [exists ids, rest|cbn; auto]. destruct H as [A1 A2 A3 A4 A5]. split; cbn; auto.
  - apply histbackup_ok, H.
  - apply histreset_ok, H.
Qed.
Lemma run_ok os : forall s p, R s p -> exists s' p', run_ops os s = Some s' /\ sruns p os p' /\ R s' p'.
Proof.
  induction os as [|o os IH]; intros s p H.
  - exists s, p. split; [reflexivity|]. split; [constructor|exact H].
  - destruct (apply_ok o s p H) as [s1 [p1 [E1 [S1 R1]]]]. destruct (IH s1 p1 R1) as [s2 [p2 [E2 [S2 R2]]]].
    exists s2, p2. cbn. rewrite E1. split; [exact E2|]. split; [econstructor; eassumption|exact R2].
Qed.
Lemma R_init n : 0 < n -> R (init_histvec n) (Spec [] n false false).
Proof.
  intros P. split; [exists [], (repeat None n)|]; [|cbn; unfold hsize; cbn; rewrite repeat_length; auto].
  split; cbn; [reflexivity|reflexivity|constructor|constructor|]. intros k c X. destruct k; discriminate.
Qed.

(** * The specification decides *)
Lemma sstep_det p o a b : sstep p o a -> sstep p o b -> a = b.
Proof.
  assert (BB : forall (x y : bool) (P : Prop), (x = true <-> P) -> (y = true <-> P) -> x = y).
  { intros x y P A B. destruct x, y; auto; [symmetry; apply B, A; reflexivity|apply A, B; reflexivity]. }
  intros A B. inversion A; subst; inversion B; subst; try reflexivity; try lia;
    try (exfalso; match goal with H : _ -> hd_error (SP :: _) <> _ |- _ => apply H; [assumption|reflexivity] end).
  - match goal with X : line_of cmd ?u, Y : line_of cmd ?v |- _ => assert (u = v) by (eapply line_of_det; eassumption); subst end.
    exfalso. match goal with X : _ -> forall c, cmds _ <> c ++ _ |- _ => eapply X; eassumption end.
  - match goal with X : line_of cmd ?u, Y : line_of cmd ?v |- _ => assert (u = v) by (eapply line_of_det; eassumption); subst end.
    exfalso. match goal with X : _ -> forall c, cmds _ <> c ++ _ |- _ => eapply X; eassumption end.
  - match goal with X : line_of cmd ?u, Y : line_of cmd ?v |- _ => assert (u = v) by (eapply line_of_det; eassumption); subst end. reflexivity.
  - f_equal; eapply BB; eassumption.
Qed.
Lemma sruns_det os : forall p a b, sruns p os a -> sruns p os b -> a = b.
Proof.
  induction os as [|o os IH]; intros p a b A B; inversion A; subst; inversion B; subst; [reflexivity|].
  eapply IH; [eassumption|]. match goal with X : sstep p o ?u, Y : sstep p o ?v |- _ => rewrite (sstep_det _ _ _ _ X Y) end. assumption.
Qed.

(** * strstr *)
Lemma prefix_of_spec p s : prefix_of p s = true <-> exists b, s = p ++ b.
Proof.
  revert s. induction p as [|a p IH]; intros s; cbn.
  - split; [exists s; reflexivity|reflexivity].
  - destruct s as [|b s]; [split; [discriminate|intros [b E]; discriminate]|]. rewrite andb_true_iff, IH. split.
    + intros [X [r ->]]. apply ceq_true in X. subst. exists r. reflexivity.
    + intros [r E]. cbn in E. injection E as -> ->. split; [apply ceq_refl|exists r; reflexivity].
Qed.
Lemma strstr_spec p s : match strstr_ p s with
  | Some (a, b) => exists b', b = p ++ b' /\ s = a ++ p ++ b' /\ leftmost p a b'
  | None => ~ occurs p s end.
Proof.
  induction s as [|c s IH]; cbn.
  - destruct (prefix_of p []) eqn:E.
    + apply prefix_of_spec in E. destruct E as [b E]. exists b. split; [exact E|]. split; [exact E|]. intros a' b' _. cbn. lia.
    + intros [a [b X]]. destruct a; [|discriminate]. assert (prefix_of p [] = true) by (apply prefix_of_spec; exists b; exact X). congruence.
  - destruct (prefix_of p (c :: s)) eqn:E.
    + apply prefix_of_spec in E. destruct E as [b E]. exists b. split; [exact E|]. split; [exact E|]. intros a' b' _. cbn. lia.
    + assert (NP : forall b, c :: s <> p ++ b).
      { intros b X. assert (prefix_of p (c :: s) = true) by (apply prefix_of_spec; exists b; exact X). congruence. }
      destruct (strstr_ p s) as [[a b]|].
      * destruct IH as [b' [-> [-> LM]]]. exists b'. split; [reflexivity|]. split; [reflexivity|].
        intros a' b0 X. destruct a' as [|x a']; [destruct (NP b0); exact X|]. cbn in X. injection X as _ X. specialize (LM _ _ X). cbn. lia.
      * intros [a [b X]]. destruct a as [|x a]; [destruct (NP b); exact X|]. cbn in X. injection X as _ X. apply IH. exists a, b. exact X.
Qed.
Lemma hmatch_spec anch p s : hmatch anch p s = true <-> if anch then exists b, s = p ++ b else occurs p s.
Proof.
  unfold hmatch. destruct anch; [apply prefix_of_spec|]. pose proof (strstr_spec p s) as H. destruct (strstr_ p s) as [[a b]|].
  - destruct H as [b' [_ [E _]]]. split; [intros _; exists a, b'; exact E|reflexivity].
  - split; [discriminate|contradiction].
Qed.

(** * Replacement *)
Lemma replace_all f p r : forall any s acc, p <> [] -> length s < f ->
  exists t, replace_loop f p r true any s acc = Some (any || (match strstr_ p s with Some _ => true | None => false end), acc ++ t) /\ replaced p r true s t.
Proof.
  induction f as [|f IH]; intros any s acc NE LT; [lia|]. cbn [replace_loop]. pose proof (strstr_spec p s) as H.
  destruct (strstr_ p s) as [[a b]|].
  - destruct H as [b' [-> [-> LM]]]. rewrite orb_true_r. assert (Lp : 0 < length p) by (destruct p; [congruence|cbn; lia]).
    rewrite !app_length in LT. rewrite skipn_app, skipn_all, Nat.sub_diag. cbn [skipn app].
    destruct (IH true b' (acc ++ a ++ r) NE ltac:(lia)) as [t [E Rp]]. exists (a ++ r ++ t). cbn [orb] in *. rewrite E.
    split; [rewrite ?orb_true_r, <- !app_assoc; reflexivity|]. apply RpAll; assumption.
  - exists s. rewrite orb_false_r. split; [reflexivity|]. apply RpLast. exact H.
Qed.
Lemma replaced_none p r g s t : ~ occurs p s -> replaced p r g s t -> t = s.
Proof.
  intros N H. inversion H; subst; [reflexivity| |]; destruct N; [exists a, b; reflexivity|exists a, b; reflexivity].
Qed.
Lemma leftmost_uniq p a b a' b' : leftmost p a b -> leftmost p a' b' -> a ++ p ++ b = a' ++ p ++ b' -> a = a' /\ b = b'.
Proof.
  intros A B E. pose proof (A _ _ E) as X. pose proof (B _ _ (eq_sym E)) as Y.
  assert (a = a' /\ p ++ b = p ++ b') as [-> Q].
  { assert (length a = length a') as LE by lia. clear -E LE. revert a' E LE. induction a as [|x a IH]; intros [|y a'] E LE; try discriminate; [auto|].
    cbn in E, LE. injection E as -> E. destruct (IH a' E) as [-> Z]; [lia|]. auto. }
  split; [reflexivity|]. apply app_inv_head in Q. exact Q.
Qed.
Lemma replaced_det p r g s t : replaced p r g s t -> forall t', replaced p r g s t' -> t = t'.
Proof.
  induction 1 as [g s N|a b LM|a b t LM H IH]; intros t' H'.
  - symmetry. eapply replaced_none; eassumption.
  - inversion H' as [g0 s0 N E1 E2 E3|a0 b0 LM' E1 E2|]; subst.
    + destruct N. exists a, b. reflexivity.
    + destruct (leftmost_uniq _ _ _ _ _ LM' LM E2) as [-> ->]. reflexivity.
  - inversion H' as [g0 s0 N E1 E2 E3| |a0 b0 t0 LM' H0 E1 E2]; subst.
    + destruct N. exists a, b. reflexivity.
    + destruct (leftmost_uniq _ _ _ _ _ LM' LM E2) as [-> ->]. rewrite (IH _ H0). reflexivity.
Qed.
Lemma hist_replace_ok hp p r g : p <> [] ->
  match hist_replace hp (Some (p, r)) g with
  | RText t => occurs p hp /\ replaced p r g hp t
  | RFailed => ~ occurs p hp
  | RFuel => False end.
Proof.
  intros NE. unfold hist_replace. destruct g.
  - destruct (replace_all (S (S (length hp))) p r false hp [] NE ltac:(lia)) as [t [E Rp]]. rewrite E. cbn [orb app].
    pose proof (strstr_spec p hp) as H. destruct (strstr_ p hp) as [[a b]|]; [|exact H].
    destruct H as [b' [_ [-> _]]]. split; [exists a, b'; reflexivity|exact Rp].
  - cbn [replace_loop]. pose proof (strstr_spec p hp) as H. destruct (strstr_ p hp) as [[a b]|] eqn:E1; [|exact H].
    destruct H as [b' [-> [EH LM]]]. cbn [negb orb app]. rewrite skipn_app, skipn_all, Nat.sub_diag. cbn [skipn app].
    assert (Y : occurs p hp /\ replaced p r false hp ((a ++ r) ++ b')).
    { split; [exists a, b'; exact EH|]. rewrite EH, <- app_assoc. apply RpOne. exact LM. }
    destruct (strstr_ p b') as [[u v]|]; exact Y.
Qed.

Lemma split_eq_spec s : match split_eq s with
  | Some (a, b) => s = a ++ "="%char :: b /\ ~ In "="%char a
  | None => ~ In "="%char s end.
Proof.
  induction s as [|c s IH]; cbn; [tauto|]. destruct (ceq_spec c "="%char) as [->|N].
  - split; [reflexivity|intros []].
  - destruct (split_eq s) as [[a b]|]; [destruct IH as [-> H]; split; [reflexivity|]|]; intros [X|X]; auto.
Qed.

(** * Running the text *)
Fixpoint join_nl (ls : list cstr) : cstr :=
  match ls with [] => [] | [l] => l | l :: ls => l ++ NL :: join_nl ls end.
Lemma exec_lines_ok cmd : forall cur, ~ In NL cur ->
  Forall (fun l => ~ In NL l) (exec_lines cur cmd)
  /\ (rev cur ++ cmd = join_nl (exec_lines cur cmd) \/ rev cur ++ cmd = join_nl (exec_lines cur cmd) ++ [NL]).
Proof.
  induction cmd as [|c r IH]; intros cur N.
  - cbn. rewrite app_nil_r. split; [constructor; [rewrite <- in_rev; exact N|constructor]|left; reflexivity].
  - cbn [exec_lines]. destruct (ceq_spec c NL) as [->|NC].
    + destruct r as [|d r].
      * split; [constructor; [rewrite <- in_rev; exact N|constructor]|right; reflexivity].
      * destruct (IH [] ltac:(intros [])) as [F E]. cbn [rev app] in E. split; [constructor; [rewrite <- in_rev; exact N|exact F]|].
        assert (NN : exec_lines [] (d :: r) <> []).
        { cbn. destruct (ceq d NL); [destruct r; discriminate|]. clear. generalize [d]. induction r as [|x r IH]; intros k; cbn; [discriminate|].
          destruct (ceq x NL); [destruct r; discriminate|apply IH]. }
        destruct (exec_lines [] (d :: r)) as [|l ls] eqn:EL; [congruence|].
        change (join_nl (rev cur :: l :: ls)) with (rev cur ++ NL :: join_nl (l :: ls)).
        destruct E as [E|E]; [left|right]; rewrite E; rewrite <- ?app_assoc; reflexivity.
    + destruct (IH (c :: cur)) as [F E]; [intros [X|X]; [congruence|auto]|]. split; [exact F|]. cbn [rev] in E. rewrite <- app_assoc in E. exact E.
Qed.
Lemma str_eqb_cons c a b : str_eqb (c :: a) (c :: b) = str_eqb a b.
Proof.
  destruct (str_eqb a b) eqn:E; [apply str_eqb_true in E; subst; apply str_eqb_refl|].
  destruct (str_eqb (c :: a) (c :: b)) eqn:F; [|reflexivity]. apply str_eqb_true in F. injection F as ->. rewrite str_eqb_refl in E. discriminate.
Qed.
Lemma exec_text_ok cmd : exec_text cmd = match cut_last_nl cmd with
  | Some t => if str_eqb cmd (t ++ [NL]) then t else cmd | None => cmd end.
Proof.
  induction cmd as [|c r IH]; [reflexivity|]. cbn [exec_text cut_last_nl]. destruct r as [|d r].
  - cbn. destruct (ceq_spec c NL) as [->|N]; reflexivity.
  - rewrite IH. destruct (cut_last_nl (d :: r)) as [t|].
    + cbn [app]. rewrite str_eqb_cons. destruct (str_eqb (d :: r) (t ++ [NL])); reflexivity.
    + destruct (ceq_spec c NL) as [->|N]; [|reflexivity]. cbn [app]. destruct (str_eqb_spec (NL :: d :: r) [NL]) as [X|X]; [discriminate|reflexivity].
Qed.

(** * Looking for a command *)
Lemma find_down_ok s l ids rest anch p : HI s l ids rest -> forall n, n <= cnt s ->
  match find_down s anch p n with
  | FAt i => i < n /\ (exists t, nth_error l i = Some t /\ hmatch anch p t = true)
             /\ forall j t, i < j < n -> nth_error l j = Some t -> hmatch anch p t = false
  | FNone => forall j t, j < n -> nth_error l j = Some t -> hmatch anch p t = false
  | FUB => False end.
Proof.
  intros H. pose proof (Forall2_len _ _ _ (hi_live _ _ _ _ H)) as Le. pose proof (hi_cnt _ _ _ _ H) as Lc.
  induction n as [|n IH]; intros Hn; [intros j t X; lia|]. cbn [find_down]. rewrite (HI_entry _ _ _ _ _ H) by lia.
  destruct (nth_error l n) as [t|] eqn:E; [|apply nth_error_None in E; lia].
  destruct (hmatch anch p t) eqn:M.
  - split; [lia|]. split; [exists t; auto|]. intros j t' X. lia.
  - specialize (IH ltac:(lia)). destruct (find_down s anch p n) as [|i|].
    + intros j t' X Y. destruct (Nat.eq_dec j n) as [->|]; [rewrite E in Y; injection Y as <-; exact M|]. apply (IH j t'); [lia|exact Y].
    + destruct IH as [A [B C]]. split; [lia|]. split; [exact B|].
      intros j t' X Y. destruct (Nat.eq_dec j n) as [->|]; [rewrite E in Y; injection Y as <-; exact M|]. apply (C j t'); [lia|exact Y].
    + exact IH.
Qed.

(** * What is left of the saved lines *)
(** Only saves and size changes. *)
Definition plain (o : op) : bool := match o with OSave _ | OSize _ => true | _ => false end.
(** The saved texts, in order. *)
Fixpoint saves (os : list op) : list cstr :=
  match os with [] => [] | OSave c :: os => c :: saves os | _ :: os => saves os end.
(** HISTSIZE was never set below [k]. *)
Definition never_below (k : nat) (os : list op) : Prop := forall n, In (OSize n) os -> (n <= 0 \/ Z.of_nat k <= n)%Z.

Lemma lastn_suffix {A} n (l : list A) : exists pre, l = pre ++ lastn n l.
Proof. exists (firstn (length l - n) l). unfold lastn. symmetry. apply firstn_skipn. Qed.
Lemma lastn_length {A} n (l : list A) : length (lastn n l) = Nat.min n (length l).
Proof. unfold lastn. rewrite skipn_length. lia. Qed.

Lemma recent_ok k os : forall p p' acc, sruns p os p' -> forallb plain os = true -> nodup p = false -> nosp p = false ->
  never_below k os -> k <= size p -> (exists pre, acc = pre ++ cmds p) -> length (cmds p) <= size p ->
  Nat.min k (length acc) <= length (cmds p) ->
  exists ls, Forall2 line_of (saves os) ls /\ (exists pre, acc ++ ls = pre ++ cmds p') /\ length (cmds p') <= size p'
    /\ Nat.min k (length (acc ++ ls)) <= length (cmds p').
Proof.
  induction os as [|o os IH]; intros p p' acc RR F ND NS NB K SUF LE MIN; inversion RR as [|? ? p1 ? ? ST RR']; subst.
  - exists []. rewrite app_nil_r. split; [constructor|]. auto.
  - cbn in F. apply andb_prop in F. destruct F as [F1 F2].
    assert (NB' : never_below k os) by (intros n Hn; apply NB; right; exact Hn).
    inversion ST; subst; try discriminate; try congruence; cbn [saves]; destruct SUF as [pre EP].
    + (* saved *)
      destruct (lastn_suffix (size p) (cmds p ++ [l])) as [pre2 E2].
      destruct (IH _ _ (acc ++ [l]) RR' F2 ND NS NB' K) as [ls [A [B [C D]]]]; cbn [cmds size].
      * exists (pre ++ pre2). rewrite EP, <- !app_assoc. f_equal. rewrite <- E2. reflexivity.
      * rewrite lastn_length. lia.
      * rewrite lastn_length, !app_length. cbn [length]. lia.
      * exists (l :: ls). rewrite <- app_assoc in B, D. split; [constructor; assumption|]. auto.
    + (* resized *)
      destruct (lastn_suffix (Z.to_nat n) (cmds p)) as [pre2 E2].
      assert (KN : k <= Z.to_nat n) by (destruct (NB n (or_introl eq_refl)); lia).
      destruct (IH _ _ acc RR' F2 ND NS NB' KN) as [ls [A [B [C D]]]]; cbn [cmds size].
      * exists (pre ++ pre2). rewrite EP, <- !app_assoc. f_equal. exact E2.
      * rewrite lastn_length. lia.
      * rewrite lastn_length. rewrite EP, app_length in MIN |- *. lia.
      * exists ls. auto.
    + apply (IH _ _ acc RR' F2 ND NS NB' K); auto. exists pre. exact EP.
Qed.
