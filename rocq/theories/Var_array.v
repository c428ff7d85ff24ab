(** Arrays: the operations on one array are operations on a finite map. *)
From Verif Require Import Base Num_model SimplifyPath_model Printf_model Justify_model Arith_model Var_model Var_spec Var_proof Var_inv.
From Coq Require Import Sorting.Sorted.
Local Open Scope Z_scope.

(** ** Names *)
Lemma is_name_letter n : is_name n = true -> exists c r, n = c :: r /\ letter c = true.
Proof.
  unfold is_name, skip_varname. destruct n as [|c r]; [discriminate|]. destruct (letter c) eqn:E; [|discriminate]. eauto.
Qed.
Lemma span_all {p : char -> bool} a b : forallb p a = true -> (match b with c :: _ => p c = false | [] => True end) -> span p (a ++ b) = (a, b).
Proof.
  induction a as [|c a IH]; cbn [app forallb span]; intros H Hb.
  - destruct b as [|c b]; cbn; [reflexivity|]. rewrite Hb. reflexivity.
  - apply andb_true_iff in H. destruct H as [H1 H2]. rewrite H1, IH by assumption. reflexivity.
Qed.
Lemma is_name_letnum n : is_name n = true -> forallb letnum n = true.
Proof.
  unfold is_name. destruct n as [|c n]; [discriminate|]. destruct (skip_varname (c :: n)) as [x [|d p]] eqn:E; [|discriminate]. intros _.
  apply skip_varname_spec in E. destruct E as (-> & A & _). rewrite app_nil_r. exact A.
Qed.
Lemma skip_name n b : is_name n = true -> (match b with c :: _ => letnum c = false | [] => True end) -> skip_varname (n ++ b) = (n, b).
Proof.
  intros Hn Hb. destruct (is_name_letter _ Hn) as (c & r & -> & Hc). cbn [app skip_varname]. rewrite Hc.
  apply (span_all (c :: r) b); [apply is_name_letnum|]; assumption.
Qed.
Lemma ref_len_sub s r acc : ~ In "["%char s -> ~ In "]"%char s -> ref_len (s ++ "]"%char :: r) 1 acc = (acc + length s + 1)%nat.
Proof.
  revert acc. induction s as [|c s IH]; intros acc H1 H2; cbn [app ref_len length].
  - cbn. lia.
  - destruct (ceq c "]") eqn:E; [apply ceq_true in E; subst; exfalso; apply H2; left; reflexivity|].
    destruct (ceq c "[") eqn:F; [apply ceq_true in F; subst; exfalso; apply H1; left; reflexivity|].
    rewrite IH; [lia| |]; intros X; [apply H1|apply H2]; right; exact X.
Qed.
Lemma array_ref_len_sub s r : ~ In "["%char s -> ~ In "]"%char s -> array_ref_len (L "[" ++ s ++ "]"%char :: r) = (length s + 2)%nat.
Proof. intros H1 H2. cbn [L app array_ref_len]. cbn. rewrite ref_len_sub by assumption. lia. Qed.
Lemma split_elem n s : is_name n = true -> ~ In "["%char s -> ~ In "]"%char s -> split_ref (elem n s) = (n, Some s).
Proof.
  intros Hn H1 H2. unfold split_ref, elem. rewrite skip_name by (auto; reflexivity).
  assert (array_ref_len (L "[" ++ s ++ L "]") = (length s + 2)%nat) as -> by (apply (array_ref_len_sub s []); assumption). replace (length s + 2)%nat with (S (S (length s))) by lia.
  destruct (is_name_letter _ Hn) as (c & r & -> & Hc). f_equal. f_equal. cbn [L app skipn Nat.sub]. rewrite Nat.sub_0_r.
  change (match L "[" ++ s ++ L "]" with [] => [] | _ :: l => l end) with (s ++ L "]").
  rewrite firstn_app, Nat.sub_diag, firstn_all, firstn_O. apply app_nil_r.
Qed.
Lemma typeset_name_elem n s v : is_name n = true -> ~ In "["%char s -> ~ In "]"%char s ->
  typeset_name (elem n s ++ L "=" ++ v) 0 = Some (elem n s, Some v).
Proof.
  intros Hn H1 H2. unfold typeset_name, elem. rewrite <- !app_assoc. rewrite skip_name by (auto; reflexivity).
  destruct (is_name_letter _ Hn) as (c & r & -> & Hc).
  assert (array_ref_len (L "[" ++ s ++ L "]" ++ L "=" ++ v) = (length s + 2)%nat) as -> by (apply (array_ref_len_sub s); assumption).
  replace (length s + 2 =? 0)%nat with false by (symmetry; apply Nat.eqb_neq; lia). rewrite andb_false_r.
  change (any 0 IMPORT) with false. rewrite andb_false_r. cbn [andb].
  assert (L "[" ++ s ++ L "]" ++ L "=" ++ v = (L "[" ++ s ++ L "]") ++ L "=" ++ v) as -> by (rewrite <- !app_assoc; reflexivity).
  assert (length (L "[" ++ s ++ L "]") = length s + 2)%nat as HL by (rewrite !app_length; cbn; lia).
  rewrite <- HL, skipn_app, skipn_all, Nat.sub_diag, skipn_O, firstn_app, firstn_all, Nat.sub_diag, firstn_O. cbn [app L]. cbn.
  rewrite app_nil_r. reflexivity.
Qed.
Lemma typeset_name_scalar n v : is_name n = true -> typeset_name (n ++ L "=" ++ v) 0 = Some (n, Some v).
Proof.
  intros Hn. unfold typeset_name. rewrite skip_name by (auto; reflexivity). destruct (is_name_letter _ Hn) as (c & r & -> & Hc).
  cbn. rewrite app_nil_r. reflexivity.
Qed.
Lemma arrayname_elem n s : is_name n = true -> arrayname (elem n s) = n.
Proof. intros Hn. unfold elem. apply arrayname_app. apply is_name_no_bracket. assumption. Qed.

(** ** One element *)
Lemma plain_bits t : on t PLAIN = false -> on t INTEGER = false /\ on t RDONLY = false /\ on t (N.lor UCASEV_AL (N.lor LCASEV (N.lor LJUST RJUST))) = false.
Proof.
  unfold on, PLAIN. rewrite !any_lor_r. intros H. repeat (apply orb_false_iff in H; destruct H as [? H]). repeat split; auto.
  repeat (apply orb_false_iff; split); auto.
Qed.
Lemma PLAIN_lor f m : N.land m PLAIN = 0%N -> any (N.lor f m) PLAIN = any f PLAIN.
Proof. intros H. rewrite any_lor. unfold any at 2. rewrite H. apply orb_false_r. Qed.
Lemma any_PLAIN_sub f g : (forall i, N.testbit g i = true -> N.testbit f i = true) -> any f PLAIN = false -> any g PLAIN = false.
Proof.
  intros H F. unfold any in *. apply negb_false_iff, N.eqb_eq in F. apply negb_false_iff, N.eqb_eq.
  apply N.bits_inj_0. intros i. rewrite N.land_spec. destruct (N.testbit g i) eqn:E; [|reflexivity].
  assert (N.testbit (N.land f PLAIN) i = false) as X by (rewrite F; apply N.bits_0). rewrite N.land_spec, (H _ E) in X. exact X.
Qed.
Lemma any_PLAIN_ldiff f m : any f PLAIN = false -> any (N.ldiff f m) PLAIN = false.
Proof. apply any_PLAIN_sub. intros i. rewrite N.ldiff_spec. intros H. apply andb_true_iff in H. apply H. Qed.
Lemma any_PLAIN_land f m : any f PLAIN = false -> any (N.land f m) PLAIN = false.
Proof. apply any_PLAIN_sub. intros i. rewrite N.land_spec. intros H. apply andb_true_iff in H. apply H. Qed.
Lemma plain_text t : plain_t t -> on t ISSET = true -> exists s, text t = Ok s.
Proof.
  intros [A B] H. destruct (plain_bits _ A) as (I1 & _). destruct (B H) as (s & Hs & Hr). unfold text, str_val. rewrite H, I1, Hs. cbn [negb].
  assert ((0 <=? t_type t) && (t_type t <=? strlen s) = true) as -> by lia. eauto.
Qed.
Lemma plain_setstr n t s : plain_t t -> exists t', setstr_string n t s = Ok t' /\ plain_t t' /\ on t' ISSET = true /\ text t' = Ok s.
Proof.
  intros [A _]. destruct (plain_bits _ A) as (I1 & I2 & I3). unfold setstr_string.
  set (t1 := set_type _ 0). assert (on t1 (N.lor UCASEV_AL (N.lor LCASEV (N.lor LJUST RJUST))) = false) as ->.
  { unfold t1, on in *. cbn [t_flag set_type set_flag]. revert I3. rewrite !any_lor_r, !any_ldiff by auto with bits.
    intros H. repeat match goal with H : _ || _ = false |- _ => apply orb_false_iff in H; destruct H end.
    repeat match goal with H : any _ _ = false |- _ => rewrite H end. reflexivity. }
  cbn [bind]. set (t2 := set_field t1 _).
  assert (any (t_flag t2) PLAIN = false) as P2. { unfold t2, t1. cbn [t_flag set_type set_flag set_field]. apply any_PLAIN_ldiff. exact A. }
  assert (t_type t2 = 0) as T2 by reflexivity. assert (any (t_flag t2) INTEGER = false) as J2. { unfold t2, t1. fl. unfold on in I1. rewrite I1. reflexivity. }
  clearbody t2. eexists. split; [reflexivity|]. destruct (on t2 EXPORT) eqn:E.
  - split; [|split].
    + split; [unfold on, export; cbn [t_flag set_flag]; rewrite !PLAIN_lor by reflexivity; assumption|]. intros _. eexists. split; [reflexivity|].
      cbn. unfold strlen. rewrite app_length. cbn [length]. lia.
    + fl. reflexivity.
    + unfold text, str_val. unfold export, on. cbn [t_flag set_flag t_type t_val t_field]. rewrite !any_lor, J2.
      change (any ISSET ISSET) with true. change (any ALLOC INTEGER) with false. change (any ISSET INTEGER) with false. rewrite orb_true_r. cbn [orb negb].
      assert ((0 <=? strlen n + 1) && (strlen n + 1 <=? strlen (n ++ "="%char :: s)) = true) as ->.
      { unfold strlen. rewrite app_length. cbn [length]. lia. }
      rewrite skipn_export. reflexivity.
  - split; [|split].
    + split; [unfold on; cbn [t_flag set_flag set_val]; rewrite !PLAIN_lor by reflexivity; assumption|]. intros _. eexists. split; [reflexivity|].
      cbn [t_type set_flag set_val]. rewrite T2. unfold strlen. lia.
    + fl. reflexivity.
    + unfold text, str_val, on. cbn [t_flag set_flag set_val t_type t_val t_field]. rewrite !any_lor, J2.
      change (any ISSET ISSET) with true. change (any ALLOC INTEGER) with false. change (any ISSET INTEGER) with false. rewrite orb_true_r. cbn [orb negb].
      rewrite T2. assert ((0 <=? 0) && (0 <=? strlen s) = true) as -> by (unfold strlen; lia). reflexivity.
Qed.

(** ** The entry *)
Definition tidy (e : ent) (m : amap) : Prop :=
  (forall i t, get_t e i = Some t -> plain_t t /\ (i <> 0 -> on t ARRAY = true)) /\ (e_elems e <> [] -> on (e_base e) ARRAY = true) /\ forall i, valof e i = option_map Ok (m i).
Lemma tidy_fresh : tidy fresh (fun _ => None).
Proof.
  split; [|split].
  - intros i t. unfold get_t. cbn. destruct (Z.eqb_spec i 0); [|discriminate]. intros [= <-]. split; [split; [reflexivity|discriminate]|congruence].
  - cbn. congruence.
  - intros i. unfold valof, get_t. cbn. destruct (i =? 0); reflexivity.
Qed.
Lemma tidy_ext e m m' : tidy e m -> (forall i, m i = m' i) -> tidy e m'.
Proof. intros (A & B & C) H. split; [assumption|]. split; [assumption|]. intros i. rewrite <- H. apply C. Qed.
Lemma plain_as_new vp v o : on vp PLAIN = false -> plain_t (as_new vp v o).
Proof.
  intros H. split; [unfold on, as_new, as_flag; cbn [t_flag]; apply any_PLAIN_ldiff; exact H|].
  unfold as_new, as_flag. fl. discriminate.
Qed.
Lemma tidy_arraysearch e m v : increasing 0 (e_elems e) -> tidy e m -> tidy (arraysearch e v) m.
Proof.
  intros Hi (A & B & C). assert (plain_t (e_base e)) as Hb by (apply (A 0 (e_base e)); reflexivity). split; [|split].
  - assert (plain_t (set_index (set_flag (e_base e) (N.lor (t_flag (e_base e)) (N.lor ARRAY DEFINED))) 0)) as Hp.
    { destruct Hb as [P Q]. split; [unfold on in *; cbn [t_flag set_flag set_index]; rewrite PLAIN_lor by reflexivity; exact P|]. intros H. apply Q. revert H. fl. auto. }
    intros i t. unfold get_t, arraysearch. cbn [e_base e_elems]. destruct (i =? 0) eqn:E; [intros [= <-]; split; [exact Hp|lia]|].
    destruct (v =? 0); [intros H; apply (A i); unfold get_t; rewrite E; exact H|].
    rewrite (find_as_ins _ _ _ 0) by assumption. destruct (v =? i) eqn:F; [|intros H; apply (A i); unfold get_t; rewrite E; exact H].
    destruct (find_elem (e_elems e) i) as [c|] eqn:G; [destruct (on c ISSET)|]; intros [= <-].
    + apply (A i). unfold get_t. rewrite E. exact G.
    + split; [apply plain_as_new, Hp|]. intros _. unfold as_new, as_flag. fl. reflexivity.
    + split; [apply plain_as_new, Hp|]. intros _. unfold as_new, as_flag. fl. reflexivity.
  - intros _. unfold arraysearch. cbn [e_base]. fl. reflexivity.
  - intros i. rewrite valof_arraysearch by assumption. apply C.
Qed.
Lemma tidy_put e m i t t' v : tidy e m -> get_t e i = Some t -> t_index t' = t_index t -> (on t ARRAY = true -> on t' ARRAY = true) ->
  plain_t t' -> (if on t' ISSET then Some (text t') else None) = option_map Ok v -> tidy (put_t e i t') (upd m i v).
Proof.
  intros (A & B & C) Hg Hi Ha Hp Hv. split; [|split].
  - intros j x. rewrite (get_put_t _ _ _ _ _ Hg Hi). destruct (Z.eqb_spec i j) as [->|]; [intros [= <-]; split; [assumption|intros X; apply Ha, (A _ _ Hg), X]|apply A].
  - unfold put_t, get_t in *. destruct (i =? 0); cbn [e_base e_elems]; [injection Hg as <-; auto|].
    intros H. apply B. intros X. apply H. rewrite X. reflexivity.
  - intros j. unfold valof, upd. rewrite (get_put_t _ _ _ _ _ Hg Hi). rewrite Z.eqb_sym. destruct (Z.eqb_spec j i) as [->|]; [exact Hv|apply C].
Qed.
Lemma tidy_define e m i : tidy e m -> tidy (match get_t e i with Some t => put_t e i (define_t t) | None => e end) m.
Proof.
  intros H. destruct (get_t e i) as [t|] eqn:G; [|assumption]. destruct H as (A & B & C). eapply tidy_ext.
  - apply (tidy_put e m i t (define_t t) (m i)); auto; [split; [assumption|split; assumption]|fl; auto| |].
    + destruct (A _ _ G) as [[P Q] _]. split; [unfold on in *; cbn [define_t t_flag set_flag]; rewrite PLAIN_lor by reflexivity; exact P|]. intros H. apply Q. revert H. fl. auto.
    + rewrite <- C. unfold valof. rewrite G. assert (on (define_t t) ISSET = on t ISSET) as -> by (fl; reflexivity).
      destruct (on t ISSET); [|reflexivity]. f_equal. unfold define_t, set_flag. apply text_flag, SV_lor. reflexivity.
  - intros j. unfold upd. destruct (Z.eqb_spec j i); congruence.
Qed.

(** ** The state *)
Definition oute (st : vars) : nat := pred (length st).
Definition frame (st st' : vars) (n : cstr) : Prop :=
  length st' = length st /\ forall k m, (k, m) <> (oute st, n) -> entry st' k m = entry st k m.
Lemma frame_refl st n : frame st st n. Proof. split; auto. Qed.
Lemma frame_trans a b c n : frame a b n -> frame b c n -> frame a c n.
Proof.
  intros [A1 A2] [B1 B2]. split; [congruence|]. intros k m H. rewrite B2, A2; auto. unfold oute. rewrite A1. exact H.
Qed.
Lemma frame_put st n e : frame st (put st (oute st) n e) n.
Proof. split; [apply length_put|]. intros k m H. apply entry_put_other. assumption. Qed.
Definition at_arr (st : vars) (n : cstr) (m : amap) (e : ent) : Prop :=
  wf st /\ (forall j e, (j < oute st)%nat -> entry st j n = Some e -> on (e_base e) DEFINED = false) /\
  entry st (oute st) n = Some e /\ tidy e m.
Lemma at_arr_is st n m e : at_arr st n m e -> is_array st n m.
Proof. intros (A & B & C & D). split; [exact A|]. split; [exact B|]. unfold oute in C. rewrite C. exact D. Qed.
Lemma put_at_arr st n m e : st <> [] -> (forall j e, (j < oute st)%nat -> entry st j n = Some e -> on (e_base e) DEFINED = false) ->
  wf (put st (oute st) n e) -> tidy e m -> at_arr (put st (oute st) n e) n m e.
Proof.
  intros Hn Hu Hw Ht. assert (oute (put st (oute st) n e) = oute st) as E by (unfold oute; rewrite length_put; reflexivity).
  split; [assumption|]. rewrite E. split; [|split; [|assumption]].
  - intros j x Hj. rewrite entry_put_other by (intros [= X]; lia). apply Hu. assumption.
  - apply entry_put_same. unfold oute. destruct st; [congruence|cbn; lia].
Qed.
Lemma find_arr st n m e : at_arr st n m e -> find_block st n = if on (e_base e) DEFINED then Some (oute st) else None.
Proof.
  intros (A & B & C & D). destruct (on (e_base e) DEFINED) eqn:E.
  - apply find_block_some. split; [|eauto]. split; [eapply entry_some; eauto|]. intros j Hj x Hx. eapply B; eauto.
  - apply find_block_none. intros j x Hx. pose proof (entry_some _ _ _ _ Hx). destruct (Nat.eq_dec j (oute st)) as [->|]; [congruence|].
    eapply B; [|eauto]. unfold oute in *. lia.
Qed.

Lemma look_arr st n m sub : is_name n = true -> is_array st n m -> (match sub with Some v => 0 <= v | None => True end) ->
  exists st' e t, global_at st n sub = (RVar (oute st) n (match sub with Some v => v | None => 0 end), st') /\
    at_arr st' n m e /\ frame st st' n /\ on (e_base e) DEFINED = true /\ get_t e (match sub with Some v => v | None => 0 end) = Some t.
Proof.
  intros Hn (A & B & C) Hv. pose proof (is_name_no_bracket _ Hn) as Hb.
  assert (exists e, match nth_error st (oute st) with Some b => ktenter b n | None => fresh end = e /\ tidy e m /\ wf_ent n e /\
    (forall x, entry st (oute st) n = Some x -> x = e)) as (e0 & He0 & T0 & W0 & U0).
  { fold (oute st) in C. unfold entry in C. unfold entry. destruct (nth_error st (oute st)) as [b|] eqn:E.
    - unfold ktenter. destruct (look b n) as [x|] eqn:F.
      + exists x. split; [reflexivity|]. split; [exact C|]. split; [|congruence]. apply (wf_entry st (oute st)); [assumption|].
        unfold entry. rewrite E. exact F.
      + exists fresh. split; [reflexivity|]. split; [eapply tidy_ext; [apply tidy_fresh|]; intros i; rewrite C; reflexivity|]. split; [apply wf_fresh|discriminate].
    - exists fresh. split; [reflexivity|]. split; [eapply tidy_ext; [apply tidy_fresh|]; intros i; rewrite C; reflexivity|]. split; [apply wf_fresh|discriminate]. }
  assert (st <> []) as Hne by apply A. destruct W0 as [W0 W1].
  assert (global_at st n sub = global_at st n sub) as _ by reflexivity.
  destruct (is_name_letter _ Hn) as (c & r & En & Hc).
  assert (match n with c :: _ => letter c = true | [] => False end) as Hl by (rewrite En; exact Hc).
  unfold global_at. destruct n as [|c' n']; [contradiction|]. rewrite Hl. set (n := c' :: n') in *.
  destruct (find_block st n) as [k|] eqn:F.
  - apply find_block_some in F. destruct F as [[Hk Hr] (e & He & Hd)].
    assert (k = oute st) as ->.
    { destruct (Nat.lt_ge_cases k (oute st)) as [X|X]; [rewrite (B k e X He) in Hd; discriminate|]. unfold oute in *. lia. }
    rewrite He. assert (e = e0) as -> by auto. destruct sub as [v|].
    + destruct (get_arraysearch_defined e0 v W0) as (t & Ht).
      exists (put st (oute st) n (arraysearch e0 v)), (arraysearch e0 v), t. split; [reflexivity|]. split; [|split; [apply frame_put|split; [apply arraysearch_defined|assumption]]].
      apply put_at_arr; auto; [|apply tidy_arraysearch; auto]. apply wf_put; [assumption|]. apply wf_arraysearch; [split; assumption|split; assumption].
    + exists st, e0, (e_base e0). split; [reflexivity|]. split; [|split; [apply frame_refl|split; [assumption|reflexivity]]].
      split; [assumption|]. split; [exact B|]. auto.
  - unfold oute in He0. rewrite He0. change (pred (length st)) with (oute st). destruct sub as [v|].
    + set (e1 := arraysearch e0 v). destruct (get_arraysearch_defined e0 v W0) as (t & Ht). fold e1 in Ht. rewrite Ht.
      exists (put st (oute st) n (put_t e1 v (define_t t))), (put_t e1 v (define_t t)), (define_t t). split; [reflexivity|].
      assert (wf_ent n e1) as W2 by (apply wf_arraysearch; split; assumption).
      split; [|split; [apply frame_put|split]].
      * apply put_at_arr; auto.
        -- apply wf_put; [assumption|]. pose proof (wf_define n e1 v W2) as X. rewrite Ht in X. exact X.
        -- pose proof (tidy_define e1 m v (tidy_arraysearch _ _ _ W0 T0)) as X. rewrite Ht in X. exact X.
      * apply put_t_defined; [assumption|apply arraysearch_defined].
      * rewrite (get_put_t _ _ _ _ _ Ht) by reflexivity. rewrite Z.eqb_refl. reflexivity.
    + exists (put st (oute st) n (Ent (define_t (e_base e0)) (e_elems e0))), (Ent (define_t (e_base e0)) (e_elems e0)), (define_t (e_base e0)).
      split; [reflexivity|]. split; [|split; [apply frame_put|split; [cbn [e_base]; fl; reflexivity|reflexivity]]].
      apply put_at_arr; auto.
      * apply wf_put; [assumption|]. exact (wf_define n e0 0 (conj W0 W1)).
      * exact (tidy_define e0 m 0 T0).
Qed.

Lemma write_arr st n m e i t t' v : at_arr st n m e -> get_t e i = Some t -> wrel t t' -> plain_t t' ->
  (if on t' ISSET then Some (text t') else None) = option_map Ok v ->
  at_arr (assign_t st (RVar (oute st) n i) t') n (upd m i v) (put_t e i t') /\ frame st (assign_t st (RVar (oute st) n i) t') n.
Proof.
  intros (A & B & C & D) Hg Hw Hp Hv. cbn [assign_t]. rewrite C. split; [|apply frame_put].
  apply put_at_arr; auto; [apply A|eapply wf_write; eauto|]. destruct Hw as (W1 & W2 & W3). eapply tidy_put; eauto; congruence.
Qed.
Lemma setstr_arr ev st n m e i t s u ign : at_arr st n m e -> get_t e i = Some t ->
  exists st' e' t', setstr ev st (RVar (oute st) n i) s u ign = Val true st' /\ at_arr st' n (upd m i (Some s)) e' /\ frame st st' n /\
    get_t e' i = Some t' /\ e' = put_t e i t' /\ wrel t t'.
Proof.
  intros HA Hg. destruct HA as (A & B & C & D). assert (plain_t t) as Hp by (eapply D; eauto).
  destruct (plain_bits _ (proj1 Hp)) as (I1 & I2 & _).
  assert (deref st (RVar (oute st) n i) = Some t) as HD by (cbn [deref]; rewrite C; exact Hg).
  unfold setstr. unfold rd_only. rewrite HD, I2. cbn [andb]. rewrite I1. cbn [negb ref_name].
  destruct (plain_setstr n t s Hp) as (t' & Ht & Hp' & Hs & Htx). rewrite Ht.
  pose proof (wrel_setstr _ _ _ _ Ht) as Hw.
  destruct (write_arr st n m e i t t' (Some s) (conj A (conj B (conj C D))) Hg Hw Hp') as [X Y].
  { rewrite Hs, Htx. reflexivity. }
  eexists _, _, t'. split; [reflexivity|]. split; [exact X|]. split; [exact Y|]. split; [|auto].
  rewrite (get_put_t _ _ _ _ _ Hg (proj1 Hw)), Z.eqb_refl. reflexivity.
Qed.

Section A.
Variable ev : vars -> cstr -> list asn * evres.
Variable fuel : nat.
Variable idx : cstr -> Z.
Variable n : cstr.
Hypothesis Hn : is_name n = true.

Lemma global_elem st m s : is_array st n m -> good_sub ev idx s ->
  exists st' e t, global ev st (elem n s) = Val (RVar (oute st) n (idx s)) st' /\ at_arr st' n m e /\ frame st st' n /\
    on (e_base e) DEFINED = true /\ get_t e (idx s) = Some t.
Proof.
  intros HA (H1 & H2 & H3 & H4). unfold global. rewrite split_elem by assumption. cbn [subscript]. unfold evaluate.
  destruct (H4 st) as (b & ->). cbn [arith_asns bnd]. assert ((idx s <? 0) || (INT_MAX <? idx s) = false) as -> by lia. cbn [bnd].
  destruct (look_arr st n m (Some (idx s)) Hn HA (proj1 H3)) as (st' & e & t & -> & X). eauto 10.
Qed.
Lemma global_base st m : is_array st n m ->
  exists st' e, global ev st n = Val (RVar (oute st) n 0) st' /\ at_arr st' n m e /\ frame st st' n /\ on (e_base e) DEFINED = true.
Proof.
  intros HA. unfold global. rewrite split_ref_plain by (apply is_name_no_bracket, Hn). cbn [subscript bnd].
  destruct (look_arr st n m None Hn HA I) as (st' & e & t & -> & X & Y & Z & _). eauto 10.
Qed.
Lemma frame_oute st st' x : frame st st' x -> oute st' = oute st.
Proof. intros [H _]. unfold oute. rewrite H. reflexivity. Qed.
Lemma global_defined st m e : at_arr st n m e -> on (e_base e) DEFINED = true -> global ev st n = Val (RVar (oute st) n 0) st.
Proof.
  intros HA Hd. apply global_plain; [|apply is_name_no_bracket, Hn|apply is_name_letter, Hn].
  apply find_block_some. rewrite (find_arr _ _ _ _ HA), Hd. reflexivity.
Qed.
Lemma upd_same m i v j : upd m i v j = if j =? i then v else m j. Proof. reflexivity. Qed.

(** the end of typeset: export of element 0 *)
Lemma typeset_end_arr st m e i t v : at_arr st n m e -> get_t e i = Some t ->
  exists st', typeset_end ev st (RVar (oute st) n i) (oute st) n (Some v) 0 = Val (Some (RVar (oute st) n i)) st' /\
    (exists e', at_arr st' n (upd m i (Some v)) e') /\ frame st st' n.
Proof.
  intros HA Hg. unfold typeset_end. assert (deref st (RVar (oute st) n i) = Some t) as HD by (cbn [deref]; rewrite (proj1 (proj2 (proj2 HA))); exact Hg).
  rewrite HD. assert (plain_t t) as Hp by (eapply HA; eauto). destruct (plain_bits _ (proj1 Hp)) as (I1 & I2 & _). rewrite I1.
  destruct (setstr_arr ev st n m e i t v false true HA Hg) as (st1 & e1 & t1 & -> & H1 & F1 & G1 & _). cbn [bnd].
  rewrite <- (frame_oute _ _ _ F1) in *. set (m1 := upd m i (Some v)) in *. clearbody m1.
  assert (deref st1 (RVar (oute st1) n 0) = Some (e_base e1)) as -> by (cbn [deref]; rewrite (proj1 (proj2 (proj2 H1))); reflexivity).
  assert (plain_t (e_base e1)) as Hb by (apply (proj1 (proj2 (proj2 (proj2 H1))) 0 (e_base e1)); reflexivity).
  destruct (on (e_base e1) EXPORT && negb (on (e_base e1) INTEGER) && (t_type (e_base e1) =? 0)) eqn:E; [|eauto 10].
  apply andb_true_iff in E. destruct E as [E E3]. apply andb_true_iff in E. destruct E as [E1 E2]. apply Z.eqb_eq in E3. apply negb_true_iff in E2.
  assert (forall s, on (e_base e1) ISSET = true -> t_val (e_base e1) = VStr s -> text (e_base e1) = Ok s) as HT.
  { intros s Hs Hv. unfold text, str_val. rewrite Hs, E2, Hv, E3. cbn [negb].
    assert ((0 <=? 0) && (0 <=? strlen s) = true) as -> by (unfold strlen; lia). reflexivity. }
  assert (forall s, (on (e_base e1) ISSET = true -> t_val (e_base e1) = VStr s) -> at_arr (assign_t st1 (RVar (oute st1) n 0) (export n (e_base e1) s)) n m1 (put_t e1 0 (export n (e_base e1) s)) /\
    frame st1 (assign_t st1 (RVar (oute st1) n 0) (export n (e_base e1) s)) n) as HX.
  { intros s Hs. assert (on (export n (e_base e1) s) ISSET = on (e_base e1) ISSET) as EI by (unfold export; fl; reflexivity).
    destruct (write_arr st1 n m1 e1 0 (e_base e1) (export n (e_base e1) s) (m1 0) H1 eq_refl (wrel_export _ _ _)) as [X Y].
    - destruct Hb as [P Q]. split; [unfold on in *; unfold export; cbn [t_flag]; rewrite PLAIN_lor by reflexivity; exact P|].
      intros _. eexists. split; [reflexivity|]. cbn. unfold strlen. rewrite app_length. cbn [length]. lia.
    - rewrite EI. rewrite <- (proj2 (proj2 (proj2 (proj2 (proj2 H1)))) 0). unfold valof, get_t. cbn. destruct (on (e_base e1) ISSET) eqn:Is; [|reflexivity].
      f_equal. rewrite text_export by assumption. symmetry. apply HT; auto.
    - split; [|assumption]. destruct X as (X1 & X2 & X3 & X4). split; [assumption|]. split; [assumption|]. split; [assumption|].
      eapply tidy_ext; [exact X4|]. intros j. unfold upd. destruct (Z.eqb_spec j 0); congruence. }
  destruct (on (e_base e1) ISSET) eqn:Is.
  - destruct (proj2 Hb Is) as (s & Hs & _). rewrite Hs. destruct (HX s) as [X Y]; [auto|]. eexists. split; [reflexivity|]. split; [eauto|].
    eapply frame_trans; eauto.
  - destruct (HX []) as [X Y]; [discriminate|]. eexists. split; [reflexivity|]. split; [eauto|]. eapply frame_trans; eauto.
Qed.
Lemma typeset_var_arr st m e i t tvar v : at_arr st n m e -> on (e_base e) DEFINED = true -> get_t e i = Some t -> arrayname tvar = n ->
  (on t ARRAY = false -> i = 0) ->
  exists st', typeset_var ev fuel st (RVar (oute st) n i) tvar (Some v) 0 0 0 0 = Val (Some (RVar (oute st) n i)) st' /\
    (exists e', at_arr st' n (upd m i (Some v)) e') /\ frame st st' n.
Proof.
  intros HA Hd Hg Ht Hi. unfold typeset_var. assert (deref st (RVar (oute st) n i) = Some t) as HD by (cbn [deref]; rewrite (proj1 (proj2 (proj2 HA))); exact Hg).
  rewrite HD. assert ((if on t ARRAY then global ev st (arrayname tvar) else Val (RVar (oute st) n i) st) = Val (RVar (oute st) n 0) st) as ->.
  { destruct (on t ARRAY); [rewrite Ht; eapply global_defined; eauto|rewrite Hi by reflexivity; reflexivity]. }
  cbn [bnd]. assert (rd_only st (RVar (oute st) n 0) = false) as ->.
  { unfold rd_only. cbn [deref]. rewrite (proj1 (proj2 (proj2 HA))). cbn. apply plain_bits. apply (proj1 (proj2 (proj2 (proj2 HA))) 0 (e_base e)). reflexivity. }
  cbn [andb]. change (N.lor 0 0 =? 0)%N with true. cbn [bnd]. eapply typeset_end_arr; eauto.
Qed.
Lemma arr_array st m e i t : at_arr st n m e -> get_t e i = Some t -> i <> 0 -> on (e_base e) ARRAY = true.
Proof.
  intros (_ & _ & _ & (_ & B & _)) Hg Hi. apply B. unfold get_t in Hg. destruct (Z.eqb_spec i 0); [congruence|]. intros X. rewrite X in Hg. discriminate.
Qed.
Lemma fill_ext m m' i vals : (forall j, m j = m' j) -> forall j, fill m i vals j = fill m' i vals j.
Proof.
  revert m m' i. induction vals as [|v vals IH]; intros m m' i H j; cbn [fill]; [apply H|]. apply IH. intros x. unfold upd. rewrite H. reflexivity.
Qed.
Lemma set_elems_arr vals : forall st m e i, 0 <= i -> at_arr st n m e ->
  exists st', set_elems ev st (oute st) n i vals = Val tt st' /\ (exists e', at_arr st' n (fill m i vals) e') /\ frame st st' n.
Proof.
  induction vals as [|v vals IH]; intros st m e i Hi HA; cbn [set_elems fill]; [eexists; split; [reflexivity|]; split; [eauto|apply frame_refl]|].
  pose proof HA as (A & B & C & D). rewrite C. set (st1 := put st (oute st) n (arraysearch e i)).
  pose proof (wf_entry _ _ _ _ A C) as We.
  assert (at_arr st1 n m (arraysearch e i)) as H1.
  { apply put_at_arr; auto; [apply A| |apply tidy_arraysearch; auto; apply We]. apply wf_put; [assumption|]. apply wf_arraysearch; [assumption|split; [lia|apply is_name_no_bracket, Hn]]. }
  assert (frame st st1 n) as F1 by apply frame_put.
  destruct (get_arraysearch_defined e i (proj1 We)) as (t & Ht).
  rewrite <- (frame_oute _ _ _ F1).
  destruct (setstr_arr ev st1 n m _ i t v false false H1 Ht) as (st2 & e2 & t2 & -> & H2 & F2 & _). cbn [bnd].
  rewrite <- (frame_oute _ _ _ F2). destruct (IH st2 _ _ (i + 1) ltac:(lia) H2) as (st3 & -> & H3 & F3).
  eexists. split; [reflexivity|]. split; [exact H3|]. eauto using frame_trans.
Qed.
Lemma unset_all_arr st m e : at_arr st n m e -> exists e', at_arr (unset st (RVar (oute st) n 0) false) n (fun _ => None) e' /\
  frame st (unset st (RVar (oute st) n 0) false) n.
Proof.
  intros (A & B & C & D). pose proof (wf_unset st (oute st) n 0 false A) as Hw. unfold unset in *. cbn [deref] in *. rewrite C in *. unfold get_t in *. cbn [Z.eqb] in *.
  rewrite N.land_0_r in *. destruct (on (e_base e) ARRAY) eqn:E; cbn [andb negb] in *.
  - eexists. split; [|apply frame_put]. apply put_at_arr; auto; [apply A|]. split; [|split].
    + intros i t. unfold get_t. cbn. destruct (Z.eqb_spec i 0); [|discriminate]. intros [= <-]. split; [split; [reflexivity|discriminate]|congruence].
    + cbn. congruence.
    + intros i. unfold valof, get_t. cbn. destruct (i =? 0); reflexivity.
  - cbn [assign_t] in *. rewrite C in *. eexists. split; [|apply frame_put]. apply put_at_arr; auto; [apply A|].
    assert (e_elems e = []) as En. { destruct (e_elems e) eqn:X; [reflexivity|]. destruct D as (_ & D & _). rewrite D in E; [discriminate|rewrite X; discriminate]. }
    unfold put_t. cbn [Z.eqb]. rewrite En. split; [|split].
    + intros i t. unfold get_t. cbn. destruct (Z.eqb_spec i 0); [|discriminate]. intros [= <-]. split; [split; [reflexivity|discriminate]|congruence].
    + cbn. congruence.
    + intros i. unfold valof, get_t. cbn. destruct (i =? 0); reflexivity.
Qed.

Lemma get_arr st m e i t : at_arr st n m e -> get_t e i = Some t ->
  exists st', (match deref st (RVar (oute st) n i) with
    | None => Val None st
    | Some t => match str_val t with
                | Ok (s, w) => Val (if on t ISSET then Some s else None) (assign_t st (RVar (oute st) n i) (set_field t w))
                | _ => Bad
                end
    end) = Val (m i) st' /\ exists e', at_arr st' n m e' /\ frame st st' n.
Proof.
  intros HA Hg. pose proof HA as (A & B & C & D). cbn [deref]. rewrite C, Hg. assert (plain_t t) as Hp by (apply (proj1 D _ _ Hg)).
  pose proof (proj2 (proj2 D) i) as HV. unfold valof in HV. rewrite Hg in HV. unfold text in HV.
  destruct (plain_bits _ (proj1 Hp)) as (I1 & _).
  assert (exists s, str_val t = Ok (s, t_field t)) as (s & Hs).
  { unfold str_val. destruct (on t ISSET) eqn:Is; cbn [negb]; [|eauto]. rewrite I1. cbn [negb]. destruct (proj2 Hp Is) as (s & -> & Hr).
    assert ((0 <=? t_type t) && (t_type t <=? strlen s) = true) as -> by lia. eauto. }
  rewrite Hs in *. assert (set_field t (t_field t) = t) as -> by (destruct t; reflexivity).
  assert ((if on t ISSET then Some s else None) = m i) as ->. { destruct (on t ISSET), (m i); cbn in HV; congruence. }
  destruct (write_arr st n m e i t t (m i) HA Hg (wrel_refl _) Hp) as [X Y].
  { unfold text. rewrite Hs. exact HV. }
  eexists. split; [reflexivity|]. eexists. split; [|exact Y]. destruct X as (X1 & X2 & X3 & X4). split; [assumption|]. split; [assumption|]. split; [eassumption|].
  eapply tidy_ext; [exact X4|]. intros j. unfold upd. destruct (Z.eqb_spec j i); congruence.
Qed.
Lemma arr_step st m o : is_array st n m -> (forall s, In s (subs o) -> good_sub ev idx s) ->
  exists st', step ev fuel st (command n o) = Val true st' /\ is_array st' n (meaning idx o m) /\ frame st st' n.
Proof.
  intros HA HS. pose proof (is_name_no_bracket _ Hn) as Hb. destruct o as [s v|v|s v|s| |r vals|s|]; cbn [command meaning step].
  - destruct (HS s) as (G1 & G2 & G3 & G4); [left; reflexivity|].
    unfold typeset. rewrite typeset_name_elem by assumption. change (any 0 LOCAL) with false. cbn iota.
    destruct (global_elem st m s HA (conj G1 (conj G2 (conj G3 G4)))) as (st1 & e & t & -> & H1 & F1 & Hd & Hg). cbn [bnd]. change (N.ldiff 0 (N.lor LOCAL LOCAL_COPY)) with 0%N.
    rewrite <- (frame_oute _ _ _ F1).
    destruct (typeset_var_arr st1 m e (idx s) t (elem n s) v H1 Hd Hg (arrayname_elem _ _ Hn)) as (st2 & -> & (e2 & H2) & F2).
    { intros X. destruct (Z.eq_dec (idx s) 0); [assumption|exfalso].
      rewrite (proj2 (proj1 (proj2 (proj2 (proj2 H1))) _ _ Hg)) in X by assumption. discriminate. }
    cbn [bnd]. eexists. split; [reflexivity|]. split; [eapply at_arr_is; eauto|eauto using frame_trans].
  - unfold typeset. rewrite typeset_name_scalar by assumption. change (any 0 LOCAL) with false. cbn iota.
    destruct (global_base st m HA) as (st1 & e & -> & H1 & F1 & Hd). cbn [bnd]. change (N.ldiff 0 (N.lor LOCAL LOCAL_COPY)) with 0%N.
    rewrite <- (frame_oute _ _ _ F1).
    destruct (typeset_var_arr st1 m e 0 (e_base e) n v H1 Hd eq_refl (arrayname_id _ Hb)) as (st2 & -> & (e2 & H2) & F2); [auto|].
    cbn [bnd]. eexists. split; [reflexivity|]. split; [eapply at_arr_is; eauto|eauto using frame_trans].
  - unfold c_read. destruct (global_elem st m s HA) as (st1 & e & t & -> & H1 & F1 & Hd & Hg); [apply HS; left; reflexivity|]. cbn [bnd].
    rewrite <- (frame_oute _ _ _ F1).
    assert (rd_only st1 (RVar (oute st1) n (idx s)) = false) as ->.
    { unfold rd_only. cbn [deref]. rewrite (proj1 (proj2 (proj2 H1))), Hg. apply plain_bits. apply (proj1 (proj2 (proj2 (proj2 H1))) _ _ Hg). }
    destruct (setstr_arr ev st1 n m e (idx s) t v false false H1 Hg) as (st2 & e2 & t2 & -> & H2 & F2 & _).
    eexists. split; [reflexivity|]. split; [eapply at_arr_is; eauto|eauto using frame_trans].
  - unfold c_unset. destruct (global_elem st m s HA) as (st1 & e & t & -> & H1 & F1 & Hd & Hg); [apply HS; left; reflexivity|]. cbn [bnd].
    rewrite <- (frame_oute _ _ _ F1).
    assert (rd_only st1 (RVar (oute st1) n (idx s)) = false) as ->.
    { unfold rd_only. cbn [deref]. rewrite (proj1 (proj2 (proj2 H1))), Hg. apply plain_bits. apply (proj1 (proj2 (proj2 (proj2 H1))) _ _ Hg). }
    assert (existsb (fun c => ceq c "[") (elem n s) = true) as ->.
    { apply existsb_exists. exists "["%char. split; [|reflexivity]. unfold elem. apply in_or_app. right. left. reflexivity. }
    eexists. split; [reflexivity|]. unfold unset. cbn [deref]. rewrite (proj1 (proj2 (proj2 H1))), Hg. rewrite andb_false_r.
    assert (plain_t t) as Hp by (apply (proj1 (proj2 (proj2 (proj2 H1))) _ _ Hg)).
    destruct (write_arr st1 n m e (idx s) t (set_flag t (N.land (t_flag t) (N.lor ARRAY DEFINED))) None H1 Hg) as [X Y].
    + apply wrel_flag; fl; reflexivity.
    + split; [unfold on; cbn [t_flag set_flag]; apply any_PLAIN_land, (proj1 Hp)|]. fl. discriminate.
    + fl. reflexivity.
    + split; [eapply at_arr_is; eauto|eauto using frame_trans].
  - unfold c_unset. destruct (global_base st m HA) as (st1 & e & -> & H1 & F1 & Hd). cbn [bnd].
    rewrite <- (frame_oute _ _ _ F1).
    assert (rd_only st1 (RVar (oute st1) n 0) = false) as ->.
    { unfold rd_only. cbn [deref]. rewrite (proj1 (proj2 (proj2 H1))). apply plain_bits. apply (proj1 (proj2 (proj2 (proj2 H1))) 0 (e_base e)). reflexivity. }
    assert (existsb (fun c => ceq c "[") n = false) as ->.
    { destruct (existsb (fun c => ceq c "[") n) eqn:X; [|reflexivity]. apply existsb_exists in X. destruct X as (c & Hc & Hq). apply ceq_true in Hq. subst. contradiction. }
    eexists. split; [reflexivity|]. destruct (unset_all_arr _ _ _ H1) as (e' & X & Y). split; [eapply at_arr_is; eauto|eauto using frame_trans].
  - rewrite Hn. unfold set_array. destruct (global_base st m HA) as (st1 & e & -> & H1 & F1 & Hd). cbn [bnd].
    rewrite <- (frame_oute _ _ _ F1).
    assert (rd_only st1 (RVar (oute st1) n 0) = false) as ->.
    { unfold rd_only. cbn [deref]. rewrite (proj1 (proj2 (proj2 H1))). apply plain_bits. apply (proj1 (proj2 (proj2 (proj2 H1))) 0 (e_base e)). reflexivity. }
    destruct r.
    + destruct (unset_all_arr _ _ _ H1) as (e' & X & Y). set (stu := unset _ _ _) in *. rewrite <- (frame_oute _ _ _ Y).
      destruct (set_elems_arr vals _ _ _ 0 (Z.le_refl 0) X) as (st2 & -> & (e2 & H2) & F2). cbn [bnd].
      eexists. split; [reflexivity|]. split; [eapply at_arr_is; eauto|eauto using frame_trans].
    + destruct (set_elems_arr vals _ _ _ 0 (Z.le_refl 0) H1) as (st2 & -> & (e2 & H2) & F2). cbn [bnd].
      eexists. split; [reflexivity|]. split; [eapply at_arr_is; eauto|eauto using frame_trans].
  - unfold get. destruct (global_elem st m s HA) as (st1 & e & t & -> & H1 & F1 & Hd & Hg); [apply HS; left; reflexivity|]. cbn [bnd].
    rewrite <- (frame_oute _ _ _ F1). destruct (get_arr st1 m e (idx s) t H1 Hg) as (st2 & X & e2 & H2 & F2).
    rewrite X. cbn [bnd]. eexists. split; [reflexivity|]. split; [eapply at_arr_is; eauto|eauto using frame_trans].
  - unfold get_all. change (n ++ L "[*]") with (elem n (L "*")). rewrite arrayname_elem by assumption.
    destruct (global_base st m HA) as (st1 & e & -> & H1 & F1 & Hd). cbn [bnd]. rewrite <- (frame_oute _ _ _ F1), (proj1 (proj2 (proj2 H1))). cbn [bnd].
    eexists. split; [reflexivity|]. split; [eapply at_arr_is; eauto|assumption].
Qed.

(** reading one element *)
Lemma get_val st m s : is_array st n m -> good_sub ev idx s -> exists st', get ev st (elem n s) = Val (m (idx s)) st'.
Proof.
  intros HA HS. unfold get. destruct (global_elem st m s HA HS) as (st1 & e & t & -> & H1 & F1 & Hd & Hg). cbn [bnd].
  rewrite <- (frame_oute _ _ _ F1). destruct (get_arr st1 m e (idx s) t H1 Hg) as (st2 & X & _). rewrite X. eauto.
Qed.

(** ** All the elements *)
Definition indices (e : ent) : list Z := (if on (e_base e) ISSET then [0] else []) ++ map t_index (filter (fun t => on t ISSET) (e_elems e)).
Lemma increasing_in t l : forall lo, increasing lo l -> In t l -> lo < t_index t.
Proof.
  induction l as [|y l IH]; intros lo HI H; [destruct H|]. destruct HI as [A B]. destruct H as [->|H]; [assumption|]. specialize (IH _ B H). lia.
Qed.
Lemma find_elem_in l i : forall lo, increasing lo l -> lo < i -> forall t, find_elem l i = Some t <-> In t l /\ t_index t = i.
Proof.
  induction l as [|x l IH]; intros lo H Hi t; cbn [find_elem In increasing] in *; [split; [discriminate|tauto]|].
  destruct H as [H1 H2]. destruct (Z.eqb_spec (t_index x) i) as [E|E].
  - split; [intros [= <-]; auto|]. intros [[->|X] Y]; [reflexivity|exfalso].
    pose proof (increasing_in _ _ _ H2 X). lia.
  - destruct (Z.lt_ge_cases (t_index x) i) as [L0|L0].
    + rewrite (IH _ H2 L0). split; [tauto|]. intros [[->|X] Y]; [congruence|auto].
    + split.
      * intros X. exfalso. pose proof (find_elem_index _ _ _ X) as Y.
        assert (In t l) as W. { clear - X. induction l as [|y l IH]; cbn in X; [discriminate|]. destruct (t_index y =? i); [left; congruence|right; auto]. }
        pose proof (increasing_in _ _ _ H2 W). lia.
      * intros [[->|X] Y]; [congruence|]. pose proof (increasing_in _ _ _ H2 X). lia.
Qed.
Lemma increasing_filter l : forall lo, increasing lo l -> StronglySorted Z.lt (lo :: map t_index (filter (fun t => on t ISSET) l)).
Proof.
  induction l as [|x l IH]; intros lo; cbn [increasing filter map]; [repeat constructor|]. intros [A B]. specialize (IH _ B).
  destruct (on x ISSET); cbn [map].
  - constructor; [assumption|]. constructor; [assumption|]. inversion IH as [|? ? S1 S2]. eapply Forall_impl; [|exact S2]. cbn. intros; lia.
  - inversion IH as [|? ? S1 S2]. constructor; [assumption|]. eapply Forall_impl; [|exact S2]. cbn. intros; lia.
Qed.
Lemma indices_sorted e : increasing 0 (e_elems e) -> StronglySorted Z.lt (indices e).
Proof.
  intros H. apply increasing_filter in H. unfold indices. destruct (on (e_base e) ISSET); cbn [app]; [assumption|]. inversion H. assumption.
Qed.
Lemma indices_in e i : increasing 0 (e_elems e) -> (In i (indices e) <-> valof e i <> None).
Proof.
  intros H. unfold indices, valof, get_t. rewrite in_app_iff. destruct (Z.eqb_spec i 0) as [->|Hi].
  - assert (~ In 0 (map t_index (filter (fun t => on t ISSET) (e_elems e)))) as N0.
    { intros X. apply increasing_filter in H. inversion H as [|? ? S1 S2]. rewrite Forall_forall in S2. specialize (S2 _ X). lia. }
    destruct (on (e_base e) ISSET); cbn; split; intros; try tauto; try congruence.
  - assert (forall lo, 0 <= lo -> increasing lo (e_elems e) -> forall t, In t (e_elems e) -> 0 < t_index t) as Hp.
    { intros lo Hlo HI t Ht. pose proof (increasing_in _ _ _ HI Ht). lia. }
    split.
    + intros [X|X]; [destruct (on (e_base e) ISSET); [destruct X as [X|[]]; congruence|destruct X]|].
      apply in_map_iff in X. destruct X as (t & Ht & X). apply filter_In in X. destruct X as [X Y].
      pose proof (Hp 0 (Z.le_refl 0) H _ X). rewrite (proj2 (find_elem_in (e_elems e) i 0 H ltac:(lia) t)) by auto. rewrite Y. discriminate.
    + intros X. destruct (find_elem (e_elems e) i) as [t|] eqn:F; [|congruence]. destruct (on t ISSET) eqn:O; [|congruence].
      right. apply in_map_iff. exists t. split; [eapply find_elem_index; eauto|]. apply filter_In. split; [|assumption].
      clear - F. induction (e_elems e) as [|y l IH]; cbn in F; [discriminate|]. destruct (t_index y =? i); [left; congruence|right; auto].
Qed.
Lemma elems_texts e m : increasing 0 (e_elems e) -> tidy e m ->
  map text (elems_of e) = map (fun i => Ok (match m i with Some s => s | None => [] end)) (indices e).
Proof.
  intros H (A & B & C). assert (forall t i, get_t e i = Some t -> on t ISSET = true -> text t = Ok (match m i with Some s => s | None => [] end)) as HT.
  { intros t i Hg Hs. specialize (C i). unfold valof in C. rewrite Hg, Hs in C. destruct (m i); cbn in C; congruence. }
  unfold elems_of, indices. cbn [filter]. rewrite map_app, map_map.
  assert (map text (filter (fun t => on t ISSET) (e_elems e)) = map (fun t => Ok match m (t_index t) with Some s => s | None => [] end) (filter (fun t => on t ISSET) (e_elems e))) as E.
  { apply map_ext_in. intros t Ht. apply filter_In in Ht. destruct Ht as [Ht Hs]. apply HT; [|assumption].
    assert (0 < t_index t) as Hp.
    { apply (increasing_in _ _ _ H Ht). }
    unfold get_t. destruct (Z.eqb_spec (t_index t) 0); [lia|]. apply (find_elem_in _ _ 0 H); auto. }
  destruct (on (e_base e) ISSET) eqn:Is; cbn [map app]; rewrite E; [|reflexivity]. f_equal. apply HT; [reflexivity|assumption].
Qed.
Lemma all_vals st m : is_array st n m ->
  exists l, StronglySorted Z.lt l /\ (forall i, In i l <-> m i <> None) /\
    (exists vs st', get_all ev st (n ++ L "[*]") = Val vs st' /\
       map (fun r => match r with Ok (s, _) => Some s | _ => None end) vs = map m l) /\
    (exists st', count_all ev st (n ++ L "[*]") = Val (Z.of_nat (length l)) st').
Proof.
  intros HA. destruct (global_base st m HA) as (st1 & e & G & H1 & F1 & Hd). pose proof H1 as (W1 & W2 & W3 & W4).
  pose proof (proj1 (wf_entry _ _ _ _ W1 W3)) as Hi. exists (indices e). split; [apply indices_sorted; assumption|].
  assert (forall i, In i (indices e) <-> m i <> None) as HI.
  { intros i. rewrite indices_in by assumption. rewrite (proj2 (proj2 W4)). destruct (m i); cbn; split; congruence. }
  split; [assumption|]. unfold get_all, count_all. change (n ++ L "[*]") with (elem n (L "*")). rewrite arrayname_elem by assumption. rewrite G.
  cbn [bnd]. rewrite <- (frame_oute _ _ _ F1), W3. split.
  - eexists _, _. split; [reflexivity|]. pose proof (elems_texts _ _ Hi W4) as E. rewrite map_map.
    assert (forall l l', map text l = map (fun i => Ok (match m i with Some s => s | None => [] end)) l' -> (forall i, In i l' -> m i <> None) ->
      map (fun x => match str_val x with Ok (s, _) => Some s | _ => None end) l = map m l') as Q.
    { clear. induction l as [|t l IH]; intros [|i l'] H HN; try discriminate; [reflexivity|]. cbn [map] in *. injection H as H0 H. f_equal.
      - unfold text in H0. specialize (HN i (or_introl eq_refl)). destruct (str_val t) as [[s w]| |]; try discriminate. destruct (m i); congruence.
      - apply IH; [assumption|]. intros j Hj. apply HN. right. exact Hj. }
    apply Q; [assumption|]. intros i X. apply HI. exact X.
  - eexists. f_equal. f_equal. f_equal. rewrite <- (map_length text (elems_of e)), (elems_texts _ _ Hi W4), map_length. reflexivity.
Qed.
End A.
