(** The settings follow the variables. *)
From Verif Require Import Base Num_model Num_spec Special_model Special_spec Special_proof.
Local Open Scope Z_scope.

Definition vtext (o : option var) : option cstr :=
  match o with Some v => if isset v then match value v with VStr s => Some s | _ => None end else None | None => None end.
Definition good (v : var) : Prop :=
  (defined v = true -> special v = true) /\ integer v = false /\ (isset v = true -> defined v = true /\ exists s, value v = VStr s) /\ (rdonly v = true -> defined v = true).
Definition goods (l : list (option var)) : Prop := forall v, In (Some v) l -> good v.
Lemma good_fresh : good fresh.
Proof. unfold good. cbn. sp; auto; discriminate. Qed.
Lemma goods_nth l k : goods l -> good (nthl l k).
Proof. intros G. unfold nthl. destruct (nth_error l k) as [[v|]|] eqn:E; try apply good_fresh. apply G. eapply nth_error_In; eauto. Qed.
Lemma goods_upd l k v : goods l -> good v -> goods (updl l k (Some v)).
Proof. intros G H w W. apply updl_In in W. destruct W as [W|W]; [auto|congruence]. Qed.

Section Own.
Variable ev : cstr -> option Z.
Variable usable_dir : cstr -> bool.
Variable def_path : cstr.
Variable rand : Z -> Z -> Z.
Variable i : id.
Notation n := (name_of i).
Hypothesis Hi : In (n, i) followed.
Notation agrees := (agrees usable_dir def_path).

Lemma six : i = V_PATH \/ i = V_IFS \/ i = V_TMPDIR \/ i = V_HISTCONTROL \/ i = V_MAIL \/ i = V_MAILPATH.
Proof. clear ev rand. destruct Hi as [H|[H|[H|[H|[H|[H|[]]]]]]]; injection H; auto 8. Qed.
Lemma not_visual : i <> V_VISUAL.
Proof. clear ev rand. destruct six as [-> |[-> |[-> |[-> |[-> | ->]]]]]; discriminate. Qed.

(** the part about this variable but the setting *)
Record base (st : state) : Prop := {
  b_goods : goods (ol st n); b_id : special_id st n = Some i; b_cons : consistent st; b_len : (0 < length (blocks st))%nat }.
Definition inv (st : state) : Prop := base st /\ agrees i (vtext (visl (ol st n))) st.

Lemma agrees_texts t st st' : (forall k, tid k = i -> texts st' k = texts st k) -> agrees i t st -> agrees i t st'.
Proof.
  clear ev rand. intros F. destruct six as [E|[E|[E|[E|[E|E]]]]]; rewrite E in *; cbn; rewrite ?(F X_path), ?(F X_ifs), ?(F X_ifs0), ?(F X_tmpdir), ?(F X_histcontrol), ?(F X_mail), ?(F X_mailpath) by reflexivity; auto.
Qed.
Lemma base_frame st st' : frame i st st' -> base st -> base st'.
Proof. intros [] []. constructor; try rewrite f_ol; try rewrite f_len; try congruence; auto. Qed.
Lemma inv_frame st st' : frame i st st' -> inv st -> inv st'.
Proof. intros F [B A]. split; [eapply base_frame; eauto|]. destruct F. rewrite f_ol. eapply agrees_texts; eauto. Qed.
Lemma ol_length st : length (ol st n) = length (blocks st).
Proof. apply map_length. Qed.
Lemma base_put st k v : base st -> good v -> base (put st k n v).
Proof. intros [] G. constructor; auto; [|now rewrite put_length]. rewrite ol_put, str_eqb_refl. now apply goods_upd. Qed.

(** setspec and unsetspec on the variable itself *)
Lemma own_set st k s : special_id st n = Some i -> isset (get st k n) = true -> integer (get st k n) = false -> value (get st k n) = VStr s ->
  exists st', setspec usable_dir st k n = Ok_ tt st' /\ blocks st' = blocks st /\ specials st' = specials st /\ agrees i (Some s) st'.
Proof.
  clear ev rand. intros S I N V. unfold setspec. rewrite S. assert (T : str_of st k n = Ok_ s st) by (unfold str_of, text_of; now rewrite I, N, V).
  destruct six as [E|[E|[E|[E|[E|E]]]]]; rewrite E in *; rewrite T; cbn [bind]; eexists; (split; [reflexivity|]); (split; [reflexivity|]); (split; [reflexivity|]).
  - reflexivity.
  - cbn. split; [reflexivity|]. destruct s; reflexivity.
  - cbn. destruct s as [|c r].
    + split; [intros ? ? [= <-]; discriminate|]. intros d D. discriminate.
    + split.
      * intros s r0 [= <-] [= -> ->] U. rewrite ceq_refl, U. reflexivity.
      * intros d. destruct (ceq c "/") eqn:C; [|discriminate]. cbn [andb]. destruct (usable_dir (c :: r)) eqn:U; [|discriminate]. intros [= <-]. apply ceq_true in C. subst c. sp; eauto.
  - reflexivity.
  - reflexivity.
  - reflexivity.
Qed.
Lemma own_unset st : special_id st n = Some i -> exists st', unsetspec def_path st n = st' /\ blocks st' = blocks st /\ specials st' = specials st /\ agrees i None st'.
Proof.
  clear ev rand. intros S. unfold unsetspec. rewrite S. destruct six as [E|[E|[E|[E|[E|E]]]]]; rewrite E in *; eexists; (split; [reflexivity|]); (split; [reflexivity|]); (split; [reflexivity|]); cbn; auto.
  split; discriminate.
Qed.
Lemma base_same st st' : blocks st' = blocks st -> specials st' = specials st -> base st -> base st'.
Proof. intros B S []. constructor; unfold ol, special_id, consistent in *; unfold special_id in *; rewrite ?B, ?S; auto. Qed.

(** finding the variable *)
Lemma own_global st : base st -> exists k v, fst (global st n) = k /\ base (snd (global st n)) /\ get (snd (global st n)) k n = v /\ defined v = true /\ (k < length (blocks (snd (global st n))))%nat /\
  (forall w, defined w = true -> visl (updl (ol (snd (global st n)) n) k (Some w)) = Some w) /\ visl (ol (snd (global st n)) n) = Some v /\
  vtext (visl (ol (snd (global st n)) n)) = vtext (visl (ol st n)) /\ texts (snd (global st n)) = texts st /\
  (updl (ol (snd (global st n)) n) k (Some (Var false false (special v) false false VNone)) = updl (ol st n) k (Some (Var false false (special v) false false VNone))).
Proof.
  intros B. pose proof B as [G SI C LN]. unfold global. rewrite find_ol. destruct (findl (ol st n)) as [k|] eqn:F; cbn [fst snd].
  - destruct (findl_some _ _ F) as (v & A1 & A2 & A3). exists k, v. sp; auto.
    + rewrite get_ol. unfold nthl. now rewrite A1.
    + rewrite <- ol_length. now apply findl_lt.
    + intros w W. now apply visl_upd_found.
  - set (k := (length (blocks st) - 1)%nat). assert (K : (k < length (ol st n))%nat) by (rewrite ol_length; unfold k; lia).
    set (v := Var true (isset (get st k n)) (special (get st k n) || is_some (special_id st n)) (integer (get st k n)) (rdonly (get st k n)) (value (get st k n))).
    assert (Gk : good (get st k n)) by (rewrite get_ol; now apply goods_nth). destruct Gk as (G1 & G2 & G3 & G4).
    assert (GF : defined (get st k n) = false).
    { rewrite get_ol. unfold nthl. destruct (nth_error (ol st n) k) as [[w|]|] eqn:E; auto. destruct (defined w) eqn:DW; auto.
      exfalso. clear - F E DW. revert F. generalize dependent k. induction (ol st n) as [|o l IH]; intros [|k] E; cbn in *; try discriminate.
      - injection E as ->. now rewrite DW.
      - destruct o as [x|]; [destruct (defined x); [discriminate|]|]; destruct (findl l) eqn:Fl; try discriminate; intros _; eapply IH; eauto. }
    assert (IF : isset (get st k n) = false) by (destruct (isset (get st k n)); auto; destruct G3 as [G3 _]; auto; congruence).
    assert (VG : good v). { unfold v, good. cbn. rewrite SI. cbn. rewrite orb_true_r. sp; auto. rewrite IF. discriminate. }
    exists k, v. unfold enter. fold v. assert (OL : ol (put st k n v) n = updl (ol st n) k (Some v)) by now rewrite ol_put, str_eqb_refl.
    sp; auto.
    + now apply base_put.
    + rewrite get_ol, OL. now apply nth_updl.
    + rewrite put_length. unfold k. lia.
    + intros w W. rewrite OL, updl_twice. apply visl_upd_none; auto.
    + rewrite OL. apply visl_upd_none; auto.
    + rewrite OL. rewrite (visl_upd_none _ _ _ F K) by reflexivity. rewrite (findl_none _ F). cbn. now rewrite IF.
    + now rewrite OL, updl_twice.
Qed.

(** giving it a value *)
Lemma own_assign st k s soft ro : base st -> (k < length (blocks st))%nat -> defined (get st k n) = true -> rdonly (get st k n) && negb ro = false ->
  (forall w, defined w = true -> visl (updl (ol st n) k (Some w)) = Some w) -> post (setstr ev usable_dir st k n s soft ro) inv.
Proof.
  intros B K D R V. unfold setstr. rewrite R. assert (G : good (get st k n)) by (rewrite get_ol; apply goods_nth; apply B). destruct G as (G1 & G2 & G3 & G4). rewrite G2, (G1 D). cbv zeta.
  set (v := Var (defined (get st k n)) true true false (rdonly (get st k n)) (VStr s)).
  assert (GV : good v) by (unfold v, good; cbn; sp; eauto). pose proof (base_put st k v B GV) as B'.
  assert (OL : ol (put st k n v) n = updl (ol st n) k (Some v)) by now rewrite ol_put, str_eqb_refl.
  assert (GE : get (put st k n v) k n = v) by (rewrite get_ol, OL; apply nth_updl; rewrite ol_length; auto).
  destruct (own_set (put st k n v) k s) as (st' & S1 & S2 & S3 & S4); try (rewrite GE; reflexivity); [apply B'|].
  rewrite S1. cbn. split; [eapply base_same; eauto|]. replace (ol st' n) with (ol (put st k n v) n) by (unfold ol; now rewrite S2). rewrite OL, (V v D). exact S4.
Qed.

(** * The operations *)
Lemma inv_assign st s : inv st -> post (let '(k, st) := global st n in setstr ev usable_dir st k n s false false) inv.
Proof.
  intros [B A]. destruct (own_global st B) as (k & v & H1 & H2 & H3 & H4 & H5 & H6 & H7 & H8 & H9 & _). destruct (global st n) as [k' st']. cbn [fst snd] in *. subst k'.
  destruct (rdonly (get st' k n)) eqn:R.
  - unfold setstr. rewrite R. cbn. split; auto. rewrite H8. eapply agrees_texts; [|exact A]. intros j _. now rewrite H9.
  - apply own_assign; auto; rewrite ?H3; auto. rewrite H3 in R. now rewrite R.
Qed.
Lemma ol0 st : (0 < length (blocks st))%nat -> exists o l, ol st n = o :: l.
Proof. unfold ol. destruct (blocks st); cbn; [lia|]. eauto. Qed.
Lemma inv_typeset st s copy : inv st -> (copy = true -> forall v, visl (ol st n) = Some v -> rdonly v = false) -> post (typeset ev usable_dir st n (Some s) copy) inv.
Proof.
  intros [B A] R. unfold typeset, local. set (q := if copy && negb (defined (get st 0 n)) then _ else _).
  assert (G0 : good (get st 0 n)) by (rewrite get_ol; apply goods_nth; apply B).
  destruct (ol0 st (b_len _ B)) as (o0 & l0 & OL).
  assert (Q : q = get st 0 n \/ (defined (get st 0 n) = false /\ good q /\ rdonly q = false)).
  { unfold q. destruct (copy && negb (defined (get st 0 n))) eqn:CD; [|now left]. apply andb_prop in CD. destruct CD as [-> CD]. apply negb_true_iff in CD.
    destruct (find_block (tl (blocks st)) n) as [k|] eqn:F; [|now left]. right. 
    assert (F' : findl (ol st n) = Some (S k)).
    { unfold ol. destruct (blocks st) as [|b l] eqn:BL; [discriminate|]. cbn [tl] in F. cbn [map findl]. pose proof (find_ol (set_blocks st l) n) as X. cbn [set_blocks blocks] in X. unfold ol in X. cbn [set_blocks blocks] in X. rewrite F in X. rewrite <- X.
      unfold get in CD. rewrite BL in CD. cbn in CD. destruct (look b n) as [w|]; [rewrite CD|]; reflexivity. }
    destruct (findl_some _ _ F') as (w & A1 & A2 & A3). pose proof (R eq_refl w A3) as RW. assert (GW : get st (S k) n = w) by (rewrite get_ol; unfold nthl; now rewrite A1). rewrite GW.
    destruct G0 as (G1 & G2 & G3 & G4). assert (G0R : rdonly (get st 0 n) = false) by (destruct (rdonly (get st 0 n)); auto; rewrite G4 in CD; auto; discriminate).
    assert (WG : good w) by (apply B; eapply nth_error_In; eauto). destruct WG as (W1 & W2 & _ & _).
    sp; auto; [|now rewrite G0R, RW]. unfold good. cbn. rewrite RW, W2, orb_false_r, orb_false_r, CD in *. sp; auto. }
  assert (GQ : good q) by (destruct Q as [-> |(_ & Q & _)]; auto).
  set (v := Var true (isset q) (special q || is_some (special_id st n)) (integer q) (rdonly q) (value q)).
  assert (SI : special_id st n = Some i) by apply B.
  assert (GV : good v). { destruct GQ as (G1 & G2 & G3 & G4). unfold v, good. cbn. rewrite SI. cbn. rewrite orb_true_r. sp; auto. intros H. split; auto. now apply G3. }
  assert (E1 : get (put st 0 n q) 0 n = q) by (rewrite get_ol, ol_put, str_eqb_refl; apply nth_updl; rewrite ol_length; apply B).
  unfold enter. rewrite E1. assert (E2 : special_id (put st 0 n q) n = special_id st n) by reflexivity. rewrite E2. fold v. set (st1 := put (put st 0 n q) 0 n v).
  assert (B1 : base st1) by (apply base_put; auto; now apply base_put).
  assert (OL1 : ol st1 n = Some v :: l0) by (unfold st1; rewrite !ol_put, str_eqb_refl, OL; reflexivity).
  assert (GE : get st1 0 n = v) by (rewrite get_ol, OL1; reflexivity). rewrite GE.
  destruct (rdonly v) eqn:RV.
  - cbn. split; auto. rewrite OL1. cbn [visl]. change (defined v) with true. cbn [vtext].
    assert (DQ : q = get st 0 n /\ defined (get st 0 n) = true). { destruct Q as [Q|(_ & _ & Q)]; [|cbn in RV; congruence]. split; auto. apply G0. rewrite <- Q. exact RV. }
    destruct DQ as [DQ1 DQ2]. assert (VS : visl (ol st n) = Some q).
    { rewrite DQ1. revert DQ2. rewrite get_ol, OL. unfold nthl. cbn. destruct o0 as [w|]; [|discriminate]. now intros ->. }
    rewrite VS in A. cbn [vtext] in A. unfold st1. eapply agrees_texts; [|exact A]. reflexivity.
  - apply own_assign; auto.
    + apply B1.
    + now rewrite GE.
    + now rewrite GE, RV.
    + intros w W. rewrite OL1. cbn. now rewrite W.
Qed.
Lemma inv_unset st : inv st -> (forall k, findl (ol st n) = Some k -> visl (updl (ol st n) k None) = None) -> post (unset def_path st n) inv.
Proof.
  intros [B A] U. unfold unset. destruct (own_global st B) as (k & v & H1 & H2 & H3 & H4 & H5 & H6 & H7 & H8 & H9 & H10).
  assert (VN : visl (updl (ol st n) k (Some (Var false false (special v) false false VNone))) = None).
  { assert (X : forall l j (w : var), defined w = false -> visl (updl l j (Some w)) = visl (updl l j None)) by (induction l as [|[x|] l IH]; intros [|j] w W; cbn; rewrite ?W; auto; destruct (defined x); auto).
    rewrite X by reflexivity. unfold global in H1. rewrite find_ol in H1. destruct (findl (ol st n)) as [j|] eqn:F; [cbn in H1; subst; auto|].
    assert (Y : forall l j, findl l = None -> visl (updl l j None) = None).
    { induction l as [|[x|] l IH]; intros [|j]; cbn; auto; [destruct (defined x) eqn:DX; [discriminate|]|destruct (defined x) eqn:DX; [discriminate|]| |]; destruct (findl l) eqn:Fl; try discriminate; intros _; auto using findl_none; now apply IH. }
    now apply Y. }
  destruct (global st n) as [k' st']. cbn [fst snd] in *. subst k'. rewrite H3. destruct (rdonly v) eqn:R.
  - cbn. split; auto. rewrite H8. eapply agrees_texts; [|exact A]. intros j _. now rewrite H9.
  - assert (G : good v) by (rewrite <- H3, get_ol; apply goods_nth; apply H2). destruct G as (G1 & _). rewrite (G1 H4) in *. cbn.
    set (w := Var false false true false false VNone) in *. assert (GW : good w) by (unfold good; cbn; sp; auto; discriminate).
    pose proof (base_put st' k w H2 GW) as B2. destruct (own_unset (put st' k n w)) as (st2 & S1 & S2 & S3 & S4); [apply B2|]. rewrite S1. split; [eapply base_same; eauto|].
    replace (ol st2 n) with (ol (put st' k n w) n) by (unfold ol; now rewrite S2). rewrite ol_put, str_eqb_refl, H10, VN. exact S4.
Qed.
Lemma inv_readonly st : inv st -> inv (let '(k, st) := global st n in let v := get st k n in put st k n (Var (defined v) (isset v) (special v) (integer v) true (value v))).
Proof.
  intros [B A]. destruct (own_global st B) as (k & v & H1 & H2 & H3 & H4 & H5 & H6 & H7 & H8 & H9 & _). destruct (global st n) as [k' st']. cbn [fst snd] in *. subst k'. rewrite H3.
  assert (G : good v) by (rewrite <- H3, get_ol; apply goods_nth; apply H2). destruct G as (G1 & G2 & G3 & G4). set (w := Var _ _ _ _ _ _).
  assert (GW : good w) by (unfold w, good; cbn; sp; auto). split; [now apply base_put|]. rewrite ol_put, str_eqb_refl. rewrite (H6 w H4).
  rewrite <- H8, H7 in A. eapply agrees_texts; [|exact A]. intros j _. cbn. now rewrite H9.
Qed.
Lemma inv_read st : inv st -> post (read ev usable_dir rand st n) inv.
Proof.
  intros [B A]. unfold read. destruct (own_global st B) as (k & v & H1 & H2 & H3 & H4 & H5 & H6 & H7 & H8 & H9 & _). destruct (global st n) as [k' st']. cbn [fst snd] in *. subst k'.
  assert (GS : getspec ev usable_dir rand st' k n = Ok_ tt st').
  { unfold getspec. rewrite (b_id _ H2). destruct six as [E|[E|[E|[E|[E|E]]]]]; now rewrite E. }
  rewrite GS. assert (X : inv st'). { split; auto. rewrite H8. eapply agrees_texts; [|exact A]. intros j _. now rewrite H9. }
  destruct (special _); cbn [bind]; destruct (text_of _); cbn; auto.
Qed.
Lemma inv_push st : inv st -> inv (set_blocks st ([] :: blocks st)).
Proof.
  intros [[G SI C LN] A]. split; [constructor; auto; cbn|].
  - intros w [W|W]; [discriminate|]. now apply G.
  - lia.
  - cbn. eapply agrees_texts; [|exact A]. reflexivity.
Qed.
Lemma pop_ok b : forall st, base st -> (agrees i (vtext (visl (ol st n))) st \/ exists v, In (n, v) b /\ special v = true) ->
  match pop_loop usable_dir def_path b st with Ok_ _ st' => inv st' | _ => True end.
Proof.
  induction b as [|[m v] b IH]; intros st B H; cbn [pop_loop].
  - destruct H as [H|(v & [] & _)]. now split.
  - destruct (list_eq_dec ascii_dec m n) as [->|N].
    + destruct (special v) eqn:SV.
      * destruct (own_global st B) as (k & w & H1 & H2 & H3 & H4 & H5 & H6 & H7 & H8 & H9 & _). destruct (global st n) as [k' st']. cbn [fst snd] in *. subst k'. rewrite H3.
        assert (G : good w) by (rewrite <- H3, get_ol; apply goods_nth; apply H2). destruct G as (G1 & G2 & G3 & G4). destruct (isset w) eqn:IW.
        -- destruct G3 as (_ & s & VS); auto. destruct (own_set st' k s) as (st2 & S1 & S2 & S3 & S4); try (rewrite H3; auto); [apply H2|]. rewrite S1. cbn [bind].
           apply IH; [eapply base_same; eauto|]. left. replace (ol st2 n) with (ol st' n) by (unfold ol; now rewrite S2). rewrite H7. cbn. rewrite IW, VS. exact S4.
        -- destruct (own_unset st') as (st2 & S1 & S2 & S3 & S4); [apply H2|]. rewrite S1. apply IH; [eapply base_same; eauto|]. left.
           replace (ol st2 n) with (ol st' n) by (unfold ol; now rewrite S2). rewrite H7. cbn. rewrite IW. exact S4.
      * apply IH; auto. destruct H as [H|(w & [W|W] & SW)]; [now left| |right; eauto]. injection W as ->. congruence.
    + assert (H' : agrees i (vtext (visl (ol st n))) st \/ exists v, In (n, v) b /\ special v = true).
      { destruct H as [H|(w & [W|W] & SW)]; [now left| |right; eauto]. congruence. }
      assert (STEP : forall st', frame i st st' -> match pop_loop usable_dir def_path b st' with Ok_ _ st'' => inv st'' | _ => True end).
      { intros st' F. apply IH; [eapply base_frame; eauto|]. destruct H' as [H'|H']; [|now right]. left. destruct F. rewrite f_ol. eapply agrees_texts; eauto. }
      destruct (special v); [|apply STEP, frame_refl].
      pose proof (frame_global i st m N) as FG. destruct (global st m) as [k st1]. cbn [snd] in FG. pose proof (f_cons _ _ _ FG (b_cons _ B)) as C1.
      destruct (isset _).
      * pose proof (setspec_frame usable_dir i not_visual st1 k m N C1) as X. destruct (setspec usable_dir st1 k m) as [a st2|st2|]; cbn in *; auto. apply STEP. eapply frame_trans; eauto.
      * apply STEP. eapply frame_trans; [exact FG|]. now apply unsetspec_frame.
Qed.
Lemma inv_pop st b l : inv st -> blocks st = b :: l -> l <> [] -> match pop_loop usable_dir def_path b (set_blocks st l) with Ok_ _ st' => inv st' | _ => True end.
Proof.
  intros [[G SI C LN] A] BL NE. assert (OLE : ol st n = look b n :: ol (set_blocks st l) n) by (unfold ol; rewrite BL; reflexivity).
  apply pop_ok.
  - constructor; auto; [|cbn; destruct l; [congruence|cbn; lia]]. intros v V. apply G. rewrite OLE. now right.
  - rewrite OLE in A, G. destruct (look b n) as [v|] eqn:LB.
    + destruct (defined v) eqn:DV.
      * right. exists v. split; [now apply look_In|]. apply G; auto. now left.
      * left. cbn [visl] in A. rewrite DV in A. eapply agrees_texts; [|exact A]. reflexivity.
    + left. cbn [visl] in A. eapply agrees_texts; [|exact A]. reflexivity.
Qed.

(** * One operation *)
Lemma post_quiet (m : out unit) P : post m P -> post (bind m (fun _ st => Ok_ (A := option cstr) None st)) P.
Proof. destruct m; auto. Qed.
Lemma post_frame st {A} (m : out A) : post m (frame i st) -> inv st -> post m inv.
Proof. destruct m; cbn; intros F I; auto; eapply inv_frame; eauto. Qed.
Lemma step_inv o st : inv st -> harmless (fun st => exists a st', step ev usable_dir def_path rand Pop st = Ok_ a st') o st -> post (step ev usable_dir def_path rand o st) inv.
Proof.
  intros I H. pose proof I as [B A]. pose proof not_visual as NV. pose proof (b_cons _ B) as C.
  destruct o as [m s|m v copy|m|m|m| | |t l]; cbn [step].
  - destruct (list_eq_dec ascii_dec m n) as [->|N].
    + pose proof (inv_assign st s I) as X. destruct (global st n). now apply post_quiet.
    + pose proof (frame_global i st m N) as FG. destruct (global st m) as [k st1]. cbn [snd] in FG. apply post_quiet. eapply post_frame; [|eapply inv_frame; eauto]. apply setstr_frame; auto. exact (f_cons _ _ _ FG C).
  - destruct (list_eq_dec ascii_dec m n) as [->|N].
    + destruct v as [s|]; [|destruct (H i Hi)]. apply post_quiet. apply inv_typeset; auto. intros CT v V. apply (H CT i v Hi). apply means_visl. now symmetry.
    + apply post_quiet. eapply post_frame; eauto. now apply typeset_frame.
  - destruct (list_eq_dec ascii_dec m n) as [->|N].
    + apply post_quiet. apply inv_unset; auto. intros k F. cbn in H. clear - F H Hi. unfold ol in *.
      assert (X : forall pre bl, blocks st = pre ++ bl -> forall k, findl (map (fun b => look b n) bl) = Some k -> visl (updl (map (fun b => look b n) bl) k None) = None).
      { intros pre bl. revert pre. induction bl as [|b bl IH]; intros pre BL j FJ; [discriminate|]. cbn [map findl updl visl] in *.
        destruct (look b n) as [w|] eqn:LB; [destruct (defined w) eqn:DW|].
        - injection FJ as <-. cbn. symmetry. apply means_visl. apply (H i b pre bl w Hi BL). constructor; auto. now apply look_entry.
        - destruct (findl (map (fun b => look b n) bl)) as [j'|] eqn:FJ'; [|discriminate]. injection FJ as <-. cbn. rewrite DW. apply (IH (pre ++ [b])); auto. now rewrite <- app_assoc.
        - destruct (findl (map (fun b => look b n) bl)) as [j'|] eqn:FJ'; [|discriminate]. injection FJ as <-. cbn. apply (IH (pre ++ [b])); auto. now rewrite <- app_assoc. }
      now apply (X [] (blocks st)).
    + apply post_quiet. eapply post_frame; eauto. now apply unset_frame.
  - destruct (list_eq_dec ascii_dec m n) as [->|N].
    + pose proof (inv_readonly st I) as X. destruct (global st n). exact X.
    + pose proof (frame_global i st m N) as FG. destruct (global st m) as [k st1]. cbn [snd] in FG. cbn. eapply inv_frame; [|exact I]. eapply frame_trans; [exact FG|now apply frame_put].
  - destruct (list_eq_dec ascii_dec m n) as [->|N]; [now apply inv_read|]. eapply post_frame; eauto. now apply read_frame.
  - now apply inv_push.
  - destruct H as (a & st' & E). cbn [step] in E. destruct (blocks st) as [|b [|b' l]] eqn:BL; try discriminate. cbn [tl] in *.
    pose proof (inv_pop st b (b' :: l) I BL ltac:(discriminate)) as X. destruct (pop_loop _ _ _ _); try discriminate. exact X.
  - cbn. split; [destruct B; constructor; auto|]. eapply agrees_texts; [|exact A]. reflexivity.
Qed.
End Own.
