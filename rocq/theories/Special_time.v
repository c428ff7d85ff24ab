(** The variables that have a value of their own: RANDOM, SECONDS, LINENO. *)
From Verif Require Import Base Num_model Num_spec Num_proof Special_model Special_spec Special_proof.
Local Open Scope Z_scope.

Definition lone (l : list (option var)) (k : nat) (x : option var) : Prop := l = repeat None k ++ [x].
Lemma lone_find k x : findl (repeat None k ++ [x]) = match x with Some v => if defined v then Some k else None | None => None end.
Proof. induction k as [|k IH]; cbn; [destruct x as [v|]; auto; now destruct (defined v)|]. rewrite IH. destruct x as [v|]; auto. now destruct (defined v). Qed.
Lemma lone_nth k x : nthl (repeat None k ++ [x]) k = match x with Some v => v | None => fresh end.
Proof. unfold nthl. induction k as [|k IH]; cbn; auto. Qed.
Lemma lone_upd k x (y : option var) : updl (repeat None k ++ [x]) k y = repeat None k ++ [y].
Proof. induction k as [|k IH]; cbn; auto. now rewrite IH. Qed.
Lemma lone_len {A} k (x : option A) : length (repeat None k ++ [x]) = S k.
Proof. rewrite app_length, repeat_length. cbn. lia. Qed.
Lemma num_text z : INT64_MIN < z <= INT64_MAX -> exists s, str_val_int false false 0 z = Ok s /\ numeral s 10 z.
Proof. intros H. destruct (str_val_core false false 0 z H) as (s & A & B & _). exists s. split; auto. Qed.

Section Time.
Variable ev : cstr -> option Z.
Variable usable_dir : cstr -> bool.
Variable def_path : cstr.
Variable rand : Z -> Z -> Z.
Variable i : id.
Notation n := (name_of i).
Hypothesis Hi : i <> V_VISUAL.
Notation step := (step ev usable_dir def_path rand).
Notation next := (next ev usable_dir def_path rand).

(** the variable is in the last block only *)
Record held (x : option var) (st : state) : Prop := {
  h_ol : exists k, lone (ol st n) k x; h_id : special_id st n = Some i; h_cons : consistent st }.
Record keeps (st st' : state) : Prop := {
  q_held : forall x, held x st -> held x st'; q_num : forall k, nid k = i -> nums st' k = nums st k }.
Lemma keeps_frame st st' : frame i st st' -> keeps st st'.
Proof. intros []. constructor; auto. intros x [(k & K) B C]. constructor; auto; try congruence. exists k. unfold lone in *. congruence. Qed.
Lemma post_keeps {A} st (m : out A) : post m (frame i st) -> post m (keeps st).
Proof. destruct m; cbn; auto using keeps_frame. Qed.
Lemma post_quiet' (m : out unit) P : post m P -> post (bind m (fun _ st => Ok_ (A := option cstr) None st)) P.
Proof. destruct m; auto. Qed.
Lemma apart_step o st x : apart n o -> held x st -> post (step o st) (keeps st).
Proof.
  intros AP HX. pose proof (h_cons _ _ HX) as C. destruct o as [m s|m v copy|m|m|m| | |t l]; cbn [apart] in AP; cbn [Special_model.step].
  - pose proof (frame_global i st m AP) as FG. destruct (global st m) as [k st1]. cbn [snd] in FG. apply post_quiet', post_keeps.
    pose proof (setstr_frame ev usable_dir i Hi st1 k m s false false AP (f_cons _ _ _ FG C)) as X. unfold post in *. destruct (setstr _ _ _ _ _ _ _ _); auto; eapply frame_trans; eauto.
  - apply post_quiet', post_keeps. now apply typeset_frame.
  - apply post_quiet', post_keeps. now apply unset_frame.
  - pose proof (frame_global i st m AP) as FG. destruct (global st m) as [k st1]. cbn [snd] in FG. cbn. apply keeps_frame. eapply frame_trans; [exact FG|now apply frame_put].
  - apply post_keeps. now apply read_frame.
  - cbn. constructor; auto. intros y [(k & K) B C']. constructor; auto. exists (S k). unfold lone, ol in *. cbn. now rewrite K.
  - destruct (blocks st) as [|b [|b' l]] eqn:BL; try exact Logic.I. cbn [tl]. apply post_quiet'.
    destruct HX as [(k & K) HB _]. unfold lone, ol in K. rewrite BL in K. cbn [map] in K. assert (LB : look b n = None).
    { destruct k as [|k]; [|now injection K]. cbn in K. apply (f_equal (@length _)) in K. cbn in K. lia. }
    set (st1 := set_blocks st (b' :: l)). assert (K1 : keeps st st1).
    { constructor; auto. intros y [(j & J) B2 C2]. constructor; auto. unfold lone, ol in J. rewrite BL in J. cbn [map] in J. destruct j as [|j]; [apply (f_equal (@length _)) in J; cbn in J; lia|]. exists j. unfold lone, ol. cbn [st1 set_blocks blocks map]. now injection J. }
    assert (P : pop_loop usable_dir def_path b st1 = pop_loop usable_dir def_path b st1) by reflexivity.
    assert (NB : forall v, ~ In (n, v) b).
    { clear - LB. intros v. induction b as [|[m w] b IH]; cbn in *; [tauto|]. destruct (str_eqb_spec m n) as [->|N]; [discriminate|]. intros [E|E]; [congruence|now apply IH]. }
    pose proof (pop_frame usable_dir def_path i Hi b (fun v V => False_ind _ (NB v V)) st1 C) as X. unfold post in *. destruct (pop_loop _ _ b st1); auto; apply keeps_frame in X; constructor; intros; rewrite ?(q_num _ _ X), ?(q_num _ _ K1); auto; apply X; now apply K1.
  - cbn. constructor; auto. intros y [K B C']. now constructor.
Qed.

(** the variable itself *)
Definition entered (x : option var) : var :=
  match x with
  | Some v => if defined v then v else Var true (isset v) true (integer v) (rdonly v) (value v)
  | None => Var true false true false false VNone
  end.
Definition same (st st' : state) : Prop := nums st' = nums st /\ specials st' = specials st /\ now st' = now st /\ lineno st' = lineno st.
Lemma at_put st k x w : lone (ol st n) k x -> lone (ol (put st k n w) n) k (Some w) /\ get (put st k n w) k n = w.
Proof. unfold lone. intros E. assert (F : ol (put st k n w) n = repeat None k ++ [Some w]) by now rewrite ol_put, str_eqb_refl, E, lone_upd. split; auto. now rewrite get_ol, F, lone_nth. Qed.
Lemma at_global st k x : lone (ol st n) k x -> special_id st n = Some i ->
  exists st', global st n = (k, st') /\ lone (ol st' n) k (Some (entered x)) /\ get st' k n = entered x /\ same st st'.
Proof.
  unfold lone. intros E S. unfold global. rewrite find_ol, E, lone_find.
  assert (G : get st k n = match x with Some v => v | None => fresh end) by now rewrite get_ol, E, lone_nth.
  assert (LN : (length (blocks st) - 1)%nat = k) by (unfold ol in E; apply (f_equal (@length _)) in E; rewrite lone_len, map_length in E; lia).
  assert (X : defined match x with Some v => v | None => fresh end = false -> exists st', ((length (blocks st) - 1)%nat, enter st (length (blocks st) - 1) n) = (k, st') /\ ol st' n = repeat None k ++ [Some (entered x)] /\ get st' k n = entered x /\ same st st').
  { intros D. rewrite LN. eexists. split; [reflexivity|]. unfold enter. rewrite G, S. cbn [is_some]. rewrite orb_true_r.
    match goal with |- ol (put _ _ _ ?w) _ = _ /\ _ => replace (entered x) with w by (unfold entered; destruct x as [v|]; [rewrite D|]; reflexivity); destruct (at_put st k x w E) as [A B] end. sp; auto. unfold same. auto. }
  destruct x as [v|]; [|now apply X]. destruct (defined v) eqn:D; [|now apply X]. exists st. cbn [entered]. rewrite D. unfold same. sp; auto.
Qed.
Lemma held_same st st' x y : held x st -> (exists k, lone (ol st' n) k y) -> specials st' = specials st -> held y st'.
Proof. intros [K B C] K' S. constructor; auto; unfold special_id, consistent, special_id in *; rewrite ?S; auto. Qed.

(** reading a variable whose value is made when it is read *)
Definition shape (v : var) (isint : bool) : Prop := defined v = true /\ special v = true /\ integer v = isint /\ rdonly v = false.
Lemma around_gen st k v z ii : lone (ol st n) k (Some v) -> get st k n = v -> shape v ii ->
  (exists st' v', around ev usable_dir st k n z = Ok_ tt st' /\ lone (ol st' n) k (Some v') /\ get st' k n = v' /\ shape v' ii /\ isset v' = true /\ same st st' /\
    text_of v' = match str_val_int false false 0 z with Ok s => Some (Some s) | _ => None end) \/ (around ev usable_dir st k n z = Bad /\ forall s, str_val_int false false 0 z <> Ok s).
Proof.
  intros E G (S1 & S2 & S3 & S4). unfold around, clear. rewrite G.
  destruct (at_put st k _ (set_special v false) E) as [E1 G1]. set (st1 := put st k n (set_special v false)) in *. unfold setint. rewrite G1. cbn [set_special integer defined special rdonly value]. rewrite S3. destruct ii.
  - left. destruct (at_put st1 k _ (Var (defined v) true false true (rdonly v) (VInt z)) E1) as [E2 G2]. cbn [bind]. unfold restore. rewrite G2. cbn [set_special defined isset special integer rdonly value].
    match goal with |- context [put (put st1 k n ?a) k n ?w] => destruct (at_put (put st1 k n a) k _ w E2) as [E3 G3] end.
    eexists _, _. split; [reflexivity|]. split; [exact E3|]. split; [exact G3|]. unfold shape, same, text_of. cbn. rewrite S1, S4. sp; auto.
  - destruct (str_val_int false false 0 z) as [s| |] eqn:T; [left|right; split; [reflexivity|discriminate]|right; split; [reflexivity|discriminate]]. unfold setstr. rewrite G1. cbn [set_special defined isset special integer rdonly value]. rewrite S3, S4. cbn [andb bind].
    match goal with |- context [put st1 k n ?a] => destruct (at_put st1 k _ a E1) as [E2 G2]; set (st2 := put st1 k n a) in * end. rewrite G2. cbn [defined isset special integer rdonly value].
    match goal with |- context [put st2 k n ?a] => destruct (at_put st2 k _ a E2) as [E3 G3]; set (st3 := put st2 k n a) in * end. unfold restore. rewrite G3. cbn [set_special defined isset special integer rdonly value].
    match goal with |- context [put st3 k n ?a] => destruct (at_put st3 k _ a E3) as [E4 G4] end.
    eexists _, _. split; [reflexivity|]. split; [exact E4|]. split; [exact G4|]. unfold shape, same, text_of. cbn. rewrite S1. sp; auto.
Qed.
(** the number a reading gives, and the state it is taken in *)
Definition made (st : state) : Z :=
  match i with
  | V_SECONDS => seconds_since st
  | V_RANDOM => Z.land (rand (nums st N_seed) (nums st N_rands)) 32767
  | _ => lineno st + nums st N_lineno
  end.
Definition after (st : state) : nset -> Z := match i with V_RANDOM => nums (set_num st N_rands (nums st N_rands + 1)) | _ => nums st end.
Lemma read_gen st x ii : In i [V_SECONDS; V_RANDOM; V_LINENO] -> held x st -> shape (entered x) ii -> (i = V_SECONDS -> isset (entered x) = true) ->
  (exists s st' v', step (Get n) st = Ok_ (Some s) st' /\ str_val_int false false 0 (made st) = Ok s /\ held (Some v') st' /\ shape v' ii /\ isset v' = true /\ nums st' = after st /\ now st' = now st /\ lineno st' = lineno st) \/
  (step (Get n) st = Bad /\ ((forall s, str_val_int false false 0 (made st) <> Ok s) \/ in_int64 (made st) = false)).
Proof.
  intros IN H SH SET. destruct (h_ol _ _ H) as (k & K). destruct (at_global st k x K (h_id _ _ H)) as (st1 & GL & K1 & G1 & (A1 & A2 & A3 & A4)).
  assert (ID1 : special_id st1 n = Some i) by (unfold special_id; rewrite A2; apply H).
  cbn [Special_model.step]. unfold read. rewrite GL, G1. pose proof SH as (S1 & S2 & S3 & S4). rewrite S2.
  assert (M1 : made st1 = made st) by (unfold made, seconds_since; now rewrite A1, A3, A4).
  assert (MAIN : forall st1', ol st1' n = ol st1 n -> specials st1' = specials st -> now st1' = now st -> lineno st1' = lineno st -> nums st1' = after st ->
    getspec ev usable_dir rand st1 k n = around ev usable_dir st1' k n (made st) -> (exists s st' v', bind (getspec ev usable_dir rand st1 k n) (fun _ st0 => match text_of (get st0 k n) with Some o => Ok_ o st0 | None => Bad end) = Ok_ (Some s) st' /\
      str_val_int false false 0 (made st) = Ok s /\ held (Some v') st' /\ shape v' ii /\ isset v' = true /\ nums st' = after st /\ now st' = now st /\ lineno st' = lineno st) \/
      (bind (getspec ev usable_dir rand st1 k n) (fun _ st0 => match text_of (get st0 k n) with Some o => Ok_ o st0 | None => Bad end) = Bad /\ ((forall s, str_val_int false false 0 (made st) <> Ok s) \/ in_int64 (made st) = false))).
  { intros st1' Q1 Q2 Q3 Q4 Q5 GS. rewrite GS. assert (K1' : lone (ol st1' n) k (Some (entered x))) by (unfold lone; congruence). assert (G1' : get st1' k n = entered x) by (rewrite get_ol, Q1, <- get_ol; exact G1).
    destruct (around_gen st1' k (entered x) (made st) ii K1' G1' SH) as [(st2 & v' & B1 & B2 & B3 & B4 & B5 & (C1 & C2 & C3 & C4) & B6)|[B1 B2]]; rewrite B1; cbn [bind].
    - rewrite B3, B6. destruct (str_val_int false false 0 (made st)) as [s| |] eqn:T; [left|right; split; auto; left; discriminate|right; split; auto; left; discriminate]. exists s, st2, v'. sp; auto; try congruence. eapply held_same; eauto. congruence.
    - right. auto. }
  destruct IN as [E|[E|[E|[]]]]; symmetry in E.
  - assert (AR : made st1 = seconds_since st1) by (unfold made; now rewrite E).
    assert (GS : getspec ev usable_dir rand st1 k n = if isset (get st1 k n) then if in_int64 (made st) then around ev usable_dir st1 k n (made st) else Bad else Ok_ tt (restore st1 k n)) by (rewrite <- M1, AR; unfold getspec; rewrite ID1, E; reflexivity).
    rewrite G1, (SET E) in GS. destruct (in_int64 (made st)) eqn:IR; [|right; rewrite GS; auto]. apply (MAIN st1); auto. unfold after. rewrite E. exact A1.
  - assert (AR : made st1 = Z.land (rand (nums st1 N_seed) (nums st1 N_rands)) 32767) by (unfold made; now rewrite E).
    apply (MAIN (set_num st1 N_rands (nums st1 N_rands + 1))); auto; [unfold after; rewrite E; cbn; now rewrite A1|]. rewrite <- M1, AR. unfold getspec. rewrite ID1, E. reflexivity.
  - assert (AR : made st1 = lineno st1 + nums st1 N_lineno) by (unfold made; now rewrite E).
    apply (MAIN st1); auto; [unfold after; rewrite E; exact A1|]. rewrite <- M1, AR. unfold getspec. rewrite ID1, E. reflexivity.
Qed.
Lemma read_ok st x ii : In i [V_SECONDS; V_RANDOM; V_LINENO] -> held x st -> shape (entered x) ii -> (i = V_SECONDS -> isset (entered x) = true) -> INT64_MIN < made st <= INT64_MAX ->
  exists s st', step (Get n) st = Ok_ (Some s) st' /\ numeral s 10 (made st).
Proof.
  intros IN H SH SET R. destruct (num_text _ R) as (s & T & N). destruct (read_gen st x ii IN H SH SET) as [(s' & st' & v' & A & B & _)|[_ [B|B]]].
  - exists s', st'. split; auto. congruence.
  - now destruct (B s).
  - unfold in_int64 in B. apply andb_false_iff in B. destruct B as [B|B]; apply Z.leb_gt in B; lia.
Qed.

(** * Runs *)
Definition ready (ii : bool) (st : state) : Prop := exists x, held x st /\ shape (entered x) ii /\ (i = V_SECONDS -> isset (entered x) = true).
Lemma shape_entered v ii : shape v ii -> entered (Some v) = v.
Proof. intros (D & _). cbn. now rewrite D. Qed.
Lemma ready_next o st st' ii : apart n o -> ready ii st -> next o st = Some st' -> ready ii st' /\ forall k, nid k = i -> nums st' k = nums st k.
Proof.
  intros AP (x & H & SH & SET) NX. pose proof (apart_step o st x AP H) as X. unfold Special_model.next in NX.
  assert (Q : keeps st st') by (destruct (step o st); try discriminate; injection NX as <-; exact X).
  split; [exists x; split; [now apply Q|auto]|apply Q].
Qed.
Lemma ready_read st r st' ii : In i [V_SECONDS; V_RANDOM; V_LINENO] -> ready ii st -> step (Get n) st = Ok_ r st' ->
  ready ii st' /\ nums st' = after st /\ exists s, r = Some s /\ str_val_int false false 0 (made st) = Ok s.
Proof.
  intros IN (x & H & SH & SET) E. destruct (read_gen st x ii IN H SH SET) as [(s & st1 & v' & A & B & C & D & F & G & _)|[A _]]; [|congruence].
  rewrite A in E. injection E as <- <-. sp; auto; [|eauto]. exists (Some v'). rewrite (shape_entered v' ii D). auto.
Qed.
Lemma draws_ready ii st l st' : In i [V_SECONDS; V_RANDOM; V_LINENO] -> ready ii st -> draws ev usable_dir def_path rand n st l st' ->
  ready ii st' /\ (forall k, nid k = i -> k <> N_rands -> nums st' k = nums st k) /\ (i = V_RANDOM -> nums st' N_rands = nums st N_rands + Z.of_nat (length l)).
Proof.
  intros IN R D. induction D as [|l st1 o st2 D IH AP NX|l st1 r st2 D IH E].
  - sp; auto. intros _. cbn. lia.
  - destruct IH as (I1 & I2 & I3). destruct (ready_next o st1 st2 ii AP I1 NX) as [J1 J2]. sp; auto.
    + intros k K1 K2. rewrite J2; auto.
    + intros EI. rewrite J2; auto.
  - destruct IH as (I1 & I2 & I3). destruct (ready_read st1 r st2 ii IN I1 E) as (J1 & J2 & _). sp; auto.
    + intros k K1 K2. rewrite J2. unfold after. rewrite <- (I2 k K1 K2). destruct i; auto. cbn. destruct (nset_eq k N_rands); [contradiction|auto].
    + intros EI. rewrite J2. unfold after. rewrite EI. cbn. rewrite (I3 EI), app_length, Nat2Z.inj_add. cbn. lia.
Qed.
(** assignments to an integer variable *)
Lemma assign_int st s : (i = V_SECONDS \/ i = V_RANDOM) -> ready true st ->
  match step (Assign n s) st with
  | Ok_ _ st' => ready true st' /\ exists z, ev s = Some z /\ now st' = now st /\ lineno st' = lineno st /\
      (i = V_SECONDS -> nums st' N_sec = fst (now st) - z /\ nums st' N_nsec = snd (now st)) /\ (i = V_RANDOM -> nums st' N_seed = to_uint z /\ nums st' N_rands = 0)
  | Fail st' => ready true st' /\ ev s = None
  | Bad => forall z, ev s = Some z -> in_int64 z = false \/ (i = V_SECONDS /\ in_int64 (fst (now st) - z) = false)
  end.
Proof.
  intros IN (x & H & SH & SET). destruct (h_ol _ _ H) as (k & K). destruct (at_global st k x K (h_id _ _ H)) as (st1 & GL & K1 & G1 & (A1 & A2 & A3 & A4)).
  cbn [Special_model.step]. rewrite GL. unfold setstr. rewrite G1. destruct SH as (S1 & S2 & S3 & S4). rewrite S4, S3, S2. cbn [andb].
  destruct (ev s) as [z|] eqn:EV; cbn [bind].
  - destruct (in_int64 z) eqn:IZ; cbn [bind]; [|intros z' [= <-]; auto].
    set (w := Var (defined (entered x)) true true true false (VInt z)). destruct (at_put st1 k _ w K1) as [K2 G2]. cbv zeta. set (st2 := put st1 k n w) in *.
    assert (ID2 : special_id st2 n = Some i) by (unfold special_id; cbn; rewrite A2; apply H).
    destruct (at_put st2 k _ (set_special w false) K2) as [K3 G3]. set (st3 := put st2 k n (set_special w false)) in *.
    assert (WI : forall g, with_int st2 k n g = match g z st3 with Some st' => Ok_ tt (restore st' k n) | None => Bad end).
    { intros g. unfold with_int, clear. rewrite G2. fold st3. unfold intval. rewrite G3. reflexivity. }
    assert (FIN : forall st4, blocks st4 = blocks st3 -> specials st4 = specials st3 -> ready true (restore st4 k n)).
    { intros st4 Q1 Q2. assert (K4 : lone (ol st4 n) k (Some (set_special w false))) by (unfold ol; rewrite Q1; exact K3). destruct (at_put st4 k _ (set_special (get st4 k n) true) K4) as [K5 G5].
      assert (G4 : get st4 k n = set_special w false) by (unfold get; rewrite Q1; exact G3). rewrite G4 in K5. unfold restore. rewrite G4. eexists. split; [eapply held_same; [exact H|eexists; exact K5|cbn; rewrite Q2; exact A2]|]. cbn. rewrite S1. cbn. unfold shape. cbn. sp; auto. }
    destruct IN as [E|E].
    + assert (SS : setspec usable_dir st2 k n = with_int st2 k n (fun z st => let d := fst (now st) - z in if in_int64 d then Some (set_num (set_num st N_sec d) N_nsec (snd (now st))) else None)) by (unfold setspec; rewrite ID2, E; reflexivity).
      rewrite SS, WI. cbv zeta. assert (N3 : now st3 = now st) by exact A3. rewrite N3. destruct (in_int64 (fst (now st) - z)) eqn:ID; cbn [bind]; [|intros z' [= <-]; auto].
      split; [now apply FIN|]. exists z. cbn. sp; auto. intros E'. rewrite E in E'. discriminate.
    + assert (SS : setspec usable_dir st2 k n = with_int st2 k n (fun z st => Some (set_num (set_num st N_seed (to_uint z)) N_rands 0))) by (unfold setspec; rewrite ID2, E; reflexivity).
      rewrite SS, WI. cbn [bind]. split; [now apply FIN|]. exists z. cbn. sp; auto. intros E'. rewrite E in E'. discriminate.
  - split; auto. exists (Some (entered x)). assert (SE : shape (entered x) true) by (unfold shape; auto). rewrite (shape_entered _ _ SE). split; [eapply held_same; eauto|auto].
Qed.
Lemma steadily_int st st' : (i = V_SECONDS \/ i = V_RANDOM) -> ready true st -> steadily ev usable_dir def_path rand n st st' -> ready true st'.
Proof.
  intros IN R D. induction D as [|st1 o st2 D IH SD NX]; auto. assert (IN3 : In i [V_SECONDS; V_RANDOM; V_LINENO]) by (destruct IN as [-> | ->]; cbn; auto).
  assert (AP : apart n o -> ready true st2) by (intros AP; eapply ready_next; eauto).
  destruct o as [m s|m v copy|m|m|m| | |t l]; cbn in SD, AP; auto.
  - destruct (list_eq_dec ascii_dec m n) as [->|N]; auto. pose proof (assign_int st1 s IN IH) as X. unfold Special_model.next in NX. destruct (step (Assign n s) st1); try discriminate; injection NX as <-; apply X.
  - destruct (list_eq_dec ascii_dec m n) as [->|N]; auto. unfold Special_model.next in NX. destruct (step (Get n) st1) as [r st'| |] eqn:E; try discriminate; injection NX as <-.
    + eapply ready_read; eauto.
    + destruct IH as (x & H & SH & SET). destruct (read_gen st1 x true IN3 H SH SET) as [(s & ? & v' & A & _)|[A _]]; congruence.
Qed.
(** assignments to LINENO *)
Lemma assign_line st s z : i = V_LINENO -> ready false st -> getint false false s = Ok (10, z) ->
  exists st', step (Assign n s) st = Ok_ None st' /\ ready false st' /\ now st' = now st /\ lineno st' = lineno st /\ nums st' N_lineno = to_int32 (to_uint (to_uint z - lineno st - 1)).
Proof.
  intros E (x & H & SH & SET) GI. destruct (h_ol _ _ H) as (k & K). destruct (at_global st k x K (h_id _ _ H)) as (st1 & GL & K1 & G1 & (A1 & A2 & A3 & A4)).
  cbn [Special_model.step]. rewrite GL. unfold setstr. rewrite G1. destruct SH as (S1 & S2 & S3 & S4). rewrite S4, S3, S2. cbn [andb].
  set (w := Var (defined (entered x)) true true false false (VStr s)). destruct (at_put st1 k _ w K1) as [K2 G2]. cbv zeta. set (st2 := put st1 k n w) in *.
  assert (ID2 : special_id st2 n = Some i) by (unfold special_id; cbn; rewrite A2; apply H).
  destruct (at_put st2 k _ (set_special w false) K2) as [K3 G3]. set (st3 := put st2 k n (set_special w false)) in *.
  assert (SS : setspec usable_dir st2 k n = with_int st2 k n (fun z st => Some (set_num st N_lineno (to_int32 (to_uint (to_uint z - lineno st - 1)))))) by (unfold setspec; rewrite ID2, E; reflexivity).
  rewrite SS. unfold with_int, clear. rewrite G2. fold st3. unfold intval. rewrite G3. cbn [number_of set_special w isset value integer]. rewrite GI. cbn [bind].
  set (st4 := set_num st3 N_lineno _). assert (G4 : get st4 k n = set_special w false) by exact G3. assert (K4 : lone (ol st4 n) k (Some (set_special w false))) by exact K3.
  destruct (at_put st4 k _ (set_special (set_special w false) true) K4) as [K5 G5]. unfold restore. rewrite G4. eexists. split; [reflexivity|]. sp; auto.
  - eexists. split; [eapply held_same; [exact H|eexists; exact K5|exact A2]|]. cbn. rewrite S1. cbn. unfold shape. cbn. sp; auto.
  - cbn. now rewrite A4.
Qed.
End Time.
