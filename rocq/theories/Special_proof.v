(** Proofs about special variables. *)
From Verif Require Import Base Num_model Num_spec Special_model Special_spec.
Local Open Scope Z_scope.

Ltac sp := repeat match goal with |- _ /\ _ => split end.
Lemma str_eqb_false a b : a <> b -> str_eqb a b = false.
Proof. intros H. destruct (str_eqb_spec a b); congruence. Qed.

(** * Looking names up *)
Lemma look_entry b n v : look b n = Some v <-> entry b n v.
Proof.
  induction b as [|[m w] b IH]; cbn; [split; [discriminate|inversion 1]|].
  destruct (str_eqb_spec m n) as [->|N].
  - split; [intros [= ->]; constructor|]. inversion 1; subst; congruence.
  - rewrite IH. split; [now constructor|]. inversion 1; subst; congruence.
Qed.
Lemma look_In b n v : look b n = Some v -> In (n, v) b.
Proof. induction b as [|[m w] b IH]; cbn; [discriminate|]. destruct (str_eqb_spec m n) as [->|N]; [intros [= ->]; auto|auto]. Qed.
Lemma look_store b n v m : look (store b m v) n = if str_eqb m n then Some v else look b n.
Proof.
  induction b as [|[p w] b IH]; cbn [store look]; [reflexivity|]. destruct (str_eqb_spec p m) as [->|N]; cbn [look].
  - now destruct (str_eqb m n).
  - rewrite IH. destruct (str_eqb_spec p n) as [->|N']; auto. now rewrite (str_eqb_false m n) by congruence.
Qed.

(** one name in all blocks *)
Definition ol (st : state) (n : cstr) : list (option var) := map (fun b => look b n) (blocks st).
Fixpoint visl (l : list (option var)) : option var :=
  match l with [] => None | Some v :: l => if defined v then Some v else visl l | None :: l => visl l end.
Fixpoint findl (l : list (option var)) : option nat :=
  match l with [] => None | o :: l => if match o with Some v => defined v | None => false end then Some O else match findl l with Some k => Some (S k) | None => None end end.
Fixpoint updl {A} (l : list A) (k : nat) (x : A) : list A := match l, k with [], _ => [] | _ :: l, O => x :: l | y :: l, S k => y :: updl l k x end.
Definition nthl (l : list (option var)) (k : nat) : var := match nth_error l k with Some (Some v) => v | _ => fresh end.

Lemma find_ol st n : find_block (blocks st) n = findl (ol st n).
Proof. unfold ol. induction (blocks st) as [|b l IH]; cbn; auto. unfold here. rewrite IH. reflexivity. Qed.
Lemma get_ol st k n : get st k n = nthl (ol st n) k.
Proof. unfold get, nthl, ol. revert k. induction (blocks st) as [|b l IH]; intros [|k]; cbn; auto. Qed.
Lemma ol_put st k m v n : ol (put st k m v) n = if str_eqb m n then updl (ol st n) k (Some v) else ol st n.
Proof.
  unfold ol, put. cbn [set_blocks blocks]. generalize (blocks st). intros l. revert k. induction l as [|b l IH]; intros k; [cbn; destruct (str_eqb m n); reflexivity|].
  destruct k as [|k]; cbn [at_block upd_block map updl].
  - rewrite look_store. destruct (str_eqb m n); auto.
  - rewrite IH. destruct (str_eqb m n); auto.
Qed.
Lemma means_visl l n o : means l n o <-> o = visl (map (fun b => look b n) l).
Proof.
  revert o. induction l as [|b l IH]; intros o; cbn [map visl].
  - split; [now inversion 1|intros ->; constructor].
  - split.
    + inversion 1 as [|? v ? ? EN DF|? ? ? ? EN M]; subst.
      * apply look_entry in EN. now rewrite EN, DF.
      * destruct (look b n) as [v|] eqn:K; [apply look_entry in K; rewrite (EN v K)|]; now apply IH.
    + intros ->. destruct (look b n) as [v|] eqn:K.
      * destruct (defined v) eqn:DF; [constructor; auto; now apply look_entry|]. apply m_outer; [intros w W; apply look_entry in W; congruence|]. now apply IH.
      * apply m_outer; [intros w W; apply look_entry in W; congruence|]. now apply IH.
Qed.
Lemma findl_none l : findl l = None -> visl l = None.
Proof. induction l as [|[v|] l IH]; cbn; auto; [destruct (defined v); [discriminate|]|]; destruct (findl l); try discriminate; auto. Qed.
Lemma findl_some l k : findl l = Some k -> exists v, nth_error l k = Some (Some v) /\ defined v = true /\ visl l = Some v.
Proof.
  revert k. induction l as [|[v|] l IH]; cbn; intros k; try discriminate; [destruct (defined v) eqn:DF; [intros [= <-]; exists v; auto|]|]; destruct (findl l) as [j|]; try discriminate; intros [= <-]; destruct (IH j eq_refl) as (w & A & B & C); exists w; auto.
Qed.
Lemma visl_upd_found l k v : findl l = Some k -> defined v = true -> visl (updl l k (Some v)) = Some v.
Proof.
  revert k. induction l as [|[w|] l IH]; cbn; intros k F D; try discriminate; [destruct (defined w) eqn:DF; [injection F as <-; cbn; now rewrite D|]|]; destruct (findl l) as [j|]; try discriminate; injection F as <-; cbn; rewrite ?DF; auto.
Qed.
Lemma visl_upd_none l k v : findl l = None -> (k < length l)%nat -> defined v = true -> visl (updl l k (Some v)) = Some v.
Proof.
  revert k. induction l as [|o l IH]; cbn; intros k F H D; [lia|].
  destruct o as [w|]; [destruct (defined w) eqn:DF; [discriminate|]|]; destruct (findl l) eqn:F'; try discriminate; destruct k; cbn; rewrite ?D, ?DF; auto; apply IH; auto; lia.
Qed.
Lemma nth_updl l k v : (k < length l)%nat -> nthl (updl l k (Some v)) k = v.
Proof. unfold nthl. revert k. induction l as [|o l IH]; cbn; intros k H; [lia|]. destruct k; cbn; auto. apply IH. lia. Qed.
Lemma length_updl {A} l k (x : A) : length (updl l k x) = length l.
Proof. revert k. induction l; intros [|k]; cbn; auto. Qed.
Lemma updl_In l k (v : var) o : In o (updl l k (Some v)) -> In o l \/ o = Some v.
Proof. revert k. induction l as [|x l IH]; intros [|k]; cbn; auto; intros [<-|K]; auto. destruct (IH k K); auto. Qed.
Lemma findl_lt l k : findl l = Some k -> (k < length l)%nat.
Proof. intros F. destruct (findl_some _ _ F) as (v & A & _). apply nth_error_Some. congruence. Qed.
Lemma updl_twice {A} (l : list A) k x x' : updl (updl l k x) k x' = updl l k x'.
Proof. revert k. induction l as [|o l IH]; intros [|k]; cbn; auto. now rewrite IH. Qed.

(** * Names *)
Definition name_of (i : id) : cstr :=
  match i with
  | V_COLUMNS => L "COLUMNS" | V_IFS => L "IFS" | V_OPTIND => L "OPTIND" | V_PATH => L "PATH" | V_POSIXLY_CORRECT => L "POSIXLY_CORRECT"
  | V_TMPDIR => L "TMPDIR" | V_HISTCONTROL => L "HISTCONTROL" | V_HISTFILE => L "HISTFILE" | V_HISTSIZE => L "HISTSIZE" | V_EDITOR => L "EDITOR" | V_VISUAL => L "VISUAL"
  | V_MAIL => L "MAIL" | V_MAILCHECK => L "MAILCHECK" | V_MAILPATH => L "MAILPATH" | V_RANDOM => L "RANDOM" | V_SECONDS => L "SECONDS"
  | V_TMOUT => L "TMOUT" | V_LINENO => L "LINENO" | V_TERM => L "TERM"
  end.
Definition consistent (st : state) : Prop := forall m j, special_id st m = Some j -> m = name_of j.
Lemma assoc_names m j : assoc names m = Some j -> m = name_of j.
Proof. unfold names. cbn [assoc]. repeat match goal with |- context [str_eqb ?a m] => destruct (str_eqb_spec a m) as [<-|_]; [intros [= <-]; reflexivity|] end. discriminate. Qed.
Lemma assoc_filter l n m : assoc (filter (fun p : cstr * id => negb (str_eqb (fst p) n)) l) m = if str_eqb n m then None else assoc l m.
Proof.
  induction l as [|[p i] l IH]; cbn; [now destruct (str_eqb n m)|]. destruct (str_eqb_spec p n) as [->|N]; cbn.
  - rewrite IH. now destruct (str_eqb n m).
  - rewrite IH. destruct (str_eqb_spec p m) as [->|N']; auto. now rewrite (str_eqb_false n m) by congruence.
Qed.

(** * What an operation on another variable leaves alone *)
Definition tid (k : tset) : id :=
  match k with X_path => V_PATH | X_ifs | X_ifs0 => V_IFS | X_tmpdir => V_TMPDIR | X_histcontrol => V_HISTCONTROL | X_mail => V_MAIL | X_mailpath => V_MAILPATH
  | X_histfile => V_HISTFILE | X_editmode => V_VISUAL | X_term => V_TERM end.
Definition nid (k : nset) : id :=
  match k with N_flushes => V_PATH | N_mailcheck => V_MAILCHECK | N_cols => V_COLUMNS | N_tmout => V_TMOUT | N_lineno => V_LINENO | N_sec | N_nsec => V_SECONDS
  | N_optind => V_OPTIND | N_histsize => V_HISTSIZE | N_seed | N_rands => V_RANDOM | N_posix => V_POSIXLY_CORRECT end.
Section Frame.
Variable ev : cstr -> option Z.
Variable usable_dir : cstr -> bool.
Variable def_path : cstr.
Variable rand : Z -> Z -> Z.
Variable i : id.
Notation n := (name_of i).
Hypothesis Hi : i <> V_VISUAL.
Record frame (st st' : state) : Prop := {
  f_ol : ol st' n = ol st n;
  f_len : length (blocks st') = length (blocks st);
  f_spec : special_id st' n = special_id st n;
  f_text : forall k, tid k = i -> texts st' k = texts st k;
  f_num : forall k, nid k = i -> nums st' k = nums st k;
  f_cons : consistent st -> consistent st' }.
Lemma frame_refl st : frame st st.
Proof. constructor; auto. Qed.
Lemma frame_trans a b c : frame a b -> frame b c -> frame a c.
Proof. intros [] []. constructor; auto; try congruence; intros k K; rewrite ?f_text1, ?f_num1; auto. Qed.
Lemma upd_block_length l k b : length (upd_block l k b) = length l.
Proof. revert k. induction l; intros [|k]; cbn; auto. Qed.
Lemma put_length st k m v : length (blocks (put st k m v)) = length (blocks st).
Proof. unfold put. cbn. apply upd_block_length. Qed.
Lemma frame_put st k m v : m <> n -> frame st (put st k m v).
Proof. intros N. constructor; auto; [now rewrite ol_put, str_eqb_false|apply put_length]. Qed.
Lemma frame_set_text st k v : tid k <> i -> frame st (set_text st k v).
Proof. intros N. constructor; auto. intros j J. cbn. destruct (tset_eq j k); auto. congruence. Qed.
Lemma frame_set_num st k v : nid k <> i -> frame st (set_num st k v).
Proof. intros N. constructor; auto. intros j J. cbn. destruct (nset_eq j k); auto. congruence. Qed.
Lemma frame_unspecial st m : m <> n -> frame st (unspecial st m).
Proof.
  intros N. constructor; auto.
  - unfold special_id, unspecial. cbn. rewrite assoc_filter. now rewrite str_eqb_false.
  - intros C p j. unfold special_id, unspecial. cbn. rewrite assoc_filter. destruct (str_eqb m p); [discriminate|apply C].
Qed.
Definition post {A} (m : out A) (P : state -> Prop) : Prop := match m with Ok_ _ st | Fail st => P st | Bad => True end.
Lemma post_bind {A B} (m : out A) (g : A -> state -> out B) st : post m (frame st) -> (forall a st', frame st st' -> post (g a st') (frame st)) -> post (bind m g) (frame st).
Proof. destruct m; cbn; auto. Qed.
Lemma frame_global st m : m <> n -> frame st (snd (global st m)).
Proof. intros N. unfold global. destruct (find_block (blocks st) m); [apply frame_refl|]. cbn. now apply frame_put. Qed.
Lemma visual_ne : L "VISUAL" <> n.
Proof. intros E. apply Hi. destruct i; try discriminate. reflexivity. Qed.
Lemma with_int_frame st k m g : m <> n -> (forall z st' st'', g z st' = Some st'' -> frame st st' -> frame st st'') -> post (with_int st k m g) (frame st).
Proof.
  intros N G. unfold with_int. apply post_bind.
  - unfold intval. destruct (number_of _) as [[|]|]; cbn; auto; now apply frame_put.
  - intros z st' F. destruct (g z st') as [st''|] eqn:E; cbn; auto. eapply frame_trans; [eapply G; eauto|]. now apply frame_put.
Qed.
Lemma str_of_frame st st0 k m : frame st0 st -> post (str_of st k m) (frame st0).
Proof. unfold str_of. destruct (text_of _) as [[|]|]; cbn; auto. Qed.
Ltac fr := repeat first [assumption | apply frame_refl | eapply frame_trans; [|apply frame_set_num; cbn; congruence] | eapply frame_trans; [|apply frame_set_text; cbn; congruence]].
Lemma setspec_frame st k m : m <> n -> consistent st -> post (setspec usable_dir st k m) (frame st).
Proof.
  intros N C. unfold setspec. destruct (special_id st m) as [j|] eqn:SJ; [|apply frame_refl]. apply C in SJ.
  assert (NJ : j <> i) by congruence.
  destruct j; try (apply with_int_frame; [assumption|]; intros z st1 st2 [= <-] F; try destruct (_ <=? _); try destruct (_ <? _); fr; fail);
    try (apply post_bind; [now apply str_of_frame, frame_refl|]; intros s st1 F; cbn; fr; fail).
  - destruct (number_of _) as [[z|]|]; cbn; auto; fr.
  - cbn. fr.
  - pose proof (frame_global st (L "VISUAL") visual_ne) as FG. destruct (global st (L "VISUAL")) as [j' st1]. cbn [snd] in FG.
    destruct (isset _); [exact FG|]. apply post_bind; [now apply str_of_frame|]. intros s st2 F. cbn. eapply frame_trans; [exact F|]. apply frame_set_text. cbn. congruence.
  - apply with_int_frame; [assumption|]. intros z st1 st2 E F. destruct (in_int64 _); [|discriminate]. injection E as <-. fr.
  - apply with_int_frame; [assumption|]. intros z st1 st2 [= <-] F. destruct (integer _); fr.
  - apply post_bind; [apply str_of_frame; now apply frame_put|]. intros s st1 F. cbn. eapply frame_trans; [|now apply frame_put]. fr.
Qed.
Lemma unsetspec_frame st m : m <> n -> consistent st -> frame st (unsetspec def_path st m).
Proof.
  intros N C. unfold unsetspec. destruct (special_id st m) as [j|] eqn:SJ; [|apply frame_refl]. apply C in SJ. assert (NJ : j <> i) by congruence.
  destruct j; try apply frame_refl; try (now apply frame_unspecial); fr.
Qed.
Lemma setstr_frame st k m s soft ro : m <> n -> consistent st -> post (setstr ev usable_dir st k m s soft ro) (frame st).
Proof.
  intros N C. unfold setstr.
  assert (FL : post (if soft then Ok_ tt st else Fail st) (frame st)) by (destruct soft; apply frame_refl).
  assert (FS : forall x, post (let st0 := put st k m (Var (defined (get st k m)) true (special (get st k m)) (integer (get st k m)) (rdonly (get st k m)) x) in
                 if special (get st k m) then setspec usable_dir st0 k m else Ok_ tt st0) (frame st)).
  { intros x. cbv zeta. set (st0 := put _ _ _ _). assert (F0 : frame st st0) by now apply frame_put. destruct (special _); [|exact F0].
    pose proof (setspec_frame st0 k m N (f_cons _ _ F0 C)) as X. unfold post in *. destruct (setspec usable_dir st0 k m); auto; eapply frame_trans; eauto. }
  destruct (rdonly _ && _); auto. destruct (integer _); [|apply FS]. destruct (ev s); auto. destruct (in_int64 z); [apply FS|exact Logic.I].
Qed.
Lemma around_frame st0 st k m z : m <> n -> consistent st -> frame st0 st -> post (around ev usable_dir st k m z) (frame st0).
Proof.
  intros N C F0. unfold around. apply post_bind.
  - assert (F1 : frame st0 (clear st k m)) by (eapply frame_trans; [exact F0|now apply frame_put]). unfold setint.
    destruct (integer _); [cbn; eapply frame_trans; [exact F1|now apply frame_put]|]. destruct (str_val_int _ _ _ _); try exact Logic.I.
    apply post_bind; [|intros; cbn; eapply frame_trans; [eassumption|now apply frame_put]].
    assert (C1 : consistent (clear st k m)) by (intros p j; apply C).
    pose proof (setstr_frame (clear st k m) k m a true false N C1) as X. unfold post in *. destruct (setstr _ _ _ _ _ _ _ _); auto; eapply frame_trans; eauto.
  - intros _ st1 F. cbn. eapply frame_trans; [exact F|now apply frame_put].
Qed.
Lemma read_frame st m : m <> n -> consistent st -> post (read ev usable_dir rand st m) (frame st).
Proof.
  intros N C. unfold read. pose proof (frame_global st m N) as FG. destruct (global st m) as [k st1]. cbn [snd] in FG. pose proof (f_cons _ _ FG C) as C1.
  apply post_bind.
  - destruct (special _); [|exact FG]. unfold getspec. destruct (special_id st1 m) as [j|] eqn:SJ; [|exact FG]. pose proof (C1 _ _ SJ) as SJ'. assert (NJ : j <> i) by congruence.
    destruct j; try exact FG; try (apply around_frame; auto; fail).
    + apply around_frame; auto. eapply frame_trans; [exact FG|]. apply frame_set_num. cbn. congruence.
    + destruct (isset _); [|cbn; eapply frame_trans; [exact FG|now apply frame_put]]. destruct (in_int64 _); [|exact Logic.I]. now apply around_frame.
  - intros _ st2 F. destruct (text_of _); cbn; auto.
Qed.
Lemma local_frame st m copy : m <> n -> frame st (local st m copy).
Proof. intros N. unfold local, enter. eapply frame_trans; now apply frame_put. Qed.
Lemma typeset_frame st m v copy : m <> n -> consistent st -> post (typeset ev usable_dir st m v copy) (frame st).
Proof.
  intros N C. unfold typeset. pose proof (local_frame st m copy N) as FL. destruct v as [s|]; [|exact FL]. destruct (rdonly _); [exact FL|].
  pose proof (setstr_frame (local st m copy) 0 m s (negb (integer (get (local st m copy) 0 m))) true N (f_cons _ _ FL C)) as X. unfold post in *. destruct (setstr _ _ _ _ _ _ _ _); auto; eapply frame_trans; eauto.
Qed.
Lemma unset_frame st m : m <> n -> consistent st -> post (unset def_path st m) (frame st).
Proof.
  intros N C. unfold unset. pose proof (frame_global st m N) as FG. destruct (global st m) as [k st1]. cbn [snd] in FG. destruct (rdonly _); [exact FG|].
  cbn. set (st2 := put _ _ _ _). assert (F2 : frame st st2) by (eapply frame_trans; [exact FG|now apply frame_put]). destruct (special _); [|exact F2].
  eapply frame_trans; [exact F2|]. apply unsetspec_frame; auto. exact (f_cons _ _ F2 C).
Qed.
(** popping blocks without the variable *)
Lemma pop_frame b : (forall v, In (n, v) b -> special v = false) -> forall st, consistent st -> post (pop_loop usable_dir def_path b st) (frame st).
Proof.
  induction b as [|[m v] b IH]; intros H st C; [apply frame_refl|]. cbn [pop_loop]. assert (Hb : forall v, In (n, v) b -> special v = false) by (intros w W; apply H; now right).
  destruct (special v) eqn:SV; [|now apply IH]. assert (N : m <> n) by (intros ->; rewrite H in SV; [discriminate|now left]).
  pose proof (frame_global st m N) as FG. destruct (global st m) as [k st1]. cbn [snd] in FG. pose proof (f_cons _ _ FG C) as C1.
  assert (IH' : forall st', frame st st' -> consistent st' -> post (pop_loop usable_dir def_path b st') (frame st)).
  { intros st' F C'. pose proof (IH Hb st' C') as X. unfold post in *. destruct (pop_loop _ _ b st'); auto; eapply frame_trans; eauto. }
  destruct (isset _).
  - apply post_bind.
    + pose proof (setspec_frame st1 k m N C1) as X. unfold post in *. destruct (setspec _ _ _ _); auto; eapply frame_trans; eauto.
    + intros _ st2 F2. apply IH'; auto. exact (f_cons _ _ F2 C).
  - apply IH'; [eapply frame_trans; [exact FG|]; now apply unsetspec_frame|]. exact (f_cons _ _ (unsetspec_frame st1 m N C1) C1).
Qed.
End Frame.
