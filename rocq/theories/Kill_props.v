(** C75: signals by name and number: kill and trap. *)
From Coq Require Import Permutation Sorted.
From Verif Require Import Base Num_spec Num_model Num_proof SimplifyPath_model Var_model Opt_model Opt_spec Opt_proof Opt_props Jobs_model Columns_model Columns_props Quote_model Kill_model Kill_spec Kill_proof.
Local Open Scope Z_scope.

(** A word is taken for exactly the signal it stands for. *)
Theorem c75_signal : forall w ic n, gettrap w ic = Some n <-> stands ic w n.
Proof. exact gettrap_spec. Qed.
Print Assumptions c75_signal.
Theorem c75_unambiguous : forall ic w n m, stands ic w n -> stands ic w m -> n = m.
Proof. exact stands_det. Qed.
Print Assumptions c75_unambiguous.
Example c75_signal_ex : stands true (L "sigUsr1") 10 /\ stands false (L "015") 15 /\ gettrap (L "int") false = None /\ gettrap (L "65") true = None.
Proof. sp; try reflexivity; apply gettrap_spec; reflexivity. Qed.
(** Three names of the table of the shell stand for nothing. *)
Theorem c75_synonym_refuted : forall n nm, In (n, nm) synonyms -> In (nm, n) sys_signame /\ gettrap nm true = None.
Proof. intros n nm I. cbn in I. repeat (destruct I as [I|I]; [injection I as <- <-; split; [cbn; tauto|reflexivity]|]). destruct I. Qed.
Print Assumptions c75_synonym_refuted.

(** ** kill *)
(** kill does what its arguments ask for: the right signals to the right processes, in order. *)
Theorem c75_kill : forall posix x_cols mess ok jobs name args w, cstrings (name :: args) -> (forall h, NoDup (map j_id (jobs h))) ->
  asks args w ->
  exists k, c_kill posix x_cols mess ok jobs (enough args) (name :: args) = Ok (Some k) /\
            carried_out ok jobs (kill_list posix x_cols mess) w k.
Proof.
  intros posix x_cols mess ok jobs name args w CS ND A.
  set (KM := kill_main posix x_cols mess ok jobs).
  assert (M : forall (P : Prop) lf t ps, (lf = true <-> P) -> decided P t ps w -> carried_out ok jobs (kill_list posix x_cols mess) w (KM lf t ps)).
  { clear A. intros P lf t ps LF D. assert (LF' : lf = false <-> ~ P) by (rewrite <- LF; destruct lf; split; congruence).
    assert (SN : forall sig ts, let '(h, rv) := kill_all ok jobs ts sig [] 0 in exists h0 b, sent ok jobs sig [] ts h0 b /\ Ko rv false [] h = Ko (if b then 0 else 1) false [] h0).
    { intros sig ts. destruct (sent_total ok jobs sig ts []) as (h & b & H). rewrite (kill_all_sent ok jobs ND sig _ _ _ _ H 0). exists h, b. split; auto. }
    unfold KM, kill_main. destruct D as [P n ps H|P t H|P p ps H|P H|P p ps H|P n p ps H].
    - apply LF in H. subst lf. reflexivity.
    - apply LF' in H. subst lf. reflexivity.
    - apply LF in H. subst lf. cbn [andb orb negb]. cbn [carried_out].
      destruct (kill_names_spec (p :: ps) []) as (out & b & NS & ->). exists out, b. auto.
    - apply LF in H. subst lf. reflexivity.
    - apply LF' in H. subst lf. cbn [andb orb negb]. cbn [carried_out]. specialize (SN 15 (p :: ps)). change SIGTERM with 15.
      destruct (kill_all ok jobs (p :: ps) 15 [] 0). exact SN.
    - apply LF' in H. subst lf. cbn [andb orb negb]. cbn [carried_out]. specialize (SN n (p :: ps)).
      destruct (kill_all ok jobs (p :: ps) n [] 0). exact SN. }
  assert (NEW : ~ old_style args -> c_kill posix x_cols mess ok jobs (enough args) (name :: args) =
     do r <- kill_opts (enough args) (name :: args) (getopt_reset 0 false) false None ;
     match r with None => Ok None | Some None => Ok (Some (Ko 1 false [] []))
     | Some (Some (lflag, t, g)) => Ok (Some (KM lflag t (skipn (optind g) (name :: args)))) end).
  { intros NO. unfold c_kill. destruct args as [|[|m [|c p]] rest]; auto. destruct (ceq m "-" && (isdigit c || isupper c)) eqn:E; auto.
    exfalso. apply NO. apply andb_true_iff in E. rewrite orb_true_iff, ceq_true in E. destruct E as [-> E]. exists c, p, rest. auto. }
  assert (SCN : forall evs rest mm, ~ old_style args -> scan (L "ls:") false None args evs rest mm ->
     (Exists bad_option evs -> c_kill posix x_cols mess ok jobs (enough args) (name :: args) = Ok (Some (Ko 1 false [] []))) /\
     (Forall (fun e => ~ bad_option e) evs -> exists lf t, (lf = true <-> exists b k a, In (Opt b k "l" a) evs) /\ chosen evs t /\
        c_kill posix x_cols mess ok jobs (enough args) (name :: args) = Ok (Some (KM lf t rest)))).
  { intros evs rest mm NO SC.
    destruct (c19_scan (L "ls:") false name args CS) as (l & g & evs' & rest' & mm' & R & SC' & AG & OI & SK & _).
    { vm_compute. intuition discriminate. }
    destruct (c19_unambiguous _ _ _ _ _ _ _ _ _ SC SC') as (<- & <- & <-).
    assert (FI : Forall fine evs) by (eapply scan_fine; eauto; discriminate).
    destruct (ko_spec evs l AG FI false None) as [K1 K2]. rewrite (NEW NO), (kill_opts_list _ _ _ _ _ _ _ R). split.
    - intros B. rewrite (K1 B). reflexivity.
    - intros B. destruct (K2 B) as (lf & t & -> & A1 & A2). exists lf, t. sp.
      + rewrite A1. split; [intros [X|X]; [discriminate|auto]|auto].
      + destruct A2 as [[N ->]|(n & -> & C)]; auto. now constructor.
      + cbn [bind]. rewrite SK. reflexivity. }
  destruct A as [c t n r ps w C ST DD D|c t r C ST|args evs rest mm NO SC B|args evs rest mm t w NO SC B CH D].
  - exists (KM false (Some n) ps). split; [|eapply M; eauto; split; [discriminate|tauto]].
    unfold c_kill. cbn [ceq]. replace (ceq "-" "-" && (isdigit c || isupper c)) with true by (destruct C as [-> | ->]; cbn; rewrite ?orb_true_r; reflexivity).
    apply gettrap_spec in ST. rewrite ST. unfold KM. do 3 f_equal. destruct DD as [->|[NDD ->]]; [reflexivity|].
    destruct r as [|x r]; auto. destruct (str_eqb_spec x (L "--")) as [->|_]; auto. exfalso. eapply NDD; eauto.
  - eexists. split; [|reflexivity]. unfold c_kill. replace (ceq "-" "-" && (isdigit c || isupper c)) with true by (destruct C as [-> | ->]; cbn; rewrite ?orb_true_r; reflexivity).
    apply gettrap_none in ST. rewrite ST. reflexivity.
  - destruct (SCN _ _ _ NO SC) as [K _]. rewrite (K B). eexists. split; reflexivity.
  - destruct (SCN _ _ _ NO SC) as [_ K]. destruct (K B) as (lf & t' & LF & CH' & ->). eexists. split; [reflexivity|].
    rewrite (chosen_det _ _ _ CH' CH). eapply M; eauto.
Qed.
Print Assumptions c75_kill.
(** Any arguments ask for something, and what is sent is determined by them. *)
Theorem c75_kill_total : forall name args, cstrings (name :: args) -> exists w, asks args w.
Proof.
  intros name args CS.
  assert (DE : forall (P : Prop) t ps, P \/ ~ P -> exists w, decided P t ps w).
  { intros P t ps [H|H]; destruct t as [n|], ps as [|p ps]; eexists;
      first [solve [apply De_both; auto] | solve [apply De_nothing; auto] | solve [apply De_names; auto] | solve [apply De_all; auto] | solve [apply De_term; auto] | solve [apply De_send; auto]]. }
  assert (OS : old_style args \/ ~ old_style args).
  { destruct args as [|[|m [|c t]] r]; try (right; intros (? & ? & ? & [=] & _); fail).
    destruct (ceq_spec m "-") as [->|N]; [|right; intros (? & ? & ? & [= E _] & _); congruence].
    destruct (isdigit c || isupper c) eqn:E.
    - left. exists c, t, r. split; auto. now apply orb_true_iff.
    - right. intros (? & ? & ? & [= <- _ _] & X). apply orb_true_iff in X. congruence. }
  destruct OS as [(c & t & r & -> & C)|NO].
  - destruct (gettrap (c :: t) true) as [n|] eqn:G.
    + apply gettrap_spec in G.
      assert (R : exists ps, r = L "--" :: ps \/ (forall x, r <> L "--" :: x) /\ ps = r).
      { destruct r as [|x r]; [exists []; right; split; auto; discriminate|]. destruct (str_eqb_spec x (L "--")) as [->|N]; [eauto|].
        exists (x :: r). right. split; auto. congruence. }
      destruct R as (ps & R). destruct (DE False (Some n) ps) as (w & D); [tauto|]. exists w. eapply As_old; eauto.
    + exists Refused. apply As_old_bad; auto. now apply gettrap_none.
  - destruct (c19_scan (L "ls:") false name args CS) as (l & g & evs & rest & mm & R & SC & AG & OI & SK & _).
    { vm_compute. intuition discriminate. }
    assert (FI : Forall fine evs) by (eapply scan_fine; eauto; discriminate).
    assert (DB : Exists bad_option evs \/ Forall (fun e => ~ bad_option e) evs).
    { clear. induction evs as [|e evs [IH|IH]]; [right; constructor|left; now apply Exists_cons_tl|].
      assert (bad_option e \/ ~ bad_option e) as [B|B].
      { destruct e as [b k c [a|]|b c|b c]; cbn; auto. destruct (ceq_spec c "s") as [->|N]; [|right; tauto].
        destruct (gettrap a true) as [n|] eqn:G; [right; intros [_ X]; apply gettrap_spec in G; eapply X; eauto|left; split; auto; now apply gettrap_none]. }
      - left. now apply Exists_cons_hd. - right. constructor; auto. }
    destruct DB as [B|B]; [exists Refused; eapply As_bad; eauto|].
    destruct (ko_spec evs l AG FI false None) as [_ K2]. destruct (K2 B) as (lf & t & _ & A1 & A2).
    assert (CH : chosen evs t) by (destruct A2 as [[N ->]|(n & -> & C)]; auto; now constructor).
    destruct (DE (exists b k a, In (Opt b k "l" a) evs) t rest) as (w & D).
    { destruct lf; [left; destruct A1 as [A1 _]; destruct (A1 eq_refl); [discriminate|auto]|right; intros X; destruct A1 as [_ A1]; discriminate A1; auto]. }
    exists w. eapply As_new; eauto.
Qed.
Print Assumptions c75_kill_total.
Theorem c75_sent_unique : forall ok jobs sig ts h1 b1 h2 b2, (forall h, NoDup (map j_id (jobs h))) ->
  sent ok jobs sig [] ts h1 b1 -> sent ok jobs sig [] ts h2 b2 -> h1 = h2 /\ b1 = b2.
Proof.
  intros ok jobs sig ts h1 b1 h2 b2 ND S1 S2.
  pose proof (kill_all_sent ok jobs ND sig _ _ _ _ S1 0) as E1. rewrite (kill_all_sent ok jobs ND sig _ _ _ _ S2 0) in E1.
  injection E1 as -> E. split; auto. destruct b1, b2; auto; discriminate.
Qed.
Print Assumptions c75_sent_unique.
Definition fl0 := Flags true false false false false false false false false false.
Definition sleeper (i : nat) (st : pstate) (cmds : list cstr) (pg : Z) : job :=
  Job i (Z.of_nat i) fl0 st 0 pg 0 (map (fun c => Proc (100 + Z.of_nat i) st None c) cmds) None.
Definition two_jobs (_ : list act) := [sleeper 2 PStop [L "sleep 9"] 102; sleeper 1 PRun [L "cat x"; L "wc"] 0].
Example c75_kill_ex : c_kill false 80 (fun _ => []) (fun _ _ => true) two_jobs 40 [L "kill"; L "-s"; L "term"; L "--"; L "%+"; L "%?at"; L "-44"; L "7"; L "x"]
  = Ok (Some (Ko 1 false [] [Killpg 102 18; Killpg 102 15; Kill 101 15; Kill 101 15; Killpg 44 15; Kill 7 15])).
Proof. vm_compute. reflexivity. Qed.
Example c75_kill_ex_hyps : cstrings [L "kill"; L "-9"; L "%1"] /\ (forall h, NoDup (map j_id (two_jobs h))) /\ asks [L "-9"; L "%1"] (Send 9 [L "%1"]).
Proof.
  sp.
  - repeat constructor.
  - intros h. repeat (constructor; [cbn; intuition discriminate|]). constructor.
  - eapply As_old; [left; reflexivity|apply gettrap_spec; reflexivity| |apply De_send; tauto]. right. split; auto. discriminate.
Qed.
(** Of a pipeline with two processes that have the text in their commands, %?text is taken for two jobs. *)
Theorem c75_job_twice_refuted : exists l j s, l = [j] /\ (forall p, In p (j_procs j) -> contains s (p_cmd p)) /\
  j_procs j <> [] /\ j_lookup (L "%?" ++ s) l = LAmbig.
Proof.
  exists [sleeper 1 PRun [L "cat x"; L "cat y"] 0], (sleeper 1 PRun [L "cat x"; L "cat y"] 0), (L "cat"). sp; [reflexivity| |discriminate|reflexivity].
  intros p I. cbn in I. destruct I as [<-|[<-|[]]]; exists []; eexists; reflexivity.
Qed.
Print Assumptions c75_job_twice_refuted.

(** ** kill -l *)
(** In posix mode all names, in order. *)
Theorem c75_list_posix : forall x_cols mess,
  kill_list true x_cols mess = spaced (map snd (filter (fun e => if Z_lt_dec 0 (fst e) then if Z_lt_dec (fst e) 65 then true else false else false) signals)) ++ [NL].
Proof. intros. vm_compute. reflexivity. Qed.
Print Assumptions c75_list_posix.
Lemma widest_ge f : forall l i, In i l -> f i <= widest f l.
Proof.
  unfold widest. assert (K : forall l w, w <= fold_left (fun w i => if w <? f i then f i else w) l w /\ forall i, In i l -> f i <= fold_left (fun w i => if w <? f i then f i else w) l w).
  { induction l as [|x l IH]; intros w; cbn [fold_left]; [split; [lia|intros i []]|]. destruct (IH (if w <? f x then f x else w)) as [A B].
    split; [destruct (Z.ltb_spec w (f x)); lia|]. intros i [->|I]; auto. destruct (Z.ltb_spec w (f i)); lia. }
  intros l i I. now apply K.
Qed.
Lemma dec_small i : 1 <= i <= 64 -> (length (dec i) <= 2)%nat.
Proof.
  intros R. assert (K : forallb (fun i => Nat.leb (length (dec i)) 2) all_sigs = true) by (vm_compute; reflexivity).
  rewrite forallb_forall in K. apply Nat.leb_le. apply K. apply all_sigs_in. lia.
Qed.
(** Otherwise every signal once, with its number, its name and its message; no entry is cut off by the buffer, which has
    one byte more than the width given to print_columns. *)
Theorem c75_list : forall x_cols mess, 0 < x_cols ->
  exists f items lines, kill_list false x_cols mess = concat (map (fun r => r ++ [NL]) lines) /\
    Permutation (concat items) (numbers 64) /\ Forall2 (shows f) items lines /\
    (forall i, 0 <= i < 64 -> entry mess (i + 1) (f i) /\ Z.of_nat (length (f i)) <= num_width + name_width + mess_width mess + 3).
Proof.
  intros x_cols mess X. assert (MW : 0 <= mess_width mess).
  { pose proof (widest_ge (fun i => Z.of_nat (length (mess i))) (map Z.of_nat (seq 0 65)) 0 ltac:(left; reflexivity)) as H. cbv beta in H. unfold mess_width. lia. }
  assert (NW : num_width = 2) by reflexivity. assert (AW : name_width = 6) by reflexivity.
  destruct (c48_every_entry_once x_cols 64 (num_width + name_width + mess_width mess + 3) true (kill_fmt_entry mess)) as (items & R & P & S & _); [lia..|].
  exists (kill_fmt_entry mess), items, (print_columns x_cols 64 (num_width + name_width + mess_width mess + 3) true (kill_fmt_entry mess)).
  sp; auto. intros i Hi. unfold kill_fmt_entry. split.
  - unfold entry, rpad. do 2 eexists. exists (dec (i + 1)), (match name_of (i + 1) with Some s => s | None => dec (i + 1) end).
    sp; [rewrite <- !app_assoc; reflexivity|apply dec_decimal; lia|].
    destruct (name_of (i + 1)) as [nm|] eqn:E; [left; now apply name_of_spec|right; split; auto]. intros x I. apply name_of_spec in I. congruence.
  - pose proof (dec_small (i + 1) ltac:(lia)) as D2.
    assert (NL6 : (length (match name_of (i + 1) with Some s => s | None => dec (i + 1) end) <= 6)%nat).
    { destruct (name_of (i + 1)) as [nm|] eqn:E; [|lia]. apply name_of_spec in E. cbn in E. repeat (destruct E as [E|E]; [injection E as _ <-; cbn; lia|]). destruct E. }
    assert (ML : Z.of_nat (length (mess (i + 1))) <= mess_width mess).
    { apply (widest_ge (fun i => Z.of_nat (length (mess i)))). apply in_map_iff. exists (Z.to_nat (i + 1)). split; [lia|]. apply in_seq. lia. }
    unfold rpad. rewrite !app_length, !repeat_length. rewrite NW, AW in *. change (length (L " ")) with 1%nat. lia.
Qed.
Print Assumptions c75_list.
Example c75_names_ex : c_kill false 80 (fun _ => []) (fun _ _ => true) two_jobs 40 [L "kill"; L "-l"; L "137"; L "2"; L "0"; L "40"; L "300"]
  = Ok (Some (Ko 0 false (L "KILL" ++ [NL] ++ L "INT" ++ [NL] ++ L "0" ++ [NL] ++ L "40" ++ [NL] ++ L "300" ++ [NL]) [])).
Proof. vm_compute. reflexivity. Qed.

(** ** trap *)
Theorem c75_trap : forall traps name args ops l b, operands_of args ops -> trap_asks ops l b ->
  c_trap traps (name :: args) = Ok (TSet l (if b then 0 else 1)).
Proof. intros traps name args ops l b O A. rewrite (c_trap_ops traps name args ops O). now rewrite (trap_ops_spec traps ops l b A). Qed.
Print Assumptions c75_trap.
Theorem c75_trap_total : forall args, (exists ops, operands_of args ops /\ (ops <> [] -> exists l b, trap_asks ops l b)) \/
  exists c t ws, args = ("-"%char :: c :: t) :: ws /\ "-"%char :: c :: t <> L "--" /\ forall traps name, c_trap traps (name :: args) = Ok (TSet [] 1).
Proof.
  intros [|w ws]; [left; exists []; split; [constructor|congruence]|].
  destruct (str_eqb_spec w (L "--")) as [->|N].
  - left. exists ws. split; [constructor|apply trap_asks_total].
  - destruct w as [|m [|c t]]; [left..|].
    + eexists. split; [apply Oo_plain; auto; intros (? & ? & ? & [=] & _)|apply trap_asks_total].
    + eexists. split; [apply Oo_plain; auto; intros (? & ? & ? & [=] & _)|apply trap_asks_total].
    + destruct (ceq_spec m "-") as [->|NM].
      * right. exists c, t, ws. sp; auto. intros traps name. now apply c_trap_bad.
      * left. eexists. split; [apply Oo_plain; auto; intros (s & ? & ? & [= <- _ _] & [X|[X _]] & _); [congruence|discriminate]|apply trap_asks_total].
Qed.
Print Assumptions c75_trap_total.
(** The listing: every trap that is set, in the order of the signals. *)
Theorem c75_trap_list : forall traps name args, operands_of args [] -> (forall p, traps p <> None -> exists nm, In (p, nm) signals) ->
  exists ps lines, c_trap traps (name :: args) = Ok (TList (concat lines)) /\ StronglySorted Z.lt ps /\
    (forall p, In p ps <-> traps p <> None) /\
    Forall2 (fun p s => exists t nm, traps p = Some t /\ In (p, nm) signals /\ s = L "trap -- " ++ print_value_quoted t ++ L " " ++ nm ++ [NL]) ps lines.
Proof.
  intros traps name args O NM. set (isset := fun p => match traps p with Some _ => true | None => false end).
  exists (filter isset all_sigs), (map (fun p => match traps p with Some t => trap_line p t | None => [] end) (filter isset all_sigs)).
  sp.
  - rewrite (c_trap_ops traps name args [] O). cbn [trap_ops]. do 2 f_equal. generalize all_sigs. clear.
    induction l as [|p l IH]; auto. cbn [map concat filter]. unfold isset at 1. destruct (traps p) eqn:E; cbn [map concat app]; rewrite ?E, IH; reflexivity.
  - assert (K : forall l, StronglySorted Z.lt l -> StronglySorted Z.lt (filter isset l)).
    { clear. induction 1 as [|a l S IH F]; cbn; [constructor|]. destruct (isset a); auto. constructor; auto.
      apply Forall_forall. intros x I. apply filter_In in I. rewrite Forall_forall in F. now apply F. }
    assert (G : forall n s, StronglySorted Z.lt (map Z.of_nat (seq s n))).
    { clear. induction n as [|n IH]; intros s; cbn [seq map]; constructor; auto.
      apply Forall_forall. intros x I. apply in_map_iff in I. destruct I as (y & <- & I). apply in_seq in I. lia. }
    apply K. apply G.
  - intros p. rewrite filter_In. unfold isset. split.
    + intros [_ H]. destruct (traps p); congruence.
    + intros H. destruct (NM p H) as (nm & I). apply name_of_spec in I. apply name_of_range in I. split; [now apply all_sigs_in|]. destruct (traps p); congruence.
  - assert (K : forall l, (forall p, In p l -> isset p = true) -> Forall2 (fun p s => exists t nm, traps p = Some t /\ In (p, nm) signals /\ s = L "trap -- " ++ print_value_quoted t ++ L " " ++ nm ++ [NL]) l
       (map (fun p => match traps p with Some t => trap_line p t | None => [] end) l)).
    { induction l as [|p l IH]; intros H; cbn [map]; constructor; [|apply IH; intros q I; apply H; now right].
      assert (E : isset p = true) by (apply H; now left). unfold isset in E. destruct (traps p) as [t|] eqn:T; [|discriminate].
      destruct (NM p) as (nm & I); [congruence|]. exists t, nm. sp; auto. unfold trap_line. apply name_of_spec in I. now rewrite I. }
    apply K. intros p I. now apply filter_In in I.
Qed.
Print Assumptions c75_trap_list.
(** The words of such a line set the same trap again; trap never sets anything but such actions. *)
Theorem c75_trap_reread : forall traps name p nm t, In (p, nm) signals -> action t ->
  c_trap traps [name; L "--"; t; nm] = Ok (TSet [(p, Some t)] 0).
Proof.
  intros traps name p nm t I [A1 A2]. apply (c75_trap traps name [L "--"; t; nm] [t; nm] [(p, Some t)] true); [constructor|].
  apply TA_action; auto. eapply SE_set; [|constructor]. apply (St_name _ _ _ nm I). reflexivity.
Qed.
Print Assumptions c75_trap_reread.
Theorem c75_trap_actions : forall traps name args l rv p t, c_trap traps (name :: args) = Ok (TSet l rv) -> In (p, Some t) l -> action t.
Proof.
  intros traps name args l rv p t E I. destruct (c75_trap_total args) as [(ops & O & T)|(c & t' & ws & _ & _ & B)].
  - destruct ops as [|w ws]; [rewrite (c_trap_ops _ _ _ _ O) in E; discriminate|]. destruct T as (l' & b & A); [discriminate|].
    rewrite (c75_trap traps name args _ _ _ O A) in E. injection E as -> _.
    assert (K : forall a ws l b, set_each a ws l b -> In (p, Some t) l -> a = Some t).
    { clear. induction 1; intros I; [destruct I| |destruct I]. destruct I as [[= _ <-]|I]; auto. }
    inversion A as [? ? ? ? ? ? H|? ? ? H|? ? ? ? N D H]; subst; apply (K _ _ _ _ H) in I; try discriminate. injection I as <-. split; auto.
  - rewrite B in E. injection E as <- _. destruct I.
Qed.
Print Assumptions c75_trap_actions.
Example c75_trap_ex : c_trap (fun _ => None) [L "trap"; L "echo"; L "int"; L "SIGHUP"; L "bad"; L "1"] = Ok (TSet [(2, Some (L "echo")); (1, Some (L "echo"))] 1)
  /\ c_trap (fun _ => None) [L "trap"; L "INT"; L "0"] = Ok (TSet [(2, None); (0, None)] 0) /\ action (L "echo").
Proof. sp; [vm_compute; reflexivity..|]. split; [apply gettrap_none; reflexivity|discriminate]. Qed.
(** A signal that is ignored is listed as one whose trap is to be reset. *)
Theorem c75_trap_ignored_refuted :
  c_trap (fun _ => None) [L "trap"; []; L "INT"] = Ok (TSet [(2, Some [])] 0) /\
  c_trap (fun p => if p =? 2 then Some [] else None) [L "trap"] = Ok (TList (L "trap --  INT" ++ [NL])) /\
  c_trap (fun p => if p =? 2 then Some [] else None) [L "trap"; L "--"; L "INT"] = Ok (TSet [(2, None)] 0).
Proof. sp; vm_compute; reflexivity. Qed.
Print Assumptions c75_trap_ignored_refuted.
(** A signal without a name can have a trap, but the listing does not name it. *)
Theorem c75_trap_nameless_refuted :
  c_trap (fun _ => None) [L "trap"; L "x"; L "34"] = Ok (TSet [(34, Some (L "x"))] 0) /\
  c_trap (fun p => if p =? 34 then Some (L "x") else None) [L "trap"] = Ok (TList (L "trap -- x (null %s)" ++ [NL])) /\
  forall n, ~ stands true (L "(null") n.
Proof. sp; [vm_compute; reflexivity..|]. apply gettrap_none. reflexivity. Qed.
Print Assumptions c75_trap_nameless_refuted.
