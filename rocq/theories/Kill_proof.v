From Verif Require Import Base Num_spec Num_model Num_proof Num_props SimplifyPath_model Var_model Opt_model Opt_spec Opt_proof Opt_props Jobs_model Columns_model Quote_model Kill_model Kill_spec.
Local Open Scope Z_scope.
Ltac sp := repeat match goal with |- _ /\ _ => split end.

(** ** The names *)
Lemma all_sigs_in n : In n all_sigs <-> 0 <= n <= 65.
Proof.
  unfold all_sigs. rewrite in_map_iff. split.
  - intros (k & <- & H). apply in_seq in H. lia.
  - intros H. exists (Z.to_nat n). split; [lia|]. apply in_seq. lia.
Qed.
Lemma name_of_range n nm : name_of n = Some nm -> 0 <= n <= 65.
Proof.
  unfold name_of. destruct (Z.eqb_spec n SIGEXIT_) as [->|]; [unfold SIGEXIT_; lia|].
  destruct (Z.eqb_spec n SIGERR_) as [->|]; [unfold SIGERR_, NSIG; lia|].
  destruct (find _ sys_signame) as [e|] eqn:F; [|discriminate]. intros _. apply find_some in F. destruct F as [I E].
  apply Z.eqb_eq in E. subst n. cbn in I. repeat (destruct I as [<-|I]; [cbn; lia|]). destruct I.
Qed.
Definition opt_in (n : Z) (o : option cstr) : bool :=
  match o, find (fun e => fst e =? n) signals with
  | Some a, Some (_, b) => str_eqb a b
  | None, None => true
  | _, _ => false
  end.
Lemma signals_keys n nm : In (n, nm) signals <-> exists b, find (fun e => fst e =? n) signals = Some (b, nm).
Proof.
  split.
  - intros I. exists n. cbn in I. repeat (destruct I as [I|I]; [injection I as <- <-; reflexivity|]). destruct I.
  - intros (b & F). apply find_some in F. destruct F as [I E]. cbn in E. apply Z.eqb_eq in E. now subst.
Qed.
Lemma name_of_spec n nm : name_of n = Some nm <-> In (n, nm) signals.
Proof.
  assert (K : forall n, 0 <= n <= 65 -> opt_in n (name_of n) = true).
  { intros m H. apply all_sigs_in in H. revert m H. apply forallb_forall. vm_compute. reflexivity. }
  rewrite signals_keys. split.
  - intros H. specialize (K n (name_of_range _ _ H)). rewrite H in K. unfold opt_in in K.
    destruct (find _ signals) as [[b x]|]; [|discriminate]. apply str_eqb_true in K. subst. eauto.
  - intros (b & F). assert (R : 0 <= n <= 65).
    { apply find_some in F. destruct F as [I E]. cbn [fst] in E. apply Z.eqb_eq in E. subst b. clear -I. cbn in I.
      repeat (destruct I as [I|I]; [injection I as <- <-; lia|]). destruct I. }
    specialize (K n R). unfold opt_in in K. rewrite F in K. destruct (name_of n); [|discriminate]. apply str_eqb_true in K. now subst.
Qed.
Lemma casecmp_spec : forall a b, casecmp a b = true <-> map tolower a = map tolower b.
Proof.
  induction a as [|x a IH]; destruct b as [|y b]; cbn; try (split; congruence).
  rewrite andb_true_iff, ceq_true, IH. split; [intros [-> ->]; reflexivity|intros [= -> ->]; auto].
Qed.
Lemma ncasecmp_spec : forall p s, ncasecmp p s = true <-> map tolower (firstn (length p) s) = map tolower p.
Proof.
  induction p as [|x p IH]; destruct s as [|y s]; cbn; try (split; congruence).
  rewrite andb_true_iff, ceq_true, IH. split; [intros [-> ->]; reflexivity|intros [= -> ->]; auto].
Qed.
Lemma starts_spec : forall p s, starts p s = true <-> exists t, s = p ++ t.
Proof.
  induction p as [|x p IH]; destruct s as [|y s]; cbn.
  - split; eauto. - split; eauto. - split; [discriminate|intros (t & [=])].
  - rewrite andb_true_iff, ceq_true, IH. split; [intros (-> & t & ->); eauto|intros (t & [= -> ->]); eauto].
Qed.
Lemma same_eq ic a b : same_text ic a b <-> (if ic then casecmp a b else str_eqb a b) = true.
Proof. destruct ic; cbn; [rewrite casecmp_spec|rewrite str_eqb_true]; tauto. Qed.

(** facts about the names themselves *)
Lemma same_lower ic a b : same_text ic a b -> map tolower a = map tolower b.
Proof. destruct ic; cbn; congruence. Qed.
Lemma names_distinct n nm n' nm' : In (n, nm) signals -> In (n', nm') signals -> map tolower nm = map tolower nm' -> n = n' /\ nm = nm'.
Proof.
  intros I I' E.
  assert (K : forallb (fun e => forallb (fun e' => if list_eq_dec ascii_dec (map tolower (snd e)) (map tolower (snd e')) then (fst e =? fst e') && str_eqb (snd e) (snd e') else true) signals) signals = true) by (vm_compute; reflexivity).
  rewrite forallb_forall in K. specialize (K _ I). cbv beta in K. rewrite forallb_forall in K. specialize (K _ I'). cbn [fst snd] in K.
  destruct (list_eq_dec ascii_dec (map tolower nm) (map tolower nm')); [|contradiction].
  apply andb_true_iff in K. destruct K as [A B]. split; [now apply Z.eqb_eq|now apply str_eqb_true].
Qed.
Lemma names_plain n nm : In (n, nm) signals -> map tolower (firstn 3 nm) <> map tolower (L "SIG") /\ nm <> [] /\ isdigit (hd NUL nm) = false /\ (forall c t, nm = c :: t -> tolower c <> c).
Proof.
  intros I. cbn in I. repeat (destruct I as [I|I]; [injection I as <- <-; sp; [discriminate|discriminate|reflexivity|intros c t [= <- _]; discriminate]|]). destruct I.
Qed.

Lemma denotes_digits ds v : denotes 10 ds v -> (exists c t, ds = c :: t) /\ (forall c, In c ds -> isdigit c = true) /\ 0 <= v.
Proof.
  assert (D : forall c d, digit_of c = Some d -> d < 10 -> isdigit c = true /\ 0 <= d).
  { intros c d H L. unfold digit_of in H. unfold isdigit, cbetween. change (ccode "0") with 48. change (ccode "9") with 57.
    destruct ((48 <=? ccode c) && (ccode c <=? 57)) eqn:E; [injection H as <-; split; auto; lia|].
    destruct ((97 <=? ccode c) && (ccode c <=? 122)) eqn:E2; [injection H as <-; lia|].
    destruct ((65 <=? ccode c) && (ccode c <=? 90)) eqn:E3; [injection H as <-; lia|discriminate]. }
  induction 1 as [c d H H1|ds n c d H IH H0 H1]; cbn.
  - destruct (D c d H H1). sp; eauto. intros x [<-|[]]; auto.
  - destruct IH as ((c0 & t & ->) & A & B). destruct (D c d H0 H1). sp; [cbn; eauto| |lia].
    intros x I. apply in_app_iff in I. destruct I as [I|[<-|[]]]; auto.
Qed.
Lemma lower_digit c : isdigit c = true -> tolower c = c.
Proof.
  unfold isdigit, tolower, isupper, cbetween. intros H. destruct ((ccode "A" <=? ccode c) && (ccode c <=? ccode "Z")) eqn:E; auto.
  change (ccode "A") with 65 in E. change (ccode "9") with 57 in H. lia.
Qed.
Lemma lower_not_digit c d : tolower c = tolower d -> isdigit d = true -> c = d.
Proof.
  intros E D. rewrite (lower_digit d D) in E. subst d. revert D.
  unfold tolower. destruct (isupper c) eqn:U; auto. intros D. exfalso.
  revert U D. pattern c. revert c. 
  assert (K : forall c, (if isupper c then negb (isdigit (ascii_of_N (N_of_ascii c + 32))) else true) = true) by (apply char_sweep; vm_compute; reflexivity).
  intros c U D. specialize (K c). rewrite U, D in K. discriminate.
Qed.

Lemma find_unique {A} (f : A -> bool) l n : (forall i j, In i l -> In j l -> f i = true -> f j = true -> i = j) ->
  (find f l = Some n <-> In n l /\ f n = true).
Proof.
  intros U. split; [apply find_some|]. intros [I E]. destruct (find f l) as [m|] eqn:F.
  - apply find_some in F. destruct F. f_equal. auto.
  - exfalso. rewrite (find_none _ _ F _ I) in E. discriminate.
Qed.
Lemma search_spec (ic : bool) w n :
  find (fun i => match name_of i with Some nm => if ic then casecmp nm w else str_eqb nm w | None => false end) all_sigs = Some n <->
  exists nm, In (n, nm) signals /\ same_text ic nm w.
Proof.
  rewrite find_unique.
  - split.
    + intros [_ H]. destruct (name_of n) as [nm|] eqn:E; [|discriminate]. exists nm. split; [now apply name_of_spec|]. now apply same_eq.
    + intros (nm & I & S). apply name_of_spec in I. split; [apply all_sigs_in; eapply name_of_range; eauto|]. rewrite I. now apply same_eq.
  - intros i j _ _ Hi Hj. destruct (name_of i) as [a|] eqn:Ei; [|discriminate]. destruct (name_of j) as [b|] eqn:Ej; [|discriminate].
    apply name_of_spec in Ei, Ej. apply same_eq in Hi, Hj. apply same_lower in Hi, Hj. eapply names_distinct; eauto. congruence.
Qed.
Lemma getn_digit w n : isdigit (hd NUL w) = true -> getn w = Some n <-> denotes 10 w n /\ n < 2147483647.
Proof.
  intros D. rewrite c54_getn_exact. split.
  - intros (sp0 & sg & ds & v & -> & W & SG & DN & -> & R).
    destruct sp0 as [|c sp0]; [|cbn in D, W; apply andb_true_iff in W; destruct W as [W _]; exfalso; revert D W; clear;
      assert (K : forall c, negb (isdigit c && isspace c) = true) by (apply char_sweep; vm_compute; reflexivity);
      specialize (K c); intros D W; rewrite D, W in K; discriminate].
    destruct SG as [->|[->| ->]]; [|discriminate D|discriminate D]. cbn in *. split; auto. lia.
  - intros [DN R]. destruct (denotes_digits _ _ DN) as (_ & _ & P). exists [], [], w, n. sp; auto; cbn; lia.
Qed.
Theorem gettrap_spec w ic n : gettrap w ic = Some n <-> stands ic w n.
Proof.
  unfold gettrap. destruct (isdigit (hd NUL w)) eqn:D.
  - assert (NN : forall nm, In (n, nm) signals -> ~ same_text ic nm w /\ ~ same_text ic (L "SIG" ++ nm) w).
    { intros nm I. destruct w as [|c w]; [discriminate|]. cbn in D.
      destruct (names_plain _ _ I) as (_ & NE & ND & _). split; intros S; apply same_lower in S.
      - destruct nm as [|x nm]; [congruence|]. cbn in S. injection S as S _. apply lower_not_digit in S; auto. subst. cbn in ND. congruence.
      - cbn [L list_ascii_of_string app map] in S. injection S as S _. rewrite (lower_digit c D) in S. subst c. discriminate. }
    split.
    + intros H. destruct (getn w) as [m|] eqn:E; [|discriminate]. destruct ((0 <=? m) && (m <? NSIG)) eqn:B; [|discriminate]. injection H as ->.
      apply getn_digit in E; auto. destruct E as [E _]. apply St_number; auto. unfold NSIG in B. lia.
    + intros [DN R|nm I S|nm I S]; [|destruct (NN nm I); contradiction..].
      assert (getn w = Some n) as -> by (apply getn_digit; auto; split; auto; lia).
      destruct (denotes_digits _ _ DN) as (_ & _ & P). unfold NSIG. replace ((0 <=? n) && (n <? 65)) with true by lia. reflexivity.
  - assert (NN : ~ denotes 10 w n).
    { intros DN. destruct (denotes_digits _ _ DN) as ((c & t & ->) & A & _). cbn in D. rewrite A in D by (left; auto). discriminate. }
    assert (ST : forall pre, (forall nm, In (n, nm) signals -> (same_text ic nm w <-> False) /\ (same_text ic (L "SIG" ++ nm) w <-> same_text ic nm pre)) ->
       (find (fun i => match name_of i with Some nm => if ic then casecmp nm pre else str_eqb nm pre | None => false end) all_sigs = Some n <-> stands ic w n)).
    { intros pre H. rewrite search_spec. split.
      - intros (nm & I & S). apply (St_sig _ _ _ nm I). now apply H.
      - intros [DN R|nm I S|nm I S]; [contradiction|apply H in S; [destruct S|auto]|]. exists nm. split; auto. now apply H. }
    assert (PL : (forall nm, In (n, nm) signals -> ~ same_text ic (L "SIG" ++ nm) w) ->
       (find (fun i => match name_of i with Some nm => if ic then casecmp nm w else str_eqb nm w | None => false end) all_sigs = Some n <-> stands ic w n)).
    { intros H. rewrite search_spec. split.
      - intros (nm & I & S). now apply (St_name _ _ _ nm I).
      - intros [DN R|nm I S|nm I S]; [contradiction|eauto|]. exfalso. eapply H; eauto. }
    destruct ic; cbn [negb andb].
    + destruct (ncasecmp (L "SIG") w) eqn:N.
      * apply ncasecmp_spec in N. change (length (L "SIG")) with 3%nat in N. apply ST. intros nm I.
        destruct (names_plain _ _ I) as (P & _). split.
        -- split; [|tauto]. cbn [same_text]. intros S. apply P. rewrite <- !firstn_map in *. rewrite S. rewrite firstn_map. rewrite firstn_map in N. exact N.
        -- cbn [same_text]. rewrite map_app. rewrite <- (firstn_skipn 3 w) at 1. rewrite map_app, N. split; [apply app_inv_head|congruence].
      * apply PL. intros nm I S. cbn [same_text] in S. rewrite <- not_true_iff_false in N. apply N. apply ncasecmp_spec.
        change (length (L "SIG")) with 3%nat. rewrite <- firstn_map, <- S, map_app. reflexivity.
    + destruct (starts (L "SIG") w) eqn:N.
      * apply starts_spec in N. destruct N as (t & ->). apply ST. intros nm I. destruct (names_plain _ _ I) as (P & _). split.
        -- split; [|tauto]. cbn [same_text]. intros ->. apply P. reflexivity.
        -- cbn [same_text]. split; [intros H; apply app_inv_head in H; exact H|]. change (skipn 3 (L "SIG" ++ t)) with t. congruence.
      * apply PL. intros nm I S. cbn [same_text] in S. rewrite <- not_true_iff_false in N. apply N. apply starts_spec. eauto.
Qed.
Lemma gettrap_none w ic : gettrap w ic = None <-> forall n, ~ stands ic w n.
Proof.
  split.
  - intros E n S. apply gettrap_spec in S. congruence.
  - intros H. destruct (gettrap w ic) eqn:E; auto. apply gettrap_spec in E. exfalso. eapply H; eauto.
Qed.

(** ** trap *)
Lemma set_traps_spec a : forall ws l b, set_each a ws l b -> set_traps a ws = (l, if b then 0 else 1).
Proof.
  induction 1 as [|w n ws l b S H IH|w ws N]; cbn; auto.
  - apply gettrap_spec in S. rewrite S, IH. reflexivity.
  - apply gettrap_none in N. now rewrite N.
Qed.
Lemma set_each_total a : forall ws, exists l b, set_each a ws l b.
Proof.
  induction ws as [|w ws (l & b & IH)]; [do 2 eexists; constructor|].
  destruct (gettrap w true) as [n|] eqn:E.
  - apply gettrap_spec in E. do 2 eexists. eapply SE_set; eauto.
  - do 2 eexists. apply SE_bad. now apply gettrap_none.
Qed.
Lemma trap_asks_total ws : ws <> [] -> exists l b, trap_asks ws l b.
Proof.
  destruct ws as [|w ws]; [congruence|]. intros _. destruct (gettrap w false) as [n|] eqn:E.
  - apply gettrap_spec in E. destruct (set_each_total None (w :: ws)) as (l & b & H). do 2 eexists. eapply TA_reset; eauto.
  - destruct (str_eqb_spec w (L "-")) as [->|N].
    + destruct (set_each_total None ws) as (l & b & H). do 2 eexists. eapply TA_dash; eauto.
    + destruct (set_each_total (Some w) ws) as (l & b & H). do 2 eexists. eapply TA_action; eauto. now apply gettrap_none.
Qed.
Definition trap_ops (traps : Z -> option cstr) (ops : list cstr) : trap_res :=
  match ops with
  | [] => TList (concat (map (fun p => match traps p with Some t => trap_line p t | None => [] end) all_sigs))
  | w :: wp' =>
    let '(s, wp) := match gettrap w false with None => (Some w, wp') | Some _ => (None, w :: wp') end in
    let s := match s with Some w => if str_eqb w (L "-") then None else Some w | None => None end in
    let '(l, rv) := set_traps s wp in TSet l rv
  end.
Lemma trap_ops_spec traps ws l b : trap_asks ws l b -> trap_ops traps ws = TSet l (if b then 0 else 1).
Proof.
  intros [w n ws' l' b' S H|ws' l' b' H|w ws' l' b' N D H]; unfold trap_ops.
  - apply gettrap_spec in S. rewrite S. rewrite (set_traps_spec _ _ _ _ H). reflexivity.
  - change (gettrap (L "-") false) with (@None Z). cbv iota. change (str_eqb (L "-") (L "-")) with true. cbv iota.
    rewrite (set_traps_spec _ _ _ _ H). reflexivity.
  - apply gettrap_none in N. rewrite N. destruct (str_eqb_spec w (L "-")) as [->|_]; [congruence|].
    rewrite (set_traps_spec _ _ _ _ H). reflexivity.
Qed.
Lemma c_trap_ops traps name args ops : operands_of args ops -> c_trap traps (name :: args) = Ok (trap_ops traps ops).
Proof.
  assert (K : forall args ops g, ksh_getopt (name :: args) (getopt_reset 0 false) [] = Ok (-1, g) -> skipn (optind g) (name :: args) = ops ->
     c_trap traps (name :: args) = Ok (trap_ops traps ops)).
  { clear. intros args ops g E S. unfold c_trap. rewrite E. cbn [bind]. change (-1 =? schar "?") with false. cbv iota. rewrite S.
    unfold trap_ops. destruct ops as [|w ws]; auto. destruct (gettrap w false); [destruct (set_traps _ _); reflexivity|].
    destruct (set_traps _ _); reflexivity. }
  intros [ws| |w ws NO ND]; [eapply K; reflexivity..|].
  eapply (K _ _ (with_p (getopt_reset 0 false) 0)); [|reflexivity].
  unfold ksh_getopt, getopt_next. cbn -[str_eqb getopt_opt L]. destruct (str_eqb_spec w (L "--")); [contradiction|].
  destruct w as [|f [|c t]]; auto. destruct (ceq_spec f "-") as [->|NE]; auto.
  exfalso. apply NO. exists "-"%char, c, t. auto.
Qed.
Lemma c_trap_bad traps name c t ws : "-"%char :: c :: t <> L "--" -> c_trap traps (name :: ("-"%char :: c :: t) :: ws) = Ok (TSet [] 1).
Proof.
  intros N.
  assert (E : exists g, ksh_getopt (name :: ("-"%char :: c :: t) :: ws) (getopt_reset 0 false) [] = Ok (schar "?", g)).
  { unfold ksh_getopt, getopt_next. cbn -[str_eqb getopt_opt L]. destruct (str_eqb_spec ("-"%char :: c :: t) (L "--")); [contradiction|].
    cbn -[getopt_opt]. unfold getopt_opt. cbn -[mem L]. destruct (mem c (L "?:;,#")); cbn; eauto. }
  destruct E as (g & E). unfold c_trap. rewrite E. reflexivity.
Qed.

(** ** Jobs *)
Lemma filter_one {A} (f : A -> bool) : forall l x, filter f l = [x] <->
  exists a r, l = a ++ x :: r /\ f x = true /\ forall y, In y (a ++ r) -> f y = false.
Proof.
  assert (N : forall l : list A, filter f l = [] <-> forall y, In y l -> f y = false).
  { induction l as [|b l IH]; cbn; [tauto|]. destruct (f b) eqn:E.
    - split; [discriminate|]. intros H. rewrite H in E; auto. discriminate.
    - rewrite IH. split; [intros H y [<-|I]; auto|auto]. }
  induction l as [|b l IH]; intros x; cbn.
  - split; [discriminate|]. intros ([|? ?] & r & E & _); discriminate.
  - destruct (f b) eqn:E.
    + split.
      * intros [= -> H]. exists [], l. cbn. sp; auto. now apply N.
      * intros (a & r & H & Fx & Ny). destruct a as [|c a]; cbn in H; injection H as -> ->.
        -- f_equal. apply N. exact Ny.
        -- rewrite Ny in E by (left; auto). discriminate.
    + rewrite IH. split.
      * intros (a & r & -> & Fx & Ny). exists (b :: a), r. sp; auto. intros y [<-|I]; auto.
      * intros (a & r & H & Fx & Ny). destruct a as [|c a]; cbn in H; injection H as -> ->; [congruence|].
        exists a, r. sp; auto. intros y I. apply Ny. now right.
Qed.
Lemma flat_one {A B} (g : A -> list B) : forall l i, flat_map g l = [i] <->
  exists a j r, l = a ++ j :: r /\ g j = [i] /\ forall k, In k (a ++ r) -> g k = [].
Proof.
  assert (N : forall l : list A, flat_map g l = [] <-> forall y, In y l -> g y = []).
  { induction l as [|b l IH]; cbn; [tauto|]. split.
    - intros H. apply app_eq_nil in H. destruct H as [H1 H2]. intros y [<-|I]; auto. now apply IH.
    - intros H. rewrite (H b) by auto. apply IH. auto. }
  induction l as [|b l IH]; intros i; cbn.
  - split; [discriminate|]. intros ([|? ?] & j & r & E & _); discriminate.
  - split.
    + intros H. apply app_eq_unit in H. destruct H as [[H1 H2]|[H1 H2]].
      * apply IH in H2. destruct H2 as (a & j & r & -> & G & K). exists (b :: a), j, r. sp; auto. intros k [<-|I]; auto.
      * exists [], b, l. cbn. sp; auto. now apply N.
    + intros (a & j & r & H & G & K). destruct a as [|c a]; cbn in H; injection H as -> ->.
      * rewrite G. cbn. f_equal. now apply N.
      * rewrite (K c) by (left; auto). apply IH. exists a, j, r. sp; auto. intros k I. apply K. now right.
Qed.
Lemma strstr_spec e : forall s, strstr e s = true <-> contains e s.
Proof.
  induction s as [|c s IH]; cbn [strstr]; rewrite orb_true_iff, starts_spec; unfold contains.
  - split.
    + intros [(t & H)|H]; [|discriminate]. exists [], t. exact H.
    + intros (a & b & H). destruct a; [|discriminate]. left. eauto.
  - rewrite IH. split.
    + intros [(t & H)|(a & b & ->)]; [exists [], t; exact H|exists (c :: a), b; reflexivity].
    + intros ([|x a] & b & H); cbn in H; [left; eauto|injection H as -> ->; right; exists a, b; reflexivity].
Qed.
Lemma unique_one m i : unique m = LJob i <-> m = [i].
Proof. destruct m as [|x [|y m]]; cbn; split; congruence. Qed.
Lemma found_one o i : found o = LJob i <-> exists j, o = Some j /\ j_id j = i.
Proof. destruct o as [j|]; cbn; split; [intros [= <-]; eauto|intros (k & [= <-] & <-); auto|discriminate|intros (k & [=] & _)]. Qed.
Lemma find_first {A} (f : A -> bool) : forall l x, find f l = Some x <-> exists a r, l = a ++ x :: r /\ f x = true /\ forall y, In y a -> f y = false.
Proof.
  induction l as [|b l IH]; intros x; cbn.
  - split; [discriminate|]. intros ([|? ?] & r & E & _); discriminate.
  - destruct (f b) eqn:E.
    + split; [intros [= ->]; exists [], l; cbn; sp; auto; intros ? []|].
      intros (a & r & H & Fx & Ny). destruct a as [|c a]; cbn in H; injection H as -> ->; auto. rewrite Ny in E by (left; auto). discriminate.
    + rewrite IH. split.
      * intros (a & r & -> & Fx & Ny). exists (b :: a), r. sp; auto. intros y [<-|I]; auto.
      * intros (a & r & H & Fx & Ny). destruct a as [|c a]; cbn in H; injection H as -> ->; [congruence|]. exists a, r. sp; auto. intros y I. apply Ny. now right.
Qed.
Lemma strtonum1_spec s n : s <> [] -> strtonum1 s = Some n <-> denotes 10 s n /\ 1 <= n < 2147483648.
Proof.
  intros NE. rewrite horner_denotes. unfold strtonum1.
  assert (H : forall s v, fold_left (fun v c => 10 * v + (ccode c - ccode "0"%char)) s v = horner v s).
  { induction s0 as [|c s0 IH]; intros v; cbn [fold_left horner]; auto. rewrite IH. f_equal. change (ccode "0") with 48. lia. }
  unfold digits_val. rewrite H. destruct (forallb isdigit s) eqn:F; [|split; [discriminate|intros ((_ & X & _) & _); discriminate]].
  destruct ((1 <=? horner 0 s) && (horner 0 s <=? 2147483647)) eqn:B.
  - split; [intros [= <-]; sp; auto; lia|intros ((_ & _ & ->) & _); auto].
  - split; [discriminate|intros ((_ & _ & E) & R); lia].
Qed.
Lemma lookup_spec l t i : j_lookup ("%"%char :: t) l = LJob i <-> exists j, names_job l ("%"%char :: t) j /\ j_id j = i.
Proof.
  unfold j_lookup. change (isdigit "%") with false. change (negb (ceq "%" "%")) with false. cbv iota.
  destruct t as [|d e].
  - rewrite found_one. split.
    + intros (j & H & E). destruct l as [|x l]; [discriminate|]. injection H as ->. exists j. split; auto. eapply NJ_percent; eauto.
    + intros (j & H & E). exists j. split; auto. inversion H; subst; auto.
      match goal with D : denotes 10 [] _ |- _ => apply denotes_nonempty in D; congruence end.
  - assert (DG : forall c, In c (L "%+-?") -> isdigit c = false) by (intros c I; cbn in I; repeat (destruct I as [<-|I]; [reflexivity|]); destruct I).
    destruct (ceq d "+" || ceq d "%") eqn:E1.
    { assert (I : In d (L "%+")) by (apply orb_true_iff in E1; rewrite !ceq_true in E1; cbn; destruct E1; auto).
      rewrite found_one. split.
      - intros (j & H & E). destruct l as [|x l]; [discriminate|]. injection H as ->. exists j. split; auto. eapply NJ_current; eauto.
      - intros (j & H & E). exists j. split; auto. inversion H; subst; auto.
        + cbn in I. destruct I as [X|[X|[]]]; discriminate.
        + match goal with D : denotes 10 _ _ |- _ => destruct (denotes_digits _ _ D) as (_ & A & _) end. specialize (A d (or_introl eq_refl)). rewrite (DG d) in A; [discriminate A|cbn in I |- *; tauto].
        + cbn in I. destruct I as [X|[X|[]]]; discriminate.
        + exfalso. match goal with N : ~ In d _ |- _ => apply N end. cbn in I |- *. tauto. }
    apply orb_false_iff in E1. rewrite !ceq_false in E1. destruct E1 as [E1 E2].
    destruct (ceq_spec d "-") as [->|N3].
    { rewrite found_one. split.
      - intros (j & H & E). destruct l as [|x [|y l]]; try discriminate. injection H as ->. exists j. split; auto. apply (NJ_previous _ e x j l). reflexivity.
      - intros (j & H & E). exists j. split; auto. inversion H; subst; auto.
        + match goal with I : In "-"%char _ |- _ => cbn in I; destruct I as [X|[X|[]]]; discriminate end.
        + match goal with D : denotes 10 _ _ |- _ => destruct (denotes_digits _ _ D) as (_ & A & _) end. discriminate (A "-"%char (or_introl eq_refl)).
        + exfalso. match goal with N : ~ In _ _ |- _ => apply N end. cbn. tauto. }
    destruct (isdigit d) eqn:DD.
    { split.
      - destruct (strtonum1 (d :: e)) as [n|] eqn:ST; [|discriminate]. rewrite found_one. intros (j & H & E).
        apply strtonum1_spec in ST; [|discriminate]. destruct ST as [DN R]. apply find_first in H. destruct H as (a & r & -> & F & NF).
        exists j. split; auto. eapply NJ_number; eauto; [now apply Z.eqb_eq|]. intros k I X. apply Z.eqb_eq in X. rewrite NF in X; auto. discriminate.
      - intros (j & H & E). inversion H; subst; try congruence.
        + exfalso. match goal with I : In d _ |- _ => cbn in I; destruct I as [X|[X|[]]]; congruence end.
        + assert (strtonum1 (d :: e) = Some (j_num j)) as -> by (apply strtonum1_spec; [discriminate|]; auto).
          apply found_one. exists j. split; auto. apply find_first. do 2 eexists. sp; [reflexivity|apply Z.eqb_refl|]. intros y I. apply Z.eqb_neq. auto.
        + discriminate DD. }
    destruct (ceq_spec d "?") as [->|N4].
    { rewrite unique_one, flat_one. split.
      - intros (a & j & r & -> & G & K). exists j.
        destruct (filter (fun p => strstr e (p_cmd p)) (j_procs j)) as [|p [|q ps]] eqn:F; try discriminate. injection G as <-. split; auto.
        apply filter_one in F. destruct F as (ps & qs & EP & ST & NS). eapply NJ_has; eauto; [now apply strstr_spec| |].
        + intros k q I Iq C. apply strstr_spec in C. specialize (K k I). destruct (filter _ (j_procs k)) eqn:F; [|discriminate].
          assert (In q []) by (rewrite <- F; apply filter_In; auto). contradiction.
        + intros q I C. apply strstr_spec in C. rewrite NS in C; auto. discriminate.
      - intros (j & H & E). inversion H; subst; try congruence.
        + match goal with I : In "?"%char _ |- _ => cbn in I; destruct I as [X|[X|[]]]; discriminate end.
        + match goal with D : denotes 10 _ _ |- _ => destruct (denotes_digits _ _ D) as (_ & A & _) end. discriminate (A "?"%char (or_introl eq_refl)).
        + exists a, j, r. sp; auto.
          * assert (filter (fun p => strstr e (p_cmd p)) (j_procs j) = [p]) as ->; auto.
            apply filter_one. exists ps, qs. sp; auto; [now apply strstr_spec|]. intros y I. apply not_true_iff_false. rewrite strstr_spec. auto.
          * intros k I. replace (filter (fun p => strstr e (p_cmd p)) (j_procs k)) with (@nil proc); auto.
            symmetry. destruct (filter _ (j_procs k)) as [|q t] eqn:F; auto. assert (X : In q (q :: t)) by (left; auto). rewrite <- F in X. apply filter_In in X. destruct X as [X Y].
            apply strstr_spec in Y. exfalso. match goal with H : forall k q, In k _ -> In q _ -> ~ _ |- _ => exact (H _ _ I X Y) end.
        + exfalso. match goal with N : ~ In _ _ |- _ => apply N end. cbn. tauto. }
    assert (ND : ~ In d (L "%+-?")) by (cbn; intuition congruence).
    rewrite unique_one. split.
    + intros H. destruct (filter _ l) as [|j [|k js]] eqn:F; try discriminate. injection H as <-. exists j. split; auto.
      apply filter_one in F. destruct F as (a & r & -> & S & K). eapply NJ_starts; eauto.
      * destruct (j_procs j) as [|p ps]; [discriminate|]. apply starts_spec in S. destruct S as (t & S). eauto 6.
      * intros k p ps t I E SX. specialize (K k I). cbv beta in K. rewrite E in K. rewrite <- not_true_iff_false in K. apply K. apply starts_spec. eauto.
    + intros (j & H & E). inversion H; subst; try congruence.
      * exfalso. apply ND. match goal with I : In d _ |- _ => cbn in I |- *; tauto end.
      * match goal with D : denotes 10 _ _ |- _ => destruct (denotes_digits _ _ D) as (_ & A & _) end. rewrite A in DD by (left; auto). discriminate.
      * match goal with H : exists p, _ |- _ => destruct H as (p & ps & t & EP & EC) end.
        match goal with |- map j_id (filter ?f ?l) = _ => assert (filter f l = [j]) as -> end; auto.
        apply filter_one. do 2 eexists. sp; [reflexivity|rewrite EP; apply starts_spec; eauto|].
        intros k I. destruct (j_procs k) as [|q qs] eqn:EK; auto. apply not_true_iff_false. rewrite starts_spec. intros (u & U). match goal with H : forall k p ps t, In k _ -> _ |- _ => exact (H _ _ _ _ I EK U) end.
Qed.

(** ** kill: the signals sent *)
Lemma int_text_spec w n : int_text w n <-> getn w = Some n.
Proof.
  rewrite c54_getn_exact. split.
  - intros (s & sg & ds & v & -> & W & DN & SG & R). exists s, sg, ds, v. sp; auto; try lia.
    + now apply forallb_forall.
    + destruct SG as [[[->| ->] _]|[-> _]]; auto.
    + destruct SG as [[[->| ->] ->]|[-> ->]]; reflexivity.
  - intros (s & sg & ds & v & -> & W & SG & DN & E & R). exists s, sg, ds, v. sp; auto; try lia.
    + now apply forallb_forall.
    + destruct SG as [->|[->| ->]]; cbn in E; auto.
Qed.
Section Send.
Variable ok : list act -> act -> bool.
Variable jobs : list act -> list job.
Lemma made_det h l h1 b1 : made ok h l h1 b1 -> forall h2 b2, made ok h l h2 b2 -> h1 = h2 /\ b1 = b2.
Proof.
  induction 1 as [h|h a m l h' b M IH]; intros h2 b2 M2; inversion M2; subst; auto.
  match goal with X : made _ _ l _ _ |- _ => destruct (IH _ _ X) as [-> ->] end. auto.
Qed.
Lemma made_total : forall l h, exists h' b, made ok h l h' b.
Proof. induction l as [|[a m] l IH]; intros h; [do 2 eexists; constructor|]. destruct (IH (h ++ [a])) as (h' & b & M). do 2 eexists. constructor. eauto. Qed.
Lemma kill_job_made sig : forall ps h rv h' b,
  made ok h (map (fun p => (Kill (p_pid p) sig, true)) (filter (fun p => negb (p_pid p =? 0)) ps)) h' b -> kill_job ok ps sig h rv = (h', rv && b).
Proof.
  induction ps as [|p ps IH]; intros h rv h' b M; cbn in *.
  - inversion M; subst. now rewrite andb_true_r.
  - destruct (p_pid p =? 0); cbn in M; [auto|]. inversion M; subst.
    unfold call. cbn. erewrite IH by eauto. f_equal. destruct (ok h (Kill (p_pid p) sig)), rv; auto.
Qed.
Lemma pstop s : pstate_eqb s PStop = true <-> s = PStop.
Proof. destruct s; cbn; split; congruence. Qed.
Lemma j_kill_job sig h w j : NoDup (map j_id (jobs h)) -> j_lookup w (jobs h) = LJob (j_id j) -> In j (jobs h) ->
  forall h' b, made ok h (job_acts j sig) h' b -> j_kill ok jobs w sig h = (h', b).
Proof.
  intros ND E I h' b M. unfold j_kill. rewrite E. unfold get.
  assert (find (is_id (j_id j)) (jobs h) = Some j) as ->.
  { revert ND I. clear. induction (jobs h) as [|x l IH]; intros ND I; [destruct I|]. cbn. unfold is_id at 1.
    inversion ND as [|? ? N1 N2]; subst. destruct I as [->|I]; [now rewrite Nat.eqb_refl|].
    destruct (Nat.eqb_spec (j_id x) (j_id j)) as [Q|Q]; [|auto]. exfalso. apply N1. rewrite Q. now apply in_map. }
  unfold job_acts in M. destruct (Z.eq_dec (j_pgrp j) 0) as [Z0|Z0].
  - rewrite (proj2 (Z.eqb_eq _ _) Z0). erewrite kill_job_made by eauto. reflexivity.
  - rewrite (proj2 (Z.eqb_neq _ _) Z0). change SIGTERM with 15. change SIGHUP with 1. change SIGCONT with 18.
    assert (C : forall h, made ok h [(Killpg (j_pgrp j) sig, true)] h' b -> call ok h (Killpg (j_pgrp j) sig) = (h', b)).
    { clear. intros h M. inversion M as [|? ? ? ? ? b' M']; subst. inversion M'; subst. unfold call. now rewrite andb_true_r. }
    destruct (pstate_eqb (j_state j) PStop) eqn:PS.
    + apply pstop in PS. rewrite PS in M. cbn [andb]. destruct (in_dec Z.eq_dec sig [15; 1]) as [Q|Q].
      * replace ((sig =? 15) || (sig =? 1)) with true by (cbn in Q; lia). cbn [fst call]. apply C. cbn [app] in M. inversion M; subst. assumption.
      * replace ((sig =? 15) || (sig =? 1)) with false by (cbn in Q; lia). apply C. exact M.
    + cbn [andb]. apply C. destruct (j_state j); try exact M. discriminate.
Qed.
Lemma names_job_in l w j : names_job l w j -> In j l.
Proof. intros H. inversion H; subst; cbn; auto; apply in_app_iff; right; left; auto. Qed.
Lemma kill_all_sent (ND : forall h, NoDup (map j_id (jobs h))) sig : forall h ws h' b, sent ok jobs sig h ws h' b ->
  forall rv, kill_all ok jobs ws sig h rv = (h', if b then rv else 1).
Proof.
  induction 1 as [h|h w ws l h1 h2 b1 b2 T M S IH|h w ws h2 b2 T S IH]; intros rv; cbn [kill_all]; auto.
  - assert (E : (if ceq (hd NUL w) "%" then j_kill ok jobs w sig h
      else match getn w with None => (h, false) | Some n => call ok h (if n <? -1 then Killpg (- n) sig else Kill n sig) end) = (h1, b1)).
    { inversion T as [n NP IT R|n NP IT R| |t j -> NJ|]; subst.
      - assert (ceq (hd NUL w) "%" = false) as ->. { destruct w as [|c w]; cbn; auto. apply ceq_false. intros ->. eapply NP; eauto. }
        apply int_text_spec in IT. rewrite IT. replace (n <? -1) with false by lia.
        inversion M as [|? ? ? ? ? b' M']; subst. inversion M'; subst. unfold call. now rewrite andb_true_r.
      - assert (ceq (hd NUL w) "%" = false) as ->. { destruct w as [|c w]; cbn; auto. apply ceq_false. intros ->. eapply NP; eauto. }
        apply int_text_spec in IT. rewrite IT. replace (n <? -1) with true by lia.
        inversion M as [|? ? ? ? ? b' M']; subst. inversion M'; subst. unfold call. now rewrite andb_true_r.
      - cbn [hd]. rewrite ceq_refl. eapply j_kill_job; eauto; [|eapply names_job_in; eauto].
        apply lookup_spec. eauto. }
    rewrite E, IH. destruct b1, b2; reflexivity.
  - assert (E : (if ceq (hd NUL w) "%" then j_kill ok jobs w sig h
      else match getn w with None => (h, false) | Some n => call ok h (if n <? -1 then Killpg (- n) sig else Kill n sig) end) = (h, false)).
    { inversion T as [| |NP IT| |t -> NJ]; subst.
      - assert (ceq (hd NUL w) "%" = false) as ->. { destruct w as [|c w]; cbn; auto. apply ceq_false. intros ->. eapply NP; eauto. }
        destruct (getn w) as [n|] eqn:G; auto. apply int_text_spec in G. exfalso. eapply IT; eauto.
      - cbn [hd]. rewrite ceq_refl. unfold j_kill. destruct (j_lookup _ (jobs h)) eqn:LK; auto.
        apply lookup_spec in LK. destruct LK as (j & NN & _). exfalso. eapply NJ; eauto. }
    rewrite E, IH. destruct b2; reflexivity.
Qed.
Lemma target_total l sig w : exists o, target l sig w o.
Proof.
  assert (C : (exists t, w = "%"%char :: t) \/ forall t, w <> "%"%char :: t).
  { destruct w as [|c w]; [right; discriminate|]. destruct (ceq_spec c "%") as [->|N]; [eauto|right; congruence]. }
  destruct C as [(t & ->)|NP].
  - destruct (j_lookup ("%"%char :: t) l) eqn:E.
    1:{ apply lookup_spec in E. destruct E as (j & NJ & _). eexists. eapply Tg_job; eauto. }
    all: exists None; eapply Tg_nojob; eauto; intros j NJ;
      assert (X : j_lookup ("%"%char :: t) l = LJob (j_id j)) by (apply lookup_spec; eauto); congruence.
  - destruct (getn w) as [n|] eqn:G.
    + apply int_text_spec in G. destruct (Z_lt_le_dec n (-1)); eexists; [eapply Tg_group|eapply Tg_process]; eauto.
    + exists None. apply Tg_none; auto. intros n IT. apply int_text_spec in IT. congruence.
Qed.
Lemma sent_total sig : forall ws h, exists h' b, sent ok jobs sig h ws h' b.
Proof.
  induction ws as [|w ws IH]; intros h; [do 2 eexists; constructor|].
  destruct (target_total (jobs h) sig w) as ([l|] & T).
  - destruct (made_total l h) as (h1 & b1 & M). destruct (IH h1) as (h2 & b2 & S). do 2 eexists. eapply Sn_target; eauto.
  - destruct (IH h) as (h2 & b2 & S). do 2 eexists. eapply Sn_bad; eauto.
Qed.
End Send.

(** ** kill -l *)
Lemma dec_decimal n : -2147483648 < n < 2147483648 -> decimal (dec n) n.
Proof.
  intros R. unfold dec, decimal. destruct (Z.ltb_spec n 0).
  - right. split; auto. destruct (u64ton_ok (- n) 10) as (ds & -> & D & C); [lia..|]. eauto.
  - left. destruct (u64ton_ok n 10) as (ds & -> & D & C); [lia..|]. auto.
Qed.
Lemma kill_names_spec : forall ws out, exists s b, name_lines ws s b /\ kill_names ws out = (out ++ s, if b then 0 else 1).
Proof.
  induction ws as [|w ws IH]; intros out; cbn [kill_names].
  - exists [], true. split; [constructor|]. now rewrite app_nil_r.
  - destruct (getn w) as [n|] eqn:G.
    2:{ exists [], false. rewrite app_nil_r. split; auto. constructor. intros n IT. apply int_text_spec in IT. congruence. }
    apply int_text_spec in G. set (m := if (128 <? n) && (n <? 128 + NSIG) then n - 128 else n).
    assert (PN : plain_number n m). { subst m. unfold plain_number, NSIG. destruct ((128 <? n) && (n <? 128 + 65)) eqn:B; lia. }
    assert (R : -2147483648 < m < 2147483648). { destruct G as (_ & _ & _ & _ & _ & _ & _ & _ & R). unfold plain_number in PN. lia. }
    set (t := match (if (0 <? m) && (m <? NSIG) then name_of m else None) with Some s => s | None => dec m end).
    assert (NM : name_line w t).
    { subst t. unfold NSIG. destruct ((0 <? m) && (m <? 65)) eqn:B.
      - destruct (name_of m) as [nm|] eqn:E.
        + apply name_of_spec in E. eapply NL_name; eauto. lia.
        + eapply NL_number; eauto; [|now apply dec_decimal]. intros nm _ I. apply name_of_spec in I. congruence.
      - eapply NL_number; eauto; [|now apply dec_decimal]. intros nm X. lia. }
    destruct (IH (out ++ t ++ [NL])) as (s & b & NLS & ->). exists (t ++ [NL] ++ s), b. split; [now constructor|]. now rewrite <- !app_assoc.
Qed.

(** ** The options *)
Lemma declared_kill c k : declares (L "ls:") c k -> c = "l"%char /\ k = Plain \/ c = "s"%char /\ k = Needs.
Proof.
  intros D. inversion D as [a LT N E|a d b LT N E]; subst.
  - destruct a as [|? [|? [|? [|? ?]]]]; try discriminate. injection E as <- <- <-. exfalso. apply LT. cbn. tauto.
  - destruct a as [|? [|? [|? ?]]]; try discriminate; injection E.
    + intros <- <- <-. auto.
    + intros <- <- <- <-. auto.
    + intros ? ? ?. destruct l; discriminate.
Qed.
Inductive fine : ev -> Prop :=
| F_l : fine (Opt false Plain "l" None)
| F_s a : fine (Opt false Needs "s" (Some a))
| F_unknown c : fine (Unknown false c)
| F_missing c : fine (Missing false c).
Lemma scan_fine cur args evs rest mm : scan (L "ls:") false cur args evs rest mm ->
  (forall b t, cur = Some (b, t) -> b = false) -> Forall fine evs.
Proof.
  induction 1; intros B; try constructor; auto;
    try (match goal with H : declares _ _ _ |- _ => destruct (declared_kill _ _ H) as [[-> HK]|[-> HK]]; subst end; try discriminate);
    try (match goal with H : context [Some (?b, _) = Some _] |- _ => assert (b = false) by eauto; subst b end);
    try (apply IHscan; intros ? ? [= <- <-]; auto; fail); try (apply IHscan; discriminate); try constructor;
    try (match goal with H : _ \/ _ |- _ => destruct H; discriminate end).
  apply IHscan. intros ? ? [= <- <-]. destruct H as (s' & c & t' & E & [->|[X _]] & _); [injection E as -> _; reflexivity|discriminate].
Qed.
Fixpoint ko (l : list seen) (lf : bool) (t : option Z) : res (option (bool * option Z)) :=
  match l with
  | [] => Ok (Some (lf, t))
  | x :: l => let z := s_ret x in
    if z =? schar "l" then ko l true t
    else if z =? schar "s" then
      match s_arg x with None => UB | Some a => match gettrap a true with None => Ok None | Some n => ko l lf (Some n) end end
    else if z =? schar "?" then Ok None else ko l lf t
  end.
Lemma kill_opts_list wp : forall fuel g l g' lf t, getopt_loop fuel wp g (L "ls:") = Ok (Some (l, g')) ->
  kill_opts fuel wp g lf t = (do o <- ko l lf t ; Ok (Some (match o with Some (lf, t) => Some (lf, t, g') | None => None end))).
Proof.
  induction fuel as [|f IH]; intros g l g' lf t R; [discriminate|]. cbn [getopt_loop kill_opts] in *.
  destruct (ksh_getopt wp g (L "ls:")) as [[z g1]| |]; [|discriminate..]. cbn [bind] in *.
  destruct (z =? -1).
  - injection R as <- <-. reflexivity.
  - destruct (getopt_loop f wp g1 (L "ls:")) as [[[l1 g2]|]| |] eqn:E; [|discriminate..]. cbn in R. injection R as <- <-.
    cbn [ko s_ret s_arg]. destruct (z =? schar "l"); [auto|]. destruct (z =? schar "s").
    + destruct (optarg g1) as [a|]; auto. destruct (gettrap a true); auto.
    + destruct (z =? schar "?"); auto.
Qed.
Lemma z_letter z c d : -128 <= z < 128 -> z mod 256 = ccode c -> (z =? schar d) = ceq c d.
Proof.
  intros R M. destruct (schar_spec d) as [A B]. destruct (ceq_spec c d) as [->|N].
  - apply Z.eqb_eq. assert (z mod 256 = schar d mod 256) by congruence.
    pose proof (Z.div_mod z 256 ltac:(lia)). pose proof (Z.div_mod (schar d) 256 ltac:(lia)). lia.
  - apply Z.eqb_neq. intros ->. apply N. rewrite B in M. clear -M. unfold ccode in M.
    rewrite <- (ascii_N_embedding c), <- (ascii_N_embedding d). f_equal. lia.
Qed.
Definition agrees (e : ev) (x : seen) : Prop := agree (L "ls:") e (s_ret x) (s_plus x) (s_arg x).
Lemma chosen_cons e evs n : chosen evs (Some n) -> chosen (e :: evs) (Some n).
Proof. intros C. inversion C as [|e1 b k a m e2 S N]; subst. change (e :: e1 ++ ?x) with ((e :: e1) ++ x). now constructor. Qed.
Definition no_s (evs : list ev) : Prop := forall b k a, ~ In (Opt b k "s" a) evs.
Lemma ko_spec evs l : Forall2 agrees evs l -> Forall fine evs -> forall lf t,
  (Exists bad_option evs -> ko l lf t = Ok None) /\
  (Forall (fun e => ~ bad_option e) evs -> exists lf' t', ko l lf t = Ok (Some (lf', t')) /\
     (lf' = true <-> lf = true \/ exists b k a, In (Opt b k "l" a) evs) /\
     (no_s evs /\ t' = t \/ exists n, t' = Some n /\ chosen evs (Some n))).
Proof.
  induction 1 as [|e x evs l A F2 IH]; intros F lf t.
  - split; [intros X; inversion X|]. intros _. exists lf, t. sp; auto.
    + split; [auto|]. intros [X|(b & k & a & [])]; auto.
    + left. split; auto. intros b k a [].
  - inversion F as [|? ? F1 F']; subst. specialize (IH F'). cbn [ko]. unfold agrees in A. inversion F1 as [|a|c|c]; subst; cbn [agree] in A.
    + destruct A as (_ & _ & R & M). rewrite (z_letter _ _ _ R M). change (ceq "l" "l") with true. cbv iota.
      destruct (IH true t) as [I1 I2]. split.
      * intros X. inversion X as [? ? B|? ? B]; subst; [destruct B|auto].
      * intros X. inversion X as [|? ? _ X']; subst. destruct (I2 X') as (lf' & t' & E & A1 & A2). exists lf', t'. sp; auto.
        -- rewrite A1. split; [|tauto]. intros _. right. do 3 eexists. left. reflexivity.
        -- destruct A2 as [[N ->]|(n & -> & C)]; [left; split; auto; intros b k a [X0|X0]; [discriminate|eapply N; eauto]|right; exists n; split; auto; now apply chosen_cons].
    + destruct A as (_ & SA & R & M). rewrite !(z_letter _ _ _ R M). change (ceq "s" "l") with false. change (ceq "s" "s") with true. cbv iota.
      rewrite SA by discriminate. destruct (gettrap a true) as [n|] eqn:G.
      * destruct (IH lf (Some n)) as [I1 I2]. apply gettrap_spec in G. split.
        -- intros X. inversion X as [? ? B|? ? B]; subst; [|auto]. destruct B as [_ B]. exfalso. eapply B; eauto.
        -- intros X. inversion X as [|? ? _ X']; subst. destruct (I2 X') as (lf' & t' & E & A1 & A2). exists lf', t'. sp; auto.
           ++ rewrite A1. split; [intros [Y|(b & k & a0 & Y)]; auto; right; do 3 eexists; right; eauto|].
              intros [Y|(b & k & a0 & [Y|Y])]; auto; [discriminate|]. right; eauto.
           ++ right. destruct A2 as [[N ->]|(m & -> & C)]; [|exists m; split; auto; now apply chosen_cons]. exists n. split; auto.
              apply (Ch_some [] false Needs a n evs G). exact N.
      * split; [auto|]. intros X. inversion X as [|? ? B _]; subst. exfalso. apply B. cbn. split; auto. now apply gettrap_none.
    + destruct A as (_ & -> & _). change (ccode "?"%char =? schar "l") with false. change (ccode "?" =? schar "s") with false. change (ccode "?" =? schar "?") with true. cbv iota.
      split; [auto|]. intros X. inversion X as [|? ? B _]; subst. exfalso. apply B. exact Logic.I.
    + destruct A as (_ & _ & Q). rewrite Q by (intros (o & X); discriminate X).
      change (ccode "?"%char =? schar "l") with false. change (ccode "?" =? schar "s") with false. change (ccode "?" =? schar "?") with true. cbv iota.
      split; [auto|]. intros X. inversion X as [|? ? B _]; subst. exfalso. apply B. exact Logic.I.
Qed.
Lemma stands_det ic w n m : stands ic w n -> stands ic w m -> n = m.
Proof. rewrite <- !gettrap_spec. congruence. Qed.
Lemma chosen_det evs t t' : chosen evs t -> chosen evs t' -> t = t'.
Proof.
  assert (K : forall e1 e2 e1' e2' b k a b' k' a', e1 ++ Opt b k "s" a :: e2 = e1' ++ Opt b' k' "s" a' :: e2' -> no_s e2 -> no_s e2' -> a = a').
  { induction e1 as [|e e1 IH]; intros e2 e1' e2' b k a b' k' a' E N N'.
    - destruct e1' as [|e' e1']; cbn in E; injection E as X Y; [congruence|]. exfalso. eapply N. rewrite Y. apply in_app_iff. right. left. reflexivity.
    - destruct e1' as [|e' e1']; cbn in E; injection E as X Y; [|eapply IH; eauto]. exfalso. eapply N'. rewrite <- Y. apply in_app_iff. right. left. reflexivity. }
  intros C C'. inversion C as [? N|e1 b k a n e2 S N E1]; subst; inversion C' as [? N'|e1' b' k' a' n' e2' S' N' E]; subst; auto.
  - exfalso. eapply N. apply in_app_iff. right. left. reflexivity.
  - exfalso. eapply N'. apply in_app_iff. right. left. reflexivity.
  - symmetry in E. apply K in E; auto. injection E as <-. f_equal. eapply stands_det; eauto.
Qed.
