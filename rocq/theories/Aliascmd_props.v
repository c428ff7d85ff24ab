(** C78: alias and unalias. *)
From Verif Require Import Base Word_model Word_spec Src_model Src_spec Lex_model Lex_spec Quote_model Quote_props Table_spec Whence_model Aliascmd_model Aliascmd_spec Aliascmd_proof.
From Coq Require Import Sorting.Sorted Lia.
Local Open Scope Z_scope.

(** Any commands alias and unalias, with any options. *)
Inductive reach : state -> Prop :=
| Re_start : reach (St [] (fun _ => None) 0)
| Re_alias srch p r t u x plus mm wp st out rv st' : reach st -> c_alias srch p r t u x plus mm wp st = Some (out, rv, st') -> reach st'
| Re_unalias all wp st rv st' : reach st -> c_unalias all wp st = Some (rv, st') -> reach st'.

Lemma c_unalias_ok all wp st : wf st -> exists rv st', c_unalias all wp st = Some (rv, st') /\ wf st' /\ (rv = 0 \/ rv = 1) /\ (rv = 0 <-> all_there (view st) wp) /\
  if all then forall n, view st' n = None else removes (view st) wp (view st').
Proof.
  intros W. unfold c_unalias. destruct (uns_ok wp st W) as (rv & s & -> & W' & R & RV & AT). destruct all.
  - destruct (all_ok s W') as (s2 & -> & W2 & N). exists rv, s2. auto.
  - exists rv, s. auto.
Qed.
Lemma c_alias_ok srch p r t u x plus mm wp st : wf st -> exists out rv st', c_alias srch p r t u x plus mm wp st = Some (out, rv, st') /\ wf st'.
Proof.
  intros W. unfold c_alias. set (pw := match wp with [] => _ | _ => _ end). destruct pw as [pl ws]. destruct r.
  - destruct (negb t || _); [eauto 6|]. destruct (c_unalias_ok true [] st W) as (rv & s & -> & W' & _). eauto 6.
  - destruct ws as [|w ws].
    + destruct (list_ok srch p x pl st W) as (out & -> & _). eauto 6.
    + destruct (words_ok srch p t u x pl (w :: ws) st W) as (out & ok & s & -> & W' & _). eauto 6.
Qed.
Lemma reach_wf st : reach st -> wf st.
Proof.
  induction 1 as [|srch p r t u x plus mm wp st out rv st' R IH E|all wp st rv st' R IH E].
  - constructor; cbn; try discriminate; try congruence. constructor.
  - destruct (c_alias_ok srch p r t u x plus mm wp st IH) as (o & v & s & E' & W). congruence.
  - destruct (c_unalias_ok all wp st IH) as (v & s & E' & W & _). congruence.
Qed.

(** After any commands: alias and unalias never free a block twice nor read one that is not in
    use, and the blocks in use are exactly the values of the aliases, each of one alias. *)
Theorem c78_memory : forall st, reach st ->
  (forall srch p r t u x plus mm wp, c_alias srch p r t u x plus mm wp st <> None) /\ (forall all wp, c_unalias all wp st <> None) /\
  (forall q, heap st q <> None <-> exists e, In e (tab st) /\ a_set e = true /\ a_val e = q) /\
  (forall e f, In e (tab st) -> In f (tab st) -> a_set e = true -> a_set f = true -> a_val e = a_val f -> e = f).
Proof.
  intros st R. apply reach_wf in R. split; [|split; [|split]].
  - intros srch p r t u x plus mm wp. destruct (c_alias_ok srch p r t u x plus mm wp st R) as (o & v & s & -> & _). discriminate.
  - intros all wp. destruct (c_unalias_ok all wp st R) as (v & s & -> & _). discriminate.
  - intros q. split.
    + intros H. destruct (wf_used _ R q H) as (n & e & E & A & V). exists e. destruct (wf_flags _ R _ _ E) as [AS _]. apply find_in in E; [|apply R]. split; [tauto|]. split; congruence.
    + intros (e & I & A & <-). assert (E : find (tab st) (a_name e) = Some e) by (apply find_in; [apply R|auto]). apply (wf_live _ R _ _ E). destruct (wf_flags _ R _ _ E). congruence.
  - intros e f I J A B V. assert (E : find (tab st) (a_name e) = Some e) by (apply find_in; [apply R|auto]). assert (F : find (tab st) (a_name f) = Some f) by (apply find_in; [apply R|auto]).
    destruct (wf_flags _ R _ _ E) as [AE _]. destruct (wf_flags _ R _ _ F) as [AF _].
    assert (X : a_name e = a_name f) by (eapply (wf_owner _ R _ e _ f); eauto; congruence). rewrite X in E. congruence.
Qed.
Print Assumptions c78_memory.

(** alias with arguments: each does what it means, in their order; the status is 0 exactly if
    no alias to be shown is missing. *)
Theorem c78_alias : forall srch p t u x plus mm w ws st, reach st -> mm = true \/ w <> L "+" /\ w <> L "-" ->
  exists out ok st', c_alias srch p false t u x plus mm (w :: ws) st = Some (out, if ok : bool then 0 else 1, st') /\
    does_all srch p t u x plus (view st) (w :: ws) (view st') out ok.
Proof.
  intros srch p t u x plus mm w ws st R NL. apply reach_wf in R. unfold c_alias.
  assert (E : (if mm then (plus, w :: ws) else match is_lone w with Some b => (b, ws) | None => (plus, w :: ws) end) = (plus, w :: ws)).
  { destruct NL as [->|[A B]]; auto. destruct mm; auto. unfold is_lone. destruct w as [|c [|d w]]; auto. destruct (ceq c "+"%char) eqn:C; [apply ceq_true in C; subst; destruct A; auto|].
    destruct (ceq c "-"%char) eqn:C2; [apply ceq_true in C2; subst; destruct B; auto|]. auto. }
  rewrite E. destruct (words_ok srch p t u x plus (w :: ws) st R) as (out & ok & s & -> & W' & D). eauto 6.
Qed.
Print Assumptions c78_alias.

(** what an argument does is determined *)
Lemma assigns_det w n v n' v' : assigns w n v -> assigns w n' v' -> n = n' /\ v = v'.
Proof.
  intros [-> P] [E P']. revert n' P' E. induction n as [|c n IH]; intros n' P' E; destruct n' as [|c' n']; cbn in E.
  - injection E. auto.
  - injection E as <- _. destruct P'. now left.
  - injection E as -> _. destruct P. now left.
  - injection E as <- E. destruct (IH (fun X => P (or_intror X)) n' (fun X => P' (or_intror X)) E). subst. auto.
Qed.
Lemma assigns_plain w n v : assigns w n v -> plain w -> False.
Proof. intros [-> _] P. apply P. apply in_or_app. right. now left. Qed.
Lemma line_det n v p plus o o' : line n v p plus o -> line n v p plus o' -> o = o'.
Proof. intros H H'; inversion H; subst; inversion H'; subst; congruence. Qed.
Lemma marks_det x plus old a b : marks x plus old a -> marks x plus old b -> a = b.
Proof. intros H H'; inversion H; subst; inversion H'; subst; congruence. Qed.
Lemma changes_det m a b n r : changes m a n r -> changes m b n r -> same a b.
Proof. intros [A1 A2] [B1 B2] k. destruct (list_eq_dec ascii_dec k n) as [->|N]; [congruence|]. rewrite A2, B2; auto. Qed.
Theorem c78_does_unique : forall srch p t u x plus m w m1 o1 k1 m2 o2 k2,
  does srch p t u x plus m w m1 o1 k1 -> does srch p t u x plus m w m2 o2 k2 -> same m1 m2 /\ o1 = o2 /\ k1 = k2.
Proof.
  intros srch p t u x plus m w m1 o1 k1 m2 o2 k2 H H'.
  destruct H; destruct H'; subst; try discriminate; try (exfalso; eapply assigns_plain; eassumption);
    try (exfalso; match goal with A : valueless _ _, B : has _ _ _ |- _ => eapply A; exact B end);
    try (exfalso; match goal with A : marks _ _ _ _ |- _ => fail | |- _ => congruence end);
    try match goal with A : assigns w _ _, B : assigns w _ _ |- _ => destruct (assigns_det _ _ _ _ _ A B); subst end;
    try match goal with A : marks _ _ _ _, B : marks _ _ _ _ |- _ => pose proof (marks_det _ _ _ _ _ A B); subst end;
    try (split; [eapply changes_det; eassumption|auto]; fail).
  - split; [|split; auto].
    + intros k. match goal with A : same m m', B : same m m'0 |- _ => rewrite A, B; auto end.
    + match goal with A : has m w ?a, B : has m w ?b |- _ => destruct A as (y & A); destruct B as (z & B); rewrite A in B; injection B as -> _ end. eapply line_det; eassumption.
  - split; auto. intros k. match goal with A : same m m', B : same m m'0 |- _ => rewrite A, B; auto end.
Qed.
Print Assumptions c78_does_unique.

(** A lone + or - is the sign of the options. *)
Theorem c78_lone : forall srch p r t u x plus ws st,
  c_alias srch p r t u x plus false (L "+" :: ws) st = c_alias srch p r t u x true true ws st /\
  c_alias srch p r t u x plus false (L "-" :: ws) st = c_alias srch p r t u x false true ws st.
Proof. intros. destruct ws; split; reflexivity. Qed.
Print Assumptions c78_lone.

(** alias without arguments lists each alias that has a value once, by name, and changes nothing *)
Theorem c78_list : forall srch p t u x plus mm st, reach st ->
  exists out, c_alias srch p false t u x plus mm [] st = Some (out, 0, st) /\ lists p x plus (view st) out.
Proof.
  intros srch p t u x plus mm st R. apply reach_wf in R. unfold c_alias. destruct (list_ok srch p x plus st R) as (out & -> & L). eauto.
Qed.
Print Assumptions c78_list.

(** unalias removes the names, -a all; the status is 0 exactly if all of them were in the table *)
Theorem c78_unalias : forall all ws st, reach st -> exists rv st', c_unalias all ws st = Some (rv, st') /\
  (rv = 0 \/ rv = 1) /\ (rv = 0 <-> all_there (view st) ws) /\ if all then forall n, view st' n = None else removes (view st) ws (view st').
Proof. intros all ws st R. apply reach_wf in R. destruct (c_unalias_ok all ws st R) as (rv & s & E & _ & X). eauto. Qed.
Print Assumptions c78_unalias.

(** alias -t -r forgets all tracked aliases; -r is refused otherwise *)
Theorem c78_reset : forall srch p t u x plus ws st, reach st -> exists out rv st', c_alias srch p true t u x plus true ws st = Some (out, rv, st') /\
  (t = true /\ ws = [] -> out = [] /\ rv = 0 /\ forall n, view st' n = None) /\ (t = false \/ ws <> [] -> out <> [] /\ rv = 1 /\ st' = st).
Proof.
  intros srch p t u x plus ws st R. apply reach_wf in R. unfold c_alias. destruct (c_unalias_ok true [] st R) as (rv & s & -> & _ & RV & AT & N).
  assert (Z : rv = 0) by (apply AT; split; [constructor|intros n []]). subst rv.
  destruct ws as [|w ws]; destruct t; cbn [negb orb]; do 3 eexists; (split; [reflexivity|]); split; try (intros [A B]; try discriminate; auto; fail); try (intros _; split; [discriminate|auto]).
  intros [A|A]; [discriminate|destruct A; auto].
Qed.
Print Assumptions c78_reset.

(** What is set is shown, after any other commands before it. *)
Theorem c78_set_shown : forall srch n v st, reach st -> ~ In "="%char n -> n <> L "+" -> n <> L "-" ->
  exists st', c_alias srch false false false false false false true [n ++ L "=" ++ v] st = Some ([], 0, st') /\ has (view st') n v /\
    (forall k, k <> n -> view st' k = view st k) /\
    c_alias srch false false false false false false true [n] st' = Some (n ++ L "=" ++ print_value_quoted v ++ [NL], 0, st').
Proof.
  intros srch n v st R P N1 N2. destruct (c78_alias srch false false false false false true (n ++ L "=" ++ v) [] st R (or_introl eq_refl)) as (out & ok & s & E & D).
  inversion D as [|m w ws m1 m' o o' k k' D1 D2]; subst. inversion D2; subst.
  assert (AS : assigns (n ++ L "=" ++ v) n v) by (split; auto).
  assert (X : o = [] /\ k = true /\ exists e, changes (view st) m1 n (Some (Some v, e))).
  { inversion D1; subst; try discriminate; try (exfalso; eapply assigns_plain; eassumption). match goal with A : assigns _ _ _ |- _ => destruct (assigns_det _ _ _ _ _ AS A); subst end. eauto. }
  destruct X as (-> & -> & e & C1 & C2). exists s. cbn in E. split; auto.
  match goal with A : same m1 (view s) |- _ => rename A into SM end.
  assert (HV : has (view s) n v) by (exists e; rewrite SM; exact C1). split; auto. split; [intros k NK; rewrite SM; auto|].
  unfold c_alias. cbn [alias_words]. unfold alias_word. assert (SE : split_eq n = (n, None)).
  { clear - P. induction n as [|c n IH]; auto. cbn. destruct (ceq c "="%char) eqn:Q; [apply ceq_true in Q; destruct P; left; auto|]. rewrite IH; auto. intros X. apply P. now right. }
  rewrite SE. cbn [andb negb]. unfold ktsearch. destruct HV as (y & HV). unfold view in HV. destruct (find (tab s) n) as [f|] eqn:F; [|discriminate]. destruct (a_def f); [|discriminate].
  injection HV as HV _. destruct (a_set f); [|discriminate]. unfold show. rewrite HV. cbn [when app]. rewrite (find_name _ _ _ F), app_nil_r, <- ?app_assoc. reflexivity.
Qed.
Print Assumptions c78_set_shown.

(** Lines of the list can be read back: after "alias " comes one word that is name=value, if
    the name has no special character and the value is not empty and has no tilde or brace
    without another character that needs quotes (C21). *)
Theorem c78_reread : forall e cf hs st n v out rest k rounds i g,
  line n v false false out -> fresh st -> text_of st = out ++ rest ->
  forallb (fun c => negb (special c)) n = true -> ~ In "="%char n -> v <> [] -> ~ In NUL v ->
  (existsb quote_char v = true \/ forall c, In c v -> ~ In c (L "~{}")) ->
  oneword cf = false -> letexpr cf = false -> heredelim cf = false -> heredoc cf = false -> keyword cf = false -> aliases e = [] ->
  (length (text_of st) < k)%nat -> (0 < rounds)%nat ->
  exists items id j w, yylex rounds k e cf hs (Input st i g) = LTok (LWORD (enc items ++ [EOS]) id) [] j /\ denotes false items w /\ assigns w n v /\ text_of (srcs j) = NL :: rest.
Proof.
  intros e cf hs st n v out rest k rounds i g LN F T P NE Nv Nu Q O1 O2 O3 O4 K1 K2 H Rd. inversion LN; subst.
  destruct (c21_reread_partial e cf hs st (n ++ L "=") v (NL :: rest) k rounds i g) as (items & id & j & A & B & C); auto.
  - rewrite T, <- ?app_assoc. reflexivity.
  - rewrite forallb_app, P. reflexivity.
  - reflexivity || (cbn; auto 10).
  - cbn. intros X. repeat destruct X as [X|X]; try discriminate; auto.
  - exists items, id, j, ((n ++ L "=") ++ v). split; auto. split; auto. split; auto. split; auto. now rewrite <- app_assoc.
Qed.
Print Assumptions c78_reread.

(** Examples *)
Definition srch_ (n : cstr) : option cstr := if str_eqb n (L "ls") then Some (L "/bin/ls") else None.
Definition al_ p t x plus ws st := match st with Some st => c_alias srch_ p false t false x plus false (map L ws) st | None => None end.
Definition st_of (r : option (cstr * Z * state)) : option state := match r with Some (_, _, st) => Some st | None => None end.
Definition res_of (r : option (cstr * Z * state)) : option (cstr * Z) := match r with Some (o, rv, _) => Some (o, rv) | None => None end.
Definition s0_ : option state := Some (St [] (fun _ => None) 0).
Definition s1_ := st_of (al_ false false false false ["ll=ls -l"; "a=b"; "r=x=y"]%string s0_).
Definition s2_ := st_of (al_ false false true false ["ll"; "z"]%string s1_).
Definition lines_ (l : list string) : cstr := flat_map (fun x => L x ++ [NL]) l.
Example c78_ex : res_of (al_ false false false false [] s2_) = Some (lines_ ["a=b"; "ll='ls -l'"; "r=x=y"]%string, 0)
  /\ res_of (al_ true false true false [] s2_) = Some (lines_ ["alias ll='ls -l'"]%string, 0)
  /\ res_of (al_ false false false false ["+"]%string s2_) = Some (lines_ ["a"; "ll"; "r"]%string, 0)
  /\ res_of (al_ false false false false ["a"; "z"; "a"]%string s2_) = Some (lines_ ["a=b"; "z alias not found"; "a=b"]%string, 1)
  /\ res_of (al_ false true false false [] (st_of (al_ false true false false ["ls"; "nope"; "m=x"]%string s0_))) = Some (lines_ ["ls=/bin/ls"]%string, 0).
Proof. vm_compute. repeat split. Qed.
Example c78_ex_unalias : match s2_ with Some st => match c_unalias false [L "a"; L "a"] st with Some (rv, st') => rv = 1 /\ res_of (al_ false false false true [] (Some st')) = Some (lines_ ["ll"; "r"]%string, 0) | None => False end | None => False end.
Proof. vm_compute. repeat split. Qed.

(** An alias that was only marked, never set, counts as an alias for unalias. *)
Theorem c78_status_refuted : ~ (forall ws st st', reach st -> c_unalias false ws st = Some (0, st') -> forall n, In n ws -> exists v, has (view st) n v).
Proof.
  intros H. destruct s2_ as [st|] eqn:E; [|discriminate].
  assert (R : reach st).
  { unfold s2_, s1_, s0_ in E. cbn [al_ st_of] in E.
    destruct (c_alias srch_ false false false false false false false (map L ["ll=ls -l"; "a=b"; "r=x=y"]%string) (St [] (fun _ => None) 0)) as [[[o1 r1] s1]|] eqn:E1; [|discriminate].
    cbn [al_ st_of] in E. destruct (c_alias srch_ false false false false true false false (map L ["ll"; "z"]%string) s1) as [[[o2 r2] s2]|] eqn:E2; [|discriminate].
    injection E as <-. eapply Re_alias; [|exact E2]. eapply Re_alias; [|exact E1]. constructor. }
  destruct (c78_unalias false [L "z"] st R) as (rv & s' & U & _ & AT & _).
  assert (V : view st (L "z") = Some (None, true)). { transitivity (match s2_ with Some st => view st (L "z") | None => None end); [rewrite E; reflexivity|vm_compute; reflexivity]. }
  assert (rv = 0). { apply AT. split; [repeat constructor; intros []|]. intros n [<-|[]]. rewrite V. discriminate. }
  subst rv. destruct (H _ _ _ R U (L "z") (or_introl eq_refl)) as (v & y & X). rewrite V in X. discriminate.
Qed.
Print Assumptions c78_status_refuted.

(** The manual says that values are ignored for tracked aliases; but then the command is not
    looked up either. *)
Theorem c78_tracked_refuted : exists st1 st2, c_alias srch_ false false true false false false false [L "ls=x"] (St [] (fun _ => None) 0) = Some ([], 0, st1) /\
  c_alias srch_ false false true false false false false [L "ls"] (St [] (fun _ => None) 0) = Some ([], 0, st2) /\ valueless (view st1) (L "ls") /\ has (view st2) (L "ls") (L "/bin/ls").
Proof.
  do 2 eexists. split; [reflexivity|]. split; [reflexivity|]. split; [intros v (y & X); vm_compute in X; discriminate|]. exists false. vm_compute. reflexivity.
Qed.
Print Assumptions c78_tracked_refuted.

(** Names are not quoted: the line of the alias "a b" is read back as another word. *)
Theorem c78_name_refuted : exists out items i, line (L "a b") (L "c") false false out /\
  yylex 1 100 (LEnv false false [] []) noflags [] (Input [Src KStr [] out false false] 0 0) = LTok (LWORD (enc items ++ [EOS]) (L "a")) [] i /\ denotes false items (L "a").
Proof.
  exists (L "a b=c" ++ [NL]), [Chr "a"%char]. eexists. split; [exact (Ln_value (L "a b") (L "c"))|]. split; [vm_compute; reflexivity|]. repeat constructor; discriminate || auto.
Qed.
Print Assumptions c78_name_refuted.
