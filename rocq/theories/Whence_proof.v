From Verif Require Import Base Search_model Search_spec Findcom_model Findcom_spec Findcom_proof Findcom_props Quote_model Whence_model Whence_spec.
Local Open Scope Z_scope.
Ltac sp := repeat match goal with |- _ /\ _ => split end.

Section W.
Context {D : Type} (stat : D -> cstr -> option fileinfo) (access : D -> cstr -> bool -> option nat) (def_path : cstr).
Context (kw : cstr -> bool) (al : cstr -> option (bool * bool * cstr)) (fattr : cstr -> bool * bool) (texp : cstr -> bool) (de : defs).

(** ** findcom with FC_PATH *)
Lemma internal_kind s name fl e : internal stat access s de name fl = Some e -> (exists b, e = EBi b) \/ (exists f, e = EFunc f).
Proof.
  unfold internal. intros H.
  destruct (if fc_spec fl || fc_reg fl || fc_unreg fl then d_bi de name else None) as [b|].
  - destruct (fc_spec fl && bi_spec b); [injection H as <-; eauto|].
    destruct (fc_func fl); [destruct (findfunc (d_funs de) name) as [[]|]; try (injection H as <-; eauto; fail)|];
      destruct (fc_reg fl && bi_reg b); try (injection H as <-; eauto; fail); destruct (fc_unreg fl); try discriminate; injection H as <-; eauto.
  - destruct (fc_func fl); [destruct (findfunc (d_funs de) name) as [[]|]; try (injection H as <-; eauto; fail)|]; discriminate.
Qed.
Definition tracks (s : shell (D:=D)) (name : cstr) (fl : fcflags) : Prop :=
  mem "/" name = false /\ fc_def fl = false /\ (d_track de = true \/ tfind (sh_tal s) name <> None).
Lemma findcom_kind s name fl : fc_path fl = true -> exists e, fst (findcom stat access def_path s de name fl) = Some e /\
  (forall o, e = ETalias o -> tracks s name fl) /\ (forall o, e = EExec o -> ~ tracks s name fl) /\
  (forall n, tfind (sh_tal s) n <> None -> tfind (sh_tal (snd (findcom stat access def_path s de name fl))) n <> None).
Proof.
  intros P.
  assert (PP : forall s0 func ins tp, (forall n, tfind (sh_tal s) n <> None -> tfind (sh_tal s0) n <> None) ->
    (forall o, tp = Some (ETalias o) -> tracks s name fl) -> (forall o, tp <> Some (EExec o)) ->
    (tp = None -> (ins = true /\ fc_def fl = false) <-> tracks s name fl) ->
    exists e, fst (path_part stat access def_path s0 de name fl func ins tp) = Some e /\
     (forall o, e = ETalias o -> tracks s name fl) /\ (forall o, e = EExec o -> ~ tracks s name fl) /\
     (forall n, tfind (sh_tal s) n <> None -> tfind (sh_tal (snd (path_part stat access def_path s0 de name fl func ins tp))) n <> None)).
  { intros s0 func ins tp K H1 H2 H3. assert (TS : forall n q, tfind (sh_tal s) n <> None -> tfind (tset (sh_tal s0) name q) n <> None).
    { intros n q N. rewrite tfind_tset. destruct (str_eqb name n); [discriminate|auto]. }
    unfold path_part. rewrite P, andb_true_r. destruct tp as [[b|f|[p|]|o]|]; try (eexists; sp; [reflexivity|eauto; discriminate..|auto]; fail); try (now destruct (H2 o)).
    - pose proof (H1 _ eq_refl) as T. destruct (srch _ _ _ _ _ true); [eexists; sp; [reflexivity|auto|discriminate|cbn [snd sh_tal]; auto]|].
      destruct (if func then fsearch stat access s0 de name else None); eexists; (sp; [reflexivity|auto; discriminate|discriminate|cbn [snd sh_tal]; auto]).
    - destruct (ins && negb (fc_def fl)) eqn:TR.
      + assert (T : tracks s name fl). { apply H3; auto. apply andb_prop in TR as [A B]. now destruct (fc_def fl). }
        destruct (srch _ _ _ _ _ true); [eexists; sp; [reflexivity|auto|discriminate|cbn [snd sh_tal]; auto]|].
        destruct (if func then fsearch stat access s0 de name else None); eexists; (sp; [reflexivity|auto; discriminate|discriminate|cbn [snd sh_tal]; auto]).
      + assert (T : ~ tracks s name fl). { intros T. apply H3 in T as [X Y]; auto. rewrite X, Y in TR. discriminate. }
        destruct (srch _ _ _ _ _ true); [eexists; sp; [reflexivity|discriminate|auto|cbn [snd sh_tal]; auto]|].
        destruct (if func then fsearch stat access s0 de name else None); eexists; (sp; [reflexivity|discriminate|auto; discriminate|cbn [snd sh_tal]; auto]). }
  unfold findcom. destruct (mem "/" name) eqn:SL.
  - apply PP; auto; try discriminate. intros _. unfold tracks. rewrite SL. split; intros [X _]; discriminate.
  - destruct (internal stat access s de name fl) as [e|] eqn:I.
    + apply internal_kind in I. apply PP; auto; destruct I as [(b & ->)|(f & ->)]; discriminate.
    + rewrite P. cbn [andb]. destruct (fc_def fl) eqn:DF; cbn [negb].
      * apply PP; auto; try discriminate. intros _. unfold tracks. rewrite DF. split; [intros [_ X]; discriminate|intros (_ & X & _); discriminate].
      * destruct (tfind (sh_tal s) name) as [[p|]|] eqn:TF.
        -- assert (T : tracks s name fl) by (unfold tracks; rewrite TF; sp; auto; right; discriminate).
           destruct (access (sh_cwd s) p true); apply PP; auto; try discriminate. cbn [sh_tal]. intros n0 N. rewrite tfind_tset. destruct (str_eqb name n0); [discriminate|auto].
        -- assert (T : tracks s name fl) by (unfold tracks; rewrite TF; sp; auto; right; discriminate). apply PP; auto; discriminate.
        -- apply PP; auto; try discriminate. intros _. unfold tracks. rewrite TF, DF. split; [intros [X _]; sp; auto|intros (_ & _ & [X|X]); [auto|congruence]].
Qed.

(** ** The words *)
Context (d : D) (path : cstr) (tal : taliases) (by_ : called) (pflag vflag0 Vflag : bool).
Notation only := (iam_whence by_ && pflag).
Notation std := (negb (iam_whence by_) && pflag).
Notation v := (vflag by_ vflag0 Vflag).
Notation Means := (means stat access def_path kw al fattr texp de d path tal only std).
(** the shell while the names are looked up *)
Definition now (s : shell (D:=D)) : Prop := sh_cwd s = d /\ sh_path s = path /\ coherent stat access s /\
  (d_track de = false -> forall n, tfind (sh_tal s) n <> None <-> tfind tal n <> None).
Lemma fcf_of : fcf by_ pflag = fl_of only std.
Proof. unfold fcf, fl_of. destruct (iam_whence by_), pflag; reflexivity. Qed.
Lemma in_table_find id : in_table de id <-> findfunc (d_funs de) id <> None.
Proof.
  unfold in_table. split.
  - intros (f & b & I & E). induction (d_funs de) as [|g l IH]; [destruct I|]. cbn. destruct I as [->|I]; [rewrite E; discriminate|]. destruct (g id); [discriminate|auto].
  - intros H. induction (d_funs de) as [|g l IH]; [now destruct H|]. cbn in H. destruct (g id) as [b|] eqn:E; [exists g, b; split; [left|]; auto|].
    destruct (IH H) as (f & b & I & F). exists f, b. split; [right|]; auto.
Qed.
Definition good (id : cstr) (k : kind) (t : cstr) (found : bool) : Prop :=
  Means id k /\ (found = true <-> k <> KNone) /\ (v = true -> long_text id k t) /\
  (v = false -> found = true -> short_text (negb (iam_whence by_)) id k t) /\ (v = false -> found = false -> t = []).
Lemma word_ok s id : now s -> exists t found s' k, whence_word stat access def_path kw al fattr texp de by_ pflag vflag0 Vflag s id = Some (t, found, s') /\
  now s' /\ good id k t found.
Proof.
  intros N. unfold whence_word.
  assert (FU : negb (iam_whence by_) || negb pflag = negb only) by (destruct (iam_whence by_), pflag; reflexivity). rewrite FU. clear FU.
  destruct (negb only && kw id) eqn:K; cbn [fst snd].
  { apply andb_prop in K as [O K]. apply negb_true_iff in O. do 3 eexists. exists KKeyword. split; [reflexivity|]. split; auto. unfold good. sp; [now constructor|split; congruence|..].
    - intros ->. cbn [when]. constructor.
    - intros -> _. cbn [when]. rewrite app_nil_r. constructor.
    - discriminate. }
  assert (KW : only = false -> kw id = false) by (intros O; rewrite O in K; exact K).
  destruct (if negb only then match al id with Some (true, ex, v0) => Some (TAlias ex v0) | _ => None end else None) as [te|] eqn:A.
  { destruct only eqn:O; [discriminate|]. cbn [negb] in A. destruct (al id) as [[[[] ex] va]|] eqn:AL; try discriminate. injection A as <-.
    do 3 eexists. exists (KAlias ex va). split; [reflexivity|]. split; auto. unfold good. rewrite O. sp; [constructor; auto|split; [discriminate|auto]|..].
    - intros ->. rewrite andb_false_r. cbn [when app]. destruct ex; cbn [when]; [rewrite <- !app_assoc; apply Lt_alias_x|rewrite <- !app_assoc; apply Lt_alias].
    - intros -> _. cbn [when app]. rewrite andb_true_r. destruct (iam_whence by_); cbn [when negb app]; [now constructor|]. rewrite <- !app_assoc. now constructor.
    - discriminate. }
  assert (NN : ~ named kw al only id).
  { intros (O & [X|(x & va & X)]); [rewrite KW in X by auto; discriminate|]. rewrite O in A. cbn in A. rewrite X in A. discriminate. }
  clear K KW A. destruct N as (N1 & N2 & N3 & N4).
  destruct (findcom_kind s id (fcf by_ pflag)) as (e & E & ET & EE & KP); [unfold fcf; destruct (iam_whence by_); reflexivity|].
  pose proof (c31_findcom D stat access def_path s de id (fcf by_ pflag) N3) as [RE CO].
  pose proof (findcom_updates stat access def_path de id (fcf by_ pflag) s) as (U1 & U2 & _).
  pose proof (c31_table D stat access def_path s de id (fcf by_ pflag)) as TB.
  destruct (findcom stat access def_path s de id (fcf by_ pflag)) as [o s']. cbn [fst snd] in *. subst o. cbn [option_map].
  assert (N' : now s').
  { unfold now. sp; auto; try congruence. intros TR n. rewrite <- (N4 TR n). split; [|apply KP]. intros X Y. destruct (TB n) as (-> & _ & _ & _ & [Z|Z]); congruence. }
  assert (TK : tracks s id (fcf by_ pflag) <-> tracked de tal std id).
  { unfold tracks, tracked. rewrite fcf_of. replace (fc_def (fl_of only std)) with std by (unfold fl_of; destruct only; reflexivity).
    assert (SL : mem "/" id = false <-> ~ In "/"%char id). { rewrite <- mem_In. destruct (mem "/" id); split; intros; congruence. }
    rewrite SL. destruct (d_track de) eqn:TR.
    - split; intros (A & B & _); sp; auto.
    - specialize (N4 eq_refl id). split; intros (A & B & [C|C]); try discriminate; sp; auto; right.
      + apply N4 in C. destruct (tfind tal id); [eauto|congruence].
      + apply N4. destruct C as (x & ->). discriminate. }
  rewrite N1, N2, fcf_of in RE.
  destruct e as [b|load|[p|]|[p|]].
  - do 3 eexists. exists (KBuiltin (bi_spec b)). split; [reflexivity|]. split; auto. unfold good. sp; [now apply Me_builtin|split; [discriminate|auto]|..].
    + intros ->. cbn [when]. destruct (bi_spec b); cbn [when]; constructor.
    + intros -> _. cbn [when]. rewrite app_nil_r. constructor.
    + discriminate.
  - assert (TX : forall x t, long_text id (match load with None => KFunction x t | Some f => KUndefined x t f end)
      (id ++ L " is a" ++ when x (L "n exported") ++ when t (L " traced") ++ match load with None => [] | Some f => L " undefined" ++ match f with Some f => L " (autoload from " ++ f ++ L ")" | None => [] end end ++ L " function")).
    { assert (B : forall x t, long_text id (KFunction x t) ((id ++ L " is a" ++ when x (L "n exported") ++ when t (L " traced")) ++ L " function")).
      { intros [] []; rewrite <- !app_assoc; constructor. }
      intros x t. specialize (B x t). destruct load as [f|]; [|rewrite <- !app_assoc in B; exact B].
      assert (AT : autoload_text f (match f with Some f => L " (autoload from " ++ f ++ L ")" | None => [] end)) by (destruct f; constructor).
      pose proof (Lt_undefined id x t f _ _ B AT) as X. rewrite <- !app_assoc in X. rewrite <- !app_assoc. exact X. }
    assert (FT : exists x t, match findfunc (d_funs de) id with Some _ => fattr id | None => (false, false) end = (x, t) /\ Means id (match load with None => KFunction x t | Some f => KUndefined x t f end)).
    { destruct (findfunc (d_funs de) id) as [b|] eqn:F.
      - destruct (fattr id) as [x t] eqn:FA. exists x, t. split; auto. destruct load as [f|]; [apply Me_undefined; auto; apply in_table_find; congruence|now apply Me_function].
      - exists false, false. split; auto. destruct load as [f|]; [apply Me_fpath; auto; rewrite in_table_find; congruence|].
        exfalso. destruct RE as [_ (_ & _ & inner & f & outer & E1 & E2 & _)].
        assert (IT : in_table de id) by (exists f, true; split; auto; rewrite E1; apply in_or_app; right; now left). apply in_table_find in IT. congruence. }
    destruct FT as (x & t & -> & ME). do 3 eexists. exists (match load with None => KFunction x t | Some f => KUndefined x t f end). split; [reflexivity|]. split; auto. unfold good. sp; auto.
    + split; [destruct load; discriminate|auto].
    + intros ->. cbn [when]. apply TX.
    + intros -> _. cbn [when]. rewrite app_nil_r. destruct load; constructor.
    + discriminate.
  - do 3 eexists. exists (KTracked (texp id) p). split; [reflexivity|]. split; auto. unfold good. sp; [apply Me_tracked; auto; apply TK; eauto|split; [discriminate|auto]|..].
    + intros ->. cbn [when]. destruct (texp id); cbn [when]; rewrite <- !app_assoc; [apply Lt_tracked_x|apply Lt_tracked].
    + intros -> _. cbn [when app]. constructor.
    + discriminate.
  - do 3 eexists. exists KNone. split; [reflexivity|]. split; auto. unfold good. sp; [now apply Me_none|split; [discriminate|congruence]|..].
    + intros ->. cbn [when]. constructor.
    + discriminate.
    + intros -> _. reflexivity.
  - do 3 eexists. exists (KFile p). split; [reflexivity|]. split; auto. unfold good. sp; [apply Me_file; auto; rewrite <- TK; eauto|split; [discriminate|auto]|..].
    + intros ->. cbn [when]. constructor.
    + intros -> _. cbn [when app]. constructor.
    + discriminate.
  - do 3 eexists. exists KNone. split; [reflexivity|]. split; auto. unfold good. sp; [now apply Me_none|split; [discriminate|congruence]|..].
    + intros ->. cbn [when]. constructor.
    + discriminate.
    + intros -> _. reflexivity.
Qed.
Notation loop := (whence_loop stat access def_path kw al fattr texp de by_ pflag vflag0 Vflag).
Lemma long_ok : v = true -> forall ids s ret, now s -> ret = 0 \/ ret = 1 -> exists out ok, long_list stat access def_path kw al fattr texp de d path tal only std ids out ok /\
  loop ids ret s = Some (out, if ok then ret else 1).
Proof.
  intros V. induction ids as [|id ids IH]; intros s ret N R; [exists [], true; split; [constructor|reflexivity]|].
  cbn [whence_loop]. destruct (word_ok s id N) as (t & found & s' & k & -> & N' & ME & F & LT & _). specialize (LT V). rewrite V. cbn [orb when].
  destruct found.
  - destruct (IH s' ret N' R) as (out & ok & LL & ->). exists (t ++ [NL] ++ out), ok. split; auto. eapply Ll_found; eauto. now apply F.
  - destruct (IH s' 1 N' (or_intror eq_refl)) as (out & ok & LL & ->). exists (t ++ [NL] ++ out), false.
    assert (k = KNone) as -> by (destruct k; auto; exfalso; assert (X : false = true) by (apply F; discriminate); discriminate).
    split; [eapply Ll_none; eauto|]. now destruct ok.
Qed.
Lemma short_ok : v = false -> forall ids s, now s -> exists out ok, short_list stat access def_path kw al fattr texp de d path tal only std (negb (iam_whence by_)) ids out ok /\
  loop ids 0 s = Some (out, if ok then 0 else 1).
Proof.
  intros V. induction ids as [|id ids IH]; intros s N; [exists [], true; split; [constructor|reflexivity]|].
  cbn [whence_loop]. rewrite V. cbn [orb Z.eqb]. destruct (word_ok s id N) as (t & found & s' & k & -> & N' & ME & F & _ & ST & TN).
  destruct found.
  - destruct (IH s' N') as (out & ok & LL & ->). exists (t ++ [NL] ++ out), ok. split; auto. eapply Sl_found; eauto. now apply F.
  - exists [], false. assert (k = KNone) as -> by (destruct k; auto; exfalso; assert (X : false = true) by (apply F; discriminate); discriminate).
    split; [now constructor|]. rewrite (TN V eq_refl). destruct ids as [|i ids]; cbn [whence_loop]; [reflexivity|]. rewrite V. reflexivity.
Qed.
End W.
