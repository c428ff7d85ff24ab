(** C31: finding commands. *)
From Verif Require Import Base Search_model Search_spec Search_proof Search_props Findcom_model Findcom_spec Findcom_proof.
Local Open Scope nat_scope.

(** A lookup gives the first of: special builtin, function (innermost block first), regular
    builtin, other builtin, file found in PATH, file found in FPATH, as far as the flags
    allow; names with a slash are files only.  This needs the tracked aliases to agree with
    PATH, and keeps them so. *)
Theorem c31_findcom : forall D stat access def_path (s : @shell D) de name fl,
  coherent stat access s ->
  right_entry stat access def_path (sh_cwd s) (sh_path s) de name fl (fst (findcom stat access def_path s de name fl)) /\
  coherent stat access (snd (findcom stat access def_path s de name fl)).
Proof.
  intros D stat access def_path s de name fl CO.
  pose proof (findcom_ok stat access def_path de name fl s (or_introl CO)) as H.
  destruct (findcom stat access def_path s de name fl) as [e s']. destruct H as [H1 H2]. split; auto. eapply updated_coherent; eauto.
Qed.
Print Assumptions c31_findcom.

(** The right entry is the only one, up to the kind of entry for a file (tracked or not). *)
Definition same_entry (a b : option entry) : Prop :=
  match a, b with
  | Some (ETalias p), Some (EExec q) | Some (EExec p), Some (ETalias q) => p = q
  | _, _ => a = b
  end.
Lemma same_refl a : same_entry a a.
Proof. destruct a as [[| | |]|]; reflexivity. Qed.
Lemma some_ext (P : cstr -> Prop) (x y : option cstr) : (forall p, x = Some p <-> P p) -> (forall p, y = Some p <-> P p) -> x = y.
Proof.
  intros A B. destruct x as [p|]; [symmetry; apply (proj2 (B p)), (proj1 (A p)); reflexivity|].
  destruct y as [q|]; [|reflexivity]. discriminate (proj2 (A q) (proj1 (B q) eq_refl)).
Qed.
Theorem c31_unique : forall D stat access def_path (d : D) path de name fl a b,
  right_entry stat access def_path d path de name fl a -> right_entry stat access def_path d path de name fl b -> same_entry a b.
Proof.
  intros D stat access def_path d path de name fl a b.
  assert (forall b1 b2, special de name fl b1 \/ regular de name fl b1 \/ other de name fl b1 -> special de name fl b2 \/ regular de name fl b2 \/ other de name fl b2 -> b1 = b2) as BI.
  { assert (forall b, special de name fl b \/ regular de name fl b \/ other de name fl b -> d_bi de name = Some b) as K
      by (intros b0 [(_ & _ & H & _)|[(_ & _ & H & _)|(_ & _ & H)]]; exact H).
    intros b1 b2 H1 H2. apply K in H1. apply K in H2. congruence. }
  assert (forall x y, function de name fl x -> function de name fl y -> x = y) as FU.
  { intros x y (_ & _ & H1) (_ & _ & H2). apply findfunc_ok in H1. apply findfunc_ok in H2. congruence. }
  assert (forall x y, file stat access def_path d path name fl x -> file stat access def_path d path name fl y -> x = y) as FI
    by (intros x y [_ H1] [_ H2]; eapply first_in_det; eauto).
  assert (forall x y, loaded stat access d de name x -> loaded stat access d de name y -> x = y) as LO.
  { intros x y (f & E1 & H1) (g & E2 & H2). replace g with f in H2 by congruence. eapply first_in_det; eauto. }
  assert (forall x, autoload stat access d de name fl x -> loaded stat access d de name x) as AL by (intros x (_ & _ & _ & H); exact H).
  set (S_ := special de name fl) in *. set (F_ := function de name fl) in *. set (R_ := regular de name fl) in *. set (O_ := other de name fl) in *.
  assert (forall e, right_entry stat access def_path d path de name fl e -> exists k,
    match k with
    | 0 => exists b, e = Some (EBi b) /\ S_ b
    | 1 => none S_ /\ (e = Some (EFunc None) /\ F_ true)
    | 2 => none S_ /\ (exists l, e = Some (EFunc (Some l)) /\ F_ false /\ forall p, l = Some p <-> loaded stat access d de name p)
    | 3 => none S_ /\ none F_ /\ exists b, e = Some (EBi b) /\ R_ b
    | 4 => none S_ /\ none F_ /\ none R_ /\ exists b, e = Some (EBi b) /\ O_ b
    | 5 => none S_ /\ none F_ /\ none R_ /\ none O_ /\ exists p, (e = Some (ETalias (Some p)) \/ e = Some (EExec (Some p))) /\ file stat access def_path d path name fl p
    | 6 => none S_ /\ none F_ /\ none R_ /\ none O_ /\ none (file stat access def_path d path name fl) /\ exists p, e = Some (EFunc (Some (Some p))) /\ autoload stat access d de name fl p
    | 7 => none S_ /\ none F_ /\ none R_ /\ none O_ /\ none (file stat access def_path d path name fl) /\ none (autoload stat access d de name fl) /\ fc_path fl = true /\ (e = Some (ETalias None) \/ e = Some (EExec None))
    | _ => none S_ /\ none F_ /\ none R_ /\ none O_ /\ fc_path fl = false /\ e = None
    end) as CL.
  { intros e H. destruct e as [[x|[x|]|[x|]|[x|]]|]; cbn in H; fold S_ F_ R_ O_ in H.
    - destruct H as [H|(H1 & H2 & [H|[H3 H]])]; [exists 0|exists 3|exists 4]; eauto 10.
    - destruct H as [(H1 & H2 & H3)|(H1 & H2 & H3 & H4 & H5 & p & -> & H6)]; [exists 2|exists 6]; eauto 12.
    - exists 1. tauto.
    - exists 5. destruct H as (H1 & H2 & H3 & H4 & H5). repeat (split; [assumption|]). eauto.
    - exists 7. tauto.
    - exists 5. destruct H as (H1 & H2 & H3 & H4 & H5). repeat (split; [assumption|]). eauto.
    - exists 7. tauto.
    - exists 8. tauto. }
  assert (forall p, file stat access def_path d path name fl p -> fc_path fl = true) as FP by (intros p [H _]; exact H).
  assert (forall p, autoload stat access d de name fl p -> fc_path fl = true) as AP by (intros p (_ & H & _); exact H).
  intros HA HB. destruct (CL a HA) as (k & KA), (CL b HB) as (k' & KB). clear HA HB CL. clearbody S_ F_ R_ O_. unfold none in *.
  destruct k as [|[|[|[|[|[|[|[|k]]]]]]]], k' as [|[|[|[|[|[|[|[|k']]]]]]]].
  all: decompose [and ex or] KA; decompose [and ex or] KB; clear KA KB; try subst a; try subst b; try reflexivity.
  all: try (exfalso; match goal with H : forall x, ~ ?P x, H' : ?P _ |- _ => exact (H _ H') end).
  all: try match goal with |- same_entry (Some (EBi ?x)) (Some (EBi ?y)) => match goal with BI : forall b1 b2 : bi, _ -> _ -> b1 = b2 |- _ => rewrite (BI x y) by auto; reflexivity end end.
  all: try match goal with |- same_entry _ None => exfalso | |- same_entry None _ => exfalso end.
  all: try match goal with H : fc_path _ = false |- False => first [congruence | match goal with H' : file _ _ _ _ _ _ _ _, FP : forall p, file _ _ _ _ _ _ _ p -> fc_path _ = true |- _ => apply FP in H'; congruence | H' : autoload _ _ _ _ _ _ _, AP : forall p, autoload _ _ _ _ _ _ p -> fc_path _ = true |- _ => apply AP in H'; congruence end] end.
  all: try match goal with H : ?f true, H' : ?f false |- _ => match goal with FU : forall x y, f x -> f y -> x = y |- _ => discriminate (FU _ _ H H') end end.
  all: try match goal with H : file _ _ _ _ _ _ _ ?x, H' : file _ _ _ _ _ _ _ ?y, FI : forall x y, file _ _ _ _ _ _ _ x -> file _ _ _ _ _ _ _ y -> x = y |- _ => rewrite (FI _ _ H H'); reflexivity end.
  all: try match goal with H : autoload _ _ _ _ _ _ ?x, H' : autoload _ _ _ _ _ _ ?y, AL : forall x, autoload _ _ _ _ _ _ x -> loaded _ _ _ _ _ x, LO : forall x y, loaded _ _ _ _ _ x -> loaded _ _ _ _ _ y -> x = y |- _ => rewrite (LO _ _ (AL _ H) (AL _ H')); reflexivity end.
  enough (x = x0) as -> by reflexivity. apply (some_ext _ x x0 H3 H7).
Qed.
Print Assumptions c31_unique.

(** The agreement: in every history that starts without tracked aliases, while cd is only
    used when the directories of PATH are absolute (see below), for a file system that does
    not change. *)
Theorem c31_coherent : forall D stat access def_path (s0 s : @shell D), absolute_names stat access ->
  sh_tal s0 = [] -> reach stat access def_path true s0 s -> coherent stat access s.
Proof.
  intros D stat access def_path s0 s AN E R. induction R as [|s o R IH H].
  - intros n p. rewrite E. discriminate.
  - apply step_coherent; auto.
  apply H; reflexivity.
Qed.
Print Assumptions c31_coherent.
(** In every history at all, tracked aliases can be executed where the shell is. *)
Theorem c31_usable : forall D stat access def_path (s0 s : @shell D), absolute_names stat access ->
  sh_tal s0 = [] -> reach stat access def_path false s0 s -> usable stat access s.
Proof.
  intros D stat access def_path s0 s AN E R. induction R as [|s o R IH H].
  - intros n p. rewrite E. discriminate.
  - apply step_usable; auto.
Qed.
Print Assumptions c31_usable.
(** A lookup touches no tracked alias but that of its name, and that only if the name has no
    slash, the search is along PATH, and tracking is on or the name is there already. *)
Theorem c31_table : forall D stat access def_path (s : @shell D) de name fl n,
  tfind (sh_tal (snd (findcom stat access def_path s de name fl))) n <> tfind (sh_tal s) n ->
  n = name /\ mem "/" name = false /\ fc_path fl = true /\ fc_def fl = false /\ (d_track de = true \/ tfind (sh_tal s) name <> None).
Proof.
  intros D stat access def_path s de name fl n.
  assert (forall s' func ins tp, tfind (sh_tal (snd (path_part stat access def_path s' de name fl func ins tp))) n = tfind (sh_tal s') n \/
            (n = name /\ fc_path fl = true /\ (tp = Some (ETalias None) \/ (tp = None /\ ins = true /\ fc_def fl = false)))) as PP.
  { intros s' func ins tp. unfold path_part. destruct (match tp with None => true | Some (ETalias None) => true | _ => false end && fc_path fl) eqn:G; [|now left]. apply andb_true_iff in G as [G1 G2].
    set (tr := match tp with Some _ => true | None => ins && negb (fc_def fl) end). destruct tr eqn:TR.
    - destruct (str_eqb_spec name n) as [<-|N].
      + right. repeat split; auto. destruct tp as [[| |[]|]|]; try discriminate; auto. right. unfold tr in TR. apply andb_true_iff in TR as [? TR]. repeat split; auto. now apply negb_true_iff.
      + left. assert (str_eqb name n = false) as N' by (destruct (str_eqb_spec name n); congruence). destruct (srch _ _ _ _ _ _); [|destruct (if func then _ else _)]; cbn; rewrite tfind_tset, N'; reflexivity.
    - left. destruct (srch _ _ _ _ _ _); [|destruct (if func then _ else _)]; reflexivity. }
  assert (forall e, internal stat access s de name fl <> Some (ETalias e)) as IN.
  { intros e. unfold internal. set (tbi := if fc_spec fl || fc_reg fl || fc_unreg fl then d_bi de name else None). destruct tbi as [b|].
    - destruct (fc_spec fl && bi_spec b); [discriminate|]. destruct (fc_func fl).
      + destruct (findfunc (d_funs de) name) as [[|]|]; try discriminate. destruct (fc_reg fl && bi_reg b); [discriminate|]. destruct (fc_unreg fl); discriminate.
      + destruct (fc_reg fl && bi_reg b); [discriminate|]. destruct (fc_unreg fl); discriminate.
    - destruct (fc_func fl); [|discriminate]. destruct (findfunc (d_funs de) name) as [[|]|]; discriminate. }
  unfold findcom. destruct (mem "/" name) eqn:SL.
  - intros H. destruct (PP s false false None) as [Q|(_ & _ & [Q|(_ & Q & _)])]; [now destruct H|discriminate|discriminate].
  - destruct (internal stat access s de name fl) as [e|] eqn:E.
    + intros H. destruct (PP s (fc_func fl) (d_track de) (Some e)) as [Q|(_ & _ & [Q|(Q & _)])]; [now destruct H| |discriminate]. injection Q as ->. now destruct (IN None).
    + destruct (fc_path fl && negb (fc_def fl)) eqn:PD.
      * apply andb_true_iff in PD as [P1 P2]. apply negb_true_iff in P2. destruct (tfind (sh_tal s) name) as [[q|]|] eqn:TF; [destruct (access (sh_cwd s) q true)| |]; intros H.
        -- destruct (str_eqb_spec name n) as [<-|N]; [repeat split; auto; right; discriminate|]. exfalso. apply H.
           match goal with |- context [path_part _ _ _ ?s' _ _ _ ?a ?b ?c] => destruct (PP s' a b c) as [Q|(Q & _)] end; [|now destruct N].
           rewrite Q. cbn. rewrite tfind_tset. destruct (str_eqb_spec name n); congruence.
        -- match goal with _ : context [path_part _ _ _ ?s' _ _ _ ?a ?b ?c] |- _ => destruct (PP s' a b c) as [Q|(-> & _)] end; [now destruct H|]. repeat split; auto; right; discriminate.
        -- match goal with _ : context [path_part _ _ _ ?s' _ _ _ ?a ?b ?c] |- _ => destruct (PP s' a b c) as [Q|(-> & _)] end; [now destruct H|]. repeat split; auto; right; discriminate.
        -- destruct (PP s (fc_func fl) (d_track de) None) as [Q|(-> & _ & [Q|(_ & Q & _)])]; [now destruct H|discriminate|]. repeat split; auto.
      * intros H. destruct (PP s (fc_func fl) (d_track de) None) as [Q|(-> & P & [Q|(_ & Q & Q2)])]; [now destruct H|discriminate|]. repeat split; auto.
Qed.
Print Assumptions c31_table.
(** Even when files have changed, the tracked path that a lookup gives can be accessed now. *)
Theorem c31_checked : forall D stat access def_path (s : @shell D) de name fl p,
  fst (findcom stat access def_path s de name fl) = Some (ETalias (Some p)) -> access (sh_cwd s) p true = None.
Proof.
  intros D stat access def_path s de name fl p.
  assert (forall d n pa q, srch stat access d n pa true = Some q -> access d q true = None) as SA.
  { intros d n pa q H. apply srch_ok in H. apply first_in_qualifies in H as (st & _ & A & _). exact A. }
  assert (forall s' func ins tp, sh_cwd s' = sh_cwd s -> (forall q, tp = Some (ETalias (Some q)) -> access (sh_cwd s) q true = None) ->
    fst (path_part stat access def_path s' de name fl func ins tp) = Some (ETalias (Some p)) -> access (sh_cwd s) p true = None) as PP.
  { intros s' func ins tp EC HT. unfold path_part.
    destruct ((match tp with None => true | Some (ETalias None) => true | _ => false end) && fc_path fl); [|cbn; intros ->; auto].
    destruct (srch stat access (sh_cwd s') name (if fc_def fl then def_path else sh_path s') true) as [q|] eqn:E.
    - apply SA in E. rewrite EC in E. destruct tp; [|destruct (ins && negb (fc_def fl))]; cbn; intros [=]; congruence.
    - destruct (if func then fsearch stat access s' de name else None); cbn; [discriminate|]. destruct tp; [|destruct (ins && negb (fc_def fl))]; discriminate. }
  unfold findcom. destruct (mem "/" name); [apply PP; auto; discriminate|].
  destruct (internal stat access s de name fl) as [e|] eqn:E.
  - apply PP; auto. intros q [= ->]. exfalso. revert E. clear. unfold internal.
    set (tbi := if fc_spec fl || fc_reg fl || fc_unreg fl then d_bi de name else None). destruct tbi as [b|].
    + destruct (fc_spec fl && bi_spec b); [discriminate|]. destruct (fc_func fl).
      * destruct (findfunc (d_funs de) name) as [[|]|]; try discriminate. destruct (fc_reg fl && bi_reg b); [discriminate|]. destruct (fc_unreg fl); discriminate.
      * destruct (fc_reg fl && bi_reg b); [discriminate|]. destruct (fc_unreg fl); discriminate.
    + destruct (fc_func fl); [|discriminate]. destruct (findfunc (d_funs de) name) as [[|]|]; discriminate.
  - destruct (fc_path fl && negb (fc_def fl)); [|apply PP; auto; discriminate].
    destruct (tfind (sh_tal s) name) as [[q|]|]; [destruct (access (sh_cwd s) q true) eqn:EA| |]; apply PP; auto; try discriminate.
    intros q' [= <-]. exact EA.
Qed.
Print Assumptions c31_checked.

(** ** Cases: two directories, /bin/ls everywhere, bin/ls in the second one *)
Definition xfile := Some {| is_reg := true; is_dir := false; any_x := true |}.
Definition st_ (d : bool) (p : cstr) : option fileinfo :=
  if str_eqb p (L "/bin/ls") then xfile else if d && str_eqb p (L "bin/ls") then xfile else if str_eqb p (L "/f/fun") then xfile else None.
Definition ac_ (d : bool) (p : cstr) (x : bool) : option nat := None.
Definition de_ := Defs (fun n => if str_eqb n (L "set") then Some (Bi true false) else if str_eqb n (L "cd") then Some (Bi false true) else if str_eqb n (L "print") then Some (Bi false false) else None)
  [(fun n => if str_eqb n (L "local") then Some true else None); (fun n => if mem (hd NUL n) (L "scpl") then Some (negb (str_eqb n (L "later"))) else None)] (Some (L "/f")) true.
Definition all_ := FC true true true true true false.
Definition fc_ name fl := fst (findcom st_ ac_ (L "/bin") (Sh (L "bin:/bin") false []) de_ (L name) fl).
Lemma abs_names_ : absolute_names st_ ac_.
Proof.
  intros d d' p H. split; auto. unfold st_. destruct (str_eqb p (L "/bin/ls")); auto.
  destruct (str_eqb_spec p (L "bin/ls")) as [->|]; [discriminate|]. now rewrite !andb_false_r.
Qed.
Example c31_ex : fc_ "set" all_ = Some (EBi (Bi true false)) /\ fc_ "cd" all_ = Some (EFunc None) /\ fc_ "cd" (FC true false true true true false) = Some (EBi (Bi false true))
  /\ fc_ "ls" (FC true false true true true false) = Some (ETalias (Some (L "/bin/ls"))) /\ fc_ "ls" (FC true true true true true false) = Some (EFunc None)
  /\ fc_ "later" all_ = Some (EFunc (Some None)) /\ fc_ "fun" all_ = Some (EFunc (Some (Some (L "/f/fun")))) /\ fc_ "/bin/ls" all_ = Some (EExec (Some (L "/bin/ls")))
  /\ fc_ "nope" all_ = Some (ETalias None) /\ fc_ "ls" (FC true false true true false false) = None.
Proof. vm_compute. repeat split. Qed.
Example c31_reach_ex : reach st_ ac_ (L "/bin") true (Sh (L "/usr:/bin") false []) (Sh (L "/usr:/bin") true [(L "ls", Some (L "/bin/ls"))]).
Proof.
  apply (Reach_step st_ ac_ (L "/bin") true _ (Sh (L "/usr:/bin") false [(L "ls", Some (L "/bin/ls"))]) (OCd true)).
  - apply (Reach_step st_ ac_ (L "/bin") true _ (Sh (L "/usr:/bin") false []) (OLookup de_ (L "ls") (FC true false true true true false))); [constructor|discriminate].
  - intros _ d _. repeat constructor.
Qed.

(** A tracked alias hides a command after cd: with PATH=bin:/bin, ls is found as /bin/ls in
    a directory without bin/ls and stays so in one that has it. *)
Theorem c31_cd_stale_refuted :
  let s := step st_ ac_ (L "/bin") (step st_ ac_ (L "/bin") (Sh (L "bin:/bin") false []) (OLookup de_ (L "ls") (FC true false true true true false))) (OCd true) in
  fst (findcom st_ ac_ (L "/bin") s de_ (L "ls") (FC true false true true true false)) = Some (ETalias (Some (L "/bin/ls"))) /\
  first_in st_ ac_ true (L "bin:/bin") (L "ls") true (L "bin/ls").
Proof.
  split; [vm_compute; reflexivity|]. apply srch_ok. vm_compute. reflexivity.
Qed.
Print Assumptions c31_cd_stale_refuted.
