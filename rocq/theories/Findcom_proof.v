(** Proofs about finding commands. *)
From Verif Require Import Base Search_model Search_spec Search_proof Search_props Findcom_model Findcom_spec.
Local Open Scope nat_scope.

Lemma tfind_tset t name p n : tfind (tset t name p) n = if str_eqb name n then Some p else tfind t n.
Proof.
  induction t as [|[m q] t IH]; cbn; auto. destruct (str_eqb_spec m name) as [->|NE]; cbn.
  - destruct (str_eqb name n); reflexivity.
  - destruct (str_eqb_spec m n) as [->|NE2]; auto. destruct (str_eqb_spec name n) as [->|]; congruence.
Qed.
Lemma tfind_flush all t n : tfind (flushcom all t) n = match tfind t n with
  | Some (Some q) => Some (if all || negb (is_abs q) then None else Some q) | x => x end.
Proof.
  induction t as [|[m q] t IH]; cbn; auto. destruct (str_eqb_spec m n) as [->|NE]; auto. destruct q; reflexivity.
Qed.
Lemma tfind_del t name n p : tfind (tdel t name) n = Some p -> tfind t n = Some p.
Proof.
  induction t as [|[m q] t IH]; cbn; auto. destruct (str_eqb_spec m name) as [->|NE]; cbn.
  - intros H. specialize (IH H). destruct (str_eqb_spec name n) as [->|]; auto. exfalso. clear IH. unfold tdel in H.
    induction t as [|[m' q'] t IH]; cbn in H; [discriminate|]. destruct (str_eqb_spec m' n) as [->|]; cbn in H; auto.
    destruct (str_eqb_spec m' n); [contradiction|auto].
  - destruct (str_eqb_spec m n) as [->|]; auto.
Qed.

Section P.
Context {D : Type} (stat : D -> cstr -> option fileinfo) (access : D -> cstr -> bool -> option nat) (def_path : cstr).
Local Notation first_in := (first_in stat access).

Lemma first_in_det d path name x p q : first_in d path name x p -> first_in d path name x q -> p = q.
Proof.
  intros [(S1 & -> & _)|(N1 & b1 & d1 & l1 & E1 & -> & Q1 & F1)] [(S2 & -> & _)|(N2 & b2 & d2 & l2 & E2 & -> & Q2 & F2)]; try contradiction; auto.
  rewrite E1 in E2. apply app_eq_app in E2 as (m & [[-> E]|[-> E]]); destruct m as [|e m]; cbn in E.
  - injection E as -> _. reflexivity.
  - injection E as E _. exfalso. apply (F1 d2); auto. apply in_app_iff. right. now left.
  - injection E as -> _. reflexivity.
  - injection E as E _. exfalso. apply (F2 d1); auto. apply in_app_iff. right. now left.
Qed.
Lemma srch_ok d name path x p : srch stat access d name path x = Some p <-> first_in d path name x p.
Proof.
  assert (forall p, srch stat access d name path x = Some p -> first_in d path name x p) as K.
  { clear p. intros p. unfold srch. intros H. destruct (in_dec ascii_dec "/"%char name) as [I|N].
    - destruct (c05_slash_not_searched (stat d) (access d) name path x I) as (e & [[Q E]|[Q E]]); rewrite E in H; [|discriminate]. injection H as <-. left. auto.
    - destruct (c05_search_first_match (stat d) (access d) name path x N) as (r & e & E & [[-> F]|(b & dir & l & E1 & -> & Q & F)]); rewrite E in H; [discriminate|].
      injection H as <-. right. split; auto. exists b, dir, l. auto. }
  split; auto. intros H. destruct (srch stat access d name path x) as [q|] eqn:E.
  - f_equal. eapply first_in_det; [apply K; reflexivity|exact H].
  - exfalso. unfold srch in E. destruct H as [(I & -> & Q)|(N & b & dir & l & E1 & -> & Q & F)].
    + destruct (c05_slash_not_searched (stat d) (access d) name path x I) as (e & [[_ E2]|[NQ _]]); [rewrite E2 in E; discriminate|contradiction].
    + destruct (c05_search_first_match (stat d) (access d) name path x N) as (r & e & E2 & [[-> F2]|(b2 & dir2 & l2 & _ & -> & _)]); rewrite E2 in E; [|discriminate].
      apply (F2 dir); auto. rewrite E1. apply in_app_iff. right. now left.
Qed.
Lemma srch_none d name path x : srch stat access d name path x = None -> forall p, ~ first_in d path name x p.
Proof. intros E p H. apply srch_ok in H. congruence. Qed.
Lemma fsearch_ok s de name p : fsearch stat access s de name = Some p <-> loaded stat access (sh_cwd s) de name p.
Proof.
  unfold fsearch, loaded. destruct (d_fpath de) as [f|].
  - rewrite srch_ok. split; [intros H; exists f; auto|intros (g & [= <-] & H); exact H].
  - split; [discriminate|intros (g & X & _); discriminate].
Qed.
Lemma findfunc_ok l name b : findfunc l name = Some b <-> exists inner f outer, l = inner ++ f :: outer /\ f name = Some b /\ forall g, In g inner -> g name = None.
Proof.
  induction l as [|f l IH]; cbn.
  - split; [discriminate|]. intros ([|? ?] & f & o1 & E & _); discriminate.
  - destruct (f name) as [c|] eqn:E.
    + split.
      * intros [= ->]. exists [], f, l. split; auto. split; auto. intros g [].
      * intros ([|g inner] & h & o & E1 & E2 & E3); cbn in E1; injection E1 as -> ->; [congruence|]. rewrite E3 in E by (now left). discriminate.
    + rewrite IH. split.
      * intros (inner & h & o & -> & E2 & E3). exists (f :: inner), h, o. split; auto. split; auto. intros g [<-|I]; auto.
      * intros ([|g inner] & h & o & E1 & E2 & E3); cbn in E1; injection E1 as -> ->; [congruence|]. exists inner, h, o. split; auto. split; auto. intros g' I. apply E3. now right.
Qed.

Definition keeps (P : shell -> Prop) (s s' : @shell D) : Prop := sh_path s' = sh_path s /\ sh_cwd s' = sh_cwd s /\ (P s -> P s').
(** the table after a lookup: at most the entry of the name has changed, to the right path *)
Definition updated (s s' : @shell D) (name : cstr) : Prop := sh_path s' = sh_path s /\ sh_cwd s' = sh_cwd s /\
  forall n p, tfind (sh_tal s') n = Some (Some p) -> tfind (sh_tal s) n = Some (Some p) \/ n = name /\ first_in (sh_cwd s) (sh_path s) name true p.
Lemma updated_refl s name : updated s s name.
Proof. repeat split; auto. Qed.
Lemma updated_none s name : updated s (Sh (sh_path s) (sh_cwd s) (tset (sh_tal s) name None)) name.
Proof. repeat split; auto. cbn. intros n p. rewrite tfind_tset. destruct (str_eqb name n); [discriminate|auto]. Qed.
Lemma updated_trans s s1 s2 name : updated s s1 name -> updated s1 s2 name -> updated s s2 name.
Proof.
  intros (A1 & A2 & A3) (B1 & B2 & B3). repeat split; try congruence. intros n p H. apply B3 in H as [H|[-> H]]; auto. rewrite A1, A2 in H. auto.
Qed.

Section Name.
Context (de : defs) (name : cstr) (fl : fcflags).
(** nothing but files is left *)
Definition earlier : Prop := none (special de name fl) /\ none (function de name fl) /\ none (regular de name fl) /\ none (other de name fl).
Local Notation right_entry s := (right_entry stat access def_path (sh_cwd s) (sh_path s) de name fl).
Lemma path_part_ok s func insert tp : earlier -> (func = true <-> plain name /\ fc_func fl = true) ->
  tp = None \/ tp = Some (ETalias None) /\ fc_path fl = true /\ fc_def fl = false ->
  let '(e, s') := path_part stat access def_path s de name fl func insert tp in right_entry s e /\ updated s s' name.
Proof.
  intros (N1 & N2 & N3 & N4) FU TP. unfold path_part.
  assert ((match tp with None => true | Some (ETalias None) => true | _ => false end) = true) as -> by (destruct TP as [->|[-> _]]; reflexivity).
  cbn [andb]. destruct (fc_path fl) eqn:FP.
  2:{ destruct TP as [->|(_ & X & _)]; [|discriminate]. cbn. split; auto using updated_refl. }
  set (tracked := match tp with Some _ => true | None => insert && negb (fc_def fl) end).
  set (pth := if fc_def fl then def_path else sh_path s).
  assert (tracked = true -> pth = sh_path s) as TR.
  { unfold tracked, pth. destruct TP as [->|(-> & _ & ->)]; auto. destruct (fc_def fl); auto. rewrite andb_false_r. discriminate. }
  assert (updated s (Sh (sh_path s) (sh_cwd s) (if tracked then tset (sh_tal s) name None else sh_tal s)) name) as UP.
  { destruct tracked; [apply updated_none|]. repeat split; auto. }
  destruct (srch stat access (sh_cwd s) name pth true) as [p|] eqn:SE.
  - apply srch_ok in SE. destruct tracked.
    + split.
      * cbn. repeat (split; auto).
      * repeat split; auto. cbn. intros n q. rewrite tfind_tset. destruct (str_eqb_spec name n) as [->|]; auto. intros [= <-]. right. rewrite (TR eq_refl) in SE. auto.
    + split; [|exact UP]. cbn. repeat (split; auto).
  - assert (none (file stat access def_path (sh_cwd s) (sh_path s) name fl)) as NF.
    { intros p [_ H]. eapply srch_none; eauto. }
    destruct func eqn:FN.
    + destruct (proj1 FU eq_refl) as [PL FF]. destruct (fsearch stat access s de name) as [f|] eqn:FS.
      * split; [|exact UP]. cbn. right. repeat (split; [assumption|]). exists f. split; auto. repeat split; auto. now apply fsearch_ok.
      * assert (none (autoload stat access (sh_cwd s) de name fl)) as NA.
        { intros f (_ & _ & _ & H). apply fsearch_ok in H. congruence. }
        split; [|exact UP]. destruct tracked; cbn; repeat (split; [assumption|]); auto.
    + assert (none (autoload stat access (sh_cwd s) de name fl)) as NA.
      { intros f (PL & _ & FF & _). assert (false = true) by (apply FU; auto). discriminate. }
      split; [|exact UP]. destruct tracked; cbn; repeat (split; [assumption|]); auto.
Qed.
Lemma path_part_found s func insert e : (forall x, e = Some x -> x <> ETalias None) -> e <> None ->
  path_part stat access def_path s de name fl func insert e = (e, s).
Proof. intros N N2. unfold path_part. destruct e as [[| |[|]|]|]; auto; [now destruct (N (ETalias None) eq_refl)|congruence]. Qed.

Lemma findcom_ok s : coherent stat access s \/ (forall p, tfind (sh_tal s) name <> Some (Some p)) ->
  let '(e, s') := findcom stat access def_path s de name fl in right_entry s e /\ updated s s' name.
Proof.
  intros CO. unfold findcom. destruct (mem "/" name) eqn:SL.
  { apply mem_In in SL.
    apply path_part_ok; auto.
    - repeat split; intros x (H & _); contradiction.
    - split; [discriminate|]. intros [H _]. contradiction. }
  assert (plain name) as PL by (intros I; apply mem_In in I; congruence).
  unfold internal. set (tbi := if fc_spec fl || fc_reg fl || fc_unreg fl then d_bi de name else None).
  destruct (match tbi with Some b => if fc_spec fl && bi_spec b then Some (EBi b) else None | None => None end) as [e|] eqn:E1.
  { destruct tbi as [b|] eqn:TB; [|discriminate]. destruct (fc_spec fl && bi_spec b) eqn:SB; [|discriminate]. injection E1 as <-.
    apply andb_true_iff in SB as [S1 S2]. unfold tbi in TB. rewrite S1 in TB. cbn in TB. rewrite path_part_found by (congruence || discriminate).
    split; auto using updated_refl. cbn. left. repeat split; auto. }
  assert (none (special de name fl)) as NS.
  { intros b (_ & A1 & A2 & A3). unfold tbi in E1. rewrite A1 in E1. cbn in E1. rewrite A2, A3 in E1. discriminate. }
  destruct (if fc_func fl then match findfunc (d_funs de) name with Some true => Some (EFunc None) | Some false => Some (EFunc (Some (fsearch stat access s de name))) | None => None end else None) as [e|] eqn:E2.
  { destruct (fc_func fl) eqn:FF; [|discriminate]. destruct (findfunc (d_funs de) name) as [[|]|] eqn:FN; try discriminate; injection E2 as <-;
      rewrite path_part_found by (congruence || discriminate); split; auto using updated_refl; cbn.
    - split; auto. split; auto. split; auto. now apply findfunc_ok.
    - left. split; auto. split; [split; auto; split; auto; now apply findfunc_ok|]. intros p. apply fsearch_ok. }
  assert (none (function de name fl)) as NF.
  { intros b (_ & A1 & A2). rewrite A1 in E2. apply findfunc_ok in A2. rewrite A2 in E2. destruct b; discriminate. }
  destruct (match tbi with Some b => if fc_reg fl && bi_reg b then Some (EBi b) else None | None => None end) as [e|] eqn:E3.
  { destruct tbi as [b|] eqn:TB; [|discriminate]. destruct (fc_reg fl && bi_reg b) eqn:SB; [|discriminate]. injection E3 as <-.
    apply andb_true_iff in SB as [S1 S2]. unfold tbi in TB. rewrite S1, orb_true_r in TB. cbn in TB. rewrite path_part_found by (congruence || discriminate).
    split; auto using updated_refl. cbn. right. split; auto. split; auto. left. repeat split; auto. }
  assert (none (regular de name fl)) as NR.
  { intros b (_ & A1 & A2 & A3). unfold tbi in E3. rewrite A1, orb_true_r in E3. cbn in E3. rewrite A2, A3 in E3. discriminate. }
  destruct (match tbi with Some b => if fc_unreg fl then Some (EBi b) else None | None => None end) as [e|] eqn:E4.
  { destruct tbi as [b|] eqn:TB; [|discriminate]. destruct (fc_unreg fl) eqn:SB; [|discriminate]. injection E4 as <-.
    unfold tbi in TB. rewrite orb_true_r in TB. rewrite path_part_found by (congruence || discriminate).
    split; auto using updated_refl. cbn. right. split; auto. split; auto. right. split; auto. repeat split; auto. }
  assert (none (other de name fl)) as NO.
  { intros b (_ & A1 & A2). unfold tbi in E4. rewrite A1, orb_true_r in E4. rewrite A2 in E4. discriminate. }
  assert (earlier) as EA by (repeat split; auto).
  assert (fc_func fl = true <-> plain name /\ fc_func fl = true) as FU by tauto.
  destruct (fc_path fl && negb (fc_def fl)) eqn:FP; [|apply path_part_ok; auto].
  apply andb_true_iff in FP as [FP FD]. apply negb_true_iff in FD.
  destruct (tfind (sh_tal s) name) as [[p|]|] eqn:TF.
  - assert (first_in (sh_cwd s) (sh_path s) name true p) as FI by (destruct CO as [CO|CO]; [now apply CO|now destruct (CO p)]).
    assert (access (sh_cwd s) p true = None) as AC.
    { destruct FI as [(_ & -> & (st & _ & A & _))|(_ & b & dd & l & _ & -> & (st & _ & A & _) & _)]; auto. }
    rewrite AC. rewrite path_part_found; [|intros x [= <-]; discriminate|discriminate]. split; auto using updated_refl. cbn. repeat (split; [assumption|]).
    now rewrite FD.
  - apply path_part_ok; auto.
  - apply path_part_ok; auto.
Qed.
(** without any assumption about the table *)
Lemma findcom_updates s : updated s (snd (findcom stat access def_path s de name fl)) name.
Proof.
  unfold findcom.
  assert (forall s func insert tp, (tp = Some (ETalias None) -> fc_def fl = false \/ fc_path fl = false) -> updated s (snd (path_part stat access def_path s de name fl func insert tp)) name) as K.
  { clear. intros s func insert tp HD. unfold path_part.
    destruct ((match tp with None => true | Some (ETalias None) => true | _ => false end) && fc_path fl) eqn:G; [|apply updated_refl].
    set (tracked := match tp with Some _ => true | None => insert && negb (fc_def fl) end).
    assert (updated s (Sh (sh_path s) (sh_cwd s) (if tracked then tset (sh_tal s) name None else sh_tal s)) name) as UP.
    { destruct tracked; [apply updated_none|]. repeat split; auto. }
    destruct (srch stat access (sh_cwd s) name (if fc_def fl then def_path else sh_path s) true) as [p|] eqn:SE.
    - destruct tracked eqn:TR; [|exact UP]. repeat split; auto. cbn. intros n q. rewrite tfind_tset. destruct (str_eqb_spec name n) as [->|]; auto. intros [= <-].
      right. split; auto. apply srch_ok. rewrite <- SE. destruct (fc_def fl) eqn:FD; auto. exfalso. apply andb_true_iff in G as [G1 G2].
      destruct tp as [[| |[|]|]|]; try discriminate; [destruct (HD eq_refl); congruence|]. unfold tracked in TR. rewrite andb_false_r in TR. discriminate.
    - destruct (if func then fsearch stat access s de name else None); exact UP. }
  destruct (mem "/" name); [apply K; discriminate|].
  destruct (internal stat access s de name fl) as [e|] eqn:T.
  - apply K. intros [= ->]. exfalso. revert T. clear. unfold internal.
    set (tbi := if fc_spec fl || fc_reg fl || fc_unreg fl then d_bi de name else None). destruct tbi as [b|].
    + destruct (fc_spec fl && bi_spec b); [discriminate|]. destruct (fc_func fl).
      * destruct (findfunc (d_funs de) name) as [[|]|]; try discriminate. destruct (fc_reg fl && bi_reg b); [discriminate|]. destruct (fc_unreg fl); discriminate.
      * destruct (fc_reg fl && bi_reg b); [discriminate|]. destruct (fc_unreg fl); discriminate.
    + destruct (fc_func fl); [|discriminate]. destruct (findfunc (d_funs de) name) as [[|]|]; discriminate.
  - destruct (fc_path fl && negb (fc_def fl)) eqn:FP; [|apply K; discriminate].
    apply andb_true_iff in FP as [FP FD]. apply negb_true_iff in FD. destruct (tfind (sh_tal s) name) as [[p|]|]; [destruct (access (sh_cwd s) p true)| |]; try (apply K; auto; discriminate).
    eapply updated_trans; [apply updated_none|]. apply K. auto.
Qed.
End Name.

Lemma updated_coherent s s' name : updated s s' name -> coherent stat access s -> coherent stat access s'.
Proof. intros (A & B & C) CO n p H. rewrite A, B. apply C in H as [H|[-> H]]; auto. Qed.
Lemma first_in_qualifies d path name x p : first_in d path name x p -> qualifies (stat d) (access d) x p.
Proof. intros [(_ & -> & H)|(_ & b & dir & l & _ & -> & H & _)]; auto. Qed.
Lemma updated_usable s s' name : updated s s' name -> usable stat access s -> usable stat access s'.
Proof. intros (A & B & C) CO n p H. rewrite B. apply C in H as [H|[-> H]]; [exact (CO n p H)|now apply first_in_qualifies in H]. Qed.
Lemma qualifies_move d d' x p : absolute_names stat access -> is_abs p = true -> qualifies (stat d) (access d) x p -> qualifies (stat d') (access d') x p.
Proof. intros AN IA (st & A & B & C). destruct (AN d d' p IA) as [E1 E2]. exists st. rewrite <- E1, <- E2. auto. Qed.
Lemma is_abs_candidate name e : is_abs e = true -> is_abs (candidate name e) = true.
Proof. destruct e; [discriminate|]. auto. Qed.

Lemma step_coherent s o : absolute_names stat access -> (forall d, o = OCd d -> Forall (fun e => is_abs e = true) (colon_list (sh_path s))) ->
  coherent stat access s -> coherent stat access (step stat access def_path s o).
Proof.
  intros AN HC CO. destruct o as [de name fl|p| |d|name|name|]; cbn [step].
  - eapply updated_coherent; [apply findcom_updates|auto].
  - intros n q. cbn. rewrite tfind_flush. destruct (tfind (sh_tal s) n) as [[?|]|]; discriminate.
  - intros n q. cbn. rewrite tfind_flush. destruct (tfind (sh_tal s) n) as [[?|]|]; discriminate.
  - specialize (HC d eq_refl). intros n q. cbn. rewrite tfind_flush. destruct (tfind (sh_tal s) n) as [[q'|]|] eqn:E; try discriminate.
    cbn. destruct (is_abs q') eqn:IA; [|discriminate]. intros [= <-]. apply CO in E as [(I & -> & Q)|(N & b & dir & l & E1 & -> & Q & F)].
    + left. split; auto. split; auto. eapply qualifies_move; eauto.
    + right. split; auto. exists b, dir, l. split; auto. split; auto. split; [eapply qualifies_move; eauto|]. intros dir' I' Q'. apply (F dir' I').
      eapply qualifies_move; eauto. apply is_abs_candidate. rewrite Forall_forall in HC. apply HC. rewrite E1. apply in_app_iff. now left.
  - intros n q. cbn. rewrite tfind_tset. destruct (str_eqb_spec name n) as [->|]; [|apply CO]. intros [= H]. now apply srch_ok.
  - intros n q H. cbn in H. apply tfind_del in H. now apply CO in H.
  - intros n q. discriminate.
Qed.
Lemma step_usable s o : absolute_names stat access -> usable stat access s -> usable stat access (step stat access def_path s o).
Proof.
  intros AN CO. destruct o as [de name fl|p| |d|name|name|]; cbn [step].
  - eapply updated_usable; [apply findcom_updates|auto].
  - intros n q. cbn. rewrite tfind_flush. destruct (tfind (sh_tal s) n) as [[?|]|]; discriminate.
  - intros n q. cbn. rewrite tfind_flush. destruct (tfind (sh_tal s) n) as [[?|]|]; discriminate.
  - intros n q. cbn. rewrite tfind_flush. destruct (tfind (sh_tal s) n) as [[q'|]|] eqn:E; try discriminate.
    cbn. destruct (is_abs q') eqn:IA; [|discriminate]. intros [= <-]. apply CO in E. eapply qualifies_move; eauto.
  - intros n q. cbn. rewrite tfind_tset. destruct (str_eqb_spec name n) as [->|]; [|apply CO]. intros [= H]. apply srch_ok in H. now apply first_in_qualifies in H.
  - intros n q H. cbn in H. apply tfind_del in H. now apply CO in H.
  - intros n q. discriminate.
Qed.
End P.
