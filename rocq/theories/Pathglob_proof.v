(** Proofs about pathname expansion. *)
From Verif Require Import Base Glob_model Glob_spec Glob_proof XString_model Pathglob_model Pathglob_spec.
From Verif Require Table_model Table_spec Table_proof.
From Coq Require Import Sorting.Sorted Sorting.Permutation Lia.
Local Open Scope nat_scope.

(** * The string never overflows *)
Definition xok (x : xstr) : Prop := xalloc x = xlen x + 8.
(** [x'] is [x] with more text, perhaps in a larger string. *)
Definition grown (x x' : xstr) : Prop := xok x' /\ xlen x <= xlen x' /\ exists t, xtext x' = xtext x ++ t.
Lemma grown_refl x : xok x -> grown x x.
Proof. intros H. split; [exact H|]. split; [lia|]. exists []. now rewrite app_nil_r. Qed.
Lemma grown_trans a b c : grown a b -> grown b c -> grown a c.
Proof.
  intros [_ [L1 [t1 E1]]] [K [L2 [t2 E2]]]. split; [exact K|]. split; [lia|]. exists (t1 ++ t2). rewrite E2, E1. now rewrite app_assoc.
Qed.
Lemma xput_ok c x : xok x -> length (xtext x) <= xlen x + 7 ->
  exists x', xput c x = Some x' /\ xtext x' = xtext x ++ [c] /\ xlen x' = xlen x /\ xok x'.
Proof.
  intros K H. unfold xok in *. unfold xput. destruct (Nat.ltb_spec (length (xtext x)) (xalloc x)); [|lia].
  eexists. split; [reflexivity|]. cbn. auto.
Qed.
Lemma xcheckn_ok n x : xok x -> xok (xcheckn n x) /\ xtext (xcheckn n x) = xtext x /\ xlen x <= xlen (xcheckn n x) /\
  length (xtext x) + n <= xlen (xcheckn n x).
Proof.
  intros K. unfold xcheckn. destruct (Nat.ltb_spec (xlen x) (length (xtext x) + n)).
  - unfold xgrow, xok. cbn. repeat split; try reflexivity; lia.
  - repeat split; try assumption; lia.
Qed.
Lemma xputs_ok t : forall x, xok x -> length (xtext x) + length t <= xlen x + 8 ->
  exists x', xputs t x = Some x' /\ xtext x' = xtext x ++ t /\ xlen x' = xlen x /\ xok x'.
Proof.
  induction t as [|c t IH]; intros x K H; cbn [xputs length] in *.
  - exists x. rewrite app_nil_r. auto.
  - destruct (xput_ok c x K) as [x1 [E [T [Ln K1]]]]; [lia|]. rewrite E.
    destruct (IH x1 K1) as [x2 [E2 [T2 [Ln2 K2]]]]. { rewrite T, app_length, Ln. cbn. lia. }
    exists x2. rewrite E2, T2, T, <- app_assoc. cbn. repeat split; auto. congruence.
Qed.

(** * The same without the string *)
Definition pend (fs : fsys) (ck : gflags) (p : cstr) : list cstr :=
  if exch ck || (markdir ck && globbed ck) then
    match lstat fs p with
    | None => []
    | Some t =>
      let dir := match t with FDir => true | FLink => is_dir (stat fs p) | FOther => false end in
      if exch ck && negb (empty p) && last_is "/" p && negb dir then []
      else if markdir ck && globbed ck && negb (empty p) && negb (last_is "/" p) && dir then [p ++ L "/"]
      else [p]
    end
  else [p].
Fixpoint strip (sp : cstr) : cstr * cstr :=
  match sp with
  | c :: r => if ceq c "/" then let '(a, b) := strip r in (c :: a, b) else ([], sp)
  | [] => ([], [])
  end.
Fixpoint peach (rec : cstr -> option (list cstr)) (p pre : cstr) (names : list cstr) : option (list cstr) :=
  match names with
  | [] => Some []
  | nm :: names =>
    match skipped nm p with
    | None => None
    | Some true => peach rec p pre names
    | Some false =>
      match rec (pre ++ nm) with
      | None => None
      | Some a => match peach rec p pre names with None => None | Some b => Some (a ++ b) end
      end
    end
  end.
Fixpoint pg (fuel : nat) (fs : fsys) (pre : cstr) (sp : option cstr) (ck : gflags) : option (list cstr) :=
  match fuel with
  | O => None
  | S fuel =>
    match sp with
    | None => Some (pend fs ck pre)
    | Some sp =>
      let '(sl, sp) := strip sp in
      let pre := (if empty pre then [] else pre ++ L "/") ++ sl in
      let '(p, np) := cut sp in
      if negb (has_globbing p) then pg fuel fs (pre ++ debunk p) np ck
      else match readdir fs (if empty pre then L "." else pre) with
           | None => Some []
           | Some names => peach (fun pre => pg fuel fs pre np (GF (match np with Some _ => true | None => false end) true (markdir ck))) p pre names
           end
    end
  end.

Definition agrees (x : xstr) (r : gres) (o : option (list cstr)) : Prop :=
  match o with
  | None => r = GFuel
  | Some l => exists x', r = GOk x' l /\ grown x x'
  end.
Lemma at_end_ok fs ck x : xok x -> length (xtext x) < xlen x -> agrees x (at_end fs ck x) (Some (pend fs ck (xtext x))).
Proof.
  intros K H. unfold at_end, pend, agrees. pose proof (grown_refl x K) as G.
  destruct (exch ck || markdir ck && globbed ck); [|eauto]. destruct (lstat fs (xtext x)) as [t|]; [|eauto].
  cbv zeta. destruct (exch ck && negb (empty (xtext x)) && last_is "/" (xtext x) && negb _); [eauto|].
  destruct (markdir ck && globbed ck && negb (empty (xtext x)) && negb (last_is "/" (xtext x)) && _); [|eauto].
  destruct (xput_ok "/" x K) as [x1 [E [T [Ln K1]]]]; [lia|]. rewrite E.
  destruct (xput_ok NUL x1 K1) as [x2 [E2 _]]. { rewrite T, app_length. cbn. lia. }
  rewrite E2, T. exists x1. split; [reflexivity|]. split; [exact K1|]. split; [lia|]. eauto.
Qed.
Lemma slashes_ok sp : forall x, xok x -> length (xtext x) <= xlen x ->
  exists x', slashes x sp = Some (x', snd (strip sp)) /\ xtext x' = xtext x ++ fst (strip sp) /\ xlen x <= xlen x' /\ xok x' /\ length (xtext x') <= xlen x'.
Proof.
  induction sp as [|c r IH]; intros x K H; cbn [slashes strip].
  - exists x. cbn. rewrite app_nil_r. auto.
  - destruct (ceq c "/").
    + destruct (xcheckn_ok 1 x K) as [K1 [T1 [L1 M1]]].
      destruct (xput_ok c (xcheckn 1 x) K1) as [x2 [E2 [T2 [L2 K2]]]]. { rewrite T1. lia. }
      rewrite E2. destruct (IH x2 K2) as [x3 [E3 [T3 [L3 [K3 M3]]]]]. { rewrite T2, T1, app_length, L2. cbn. lia. }
      destruct (strip r) as [a b]. cbn [fst snd] in *. exists x3. split; [exact E3|]. split; [|split; [lia|auto]].
      rewrite T3, T2, T1, <- app_assoc. reflexivity.
    + exists x. cbn. rewrite app_nil_r. auto.
Qed.
Lemma debunk_len : forall n p, length p <= n -> length (debunk p) <= length p.
Proof.
  induction n as [|n IH]; intros [|c r] H; cbn [length] in H; try (cbn; lia). cbn [debunk]. destruct (ismagic c).
  - destruct r as [|d r']; [cbn; lia|]. cbn [length] in H. specialize (IH r' ltac:(lia)).
    destruct (is_ext d); [destruct (ceq (low7 d) " ")|]; cbn [length app]; lia.
  - specialize (IH r ltac:(lia)). cbn [length]. lia.
Qed.
Lemma each_ok rec prec p pre :
  (forall x, xok x -> length (xtext x) < xlen x -> agrees x (rec x) (prec (xtext x))) ->
  forall names x, xok x -> xtext x = pre -> length pre <= xlen x ->
  agrees x (each rec p (length pre) x names) (peach prec p pre names).
Proof.
  intros R. induction names as [|nm names IH]; intros x K T Ln; cbn [each peach].
  - exists x. split; [reflexivity|]. now apply grown_refl.
  - destruct (skipped nm p) as [[|]|]; [now apply IH| |reflexivity].
    destruct (xcheckn_ok (S (length nm)) x K) as [K1 [T1 [L1 M1]]].
    destruct (xputs_ok nm (xcheckn (S (length nm)) x) K1) as [x2 [E2 [T2 [L2 K2]]]]. { rewrite T1. lia. }
    rewrite E2. destruct (xput_ok NUL x2 K2) as [x3 [E3 _]]. { rewrite T2, T1, app_length, L2. lia. }
    rewrite E3. assert (Q : length (xtext x2) < xlen x2) by (rewrite T2, T1, app_length, L2; lia).
    specialize (R x2 K2 Q). rewrite T2, T1, T in R. destruct (prec (pre ++ nm)) as [a|]; cbn [agrees] in R; [|now rewrite R].
    destruct R as [x4 [E4 [K4 [L4 [t4 T4]]]]]. rewrite E4.
    assert (Tb : xtext (xback (length pre) x4) = pre).
    { cbn [xback xtext]. rewrite T4, T2, T1, T, <- app_assoc, firstn_app, firstn_all, Nat.sub_diag. cbn. apply app_nil_r. }
    specialize (IH (xback (length pre) x4) K4 Tb). cbn [xback xlen] in IH. specialize (IH ltac:(lia)).
    destruct (peach prec p pre names) as [b|]; cbn [agrees] in IH |- *; [|now rewrite IH].
    destruct IH as [x5 [E5 [K5 [L5 [t5 T5]]]]]. unfold xback in E5. unfold xback. rewrite E5. exists x5. split; [reflexivity|].
    split; [exact K5|]. unfold xback in L5. cbn [xlen] in L5. split; [lia|]. exists t5. rewrite T5, Tb. now rewrite T.
Qed.
Lemma globit_ok fuel : forall fs x sp ck, xok x -> length (xtext x) < xlen x ->
  agrees x (globit fuel fs x sp ck) (pg fuel fs (xtext x) sp ck).
Proof.
  induction fuel as [|fuel IH]; intros fs x sp ck K H; [reflexivity|]. cbn [globit pg].
  destruct sp as [sp|]; [|now apply at_end_ok].
  assert (S0 : exists x0, (if empty (xtext x) then Some x else xput "/" x) = Some x0 /\
    xtext x0 = (if empty (xtext x) then [] else xtext x ++ L "/") /\ xlen x0 = xlen x /\ xok x0 /\ length (xtext x0) <= xlen x0 /\ grown x x0).
  { destruct (xtext x) as [|c0 r0] eqn:E; cbn [empty].
    - exists x. rewrite E. repeat split; auto. { cbn. lia. } exists []. rewrite E. reflexivity.
    - destruct (xput_ok "/" x K) as [x1 [E1 [T1 [L1 K1]]]]. { rewrite E. lia. }
      exists x1. rewrite T1, E. split; [exact E1|]. split; [reflexivity|]. split; [exact L1|]. split; [exact K1|].
      split; [rewrite app_length, L1; cbn [length] in *; lia|]. split; [exact K1|]. split; [lia|]. exists (L "/"). now rewrite T1, E. }
  destruct S0 as [x0 [E0 [T0 [L0 [K0 [M0 G0]]]]]]. rewrite E0.
  destruct (slashes_ok sp x0 K0 M0) as [x1 [E1 [T1 [L1 [K1 M1]]]]]. rewrite E1.
  assert (G1 : grown x x1). { eapply grown_trans; [exact G0|]. split; [exact K1|]. split; [exact L1|]. eauto. }
  destruct (strip sp) as [sl sp1]. cbn [fst snd] in *. rewrite <- T0. rewrite <- T1.
  destruct (cut sp1) as [p np]. destruct (negb (has_globbing p)).
  - cbv zeta. destruct (xcheckn_ok (S (length p)) x1 K1) as [K2 [T2 [L2 M2]]]. rewrite T2.
    destruct (Nat.ltb_spec (xlen (xcheckn (S (length p)) x1)) (length (xtext x1) + S (length p))); [lia|].
    pose proof (debunk_len (length p) p ltac:(lia)) as D.
    destruct (xputs_ok (debunk p) (xcheckn (S (length p)) x1) K2) as [x3 [E3 [T3 [L3 K3]]]]. { rewrite T2. lia. }
    rewrite E3. destruct (xput_ok NUL x3 K3) as [x4 [E4 _]]. { rewrite T3, T2, app_length, L3. lia. }
    rewrite E4. assert (Q : length (xtext x3) < xlen x3) by (rewrite T3, T2, app_length, L3; lia).
    specialize (IH fs x3 np ck K3 Q). rewrite T3, T2 in IH. destruct (pg fuel fs (xtext x1 ++ debunk p) np ck); cbn [agrees] in *; [|exact IH].
    destruct IH as [x5 [E5 G5]]. exists x5. split; [exact E5|]. eapply grown_trans; [exact G1|]. eapply grown_trans; [|exact G5].
    split; [exact K3|]. split; [lia|]. exists (debunk p). now rewrite T3, T2.
  - destruct (xput_ok NUL x1 K1) as [x4 [E4 _]]; [lia|]. rewrite E4.
    destruct (readdir fs _) as [names|]; [|cbn; eauto].
    pose proof (each_ok (fun x => globit fuel fs x np (GF (match np with Some _ => true | None => false end) true (markdir ck)))
       (fun pre => pg fuel fs pre np (GF (match np with Some _ => true | None => false end) true (markdir ck))) p (xtext x1)
       ltac:(intros; now apply IH) names x1 K1 eq_refl M1) as Q.
    destruct (peach _ p (xtext x1) names) as [l|]; cbn [agrees] in *; [|exact Q].
    destruct Q as [x5 [E5 G5]]. exists x5. split; [exact E5|]. eapply grown_trans; eauto.
Qed.
Lemma glob_str_ok fs md cp :
  agrees (xinit 256) (glob_str fs md cp) (pg (S (S (length cp))) fs [] (Some cp) (GF false false md)).
Proof. apply (globit_ok _ fs (xinit 256)); [reflexivity|]. cbn. lia. Qed.

(** * Paths *)
Lemma strip_slashes n t : match t with c :: _ => ceq c "/" = false | [] => True end -> strip (repeat "/"%char n ++ t) = (repeat "/"%char n, t).
Proof.
  intros H. induction n as [|n IH]; cbn [repeat app strip].
  - destruct t as [|c t]; [reflexivity|]. cbn [strip]. now rewrite H.
  - change (ceq "/" "/") with true. cbn iota. now rewrite IH.
Qed.
Lemma cut_app t r : ~ In "/"%char t -> cut (t ++ r) = (t ++ fst (cut r), snd (cut r)).
Proof.
  induction t as [|c t IH]; intros H; cbn [app cut].
  - now destruct (cut r).
  - destruct (ceq_spec c "/") as [->|_]; [destruct H; now left|]. rewrite IH; [reflexivity|]. intros X. apply H. now right.
Qed.
Definition enc_rest (p : path) : option cstr := match p with [] => None | _ => Some (enc_path p) end.
Lemma enc_path_cons n c p : enc_path ((n, c) :: p) = repeat "/"%char n ++ enc_comp c ++ match p with [] => [] | _ => "/"%char :: enc_path p end.
Proof. destruct p; [cbn; now rewrite app_nil_r|reflexivity]. Qed.
Lemma cut_enc c p : ~ In "/"%char (enc_comp c) ->
  cut (enc_comp c ++ match p with [] => [] | _ => "/"%char :: enc_path p end) = (enc_comp c, enc_rest p).
Proof. intros H. rewrite cut_app by exact H. destruct p as [|x p]; cbn; now rewrite app_nil_r. Qed.
Lemma strip_enc n c p : ~ In "/"%char (enc_comp c) -> (enc_comp c = [] -> p = []) ->
  strip (enc_path ((n, c) :: p)) = (repeat "/"%char n, enc_comp c ++ match p with [] => [] | _ => "/"%char :: enc_path p end).
Proof.
  intros H1 H2. rewrite enc_path_cons. apply strip_slashes. destruct (enc_comp c) as [|d t] eqn:E; cbn [app].
  - rewrite H2 by reflexivity. exact I.
  - apply ceq_false. intros ->. apply H1. now left.
Qed.

(** Text *)
Lemma low_not_ext c : (ccode c < 128)%Z -> is_ext c = false.
Proof. intros H. unfold is_ext, high. destruct (Z.leb_spec 128 (ccode c)); [lia|reflexivity]. Qed.
Lemma debunk_text t : ok_text t -> debunk (enc_comp (CText t)) = map snd t.
Proof.
  induction t as [|[m c] t IH]; [reflexivity|]. intros [_ [_ [H H']]]. cbn [enc_comp map concat fst snd] in *. destruct m; cbn [mbyte app].
  - cbn [debunk]. change (ismagic MAGIC) with true. cbn iota. rewrite low_not_ext by apply H. now rewrite IH.
  - cbn [debunk]. unfold ismagic. apply ceq_false in H. rewrite H. now rewrite IH.
Qed.
(** in an open bracket that is not closed *)
Lemma gs_in_text t : ok_text t -> ~ In (true, "]"%char) t -> forall n saw, gs (enc_comp (CText t)) n saw true = false.
Proof.
  induction t as [|[m c] t IH]; intros H N n saw.
  - unfold gs. cbn. now rewrite andb_false_r.
  - destruct H as [_ [_ [H H']]]. assert (N' : ~ In (true, "]"%char) t) by (intros X; apply N; now right).
    cbn [enc_comp map concat fst snd]. destruct m; cbn [mbyte app].
    + destruct (ceq_spec c "|") as [->|Nb]. { unfold gs. cbn [length]. cbn [glob_scan]. reflexivity. }
      destruct (ceq_spec c ")") as [->|Nc]. { unfold gs. cbn [length]. cbn [glob_scan]. reflexivity. }
      destruct (ceq_spec c "]") as [->|Nd]; [destruct N; now left|].
      apply ceq_false in Nb, Nc, Nd. destruct H as [H1 [H2 [H3 _]]]. apply ceq_false in H1, H2.
      assert (P : gs (MAGIC :: c :: concat (map (fun p => mbyte (fst p) (snd p)) t)) n saw true = gs (enc_comp (CText t)) n saw true).
      { apply gs_pass; try assumption; try apply andb_false_r; rewrite ?H1, ?H2, ?Nd; auto using low_not_ext. }
      rewrite P. now apply IH.
    + apply ceq_false in H. unfold ismagic in *. rewrite gs_raw; [|unfold ismagic; exact H]. now apply IH.
Qed.
Lemma gs_paren0 r saw : gs (MAGIC :: ")"%char :: r) 0 saw false = gs r 0 saw false.
Proof. unfold gs. cbn [length]. rewrite glob_magic. apply glob_fuel; lia. Qed.
Lemma gs_text t : ok_text t -> gs (enc_comp (CText t)) 0 false false = false.
Proof.
  induction t as [|[m c] t IH]; intros H; [reflexivity|].
  destruct H as [_ [_ [H H']]]. specialize (IH H'). cbn [enc_comp map concat fst snd] in *. destruct m; cbn [mbyte app].
  - destruct H as [H1 [H2 [H3 H4]]]. destruct (ceq_spec c "[") as [->|Na].
    { rewrite gs_open. cbv zeta. specialize (H4 eq_refl). pose proof (gs_in_text t H' H4) as Q.
      change (concat (map (fun p => mbyte (fst p) (snd p)) t)) with (enc_comp (CText t)).
      assert (NB : forall u, ok_text u -> ~ In (true, "]"%char) u -> ismagic (at_ (enc_comp (CText u)) 0) && ceq (at_ (enc_comp (CText u)) 1) "]" = false).
      { intros [|[m c] u] Hu Nu; [reflexivity|]. cbn [enc_comp map concat fst snd]. destruct Hu as [_ [_ [Hu _]]]. destruct m; cbn [mbyte app].
        - unfold at_. cbn [nth]. destruct (ceq_spec c "]") as [->|_]; [destruct Nu; now left|apply andb_false_r].
        - unfold at_. cbn [nth]. unfold ismagic. apply ceq_false in Hu. now rewrite Hu. }
      destruct (ismagic (at_ (enc_comp (CText t)) 0) && ceq (at_ (enc_comp (CText t)) 1) "!") eqn:B.
      - destruct t as [|[[|] c] t].
        + discriminate B.
        + unfold at_ in B. cbn [enc_comp map concat fst snd mbyte app nth] in B. destruct (ceq_spec c "!") as [->|]; [|rewrite andb_false_r in B; discriminate].
          cbn [enc_comp map concat fst snd mbyte app skipn]. destruct H' as [_ [_ [_ H']]].
          assert (N' : ~ In (true, "]"%char) t) by (intros X; apply H4; now right).
          specialize (NB t H' N'). cbn [enc_comp] in NB. rewrite NB. apply (gs_in_text t H' N').
        + destruct H' as [_ [_ [H' _]]]. unfold at_, ismagic in B. cbn [enc_comp map concat fst snd mbyte app nth] in B. apply ceq_false in H'. rewrite H' in B. discriminate B.
      - rewrite NB by assumption. apply Q. }
    destruct (ceq_spec c ")") as [->|Nc]; [rewrite gs_paren0; exact IH|].
    destruct (ceq_spec c "|") as [->|Nb]; [rewrite gs_bar; exact IH|].
    apply ceq_false in H1, H2, Na, Nb, Nc. rewrite gs_pass; [exact IH| | | | | |]; rewrite ?H1, ?H2, ?Na; auto using andb_false_r, low_not_ext.
  - apply ceq_false in H. rewrite gs_raw; [exact IH|exact H].
Qed.
Lemma globbing_text t : ok_text t -> has_globbing (enc_comp (CText t)) = false.
Proof. intros H. change (has_globbing (enc_comp (CText t))) with (gs (enc_comp (CText t)) 0 false false). now apply gs_text. Qed.
Lemma globbing_pat q : ok_seq q -> some_glob q -> has_globbing (enc_comp (CPat q)) = true.
Proof.
  intros H G. cbn [enc_comp]. rewrite has_globbing_ok by exact H. clear H. induction q as [|e q IH]; [destruct G|].
  cbn [glob_seq]. destruct e; cbn [glob_elt some_glob orb] in *; auto.
Qed.

(** Names *)
Definition picked (q : pseq) (nm : cstr) : Prop :=
  nm <> L "." /\ nm <> L ".." /\ (forall r, nm = "."%char :: r -> starts_dot q) /\ lang_seq q nm.
Lemma first_dot q : ok_seq q -> ceq (at_ (enc_seq q) 0) "." = true <-> starts_dot q.
Proof.
  intros H. split.
  - destruct q as [|e q]; [discriminate|]. cbn [enc_seq]. destruct e as [m c| | |b|o a]; cbn [enc_elt app]; try (intros X; discriminate X).
    destruct m; cbn [mbyte app]; [intros X; discriminate X|]. unfold at_. cbn [nth]. intros X. apply ceq_true in X. subst c. now exists q.
  - intros [q' ->]. reflexivity.
Qed.
Lemma skipped_ok q nm : ok_seq q -> some_glob q -> exists b, skipped nm (enc_seq q) = Some b /\ (b = false <-> picked q nm).
Proof.
  intros H G. unfold skipped, picked.
  destruct (str_eqb nm (L ".")) eqn:E1. { apply str_eqb_true in E1. subst nm. exists true. split; [reflexivity|]. split; [discriminate|]. intros [X _]. now destruct X. }
  destruct (str_eqb nm (L "..")) eqn:E2. { apply str_eqb_true in E2. subst nm. exists true. split; [reflexivity|]. split; [discriminate|]. intros [_ [X _]]. now destruct X. }
  assert (N1 : nm <> L ".") by (intros ->; discriminate E1). assert (N2 : nm <> L "..") by (intros ->; discriminate E2). cbn [orb].
  destruct (ceq (at_ nm 0) "." && negb (ceq (at_ (enc_seq q) 0) ".")) eqn:E3.
  { exists true. split; [reflexivity|]. split; [discriminate|]. intros [_ [_ [X _]]]. apply andb_prop in E3. destruct E3 as [A B]. apply negb_true_iff in B.
    destruct nm as [|c r]; [discriminate A|]. unfold at_ in A. cbn [nth] in A. apply ceq_true in A. subst c.
    specialize (X r eq_refl). apply (first_dot q H) in X. congruence. }
  pose proof (gmatch_ok q nm H) as [b [Q1 Q2]]. unfold gmatch in Q1. pose proof (globbing_pat q H G) as HG. cbn [enc_comp] in HG. rewrite HG in Q1.
  unfold file_match. rewrite Q1. exists (negb b). split; [reflexivity|]. split.
  - intros X. apply negb_false_iff in X. subst b. repeat split; auto.
    + intros r ->. apply (first_dot q H). unfold at_ in E3 at 1. cbn [nth] in E3. change (ceq "." ".") with true in E3. now apply negb_false_iff in E3.
    + now apply Q2.
  - intros [_ [_ [_ X]]]. apply Q2 in X. now subst b.
Qed.

(** The flags at the end. *)
Fixpoint after (ck : gflags) (p : path) : gflags :=
  match p with
  | [] => ck
  | (_, CText _) :: p => after ck p
  | (_, CPat _) :: p => after (GF (match p with [] => false | _ => true end) true (markdir ck)) p
  end.
(** [t] goes on after a name. *)
Definition tail_of (t : cstr) : Prop := t = [] \/ exists r, t = "/"%char :: r.
Lemma walks_tail fs pre p u : walks fs pre p u -> pre <> [] -> exists t, u = pre ++ t /\ tail_of t.
Proof.
  induction 1 as [pre|pre n c p nm r N W IH]; intros P.
  - exists []. rewrite app_nil_r. split; [reflexivity|now left].
  - destruct pre as [|d pre]; [easy|]. cbn [empty] in IH. destruct IH as [t [-> T]]; [discriminate|].
    exists (L "/" ++ repeat "/"%char n ++ nm ++ t). split; [rewrite <- !app_assoc; reflexivity|]. right. eexists. reflexivity.
Qed.
Lemma pend_tail fs ck u s : In s (pend fs ck u) -> s = u \/ s = u ++ L "/".
Proof.
  unfold pend. destruct (exch ck || markdir ck && globbed ck); [|intros [<-|[]]; auto]. destruct (lstat fs u); [|intros []].
  cbv zeta. destruct (exch ck && negb (empty u) && last_is "/" u && negb _); [intros []|].
  destruct (markdir ck && globbed ck && negb (empty u) && negb (last_is "/" u) && _); intros [<-|[]]; auto.
Qed.
Lemma pend_nodup fs ck u : NoDup (pend fs ck u).
Proof.
  unfold pend. assert (N : forall s : cstr, NoDup [s]) by (intros; constructor; [intros []|constructor]).
  destruct (exch ck || markdir ck && globbed ck); [|apply N]. destruct (lstat fs u); [|constructor]. cbv zeta.
  destruct (exch ck && negb (empty u) && last_is "/" u && negb _); [constructor|].
  destruct (markdir ck && globbed ck && negb (empty u) && negb (last_is "/" u) && _); apply N.
Qed.
Lemma cut_unique a b t t' : ~ In "/"%char a -> ~ In "/"%char b -> tail_of t -> tail_of t' -> a ++ t = b ++ t' -> a = b.
Proof.
  revert b. induction a as [|c a IH]; intros [|d b] A B T T' E; cbn [app] in E; [reflexivity| | |].
  - destruct T as [->|[r ->]]; [discriminate E|]. injection E as <- _. destruct B. now left.
  - destruct T' as [->|[r ->]]; [discriminate E|]. injection E as -> _. destruct A. now left.
  - injection E as <- E. f_equal. apply (IH b); auto; intros X; [apply A|apply B]; now right.
Qed.

Lemma nodup_app {A} (a b : list A) : NoDup a -> NoDup b -> (forall x, In x a -> ~ In x b) -> NoDup (a ++ b).
Proof.
  induction 1 as [|x a N H IH]; intros B D; [exact B|]. cbn [app]. constructor.
  - rewrite in_app_iff. intros [X|X]; [contradiction|]. apply (D x); [now left|exact X].
  - apply IH; [exact B|]. intros y Y. apply D. now right.
Qed.
(** The results of a directory. *)
Lemma peach_ok q dir rec (Q : cstr -> cstr -> Prop) l : ok_seq q -> some_glob q -> Forall ok_name l -> NoDup l ->
  (forall nm, ok_name nm -> exists o, rec (dir ++ nm) = Some o /\ NoDup o /\ (forall s, In s o <-> Q nm s)) ->
  (forall nm s, ok_name nm -> Q nm s -> exists t, s = (dir ++ nm) ++ t /\ tail_of t) ->
  exists o, peach rec (enc_seq q) dir l = Some o /\ NoDup o /\
    (forall s, In s o <-> exists nm, In nm l /\ picked q nm /\ Q nm s).
Proof.
  intros H G F N R T. induction l as [|nm l IH]; cbn [peach].
  - exists []. split; [reflexivity|]. split; [constructor|]. intros s. split; [intros []|intros [nm [[] _]]].
  - inversion F; subst. inversion N; subst. destruct IH as [o2 [E2 [N2 I2]]]; auto.
    destruct (skipped_ok q nm H G) as [b [Eb Pb]]. rewrite Eb. destruct b.
    + exists o2. split; [exact E2|]. split; [exact N2|]. intros s. rewrite I2. split.
      * intros [n' [A B]]. exists n'. split; [now right|exact B].
      * intros [n' [[<-|A] [B C]]]; [apply Pb in B; discriminate|]. now exists n'.
    + destruct (R nm) as [o1 [E1 [N1 I1]]]; auto. rewrite E1, E2. exists (o1 ++ o2). split; [reflexivity|]. split.
      * apply nodup_app; auto. intros s A B. apply I1 in A. apply I2 in B. destruct B as [n' [B1 [_ B3]]].
        apply T in A; [|assumption]. assert (ON : ok_name n') by (rewrite Forall_forall in *; auto). apply T in B3; [|exact ON].
        destruct A as [t [-> Tt]]. destruct B3 as [t' [E Tt']]. rewrite <- !app_assoc in E. apply app_inv_head in E.
        assert (nm = n') by (apply (cut_unique nm n' t t'); auto; [apply H2|apply ON]). subst n'. contradiction.
      * intros s. rewrite in_app_iff, I1, I2. split.
        -- intros [A|[n' [A B]]]; [exists nm; split; [now left|]; split; [now apply Pb|exact A]|]. exists n'. split; [now right|exact B].
        -- intros [n' [[<-|A] [B C]]]; [now left|right; now exists n'].
Qed.

Lemma ok_rest n c p : ok_path ((n, c) :: p) -> p <> [] -> ok_path p.
Proof.
  intros [_ [F E]] N. split; [exact N|]. split; [now inversion F|].
  intros p1 m d p2 X Y. subst p. apply (E ((n, c) :: p1) m d p2); auto.
Qed.
Lemma pg_ok fs p : ok_fs fs -> forall fuel pre ck, ok_path p \/ p = [] -> length p < fuel -> 
  exists o, pg fuel fs pre (enc_rest p) ck = Some o /\ NoDup o /\
    (forall s, In s o <-> exists u, walks fs pre p u /\ In s (pend fs (after ck p) u)).
Proof.
  intros FS. induction p as [|[n c] p IH]; intros fuel pre ck H Ln.
  - destruct fuel as [|fuel]; [cbn in Ln; lia|]. exists (pend fs ck pre). split; [reflexivity|]. split; [apply pend_nodup|].
    intros s. cbn [after]. split; [intros X; exists pre; split; [constructor|exact X]|]. intros [u [W X]]. inversion W; subst. exact X.
  - destruct H as [H|]; [|discriminate]. destruct fuel as [|fuel]; [cbn in Ln; lia|]. cbn [length] in Ln.
    assert (R : ok_path p \/ p = []). { destruct p; [now right|left]. eapply ok_rest; [exact H|discriminate]. }
    destruct H as [_ [F E]]. inversion F as [|x y OC F']; subst x y. cbn [snd] in OC. destruct OC as [OC NS].
    cbn [enc_rest]. cbn [pg]. rewrite strip_enc; [|exact NS|]. 2:{ intros X. apply (E [] n c p eq_refl X). }
    cbv zeta. rewrite cut_enc by exact NS. destruct c as [t|q].
    + rewrite globbing_text by exact OC. cbn [negb]. rewrite debunk_text by exact OC.
      destruct (IH fuel (((if empty pre then [] else pre ++ L "/") ++ repeat "/"%char n) ++ map snd t) ck R ltac:(lia)) as [o [Eo [No Io]]].
      exists o. split; [exact Eo|]. split; [exact No|]. intros s. rewrite Io. cbn [after]. split.
      * intros [u [W X]]. exists u. split; [|exact X]. eapply walk_step; [|exact W]. reflexivity.
      * intros [u [W X]]. exists u. split; [|exact X]. inversion W; subst. match goal with N : names _ _ _ _ |- _ => cbn [names] in N; subst end. assumption.
    + destruct OC as [OQ SG]. rewrite globbing_pat by assumption. cbn [negb].
      set (dir := (if empty pre then [] else pre ++ L "/") ++ repeat "/"%char n).
      set (ck' := GF match enc_rest p with Some _ => true | None => false end true (markdir ck)).
      assert (Eck : ck' = GF match p with [] => false | _ => true end true (markdir ck)) by (unfold ck'; now destruct p).
      destruct (readdir fs (if empty dir then L "." else dir)) as [l|] eqn:RD.
      * destruct (FS _ _ RD) as [ND ON].
        destruct (peach_ok q dir (fun pre => pg fuel fs pre (enc_rest p) ck')
                    (fun nm s => exists u, walks fs (dir ++ nm) p u /\ In s (pend fs (after ck' p) u)) l OQ SG ON ND) as [o [Eo [No Io]]].
        { intros nm _. apply (IH fuel (dir ++ nm) ck' R ltac:(lia)). }
        { intros nm s On [u [W X]]. destruct (walks_tail _ _ _ _ W) as [t [-> Tt]]. { destruct On as [On _]. destruct dir, nm; auto; discriminate. }
          apply pend_tail in X. destruct X as [->| ->]; [eauto|]. exists (t ++ L "/"). split; [now rewrite !app_assoc|].
          right. destruct Tt as [->|[r ->]]; eexists; reflexivity. }
        exists o. split; [exact Eo|]. split; [exact No|]. intros s. rewrite Io. cbn [after]. rewrite <- Eck. split.
        -- intros [nm [A [B [u [W X]]]]]. exists u. split; [|exact X]. eapply walk_step; [|exact W]. split; [|exact B]. exists l. split; [exact RD|exact A].
        -- intros [u [W X]]. inversion W as [|? ? ? ? nm ? N W']; subst. destruct N as [[l' [A B]] C]. fold dir in A, W'.
           rewrite RD in A. injection A as <-. exists nm. split; [exact B|]. split; [exact C|]. now exists u.
      * exists []. split; [reflexivity|]. split; [constructor|]. intros s. split; [intros []|]. intros [u [W _]].
        inversion W as [|? ? ? ? nm ? N W']; subst. destruct N as [[l' [A B]] C]. fold dir in A. congruence.
Qed.

(** What the flags are. *)
Lemma after_md ck p : markdir (after ck p) = markdir ck.
Proof. revert ck. induction p as [|[n [t|q]] p IH]; intros ck; cbn [after]; [reflexivity|apply IH|]. rewrite IH. reflexivity. Qed.
Lemma after_globbed ck p : globbed (after ck p) = true <-> globbed ck = true \/ has_pat p.
Proof.
  revert ck. induction p as [|[n [t|q]] p IH]; intros ck; cbn [after].
  - split; [now left|]. intros [H|[x [[] _]]]; exact H.
  - rewrite IH. split; (intros [H|[x [H1 H2]]]; [now left|right]).
    + exists x. split; [now right|exact H2].
    + destruct H1 as [<-|H1]; [destruct H2|]. now exists x.
  - rewrite IH. cbn [globbed]. split; [intros _; right|now left]. exists (n, CPat q). split; [now left|exact I].
Qed.
Lemma last_pat_cons nc p : p <> [] -> last_pat (nc :: p) <-> last_pat p.
Proof.
  intros N. split; intros [p' [n [q E]]].
  - destruct p' as [|x p']; [injection E as _ E; contradiction|]. injection E as <- E. now exists p', n, q.
  - exists (nc :: p'), n, q. now rewrite E.
Qed.
Lemma after_exch ck p : exch (after ck p) = true <-> (has_pat p /\ ~ last_pat p) \/ (~ has_pat p /\ exch ck = true).
Proof.
  revert ck. induction p as [|[n [t|q]] p IH]; intros ck; cbn [after].
  - split; [intros H; right; split; [intros [x [[] _]]|exact H]|]. intros [[[x [[] _]] _]|[_ H]]; exact H.
  - assert (HP : has_pat ((n, CText t) :: p) <-> has_pat p).
    { split; intros [x [H1 H2]]; [destruct H1 as [<-|H1]; [destruct H2|]; now exists x|]. exists x. split; [now right|exact H2]. }
    assert (LP : last_pat ((n, CText t) :: p) <-> last_pat p).
    { destruct p as [|y p]; [|apply last_pat_cons; discriminate]. split; intros [p' [m [q E]]]; [destruct p' as [|? [|]]; discriminate|destruct p'; discriminate]. }
    rewrite IH, HP, LP. reflexivity.
  - assert (HP : has_pat ((n, CPat q) :: p)) by (exists (n, CPat q); split; [now left|exact I]).
    rewrite IH. cbn [exch]. destruct p as [|y p].
    + split; [intros [[[x [[] _]] _]|[_ X]]; discriminate X|]. intros [[_ X]|[X _]]; [|contradiction]. destruct X. exists [], n, q. reflexivity.
    + rewrite (last_pat_cons (n, CPat q) (y :: p)) by discriminate. split.
      * intros [[A B]|[A _]]; left; (split; [exact HP|]); [exact B|]. intros [p' [m [r E]]]. apply A. rewrite E. exists (m, CPat r). split; [apply in_app_iff; right; now left|exact I].
      * intros [[_ B]|[B _]]; [|contradiction]. destruct (after_globbed (GF false false false) (y :: p)) as [X Y]. 
        destruct (globbed (after (GF false false false) (y :: p))) eqn:G.
        -- left. split; [destruct (X eq_refl) as [Z|Z]; [discriminate Z|exact Z]|exact B].
        -- right. split; [|reflexivity]. intros Z. discriminate (Y (or_intror Z)).
Qed.
Lemma last_is_ok t : last_is "/" t = true <-> exists v, t = v ++ L "/".
Proof.
  unfold last_is. split.
  - destruct (rev t) as [|d r] eqn:E; [discriminate|]. intros H. apply ceq_true in H. subst d. exists (rev r).
    rewrite <- (rev_involutive t), E. reflexivity.
  - intros [v ->]. rewrite rev_app_distr. reflexivity.
Qed.
Lemma dir_ok fs u t : lstat fs u = Some t ->
  match t with FDir => true | FLink => is_dir (stat fs u) | FOther => false end = true <-> directory fs u.
Proof.
  intros H. unfold directory, is_dir. rewrite H. destruct t; (split; [|intros [X|[X Y]]; try discriminate; try rewrite Y; auto]).
  - intros _. now left.
  - destruct (stat fs u) as [[| |]|] eqn:S; try discriminate. intros _. right. auto.
  - discriminate.
Qed.
Lemma walks_grow fs pre p u : walks fs pre p u -> length pre <= length u.
Proof.
  induction 1 as [pre|pre n c p nm r N W IH]; [lia|]. rewrite !app_length in IH. destruct pre as [|d pre]; cbn [length]; [lia|].
  cbn [empty] in IH. rewrite app_length in IH. cbn [length] in *. lia.
Qed.
Lemma walks_pat fs pre p u : ok_fs fs -> walks fs pre p u -> has_pat p -> u <> [].
Proof.
  intros FS. induction 1 as [pre|pre n c p nm r N W IH]; intros [x [H1 H2]]; [destruct H1|].
  destruct H1 as [<-|H1]; [|apply IH; now exists x]. destruct c as [|q]; [destruct H2|].
  destruct N as [[l [RD I1]] _]. destruct (FS _ _ RD) as [_ ON]. rewrite Forall_forall in ON. destruct (ON _ I1) as [Ne _].
  apply walks_grow in W. rewrite !app_length in W. destruct nm as [|c nm]; [contradiction|]. cbn [length] in W. intros ->. cbn [length] in W. lia.
Qed.
Lemma pend_ok fs p md u s : ok_fs fs -> walks fs [] p u ->
  In s (pend fs (after (GF false false md) p) u) <->
  exists_ fs p u /\ (if md then (has_pat p -> lstat fs u <> None) /\
     ((has_pat p /\ directory fs u /\ (~ exists v, u = v ++ L "/") /\ s = u ++ L "/") \/
      (~ (has_pat p /\ directory fs u /\ ~ exists v, u = v ++ L "/") /\ s = u)) else s = u).
Proof.
  intros FS W. set (ck := after (GF false false md) p).
  assert (MD : markdir ck = md) by apply after_md.
  assert (GL : globbed ck = true <-> has_pat p).
  { unfold ck. rewrite after_globbed. cbn [globbed]. split; [intros [X|X]; [discriminate X|exact X]|now right]. }
  assert (EX : exch ck = true <-> has_pat p /\ ~ last_pat p).
  { unfold ck. rewrite after_exch. cbn [exch]. split; [intros [X|[_ X]]; [exact X|discriminate X]|now left]. }
  clearbody ck. unfold pend, exists_. rewrite MD. destruct (globbed ck) eqn:G.
  2:{ assert (NP : ~ has_pat p) by (intros X; apply GL in X; discriminate).
      destruct (exch ck) eqn:E; [destruct EX as [EX _]; destruct (EX eq_refl); contradiction|].
      rewrite andb_false_r. cbn [orb]. split.
      - intros [<-|[]]. split; [intros X; contradiction|]. destruct md; [|reflexivity]. split; [intros X; contradiction|]. right. split; [|reflexivity]. intros [X _]. contradiction.
      - intros [_ X]. destruct md; [destruct X as [_ [[X _]|[_ ->]]]; [contradiction|now left]|subst; now left]. }
  assert (HP : has_pat p) by now apply GL. pose proof (walks_pat _ _ _ _ FS W HP) as Ne.
  assert (Em : empty u = false) by (destruct u; [contradiction|reflexivity]). rewrite Em. cbn [negb]. rewrite ?andb_true_r.
  assert (LP : exch ck = false -> last_pat p \/ ~ ~ last_pat p).
  { intros E. right. intros X. destruct EX as [_ EX]. rewrite EX in E; [discriminate|]. now split. }
  assert (LD : last_pat p \/ ~ last_pat p).
  { destruct p as [|x p'] using rev_ind; [right; intros [p' [n [q E]]]; now destruct p'|]. destruct x as [n [t|q]].
    - right. intros [p1 [m [q E]]]. apply app_inj_tail in E. destruct E as [_ E]. discriminate.
    - left. now exists p', n, q. }
  assert (DL : last_is "/" u = true \/ (last_is "/" u = false /\ ~ exists v, u = v ++ L "/")).
  { destruct (last_is "/" u) eqn:X; [now left|right]. split; [reflexivity|]. intros Y. apply last_is_ok in Y. congruence. }
  destruct (lstat fs u) as [t|] eqn:LS.
  2:{ destruct (exch ck) eqn:E; cbn [orb].
      - split; [intros []|]. intros [X _]. destruct (proj1 EX eq_refl) as [_ E']. destruct (X HP) as [Y|[Y _]]; [contradiction|now destruct Y].
      - destruct md.
        + split; [intros []|]. intros [_ [X _]]. destruct (X HP). reflexivity.
        + split; [intros [<-|[]]|].
          * split; [|reflexivity]. intros _. left. destruct LD as [Y|Y]; [exact Y|]. discriminate (proj2 EX (conj HP Y)).
          * intros [_ ->]. now left. }
  pose proof (dir_ok fs u t LS) as DI. set (dir := match t with FDir => true | FLink => is_dir (stat fs u) | FOther => false end) in *. clearbody dir.
  assert (NN : Some t <> None) by discriminate.
  assert (XS : forall (b : bool), exch ck && last_is "/" u && negb dir = b ->
     (if b then ~ (last_pat p \/ (Some t <> None /\ forall u0, u = u0 ++ L "/" -> directory fs u))
      else last_pat p \/ (Some t <> None /\ forall u0, u = u0 ++ L "/" -> directory fs u))).
  { intros [|] E.
    - apply andb_prop in E. destruct E as [E E3]. apply andb_prop in E. destruct E as [E1 E2]. apply EX in E1. apply last_is_ok in E2. destruct E2 as [v E2].
      apply negb_true_iff in E3. intros [X|[_ X]]; [destruct E1; contradiction|]. specialize (X v E2). apply DI in X. congruence.
    - destruct LD as [Y|Y]; [now left|right]. split; [exact NN|]. intros v V. assert (E1 : exch ck = true) by (apply EX; auto).
      assert (E2 : last_is "/" u = true) by (apply last_is_ok; eauto). rewrite E1, E2 in E. cbn in E. apply negb_false_iff in E. now apply DI. }
  specialize (XS _ eq_refl).
  assert (Short : (exch ck || md = false -> exch ck = false /\ md = false)) by (destruct (exch ck), md; auto; discriminate).
  destruct (exch ck || md) eqn:EM.
  2:{ destruct (Short eq_refl) as [E1 E2]. clear MD. subst md. rewrite E1 in XS. cbn in XS. split; [intros [<-|[]]; split; auto|]. intros [_ ->]. now left. }
  destruct (exch ck && last_is "/" u && negb dir).
  - split; [intros []|]. intros [X _]. destruct (XS (X HP)).
  - destruct md; cbn [andb].
    + destruct DL as [DL|[DL DL']]; rewrite DL; cbn [negb andb].
      * apply last_is_ok in DL. split.
        -- intros [<-|[]]. split; [auto|]. split; [intros _; exact NN|]. right. split; [|reflexivity]. intros [_ [_ X]]. contradiction.
        -- intros [_ [_ [[_ [_ [X _]]]|[_ ->]]]]; [contradiction|now left].
      * destruct dir.
        -- assert (D : directory fs u) by now apply DI. split.
           ++ intros [<-|[]]. split; [auto|]. split; [intros _; exact NN|]. left. auto.
           ++ intros [_ [_ [[_ [_ [_ ->]]]|[X _]]]]; [now left|]. destruct X. auto.
        -- assert (D : ~ directory fs u) by (intros X; apply DI in X; discriminate). split.
           ++ intros [<-|[]]. split; [auto|]. split; [intros _; exact NN|]. right. split; [|reflexivity]. intros [_ [X _]]. contradiction.
           ++ intros [_ [_ [[_ [X _]]|[_ ->]]]]; [contradiction|now left].
    + split; [intros [<-|[]]; auto|]. intros [_ ->]. now left.
Qed.

(** * Sorting *)
Definition le_spec := Table_proof.str_le_spec (fun _ => 0%N).
Definition trich := Table_proof.str_trich.
Definition lt_trans := Table_proof.str_lt_trans (fun _ => 0%N).
Lemma ins_in s l x : In x (ins s l) <-> x = s \/ In x l.
Proof.
  induction l as [|y l IH]; cbn [ins]; [cbn; intuition|]. destruct (Table_model.str_le s y); [cbn; intuition|].
  cbn [In]. rewrite IH. intuition.
Qed.
Lemma sort_in l x : In x (sorted_of l) <-> In x l.
Proof. induction l as [|s l IH]; [reflexivity|]. cbn [sorted_of]. rewrite ins_in, IH. cbn. intuition. Qed.
Lemma ins_asc s l : ~ In s l -> ascending l -> ascending (ins s l).
Proof.
  intros N H. unfold ascending in *. induction H as [|y l H IH F]; cbn [ins]; [repeat constructor|].
  destruct (Table_model.str_le s y) eqn:E.
  - apply le_spec in E. destruct E as [->|E]; [destruct N; now left|]. constructor; [now constructor|].
    constructor; [exact E|]. eapply Forall_impl; [|exact F]. intros z Z. eapply lt_trans; eauto.
  - assert (E' : Table_spec.str_lt y s).
    { destruct (trich s y) as [X|[X|X]]; [|subst; destruct N; now left|exact X].
      rewrite (proj2 (le_spec s y)) in E; [discriminate|now right]. }
    constructor; [apply IH; intros X; apply N; now right|]. rewrite Forall_forall in *. intros z Z. apply ins_in in Z. destruct Z as [->|Z]; auto.
Qed.
Lemma sort_asc l : NoDup l -> ascending (sorted_of l).
Proof.
  induction 1 as [|s l N H IH]; [constructor|]. cbn [sorted_of]. apply ins_asc; [rewrite sort_in; exact N|exact IH].
Qed.

(** * The text of a word *)
Lemma debunk_app_raw a b : ~ In MAGIC a -> debunk (a ++ b) = a ++ debunk b.
Proof.
  induction a as [|c a IH]; intros H; [reflexivity|]. cbn [app debunk]. unfold ismagic.
  assert (E : ceq c MAGIC = false) by (apply ceq_false; intros ->; apply H; now left). rewrite E, IH; [reflexivity|]. intros X. apply H. now right.
Qed.
Lemma debunk_m c b : is_ext c = false -> debunk (MAGIC :: c :: b) = c :: debunk b.
Proof. intros H. cbn [debunk]. change (ismagic MAGIC) with true. cbn iota. now rewrite H. Qed.
Lemma debunk_mbyte (m : bool) c b : (if m then is_ext c = false else c <> MAGIC) -> debunk (mbyte m c ++ b) = c :: debunk b.
Proof.
  intros H. destruct m; cbn [mbyte app]; [now apply debunk_m|]. apply (debunk_app_raw [c] b). intros [X|[]]. now apply H.
Qed.
Lemma plain_not_ext c : plain_magic c = true -> is_ext c = false.
Proof. intros H. now destruct (pm_facts c H) as (_ & _ & _ & _ & E & _). Qed.
Lemma plain_b_not_ext c : plain_magic_b c = true -> is_ext c = false.
Proof.
  intros H. apply negb_true_iff. revert c H. apply (sweep_imp plain_magic_b (fun c => negb (is_ext c))). vm_compute. reflexivity.
Qed.
Lemma bchar_cond (m : bool) c : ok_bchar m c = true -> if m then is_ext c = false else c <> MAGIC.
Proof.
  unfold ok_bchar. intros H. apply andb_prop in H. destruct H as [_ H]. destruct m; [now apply plain_b_not_ext|].
  apply negb_true_iff in H. now apply ceq_false in H.
Qed.
Lemma debunk_items l rest b : ok_items l rest -> debunk (enc_items l ++ b) = concat (map text_item l) ++ debunk b.
Proof.
  induction l as [|i l IH]; intros H; [reflexivity|]. cbn [ok_items] in H. destruct H as [H H']. specialize (IH H').
  cbn [enc_items map concat]. rewrite <- !app_assoc. destruct i as [m c|m1 c m2 d|n]; cbn [enc_item text_item].
  - destruct H as [H _]. rewrite debunk_mbyte by now apply bchar_cond. now rewrite IH.
  - destruct H as [H1 [H2 _]]. rewrite <- !app_assoc, debunk_mbyte by now apply bchar_cond. cbn [app]. f_equal.
    rewrite debunk_m by reflexivity. f_equal. rewrite debunk_mbyte by now apply bchar_cond. now rewrite IH.
  - rewrite <- !app_assoc. cbn [app]. rewrite debunk_m by reflexivity. cbn [app L list_ascii_of_string]. f_equal.
    change (":"%char :: n ++ ":"%char :: MAGIC :: "]"%char :: enc_items l ++ b) with ((":"%char :: n) ++ ([":"%char] ++ MAGIC :: "]"%char :: enc_items l ++ b)).
    rewrite debunk_app_raw.
    + rewrite (debunk_app_raw [":"%char]) by (intros [X|[]]; discriminate X). rewrite debunk_m, IH by reflexivity. reflexivity.
    + intros [X|X]; [discriminate X|]. cbn in H. unfold class_names in H. cbn [In] in H.
      repeat (destruct H as [<-|H]; [cbn in X; repeat (destruct X as [X|X]; [discriminate X|]); exact X|]). exact H.
Qed.
Lemma debunk_bracket bk b : ok_bracket bk -> debunk (MAGIC :: "["%char :: enc_bracket bk ++ b) = text_bracket bk ++ debunk b.
Proof.
  intros (H1 & H2 & H3 & H4). rewrite debunk_m by reflexivity. unfold text_bracket, enc_bracket, enc_body. rewrite <- !app_assoc. cbn [L list_ascii_of_string app]. f_equal.
  assert (Body : debunk (enc_items (b_items bk) ++ (if b_trail bk then [MAGIC; "-"%char] else []) ++ [MAGIC; "]"%char] ++ b) =
    concat (map text_item (b_items bk)) ++ (if b_trail bk then L "-" else []) ++ L "]" ++ debunk b).
  { rewrite (debunk_items _ _ _ H4). f_equal. destruct (b_trail bk); cbn [app]; rewrite ?debunk_m by reflexivity; reflexivity. }
  assert (Lead : debunk (match b_lead bk with Some c => [MAGIC; c] | None => [] end ++ enc_items (b_items bk) ++ (if b_trail bk then [MAGIC; "-"%char] else []) ++ [MAGIC; "]"%char] ++ b) =
    match b_lead bk with Some c => [c] | None => [] end ++ concat (map text_item (b_items bk)) ++ (if b_trail bk then L "-" else []) ++ L "]" ++ debunk b).
  { destruct (b_lead bk) as [c|]; cbn [app]; [|exact Body]. rewrite debunk_m; [now rewrite <- Body|]. destruct H2 as [->|[->|[-> _]]]; reflexivity. }
  destruct (b_not bk); cbn [app]; [rewrite debunk_m by reflexivity; f_equal; exact Lead|exact Lead].
Qed.
Lemma debunk_pat :
  (forall x, ok_elt x -> forall b, debunk (enc_elt x ++ b) = text_elt x ++ debunk b) /\
  (forall q, ok_seq q -> forall b, debunk (enc_seq q ++ b) = text_seq q ++ debunk b) /\
  (forall a, ok_alts a -> forall b, debunk (enc_alts a ++ b) = text_alts a ++ debunk b).
Proof.
  apply pat_mutind.
  - intros m c H b. cbn [enc_elt text_elt ok_elt] in *. apply debunk_mbyte. unfold ok_lit in H. apply andb_prop in H. destruct H as [_ H].
    destruct m; [now apply plain_not_ext|]. apply negb_true_iff in H. now apply ceq_false in H.
  - intros _ b. reflexivity.
  - intros _ b. reflexivity.
  - intros bk H b. apply debunk_bracket, H.
  - intros o a IH H b. cbn [enc_elt text_elt app]. rewrite <- app_assoc, <- IH by exact H. destruct o; reflexivity.
  - intros _ b. reflexivity.
  - intros x IHx q IHq [H1 H2] b. cbn [enc_seq text_seq]. rewrite <- !app_assoc, IHx, IHq by assumption. reflexivity.
  - intros q IHq H b. cbn [enc_alts text_alts]. rewrite <- !app_assoc, IHq by assumption. f_equal.
  - intros q IHq a IHa [H1 H2] b. cbn [enc_alts text_alts]. rewrite <- !app_assoc, IHq by assumption. f_equal. cbn [app].
    rewrite debunk_m by reflexivity. cbn [app L list_ascii_of_string]. f_equal. apply IHa, H2.
Qed.
Lemma debunk_comp c b : ok_comp c -> debunk (enc_comp c ++ b) = text_comp c ++ debunk b.
Proof.
  intros [H _]. destruct c as [t|q]; cbn [enc_comp text_comp].
  - induction t as [|[m c] t IH]; [reflexivity|]. destruct H as [_ [_ [H H']]]. cbn [map concat fst snd]. rewrite <- app_assoc, debunk_mbyte.
    + cbn [app]. now rewrite IH.
    + destruct m; [apply low_not_ext; apply H|exact H].
  - apply (proj1 (proj2 debunk_pat)), H.
Qed.
Lemma debunk_path p : Forall (fun nc => ok_comp (snd nc)) p -> debunk (enc_path p) = text_path p.
Proof.
  induction p as [|[n c] p IH]; intros F; [reflexivity|]. inversion F as [|x y OC F']; subst. cbn [snd] in OC. specialize (IH F').
  rewrite enc_path_cons, debunk_app_raw. 2:{ intros X. apply repeat_spec in X. discriminate X. }
  rewrite debunk_comp by exact OC. destruct p as [|x p]; cbn [text_path].
  - cbn. now rewrite app_nil_r.
  - f_equal. f_equal. change ("/"%char :: enc_path (x :: p)) with (["/"%char] ++ enc_path (x :: p)). rewrite (debunk_app_raw ["/"%char]) by (intros [X|[]]; discriminate X). cbn [app]. f_equal. exact IH.
Qed.
Lemma path_len p : ok_path p -> length p <= S (length (enc_path p)).
Proof.
  intros [_ H]. clear H. induction p as [|[n c] p IH]; [cbn; lia|]. rewrite enc_path_cons, !app_length. destruct p as [|x p]; cbn [length] in *; lia.
Qed.

(** * Everything together *)
Lemma glob_ok fs md p : ok_fs fs -> ok_path p ->
  exists l, glob fs md (enc_path p) = Some l /\
    let M := if md then marked fs p else matches fs p in
    ((exists s, M s) -> ascending l /\ forall s, In s l <-> M s) /\
    (~ (exists s, M s) -> l = [text_path p]).
Proof.
  intros FS OP. unfold glob. pose proof (glob_str_ok fs md (enc_path p)) as G.
  destruct (pg_ok fs p FS (S (S (length (enc_path p)))) [] (GF false false md) (or_introl OP)) as [o [Eo [No Io]]].
  { pose proof (path_len p OP). lia. }
  assert (Er : enc_rest p = Some (enc_path p)) by (destruct p; [now destruct OP|reflexivity]). rewrite Er in Eo. rewrite Eo in G.
  cbn [agrees] in G. destruct G as [x' [G _]]. rewrite G.
  assert (Q : forall s, In s o <-> (if md then marked fs p else matches fs p) s).
  { intros s. rewrite Io. split.
    - intros [u [W X]]. apply (pend_ok fs p md u s FS W) in X. destruct X as [X Y]. destruct md; [|subst s; split; assumption].
      exists u. split; [split; assumption|]. exact Y.
    - destruct md.
      + intros [u [[W X] Y]]. exists u. split; [exact W|]. apply (pend_ok fs p true u s FS W). split; [exact X|exact Y].
      + intros [W X]. exists s. split; [exact W|]. apply (pend_ok fs p false s s FS W). split; [exact X|reflexivity]. }
  destruct o as [|s0 o].
  - eexists. split; [reflexivity|]. cbv zeta. split.
    + intros [s S]. apply Q in S. destruct S.
    + intros _. f_equal. apply debunk_path. apply OP.
  - eexists. split; [reflexivity|]. cbv zeta. split.
    + intros _. split; [now apply sort_asc|]. intros s. rewrite sort_in. apply Q.
    + intros N. destruct N. exists s0. apply Q. now left.
Qed.
