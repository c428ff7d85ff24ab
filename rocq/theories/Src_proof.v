(** Reading from the sources. *)
From Verif Require Import Base Src_model Src_spec.
Local Open Scope nat_scope.

Lemma is_nul_true : forall c, is_nul c = true <-> c = NUL.
Proof. intros c. unfold is_nul. apply ceq_true. Qed.
Lemma is_nul_false : forall c, is_nul c = false <-> c <> NUL.
Proof. intros c. unfold is_nul. apply ceq_false. Qed.
Lemma nuls_cons : forall c t, nuls_out (c :: t) <-> c <> NUL /\ nuls_out t.
Proof. intros c t. unfold nuls_out. cbn. intuition congruence. Qed.
Lemma nuls_app : forall a b, nuls_out (a ++ b) <-> nuls_out a /\ nuls_out b.
Proof. intros a b. unfold nuls_out. rewrite in_app_iff. tauto. Qed.
Lemma line_nuls : forall l, nuls_out (line_text l).
Proof. intros l H. unfold line_text in H. apply filter_In in H. destruct H as [_ H]. discriminate. Qed.

(** * The text and pending agree *)
Lemma words_pending : forall ws, ws <> [] ->
  fold_right (fun w r => w ++ match r with [] => [NL] | _ => SP :: r end) [] ws = words_text ws.
Proof.
  induction ws as [|w ws IH]; intros H; [contradiction|]. cbn [fold_right].
  destruct ws as [|w' ws]; [reflexivity|]. rewrite IH by discriminate.
  cbn [words_text]. f_equal. destruct ws; destruct w'; reflexivity.
Qed.
Lemma line_text_concat : forall ls, line_text (concat ls) = concat (map line_text ls).
Proof.
  induction ls as [|l ls IH]; [reflexivity|]. cbn. rewrite <- IH. apply filter_app.
Qed.
Lemma pending_text : forall st, pending st = text_of st.
Proof.
  induction st as [|[k b a fa fe] st IH]; [reflexivity|].
  cbn [pending kind after]. destruct k as [| |ls|ws|ws|n v|]; cbn [text_of]; rewrite ?app_nil_r; try reflexivity.
  - now rewrite line_text_concat.
  - destruct ws; [reflexivity|]. now rewrite words_pending.
  - destruct ws; [reflexivity|]. now rewrite words_pending.
  - now rewrite IH.
  - now rewrite IH.
Qed.

(** * Invariants *)
Definition bs : char := "\"%char.
(** The last character read being a backslash, it can be put back once more is read and put back. *)
Definition drained (s : src) : bool :=
  match after s with
  | [] => match kind s with
          | KAlias _ v => f_end s || ends_blank v
          | KReread => true
          | _ => false
          end
  | _ => false
  end.
Definition head_bs (b : cstr) : Prop := match b with [] => True | c :: _ => c = bs end.
Fixpoint after_bs (st : list src) : Prop :=
  match st with
  | [] => False
  | s :: st => head_bs (before s) /\ (drained s = true -> after_bs st \/ text_of st = [])
  end.
Definition content (s : src) : cstr := rev (before s) ++ after s.
Definition ends_bs (t : cstr) : Prop := exists u, t = u ++ [bs].
Definition based (s : src) : Prop :=
  match kind s with KAlias _ _ | KReread => False | _ => True end.
Definition kind_ok (k : skind) : Prop :=
  match k with
  | KWords ws | KWordSep ws => Forall nuls_out ws
  | _ => True
  end.
Definition upper_ok (s : src) (st : list src) : Prop :=
  match kind s with
  | KReread => ends_bs (content s) -> after_bs st \/ text_of st = []
  | KAlias _ v => if f_end s then length (content s) = 1 /\ (ends_bs (content s) -> after_bs st \/ text_of st = [])
                  else content s = v
  | _ => False
  end.
Fixpoint wf (st : list src) : Prop :=
  match st with
  | [] => False
  | s :: st => nuls_out (after s) /\ nuls_out (before s) /\ kind_ok (kind s) /\
               (based s \/ (upper_ok s st /\ wf st))
  end.

Lemma wf_or : forall fl s st, wf (s :: st) <-> wf (or_alias fl s :: st).
Proof. intros fl [k b a fa fe] st. reflexivity. Qed.
Lemma after_bs_or : forall fl s st, after_bs (s :: st) <-> after_bs (or_alias fl s :: st).
Proof. intros fl [k b a fa fe] st. reflexivity. Qed.
Lemma text_or : forall fl s st, text_of (or_alias fl s :: st) = text_of (s :: st).
Proof. intros fl [k b a fa fe] st. reflexivity. Qed.

(** The lines of a file. *)
Lemma lines_next_ok : forall ls,
  match lines_next ls with
  | Some (c, r, ls') => line_text (concat ls) = c :: r ++ line_text (concat ls') /\ nuls_out (c :: r)
  | None => line_text (concat ls) = []
  end.
Proof.
  induction ls as [|l ls IH]; [reflexivity|]. cbn [lines_next].
  pose proof (line_nuls l) as N. rewrite line_text_concat in *. cbn [map concat].
  destruct (line_text l) as [|c r] eqn:E.
  - destruct (lines_next ls) as [[[c r] ls']|]; exact IH.
  - split; [|exact N]. now rewrite line_text_concat.
Qed.

(** What one raw character does. *)
Definition raw_ok (st st' : list src) (c : char) : Prop :=
  wf st' /\
  match text_of st with
  | [] => c = NUL /\ text_of st' = [] /\ (exists s r, st' = eof_src s :: r)
  | x :: t => c = x /\ text_of st' = t /\ c <> NUL /\ (exists s r b, st' = s :: r /\ before s = c :: b) /\
              (c = bs -> after_bs st') 
  end.

Lemma nuls_rev : forall t, nuls_out (rev t) <-> nuls_out t.
Proof. intros t. unfold nuls_out. now rewrite <- in_rev. Qed.
Lemma ends_blank_last : forall v, ends_blank v = true -> ~ ends_bs v.
Proof.
  intros v H [u ->]. unfold ends_blank in H. rewrite rev_app_distr in H. cbn in H. discriminate.
Qed.

Lemma take_ok : forall k c r s st,
  nuls_out (c :: r) -> kind_ok k -> based (Src k [] [] false false) ->
  wf (take k c r s :: st) /\ (exists s' r' b, take k c r s :: st = s' :: r' /\ before s' = c :: b) /\
  (c = bs -> after_bs (take k c r s :: st)).
Proof.
  intros k c r s st N K B. apply nuls_cons in N. destruct N as [N1 N2]. split; [|split].
  - cbn. split; [exact N2|]. split; [intros [X|[]]; congruence|]. split; [exact K|]. left. exact B.
  - exists (take k c r s), st, []. split; reflexivity.
  - intros ->. cbn. split; [reflexivity|]. unfold drained. cbn. destruct r; [|discriminate].
    destruct k; try discriminate; contradiction.
Qed.

Lemma getsc_raw_ok : forall st fl, wf st -> raw_ok st (snd (getsc_raw fl st)) (fst (getsc_raw fl st)).
Proof.
  induction st as [|s st IH]; intros fl W; [contradiction|].
  cbn [getsc_raw].
  rewrite (wf_or fl) in W. unfold raw_ok. rewrite <- (text_or fl s st).
  generalize dependent (or_alias fl s). clear s. intros [k b a fa fe] W.
  cbn [after kind before f_alias f_end].
  destruct a as [|c r].
  - destruct k as [| |ls|ws|ws|n v|]; cbn [text_of fst snd].
    + split; [|repeat split; auto; eexists _, _; reflexivity]. cbn. unfold nuls_out, based. cbn. tauto.
    + split; [|repeat split; auto; eexists _, _; reflexivity]. cbn. unfold nuls_out, based. cbn. tauto.
    + pose proof (lines_next_ok ls) as Q. destruct (lines_next ls) as [[[c r] ls']|].
      * destruct Q as [Q1 Q2]. cbn [fst snd app]. rewrite Q1.
        destruct (take_ok (KLines ls') c r (Src (KLines ls) b [] fa fe) st Q2 I I) as [T1 [T2 T3]].
        split; [exact T1|]. split; [reflexivity|]. split; [reflexivity|].
        split; [now apply nuls_cons in Q2|]. split; assumption.
      * cbn [app]. rewrite Q. cbn [fst snd].
        split; [|repeat split; auto; eexists _, _; reflexivity]. cbn. unfold nuls_out, based. cbn. tauto.
    + destruct W as [_ [_ [K _]]]. cbn [kind kind_ok] in K. cbn [app].
      assert (NS : nuls_out [SP]) by (intros [X|[]]; discriminate).
      assert (NN : nuls_out [NL]) by (intros [X|[]]; discriminate).
      destruct ws as [|w ws]; [|destruct w as [|c r]; [destruct ws as [|w' ws]|]].
      * cbn. split; [|repeat split; auto; eexists _, _; reflexivity]. unfold nuls_out, based. cbn. tauto.
      * cbn [words_text app fst snd].
        destruct (take_ok KEof NL [] (Src (KWords [[]]) b [] fa fe) st NN I I) as [T1 [T2 T3]].
        split; [exact T1|]. repeat split; try assumption; discriminate.
      * cbn [words_text app fst snd]. inversion K; subst.
        destruct (take_ok (KWords (w' :: ws)) SP [] (Src (KWords ([] :: w' :: ws)) b [] fa fe) st NS H2 I) as [T1 [T2 T3]].
        split; [exact T1|]. repeat split; try assumption; discriminate.
      * cbn [fst snd]. inversion K; subst.
        destruct (take_ok (KWordSep ws) c r (Src (KWords ((c :: r) :: ws)) b [] fa fe) st H1 H2 I) as [T1 [T2 T3]].
        destruct ws as [|w' ws]; cbn [words_text app]; (split; [exact T1|]);
          (split; [reflexivity|]); (split; [reflexivity|]);
          (split; [now apply nuls_cons in H1|]); split; assumption.
    + destruct W as [_ [_ [K _]]]. cbn [kind kind_ok] in K. cbn [app].
      assert (NS : nuls_out [SP]) by (intros [X|[]]; discriminate).
      assert (NN : nuls_out [NL]) by (intros [X|[]]; discriminate).
      destruct ws as [|w ws].
      * cbn [words_text app fst snd].
        destruct (take_ok KEof NL [] (Src (KWordSep []) b [] fa fe) st NN I I) as [T1 [T2 T3]].
        split; [exact T1|]. repeat split; try assumption; discriminate.
      * cbn [app fst snd].
        destruct (take_ok (KWords (w :: ws)) SP [] (Src (KWordSep (w :: ws)) b [] fa fe) st NS K I) as [T1 [T2 T3]].
        split; [exact T1|]. repeat split; try assumption; discriminate.
    + destruct W as [_ [_ [_ [B|[U W]]]]]; [contradiction|]. cbn [app].
      destruct fe; [exact (IH fa W)|].
      destruct (ends_blank v); [exact (IH true W)|].
      specialize (IH fa W). destruct (getsc_raw fa st) as [c st'] eqn:E. cbn [fst snd] in IH.
      destruct IH as [W' R]. destruct (text_of st) as [|x t] eqn:Et.
      * destruct R as [-> [R1 [s [r ->]]]]. cbn.
        split; [|repeat split; auto; eexists _, _; reflexivity]. unfold nuls_out, based. cbn. tauto.
      * destruct R as [-> [R1 [R2 [R3 R4]]]].
        assert (is_nul x = false) as -> by now apply is_nul_false. cbn [fst snd].
        split; [|split; [reflexivity|split; [cbn; exact R1|split; [exact R2|split]]]].
        -- split; [intros []|]. split; [intros [X|[]]; congruence|]. split; [exact I|]. right.
           split; [|exact W']. cbn. split; [reflexivity|]. intros [u Hu].
           left. apply R4. destruct u as [|y [|]]; cbn in Hu; congruence.
        -- eexists _, _, []. split; reflexivity.
        -- intros ->. cbn. split; [reflexivity|]. intros _. left. now apply R4.
    + destruct W as [_ [_ [_ [B|[U W]]]]]; [contradiction|]. exact (IH false W).
  - (* a character in the buffer *)
    assert (T : text_of (Src k b (c :: r) fa fe :: st) = c :: text_of (Src k (c :: b) r fa fe :: st)).
    { destruct k as [| |ls|ws|ws|n v|]; try reflexivity. destruct ws; reflexivity. }
    rewrite T. cbn [fst snd].
    destruct W as [N1 [N2 [K U]]]. cbn [after before kind] in N1, N2, K. apply nuls_cons in N1. destruct N1 as [N0 N1].
    split; [|split; [reflexivity|split; [reflexivity|split; [exact N0|split]]]].
    + split; [exact N1|]. split; [apply nuls_cons; tauto|]. split; [exact K|].
      destruct U as [U|[U W]]; [now left|right]. split; [|exact W].
      unfold upper_ok, content in *. cbn [kind before after f_end] in *. cbn [rev].
      rewrite <- app_assoc. exact U.
    + eexists _, _, _. split; reflexivity.
    + intros ->. cbn [after_bs before]. split; [reflexivity|]. unfold drained. cbn [after kind f_end].
      destruct r; [|discriminate].
      assert (EB : ends_bs (content (Src k b [bs] fa fe))) by (exists (rev b); reflexivity).
      destruct U as [U|[U W]].
      * destruct k; try discriminate; contradiction.
      * unfold upper_ok in U. cbn [kind f_end] in U. destruct k as [| |ls|ws|ws|n v|]; try discriminate.
        -- destruct fe; [intros _; apply U; exact EB|]. cbn [orb]. intros Q.
           exfalso. apply (ends_blank_last _ Q). rewrite <- U. exact EB.
        -- intros _. apply U. exact EB.
Qed.

(** * After a backslash *)
Lemma second_read : forall st fl, wf st -> after_bs st -> text_of st <> [] ->
  exists s r b, snd (getsc_raw fl st) = s :: r /\ before s = fst (getsc_raw fl st) :: b /\ head_bs b /\ after_bs st.
Proof.
  induction st as [|s st IH]; intros fl W A T; [contradiction|].
  cbn [getsc_raw].
  assert (A0 : after_bs (s :: st)) by exact A.
  rewrite (wf_or fl) in W. rewrite (after_bs_or fl) in A. rewrite <- (text_or fl s st) in T.
  enough (G : exists s1 r b, snd (getsc_raw fl (s :: st)) = s1 :: r /\ before s1 = fst (getsc_raw fl (s :: st)) :: b /\ head_bs b).
  { destruct G as [s1 [r [b [G1 [G2 G3]]]]]. exists s1, r, b. repeat split; try assumption; apply A0. }
  clear A0. cbn [getsc_raw].
  generalize dependent (or_alias fl s). clear s. intros [k b a fa fe] W A T.
  cbn [after kind before f_alias f_end].
  destruct A as [A1 A2]. cbn [before] in A1. unfold drained in A2. cbn [after kind f_end] in A2.
  destruct a as [|c r].
  - assert (LOW : wf st -> after_bs st \/ text_of st = [] -> text_of st <> [] -> forall fl, exists s1 r b,
        snd (getsc_raw fl st) = s1 :: r /\ before s1 = fst (getsc_raw fl st) :: b /\ head_bs b).
    { intros W1 [A|A] N fl0; [|contradiction]. destruct (IH fl0 W1 A N) as [s1 [r [b1 [G1 [G2 [G3 _]]]]]].
      exists s1, r, b1. auto. }
    destruct k as [| |ls|ws|ws|n v|]; cbn [text_of app] in T.
    + contradiction.
    + contradiction.
    + pose proof (lines_next_ok ls) as Q. destruct (lines_next ls) as [[[c r] ls']|].
      * eexists _, _, []. repeat split; reflexivity.
      * congruence.
    + destruct ws as [|[|c r] [|w' ws]]; [contradiction| | | |]; eexists _, _, []; repeat split; reflexivity.
    + destruct ws as [|w ws]; eexists _, _, []; repeat split; reflexivity.
    + destruct W as [_ [_ [_ [B|[U W]]]]]; [contradiction|].
      destruct fe; [apply LOW; auto|].
      destruct (ends_blank v); [apply LOW; auto|].
      pose proof (getsc_raw_ok st fa W) as [W' R]. destruct (getsc_raw fa st) as [c st'] eqn:E. cbn [fst snd] in *.
      destruct (text_of st) as [|x t]; [contradiction|]. destruct R as [-> [_ [R2 _]]].
      assert (is_nul x = false) as -> by now apply is_nul_false. eexists _, _, []. repeat split; reflexivity.
    + destruct W as [_ [_ [_ [B|[U W]]]]]; [contradiction|]. apply LOW; auto.
  - eexists _, _, b. repeat split; assumption || reflexivity.
Qed.

(** * Putting back *)
Definition ungettable (c : char) (st : list src) : Prop :=
  if is_nul c then exists s r, st = eof_src s :: r
  else (exists s r b, st = s :: r /\ before s = c :: b) \/
       (c = bs /\ exists s r, st = s :: r /\ before s = [] /\ drained s = false).
Lemma unget_ok : forall c st, wf st -> ungettable c st ->
  wf (unget_srcs c st) /\ text_of (unget_srcs c st) = (if is_nul c then text_of st else c :: text_of st).
Proof.
  intros c st W U. unfold ungettable in U. destruct (is_nul c) eqn:E.
  - destruct U as [s [r ->]]. unfold unget_srcs. rewrite E. cbn [is_null_src eof_src kind after andb]. auto.
  - unfold unget_srcs. rewrite E.
    destruct U as [[s [r [b [-> H]]]]|[-> [s [r [-> [H D]]]]]].
    + rewrite Bool.andb_false_r, H. destruct s as [k b0 a fa fe]. cbn [before] in H. subst b0. cbn [kind after f_alias f_end].
      destruct W as [N1 [N2 [K U]]]. cbn [after before kind] in *. apply nuls_cons in N2. destruct N2 as [N0 N2]. split.
      * split; [apply nuls_cons; tauto|]. split; [exact N2|]. split; [exact K|].
        destruct U as [U|[U W]]; [now left|right]. split; [|exact W].
        unfold upper_ok, content in *. cbn [kind before after f_end] in *. cbn [rev] in U.
        rewrite <- app_assoc in U. exact U.
      * destruct k as [| |ls|ws|ws|n v|]; try reflexivity. destruct ws; reflexivity.
    + rewrite Bool.andb_false_r, H. split; [|reflexivity].
      split; [intros [X|[]]; discriminate|]. split; [intros []|]. split; [exact I|]. right. split; [|exact W].
      cbn. intros _. left. rewrite H. cbn. split; [exact I|]. rewrite D. discriminate.
Qed.

(** * The same on the plain text *)
Record flat := Flat { ftext : cstr; fskip : nat; fign : nat }.
Fixpoint unjoin (t : cstr) : cstr :=                    (* leading backslash-newlines dropped *)
  match t with
  | c :: d :: r => if ceq c "\" && ceq d NL then unjoin r else t
  | _ => t
  end.
Definition fraw (k : nat) (f : flat) : char * flat :=
  match ftext f with [] => (NUL, Flat [] k (fign f)) | c :: r => (c, Flat r k (fign f)) end.
Definition fget (f : flat) : char * flat :=
  if Nat.ltb 0 (fign f) then fraw (fskip f) f
  else if Nat.eqb (fskip f) 1 then fraw 2 f
  else match unjoin (ftext f) with
       | [] => (NUL, Flat [] 0 (fign f))
       | c :: r => (c, Flat r (if ceq c "\" then 1 else 0) (fign f))
       end.
Definition rel (f : flat) (i : input) : Prop :=
  text_of (srcs i) = ftext f /\ bskip i = fskip f /\ ign i = fign f /\ wf (srcs i).

Ltac rsplit := unfold rel; cbn [ftext fskip fign srcs bskip ign]; first [split; [|split; [|split]]|idtac]; first [assumption|reflexivity|idtac].
Lemma fraw_ok : forall k f i, text_of (srcs i) = ftext f -> ign i = fign f -> wf (srcs i) ->
  let '(c, st) := getsc_raw false (srcs i) in
  fst (fraw k f) = c /\ rel (snd (fraw k f)) (Input st k (ign i)) /\ ungettable c st.
Proof.
  intros k f i T G W. pose proof (getsc_raw_ok (srcs i) false W) as R.
  destruct (getsc_raw false (srcs i)) as [c st]. cbn [fst snd] in R. unfold fraw. destruct R as [W' R].
  unfold ungettable, rel. rewrite T in R. destruct (ftext f) as [|x t].
  - destruct R as [-> [R1 [s [r ->]]]]. cbn [fst snd ftext fskip fign srcs bskip ign].
    split; [reflexivity|]. split; [rsplit|]. exists s, r. reflexivity.
  - destruct R as [-> [R1 [R2 [R3 R4]]]]. cbn [fst snd ftext fskip fign srcs bskip ign].
    split; [reflexivity|]. split; [rsplit|]. assert (is_nul x = false) as -> by now apply is_nul_false. now left.
Qed.

Lemma unjoin_len : forall n t, length t <= n -> length (unjoin t) <= length t.
Proof.
  induction n as [|n IH]; intros t H.
  - destruct t; [auto|cbn in H; lia].
  - destruct t as [|c [|d t]]; try reflexivity. cbn [unjoin]. destruct (ceq c "\" && ceq d NL); [|reflexivity].
    cbn [length] in *. specialize (IH t). lia.
Qed.
Lemma bn_loop_ok : forall n f i, length (ftext f) < n -> rel f i -> fskip f = 0 ->
  let '(c, i') := bn_loop n i in
  let r := match unjoin (ftext f) with
           | [] => (NUL, Flat [] 0 (fign f))
           | c :: r => (c, Flat r (if ceq c "\" then 1 else 0) (fign f))
           end in
  fst r = c /\ rel (snd r) i' /\ ungettable c (srcs i').
Proof.
  induction n as [|n IH]; intros [t k g] [st bk gi] L [R1 [R2 [R3 R4]]] K; [lia|].
  cbn [ftext fskip fign srcs bskip ign] in *. subst k bk gi.
  cbn [bn_loop srcs bskip ign].
  pose proof (getsc_raw_ok st false R4) as Q. destruct (getsc_raw false st) as [c st1] eqn:E. cbn [fst snd] in Q.
  destruct Q as [W1 Q]. rewrite R1 in Q. destruct t as [|x t].
  - destruct Q as [-> [Q1 [s [r ->]]]]. cbn [ceq unjoin]. change (ceq NUL "\") with false. cbn iota.
    cbn [fst snd]. split; [reflexivity|]. split; [rsplit|]. cbn. now exists s, r.
  - destruct Q as [-> [Q1 [Q2 [Q3 Q4]]]].
    assert (Nx : is_nul x = false) by now apply is_nul_false.
    cbn [unjoin]. destruct (ceq_spec x "\"%char) as [->|Nb].
    + specialize (Q4 eq_refl). pose proof (getsc_raw_ok st1 false W1) as P.
      assert (SR := second_read st1 false W1 Q4).
      destruct (getsc_raw false st1) as [c2 st2] eqn:E2. cbn [fst snd] in P, SR.
      destruct P as [W2 P]. rewrite Q1 in P, SR.
      destruct t as [|y t].
      * destruct P as [-> [P1 [s [r ->]]]]. change (ceq NUL NL) with false. cbn iota.
        cbn [ungetsc srcs bskip ign unget_srcs is_null_src eof_src kind after andb is_nul].
        change (ceq NUL NUL) with true. cbn [fst snd srcs]. split; [reflexivity|].
        split; [rsplit|]. cbn. right. split; [reflexivity|].
        exists (Src KEof [] [] (f_alias s) (f_end s)), r. repeat split.
      * destruct P as [-> [P1 [P2 [P3 P4]]]]. cbn [andb].
        destruct (ceq_spec y NL) as [->|Nn].
        -- specialize (IH (Flat t 0 g) (Input st2 0 g)). cbn [ftext fskip fign srcs bskip ign length] in IH, L.
           destruct (bn_loop n (Input st2 0 g)) as [c i'].
           apply IH; [lia| |reflexivity]. rsplit.
        -- assert (Ny : is_nul y = false) by now apply is_nul_false.
           destruct SR as [s [r [b [Es [Eb [Hb Ab]]]]]]; [discriminate|]. subst st2.
           destruct (unget_ok y (s :: r) W2) as [U1 U2].
           { unfold ungettable. rewrite Ny. left. exists s, r, b. auto. }
           cbn [fst snd srcs ungetsc bskip ign pred]. split; [reflexivity|]. rewrite Ny in U2. rewrite P1 in U2.
           split; [rsplit|].
           unfold ungettable. cbn [is_nul]. change (ceq "\" NUL) with false. cbn iota.
           unfold unget_srcs. rewrite Ny, Bool.andb_false_r, Eb.
           destruct b as [|b0 b].
           ++ right. split; [reflexivity|]. eexists _, r. split; [reflexivity|]. split; reflexivity.
           ++ left. cbn in Hb. subst b0. eexists _, r, b. split; reflexivity.
    + cbn [andb fst snd srcs]. destruct t as [|y t]; cbn [fst snd].
      all: assert (X : ceq x "\" = false) by (apply ceq_false; exact Nb); rewrite ?X.
      all: split; [reflexivity|]; split; [rsplit|].
      all: unfold ungettable; rewrite Nx; left; exact Q3.
Qed.

Theorem getsc_ok : forall f i, rel f i ->
  let '(c, i') := getsc i in
  fst (fget f) = c /\ rel (snd (fget f)) i' /\ ungettable c (srcs i').
Proof.
  intros f i R.
  assert (BN : let '(c, i') := getsc_bn i in fst (fget f) = c /\ rel (snd (fget f)) i' /\ ungettable c (srcs i')).
  { destruct R as [R1 [R2 [R3 R4]]]. unfold getsc_bn, fget. rewrite <- R3, <- R2.
    destruct (Nat.ltb 0 (ign i)).
    - pose proof (fraw_ok (bskip i) f i R1 R3 R4) as Q. destruct (getsc_raw false (srcs i)) as [c st]. exact Q.
    - destruct (Nat.eqb (bskip i) 1).
      + pose proof (fraw_ok 2 f i R1 R3 R4) as Q. destruct (getsc_raw false (srcs i)) as [c st]. exact Q.
      + pose proof (bn_loop_ok (S (length (pending (srcs i)))) (Flat (ftext f) 0 (fign f)) (Input (srcs i) 0 (ign i))) as Q.
        cbn [ftext fskip fign srcs bskip ign] in Q. rewrite pending_text, R1 in *. rewrite <- R3 in Q.
        apply Q; [lia| |reflexivity]. rsplit. }
  unfold getsc. destruct i as [st k g]. cbn [srcs bskip ign] in *. destruct st as [|[kd b a fa fe] st]; [exact BN|].
  destruct a as [|c r]; [exact BN|]. destruct (negb (ceq c "\") && (k =? 0)) eqn:E; [|exact BN].
  apply andb_prop in E. destruct E as [E1 E2]. apply Bool.negb_true_iff in E1. apply Nat.eqb_eq in E2. subst k.
  destruct R as [R1 [R2 [R3 R4]]]. cbn [srcs bskip ign] in *.
  assert (T : ftext f = c :: text_of (Src kd (c :: b) r fa fe :: st)).
  { rewrite <- R1. destruct kd as [| |ls|ws|ws|n v|]; try reflexivity. destruct ws; reflexivity. }
  pose proof (getsc_raw_ok _ false R4) as Q. cbn [getsc_raw after kind before or_alias f_alias f_end fst snd] in Q.
  rewrite Bool.orb_false_r in Q. destruct Q as [W' Q]. rewrite R1, T in Q. destruct Q as [_ [_ [Q2 [Q3 _]]]].
  assert (Nc : is_nul c = false) by now apply is_nul_false.
  unfold fget. rewrite <- R2, <- R3.
  assert (UG : ungettable c (Src kd (c :: b) r fa fe :: st)) by (unfold ungettable; rewrite Nc; left; exact Q3).
  destruct (Nat.ltb 0 g).
  - unfold fraw. rewrite T. cbn [fst snd srcs]. split; [reflexivity|]. split; [|exact UG].
    rsplit. 
  - cbn [Nat.eqb]. assert (U : unjoin (ftext f) = ftext f).
    { rewrite T. cbn [unjoin]. rewrite E1. cbn [andb]. now destruct (text_of (Src kd (c :: b) r fa fe :: st)). }
    rewrite U, T, E1. cbn [fst snd srcs]. split; [reflexivity|]. split; [|exact UG]. rsplit.
Qed.
