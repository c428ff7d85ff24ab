(** C23 (copies of words and trees) and C56 (stripped words). *)
From Verif Require Import Base Word_model Word_spec.
From Coq Require Import Lia.
Local Open Scope Z_scope.

Lemma cneq : forall a b, a <> b -> ceq a b = false.
Proof. intros a b. apply ceq_false. Qed.
(** Induction over nested words. *)
Section WordInd.
  Variables (P : item -> Prop) (Q : pats -> Prop).
  Hypotheses (Hc : forall c, P (Chr c)) (Hq : forall c, P (Qch c)) (Hcom : forall s, P (Com s))
    (Hexp : forall s, P (Exp s)) (Hoq : P OQ) (Hcq : P CQ)
    (Hsub : forall b n w, Forall P w -> P (Sub b n w))
    (Hpat : forall k ps, Q ps -> P (Pat k ps))
    (Hp1 : forall w, Forall P w -> Q (P1 w))
    (Hpc : forall w ps, Forall P w -> Q ps -> Q (PCons w ps)).
  Fixpoint item_ind' (i : item) : P i :=
    let all := fix all (w : list item) : Forall P w :=
      match w with [] => Forall_nil P | i :: w => Forall_cons i (item_ind' i) (all w) end in
    match i with
    | Chr c => Hc c | Qch c => Hq c | Com s => Hcom s | Exp s => Hexp s | OQ => Hoq | CQ => Hcq
    | Sub b n w => Hsub b n w (all w)
    | Pat k ps => Hpat k ps (pats_ind' ps)
    end
  with pats_ind' (ps : pats) : Q ps :=
    let all := fix all (w : list item) : Forall P w :=
      match w with [] => Forall_nil P | i :: w => Forall_cons i (item_ind' i) (all w) end in
    match ps with
    | P1 w => Hp1 w (all w)
    | PCons w ps => Hpc w ps (all w) (pats_ind' ps)
    end.
End WordInd.

Lemma good_fix : forall w,
  (fix all (w : list item) : Prop := match w with [] => True | i :: w => good1 i /\ all w end) w <-> good w.
Proof. induction w as [|i w IH]; cbn; [tauto|]. rewrite IH. tauto. Qed.
Lemma simple_fix : forall w,
  (fix all (w : list item) : Prop := match w with [] => True | i :: w => simple1 i /\ all w end) w <-> simple w.
Proof. induction w as [|i w IH]; cbn; [tauto|]. rewrite IH. tauto. Qed.

Lemma scan_text : forall s nest c r, ~ In NUL s -> scan MText nest c (s ++ NUL :: r) = scan MCode nest c r.
Proof.
  induction s as [|x s IH]; intros nest c r H; cbn [app scan].
  - now rewrite ceq_refl.
  - rewrite (cneq x NUL) by (intros ->; apply H; now left). apply IH. intros X. apply H. now right.
Qed.

(** Scanning over whole items, inside or outside of others. *)
Lemma scan_items :
  (forall i nest c r, good1 i -> 0 <= nest -> scan MCode nest c (enc1 i ++ r) = scan MCode nest c r).
Proof.
  intros i. apply (item_ind'
    (fun i => forall nest c r, good1 i -> 0 <= nest -> scan MCode nest c (enc1 i ++ r) = scan MCode nest c r)
    (fun ps => forall nest c r, goodp ps -> 0 < nest -> scan MCode nest c (encp ps ++ CPAT :: r) = scan MCode (nest - 1) c r)).
  - reflexivity.
  - reflexivity.
  - intros s nest c r G N. cbn [enc1 app]. rewrite <- app_assoc. cbn [app]. cbn [good1] in G.
    change (scan MText nest c (s ++ NUL :: r) = scan MCode nest c r). now apply scan_text.
  - intros s nest c r G N. cbn [enc1 app]. rewrite <- app_assoc. cbn [app]. cbn [good1] in G.
    change (scan MText nest c (s ++ NUL :: r) = scan MCode nest c r). now apply scan_text.
  - reflexivity.
  - reflexivity.
  - intros b n w F nest c r G N. cbn [good1] in G. destruct G as [G1 G2]. apply good_fix in G2.
    assert (W : forall w nest r, Forall (fun i => forall nest c r, good1 i -> 0 <= nest ->
         scan MCode nest c (enc1 i ++ r) = scan MCode nest c r) w -> good w -> 0 <= nest ->
         scan MCode nest c (flat_map enc1 w ++ r) = scan MCode nest c r).
    { clear. induction w as [|i w IH]; intros nest r F G N; [reflexivity|]. inversion F; subst. destruct G as [G1 G2].
      cbn [flat_map]. rewrite <- app_assoc. rewrite H1 by assumption. now apply IH. }
    cbn [enc1 app]. rewrite <- !app_assoc. cbn [app]. rewrite <- !app_assoc.
    change (scan MText (nest + 1) c ((if b then "{" else "X")%char :: n ++ NUL :: flat_map enc1 w ++ [CSUBST; if b then "}"%char else "X"%char] ++ r)
            = scan MCode nest c r).
    change ((if b then "{" else "X")%char :: n ++ NUL :: flat_map enc1 w ++ [CSUBST; if b then "}"%char else "X"%char] ++ r)
      with (((if b then "{" else "X")%char :: n) ++ NUL :: flat_map enc1 w ++ [CSUBST; if b then "}"%char else "X"%char] ++ r).
    rewrite scan_text.
    2:{ intros [X|X]; [destruct b; discriminate|contradiction]. }
    rewrite W by (assumption || lia). cbn [app].
    change (scan MClose (nest + 1) c ((if b then "}" else "X")%char :: r) = scan MCode nest c r).
    cbn [scan]. replace (nest + 1 =? 0) with false by (symmetry; apply Z.eqb_neq; lia).
    rewrite Bool.andb_false_r. f_equal. lia.
  - intros k ps IH nest c r G N. cbn [enc1 app good1] in *. rewrite <- app_assoc. cbn [app].
    change (scan MCode (nest + 1) c (encp ps ++ CPAT :: r) = scan MCode nest c r).
    rewrite IH by (assumption || lia). f_equal. lia.
  - intros w F nest c r G N. cbn [goodp encp] in *. apply good_fix in G.
    assert (W : scan MCode nest c (flat_map enc1 w ++ CPAT :: r) = scan MCode nest c (CPAT :: r)).
    { revert F G. generalize (CPAT :: r). clear -N. induction w as [|i w IH]; intros l F G; [reflexivity|].
      inversion F; subst. destruct G as [G1 G2]. cbn [flat_map]. rewrite <- app_assoc.
      rewrite H1 by (assumption || lia). now apply IH. }
    rewrite W. change (scan MCode nest c (CPAT :: r)) with
      (if ceq c CPAT && (nest =? 0) then WAt r else scan MCode (nest - 1) c r).
    replace (nest =? 0) with false by (symmetry; apply Z.eqb_neq; lia). now rewrite Bool.andb_false_r.
  - intros w ps F IH nest c r G N. cbn [goodp encp] in *. destruct G as [G1 G2]. apply good_fix in G1.
    rewrite <- app_assoc. cbn [app].
    assert (W : forall l, scan MCode nest c (flat_map enc1 w ++ l) = scan MCode nest c l).
    { revert F G1. clear -N. induction w as [|i w IH]; intros F G l; [reflexivity|].
      inversion F; subst. destruct G as [G1 G2]. cbn [flat_map]. rewrite <- app_assoc.
      rewrite H1 by (assumption || lia). now apply IH. }
    rewrite W. change (scan MCode nest c (SPAT :: encp ps ++ CPAT :: r)) with
      (if ceq c SPAT && (nest =? 0) then WAt (encp ps ++ CPAT :: r) else scan MCode nest c (encp ps ++ CPAT :: r)).
    replace (nest =? 0) with false by (symmetry; apply Z.eqb_neq; lia). rewrite Bool.andb_false_r. now apply IH.
Qed.
Lemma scan_word : forall w nest c r, good w -> 0 <= nest -> scan MCode nest c (enc w ++ r) = scan MCode nest c r.
Proof.
  unfold enc. induction w as [|i w IH]; intros nest c r G N; [reflexivity|]. destruct G as [G1 G2].
  cbn [flat_map]. rewrite <- app_assoc. rewrite scan_items by assumption. now apply IH.
Qed.

(** * C23 *)
(** wdscan(wp, EOS) is just after the word, and wdcopy copies the word and its end, whatever
    follows it in memory (nothing of which is read). *)
Theorem c23_scan_word : forall w rest, good w -> wdscan (enc w ++ EOS :: rest) EOS = WAt rest.
Proof. intros w rest G. unfold wdscan. rewrite scan_word by (assumption || lia). reflexivity. Qed.
Print Assumptions c23_scan_word.

Theorem c23_copy_word : forall w rest, good w -> wdcopy (enc w ++ EOS :: rest) = Some (enc w ++ [EOS]).
Proof.
  intros w rest G. unfold wdcopy. rewrite (c23_scan_word w rest G). f_equal.
  change (EOS :: rest) with ([EOS] ++ rest). rewrite app_assoc.
  rewrite firstn_app, !app_length. rewrite firstn_all2 by (rewrite app_length; lia).
  replace (length (enc w) + length [EOS] + length rest - length rest - (length (enc w) + length [EOS]))%nat with 0%nat by lia.
  cbn. now rewrite app_nil_r.
Qed.
Print Assumptions c23_copy_word.

(** wdscan for the end of a substitution, or of an alternative of a pattern, finds the one that
    belongs to the position it starts from, not one of a nested substitution or pattern. *)
Theorem c23_scan_close : forall w b rest, good w -> wdscan (enc w ++ CSUBST :: b :: rest) CSUBST = WAt rest.
Proof. intros w b rest G. unfold wdscan. rewrite scan_word by (assumption || lia). reflexivity. Qed.
Print Assumptions c23_scan_close.
Theorem c23_scan_alternative : forall w rest, good w ->
  wdscan (enc w ++ SPAT :: rest) SPAT = WAt rest /\ wdscan (enc w ++ CPAT :: rest) CPAT = WAt rest.
Proof. intros w rest G. unfold wdscan. split; rewrite scan_word by (assumption || lia); reflexivity. Qed.
Print Assumptions c23_scan_alternative.

Lemma str_save_ok : forall s rest, ~ In NUL s -> str_save (s ++ NUL :: rest) = Some (s ++ [NUL]).
Proof.
  induction s as [|c s IH]; intros rest H; cbn [app str_save].
  - now rewrite ceq_refl.
  - rewrite (cneq c NUL) by (intros ->; apply H; now left). rewrite IH; [reflexivity|].
    intros X. apply H. now right.
Qed.

(** Copying a tree gives a tree of the same shape whose words and strings are those of the
    original. *)
Lemma copy_opt_ok : forall A (f : A -> option A) (P : A -> Prop) (R : A -> A -> Prop) x,
  (forall a, P a -> exists b, f a = Some b /\ R a b) -> opt_all P x ->
  exists y, copy_opt f x = Some y /\ opt_rel R x y.
Proof.
  intros A f P R [a|] H O; cbn in *; [|exists None; auto].
  destruct (H a O) as (b & E & B). rewrite E. exists (Some b). auto.
Qed.
Lemma copy_all_ok : forall A (f : A -> option A) (P : A -> Prop) (R : A -> A -> Prop) l,
  (forall a, P a -> exists b, f a = Some b /\ R a b) -> Forall P l ->
  exists l', copy_all f l = Some l' /\ Forall2 R l l'.
Proof.
  intros A f P R l H. induction l as [|a l IH]; intros F; [exists []; auto|].
  inversion F; subst. destruct (H a H2) as (b & E & B). destruct (IH H3) as (l' & E' & B').
  cbn. rewrite E, E'. exists (b :: l'). auto.
Qed.
Lemma word_at_copy : forall m, word_at m -> exists m', wdcopy m = Some m' /\ word_copy m m'.
Proof.
  intros m (w & rest & G & ->). exists (enc w ++ [EOS]). split; [now apply c23_copy_word|]. exists w, rest. auto.
Qed.
Lemma str_at_copy : forall m, str_at m -> exists m', str_save m = Some m' /\ str_copy m m'.
Proof.
  intros m (s & rest & G & ->). exists (s ++ [NUL]). split; [now apply str_save_ok|]. exists s, rest. auto.
Qed.
Lemma io_at_copy : forall p, io_at p -> exists q, iocopy1 p = Some q /\ io_copy p q.
Proof.
  intros p (A & B & C). unfold iocopy1.
  destruct (copy_opt_ok _ wdcopy word_at word_copy _ word_at_copy A) as (n & N1 & N2).
  destruct (copy_opt_ok _ wdcopy word_at word_copy _ word_at_copy B) as (d & D1 & D2).
  destruct (copy_opt_ok _ str_save str_at str_copy _ str_at_copy C) as (h & H1 & H2).
  rewrite N1, D1, H1. eexists. split; [reflexivity|]. unfold io_copy; cbn. auto.
Qed.
Theorem c23_copy_tree : forall t, tree_at t -> exists t', tcopy t = Some t' /\ tree_copy t t'.
Proof.
  induction t as [|ty fl a v io l IHl r IHr s ln]; intros T; [exists TNull; split; constructor|].
  destruct T as (A & V & I & TL & TR & S). cbn [tcopy].
  assert (X : exists s', copy_opt (if ty =? TCASE then wdcopy else str_save) s = Some s' /\
     opt_rel (if ty =? TCASE then word_copy else str_copy) s s').
  { destruct (ty =? TCASE); [exact (copy_opt_ok _ _ _ _ _ word_at_copy S)|exact (copy_opt_ok _ _ _ _ _ str_at_copy S)]. }
  destruct X as (s' & S1 & S2).
  destruct (copy_opt_ok _ (copy_all wdcopy) _ (Forall2 word_copy) v (fun l F => copy_all_ok _ _ _ _ l word_at_copy F) V) as (v' & V1 & V2).
  destruct (copy_opt_ok _ (copy_all wdcopy) _ (Forall2 word_copy) a (fun l F => copy_all_ok _ _ _ _ l word_at_copy F) A) as (a' & A1 & A2).
  destruct (copy_opt_ok _ (copy_all iocopy1) _ (Forall2 io_copy) io (fun l F => copy_all_ok _ _ _ _ l io_at_copy F) I) as (io' & I1 & I2).
  destruct (IHl TL) as (l' & L1 & L2). destruct (IHr TR) as (r' & R1 & R2).
  rewrite S1, V1, A1, I1, L1, R1. eexists. split; [reflexivity|]. constructor; assumption.
Qed.
Print Assumptions c23_copy_tree.

(** A copy is copied to itself. *)
Lemma copy_again : forall t t', tree_copy t t' -> tree_copy t' t'.
Proof.
  assert (W : forall m m', word_copy m m' -> word_copy m' m').
  { intros m m' (w & rest & G & -> & ->). exists w, []. auto. }
  assert (S : forall m m', str_copy m m' -> str_copy m' m').
  { intros m m' (w & rest & G & -> & ->). exists w, []. auto. }
  assert (O : forall A (R : A -> A -> Prop), (forall a b, R a b -> R b b) -> forall x y, opt_rel R x y -> opt_rel R y y).
  { intros A R H [a|] [b|]; cbn; try tauto. apply H. }
  assert (LS : forall A (R : A -> A -> Prop), (forall a b, R a b -> R b b) -> forall x y, Forall2 R x y -> Forall2 R y y).
  { intros A R H x y F. induction F; constructor; eauto. }
  assert (IO : forall p q, io_copy p q -> io_copy q q).
  { intros p q (A & B & C & D & E). unfold io_copy. split; [reflexivity|]. split; [reflexivity|].
    split; [eapply O; [exact W|exact C]|]. split; [eapply O; [exact W|exact D]|eapply O; [exact S|exact E]]. }
  induction 1; [constructor|]. constructor; auto.
  - eapply O; [apply LS; exact W|eassumption].
  - eapply O; [apply LS; exact W|eassumption].
  - eapply O; [apply LS; exact IO|eassumption].
  - eapply O; [|eassumption]. destruct (ty =? TCASE); assumption.
Qed.
Theorem c23_copy_of_copy : forall t t', tree_at t -> tcopy t = Some t' -> tcopy t' = Some t'.
Proof.
  intros t t' A E. destruct (c23_copy_tree t A) as (u & E' & C). rewrite E in E'. injection E' as <-.
  apply copy_again in C. clear - C.
  assert (W : forall m, word_copy m m -> wdcopy m = Some m).
  { intros m (w & rest & G & A & B). rewrite A at 1. rewrite c23_copy_word by exact G. now rewrite B. }
  assert (S : forall m, str_copy m m -> str_save m = Some m).
  { intros m (w & rest & G & A & B). rewrite A at 1. rewrite str_save_ok by exact G. now rewrite B. }
  assert (O : forall A (f : A -> option A) (R : A -> A -> Prop), (forall a, R a a -> f a = Some a) ->
     forall x, opt_rel R x x -> copy_opt f x = Some x).
  { intros A f R H [a|]; cbn; auto. intros X. now rewrite H. }
  assert (LS : forall A (f : A -> option A) (R : A -> A -> Prop), (forall a, R a a -> f a = Some a) ->
     forall x, Forall2 R x x -> copy_all f x = Some x).
  { intros A f R H. induction x as [|a x IH]; intros F; [reflexivity|]. inversion F; subst. cbn. now rewrite H, IH. }
  assert (IO : forall p, io_copy p p -> iocopy1 p = Some p).
  { intros p (_ & _ & C1 & C2 & C3). unfold iocopy1.
    rewrite (O _ wdcopy _ W _ C1), (O _ wdcopy _ W _ C2), (O _ str_save _ S _ C3). now destruct p. }
  induction t' as [|ty fl a v io l IHl r IHr s ln]; [reflexivity|]. inversion C; subst.
  cbn [tcopy].
  rewrite (O _ (if ty =? TCASE then wdcopy else str_save) (if ty =? TCASE then word_copy else str_copy));
    [|destruct (ty =? TCASE); assumption|assumption].
  rewrite (O _ (copy_all wdcopy) (Forall2 word_copy) (LS _ _ _ W) v) by assumption.
  rewrite (O _ (copy_all wdcopy) (Forall2 word_copy) (LS _ _ _ W) a) by assumption.
  rewrite (O _ (copy_all iocopy1) (Forall2 io_copy) (LS _ _ _ IO) io) by assumption.
  rewrite IHl, IHr by assumption. reflexivity.
Qed.
Print Assumptions c23_copy_of_copy.

(** * C56 *)
Lemma put_id : forall c, c <> ascii_of_nat 255 -> put c = [c].
Proof.
  intros c H. unfold put. destruct (N.eqb_spec (N_of_ascii c) 255) as [E|E]; [|reflexivity].
  exfalso. apply H. rewrite <- (ascii_N_embedding c), E. reflexivity.
Qed.
Lemma strip_name : forall n r, ~ In NUL n -> ~ In (ascii_of_nat 255) n ->
  strip SName (n ++ NUL :: r) = option_map (app n) (strip SCode r).
Proof.
  induction n as [|x n IH]; intros r A B; cbn [app strip].
  - rewrite ceq_refl. now destruct (strip SCode r).
  - rewrite (cneq x NUL) by (intros ->; apply A; now left).
    rewrite put_id by (intros ->; apply B; now left).
    rewrite IH by (intros X; (apply A + apply B); now right). now destruct (strip SCode r).
Qed.
Lemma omap_app : forall a b (x : option cstr), option_map (app a) (option_map (app b) x) = option_map (app (a ++ b)) x.
Proof. intros a b [x|]; cbn; [now rewrite app_assoc|reflexivity]. Qed.
Lemma omap_nil : forall (x : option cstr), option_map (app []) x = x.
Proof. intros [x|]; reflexivity. Qed.

Lemma strip_item : forall i r, good1 i -> simple1 i -> strip SCode (enc1 i ++ r) = option_map (app (plain1 i)) (strip SCode r).
Proof.
  assert (W : forall w, Forall (fun i => forall r, good1 i -> simple1 i ->
      strip SCode (enc1 i ++ r) = option_map (app (plain1 i)) (strip SCode r)) w -> good w -> simple w ->
      forall r, strip SCode (flat_map enc1 w ++ r) = option_map (app (flat_map plain1 w)) (strip SCode r)).
  { induction w as [|i w IH]; intros F G S r; cbn [flat_map]; [now rewrite omap_nil|].
    inversion F; subst. destruct G, S. rewrite <- app_assoc, H1 by assumption. rewrite IH by assumption. apply omap_app. }
  intros i. apply (item_ind'
    (fun i => forall r, good1 i -> simple1 i -> strip SCode (enc1 i ++ r) = option_map (app (plain1 i)) (strip SCode r))
    (fun ps => forall r, goodp ps -> simplep ps -> strip SCode (encp ps ++ r) = option_map (app (plainp ps)) (strip SCode r))).
  - intros c r _ S. cbn [simple1] in S.
    change (option_map (app (put c)) (strip SCode r) = option_map (app [c]) (strip SCode r)). now rewrite put_id.
  - intros c r _ S. cbn [simple1] in S.
    change (option_map (app (put c)) (strip SCode r) = option_map (app [c]) (strip SCode r)). now rewrite put_id.
  - intros s r _ [].
  - intros s r _ [].
  - intros r _ _. cbn [plain1]. now rewrite omap_nil.
  - intros r _ _. cbn [plain1]. now rewrite omap_nil.
  - intros b n w F r G S. cbn [good1 simple1] in *. destruct G as [G1 G2], S as [S1 S2].
    apply good_fix in G2. apply simple_fix in S2.
    cbn [enc1 app]. rewrite <- !app_assoc. cbn [app]. rewrite <- !app_assoc.
    change (option_map (app (L "$")) (option_map (app (if ceq (if b then "{" else "X")%char "{" then ["{"%char] else []))
      (strip SName (n ++ NUL :: flat_map enc1 w ++ [CSUBST; (if b then "}" else "X")%char] ++ r))) =
      option_map (app (plain1 (Sub b n w))) (strip SCode r)).
    rewrite strip_name by assumption. rewrite (W w F G2 S2).
    change (strip SCode ([CSUBST; (if b then "}" else "X")%char] ++ r)) with
      (option_map (app (if ceq (if b then "}" else "X")%char "}" then ["}"%char] else [])) (strip SCode r)).
    rewrite !omap_app. f_equal. f_equal. destruct b; cbn.
    + now rewrite <- app_assoc.
    + rewrite ?app_nil_r. reflexivity.
  - intros k ps IH r G S. cbn [good1 simple1 enc1 app] in *. destruct S as [S1 S2].
    rewrite <- app_assoc. cbn [app].
    change (option_map (app (put k ++ ["("%char])) (strip SCode (encp ps ++ CPAT :: r)) =
            option_map (app (plain1 (Pat k ps))) (strip SCode r)).
    rewrite IH by assumption. change (strip SCode (CPAT :: r)) with (option_map (app (L ")")) (strip SCode r)).
    rewrite !omap_app, put_id by assumption. f_equal.
  - intros w F r G S. cbn [goodp simplep encp plainp] in *. apply good_fix in G. apply simple_fix in S. now apply W.
  - intros w ps F IH r G S. cbn [goodp simplep encp plainp] in *. destruct G as [G1 G2], S as [S1 S2].
    apply good_fix in G1. apply simple_fix in S1. rewrite <- app_assoc, (W w F G1 S1). cbn [app].
    change (strip SCode (SPAT :: encp ps ++ r)) with (option_map (app (L "|")) (strip SCode (encp ps ++ r))).
    rewrite IH by assumption. now rewrite !omap_app, <- app_assoc.
Qed.

(** wdstrip gives the text of the word without its quotes, reading nothing after the word.
    Words with $() or $(()), or with a byte 0xFF, are left out: see below. *)
Theorem c56_strip_partial : forall w rest, good w -> simple w -> wdstrip (enc w ++ EOS :: rest) = Some (plain w).
Proof.
  intros w rest G S. unfold wdstrip, enc, plain.
  assert (H : forall w r, good w -> simple w -> strip SCode (flat_map enc1 w ++ r) = option_map (app (flat_map plain1 w)) (strip SCode r)).
  { clear. induction w as [|i w IH]; intros r G S; cbn [flat_map]; [now rewrite omap_nil|].
    destruct G, S. rewrite <- app_assoc, strip_item, IH by assumption. apply omap_app. }
  rewrite H by assumption. cbn. now rewrite app_nil_r.
Qed.
Print Assumptions c56_strip_partial.

(** After $() everything is lost, and 0xFF is. *)
Theorem c56_strip_comsub_refuted : exists w, good w /\
  wdstrip (enc w ++ [EOS]) = Some (L "a$(b)") /\ plain w = L "a$(b)c".
Proof. exists [Chr "a"; Com (L "b"); Chr "c"]%char. split; [cbn; intuition discriminate|]. split; vm_compute; reflexivity. Qed.
Print Assumptions c56_strip_comsub_refuted.
Theorem c56_strip_ff_refuted : exists w, good w /\
  wdstrip (enc w ++ [EOS]) = Some (L "f") /\ plain w = ["f"%char; ascii_of_nat 255].
Proof. exists [Chr "f"; Chr (ascii_of_nat 255)]%char. split; [cbn; tauto|]. split; vm_compute; reflexivity. Qed.
Print Assumptions c56_strip_ff_refuted.

(** ab"${x:-*(1|2)$y}" then other memory *)
Example c23_case :
  let w := [Chr "a"; Qch "b"; OQ; Sub true (L "x") [Chr ":"; Chr "-"; Pat "*" (PCons [Chr "1"] (P1 [Qch "2"])); Sub false (L "y") []]; CQ]%char in
  good w /\ simple w /\
  wdcopy (enc w ++ EOS :: L "garbage") = Some (enc w ++ [EOS]) /\
  wdstrip (enc w ++ EOS :: L "garbage") = Some (L "ab${x:-*(1|2)$y}").
Proof. cbn -[wdcopy wdstrip]. split; [intuition discriminate|]. split; [intuition discriminate|]. split; vm_compute; reflexivity. Qed.
Example c23_case_tree :
  let w := [Chr "a"; Com (L "b c")]%char in
  let t := TOp 1 0 (Some [enc w ++ EOS :: L "zz"]) None
             (Some [IOWord 1 2 (Some (enc w ++ [EOS])) None (Some (L "hi" ++ [NUL]))])
             (TOp 11 0 None (Some []) None TNull TNull (Some (enc w ++ [EOS])) 7) TNull (Some (L "id" ++ NUL :: L "zz")) 3 in
  tree_at t /\
  tcopy t = Some (TOp 1 0 (Some [enc w ++ [EOS]]) None
             (Some [IOWord 1 2 (Some (enc w ++ [EOS])) None (Some (L "hi" ++ [NUL]))])
             (TOp 11 0 None (Some []) None TNull TNull (Some (enc w ++ [EOS])) 7) TNull (Some (L "id" ++ [NUL])) 3).
Proof.
  split; [|vm_compute; reflexivity].
  assert (G : good [Chr "a"; Com (L "b c")]%char) by (cbn; intuition discriminate).
  cbn [tree_at opt_all].
  split; [repeat constructor; eexists _, _; split; [exact G|reflexivity]|]. split; [exact Logic.I|].
  split; [repeat constructor; unfold io_at; cbn; auto|].
  - eexists _, []; split; [exact G|reflexivity].
  - eexists (L "hi"), []; split; [cbn; intuition discriminate|reflexivity].
  - split; [|split; [exact Logic.I|eexists (L "id"), _; split; [cbn; intuition discriminate|reflexivity]]].
    split; [exact Logic.I|]. split; [constructor|]. split; [exact Logic.I|]. split; [exact Logic.I|]. split; [exact Logic.I|].
    eexists _, []; split; [exact G|reflexivity].
Qed.
