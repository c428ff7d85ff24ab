(** The search path does not change without the found commands being forgotten. *)
From Verif Require Import Base Num_model Num_spec Special_model Special_spec Special_proof.
Local Open Scope Z_scope.

Section Flush.
Variable ev : cstr -> option Z.
Variable usable_dir : cstr -> bool.
Variable def_path : cstr.
Variable rand : Z -> Z -> Z.
Notation PATH := (name_of V_PATH).
Record flushed (st st' : state) : Prop := {
  fl : (texts st' X_path = texts st X_path /\ nums st' N_flushes = nums st N_flushes) \/ nums st N_flushes < nums st' N_flushes;
  fl_cons : consistent st -> consistent st' }.
Lemma flushed_refl st : flushed st st.
Proof. constructor; auto. Qed.
Lemma flushed_trans a b c : flushed a b -> flushed b c -> flushed a c.
Proof. intros [[[A B]|A] C] [[[D E]|D] F]; constructor; auto; try (right; lia). left. split; congruence. Qed.
Lemma flushed_frame st st' : frame V_PATH st st' -> flushed st st'.
Proof. intros []. constructor; auto. Qed.
Lemma flushed_same st st' : texts st' = texts st -> nums st' = nums st -> specials st' = specials st -> flushed st st'.
Proof. intros A B C. constructor; [left; now rewrite A, B|]. unfold consistent, special_id. now rewrite C. Qed.
Lemma post_flushed {A} st (m : out A) : post m (frame V_PATH st) -> post m (flushed st).
Proof. destruct m; cbn; auto using flushed_frame. Qed.
Lemma post_after {A} st st1 (m : out A) : flushed st st1 -> post m (flushed st1) -> post m (flushed st).
Proof. destruct m; cbn; auto; intros; eapply flushed_trans; eauto. Qed.
Lemma NV : V_PATH <> V_VISUAL. Proof. discriminate. Qed.
Lemma path_id st : consistent st -> special_id st PATH = None \/ special_id st PATH = Some V_PATH.
Proof. intros C. destruct (special_id st PATH) as [j|] eqn:E; auto. apply C in E. right. destruct j; try discriminate. reflexivity. Qed.
Lemma global_flushed st m : flushed st (snd (global st m)).
Proof. unfold global. destruct (find_block _ _); apply flushed_same; reflexivity. Qed.
Lemma setspec_flushed st k m : consistent st -> post (setspec usable_dir st k m) (flushed st).
Proof.
  intros C. destruct (list_eq_dec ascii_dec m PATH) as [->|N]; [|apply post_flushed; apply setspec_frame; auto using NV].
  unfold setspec. destruct (path_id st C) as [E|E]; rewrite E; [apply flushed_refl|]. unfold str_of. destruct (text_of _) as [[s|]|]; cbn; auto; (constructor; [right; cbn; lia|intros; assumption]).
Qed.
Lemma unsetspec_flushed st m : consistent st -> flushed st (unsetspec def_path st m).
Proof.
  intros C. destruct (list_eq_dec ascii_dec m PATH) as [->|N]; [|apply flushed_frame; apply unsetspec_frame; auto using NV].
  unfold unsetspec. destruct (path_id st C) as [E|E]; rewrite E; [apply flushed_refl|]. constructor; [right; cbn; lia|intros; assumption].
Qed.
Lemma setstr_flushed st k m s soft ro : consistent st -> post (setstr ev usable_dir st k m s soft ro) (flushed st).
Proof.
  intros C. unfold setstr. cbv zeta. assert (F : post (if soft then Ok_ tt st else Fail st) (flushed st)) by (destruct soft; apply flushed_refl).
  assert (S : forall x, post (if special (get st k m) then setspec usable_dir (put st k m x) k m else Ok_ tt (put st k m x)) (flushed st)).
  { intros x. assert (P : flushed st (put st k m x)) by (apply flushed_same; reflexivity). destruct (special _); [|exact P]. eapply post_after; [exact P|]. apply setspec_flushed. intros p j. apply C. }
  destruct (rdonly _ && _); auto. destruct (integer _); [|apply S]. destruct (ev s) as [z|]; auto. destruct (in_int64 z); [apply S|exact Logic.I].
Qed.
Lemma pop_flushed b : forall st, consistent st -> post (pop_loop usable_dir def_path b st) (flushed st).
Proof.
  induction b as [|[m v] b IH]; intros st C; cbn [pop_loop]; [apply flushed_refl|]. destruct (special v); [|now apply IH].
  pose proof (global_flushed st m) as FG. destruct (global st m) as [k st1]. cbn [snd] in FG. pose proof (fl_cons _ _ FG C) as C1. apply (post_after st st1); auto. destruct (isset _).
  - pose proof (setspec_flushed st1 k m C1) as X. destruct (setspec usable_dir st1 k m) as [a st2|st2|]; cbn in X |- *; auto. apply (post_after st1 st2); auto. apply IH. exact (fl_cons _ _ X C1).
  - pose proof (unsetspec_flushed st1 m C1) as X. apply (post_after _ _ _ X). apply IH. exact (fl_cons _ _ X C1).
Qed.
Lemma post_q (m : out unit) P : post m P -> post (bind m (fun _ st => Ok_ (A := option cstr) None st)) P.
Proof. destruct m; auto. Qed.
Lemma step_flushed o st : consistent st -> post (step ev usable_dir def_path rand o st) (flushed st).
Proof.
  intros C. destruct o as [m s|m v copy|m|m|m| | |t l]; cbn [step].
  - pose proof (global_flushed st m) as FG. destruct (global st m) as [k st1]. cbn [snd] in FG. apply post_q. apply (post_after _ _ _ FG). apply setstr_flushed. exact (fl_cons _ _ FG C).
  - apply post_q. unfold typeset. assert (FL : flushed st (local st m copy)) by (apply flushed_same; reflexivity). destruct v as [s|]; [|exact FL]. destruct (rdonly _); [exact FL|].
    apply (post_after _ _ _ FL). apply setstr_flushed. exact (fl_cons _ _ FL C).
  - apply post_q. unfold unset. pose proof (global_flushed st m) as FG. destruct (global st m) as [k st1]. cbn [snd] in FG. destruct (rdonly _); [exact FG|]. cbn.
    match goal with |- context [put st1 k m ?x] => assert (P : flushed st (put st1 k m x)) by (eapply flushed_trans; [exact FG|apply flushed_same; reflexivity]); destruct (special (get st1 k m)); [|exact P]; eapply flushed_trans; [exact P|]; apply unsetspec_flushed; exact (fl_cons _ _ P C) end.
  - pose proof (global_flushed st m) as FG. destruct (global st m) as [k st1]. cbn [snd] in FG. cbn. eapply flushed_trans; [exact FG|apply flushed_same; reflexivity].
  - destruct (list_eq_dec ascii_dec m PATH) as [->|N]; [|apply post_flushed; apply read_frame; auto using NV].
    unfold read. pose proof (global_flushed st PATH) as FG. destruct (global st PATH) as [k st1]. cbn [snd] in FG. assert (GS : getspec ev usable_dir rand st1 k PATH = Ok_ tt st1) by (unfold getspec; destruct (path_id st1 (fl_cons _ _ FG C)) as [E|E]; now rewrite E).
    rewrite GS. destruct (special _); cbn [bind]; destruct (text_of _); cbn; auto.
  - apply flushed_same; reflexivity.
  - destruct (blocks st) as [|b [|b' l]]; try exact Logic.I. apply post_q. apply (post_after st (set_blocks st (tl (b :: b' :: l)))); [apply flushed_same; reflexivity|]. apply pop_flushed. exact C.
  - apply flushed_same; reflexivity.
Qed.
Lemma anyhow_consistent t st : anyhow ev usable_dir def_path rand (start def_path t) st -> consistent st.
Proof.
  induction 1 as [|st1 o st2 A IH NX]; [intros m j; apply assoc_names|]. pose proof (step_flushed o st1 IH) as X. unfold next in NX. destruct (step _ _ _ _ o st1); try discriminate; injection NX as <-; exact (fl_cons _ _ X IH).
Qed.
End Flush.
