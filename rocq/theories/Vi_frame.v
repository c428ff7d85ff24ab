(** What the parts of the vi editor leave alone. *)
From Verif Require Import Base Vi_model.
Local Open Scope Z_scope.

Definition ph {A} (r : res A) (P : A -> Prop) : Prop := match r with Ok a => P a | _ => True end.
Lemma ph_ok {A} (r : res A) P a : ph r P -> r = Ok a -> P a.
Proof. intros H ->. exact H. Qed.
Lemma ph_bind {A B} (r : res A) (f : A -> res B) (Q : A -> Prop) P : ph r Q -> (forall a, Q a -> ph (f a) P) -> ph (bind r f) P.
Proof. destruct r; cbn; auto. Qed.
Lemma ph_any {A B} (r : res A) (f : A -> res B) P : (forall a, ph (f a) P) -> ph (bind r f) P.
Proof. destruct r; cbn; auto. Qed.
Lemma ph_mono {A} (r : res A) (P Q : A -> Prop) : ph r P -> (forall a, P a -> Q a) -> ph r Q.
Proof. destruct r; cbn; auto. Qed.

(** Nothing but the line, what is remembered for other commands and the mode changes. *)
Definition K (s s' : st) : Prop :=
  un s' = un s /\ vs s' = vs s /\ cc s' = cc s /\ fin s' = fin s /\ length (ib s') = length (ib s).
Lemma K_refl s : K s s.
Proof. repeat split. Qed.

Lemma splice_len b i t : (i + length t <= length b)%nat -> length (splice b i t) = length b.
Proof. intros H. unfold splice. rewrite !app_length, firstn_length, skipn_length. lia. Qed.
Lemma wr_len b i c t : wr b i c = Ok t -> length t = length b.
Proof.
  unfold wr. destruct ((i <? 0) || _) eqn:E; [discriminate|]. intros [= <-]. apply orb_false_iff in E. destruct E as [E1 E2].
  apply splice_len. cbn. lia.
Qed.

Ltac kd := repeat match goal with |- context [if ?b then _ else _] => destruct b end.
Ltac ksolve :=
  unfold brk, ret, touch, setcur, less_il in *; cbn [ph snd] in *;
  repeat match goal with H : K _ _ |- _ => destruct H as (? & ? & ? & ? & ?) end;
  kd; unfold K; cbn [un vs cc fin ib] in *;
  solve [repeat split; first [assumption | reflexivity | congruence]].
Ltac kpre := cbv zeta; cbn [snd] in *.
Ltac fr s0 lem :=
  kpre;
  lazymatch goal with
  | |- ph (brk _) _ => ksolve
  | |- ph (ret _ _) _ => ksolve
  | |- ph (Ok _) _ => ksolve
  | |- ph Oob _ => exact I
  | |- ph Ovf _ => exact I
  | |- ph (bind ?r ?f) _ =>
      lazymatch type of r with
      | res st => apply (ph_bind r f (K s0)); [fr s0 lem | let a := fresh "a" in intros a ?; fr s0 lem]
      | res (_ * st) => apply (ph_bind r f (fun x => K s0 (snd x))); [fr s0 lem | let a := fresh "a" in intros [? a] ?; fr s0 lem]
      | cres => apply (ph_bind r f (fun x => K s0 (snd x))); [fr s0 lem | let a := fresh "a" in intros [? a] ?; fr s0 lem]
      | _ => apply (ph_any r f); let a := fresh "a" in intros a; try (destruct a as [? a]); fr s0 lem
      end
  | |- ph (if ?b then _ else _) _ => destruct b; fr s0 lem
  | |- ph (match ?b with _ => _ end) _ => destruct b; fr s0 lem
  | |- ph _ _ => first [lem; ksolve | idtac]
  end.

Section F.
Variable k : cfg.
Ltac l0 := idtac; fail.
Lemma yank_K s0 a b s : K s0 s -> ph (yank_range a b s) (K s0).
Proof. intros H. unfold yank_range. apply ph_any. intros t. ksolve. Qed.
Lemma save_K s0 s : K s0 s -> ph (save_cbuf s) (K s0).
Proof. intros H. unfold save_cbuf. apply ph_any. intros t. apply ph_any. intros u. ksolve. Qed.
Lemma restore_K s0 s : K s0 s -> ph (restore_cbuf s) (K s0).
Proof. intros H. unfold restore_cbuf. fr s0 l0. Qed.
Lemma redo_loop_K s0 n : forall s, K s0 s -> ph (redo_loop n s) (fun x => K s0 (snd x)).
Proof.
  induction n as [|n IH]; intros s H; cbn [redo_loop]; [ksolve|].
  apply ph_any. intros [ok e]. destruct ok; [apply IH; ksolve | ksolve].
Qed.
Lemma redo_insert_K s0 n s : K s0 s -> ph (redo_insert k n s) (fun x => K s0 (snd x)).
Proof.
  intros H. unfold redo_insert. apply (ph_bind _ _ (fun x => K s0 (snd x))); [apply redo_loop_K; auto|].
  intros [ok s'] H'. cbn [snd] in H'. destruct ok; [|ksolve]. apply ph_any. intros i. ksolve.
Qed.
Lemma domove_K s0 a c0 c1 sub s : K s0 s -> ph (domove k a c0 c1 sub s) (fun x => K s0 (snd x)).
Proof.
  intros H. unfold domove. cbv zeta.
  repeat match goal with
         | |- ph (if mem ?a ?b then _ else _) _ => destruct (mem a b)
         | |- ph (if ?b then _ else _) _ => destruct b; [try ksolve; try (apply ph_any; intros ?; ksolve)|]; try ksolve
         end; try ksolve; try (apply ph_any; intros ?; ksolve).
  all: fr s0 l0.
Qed.
Lemma load_K s0 h s : K s0 s -> ph (load h s) (K s0).
Proof. intros H. unfold load. fr s0 l0. Qed.
Ltac l1 := first [apply yank_K | apply save_K | apply restore_K | apply redo_insert_K | apply domove_K | apply load_K].
Lemma grabhist_K s0 b n s : K s0 s -> ph (grabhist b n s) (fun x => K s0 (snd x)).
Proof. intros H. unfold grabhist. fr s0 l1. Qed.
Lemma grabsearch_K s0 b n f p s : K s0 s -> ph (grabsearch b n f p s) (fun x => K s0 (snd x)).
Proof.
  intros H. unfold grabsearch. destruct (_ || _); [ksolve|]. destruct (match p with [] => _ | _ => _ end) as [anch p'].
  cbv zeta. destruct (findhist _ _ _ _ _).
  - fr s0 l1.
  - fr s0 l1.
Qed.
Lemma restore_ed_K s0 o s : K s0 s -> ph (restore_ed o s) (K s0).
Proof. intros H. unfold restore_ed. fr s0 l0. Qed.
Ltac l2 := first [l1 | apply grabhist_K | apply grabsearch_K | apply restore_ed_K].
Lemma expand_K s0 c x s : K s0 s -> ph (expand_word c x s) (K s0).
Proof. intros H. unfold expand_word. fr s0 l2. Qed.
Lemma complete_K s0 c m x s : K s0 s -> ph (complete_word c m x s) (K s0).
Proof. intros H. unfold complete_word. fr s0 l2. Qed.
Lemma ins_erase_K s0 s : K s0 s -> ph (ins_erase k s) (fun x => K s0 (snd x)).
Proof. intros H. unfold ins_erase. fr s0 l2. Qed.
Lemma ins_kill_K s0 s : K s0 s -> ph (ins_kill s) (fun x => K s0 (snd x)).
Proof. intros H. unfold ins_kill. fr s0 l2. Qed.
Lemma ins_werase_K s0 s : K s0 s -> ph (ins_werase s) (fun x => K s0 (snd x)).
Proof. intros H. unfold ins_werase. fr s0 l2. Qed.
Lemma ins_char_K s0 c s : K s0 s -> ph (ins_char c s) (fun x => K s0 (snd x)).
Proof.
  intros H. unfold ins_char. cbv zeta. destruct (_ <=? _); [ksolve|]. destruct (wr (ib s) (il s) c) as [t| |] eqn:E; cbn [bind ph]; auto.
  apply wr_len in E. repeat (apply ph_any; intros ?). destruct H as (A & B & C & D & F). cbn [ph snd]. repeat split; auto. exact (eq_trans E F).
Qed.
Lemma code_of_K s0 r : ph r (fun x => K s0 (snd x)) -> ph (code_of r) (fun x => K s0 (snd x)).
Proof. destruct r as [[b s]| |]; cbn; auto. Qed.
Lemma ins_esc_K s0 s : K s0 s -> ph (ins_esc k s) (fun x => K s0 (snd x)).
Proof.
  intros H. unfold ins_esc. cbv zeta.
  assert (G : forall s, K s0 s -> ph (if sc_cmd (cmd0 (lcmd s)) then code_of (redo_insert k 0 s)
    else let! n := int (lac s - 1) in code_of (redo_insert k n s)) (fun x => K s0 (snd x))).
  { intros s' H'. destruct (sc_cmd _); [|apply ph_any; intros n]; apply code_of_K, redo_insert_K; auto. }
  destruct (fi _); [destruct (_ =? 0); [apply code_of_K, redo_insert_K; ksolve|]|]; apply G; ksolve.
Qed.
Ltac l3 := first [l2 | apply expand_K | apply complete_K | apply ins_erase_K | apply ins_kill_K | apply ins_werase_K | apply ins_char_K | apply ins_esc_K].
Lemma vi_insert_K s0 c x s : K s0 s -> ph (vi_insert k c x s) (fun x => K s0 (snd x)).
Proof. intros H. unfold vi_insert. fr s0 l3. Qed.
Lemma upd_K s0 f s : K s0 s -> ph (upd f s) (K s0).
Proof. intros H. unfold upd. fr s0 l0. Qed.
Ltac l4 := first [l3 | apply upd_K].
Lemma cdy_end_K s0 c a b s : K s0 s -> ph (cdy_end c a b s) (fun x => K s0 (snd x)).
Proof. intros H. unfold cdy_end. fr s0 l4. Qed.
Ltac l5 := first [l4 | apply cdy_end_K].
Lemma cmd_cdy_K s0 a c0 c1 c2 s : K s0 s -> ph (cmd_cdy k a c0 c1 c2 s) (fun x => K s0 (snd x)).
Proof. intros H. unfold cmd_cdy. fr s0 l5. Qed.
Lemma put_loop_K s0 f : forall a s, K s0 s -> ph (put_loop f a s) (fun x => K s0 (snd x)).
Proof.
  induction f as [|f IH]; intros a s H; cbn [put_loop]; [exact I|]. apply ph_any. intros [ok e].
  destruct ok; [|ksolve]. destruct (_ <? _); [apply IH|]; ksolve.
Qed.
Ltac l6 := first [l5 | apply cmd_cdy_K | apply put_loop_K].
Lemma put_end_K s0 a s : K s0 s -> ph (put_end k a s) (fun x => K s0 (snd x)).
Proof. intros H. unfold put_end. fr s0 l6. Qed.
Ltac l7 := first [l6 | apply put_end_K].
Lemma cmd_p_K s0 a s : K s0 s -> ph (cmd_p k a s) (fun x => K s0 (snd x)).
Proof. intros H. unfold cmd_p. fr s0 l7. Qed.
Lemma cmd_grab_K s0 n s : K s0 s -> ph (cmd_grab n s) (fun x => K s0 (snd x)).
Proof. intros H. unfold cmd_grab. fr s0 l7. Qed.
Ltac l8 := first [l7 | apply cmd_p_K | apply cmd_grab_K].
Lemma cmd_G_K s0 n s : K s0 s -> ph (cmd_G n s) (fun x => K s0 (snd x)).
Proof. intros H. unfold cmd_G. fr s0 l8. Qed.
Lemma cmd_r_K s0 a c s : K s0 s -> ph (cmd_r k a c s) (fun x => K s0 (snd x)).
Proof. intros H. unfold cmd_r. fr s0 l8. Qed.
Lemma cmd_s_K s0 a s : K s0 s -> ph (cmd_s k a s) (fun x => K s0 (snd x)).
Proof. intros H. unfold cmd_s. fr s0 l8. Qed.
Lemma cmd_x_K s0 a s : K s0 s -> ph (cmd_x k a s) (fun x => K s0 (snd x)).
Proof. intros H. unfold cmd_x. fr s0 l8. Qed.
Lemma cmd_X_K s0 a s : K s0 s -> ph (cmd_X k a s) (fun x => K s0 (snd x)).
Proof. intros H. unfold cmd_X. fr s0 l8. Qed.
Lemma cmd_v_K s0 a s : K s0 s -> ph (cmd_v a s) (fun x => K s0 (snd x)).
Proof. intros H. unfold cmd_v. fr s0 l8. Qed.
Lemma cmd_search_K s0 c s : K s0 s -> ph (cmd_search c s) (fun x => K s0 (snd x)).
Proof. intros H. unfold cmd_search. cbv zeta. 
  match goal with |- context [ceq (lsrch ?x) _] => assert (K s0 x) as G by ksolve; generalize dependent x end.
  intros s' G. fr s0 l8.
Qed.
Lemma cmd_under_K s0 a s : K s0 s -> ph (cmd_under a s) (fun x => K s0 (snd x)).
Proof. intros H. unfold cmd_under. fr s0 l8. Qed.
Lemma tilde_K s0 n : forall s, K s0 s -> ph (tilde_loop n s) (K s0).
Proof.
  induction n as [|n IH]; intros s H; cbn [tilde_loop]; [ksolve|]. cbv zeta. apply ph_any. intros c.
  apply (ph_bind _ _ (fun x => K s0 (snd x))).
  - fr s0 l8.
  - intros [b s'] H'. cbn [snd] in H'. apply IH. ksolve.
Qed.
Lemma cmd_tilde_K s0 a s : K s0 s -> ph (cmd_tilde a s) (fun x => K s0 (snd x)).
Proof.
  intros H. unfold cmd_tilde. destruct (_ =? _); [ksolve|]. apply (ph_bind _ _ (K s0)); [apply tilde_K; auto|]. intros; ksolve.
Qed.
Ltac l9 := first [l8 | apply cmd_G_K | apply cmd_r_K | apply cmd_s_K | apply cmd_x_K | apply cmd_X_K | apply cmd_v_K | apply cmd_search_K | apply cmd_under_K | apply cmd_tilde_K].
(** Only [u] changes the other edit state. *)
Lemma command_K s0 a cmd x s : K s0 s -> cmd0 cmd <> "u"%char -> ph (command k a cmd x s) (fun x => K s0 (snd x)).
Proof.
  intros H U. unfold command. cbv zeta.
  repeat match goal with
         | |- ph (if ?b then _ else _) _ =>
             lazymatch b with
             | ceq _ "u" => destruct b eqn:?; [exfalso; apply U, ceq_true; assumption|]
             | _ => destruct b; [solve [fr s0 l9]|]
             end
         end; fr s0 l9.
Qed.
End F.
