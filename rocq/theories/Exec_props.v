(** C28, C29: status of commands, errexit, break and continue. *)
From Verif Require Import Base Exec_model Exec_spec Exec_proof.
Local Open Scope Z_scope.

(** What the executor reports for an outcome, outside any loop *)
Definition reported (o : oc) (u : out) : Prop :=
  match o with
  | Done rv _ => u = Ret rv
  | Quit => u = Jump JExit
  | Err => u = Jump JError
  | Retn => u = Jump JReturn
  | _ => False
  end.

Lemma ok_reported {S} m o p u x (s : @st S) : ok m 0 [] o p (u, x, s) -> reported o u /\ p = abs s.
Proof. intros (-> & _ & H). split; [|reflexivity]. destruct o; cbn; try tauto; lia. Qed.

(** C28.  With errexit off throughout, every command has the status its definition gives,
    and leaves the state its definition gives. *)
Theorem c28_status : forall (S : Type) (d : disp S) n c w q u x s', join_law d -> quiet c = true ->
  (forall w f body, d_fun d w f = Some body -> quiet body = true) ->
  execute d n c (Xf false false) false (St w false q []) = Some (u, x, s') ->
  exists o, run d false 0 false c (Sp w false q) o (Sp (s_w s') (s_e s') (s_q s')) /\ reported o u.
Proof.
  intros S d n c w q u x s' J Hq Hf H.
  assert (G : forall w f body, d_fun d w f = Some body -> good (fun _ => false) false body = true /\ (false = true -> (fun _ : nat => false) f = true -> calm (fun _ => false) body = true))
    by (intros; split; [eapply Hf; eauto|discriminate]).
  destruct (proj1 (sound d (fun _ => false) false G J n) c (Xf false false) false false _ _ 0%nat [] (fun _ => eq_refl) H Hq (flag_refl _ _) (fun _ => eq_refl) I eq_refl eq_refl) as (o & p' & R & O).
  apply ok_reported in O. destruct O as [O ->]. exists o. split; [exact R|exact O].
Qed.
Print Assumptions c28_status.

(** C28.  With errexit on or off, for commands in which the flag xerrok shared between
    commands can do no harm: no eval; nothing of the form && || ! at the end of the left side of
    && or || or of the body of while, until or select.  Missing: those commands. *)
Theorem c28_errexit_partial : forall (S : Type) (d : disp S) cf n c w e q u x s', join_law d -> plain cf c = true -> tame d cf ->
  execute d n c (Xf false false) false (St w e q []) = Some (u, x, s') ->
  exists o, run d false 0 false c (Sp w e q) o (Sp (s_w s') (s_e s') (s_q s')) /\ reported o u.
Proof.
  intros S d cf n c w e q u x s' J Hp Ht H.
  assert (G : forall w f body, d_fun d w f = Some body -> good cf true body = true /\ (true = true -> cf f = true -> calm cf body = true))
    by (intros w0 f0 b0 E0; destruct (Ht w0 f0 b0 E0); auto).
  assert (O0 : off true (St w e q [])) by (intros; discriminate).
  destruct (proj1 (sound d cf true G J n) c (Xf false false) false false _ _ 0%nat [] (fun _ => eq_refl) H Hp (flag_refl _ _) O0 I eq_refl eq_refl) as (o & p' & R & O).
  apply ok_reported in O. destruct O as [O ->]. exists o. split; [exact R|exact O].
Qed.
Print Assumptions c28_errexit_partial.

(** C29.  break and continue inside [lv] loops of the current function, itself called from
    anywhere ([rest]): the loops left or resumed are those the semantics counts, the
    environments outside are as before. *)
Definition jumped (lv : nat) (rest : list frame) (o : oc) (u : out) (k : list frame) : Prop :=
  match o with
  | Done rv _ => u = Ret rv /\ k = loops lv ++ rest
  | Brk n => u = Jump JBreak /\ (1 <= n <= lv)%nat /\ k = marked (n - 1) ++ loops (lv - n + 1) ++ rest
  | Cnt n => u = Jump JCont /\ (1 <= n <= lv)%nat /\ k = marked (n - 1) ++ loops (lv - n + 1) ++ rest
  | Retn => u = Jump JReturn
  | Err => u = Jump JError
  | Quit => u = Jump JExit
  end.
Theorem c29_break_continue : forall (S : Type) (d : disp S) n c w q lv rest u x s', join_law d -> quiet c = true ->
  (forall w f body, d_fun d w f = Some body -> quiet body = true) -> base rest ->
  execute d n c (Xf false false) false (St w false q (loops lv ++ rest)) = Some (u, x, s') ->
  exists o, run d false lv (in_function rest) c (Sp w false q) o (Sp (s_w s') (s_e s') (s_q s')) /\ jumped lv rest o u (s_k s').
Proof.
  intros S d n c w q lv rest u x s' J Hq Hf Hb H.
  assert (G : forall w f body, d_fun d w f = Some body -> good (fun _ => false) false body = true /\ (false = true -> (fun _ : nat => false) f = true -> calm (fun _ => false) body = true))
    by (intros; split; [eapply Hf; eauto|discriminate]).
  destruct (proj1 (sound d (fun _ => false) false G J n) c (Xf false false) false false _ _ lv rest (fun _ => eq_refl) H Hq (flag_refl _ _) (fun _ => eq_refl) Hb eq_refl eq_refl) as (o & p' & R & (-> & _ & O)).
  exists o. split; [exact R|]. destruct o; cbn; tauto.
Qed.
Print Assumptions c29_break_continue.

(** A function call never breaks or continues a loop of its caller. *)
Theorem c29_function : forall (S : Type) (d : disp S) n f w q lv rest u x s', join_law d ->
  (forall w f body, d_fun d w f = Some body -> quiet body = true) -> base rest ->
  execute d n (Call f) (Xf false false) false (St w false q (loops lv ++ rest)) = Some (u, x, s') ->
  (exists rv, u = Ret rv /\ s_q s' = rv /\ s_k s' = loops lv ++ rest) \/ u = Jump JExit.
Proof.
  intros S d n f w q lv rest u x s' J Hf Hb H.
  destruct (c29_break_continue S d n (Call f) w q lv rest u x s' J eq_refl Hf Hb H) as (o & R & O).
  assert (K : exists rv ex, o = Done rv ex \/ o = Quit).
  { inversion R; subst; try (exists 0, false; right; reflexivity);
      match goal with E : settle _ _ _ _ = _ |- _ => unfold settle in E; injection E as Eo _; rewrite <- Eo end; match goal with |- context [if ?b then _ else _] => destruct b | _ => idtac end; first [eexists _, _; left; reflexivity|exists 0, false; right; reflexivity]. }
  destruct K as (rv & ex & [-> | ->]); [|right; exact O]. left. exists rv. destruct O as [-> O2]. split; [reflexivity|]. split; [|exact O2].
  eapply ret_q; [exact H|reflexivity].
Qed.
Print Assumptions c29_function.

(** * Cases *)
(** The state is a log; command k writes k and succeeds when k is even; command 99 is an
    error; word list k is k words; a child's log is its parent's. *)
Definition logd (fns : nat -> option cmd) : disp (list nat) := {|
  d_com := fun k w _ => (k :: w, if (k =? 99)%nat then RErr else RStat (if Nat.even k then 0 else 1));
  d_fun := fun _ f => fns f;
  d_enter := fun f w => w; d_leave := fun _ w => w;
  d_words := fun k w => (w, seq 100 k);
  d_set := fun k w => Some (k :: w);
  d_select := fun k w => (w, if (length w <? 20)%nat then Some 50%nat else None);
  d_word := fun _ w => w; d_pat := fun p w => (w, Nat.even p);
  d_join := fun _ c => c; d_async := fun _ w => w; d_pipefail := fun w => false |}.
Lemma logd_join fns : join_law (logd fns). Proof. intros p c x. reflexivity. Qed.
Definition go (fns : nat -> option cmd) (e : bool) (c : cmd) : option (out * list nat * Z) :=
  match execute (logd fns) 200 c (Xf false false) false (St [] e 0 []) with
  | Some (u, _, s) => Some (u, rev (s_w s), s_q s)
  | None => None
  end.
Definition no_fns : nat -> option cmd := fun _ => None.

(** true && false || true; { false; } | true; if ! true; then 3; else case ... *)
Example c28_status_case :
  go no_fns false (Seq (And (Plain 2) (Plain 1)) (Seq (Pipe (Brace (Plain 3)) (Plain 4)) (If (Not (Plain 6)) (Plain 5) (Case 0 (Arm 1 (Plain 8) (Arm 2 (Plain 7) Nop))))))
  = Some (Ret 1, [2; 1; 3; 4; 6; 7]%nat, 1).
Proof. vm_compute. reflexivity. Qed.
Example c28_errexit_case :
  go no_fns true (Seq (If (Plain 1) Nop Nop) (Seq (And (Plain 3) (Plain 2)) (Seq (Not (Plain 4)) (Seq (Subshell (Plain 5)) (Plain 6)))))
  = Some (Jump JExit, [1; 3; 4; 5]%nat, 1) /\
  plain (fun _ => true) (Seq (If (Plain 1) Nop Nop) (Seq (And (Plain 3) (Plain 2)) (Seq (Not (Plain 4)) (Seq (Subshell (Plain 5)) (Plain 6))))) = true.
Proof. vm_compute. split; reflexivity. Qed.
(** three loops: break 2 leaves two of them, break 7 all, continue 2 resumes the second *)
Example c29_case_break : go no_fns false (For 2 (Seq (For 2 (Seq (For 2 (Break 2)) (Plain 2))) (Plain 4)))
  = Some (Ret 0, [100; 100; 100; 4; 101; 100; 100; 4]%nat, 0).
Proof. vm_compute. reflexivity. Qed.
Example c29_case_break_all : go no_fns false (For 2 (Seq (For 2 (Seq (For 2 (Break 7)) (Plain 2))) (Plain 4))) = Some (Ret 0, [100; 100; 100]%nat, 0).
Proof. vm_compute. reflexivity. Qed.
Example c29_case_continue : go no_fns false (For 1 (Seq (For 2 (Seq (For 2 (Continue 2)) (Plain 2))) (Plain 4)))
  = Some (Ret 0, [100; 100; 100; 101; 100; 4]%nat, 0).
Proof. vm_compute. reflexivity. Qed.
Example c29_case_function : go (fun _ => Some (For 2 (Break 3))) false (For 2 (Seq (Call 0) (Plain 2))) = Some (Ret 0, [100; 100; 2; 101; 100; 2]%nat, 0).
Proof. vm_compute. reflexivity. Qed.

(** * Where the code departs from C28 *)
Definition exits (c : cmd) : Prop := forall fns s o s', run (logd fns) false 0 false c (Sp s true 0) o s' -> o = Quit.
Ltac inv H := inversion H; subst; clear H; cbn in *.
Ltac sett := repeat match goal with E : settle _ _ _ _ = _ |- _ => unfold settle in E; cbn in E; injection E; clear E; intros; subst; cbn in * end.

(** set -e; false && true || false; echo: the last false is outside any exempt position,
    but the shell goes on: the flag set by && is still up when || looks at it. *)
Theorem c28_errexit_refuted :
  exits (Or (And (Plain 1) (Plain 2)) (Plain 3)) /\
  go no_fns true (Seq (Or (And (Plain 1) (Plain 2)) (Plain 3)) (Plain 4)) = Some (Ret 0, [1; 3; 4]%nat, 0).
Proof.
  split; [|vm_compute; reflexivity]. intros fns s o s' H.
  inversion H; subst; clear H.
  - (* the left side succeeds: no *) match goal with H : run _ _ _ _ (And _ _) _ _ _ |- _ => inversion H; subst; clear H end.
    + congruence.
    + match goal with H : run _ _ _ _ (Plain 1) _ _ _ |- _ => inversion H; subst; clear H; cbn in *; try congruence end.
      match goal with E : (_ :: _, RStat _) = _ |- _ => injection E as <- <- end. sett. congruence.
    + contradiction.
  - match goal with H : run _ _ _ _ (And _ _) _ _ _ |- _ => inversion H; subst; clear H end; try contradiction.
    + match goal with H : run _ _ _ _ (Plain 1) _ _ _ |- _ => inversion H; subst; clear H; cbn in *; try congruence end.
      match goal with E : (_ :: _, RStat _) = _ |- _ => injection E as <- <- end. sett.
      match goal with H : run _ _ _ _ (Plain 3) _ _ _ |- _ => inversion H; subst; clear H; cbn in *; try congruence end.
      match goal with E : (_ :: _, RStat _) = _ |- _ => injection E as <- <- end. sett.
      match goal with E : (Quit, _) = _ |- _ => injection E as <- _; reflexivity | E : ends _ _ _ = _ |- _ => cbn in E; injection E as <- _; reflexivity end.
    + match goal with H : run _ _ _ _ (Plain 1) _ _ _ |- _ => inversion H; subst; clear H; cbn in *; try congruence end.
      match goal with E : (_ :: _, RStat _) = _ |- _ => injection E as <- <- end. sett. congruence.
  - match goal with H : run _ _ _ _ (And _ _) _ _ _ |- _ => inversion H; subst; clear H end; try contradiction.
    + match goal with H : run _ _ _ _ (Plain 1) _ _ _ |- _ => inversion H; subst; clear H; cbn in *; try congruence end.
      match goal with E : (_ :: _, RStat _) = _ |- _ => injection E as <- <- end. sett. congruence.
    + match goal with H : run _ _ _ _ (Plain 1) _ _ _ |- _ => inversion H; subst; clear H; cbn in *; try congruence end.
      match goal with E : (_ :: _, RStat _) = _ |- _ => injection E as <- <- end. sett. contradiction.
Qed.
Print Assumptions c28_errexit_refuted.

(** set -e; eval false; echo: errexit is not looked at inside eval, but eval itself fails.
    set -e; eval 'false; true'; echo: the failure goes unnoticed.
    eval 'set -e' has no effect.  A function that returns from inside eval switches errexit
    off: f() { eval 'return 0'; }; set -e; f; false; echo. *)
Theorem c28_eval_refuted :
  go no_fns true (Eval (Plain 1)) = Some (Jump JExit, [1]%nat, 1) /\
  go no_fns true (Seq (Eval (Seq (Plain 1) (Plain 2))) (Plain 4)) = Some (Ret 0, [1; 2; 4]%nat, 0) /\
  go no_fns false (Seq (Eval (SetE true)) (Seq (Plain 1) (Plain 2))) = Some (Ret 0, [1; 2]%nat, 0) /\
  go (fun _ => Some (Eval (Return (Some 0)))) true (Seq (Call 0) (Seq (Plain 1) (Plain 2))) = Some (Ret 0, [1; 2]%nat, 0).
Proof. repeat split; vm_compute; reflexivity. Qed.
Print Assumptions c28_eval_refuted.
