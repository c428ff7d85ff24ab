(** C45: traps.  Proofs in Trap_proof.v and Trap_run.v. *)
From Coq Require Import ZArith List Bool Lia String.
From Verif Require Import Base Trap_model Trap_spec Trap_proof Trap_run.
Import ListNotations.
Local Open Scope string_scope.
Local Open Scope list_scope.
Local Open Scope Z_scope.

(** ** Dispositions *)
(** After any history of trap commands, signals, traps run and subshells, the disposition of
    each signal is the one that the trap setting demands. *)
Theorem c45_disposition_partial o talk ls p : fine talk setting0 ls -> is_sig p -> p <> SIGCHLD ->
  let s := acts ls (init o talk) in let g := settings ls in
  tr (ents s p) = g_tr g p /\ disp s p = demanded (stays o talk g p) p (g_tr g p) (g_bg g p).
Proof.
  intros F P N. pose proof (inv_acts o talk ls setting0 _ (inv_init o talk) F) as (_ & _ & I). specialize (I p P). apply Z.eqb_neq in N. rewrite N in I.
  destruct I as [_ _ H3 _ _ _ _ _ _ H9 _]. split; [exact H3|]. cbv zeta. rewrite H9. unfold demanded, stays, settings. destruct (o p && _); [auto|]. reflexivity.
Qed.
Print Assumptions c45_disposition_partial.

(** Programs started by a child of the shell. *)
Theorem c45_program_partial o talk ls p bg : fine talk setting0 ls -> is_sig p ->
  let g := settings ls in program false bg (acts ls (init o talk)) p = wants (stays o talk g p) (g_tr g p) (g_bg g p).
Proof. intros F P. apply program_inv; [|auto]. apply inv_acts; [apply inv_init|auto]. Qed.
Print Assumptions c45_program_partial.

(** A signal ignored when a non-interactive shell starts: always ignored, in the shell, its
    subshells and the programs, and never pending. *)
Theorem c45_ignored o ls p : fine false setting0 ls -> is_sig p -> p <> SIGCHLD -> o p = true ->
  let s := acts ls (init o false) in
  disp s p = HIgn /\ pend (ents s p) = false /\ (forall bg, program false bg s p = HIgn) /\ deliver s p = s.
Proof.
  intros F P N O. cbv zeta.
  assert (forall l1, fine false setting0 l1 -> disp (acts l1 (init o false)) p = HIgn) as D.
  { intros l1 F1. destruct (c45_disposition_partial o false l1 p F1 P N) as (_ & ->). unfold demanded, stays. rewrite O. reflexivity. }
  split; [auto|]. split; [|split].
  - revert F. induction ls as [|l ls IH] using rev_ind; intros F; [apply trapf_init|].
    assert (fine false setting0 ls) as F1.
    { clear - F. revert F. generalize setting0. induction ls as [|x ls IH]; intros g F; [exact I|]. destruct F as (A & B). split; [exact A|]. apply IH. exact B. }
    specialize (IH F1). specialize (D ls F1). unfold acts in *. rewrite fold_left_app. cbn [fold_left]. set (s := fold_left act ls (init o false)) in *. clearbody s.
    pose proof (not_special p P) as NS. destruct l as [q t|q| |q|q e| | | | | | |bg]; cbn [act]; auto.
    + destruct (settrap_eq s q t) as (E & _). destruct (E p) as (-> & _). auto.
    + destruct (deliver_or s q) as [->|(HT & ->)]; [auto|]. destruct (trapsig_eq s q) as (-> & _). unfold upd. destruct (p =? q) eqn:K; [|auto]. apply Z.eqb_eq in K. subst. congruence.
    + destruct (trapsig_eq s SIGERR) as (-> & _). unfold upd. destruct (p =? SIGERR) eqn:K; [|auto]. rewrite orb_true_r in NS. discriminate.
    + cbn. unfold upd. destruct (p =? q); auto.
    + destruct ((q =? SIGEXIT) || (q =? SIGERR)) eqn:SQ; [|auto]. cbn. unfold upd. destruct (p =? q) eqn:K; [|auto]. apply Z.eqb_eq in K. subst. congruence.
    + assert (forall s f, keeps s (snd (setsig s SIGPIPE f RCurr false false false))) as X by (intros; apply keeps_setsig).
      change (pend (ents (act s LPrint) p) = false). cbn [act]. destruct (block_pipe s) as (b, s1) eqn:E. assert (keeps s s1) as K.
      { unfold block_pipe in E. destruct (orig _); [destruct (heq _ _)|]; injection E as <- <-; auto using keeps_refl. }
      unfold restore_pipe. destruct K as (K & _). destruct (K p) as (K1 & _). destruct b; [destruct (X s1 HDfl) as (K2 & _); destruct (K2 p) as (-> & _)|]; congruence.
    + unfold child. set (s1 := if bg && _ then _ else _). set (s2 := with_talk s1 false false). clearbody s2. clear - P. unfold cleartraps. set (s3 := with_flags _ _ _ _). clearbody s3.
      destruct (fold_one clear1 sigs only_clear1 sigs_nodup s3) as (_ & _ & _ & D). destruct (D p) as (s4 & _ & _ & _ & -> & _); [apply sigs_in; destruct P; lia|].
      unfold clear1. cbv zeta. set (s5 := with_ent s4 p _). assert (pend (ents s5 p) = false) as E5 by (cbn; rewrite upd_same; reflexivity). clearbody s5.
      destruct (_ && _); [|auto]. destruct (settrap_eq s5 p None) as (E & _). destruct (E p) as (-> & _). auto.
  - intros bg. rewrite c45_program_partial; auto. unfold wants, stays. rewrite O. reflexivity.
  - unfold deliver. rewrite (D ls F). reflexivity.
Qed.
Print Assumptions c45_ignored.

(** ** Running traps *)
Definition from_start (body : text -> list op) (o : Z -> bool) (talk : bool) (n : nat) (l : list op) (s : st) : Prop :=
  state (run body n (TList l) (init o talk)) = Some s.
(** The disposition after any commands: only the latest trap setting counts. *)
Theorem c45_latest body o talk n l s p : from_start body o talk n l s -> is_sig p -> p <> SIGCHLD ->
  disp s p = demanded (o p && (negb talk || negb (touched p (log s)))) p (in_force p (log s)) false.
Proof.
  intros H P N. pose proof (linv_run body n p (not_special p P) (TList l) (init o talk) s ltac:(discriminate) (linv_init o talk p P) H) as (_ & A & B & _).
  destruct (run_steps body n _ _ _ H) as (ls & PL & ->).
  assert (forall g, g_bg g p = false -> g_bg (fold_left set1 ls g) p = false /\ fine talk g ls) as X.
  { clear - PL. induction ls as [|x ls IH]; intros g G; [split; [exact G|exact I]|]. inversion PL as [|? ? P1 P2]; subst. cbn [fold_left fine].
    destruct (IH P2 (set1 g x)) as (X1 & X2); [|split; [auto|split; [destruct x; auto; destruct P1|auto]]].
    destruct x; cbn; auto; [|destruct P1]. unfold upd. destruct (_ =? _); auto. }
  destruct (X setting0 eq_refl) as (BG & F). pose proof (inv_acts o talk ls setting0 _ (inv_init o talk) F) as (_ & _ & I). specialize (I p P). apply Z.eqb_neq in N. rewrite N in I.
  destruct I as [_ _ H3 H4 _ _ _ _ _ H9 _]. rewrite H9, BG, <- A, <- B, H3, H4. unfold demanded. destruct (o p && _); reflexivity.
Qed.
Print Assumptions c45_latest.

(** Each time that the trap of a signal is run, the signal has arrived since the last time,
    and what is run is the action in force; a signal is pending exactly when it has arrived
    and its trap has not been run since. *)
Theorem c45_once_per_arrival body o talk n l s p : from_start body o talk n l s -> is_sig p -> orderly p (log s) /\ pend (ents s p) = waiting p (log s).
Proof.
  intros H P. pose proof (linv_run body n p (not_special p P) (TList l) (init o talk) s ltac:(discriminate) (linv_init o talk p P) H) as (A & _ & _ & B). auto.
Qed.
Print Assumptions c45_once_per_arrival.

(** runtraps runs the trap of every signal that is pending. *)
Lemma taken_or body n t s s' p : special p = false -> pend (ents s p) = true -> state (run body n t s) = Some s' ->
  exists new, log s' = new ++ log s /\ (pend (ents s' p) = true \/ In p (takes new)).
Proof.
  intros SP PE. apply (run_ind body (fun s' => exists new, log s' = new ++ log s /\ (pend (ents s' p) = true \/ In p (takes new)))) with (C := fun _ _ => True); auto.
  - intros s1 q t1 (new & L & H). destruct (settrap_eq s1 q t1) as (E & _ & _ & _ & _ & _ & ->). exists (Set_ q t1 :: new). rewrite L. split; [auto|]. destruct (E p) as (-> & _). destruct H; [auto|right].
    change (Set_ q t1 :: new) with ([Set_ q t1] ++ new). rewrite takes_app. apply in_or_app. auto.
  - intros s1 q (new & L & H). destruct (deliver_or s1 q) as [->|(_ & ->)]; [eauto|]. destruct (trapsig_eq s1 q) as (E & _ & _ & _ & _ & _ & _ & _ & ->). exists (Deliv q :: new). rewrite L. split; [auto|]. rewrite E. unfold upd. destruct (p =? q); [auto|]. destruct H; [auto|right].
    change (Deliv q :: new) with ([Deliv q] ++ new). rewrite takes_app. apply in_or_app. auto.
  - intros s1 (new & L & H). destruct (trapsig_eq s1 SIGERR) as (E & _ & _ & _ & _ & _ & _ & _ & ->). exists (Deliv SIGERR :: new). rewrite L. split; [auto|]. rewrite E. unfold upd. destruct (p =? SIGERR); [auto|]. destruct H; [auto|right].
    change (Deliv SIGERR :: new) with ([Deliv SIGERR] ++ new). rewrite takes_app. apply in_or_app. auto.
  - intros s1 q (new & L & H) _. exists (Take q (tr (ents s1 q)) :: new). unfold take. cbn [note log with_ent ents]. rewrite L. split; [auto|]. change (Take q (tr (ents s1 q)) :: new) with ([Take q (tr (ents s1 q))] ++ new). rewrite takes_app. unfold upd. destruct (p =? q) eqn:K.
    + apply Z.eqb_eq in K. subst. right. apply in_or_app. right. left. auto.
    + destruct H; [auto|right; apply in_or_app; auto].
  - intros s1 q e Q (new & L & H). exists new. split; [exact L|]. cbn. unfold upd. destruct (p =? q) eqn:K; [|auto]. apply Z.eqb_eq in K. congruence.
  - exists []. auto.
Qed.
Lemma loop_taken body n : forall l s s' p, special p = false -> In p l -> pend (ents s p) = true -> run body n (TLoop RAll l) s = Fin s' -> exists new, log s' = new ++ log s /\ In p (takes new).
Proof.
  induction n as [|n IH]; [discriminate|]. intros [|q l] s s' p SP IN PE; [destruct IN|]. destruct IN as [->|IN]; cbn [run].
  - rewrite PE. cbn. destruct (run body n (TTrap p) s) as [s1| | |] eqn:E; cbn; try discriminate. intros H.
    destruct n as [|m]; [discriminate|]. cbn [run] in E. set (s2 := note _ _) in E.
    assert (exists n1, log s1 = n1 ++ log s2) as (n1 & L1).
    { destruct (tr (ents s p)) as [[|c a]|].
      - injection E as <-. exists []. auto.
      - cbv zeta in E. destruct ((p =? SIGEXIT) || (p =? SIGERR)).
        + match type of E with bind ?r _ = _ => destruct r as [s3| | |] eqn:E3; cbn [bind] in E; try discriminate end. injection E as <-. exact (run_log body m _ _ s3 (f_equal state E3)).
        + match type of E with bind ?r _ = _ => destruct r as [s3| | |] eqn:E3; cbn [bind] in E; try discriminate end. injection E as <-. exact (run_log body m _ _ s3 (f_equal state E3)).
      - destruct (fatal _); [discriminate|]. destruct (dfli _); [|injection E as <-; exists []; auto]. destruct (run_log body m _ _ s1 (f_equal state E)) as (n1 & L). exists n1. exact L. }
    destruct (run_log body (S m) _ _ s' (f_equal state H)) as (n2 & L2). rewrite L1 in L2. exists (n2 ++ n1 ++ [Take p (tr (ents s p))]). split; [rewrite <- !app_assoc; exact L2|]. rewrite !takes_app. apply in_or_app. left. apply in_or_app. left. left. auto.
  - destruct (_ && _); [|apply IH; auto]. destruct (run body n (TTrap q) s) as [s1| | |] eqn:E; cbn; try discriminate. intros H.
    destruct (taken_or body n _ _ s1 p SP PE (f_equal state E)) as (n1 & L1 & [PE1|IN1]).
    + destruct (IH _ _ _ _ SP IN PE1 H) as (n2 & L2 & I2). exists (n2 ++ n1). rewrite L2, L1, app_assoc. split; [auto|]. rewrite takes_app. apply in_or_app. auto.
    + destruct (run_log body n _ _ s' (f_equal state H)) as (n2 & L2). exists (n2 ++ n1). rewrite L2, L1, app_assoc. split; [auto|]. rewrite takes_app. apply in_or_app. auto.
Qed.
Theorem c45_all_pending body n s s' p : run body n (TRun RAll) s = Fin s' -> is_sig p -> pend (ents s p) = true -> exists new, log s' = new ++ log s /\ In p (takes new).
Proof.
  destruct n as [|n]; [discriminate|]. cbn [run]. intros H P PE. destruct (run body n (TLoop RAll sigs) _) as [s1| | |] eqn:E; try discriminate. injection H as <-.
  destruct (loop_taken body n sigs (with_flags s false (intrf s) (fatalf s)) s1 p (not_special p P) ltac:(apply sigs_in; destruct P; lia) PE E) as (new & L & X). exists new. auto.
Qed.
Print Assumptions c45_all_pending.

(** When nothing arrives meanwhile and no action is left by return, break or an error: once
    each, in the order of their numbers, and nothing is left pending. *)
Theorem c45_in_order_partial body n s s' new : run body n (TRun RAll) s = Fin s' -> cut s' = false -> log s' = new ++ log s -> silent new ->
  filter ord (takes new) = filter (fun p => ord p && pend (ents s p)) sigs /\ (forall p, is_sig p -> pend (ents s' p) = false) /\ trapf s' = false.
Proof.
  destruct n as [|n]; [discriminate|]. cbn [run]. intros H NC LG SI. set (s1 := with_flags _ _ _ _) in H. destruct (run body n (TLoop RAll sigs) s1) as [s2| | |] eqn:E; try discriminate. injection H as <-.
  destruct (run_quiet body n (TLoop RAll sigs) s1 s2 new) as (A & B); auto; [discriminate|left; auto|]. destruct (B sigs_nodup) as (B1 & B2). split; [exact B1|]. split; [|auto].
  intros p P. rewrite B2 by (unfold ord; change (special p) with ((p =? SIGEXIT) || (p =? SIGERR)); now rewrite (not_special p P)).
  assert (existsb (Z.eqb p) sigs = true) as -> by (apply existsb_exists; exists p; split; [apply sigs_in; destruct P; lia|apply Z.eqb_refl]). apply andb_false_r.
Qed.
Print Assumptions c45_in_order_partial.

(** As long as no pass over the pending traps has been cut short, whatever is pending will be
    run at the next point: the flag [trap] is set. *)
Theorem c45_not_forgotten_partial body o talk n l s p : run body n (TList l) (init o talk) = Fin s -> cut s = false -> is_sig p -> pend (ents s p) = true -> trapf s = true.
Proof.
  intros H NC P PE. destruct (run_owed body n (TList l) (fun _ => False) (init o talk) s) with (p := p) as [X|[]]; auto; [left; auto| |destruct P; lia].
  intros q Q PQ. destruct (trapf_init o talk) as (_ & _ & _ & X). rewrite X in PQ. discriminate.
Qed.
Print Assumptions c45_not_forgotten_partial.

(** The EXIT and ERR traps: between commands what is set for them is what the last trap command
    set (also when it is one run by the action itself), and an action that has been run is the
    one that was in force -- as long as no action has been left by unwinding
    (c45_err_trap_lost_refuted). *)
Theorem c45_special_partial body o talk n l s p : run body n (TList l) (init o talk) = Fin s -> cut s = false -> p = SIGEXIT \/ p = SIGERR ->
  tr (ents s p) = in_force p (log s) /\ faithful p (log s).
Proof.
  intros H NC P. assert (special p = true) as SP by (destruct P as [-> | ->]; reflexivity).
  destruct (run_inner body n p SP (TList l) None (init o talk) s) as (A & B); auto using inner_init. left. auto.
Qed.
Print Assumptions c45_special_partial.
(* an ERR action that sets another; one that does not; a failing command in the action *)
Example special_changed : exists s,
  run (fun _ => [OTrap SIGERR (Some (L "bb"))]) 200 (TList [OTrap SIGERR (Some (L "b")); OStatus 1; OPoint]) (init (fun _ => false) false) = Fin s /\ cut s = false /\
  tr (ents s SIGERR) = Some (L "bb") /\ takes (log s) = [SIGERR].
Proof. eexists. split; [vm_compute; reflexivity|]. repeat split. Qed.
Example special_kept : exists s,
  run (fun _ => [OStatus 1]) 200 (TList [OTrap SIGERR (Some (L "b")); OStatus 1; OPoint]) (init (fun _ => false) false) = Fin s /\ cut s = false /\
  tr (ents s SIGERR) = Some (L "b") /\ takes (log s) = [SIGERR; SIGERR].
Proof. eexists. split; [vm_compute; reflexivity|]. repeat split. Qed.

(** $? after the traps that are run between two commands is what it was. *)
Theorem c45_status body n s s' : run body n (TOp OPoint) s = Fin s' -> exstat s' = exstat s.
Proof.
  destruct n as [|n]; [discriminate|]. cbn [run]. destruct (trapf s); [|intros [= <-]; auto]. intros H. eapply run_status; [|exact H]. right. left. eauto.
Qed.
Print Assumptions c45_status.

(** ** Not so *)
Definition A1 : text := L "a".
Definition A2 : text := L "aa".
Definition A3 : text := L "aaa".
Definition none (p : Z) := false.
Definition SIGUSR1 := 10.
Definition SIGUSR2 := 12.
(* trap x INT; cmd & : the child first ignores INT, then the trap is reset, to the shell's own
   handler *)
Theorem c45_background_trap_refuted :
  let ls := [LTrap SIGINT (Some A1); LChild true] in let s := acts ls (init none false) in let g := settings ls in
  g_bg g SIGINT = true /\ demanded (stays none false g SIGINT) SIGINT (g_tr g SIGINT) (g_bg g SIGINT) = HIgn /\ disp s SIGINT = HTrap /\
  wants (stays none false g SIGINT) (g_tr g SIGINT) (g_bg g SIGINT) = HIgn /\ program false true s SIGINT = HDfl.
Proof. repeat split; vm_compute; reflexivity. Qed.
Print Assumptions c45_background_trap_refuted.
(* trap '' INT; exec prog *)
Theorem c45_exec_ignore_refuted :
  let ls := [LTrap SIGINT (Some [])] in let s := acts ls (init none false) in
  wants false (g_tr (settings ls) SIGINT) false = HIgn /\ disp s SIGINT = HIgn /\ program true false s SIGINT = HDfl.
Proof. repeat split; vm_compute; reflexivity. Qed.
Print Assumptions c45_exec_ignore_refuted.
(* SIGCHLD ignored at the start, and not interactive: a trap on it is run *)
Theorem c45_chld_ignored_refuted : exists s,
  from_start (fun _ => []) (fun p => p =? SIGCHLD) false 20 [OTrap SIGCHLD (Some A1); OSignal SIGCHLD] s /\ disp s SIGCHLD = HTrap /\
  exists s', run (fun _ => []) 100 (TOp OPoint) s = Fin s' /\ last_of SIGCHLD (log s') = Some (Take SIGCHLD (Some A1)).
Proof. eexists. split; [vm_compute; reflexivity|]. split; [reflexivity|]. eexists. split; vm_compute; reflexivity. Qed.
Print Assumptions c45_chld_ignored_refuted.
(* an action that returns: the other pending traps wait for another signal *)
Theorem c45_delayed_refuted : exists s,
  run (fun a => match a with [_] => [OReturn] | _ => [] end) 200 (TList [OTrap SIGUSR1 (Some A1); OTrap SIGUSR2 (Some A2); OCatch [OSignal SIGUSR2; OSignal SIGUSR1; OPoint]; OPoint; OPoint]) (init none false) = Fin s /\
  pend (ents s SIGUSR2) = true /\ trapf s = false.
Proof. eexists. split; [vm_compute; reflexivity|]. split; reflexivity. Qed.
Print Assumptions c45_delayed_refuted.
(* set -e; trap x ERR; false : the action is run twice *)
Theorem c45_err_twice_refuted : exists s,
  run (fun _ => []) 200 (TList [OErrexit true; OTrap SIGERR (Some A1); OStatus 1]) (init none false) = Gone s /\ takes (log s) = [SIGERR; SIGERR].
Proof. eexists. split; [vm_compute; reflexivity|]. reflexivity. Qed.
Print Assumptions c45_err_twice_refuted.
(* an ERR action that returns removes the trap *)
Theorem c45_err_trap_lost_refuted : exists s,
  run (fun _ => [OReturn]) 200 (TList [OTrap SIGERR (Some A1); OCatch [OStatus 1; OPoint]; OStatus 1; OPoint]) (init none false) = Fin s /\
  in_force SIGERR (log s) = Some A1 /\ tr (ents s SIGERR) = None /\ last_of SIGERR (log s) = Some (Take SIGERR None).
Proof. eexists. split; [vm_compute; reflexivity|]. repeat split. Qed.
Print Assumptions c45_err_trap_lost_refuted.
(* f() { exit; }; trap return EXIT; f : the shell does not exit *)
Theorem c45_exit_cancelled_refuted : exists s,
  run (fun _ => [OReturn]) 200 (TList [OTrap SIGEXIT (Some A1); OCatch [OExit]]) (init none false) = Fin s.
Proof. eexists. vm_compute. reflexivity. Qed.
Print Assumptions c45_exit_cancelled_refuted.
(* an interactive shell started with USR1 ignored; trap x USR1; a subshell: caught, with no
   action, neither ignored nor the default *)
Theorem c45_talking_child_refuted :
  let ls := [LTrap SIGUSR1 (Some A1); LChild false] in let s := acts ls (init (fun p => p =? SIGUSR1) true) in
  tr (ents s SIGUSR1) = None /\ disp s SIGUSR1 = HTrap /\ terminal SIGUSR1 = false.
Proof. repeat split; vm_compute; reflexivity. Qed.
Print Assumptions c45_talking_child_refuted.
(* when execve() fails the dispositions are those for the program *)
Theorem c45_failed_exec_refuted : disp (init none true) SIGINT = HTrap /\ disp (restoresigs (init none true)) SIGINT = HDfl.
Proof. split; vm_compute; reflexivity. Qed.
Print Assumptions c45_failed_exec_refuted.
(* trap x KILL: an indeterminate value is read *)
Theorem c45_kill_uninitialised_refuted : undef (settrap (init none false) SIGKILL (Some A1)) = true.
Proof. vm_compute. reflexivity. Qed.
Print Assumptions c45_kill_uninitialised_refuted.
(* SIGHUP without a trap: the shell goes without running the EXIT trap *)
Theorem c45_hup_skips_exit_refuted : exists s,
  run (fun _ => []) 200 (TList [OTrap SIGEXIT (Some A1); OSignal SIGHUP; OPoint]) (init none false) = Gone s /\ takes (log s) = [SIGHUP].
Proof. eexists. split; [vm_compute; reflexivity|]. reflexivity. Qed.
Print Assumptions c45_hup_skips_exit_refuted.

(** ** Examples *)
Example ex_fine : fine false setting0 [LTrap SIGINT (Some []); LTrap SIGUSR1 (Some A1); LSignal SIGUSR1; LChild true; LTrap SIGINT (Some A1); LPrint; LChild false].
Proof. cbn. repeat split; discriminate. Qed.
Example ex_disp : let s := acts [LTrap SIGTERM (Some A1); LTrap SIGUSR1 (Some []); LTrap SIGUSR2 (Some A1)] (init (fun p => p =? SIGUSR2) false) in
  map (disp s) [SIGINT; SIGTERM; SIGUSR1; SIGUSR2; SIGPIPE] = [HTrap; HTrap; HIgn; HIgn; HDfl].
Proof. vm_compute. reflexivity. Qed.
(* two signals, one twice, and an action that raises another and changes a trap *)
Example ex_run : exists s, run (fun a => match a with [_] => [OSignal SIGUSR2; OTrap SIGUSR1 (Some A3)] | _ => [OStatus 0] end) 400
    (TList [OTrap SIGUSR1 (Some A1); OTrap SIGTERM (Some A2); OTrap SIGUSR2 (Some A2); OSignal SIGTERM; OSignal SIGUSR1; OSignal SIGUSR1; OStatus 0; OPoint; OSignal SIGUSR1; OPoint]) (init none false) = Fin s /\
  takes (log s) = [SIGUSR1; SIGUSR2; SIGTERM; SIGUSR1] /\ cut s = false.
Proof. eexists. split; [vm_compute; reflexivity|]. split; reflexivity. Qed.
Example ex_order : exists s, run (fun _ => [OStatus 0]) 400 (TList [OTrap SIGUSR1 (Some A1); OTrap SIGTERM (Some A2); OSignal SIGTERM; OSignal SIGUSR1]) (init none false) = Fin s /\
  exists s', run (fun _ => [OStatus 0]) 400 (TRun RAll) s = Fin s' /\ cut s' = false /\ log s' = [Take SIGTERM (Some A2); Take SIGUSR1 (Some A1)] ++ log s /\ silent [Take SIGTERM (Some A2); Take SIGUSR1 (Some A1)].
Proof. eexists. split; [vm_compute; reflexivity|]. eexists. split; [vm_compute; reflexivity|]. split; [reflexivity|]. split; [reflexivity|]. intros p. reflexivity. Qed.
