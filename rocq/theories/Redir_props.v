(** C30: the redirections of a command are undone afterwards. *)
From Coq Require Import ZArith List Bool Lia.
From Verif Require Import Redir_model Redir_spec Redir_proof.
Import ListNotations.
Local Open Scope Z_scope.

(** Every command, with redirections that nest, repeat, fail, close, and command
    substitutions in their words: if the system does not run out of descriptors or processes,
    the files of the descriptors 0-9 and the coprocess are those of the plain meaning [sem],
    where nothing is saved; and no descriptor of the shell is left over or lost. *)
Theorem c30_redirections c s o s' : cmd_ok c -> good s -> exec c s = (o, s') -> o <> Sys ->
  sem c (look s) o (look s') /\ private_kept s s' /\ good s' /\ lim s' = lim s.
Proof. intros A B C D. destruct (exec_ok c s o s' A B C D) as ((E1 & E2 & E3 & E4 & _) & E5). auto. Qed.
Print Assumptions c30_redirections.

(** Without exec: every descriptor 0-9 is what it was, the shell's own descriptors are exactly
    the same, and the coprocess is the same.  The command may end normally, fail or be
    unwound. *)
Theorem c30_restored c s o s' : cmd_ok c -> no_exec c -> good s -> exec c s = (o, s') -> o <> Sys ->
  (forall i, user i -> file s' i = file s i) /\ (forall i, 10 <= i -> tab s' i = tab s i) /\ cr s' = cr s /\ crw s' = crw s /\ cw s' = cw s.
Proof.
  intros A N B C D. destruct (exec_ok c s o s' A B C D) as ((E1 & E2 & E3 & E4 & _) & E5). pose proof (fr_exec c A N s o s' C) as F.
  split; [exact (sem_same c _ _ _ E5 N)|]. split; [|split; [apply F|split; apply F]].
  intros i I. destruct (E4 i I) as [|(K1 & K2 & K3)]; [auto|]. exfalso. apply K3. apply (fr_cop s s' i F). auto.
Qed.
Print Assumptions c30_restored.

(** exec keeps them, and closes its copies: after exec with redirections that succeed each
    descriptor 0-9 is what the redirections say, and each of the shell's own descriptors is
    what it was (a descriptor of the coprocess may be given up) *)
Theorem c30_exec rs s s' : Forall io_ok rs -> good s -> exec (Exec rs) s = (Done, s') ->
  exists A T, rsteps true rs (look s) none Done A T /\ (forall i, user i -> file s' i = vu A i) /\ private_kept s s'.
Proof.
  intros OK G H. destruct (exec_ok (Exec rs) s Done s' OK G H) as ((E1 & E2 & E3 & E4 & _) & E5); [discriminate|].
  inversion E5 as [| | |? ? A1 ? T R (S1 & _)|? ? ? ? ? R N| | | | | | | | |]; subst; [|congruence]. eauto.
Qed.
Print Assumptions c30_exec.
(** exec with redirections that fail changes nothing *)
Theorem c30_exec_failed rs s o s' : Forall io_ok rs -> good s -> exec (Exec rs) s = (o, s') -> o = Failed \/ o = Abort ->
  (forall i, user i -> file s' i = file s i) /\ private_kept s s'.
Proof.
  intros OK G H HO. destruct (exec_ok (Exec rs) s o s' OK G H) as ((_ & _ & _ & P & _) & E5); [destruct HO; subst; discriminate|]. split; [|exact P].
  inversion E5 as [| | |? ? A1 ? T R (S1 & _)|? ? A1 T ? ? R N U| | | | | | | | |]; subst; [destruct HO; discriminate|]. destruct U as (U & _).
  intros i I. specialize (U i I). destruct (T i) eqn:HT; [exact U|]. destruct (rsteps_untouched _ _ _ _ _ _ _ R i I HT) as (X & _). change (vu (look s') i = vu (look s) i). congruence.
Qed.
Print Assumptions c30_exec_failed.

(** What a program sees: if the shell's own descriptors are close-on-exec, then also between
    the redirections of a command and its end, whatever has been saved *)
Definition hidden (s : st) : Prop := forall i f b, 10 <= i -> tab s i = Some (f, b) -> b = true.
Theorem c30_hidden rs s sv s1 : Forall io_ok rs -> good s -> hidden s -> io_all false rs (fun _ => 0) s = (Done, sv, s1) ->
  hidden s1 /\ good s1 /\ forall c o s2, cmd_ok c -> exec c s1 = (o, s2) -> o <> Sys -> hidden s2.
Proof.
  intros OK G HI E. destruct (redirected_stop false rs s Done sv s1 OK G E) as (HE & _); [discriminate|]. pose proof (h_good _ _ _ HE) as G1.
  assert (hidden s1) as HI1.
  { intros i f b I T. destruct (in_dec Z.eq_dec i (map sv fds32)) as [IN|NI].
    - apply in_map_iff in IN as (j & <- & _). destruct (h_val _ _ _ HE j) as [V|[(V & _)|(V & g & V1 & _)]]; [lia|lia|]. congruence.
    - destruct (h_priv _ _ _ HE i I) as [P|(P1 & P2 & P3)]; [|rewrite P in T; eapply HI; eauto|congruence].
      intros j X. destruct (in_dec Z.eq_dec j fds32) as [J|J]; [apply NI; apply in_map_iff; eauto|].
      rewrite (h_out _ _ _ HE) in X; [lia|]. intros U. apply J. unfold fds32. apply in_map_iff. exists (Z.to_nat j). unfold user in U. split; [lia|]. apply in_seq. lia. }
  split; [auto|]. split; [auto|]. intros c o s2 OKC H NS. destruct (exec_ok c s1 o s2 OKC G1 H NS) as ((_ & _ & _ & K & _) & _).
  intros i f b I T. destruct (K i I) as [E2|(_ & E2 & _)]; [rewrite E2 in T; eauto|congruence].
Qed.
Print Assumptions c30_hidden.

(** ** Cases *)
Definition word0 := Work [] false.
Definition base (l : list (Z * (Z * bool))) : table := fun i => match find (fun p => fst p =? i) l with Some (_, v) => Some v | None => None end.
(** 0-2 on the terminal 100, the script on 10; the kernel gives the files 1, 2, 3 .. *)
Definition s0 := St (base [(0, (100, false)); (1, (100, false)); (2, (100, false)); (10, (50, true))]) 64 (-1) (-1) (-1) false (map (fun n => Some (Z.of_nat n)) (seq 1 40)).
Definition show (s : st) (l : list Z) := map (tab s) l.
Lemma s0_good : good s0.
Proof.
  split; [cbn; lia| | |cbn; lia].
  - intros i I. destruct i; [lia|lia|reflexivity].
  - intros i (I & [ -> | [ -> | -> ]]); cbn in I; lia.
Qed.
(** { f 3>a 3>b 1>&3 0<&-; cat <<E | cat; } 2>c with $(..) in names *)
Definition nested := Group [IoOpen 2 (Work [1%nat; 0%nat] false)]
  (Seq (Simple [IoOpen 3 word0; IoOpen 3 word0; IoDup 1 false word0 (Digit 3); IoClose 0 word0] false false false)
       (Group [IoHere 0 (Work [0%nat] false)] (Seq (Pipe 2) (Simple [IoOpen 5 (Work [0%nat] true)] false true false)))).
Example c30_nested : cmd_ok nested /\ no_exec nested /\ let '(o, s) := exec nested s0 in
  (o, show s [0; 1; 2; 3; 4; 5; 9; 10; 11; 12], length (orc s)) = (Abort, show s0 [0; 1; 2; 3; 4; 5; 9; 10; 11; 12], 13%nat).
Proof. split; [repeat constructor; unfold user; lia|]. split; [repeat constructor|]. vm_compute. reflexivity. Qed.
(** the command sees them *)
Example c30_inside : let '(o, sv, s) := io_all false [IoOpen 3 word0; IoOpen 3 word0; IoDup 1 false word0 (Digit 3); IoClose 0 word0] (fun _ => 0) s0 in
  (o, show s [0; 1; 2; 3; 4; 10; 11; 12; 13]) =
  (Done, [None; Some (2, false); Some (100, false); Some (2, false); None; Some (50, true); Some (100, true); Some (100, true); None]) /\ map sv [0; 1; 2; 3] = [12; 11; 0; -1].
Proof. vm_compute. auto. Qed.
Example c30_exec_case : let '(o, s) := exec (Exec [IoOpen 3 word0; IoDup 4 false word0 (Digit 3); IoOpen 1 word0]) s0 in
  (o, show s [0; 1; 2; 3; 4; 10; 11; 12]) = (Done, [Some (100, false); Some (2, false); Some (100, false); Some (1, true); Some (1, true); Some (50, true); None; None]).
Proof. vm_compute. reflexivity. Qed.
(** exec 3>a 4>nowhere: 3 is closed again *)
Example c30_exec_fail_case : let s := St (tab s0) 64 (-1) (-1) (-1) false [Some 1; None] in let '(o, s') := exec (Exec [IoOpen 3 word0; IoOpen 4 word0]) s in
  (o, show s' [0; 1; 2; 3; 4; 10; 11]) = (Failed, show s [0; 1; 2; 3; 4; 10; 11]).
Proof. vm_compute. reflexivity. Qed.
Example c30_hidden_case : hidden s0.
Proof.
  intros i f b I. cbn [tab s0]. unfold base. destruct (find _ _) as [(j, v)|] eqn:E; [|discriminate]. apply find_some in E as (IN & E). apply Z.eqb_eq in E. cbn [fst] in E. subst j.
  cbn [In] in IN. intros [= ->]. repeat (destruct IN as [IN|IN]; [injection IN as <- <- <-; try reflexivity; lia|]). contradiction.
Qed.
(** a coprocess: exec 3<&p 4>&p gives it up *)
Example c30_coprocess : let s := St (base [(0, (100, false)); (1, (100, false)); (10, (50, true)); (11, (51, true)); (12, (52, true)); (13, (53, true))]) 64 11 12 13 false [] in
  good s /\ let '(o, s') := exec (Exec [IoDup 3 true word0 Coproc; IoDup 4 false word0 Coproc]) s in
  (o, show s' [3; 4; 10; 11; 12; 13; 14], [cr s'; crw s'; cw s']) = (Done, [Some (51, true); Some (53, true); Some (50, true); None; None; None; None], [-1; -1; -1]).
Proof.
  split; [|vm_compute; reflexivity]. split; [cbn; lia| | |cbn; lia].
  - intros i I. destruct i; [lia|lia|reflexivity].
  - intros i (I & [ -> | [ -> | -> ]]); cbn; (split; [lia|discriminate]).
Qed.

(** ** What does not hold *)
(** The close-on-exec flag is not restored: after exec 3>x programs do not inherit 3, but
    after exec 3>x; : 3>y they do *)
Theorem c30_cloexec_lost_refuted : let '(o1, s1) := exec (Exec [IoOpen 3 word0]) s0 in let '(o2, s2) := exec (Simple [IoOpen 3 word0] true false false) s1 in
  (o1, tab s1 3, o2, tab s2 3) = (Done, Some (1, true), Done, Some (1, false)).
Proof. vm_compute. reflexivity. Qed.
Print Assumptions c30_cloexec_lost_refuted.
(** With no descriptor left for the saved copy the opened file is never closed *)
Theorem c30_emfile_leak_refuted : let s := St (base [(0, (100, false)); (1, (100, false)); (2, (100, false)); (10, (50, true)); (11, (60, true))]) 12 (-1) (-1) (-1) false [Some 1] in
  let '(o, s') := exec (Simple [IoOpen 1 word0] false false false) s in (o, tab s 3, tab s' 3) = (Sys, None, Some (1, false)).
Proof. vm_compute. reflexivity. Qed.
Print Assumptions c30_emfile_leak_refuted.
(** echo $(cmd) when fork() fails: the error unwinds comsub, and the shell's standard output
    stays on the pipe; both copies leak *)
Theorem c30_fork_comsub_refuted : let s := St (tab s0) 64 (-1) (-1) (-1) false [Some 1; Some 2; None] in
  let '(o, s') := exec (Catch (Expand (Work [0%nat] false))) s in
  (o, show s [1; 11; 12], show s' [1; 11; 12]) = (Sys, [Some (100, false); None; None], [Some (2, false); Some (1, true); None]) /\ tab s' 13 = Some (100, true).
Proof. vm_compute. auto. Qed.
Print Assumptions c30_fork_comsub_refuted.
(** a | b when fork() fails: 0 and 1 are restored but the pipe stays open *)
Theorem c30_fork_pipe_leak_refuted : let s := St (tab s0) 64 (-1) (-1) (-1) false [Some 1; Some 2; None] in
  let '(o, s') := exec (Pipe 1) s in
  (o, show s [0; 1; 13; 14], show s' [0; 1; 13; 14]) = (Sys, [Some (100, false); Some (100, false); None; None], [Some (100, false); Some (100, false); Some (1, true); Some (2, true)]).
Proof. vm_compute. reflexivity. Qed.
Print Assumptions c30_fork_pipe_leak_refuted.
(** savefd is an array of short: with the descriptors 10 to 32767 in use the copy is 32768,
    kept as -32768, and the standard output is closed instead of restored *)
Theorem c30_short_refuted : let s := St (fun i => if (0 <=? i) && (i <? 3) || (10 <=? i) && (i <? 32768) then Some (100, false) else None) 40000 (-1) (-1) (-1) false [Some 1] in
  let '(o, s') := exec (Simple [IoOpen 1 word0] false false false) s in
  (o, tab s 1, tab s 32768, tab s' 1, tab s' 32768) = (Done, Some (100, false), None, None, Some (100, true)).
Proof. vm_compute. reflexivity. Qed.
Print Assumptions c30_short_refuted.
(** { ulimit -n 3; } 5>x: dup2() to 5 is refused then, 5 stays x, and what 5 was is closed *)
Theorem c30_ulimit_refuted : let s := St (upd (tab s0) 5 (Some (70, false))) 64 (-1) (-1) (-1) false [Some 1] in
  let '(o, s') := exec (Group [IoOpen 5 word0] (Ulimit 3)) s in (o, show s [5; 11], show s' [5; 11]) = (Done, [Some (70, false); None], [Some (1, false); None]).
Proof. vm_compute. reflexivity. Qed.
Print Assumptions c30_ulimit_refuted.
