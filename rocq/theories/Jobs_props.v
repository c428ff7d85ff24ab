(** C36, C37 and C38: pipelines, job numbers and child statuses, in every run of the shell
    against a kernel that may let children change state between any two steps. *)
From Verif Require Import Base Jobs_model Jobs_spec Jobs_proof.
From Coq Require Import Permutation.
Local Open Scope Z_scope.

(** Tactics that replay a concrete run. *)
Ltac ev_to := match goal with |- ?f = ?e => let v := eval vm_compute in f in
  unify e v; vm_compute; reflexivity end.
Ltac no_pid := first [vm_compute; tauto | vm_compute; intuition discriminate].
Ltac stp :=
  match goal with
  | |- step _ _ _ (AFork _ _ _ _ _) _ =>
      eapply SFork; [vm_compute; tauto | no_pid
        | first [left; reflexivity | right; intros [j [A B]]; vm_compute in A;
            repeat (destruct A as [A|A]; [subst j; vm_compute in B; intuition discriminate|]); destruct A]
        | intros X; first [discriminate X | eexists; split; [vm_compute; reflexivity | eexists; split; [vm_compute; reflexivity | reflexivity]]]
        | ev_to]
  | |- step _ _ _ (AFail _ _ _) _ =>
      eapply SFail; [intros X; first [discriminate X | eexists; split; [vm_compute; reflexivity | eexists; split; [vm_compute; reflexivity | reflexivity]]] | ev_to]
  | |- step _ _ _ (AStart _) _ => eapply SStart; ev_to
  | |- step _ _ _ AStartLast _ => eapply SStartLast
  | |- step _ _ _ (AWait _ _) _ => eapply SWait
  | |- step _ _ _ (AWaitEnd _ _ _) _ => eapply SWaitEnd; ev_to
  | |- step _ _ _ (AResume _ _) _ => eapply SResume; ev_to
  | |- step _ _ _ ANotify _ => eapply SNotify
  | |- step _ _ _ (AJobs _ _ _ _) _ => eapply SJobs
  | |- step _ _ _ (AOpts _ _ _) _ => eapply SOpts
  | |- step _ _ _ (AChild _ _) _ => eapply SChild; vm_compute; first [exact I | tauto]
  | |- step _ _ _ (ASig _) _ => eapply SSig; [vm_compute; reflexivity | vm_compute; first [apply Permutation_refl | apply perm_swap] | ev_to]
  end.
Ltac run := first [eapply (RInit _ _ _ _ 25) | eapply RStep; [run | stp]].

(** * C36 *)
(** When j_waitj returns for a job that is not stopped, all the processes of its pipeline
    have ended, and the status is the one their endings determine. *)
Theorem c36_pipeline_status h s i a rv s' j : reach false h s ->
  get (jl (sh s)) i = Some j -> waitj_end i a (sh s) = Some (rv, s') ->
  mon (sh s) = false \/ j_state j <> PStop ->
  exists ws, endings h (pids_of h i) ws /\ rv = pipeline_status (pipefail_of h i) ws.
Proof.
  intros R G E NS. destruct (reach_RI h s R) as [HI _ _].
  unfold waitj_end in E. rewrite G in E. destruct (waitj_waits (mon (sh s)) j) eqn:W; [discriminate|].
  injection E as <- _. pose proof (get_last_In _ _ _ _ _ HI G) as J.
  assert (F : finished j = true).
  { unfold waitj_waits in W. unfold finished. apply orb_false_iff in W. destruct W as [W1 W2].
    destruct NS as [M|M]; [rewrite M in W2|]; destruct (j_state j); cbn in *; congruence. }
  destruct (finished_status _ _ _ J F) as [ws [A [_ [_ B]]]]. destruct (get_In _ _ _ G) as [_ D].
  exists ws. rewrite <- D. split; [exact A|exact B].
Qed.
Print Assumptions c36_pipeline_status.

(** $? after "wait" and the pipeline status use the same value for every prefix of the
    history in which the job was finished: it does not depend on the order of arrival. *)
Theorem c36_order_independent h1 s1 i a1 rv1 s1' j1 h2 s2 a2 rv2 s2' j2 k2 :
  reach false h1 s1 -> reach false h2 s2 ->
  get (jl (sh s1)) i = Some j1 -> waitj_end i a1 (sh s1) = Some (rv1, s1') -> j_state j1 <> PStop ->
  get (jl (sh s2)) k2 = Some j2 -> waitj_end k2 a2 (sh s2) = Some (rv2, s2') -> j_state j2 <> PStop ->
  pipefail_of h1 i = pipefail_of h2 k2 ->
  map (outcome h1) (pids_of h1 i) = map (outcome h2) (pids_of h2 k2) ->
  rv1 = rv2.
Proof.
  intros R1 R2 G1 E1 N1 G2 E2 N2 P O.
  destruct (c36_pipeline_status _ _ _ _ _ _ _ R1 G1 E1 (or_intror N1)) as [w1 [A1 ->]].
  destruct (c36_pipeline_status _ _ _ _ _ _ _ R2 G2 E2 (or_intror N2)) as [w2 [A2 ->]].
  rewrite P. f_equal.
  assert (K : forall h ps ws, endings h ps ws -> map Some ws = map (outcome h) ps).
  { intros h ps ws H. induction H as [|p w ps ws [X _] H IH]; cbn; [reflexivity|]. rewrite X, IH. reflexivity. }
  apply K in A1. apply K in A2. rewrite O, <- A2 in A1. clear - A1. revert w2 A1.
  induction w1 as [|x w1 IH]; intros [|y w2] E; try discriminate; [reflexivity|]. cbn in E. injection E as -> E.
  f_equal. apply IH, E.
Qed.
Print Assumptions c36_order_independent.

(** a | b | c under pipefail; b is killed by signal 15 and reported first, c exits 0. *)
Definition ex_pipe : list act :=
  [ASig [(12, WExit 0); (10, WExit 3)]; AChild 12 (WExit 0); AChild 10 (WExit 3); ASig [(11, WSig 15)];
   AChild 11 (WSig 15); AWait 0 false; AStart false; AFork true false false 12 (L "c");
   AFork true false false 11 (L "b"); AFork false false false 10 (L "a"); AOpts false false true].
Example c36_ex : exists s j s', reach false ex_pipe s /\ get (jl (sh s)) 0 = Some j
  /\ waitj_end 0 false (sh s) = Some (143, s') /\ mon (sh s) = false.
Proof.
  eexists. eexists. eexists. split; [unfold ex_pipe; run|]. split; [vm_compute; reflexivity|]. split; [vm_compute; reflexivity|reflexivity].
Qed.
Example c36_ex_spec : pipeline_status true [WExit 3; WSig 15; WExit 0] = 143
  /\ pipeline_status false [WExit 3; WSig 15; WExit 0] = 0 /\ pipeline_status true [WExit 0; WExit 0] = 0.
Proof. vm_compute. auto. Qed.

(** * C37 *)
(** Listed jobs have positive numbers, and no two the same; jobs kept only for "wait"
    (zombies) have number -1. *)
Theorem c37_unique h s j k : reach false h s -> In j (jl (sh s)) -> In k (jl (sh s)) ->
  (listed j -> 1 <= j_num j) /\ (~ listed j -> j_num j = -1)
  /\ (listed j -> listed k -> j_num j = j_num k -> j = k).
Proof.
  intros R Hj Hk. destruct (reach_RI h s R) as [HI _ _].
  pose proof (in_ji _ _ _ HI) as HJ. rewrite Forall_forall in HJ. unfold listed.
  split; [apply (ji_num _ _ _ (HJ j Hj))|]. split.
  - intros X. apply (ji_z _ _ _ (HJ j Hj)). destruct (f_zombie (j_fl j)); congruence.
  - intros Lj Lk E.
    pose proof (li_nums _ _ (in_li _ _ _ HI)) as N. clear - Hj Hk Lj Lk E N.
    induction (jl (sh s)) as [|a l IH]; [destruct Hj|]. cbn in N.
    assert (N' : NoDup (map k_num (filter (fun k => negb (k_z k)) (map kof l))))
      by (destruct (f_zombie (j_fl a)); cbn in N; [exact N|inversion N; assumption]).
    assert (M : forall x, In x l -> f_zombie (j_fl x) = false ->
              In (j_num x) (map k_num (filter (fun k => negb (k_z k)) (map kof l)))).
    { intros x Hx Zx. change (j_num x) with (k_num (kof x)). apply in_map, filter_In.
      split; [apply in_map, Hx|]. cbn. rewrite Zx. reflexivity. }
    destruct Hj as [->|Hj], Hk as [->|Hk]; [reflexivity| | |auto].
    + exfalso. rewrite Lj in N. cbn in N. inversion N as [|x y X Y]; subst. apply X. rewrite E. auto.
    + exfalso. rewrite Lk in N. cbn in N. inversion N as [|x y X Y]; subst. apply X. rewrite <- E. auto.
Qed.
Print Assumptions c37_unique.

(** A new job gets the smallest positive number no listed job has, and is placed directly
    after the stopped jobs at the head of the list; nothing else moves. *)
Theorem c37_new_job h s xx bg pid cmd s' : reach false h s ->
  step false h s (AFork false xx bg pid cmd) s' ->
  exists j before after, jl (sh s) = before ++ after /\ jl (sh s') = before ++ j :: after
    /\ Forall (fun k => j_state k = PStop) before
    /\ (forall k, hd_error after = Some k -> j_state k <> PStop)
    /\ map p_pid (j_procs j) = [pid] /\ listed j /\ j_state j = PRun
    /\ 1 <= j_num j /\ (forall k, In k (jl (sh s)) -> j_num k <> j_num j)
    /\ (forall n, 1 <= n < j_num j -> exists k, In k (jl (sh s)) /\ listed k /\ j_num k = n).
Proof.
  intros R ST. destruct (reach_RI h s R) as [HI _ _].
  inversion ST as [s0 q cont x b p c s1 NL NQ NR HC E| | | | | | | | | | | | |]; subst. cbn [sh kq] in *.
  unfold exchild_fork, link_proc in E.
  destruct (new_num (S (length (jl s0))) 1 (jl s0)) as [num|] eqn:NN; [|discriminate]. injection E as <-.
  apply new_num_spec in NN. destruct NN as [N1 [N2 N3]].
  assert (Nid : ~ In (nid s0) (ids (jl s0))).
  { intros X. apply in_map_iff in X. destruct X as [y [X Y]].
    pose proof (li_lt _ _ (in_li _ _ _ HI) (kof y) (in_map kof _ _ Y)) as L. cbn in L. lia. }
  unfold put_job. cbn [j_id]. rewrite (unlink_absent _ _ Nid).
  match goal with |- context [past_stopped ?y _] => set (nj := y) end.
  destruct (past_stopped_split nj (jl s0)) as [a [b0 [P1 [P2 [P3 P4]]]]].
  set (f := fun j => if mon s0 && negb xx && Z.eqb (j_pgrp j) 0 then jpgrp j pid else j).
  assert (FX : forall l, ~ In (nid s0) (ids l) -> upd (nid s0) f l = l).
  { intros l X. unfold upd. rewrite <- (map_id l) at 2. apply map_ext_in. intros y Hy. unfold is_id.
    destruct (Nat.eqb_spec (j_id y) (nid s0)) as [Z|]; [|reflexivity]. destruct X. rewrite <- Z. apply in_map, Hy. }
  exists (f nj), a, b0. split; [exact P1|]. split.
  { unfold set_pid. cbn [jl with_jl with_last with_ids mon]. rewrite P2. fold f.
    assert (Na : ~ In (nid s0) (ids a) /\ ~ In (nid s0) (ids b0))
      by (rewrite P1 in Nid; unfold ids in *; rewrite map_app, in_app_iff in Nid; tauto).
    transitivity (upd (nid s0) f a ++ upd (nid s0) f (nj :: b0)); [unfold upd; apply map_app|].
    rewrite FX by tauto. f_equal. transitivity (f nj :: upd (nid s0) f b0); [|rewrite FX by tauto; reflexivity].
    unfold upd. cbn [map]. unfold is_id at 1. cbn [j_id nj]. rewrite Nat.eqb_refl. reflexivity. }
  assert (FP : j_procs (f nj) = j_procs nj /\ j_fl (f nj) = j_fl nj /\ j_state (f nj) = PRun /\ j_num (f nj) = num).
  { unfold f. destruct (_ && _ && _); cbn; auto. }
  destruct FP as [F1 [F2 [F3 F4]]]. unfold listed. rewrite F1, F2, F3, F4.
  split; [exact P3|]. split; [exact P4|]. split; [reflexivity|]. split; [reflexivity|]. split; [reflexivity|].
  split; [exact N1|]. split.
  - intros k Hk X. apply N2. rewrite <- X. apply in_map, Hk.
  - intros n Hn. specialize (N3 n Hn). apply in_map_iff in N3. destruct N3 as [k [K1 K2]]. exists k.
    split; [exact K2|]. split; [|exact K1]. destruct (f_zombie (j_fl k)) eqn:Z; [|reflexivity].
    pose proof (in_ji _ _ _ HI) as HJ. rewrite Forall_forall in HJ. destruct (ji_z _ _ _ (HJ k K2) Z). lia.
Qed.
Print Assumptions c37_new_job.
(** The search for the number always ends. *)
Theorem c37_number_found h s xx bg pid cmd : reach false h s ->
  exchild_fork false xx bg pid cmd (sh s) <> None.
Proof.
  intros _. unfold exchild_fork, link_proc. pose proof (new_num_total (jl (sh s))) as X.
  destruct (new_num _ 1 _); [discriminate|congruence].
Qed.
Print Assumptions c37_number_found.

(** remove_job takes out exactly the one job; moving a job keeps all the others where
    they are, and loses and duplicates none. *)
Theorem c37_remove_move h s : reach false h s ->
  NoDup (map j_id (jl (sh s)))
  /\ (forall a j b, jl (sh s) = a ++ j :: b ->
        jl (remove_job (j_id j) (sh s)) = a ++ b
        /\ reput true (j_id j) (jl (sh s)) = j :: a ++ b
        /\ exists c d, reput false (j_id j) (jl (sh s)) = c ++ j :: d /\ c ++ d = a ++ b
             /\ Forall (fun k => j_state k = PStop) c
             /\ (forall k, hd_error d = Some k -> j_state k <> PStop)).
Proof.
  intros R. destruct (reach_RI h s R) as [HI _ _]. pose proof (Inv_ids _ _ _ HI) as N. split; [exact N|].
  intros a j b E. pose proof N as N1. rewrite E in N1. pose proof (unlink_mid a j b N1) as U.
  assert (G : get (a ++ j :: b) (j_id j) = Some j) by (apply In_get; [exact N1|apply in_elt]).
  split; [rewrite remove_jl, E; exact U|]. unfold reput. rewrite E, G. unfold put_job. rewrite U.
  split; [reflexivity|]. destruct (past_stopped_split j (a ++ b)) as [c [d [P1 [P2 [P3 P4]]]]].
  exists c, d. auto.
Qed.
Print Assumptions c37_remove_move.

(** No step makes a job disappear before all its processes have ended, except that the
    job of a pipeline for which fork() fails is removed at once. *)
Theorem c37_nothing_lost h s a s' j : reach false h s -> step false h s a s' -> In j (jl (sh s)) ->
  In (j_id j) (map j_id (jl (sh s')))
  \/ (exists ws, endings (a :: h) (pids_of (a :: h) (j_id j)) ws)
  \/ (lastj (sh s) = Some (j_id j) /\ exists xx bg, a = AFail true xx bg).
Proof.
  intros R ST Hj. destruct (step_kept h s a s' (reach_RI h s R) ST (j_id j) (in_map j_id _ _ Hj)) as [X|[X|X]]; auto.
Qed.
Print Assumptions c37_nothing_lost.

(** %n names the listed job with number n: leading zeros allowed. *)
Theorem c37_lookup_number h s ds j : reach false h s -> In j (jl (sh s)) -> listed j ->
  ds <> [] -> forallb isdigit ds = true -> digits_val ds = j_num j -> j_num j <= 2147483647 ->
  j_lookup ("%"%char :: ds) (jl (sh s)) = LJob (j_id j).
Proof.
  intros R Hj Lj NE D V Mx. pose proof (c37_unique h s j j R Hj Hj) as [P [_ _]]. specialize (P Lj).
  destruct ds as [|d ds]; [congruence|]. pose proof D as D'. cbn in D'. apply andb_prop in D'. destruct D' as [Dd _].
  unfold j_lookup. change (isdigit "%") with false. change (negb (ceq "%" "%")) with false. cbv iota.
  assert (K : forall c, isdigit d = true -> isdigit c = false -> ceq d c = false).
  { intros c A B. destruct (ceq d c) eqn:X; [|reflexivity]. apply ceq_true in X. congruence. }
  rewrite !K by (exact Dd || reflexivity). cbn [orb]. rewrite Dd. unfold strtonum1. rewrite D, V.
  destruct (Z.leb_spec 1 (j_num j)); [|lia]. destruct (Z.leb_spec (j_num j) 2147483647); [|lia]. cbn [andb].
  destruct (find _ (jl (sh s))) as [k|] eqn:F.
  - apply find_some in F. destruct F as [F1 F2]. apply Z.eqb_eq in F2. cbn. f_equal.
    assert (Lk : listed k).
    { unfold listed. destruct (f_zombie (j_fl k)) eqn:Z; [|reflexivity].
      destruct (c37_unique h s k k R F1 F1) as [_ [X _]]. unfold listed in X. rewrite Z in X. specialize (X ltac:(congruence)). lia. }
    destruct (c37_unique h s j k R Hj F1) as [_ [_ X]]. rewrite (X Lj Lk ltac:(congruence)). reflexivity.
  - exfalso. pose proof (find_none _ _ F j Hj) as X. cbn in X. rewrite Z.eqb_refl in X. discriminate.
Qed.
Print Assumptions c37_lookup_number.
(** Conversely, whatever %digits names is listed and has that number. *)
Theorem c37_lookup_sound h s d ds i : reach false h s -> isdigit d = true ->
  j_lookup ("%"%char :: d :: ds) (jl (sh s)) = LJob i ->
  exists j, In j (jl (sh s)) /\ listed j /\ j_id j = i /\ j_num j = digits_val (d :: ds).
Proof.
  intros R Dd E. unfold j_lookup in E. change (isdigit "%") with false in E. change (negb (ceq "%" "%")) with false in E. cbv iota in E.
  assert (K : forall c, isdigit c = false -> ceq d c = false).
  { intros c B. destruct (ceq d c) eqn:X; [|reflexivity]. apply ceq_true in X. congruence. }
  rewrite !K in E by reflexivity. cbn [orb] in E. rewrite Dd in E. unfold strtonum1 in E.
  destruct (forallb isdigit (d :: ds)); [|discriminate].
  destruct (Z.leb_spec 1 (digits_val (d :: ds))); [|discriminate]. destruct (Z.leb _ 2147483647); [|discriminate]. cbn [andb] in E.
  destruct (find _ (jl (sh s))) as [k|] eqn:F; [|discriminate]. cbn in E. injection E as <-.
  apply find_some in F. destruct F as [F1 F2]. apply Z.eqb_eq in F2. exists k. split; [exact F1|]. split; [|auto].
  unfold listed. destruct (f_zombie (j_fl k)) eqn:Z; [|reflexivity].
  destruct (c37_unique h s k k R F1 F1) as [_ [X _]]. unfold listed in X. rewrite Z in X. specialize (X ltac:(congruence)). lia.
Qed.
Print Assumptions c37_lookup_sound.
(** The current job is the first of the list and the previous job the second. *)
Theorem c37_current l :
  (forall j r, l = j :: r -> j_lookup (L "%+") l = LJob (j_id j) /\ j_lookup (L "%%") l = LJob (j_id j)
                             /\ j_lookup (L "%") l = LJob (j_id j))
  /\ (forall j k r, l = j :: k :: r -> j_lookup (L "%-") l = LJob (j_id k))
  /\ (l = [] -> j_lookup (L "%+") l = LNosuch) /\ (length l <= 1 -> j_lookup (L "%-") l = LNosuch)%nat.
Proof.
  split; [intros j r ->; repeat split; reflexivity|]. split; [intros j k r ->; reflexivity|].
  split; [intros ->; reflexivity|]. destruct l as [|a [|b l]]; cbn; intros; try reflexivity. lia.
Qed.
Print Assumptions c37_current.
(** A job that stops becomes the current job; the others keep their order. *)
Theorem c37_stopped_current h s pid n s' j : reach false h s ->
  step false h s (ASig [(pid, WStop n)]) s' -> mon (sh s) = true ->
  (forall k, In k (jl (sh s)) -> f_started (j_fl k) = true) ->
  In j (jl (sh s)) -> In pid (pids_of h (j_id j)) -> f_xxcom (j_fl j) = false ->
  (forall p, In p (j_procs j) -> p_pid p <> pid -> p_state p <> PRun) ->
  j_lookup (L "%+") (jl (sh s')) = LJob (j_id j)
  /\ map j_id (jl (sh s')) = j_id j :: filter (fun k => negb (Nat.eqb k (j_id j))) (map j_id (jl (sh s))).
Proof.
  intros R ST M AS Hj Hp X NR. destruct (reach_RI h s R) as [HI _ _].
  inversion ST as [| | | | | | | | | | | | |s0 q order s1 q' RS PM E]; subst. cbn [sh kq] in *.
  unfold j_sigchld in E.
  assert (A : allst s0) by (unfold allst; apply Forall_forall; exact AS).
  rewrite (proj2 (started_iff s0) A) in E. injection E as <- _.
  pose proof (Inv_permq h s0 q _ (Permutation_sym PM) HI) as H1.
  pose proof (in_ji _ _ _ HI) as HJ. rewrite Forall_forall in HJ. rewrite <- (ji_pids _ _ _ (HJ j Hj)) in Hp.
  destruct (reap_stop h s0 pid n [] j H1 A M Hj Hp X NR) as [k [r [E1 [E2 [E3 E4]]]]].
  cbn [fold_left jl with_sig]. rewrite E1. cbn [map]. split; [cbn; rewrite E2; reflexivity|]. rewrite E2, E4. reflexivity.
Qed.
Print Assumptions c37_stopped_current.

(** Jobs 1, 2, 3 in the background; 2 ends and is reported, then a new job gets number 2;
    then job 1 stops and becomes the current job. *)
Definition ex_nums : list act :=
  [AStart true; AFork false false true 13 (L "sleep 4"); ANotify; ASig [(11, WExit 0)]; AChild 11 (WExit 0);
   AStart true; AFork false false true 12 (L "sleep 3"); AStart true; AFork false false true 11 (L "sleep 2");
   AStart true; AFork false false true 10 (L "sleep 1"); AOpts true false false].
Example c37_ex : exists s, reach false ex_nums s
  /\ map (fun j => (j_id j, j_num j)) (jl (sh s)) = [(3%nat, 2); (2%nat, 3); (0%nat, 1)]
  /\ j_lookup (L "%02") (jl (sh s)) = LJob 3 /\ j_lookup (L "%-") (jl (sh s)) = LJob 2.
Proof. eexists. split; [unfold ex_nums; run|]. vm_compute. auto. Qed.
Example c37_ex_stop : exists s, reach false (ASig [(10, WStop 20)] :: AChild 10 (WStop 20) :: ex_nums) s
  /\ map (fun j => (j_id j, j_num j)) (jl (sh s)) = [(0%nat, 1); (3%nat, 2); (2%nat, 3)].
Proof. eexists. split; [unfold ex_nums; run|]. vm_compute. auto. Qed.

(** * C38 *)
(** The record of a process says that it ended in some way exactly if it did so and the
    shell has been told. *)
Theorem c38_recorded h s j p w : reach false h s -> In j (jl (sh s)) -> In p (j_procs j) -> ended w ->
  (says p w <-> outcome h (p_pid p) = Some w /\ ~ In (p_pid p) (map fst (kq s))).
Proof.
  intros R Hj Hp Ew. destruct (reach_RI h s R) as [HI _ _].
  pose proof (in_ji _ _ _ HI) as HJ. rewrite Forall_forall in HJ.
  pose proof (ji_pinv _ _ _ (HJ j Hj)) as PI. rewrite Forall_forall in PI. specialize (PI p Hp).
  split.
  - intros [S1 S2]. destruct PI as [[[X|X] _]|[w' [E' [O [[T1 T2] NQ]]]]].
    + rewrite X in S1. destruct w; cbn in S1, Ew; congruence.
    + rewrite X in S1. destruct w; cbn in S1, Ew; try congruence. destruct Ew.
    + rewrite T2 in S2. injection S2 as ->. auto.
  - intros [O NQ]. destruct PI as [[_ X]|[w' [E' [O' [T _]]]]].
    + exfalso. apply NQ. change (p_pid p) with (fst (p_pid p, w)). apply in_map, X; auto.
    + rewrite O in O'. injection O' as ->. exact T.
Qed.
Print Assumptions c38_recorded.

(** A job is finished exactly when all its processes have ended and the shell has been
    told. *)
Theorem c38_finished h s j : reach false h s -> In j (jl (sh s)) -> f_started (j_fl j) = true ->
  (finished j = true <->
   forall pid, In pid (pids_of h (j_id j)) ->
     (exists w, outcome h pid = Some w /\ ended w) /\ ~ In pid (map fst (kq s))).
Proof.
  intros R Hj Sj. destruct (reach_RI h s R) as [HI _ _].
  pose proof (in_ji _ _ _ HI) as HJ. rewrite Forall_forall in HJ. pose proof (HJ j Hj) as J. split.
  - intros F pid Hp. destruct (finished_status _ _ _ J F) as [ws [A [_ [B _]]]].
    rewrite Forall_forall in B. split; [|auto].
    clear - A Hp. induction A as [|p w ps ws X A IH]; [destruct Hp|]. destruct Hp as [->|Hp]; [exists w; tauto|auto].
  - intros H. destruct (ji_st _ _ _ J Sj) as [_ St]. apply (finished_iff j (ji_ne _ _ _ J) St).
    apply Forall_forall. intros p Hp. rewrite <- (ji_pids _ _ _ J) in H.
    destruct (H (p_pid p) (in_map p_pid _ _ Hp)) as [[w [O E]] NQ].
    destruct (proj2 (c38_recorded h s j p w R Hj Hp E) (conj O NQ)) as [S1 _].
    unfold pended. rewrite S1. destruct w; cbn in *; auto. destruct E.
Qed.
Print Assumptions c38_finished.
(** A job that has not been started is never finished. *)
Theorem c38_unstarted h s j : reach false h s -> In j (jl (sh s)) -> f_started (j_fl j) = false ->
  finished j = false /\ Forall (fun p => p_state p = PRun) (j_procs j).
Proof.
  intros R Hj U. destruct (reach_RI h s R) as [HI _ _].
  pose proof (in_ji _ _ _ HI) as HJ. rewrite Forall_forall in HJ. pose proof (HJ j Hj) as J.
  split; [eapply unstarted_unfinished; eassumption|]. apply (ji_un _ _ _ J U).
Qed.
Print Assumptions c38_unstarted.

(** Once a job is finished its state, its status and the records of its processes never
    change; and only a delivered SIGCHLD makes a job finished. *)
Theorem c38_stable h s a s' j k : reach false h s -> step false h s a s' ->
  In j (jl (sh s)) -> In k (jl (sh s')) -> j_id j = j_id k ->
  (finished j = true -> j_state k = j_state j /\ j_status k = j_status j /\ j_procs k = j_procs j)
  /\ (finished j = false -> finished k = true -> exists order, a = ASig order).
Proof.
  intros R ST Hj Hk E. pose proof (step_evo _ _ _ _ (reach_RI h s R) ST) as EV.
  destruct (reach_RI h s R) as [HI _ _]. pose proof (Inv_ids _ _ _ HI) as N.
  destruct (EV k Hk) as [[F X]|[j' [J1 [J2 [J3 J4]]]]].
  - exfalso. apply X. rewrite <- E. apply in_map, Hj.
  - assert (j' = j) as ->.
    { pose proof (In_get _ _ N Hj) as G1. pose proof (In_get _ _ N J1) as G2. rewrite E, <- J2 in G1. congruence. }
    split.
    + intros F. destruct (J3 F) as [A [B C]]. auto.
    + intros F Fk. destruct a; try (rewrite (J4 eq_refl Fk) in F; discriminate). eauto.
Qed.
Print Assumptions c38_stable.

(** A job somebody waits for is not removed or lost when children are reaped. *)
Theorem c38_waited_kept h s order s' j : reach false h s -> step false h s (ASig order) s' ->
  In j (jl (sh s)) -> f_waiting (j_fl j) = true ->
  exists k, In k (jl (sh s')) /\ j_id k = j_id j /\ f_waiting (j_fl k) = true.
Proof.
  intros R ST Hj W. destruct (reach_RI h s R) as [HI _ _]. pose proof (Inv_ids _ _ _ HI) as N.
  inversion ST as [| | | | | | | | | | | | |s0 q o s1 q' RS PM E]; subst. cbn [sh kq] in *.
  unfold j_sigchld in E. destruct (existsb _ (jl s0)); injection E as <- _; [exists j; auto|].
  assert (HW : has_wait (j_id j) (jl s0)) by (exists j; split; [apply In_get; assumption|exact W]).
  destruct (reaps_wait (j_id j) order s0 N HW) as [k [G Wk]].
  destruct (get_In _ _ _ G) as [A B]. exists k. cbn. auto.
Qed.
Print Assumptions c38_waited_kept.

(** An unreported child means that SIGCHLD is pending, or that it has been held back by a
    pipeline still being built.  Partial: only as long as no fork() has failed. *)
Theorem c38_wakeup_partial h s : reach false h s -> (forall c x b, ~ In (AFail c x b) h) -> kq s <> [] ->
  raised (sh s) = true \/ (held (sh s) = true /\ exists j, In j (jl (sh s)) /\ f_started (j_fl j) = false).
Proof.
  intros R NF. destruct (reach_RI h s R) as [_ _ HS].
  assert (X : no_fail h).
  { clear - NF. induction h as [|a h IH]; [exact I|]. assert (K : no_fail h) by (apply IH; intros c x b Hin; apply (NF c x b); right; exact Hin).
    destruct a; try exact K. destruct (NF cont xxcom bg). left. reflexivity. }
  exact (HS X).
Qed.
Print Assumptions c38_wakeup_partial.
(** And starting the pipeline raises the signal again. *)
Theorem c38_held_raised i s : held s = true -> raised (j_startjob i s) = true /\ held (j_startjob i s) = false.
Proof. intros H. unfold j_startjob. cbn. rewrite H. auto. Qed.
Print Assumptions c38_held_raised.
(** When the handler runs with no pipeline under construction everything is taken. *)
Theorem c38_drained h s order s' : reach false h s -> step false h s (ASig order) s' ->
  (forall j, In j (jl (sh s)) -> f_started (j_fl j) = true) -> kq s' = [].
Proof.
  intros R ST AS. inversion ST as [| | | | | | | | | | | | |s0 q o s1 q' RS PM E]; subst. cbn [sh kq] in *.
  unfold j_sigchld in E. rewrite (proj2 (started_iff s0)) in E; [|unfold allst; apply Forall_forall; exact AS].
  injection E as _ <-. reflexivity.
Qed.
Print Assumptions c38_drained.

(** The whole claim fails after a fork() failure: a background child ends while a pipeline
    is being built, the SIGCHLD is held, the next fork() fails.  The job under construction
    is removed without raising the signal again: the child stays unreported, no signal is
    pending and no pipeline is left to raise one. *)
Definition ex_forkfail : list act :=
  [AFail true false false; ASig [(10, WExit 7)]; AChild 10 (WExit 7);
   AFork false false false 11 (L "a"); AStart true; AFork false false true 10 (L "sleep 1"); AOpts false false false].
Theorem c38_wakeup_refuted : exists s, reach false ex_forkfail s /\ kq s = [(10, WExit 7)]
  /\ raised (sh s) = false /\ (forall j, In j (jl (sh s)) -> f_started (j_fl j) = true)
  /\ exists j, In j (jl (sh s)) /\ j_procs j <> [] /\ finished j = false.
Proof.
  eexists. split; [unfold ex_forkfail; run|]. split; [reflexivity|]. split; [reflexivity|]. split.
  - intros j Hj. vm_compute in Hj. destruct Hj as [<-|[]]. reflexivity.
  - eexists. split; [left; reflexivity|]. split; [discriminate|reflexivity].
Qed.
Print Assumptions c38_wakeup_refuted.

(** It also fails if the kernel reuses the pid of a process that is still recorded: job 0
    has one process ended (pid 10) and one stopped; a new job gets pid 10 and exits 5;
    the status goes to whichever job comes first in the list, the stopped one. *)
Definition ex_reuse : list act :=
  [ASig [(10, WExit 5)]; AChild 10 (WExit 5); AStart false; AFork false false false 10 (L "c");
   ASig [(11, WStop 20)]; AChild 11 (WStop 20); ASig [(10, WExit 0)]; AChild 10 (WExit 0);
   AStart false; AFork true false false 11 (L "b"); AFork false false false 10 (L "a"); AOpts true false false].
Theorem c38_pid_reuse_refuted : exists s, reach true ex_reuse s /\ kq s = []
  /\ exists j p, In j (jl (sh s)) /\ j_procs j = [p] /\ pids_of ex_reuse (j_id j) = [10]
     /\ outcome ex_reuse 10 = Some (WExit 5) /\ p_state p = PRun /\ finished j = false.
Proof.
  eexists. split; [unfold ex_reuse; run|]. split; [reflexivity|].
  eexists. eexists. split; [right; left; reflexivity|]. repeat split; reflexivity.
Qed.
Print Assumptions c38_pid_reuse_refuted.

(** A pipeline that is abandoned unstarted (pipe() fails after its first process) and is
    no longer the last job blocks all reaping for ever: it stays, no report is ever taken
    from the kernel and no other job becomes finished. *)
Inductive steps (h : list act) (s : sys) : list act -> sys -> Prop :=
| steps_refl : steps h s h s
| steps_one h' s' a s'' : steps h s h' s' -> step false h' s' a s'' -> steps h s (a :: h') s''.
Theorem c38_abandoned h s h' s' j : reach false h s -> steps h s h' s' ->
  In j (jl (sh s)) -> f_started (j_fl j) = false -> lastj (sh s) <> Some (j_id j) ->
  (exists j', In j' (jl (sh s')) /\ j_id j' = j_id j /\ f_started (j_fl j') = false)
  /\ (forall pid, In pid (map fst (kq s)) -> In pid (map fst (kq s')))
  /\ (forall k, In k (jl (sh s')) -> finished k = true ->
        exists k0, In k0 (jl (sh s)) /\ j_id k0 = j_id k /\ finished k0 = true).
Proof.
  intros R ST Hj U NL.
  assert (X : reach false h' s' /\ stuck (j_id j) (sh s')
    /\ (forall pid, In pid (map fst (kq s)) -> In pid (map fst (kq s')))
    /\ (forall k, In k (jl (sh s')) -> finished k = true ->
        exists k0, In k0 (jl (sh s)) /\ j_id k0 = j_id k /\ finished k0 = true)).
  { induction ST as [|h' s' a s'' ST IH S1].
    - split; [exact R|]. split; [split; [exists j; auto|exact NL]|]. split; [auto|]. intros k Hk F. exists k. auto.
    - destruct IH as [R1 [K [Q F]]]. destruct (step_stuck (j_id j) _ _ _ _ (reach_RI _ _ R1) K S1) as [A [B C]].
      split; [eapply RStep; eassumption|]. split; [exact A|]. split; [auto|].
      intros k Hk Fk. destruct (C k Hk Fk) as [k1 [K1 [K2 K3]]]. destruct (F k1 K1 K3) as [k0 [L1 [L2 L3]]].
      exists k0. split; [exact L1|]. split; [congruence|exact L3]. }
  destruct X as [_ [[X _] [Y Z]]]. auto.
Qed.
Print Assumptions c38_abandoned.
(** Such a state is reached by one pipe() failure and one more command. *)
Definition ex_abandoned : list act :=
  [AChild 11 (WExit 0); AStart false; AFork false false false 11 (L "b"); AFork false false false 10 (L "a"); AOpts false false false].
Example c38_ex_abandoned : exists s j, reach false ex_abandoned s /\ In j (jl (sh s)) /\ f_started (j_fl j) = false
  /\ lastj (sh s) <> Some (j_id j) /\ kq s = [(11, WExit 0)].
Proof.
  eexists. eexists. split; [unfold ex_abandoned; run|]. split; [right; left; reflexivity|]. split; [reflexivity|].
  split; [discriminate|reflexivity].
Qed.
(** And there a numeric job name reads an uninitialised pointer. *)
Example c38_ex_undef : exists s, reach false ex_abandoned s /\ j_lookup (L "99") (jl (sh s)) = LUndef.
Proof. eexists. split; [unfold ex_abandoned; run|]. vm_compute. reflexivity. Qed.

(** The count of zombies is right, and j_set_async ends and drops no listed job. *)
Theorem c38_zombies h s i s' : reach false h s ->
  nzomb (sh s) = Z.of_nat (length (filter (fun j => f_zombie (j_fl j)) (jl (sh s))))
  /\ j_set_async i (sh s) <> None
  /\ (j_set_async i (sh s) = Some s' -> forall j, In j (jl (sh s)) -> listed j ->
        exists j', In j' (jl s') /\ j_id j' = j_id j).
Proof.
  intros R. destruct (reach_RI h s R) as [HI _ _]. split; [|split].
  - rewrite (in_nz _ _ _ HI). unfold zcount. f_equal. clear. induction (jl (sh s)) as [|a l IH]; cbn; [reflexivity|].
    destruct (f_zombie (j_fl a)); cbn; rewrite IH; reflexivity.
  - unfold j_set_async. set (s1 := match asyncj (sh s) with Some k => _ | None => sh s end).
    assert (H1 : Inv h s1 (kq s)).
    { subst s1. destruct (asyncj (sh s)) as [k|]; [|exact HI]. destruct (get _ k) as [a|]; [|exact HI].
      destruct (_ && _); [apply Inv_remove|]; exact HI. }
    clearbody s1. destruct (get (jl s1) i) as [j|] eqn:G; [|discriminate]. destruct (f_started (j_fl j)); [|discriminate].
    apply (drop_zombies_fuel h (kq s)); [|cbn; lia].
    eapply Inv_same; [exact H1| | | | |]; cbn; auto.
    right. intros k X. injection X as <-. apply get_In in G. destruct G as [G <-]. apply in_map, G.
  - intros E j Hj Lj. destruct (set_async_inv h _ _ i s' HI E) as [_ [_ [D _]]]. exists j. auto.
Qed.
Print Assumptions c38_zombies.
(** After j_set_async at most child_max zombies are left, or the one that is $!. *)
Theorem c38_zombie_limit h s i s' j : reach false h s -> j_set_async i (sh s) = Some s' ->
  In j (jl (sh s)) -> j_id j = i -> listed j -> f_started (j_fl j) = true ->
  Z.of_nat (length (filter (fun j => f_zombie (j_fl j)) (jl s'))) <= Z.max 1 (childmax (sh s)).
Proof.
  intros R E Hj Ej Lj Sj. destruct (reach_RI h s R) as [HI _ _].
  destruct (set_async_inv h _ _ i s' HI E) as [I' _].
  assert (NZ : nzomb s' = Z.of_nat (length (filter (fun j => f_zombie (j_fl j)) (jl s')))).
  { rewrite (in_nz _ _ _ I'). unfold zcount. f_equal. clear. induction (jl s') as [|a l IH]; cbn; [reflexivity|].
    destruct (f_zombie (j_fl a)); cbn; rewrite IH; reflexivity. }
  rewrite <- NZ. unfold j_set_async in E. set (s1 := match asyncj (sh s) with Some k => _ | None => sh s end) in E.
  assert (H1 : Inv h s1 (kq s) /\ childmax s1 = childmax (sh s) /\ In j (jl s1)).
  { subst s1. destruct (asyncj (sh s)) as [k|]; [|auto]. destruct (get _ k) as [a|] eqn:G; [|auto].
    destruct (f_zombie (j_fl a) && _) eqn:Z; [|auto]. apply andb_prop in Z. destruct Z as [Z _].
    split; [apply Inv_remove, HI|]. split; [apply remove_frame|]. rewrite remove_jl. apply unlink_In. split; [exact Hj|].
    intros X. rewrite <- X, (In_get _ _ (Inv_ids _ _ _ HI) Hj) in G. injection G as <-. unfold listed in Lj. congruence. }
  destruct H1 as [H1 [C1 J1]]. clearbody s1. pose proof (In_get _ _ (Inv_ids _ _ _ H1) J1) as G. rewrite Ej in G.
  rewrite G, Sj in E.
  eapply (drop_zombies_inv h (kq s)) in E.
  - cbn [childmax with_async] in E. destruct E as [_ [_ [_ [X|X]]]]; lia.
  - eapply Inv_same; [exact H1| | | | |]; cbn; auto.
    right. intros k X. injection X as <-. rewrite <- Ej. apply in_map, J1.
Qed.
Print Assumptions c38_zombie_limit.

Example c38_ex : exists s, reach false ex_pipe s /\ forall j, In j (jl (sh s)) -> finished j = true /\ f_started (j_fl j) = true.
Proof. eexists. split; [unfold ex_pipe; run|]. intros j Hj. vm_compute in Hj. destruct Hj as [<-|[]]. split; reflexivity. Qed.
