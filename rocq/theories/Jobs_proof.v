(** Proofs about jobs: an invariant of all runs. *)
From Verif Require Import Base Jobs_model Jobs_spec.
From Coq Require Import Permutation.
Local Open Scope Z_scope.

(** * The parts of a job that only matter for the list *)
Record key := Key { k_id : nat; k_pids : list Z; k_z : bool; k_num : Z }.
Definition kof (j : job) : key :=
  Key (j_id j) (map p_pid (j_procs j)) (f_zombie (j_fl j)) (j_num j).

Record LI (ks : list key) (n : nat) : Prop := {
  li_ids : NoDup (map k_id ks);
  li_lt : forall k, In k ks -> (k_id k < n)%nat;
  li_pids : NoDup (flat_map k_pids ks);
  li_nums : NoDup (map k_num (filter (fun k => negb (k_z k)) ks)) }.

Definition zcount (ks : list key) : Z := Z.of_nat (length (filter k_z ks)).

Lemma perm_filter {A} (f : A -> bool) l l' : Permutation l l' -> Permutation (filter f l) (filter f l').
Proof.
  induction 1; cbn; auto.
  - destruct (f x); auto.
  - destruct (f x), (f y); auto using perm_swap.
  - eauto using Permutation_trans.
Qed.

Lemma LI_perm ks ks' n : Permutation ks ks' -> LI ks n -> LI ks' n.
Proof.
  intros P [H1 H2 H3 H4]; split.
  - eapply Permutation_NoDup; [apply Permutation_map; exact P|exact H1].
  - intros k Hk. apply H2. eapply Permutation_in; [apply Permutation_sym; exact P|exact Hk].
  - eapply Permutation_NoDup; [apply Permutation_flat_map; exact P|exact H3].
  - eapply Permutation_NoDup; [apply Permutation_map, perm_filter; exact P|exact H4].
Qed.

Lemma zcount_perm ks ks' : Permutation ks ks' -> zcount ks = zcount ks'.
Proof. intros P. unfold zcount. f_equal. apply Permutation_length, perm_filter, P. Qed.

Lemma NoDup_flat_filter {A B} (f : A -> list B) p l : NoDup (flat_map f l) -> NoDup (flat_map f (filter p l)).
Proof.
  induction l as [|a l IH]; cbn; intros H; [exact H|].
  assert (H2 : NoDup (flat_map f l)) by (revert H; induction (f a); cbn; auto; intros H; inversion H; auto).
  destruct (p a); cbn; [|auto].
  assert (forall b, In b (flat_map f (filter p l)) -> In b (flat_map f l)) as S.
  { intros b. rewrite !in_flat_map. intros [x [X Y]]. apply filter_In in X. exists x; tauto. }
  specialize (IH H2). revert H. induction (f a) as [|b r IHr]; cbn; [auto|].
  intros H; inversion H as [|x y E F]; subst. constructor; [|auto].
  rewrite in_app_iff in *. intros [X|X]; apply E; auto.
Qed.

Lemma NoDup_map_filter {A B} (f : A -> B) p l : NoDup (map f l) -> NoDup (map f (filter p l)).
Proof.
  induction l as [|a l IH]; cbn; intros H; [exact H|]. inversion H; subst.
  destruct (p a); cbn; [constructor|]; auto.
  intros X. apply H2. apply in_map_iff in X. destruct X as [x [E F]]. apply filter_In in F.
  rewrite <- E. apply in_map. tauto.
Qed.

Lemma filter_comm {A} (f g : A -> bool) l : filter f (filter g l) = filter g (filter f l).
Proof.
  induction l as [|a l IH]; cbn; [reflexivity|].
  destruct (f a) eqn:F, (g a) eqn:G; cbn; rewrite ?F, ?G, IH; reflexivity.
Qed.

Lemma LI_filter ks n p : LI ks n -> LI (filter p ks) n.
Proof.
  intros [H1 H2 H3 H4]; split.
  - apply NoDup_map_filter, H1.
  - intros k Hk. apply filter_In in Hk. apply H2. tauto.
  - apply NoDup_flat_filter, H3.
  - rewrite filter_comm. apply NoDup_map_filter, H4.
Qed.

Lemma LI_mono ks n m : LI ks n -> (n <= m)%nat -> LI ks m.
Proof. intros [H1 H2 H3 H4] L; split; auto. intros k Hk. specialize (H2 k Hk). lia. Qed.

(** * Lookup and update by identity *)
Definition ids (l : list job) : list nat := map j_id l.

Lemma kof_ids l : map k_id (map kof l) = ids l.
Proof. unfold ids. rewrite map_map. reflexivity. Qed.

Lemma get_In l i j : get l i = Some j -> In j l /\ j_id j = i.
Proof. intros H. apply find_some in H. unfold is_id in H. rewrite Nat.eqb_eq in H. exact H. Qed.

Lemma In_get l j : NoDup (ids l) -> In j l -> get l (j_id j) = Some j.
Proof.
  unfold get, ids. induction l as [|a l IH]; cbn; intros N H; [destruct H|].
  inversion N; subst. unfold is_id at 1. destruct (Nat.eqb_spec (j_id a) (j_id j)) as [E|E].
  - destruct H as [->|H]; [reflexivity|]. exfalso. apply H2. rewrite E. apply in_map, H.
  - destruct H as [->|H]; [congruence|]. auto.
Qed.

Lemma get_None l i : get l i = None -> ~ In i (ids l).
Proof.
  intros H X. apply in_map_iff in X. destruct X as [j [E F]].
  pose proof (find_none _ _ H j F) as Y. unfold is_id in Y. rewrite E, Nat.eqb_refl in Y. discriminate.
Qed.
Lemma In_ids_get l i : In i (ids l) -> exists j, get l i = Some j.
Proof.
  intros H. destruct (get l i) as [j|] eqn:E; [eauto|]. destruct (get_None _ _ E H).
Qed.

Lemma upd_In i f l j' : In j' (upd i f l) ->
  exists j, In j l /\ ((j_id j = i /\ j' = f j) \/ (j_id j <> i /\ j' = j)).
Proof.
  unfold upd. rewrite in_map_iff. intros [j [E F]]. exists j. split; [exact F|].
  unfold is_id in E. destruct (Nat.eqb_spec (j_id j) i); auto.
Qed.

Lemma upd_key i f l : (forall j, j_id j = i -> kof (f j) = kof j) -> map kof (upd i f l) = map kof l.
Proof.
  intros H. unfold upd. rewrite map_map. apply map_ext. intros j. unfold is_id.
  destruct (Nat.eqb_spec (j_id j) i); auto.
Qed.

Lemma upd_ids i f l : (forall j, j_id (f j) = j_id j) -> ids (upd i f l) = ids l.
Proof.
  intros H. unfold upd, ids. rewrite map_map. apply map_ext. intros j. destruct (is_id i j); auto.
Qed.

Lemma get_upd i f l j : (forall j, j_id (f j) = j_id j) ->
  get l i = Some j -> get (upd i f l) i = Some (f j).
Proof.
  intros Hf. unfold get, upd. induction l as [|a l IH]; cbn; [discriminate|].
  destruct (is_id i a) eqn:E; cbn.
  - unfold is_id in *. rewrite Hf, E. intros H. injection H as ->. reflexivity.
  - rewrite E. exact IH.
Qed.
Lemma get_upd_ne i k f l : (forall j, j_id (f j) = j_id j) -> k <> i ->
  get (upd i f l) k = get l k.
Proof.
  intros Hf N. unfold get, upd. induction l as [|a l IH]; cbn; [reflexivity|].
  destruct (is_id i a) eqn:E; cbn.
  - unfold is_id in *. apply Nat.eqb_eq in E. rewrite Hf, E.
    destruct (Nat.eqb_spec i k); [congruence|]. exact IH.
  - destruct (is_id k a); [reflexivity|exact IH].
Qed.

Lemma unlink_key i l : map kof (unlink i l) = filter (fun k => negb (Nat.eqb (k_id k) i)) (map kof l).
Proof.
  unfold unlink, is_id. induction l as [|a l IH]; cbn; [reflexivity|].
  destruct (Nat.eqb (j_id a) i); cbn; rewrite IH; reflexivity.
Qed.
Lemma unlink_In i l j : In j (unlink i l) <-> In j l /\ j_id j <> i.
Proof.
  unfold unlink. rewrite filter_In. unfold is_id. destruct (Nat.eqb_spec (j_id j) i); cbn; intuition congruence.
Qed.
Lemma unlink_absent i l : ~ In i (ids l) -> unlink i l = l.
Proof.
  unfold unlink, ids, is_id. induction l as [|a l IH]; cbn; intros H; [reflexivity|].
  destruct (Nat.eqb_spec (j_id a) i); [tauto|]. cbn. rewrite IH by tauto. reflexivity.
Qed.
Lemma get_unlink i k l : get (unlink i l) k = if Nat.eqb k i then None else get l k.
Proof.
  unfold get, unlink, is_id. induction l as [|a l IH]; cbn; [destruct (Nat.eqb k i); reflexivity|].
  destruct (Nat.eqb_spec (j_id a) i); cbn.
  - rewrite IH. destruct (Nat.eqb_spec k i); [reflexivity|].
    destruct (Nat.eqb_spec (j_id a) k); [congruence|]. reflexivity.
  - destruct (Nat.eqb_spec (j_id a) k); [|exact IH]. destruct (Nat.eqb_spec k i); [congruence|reflexivity].
Qed.

Lemma past_stopped_perm j l : Permutation (past_stopped j l) (j :: l).
Proof.
  induction l as [|a l IH]; cbn; [auto|]. destruct (pstate_eqb (j_state a) PStop); [|auto].
  eapply Permutation_trans; [apply perm_skip, IH|apply perm_swap].
Qed.
Lemma put_perm front j l : Permutation (put_job front j l) (j :: unlink (j_id j) l).
Proof. unfold put_job. destruct front; [auto|apply past_stopped_perm]. Qed.

Lemma unlink_perm l j : NoDup (ids l) -> In j l -> Permutation (j :: unlink (j_id j) l) l.
Proof.
  unfold ids. induction l as [|a l IH]; intros N H; [destruct H|]. inversion N; subst.
  change (unlink (j_id j) (a :: l))
    with (if negb (is_id (j_id j) a) then a :: unlink (j_id j) l else unlink (j_id j) l).
  unfold is_id. destruct H as [->|H].
  - rewrite Nat.eqb_refl; cbn [negb]. rewrite unlink_absent by assumption. auto.
  - destruct (Nat.eqb_spec (j_id a) (j_id j)) as [E|E].
    + exfalso. apply H2. rewrite E. apply in_map, H.
    + cbn [negb]. eapply Permutation_trans; [apply perm_swap|]. apply perm_skip, IH; auto.
Qed.

Lemma reput_perm front i l : NoDup (ids l) -> Permutation (reput front i l) l.
Proof.
  intros N. unfold reput. destruct (get l i) as [j|] eqn:G; [|auto].
  apply get_In in G. destruct G as [G E].
  eapply Permutation_trans; [apply put_perm|]. apply unlink_perm; auto.
Qed.

Lemma get_perm l l' i : NoDup (ids l) -> Permutation l l' -> get l' i = get l i.
Proof.
  intros N P. assert (N' : NoDup (ids l')) by (eapply Permutation_NoDup; [apply Permutation_map, P|exact N]).
  destruct (get l i) as [j|] eqn:G.
  - apply get_In in G. destruct G as [G E]. subst i. apply In_get; auto.
    eapply Permutation_in; [exact P|exact G].
  - apply get_None in G. destruct (get l' i) as [j|] eqn:G'; [|reflexivity].
    apply get_In in G'. destruct G' as [G' E]. exfalso. apply G. subst i. apply in_map.
    eapply Permutation_in; [apply Permutation_sym, P|exact G'].
Qed.

(** * The job-level invariant *)
Definition nend (p : proc) : Prop := p_state p = PRun \/ p_state p = PStop.
Definition pinv (h : list act) (q : list (Z * wst)) (p : proc) : Prop :=
  (nend p /\ forall w, outcome h (p_pid p) = Some w -> ended w -> In (p_pid p, w) q)
  \/ (exists w, ended w /\ outcome h (p_pid p) = Some w /\ says p w /\ ~ In (p_pid p) (map fst q)).

Definition settled (j : job) : Prop :=
  match job_state PRun (j_procs j) with
  | None => j_state j = PRun
  | Some st => j_state j = st /\ exists p, last_proc j = Some p /\ j_status j = pcode p
  end.

Record JI (h : list act) (q : list (Z * wst)) (j : job) : Prop := {
  ji_ne : j_procs j <> [];
  ji_pids : map p_pid (j_procs j) = pids_of h (j_id j);
  ji_pf : f_pipefail (j_fl j) = pipefail_of h (j_id j);
  ji_pinv : Forall (pinv h q) (j_procs j);
  ji_rm : f_remove (j_fl j) = true -> finished j = true /\ f_started (j_fl j) = true;
  ji_num : f_zombie (j_fl j) = false -> 1 <= j_num j;
  ji_z : f_zombie (j_fl j) = true -> j_num j = -1 /\ finished j = true /\ f_started (j_fl j) = true;
  ji_un : f_started (j_fl j) = false ->
          Forall (fun p => p_state p = PRun) (j_procs j) /\ j_state j = PRun;
  ji_st : f_started (j_fl j) = true ->
          j_last j = Some (Nat.pred (length (j_procs j))) /\ settled j }.

Definition refs (s : jst) : Prop :=
  (forall i, lastj s = Some i -> In i (ids (jl s)) /\ S i = nid s)
  /\ (forall i, asyncj s = Some i -> In i (ids (jl s))).

Definition QI (h : list act) (q : list (Z * wst)) : Prop :=
  NoDup (map fst q) /\ forall pid w, In (pid, w) q -> outcome h pid = Some w.

Record Inv (h : list act) (s : jst) (q : list (Z * wst)) : Prop := {
  in_li : LI (map kof (jl s)) (nid s);
  in_ji : Forall (JI h q) (jl s);
  in_refs : refs s;
  in_nz : nzomb s = zcount (map kof (jl s));
  in_q : QI h q }.

Lemma Inv_ids h s q : Inv h s q -> NoDup (ids (jl s)).
Proof. intros H. rewrite <- kof_ids. apply (li_ids _ _ (in_li _ _ _ H)). Qed.

(** Updates that keep the key and the job invariant. *)
Definition same_refs (s s' : jst) : Prop :=
  lastj s' = lastj s /\ nid s' = nid s /\ nzomb s' = nzomb s
  /\ (asyncj s' = asyncj s \/ asyncj s' = None).

Lemma Inv_upd h s s' q i f : Inv h s q -> jl s' = upd i f (jl s) -> same_refs s s' ->
  (forall j, In j (jl s) -> j_id j = i -> JI h q j -> JI h q (f j)) ->
  (forall j, kof (f j) = kof j) -> Inv h s' q.
Proof.
  intros [H1 H2 H3 H4 H5] E [R1 [R2 [R3 R4]]] HJ HK.
  assert (K : map kof (jl s') = map kof (jl s)) by (rewrite E; apply upd_key; auto).
  assert (I : ids (jl s') = ids (jl s)) by (rewrite <- !kof_ids, K; reflexivity).
  split.
  - rewrite K, R2. exact H1.
  - rewrite E. apply Forall_forall. intros j' Hj. apply upd_In in Hj.
    rewrite Forall_forall in H2.
    destruct Hj as [j [Hj [[X ->]|[X ->]]]]; auto.
  - destruct H3 as [Ra Rb]. split; intros k; rewrite I, ?R1, ?R2; [apply Ra|].
    destruct R4 as [-> | ->]; [apply Rb|discriminate].
  - rewrite K, R3. exact H4.
  - exact H5.
Qed.

Lemma Inv_reput h s q front i : Inv h s q -> Inv h (with_jl s (reput front i (jl s))) q.
Proof.
  intros H. pose proof (reput_perm front i _ (Inv_ids _ _ _ H)) as P.
  destruct H as [H1 H2 H3 H4 H5]. split; cbn.
  - eapply LI_perm; [apply Permutation_map, Permutation_sym, P|exact H1].
  - eapply Permutation_Forall; [apply Permutation_sym, P|exact H2].
  - destruct H3 as [Ra Rb]. split; cbn; intros k Hk.
    + destruct (Ra k Hk) as [X Y]. split; [|exact Y].
      eapply Permutation_in; [apply Permutation_map, Permutation_sym, P|exact X].
    + eapply Permutation_in; [apply Permutation_map, Permutation_sym, P|exact (Rb k Hk)].
  - rewrite H4. apply zcount_perm, Permutation_map, Permutation_sym, P.
  - exact H5.
Qed.

Lemma drop_ref_some i r k : drop_ref i r = Some k -> r = Some k /\ k <> i.
Proof.
  unfold drop_ref. destruct r as [a|]; [|discriminate].
  destruct (Nat.eqb_spec a i); [discriminate|]. intros H; injection H as ->. auto.
Qed.

Lemma Inv_remove h s q i : Inv h s q -> Inv h (remove_job i s) q.
Proof.
  intros H. pose proof (Inv_ids _ _ _ H) as N. destruct H as [H1 H2 H3 H4 H5].
  unfold remove_job. destruct (get (jl s) i) as [j|] eqn:G; [|split; assumption].
  apply get_In in G. destruct G as [G E].
  split; cbn.
  - rewrite unlink_key. apply LI_filter, H1.
  - apply Forall_forall. intros k Hk. apply unlink_In in Hk. rewrite Forall_forall in H2.
    apply H2. tauto.
  - destruct H3 as [Ra Rb].
    assert (U : forall k, In k (ids (jl s)) -> k <> i -> In k (ids (unlink i (jl s)))).
    { intros k Hk Hn. apply in_map_iff in Hk. destruct Hk as [x [X Y]]. subst k.
      apply in_map. apply unlink_In. auto. }
    split; cbn; intros k Hk; apply drop_ref_some in Hk; destruct Hk as [Hk Hn].
    + destruct (Ra k Hk). auto.
    + auto.
  - subst i. rewrite H4.
    rewrite <- (zcount_perm _ _ (Permutation_map kof (unlink_perm _ _ N G))).
    unfold zcount. cbn [map filter]. change (k_z (kof j)) with (f_zombie (j_fl j)).
    destruct (f_zombie (j_fl j)); cbn [length]; lia.
  - exact H5.
Qed.

Lemma Inv_same h s s' q : Inv h s q -> jl s' = jl s -> lastj s' = lastj s ->
  (asyncj s' = asyncj s \/ forall i, asyncj s' = Some i -> In i (ids (jl s))) ->
  nid s' = nid s -> nzomb s' = nzomb s -> Inv h s' q.
Proof.
  intros [H1 H2 [Ra Rb] H4 H5] E1 E2 E3 E4 E5. split; rewrite ?E1, ?E4, ?E5; auto.
  split; rewrite ?E1, ?E2, ?E4; auto. destruct E3 as [->|E3]; auto.
Qed.

(** * Flag updates *)
Ltac ji_flags :=
  intros; match goal with H : JI _ _ _ |- _ =>
    let A1 := fresh in let A2 := fresh in let A3 := fresh in let A4 := fresh in
    let A5 := fresh in let A6 := fresh in let A7 := fresh in let A8 := fresh in let A9 := fresh in
    destruct H as [A1 A2 A3 A4 A5 A6 A7 A8 A9]; split; cbn; auto end.

Lemma Inv_waiting h s q i (g : job -> bool) (b : bool) : Inv h s q ->
  Inv h (with_jl s (upd i (fun j => jfl j (set_waiting b (g j) (j_fl j))) (jl s))) q.
Proof.
  intros H. eapply Inv_upd; [exact H|reflexivity|split; [|split; [|split]]; cbn; auto| |reflexivity].
  ji_flags.
Qed.
Lemma Inv_changed h s q i b : Inv h s q ->
  Inv h (with_jl s (upd i (fun j => jfl j (set_changed b (j_fl j))) (jl s))) q.
Proof.
  intros H. eapply Inv_upd; [exact H|reflexivity|split; [|split; [|split]]; cbn; auto| |reflexivity].
  ji_flags.
Qed.
Lemma Inv_known h s q i b : Inv h s q ->
  Inv h (with_jl s (upd i (fun j => jfl j (set_known b (j_fl j))) (jl s))) q.
Proof.
  intros H. eapply Inv_upd; [exact H|reflexivity|split; [|split; [|split]]; cbn; auto| |reflexivity].
  ji_flags.
Qed.
Lemma Inv_fgw h s q i : Inv h s q ->
  Inv h (with_jl s (upd i (fun j => jfl j (set_fg false (set_waiting false false (j_fl j)))) (jl s))) q.
Proof.
  intros H. eapply Inv_upd; [exact H|reflexivity|split; [|split; [|split]]; cbn; auto| |reflexivity].
  ji_flags.
Qed.
Lemma Inv_fgk h s q i : Inv h s q ->
  Inv h (with_jl s (upd i (fun j => jfl j (set_known false (set_fg true (j_fl j)))) (jl s))) q.
Proof.
  intros H. eapply Inv_upd; [exact H|reflexivity|split; [|split; [|split]]; cbn; auto| |reflexivity].
  ji_flags.
Qed.

(** * The SIGCHLD handler *)
Arguments upd : simpl never.
Arguments unlink : simpl never.
Arguments ids : simpl never.
Arguments get : simpl never.
Arguments reput : simpl never.
Lemma upd_upd i f g l : (forall j, j_id (g j) = j_id j) ->
  upd i f (upd i g l) = upd i (fun j => f (g j)) l.
Proof.
  intros Hg. unfold upd. rewrite map_map. apply map_ext. intros j.
  destruct (is_id i j) eqn:E; [|rewrite E; reflexivity].
  unfold is_id in *. rewrite Hg, E. reflexivity.
Qed.

Lemma upd_perm i f l j : NoDup (ids l) -> In j l -> j_id j = i ->
  Permutation (f j :: unlink i l) (upd i f l).
Proof.
  intros N H <-. unfold ids in N. revert N H.
  induction l as [|a l IH]; intros N H; [destruct H|]. inversion N; subst.
  change (unlink (j_id j) (a :: l))
    with (if negb (is_id (j_id j) a) then a :: unlink (j_id j) l else unlink (j_id j) l).
  change (upd (j_id j) f (a :: l))
    with ((if is_id (j_id j) a then f a else a) :: upd (j_id j) f l).
  unfold is_id. destruct H as [->|H].
  - rewrite Nat.eqb_refl; cbn [negb]. rewrite unlink_absent by assumption.
    replace (upd (j_id j) f l) with l; [auto|]. unfold upd.
    rewrite <- (map_id l) at 1. apply map_ext_in. intros k Hk. unfold is_id.
    destruct (Nat.eqb_spec (j_id k) (j_id j)) as [E|E]; [|reflexivity].
    exfalso. apply H2. rewrite <- E. apply in_map, Hk.
  - destruct (Nat.eqb_spec (j_id a) (j_id j)) as [E|E].
    + exfalso. apply H2. rewrite E. apply in_map, H.
    + cbn [negb]. eapply Permutation_trans; [apply perm_swap|]. apply perm_skip, IH; auto.
Qed.

Lemma job_state_none acc ps : job_state acc ps = None <-> exists p, In p ps /\ p_state p = PRun.
Proof.
  revert acc. induction ps as [|p r IH]; intros acc; cbn.
  - split; [discriminate|]. intros [p [[] _]].
  - destruct (p_state p) eqn:E.
    + split; [eauto|reflexivity].
    + rewrite IH. split; intros [x X]; exists x; [tauto|]. destruct X as [[->|X] Y]; [congruence|auto].
    + rewrite IH. split; intros [x X]; exists x; [tauto|]. destruct X as [[->|X] Y]; [congruence|auto].
    + rewrite IH. split; intros [x X]; exists x; [tauto|]. destruct X as [[->|X] Y]; [congruence|auto].
Qed.

Lemma job_state_some acc ps st : job_state acc ps = Some st ->
  pord st = fold_right (fun p m => Nat.max (pord (p_state p)) m) (pord acc) ps
  /\ Forall (fun p => p_state p <> PRun) ps.
Proof.
  revert acc. induction ps as [|p r IH]; intros acc; cbn [job_state fold_right].
  - intros H; injection H as <-. auto.
  - intros H.
    assert (N : p_state p <> PRun) by (intros E; rewrite E in H; discriminate).
    assert (H' : job_state (if Nat.ltb (pord acc) (pord (p_state p)) then p_state p else acc) r = Some st)
      by (destruct (p_state p); [congruence| | |]; exact H).
    destruct (IH _ H') as [X Y]. split; [|constructor; auto].
    rewrite X. clear. set (b := pord (p_state p)). set (a := pord acc).
    assert (forall m, fold_right (fun p0 m => Nat.max (pord (p_state p0)) m) m r
                 = Nat.max m (fold_right (fun p0 m => Nat.max (pord (p_state p0)) m) 0%nat r)) as G.
    { intros m. induction r as [|x r IHr]; cbn; [lia|]. rewrite IHr. lia. }
    rewrite G, (G a). destruct (Nat.ltb_spec a b).
    + fold b. lia.
    + fold a. lia.
Qed.

Lemma fold_max_le (ps : list proc) p m : In p ps ->
  (pord (p_state p) <= fold_right (fun p m => Nat.max (pord (p_state p)) m) m ps)%nat.
Proof. induction ps as [|x r IH]; cbn; [tauto|]. intros [->|H]; [lia|]. specialize (IH H). lia. Qed.
Lemma fold_max_in (ps : list proc) :
  fold_right (fun p m => Nat.max (pord (p_state p)) m) 0%nat ps = 0%nat
  \/ exists p, In p ps /\ pord (p_state p) = fold_right (fun p m => Nat.max (pord (p_state p)) m) 0%nat ps.
Proof.
  induction ps as [|x r IH]; cbn; [auto|].
  destruct (Nat.max_spec (pord (p_state x)) (fold_right (fun p m => Nat.max (pord (p_state p)) m) 0%nat r)) as [[A ->]|[A ->]].
  - destruct IH as [E|[p [P1 P2]]]; [lia|]. right; exists p. auto.
  - right. exists x. auto.
Qed.

(** A settled job is finished when all its processes have ended. *)
Definition pended (p : proc) : Prop := p_state p = PExit \/ p_state p = PSig.
Lemma finished_iff j : j_procs j <> [] -> settled j ->
  (finished j = true <-> Forall pended (j_procs j)).
Proof.
  intros NE S. unfold settled in S. unfold finished, pstate_eqb.
  destruct (job_state PRun (j_procs j)) as [st|] eqn:E.
  - destruct S as [-> _]. apply job_state_some in E. destruct E as [E N]. cbn [pord] in E. split.
    + intros F. apply Forall_forall. intros p Hp. pose proof (fold_max_le _ p 0 Hp) as LE. rewrite <- E in LE.
      rewrite Forall_forall in N. specialize (N p Hp). unfold pended.
      destruct (p_state p); [congruence|auto|auto|].
      destruct st; cbn in LE, F; try lia; discriminate.
    + intros F. destruct (fold_max_in (j_procs j)) as [Z0|[p [Hp Ep]]].
      * exfalso. destruct (j_procs j) as [|p r]; [congruence|]. inversion N; subst.
        pose proof (fold_max_le (p :: r) p 0 (or_introl eq_refl)) as LE. rewrite Z0 in LE.
        destruct (p_state p); cbn in LE; try congruence; lia.
      * rewrite <- E in Ep. rewrite Forall_forall in F. destruct (F p Hp) as [X|X]; rewrite X in Ep;
          destruct st; cbn in Ep; try lia; reflexivity.
  - rewrite S. cbn. split; [discriminate|]. intros F. exfalso.
    apply job_state_none in E. destruct E as [p [Hp Ep]]. rewrite Forall_forall in F.
    destruct (F p Hp); congruence.
Qed.

Lemma unstarted_unfinished h q j : JI h q j -> f_started (j_fl j) = false -> finished j = false.
Proof. intros H U. destruct (ji_un _ _ _ H U) as [_ E]. unfold finished. rewrite E. reflexivity. Qed.

Lemma set_proc_pids pid w ps : map p_pid (set_proc pid w ps) = map p_pid ps.
Proof.
  induction ps as [|p r IH]; cbn; [reflexivity|].
  destruct (Z.eqb_spec (p_pid p) pid); cbn; congruence.
Qed.
Lemma set_proc_len pid w ps : length (set_proc pid w ps) = length ps.
Proof. rewrite <- (map_length p_pid), set_proc_pids, map_length. reflexivity. Qed.
Lemma set_proc_In pid w ps p' : NoDup (map p_pid ps) -> In p' (set_proc pid w ps) ->
  (In p' ps /\ p_pid p' <> pid) \/ (exists p, In p ps /\ p_pid p = pid /\ p' = Proc pid (wstate w) (Some w) (p_cmd p)).
Proof.
  induction ps as [|p r IH]; cbn; intros N; [tauto|]. inversion N; subst.
  destruct (Z.eqb_spec (p_pid p) pid) as [E|E]; intros [<-|H].
  - right. exists p. auto.
  - left. split; [auto|]. intros X. apply H1. rewrite E, <- X. apply in_map, H.
  - left; auto.
  - destruct (IH H2 H) as [X|[x X]]; [left; tauto|right; exists x; tauto].
Qed.
Lemma set_proc_get pid w ps : In pid (map p_pid ps) ->
  exists p, In p (set_proc pid w ps) /\ p_pid p = pid /\ says p w.
Proof.
  induction ps as [|p r IH]; cbn; [tauto|]. intros H.
  destruct (Z.eqb_spec (p_pid p) pid) as [E|E].
  - eexists. split; [left; reflexivity|]. split; [reflexivity|split; reflexivity].
  - destruct H as [H|H]; [congruence|]. destruct (IH H) as [x X]. exists x. cbn. tauto.
Qed.

Lemma pinv_drop h e q p : pinv h (e :: q) p -> p_pid p <> fst e -> pinv h q p.
Proof.
  intros [[A B]|[w [A [B [C D]]]]] N.
  - left. split; [exact A|]. intros w O X. destruct (B w O X) as [Y|Y]; [|exact Y].
    exfalso. apply N. rewrite Y. reflexivity.
  - right. exists w. cbn in D. intuition.
Qed.

Lemma JI_drop h e q j : JI h (e :: q) j -> ~ In (fst e) (map p_pid (j_procs j)) -> JI h q j.
Proof.
  intros [A1 A2 A3 A4 A5 A6 A7 A8 A9] N. split; auto.
  rewrite Forall_forall in *. intros p Hp. apply (pinv_drop h e); auto.
  intros E. apply N. rewrite <- E. apply in_map, Hp.
Qed.

Lemma QI_drop h e q : QI h (e :: q) -> QI h q.
Proof. intros [A B]. inversion A; subst. split; [assumption|]. intros. apply B. right; assumption. Qed.

Lemma Inv_upd2 h s q q' i f : Inv h s q -> QI h q' ->
  (forall j, In j (jl s) -> j_id j = i -> JI h q j -> JI h q' (f j)) ->
  (forall j, In j (jl s) -> j_id j <> i -> JI h q j -> JI h q' j) ->
  (forall j, kof (f j) = kof j) -> Inv h (with_jl s (upd i f (jl s))) q'.
Proof.
  intros [H1 H2 H3 H4 H5] HQ HJ HN HK.
  assert (K : map kof (upd i f (jl s)) = map kof (jl s)) by (apply upd_key; auto).
  assert (I : ids (upd i f (jl s)) = ids (jl s)) by (rewrite <- !kof_ids, K; reflexivity).
  split; cbn.
  - rewrite K. exact H1.
  - apply Forall_forall. intros j' Hj. apply upd_In in Hj. rewrite Forall_forall in H2.
    destruct Hj as [j [Hj [[X ->]|[X ->]]]]; auto.
  - destruct H3 as [Ra Rb]. split; cbn; intros k; rewrite I; auto.
  - rewrite K. exact H4.
  - exact HQ.
Qed.

Lemma NoDup_flat_in {A B} (f : A -> list B) l a : NoDup (flat_map f l) -> In a l -> NoDup (f a).
Proof.
  induction l as [|x l IH]; cbn; intros N H; [destruct H|].
  assert (NoDup (f x) /\ NoDup (flat_map f l)) as [X Y].
  { clear IH H. induction (f x) as [|b r IHr]; cbn in *; [split; [constructor|assumption]|].
    inversion N; subst. destruct (IHr H2). split; [|assumption]. constructor; [|assumption].
    intros Z. apply H1. apply in_or_app; auto. }
  destruct H as [->|H]; auto.
Qed.
Lemma NoDup_flat_two {A B} (f : A -> list B) l a b x : NoDup (flat_map f l) -> In a l -> In b l ->
  In x (f a) -> In x (f b) -> a = b.
Proof.
  assert (forall (u v : list B), NoDup (u ++ v) -> forall y, In y u -> In y v -> False) as D.
  { intros u v. induction u as [|c u IHu]; cbn; [tauto|]. intros N y [->|X] Y; inversion N; subst.
    - apply H1. apply in_or_app. auto.
    - eapply IHu; eauto. }
  assert (forall (u v : list B), NoDup (u ++ v) -> NoDup v) as T.
  { intros u v. induction u as [|c u IHu]; cbn; [auto|]. intros N; inversion N; auto. }
  induction l as [|c l IH]; cbn; intros N Ha Hb Xa Xb; [destruct Ha|].
  destruct Ha as [->|Ha], Hb as [->|Hb]; auto.
  - exfalso. eapply D; [exact N|exact Xa|]. apply in_flat_map. eauto.
  - exfalso. eapply D; [exact N|exact Xb|]. apply in_flat_map. eauto.
  - apply IH; auto. eapply T; exact N.
Qed.

Lemma flat_kof l : flat_map k_pids (map kof l) = flat_map (fun j => map p_pid (j_procs j)) l.
Proof. induction l as [|a l IH]; cbn; [reflexivity|]. rewrite IH. reflexivity. Qed.

Lemma has_pid_In pid j : has_pid pid j = true <-> In pid (map p_pid (j_procs j)).
Proof.
  unfold has_pid. rewrite existsb_exists, in_map_iff. split; intros [p [A B]]; exists p.
  - rewrite Z.eqb_eq in B. auto.
  - rewrite Z.eqb_eq. auto.
Qed.

Definition allst (s : jst) : Prop := Forall (fun j => f_started (j_fl j) = true) (jl s).

Lemma LI_zombie k ks n : LI (k :: ks) n -> LI (Key (k_id k) (k_pids k) true (-1) :: ks) n.
Proof.
  intros [H1 H2 H3 H4]. split; cbn in *.
  - exact H1.
  - intros x [<-|Hx]; cbn; [apply (H2 k)|apply H2]; auto.
  - exact H3.
  - destruct (k_z k); cbn in H4; [exact H4|]. inversion H4; assumption.
Qed.

Lemma Inv_zombie h s q i j : Inv h s q -> get (jl s) i = Some j -> f_zombie (j_fl j) = false ->
  finished j = true -> f_started (j_fl j) = true ->
  Inv h (with_nzomb (with_jl s (upd i (fun j => jnum (jfl j (set_zombie (j_fl j))) (-1)) (jl s)))
                    (nzomb s + 1)) q.
Proof.
  intros H G Z F S. pose proof (Inv_ids _ _ _ H) as N. destruct H as [H1 H2 H3 H4 H5].
  apply get_In in G. destruct G as [G E].
  set (f := fun j => jnum (jfl j (set_zombie (j_fl j))) (-1)).
  pose proof (upd_perm i f (jl s) j N G E) as P.
  pose proof (unlink_perm (jl s) j N G) as U. rewrite E in U.
  assert (I : ids (upd i f (jl s)) = ids (jl s)) by (apply upd_ids; reflexivity).
  split; cbn.
  - eapply LI_perm; [apply Permutation_map, P|].
    refine (LI_zombie (kof j) (map kof (unlink i (jl s))) _ _).
    exact (LI_perm _ _ _ (Permutation_map kof (Permutation_sym U)) H1).
  - apply Forall_forall. intros j' Hj. apply upd_In in Hj. rewrite Forall_forall in H2.
    destruct Hj as [x [Hx [[X ->]|[X ->]]]]; [|auto].
    assert (x = j) as ->.
    { pose proof (In_get _ _ N Hx) as G1. pose proof (In_get _ _ N G) as G2. rewrite X in G1. rewrite E in G2. congruence. }
    destruct (H2 j G) as [A1 A2 A3 A4 A5 A6 A7 A8 A9]. split; cbn; auto; congruence.
  - destruct H3 as [Ra Rb]. split; cbn; intros k; fold f; rewrite I; auto.
  - rewrite H4. rewrite <- (zcount_perm _ _ (Permutation_map kof U)).
    fold f. rewrite <- (zcount_perm _ _ (Permutation_map kof P)).
    unfold zcount. cbn [map filter]. change (k_z (kof j)) with (f_zombie (j_fl j)). rewrite Z.
    change (k_z (kof (f j))) with true. cbn [length]. lia.
  - exact H5.
Qed.

Lemma last_proc_len (j : job) : j_procs j <> [] -> j_last j = Some (Nat.pred (length (j_procs j))) ->
  exists p, last_proc j = Some p.
Proof.
  intros NE E. unfold last_proc. rewrite E.
  destruct (nth_error (j_procs j) (Nat.pred (length (j_procs j)))) eqn:X; [eauto|].
  apply nth_error_None in X. destruct (j_procs j); [congruence|]. cbn in X. lia.
Qed.

Lemma remove_jl i s : jl (remove_job i s) = unlink i (jl s).
Proof.
  unfold remove_job. destruct (get (jl s) i) as [j|] eqn:G; [reflexivity|].
  symmetry. apply unlink_absent, get_None, G.
Qed.
Lemma remove_frame i s : mon (remove_job i s) = mon s /\ notif (remove_job i s) = notif s
  /\ pfail (remove_job i s) = pfail s /\ held (remove_job i s) = held s
  /\ raised (remove_job i s) = raised s /\ nid (remove_job i s) = nid s
  /\ childmax (remove_job i s) = childmax s.
Proof. unfold remove_job. destruct (get (jl s) i); cbn; auto 10. Qed.
Lemma remove_mon i s : mon (remove_job i s) = mon s.
Proof. apply remove_frame. Qed.
Lemma allst_remove i s : allst s -> allst (remove_job i s).
Proof.
  unfold allst. rewrite remove_jl, !Forall_forall. intros H x Hx. apply unlink_In in Hx. apply H. tauto.
Qed.

Lemma after_check_inv h s q i j : Inv h s q -> get (jl s) i = Some j -> f_zombie (j_fl j) = false ->
  f_started (j_fl j) = true -> (j_state j <> PRun) -> Inv h (after_check i s) q.
Proof.
  intros H G Z S R. unfold after_check. rewrite G.
  set (stopped := pstate_eqb (j_state j) PStop).
  destruct (mon s && negb (f_xxcom (j_fl j))) eqn:M.
  - apply andb_prop in M. destruct M as [M X].
    set (s1 := if stopped then with_jl s (reput true i (jl s)) else s).
    assert (H1 : Inv h s1 q) by (subst s1; destruct stopped; [apply Inv_reput|]; exact H).
    assert (M1 : mon s1 = true) by (subst s1; destruct stopped; exact M).
    set (s2 := if notif s1 && _ then _ else s1).
    assert (H2 : Inv h s2 q /\ mon s2 = true).
    { subst s2. destruct (notif s1 && _); [|auto].
      destruct (negb (f_waiting (j_fl j)) && negb stopped).
      - split; [apply Inv_remove, Inv_changed, H1|]. rewrite remove_mon. exact M1.
      - split; [apply Inv_changed, H1|exact M1]. }
    destruct H2 as [H2 M2]. rewrite M2. cbn. exact H2.
  - destruct (negb (mon s) && negb (f_waiting (j_fl j) || f_fg (j_fl j)) && negb stopped) eqn:C; [|exact H].
    apply andb_prop in C. destruct C as [_ C]. apply negb_true_iff in C.
    destruct (_ || f_known (j_fl j)).
    + eapply Inv_zombie; eauto. unfold finished. subst stopped.
      destruct (j_state j); cbn in *; congruence.
    + apply Inv_remove, H.
Qed.

Lemma after_check_jl i s j : In j (jl (after_check i s)) ->
  exists j', In j' (jl s) /\ f_started (j_fl j) = f_started (j_fl j').
Proof.
  unfold after_check. destruct (get (jl s) i) as [a|] eqn:G; [|eauto].
  set (P := fun s' : jst => forall j, In j (jl s') -> exists j', In j' (jl s) /\ f_started (j_fl j) = f_started (j_fl j')).
  assert (P0 : P s) by (intros x Hx; eauto).
  assert (PU : forall s' f, P s' -> (forall x, f_started (j_fl (f x)) = f_started (j_fl x)) ->
               P (with_jl s' (upd i f (jl s')))).
  { intros s' f HP Hf x Hx. cbn in Hx. apply upd_In in Hx.
    destruct Hx as [y [Hy [[_ ->]|[_ ->]]]]; [rewrite Hf|]; apply HP, Hy. }
  assert (PR : forall s', P s' -> P (remove_job i s')).
  { intros s' HP x Hx. rewrite remove_jl in Hx. apply unlink_In in Hx. apply HP. tauto. }
  assert (PP : forall s', P s' -> P (with_jl s' (reput true i (jl s')))).
  { intros s' HP x Hx. cbn in Hx. unfold reput in Hx. destruct (get (jl s') i) as [b|] eqn:Gb; [|auto].
    apply get_In in Gb. eapply Permutation_in in Hx; [|apply put_perm].
    destruct Hx as [<-|Hx]; [apply HP; tauto|]. apply unlink_In in Hx. apply HP; tauto. }
  set (stopped := pstate_eqb (j_state a) PStop).
  set (s1 := if mon s && _ then _ else s). revert j. fold (P s).
  assert (P1 : P s1).
  { subst s1. destruct (mon s && _); [|exact P0].
    set (s2 := if stopped then _ else s).
    assert (P2 : P s2) by (subst s2; destruct stopped; auto).
    destruct (notif s2 && _); [|exact P2].
    destruct (negb (f_waiting (j_fl a)) && negb stopped); [apply PR|]; apply PU; auto. }
  destruct (negb (mon s1) && _ && _); [|exact P1].
  destruct (_ || f_known (j_fl a)); [|apply PR, P1].
  apply (PU s1); auto.
Qed.

Lemma fin_started h q j : JI h q j -> finished j = true -> f_started (j_fl j) = true.
Proof.
  intros H F. destruct (f_started (j_fl j)) eqn:S; [reflexivity|].
  rewrite (unstarted_unfinished h q j H S) in F. discriminate.
Qed.

(** * The status of a job *)
Lemma ended_outcomes h q ps : Forall (pinv h q) ps -> Forall pended ps ->
  exists ws, Forall2 (fun p w => ended w /\ outcome h (p_pid p) = Some w /\ says p w /\ ~ In (p_pid p) (map fst q)) ps ws.
Proof.
  induction ps as [|p r IH]; intros A B; [exists []; constructor|].
  inversion A; subst. inversion B; subst. destruct (IH H2 H4) as [ws W].
  destruct H1 as [[[X|X] _]|[w X]].
  - destruct H3; congruence.
  - destruct H3; congruence.
  - exists (w :: ws). constructor; assumption.
Qed.

Lemma pcode_says p w : says p w -> ended w -> pcode p = end_code w.
Proof. intros [A B] E. unfold pcode. rewrite A, B. destruct w; [reflexivity|reflexivity|destruct E]. Qed.

Lemma last_fail_spec (cs : list Z) : forall acc,
  fold_left (fun rv c => if Z.eqb c 0 then rv else c) cs acc = last (filter (fun n => negb (Z.eqb n 0)) cs) acc.
Proof.
  induction cs as [|c r IH]; intros acc; cbn; [reflexivity|]. rewrite IH.
  destruct (Z.eqb c 0); cbn; [reflexivity|].
  destruct (filter (fun n => negb (Z.eqb n 0)) r) as [|x l] eqn:F; [reflexivity|].
  clear. revert x. induction l as [|y l IH]; intros x; [reflexivity|]. exact (IH y).
Qed.

Lemma nth_last {A} (l : list A) d x : nth_error l (Nat.pred (length l)) = Some x -> last l d = x.
Proof.
  induction l as [|a l IH]; cbn; [discriminate|]. destruct l as [|b l].
  - cbn. congruence.
  - intros H. apply IH. exact H.
Qed.

Lemma finished_status h q j : JI h q j -> finished j = true ->
  exists ws, endings h (pids_of h (j_id j)) ws /\ Forall2 says (j_procs j) ws
    /\ Forall (fun pid => ~ In pid (map fst q)) (pids_of h (j_id j))
    /\ waitj_rv j = pipeline_status (pipefail_of h (j_id j)) ws.
Proof.
  intros J F. pose proof (fin_started _ _ _ J F) as S. destruct (ji_st _ _ _ J S) as [L St].
  pose proof (proj1 (finished_iff j (ji_ne _ _ _ J) St) F) as PE.
  destruct (ended_outcomes _ _ _ (ji_pinv _ _ _ J) PE) as [ws W]. exists ws.
  assert (C : map pcode (j_procs j) = map end_code ws).
  { clear - W. induction W as [|p w ps ws H W IH]; cbn; [reflexivity|]. rewrite IH.
    rewrite (pcode_says p w); tauto. }
  rewrite <- (ji_pids _ _ _ J). split; [|split; [|split]].
  - unfold endings. clear - W. induction W as [|p w ps ws H W IH]; cbn; constructor; tauto.
  - clear - W. induction W as [|p w ps ws H W IH]; cbn; constructor; tauto.
  - clear - W. induction W as [|p w ps ws H W IH]; cbn; constructor; tauto.
  - rewrite <- (ji_pf _ _ _ J). unfold waitj_rv, pipeline_status. rewrite <- C.
    destruct (f_pipefail (j_fl j)).
    + unfold last_fail. rewrite <- last_fail_spec.
      assert (G : forall ps acc, fold_left (fun rv p => if Z.eqb (pcode p) 0 then rv else pcode p) ps acc
               = fold_left (fun rv c => if Z.eqb c 0 then rv else c) (map pcode ps) acc).
      { induction ps as [|p r IH]; intros acc; cbn [fold_left map]; [reflexivity|]. apply IH. }
      apply G.
    + unfold settled in St. destruct (job_state PRun (j_procs j)) as [st|] eqn:JS.
      * destruct St as [_ [p [Lp Sp]]]. rewrite Sp. unfold last_proc in Lp. rewrite L in Lp.
        symmetry. apply nth_last. rewrite map_length. rewrite nth_error_map, Lp. reflexivity.
      * unfold finished in F. rewrite St in F. discriminate.
Qed.

(** All processes of job [i] have ended. *)
Definition done (h : list act) (i : nat) : Prop := exists ws, endings h (pids_of h i) ws.
Lemma done_fin h q j : JI h q j -> finished j = true -> done h (j_id j).
Proof. intros J F. destruct (finished_status _ _ _ J F) as [ws [A _]]. exists ws. exact A. Qed.

Lemma ids_upd_in i f l k : (forall j, j_id (f j) = j_id j) -> In k (ids l) -> In k (ids (upd i f l)).
Proof. intros E H. rewrite upd_ids by exact E. exact H. Qed.
Lemma ids_unlink k i l : In k (ids l) -> k <> i -> In k (ids (unlink i l)).
Proof.
  intros H N. apply in_map_iff in H. destruct H as [j [<- H]]. apply in_map, unlink_In. auto.
Qed.
Lemma after_check_ids i s k j : NoDup (ids (jl s)) -> get (jl s) i = Some j -> In k (ids (jl s)) ->
  In k (ids (jl (after_check i s))) \/ (k = i /\ j_state j <> PStop).
Proof.
  intros N G H. unfold after_check. rewrite G. destruct (Nat.eq_dec k i) as [->|NE].
  - destruct (pstate_eqb (j_state j) PStop) eqn:ST.
    2:{ right. split; [reflexivity|]. intros E. rewrite E in ST. discriminate. }
    left. cbv zeta. cbn [negb]. rewrite ?andb_false_r.
    assert (R : In i (ids (reput true i (jl s)))) by
      (eapply Permutation_in; [apply Permutation_map, Permutation_sym, reput_perm, N|exact H]).
    destruct (mon s && _); [|exact H].
    cbn [notif with_jl]. destruct (notif s && _); [|exact R].
    cbn [jl with_jl]. apply ids_upd_in; [reflexivity|exact R].
  - left. set (s1 := if mon s && _ then _ else s).
    assert (H1 : In k (ids (jl s1))).
    { subst s1. destruct (mon s && _); [|exact H].
      set (s2 := if pstate_eqb _ _ then _ else s).
      assert (H2 : In k (ids (jl s2))).
      { subst s2. destruct (pstate_eqb _ _); [|exact H]. cbn [jl with_jl].
        eapply Permutation_in; [apply Permutation_map, Permutation_sym, reput_perm, N|exact H]. }
      clearbody s2. destruct (notif s2 && _); [|exact H2].
      destruct (negb _ && _); [rewrite remove_jl; apply ids_unlink; [|exact NE]|];
        cbn [jl with_jl]; apply ids_upd_in; auto. }
    clearbody s1. destruct (negb (mon s1) && _ && _); [|exact H1].
    destruct (_ || f_known (j_fl j)); [|rewrite remove_jl; apply ids_unlink; [exact H1|exact NE]].
    cbn [jl with_jl with_nzomb]. apply ids_upd_in; [reflexivity|exact H1].
Qed.

Lemma reap_inv3 h s e q : Inv h s (e :: q) -> allst s -> Inv h (reap s e) q /\ allst (reap s e)
  /\ forall k, In k (ids (jl s)) -> In k (ids (jl (reap s e))) \/ done h k.
Proof.
  intros H AS. destruct e as [pid w]. unfold reap. cbn [fst snd].
  pose proof (Inv_ids _ _ _ H) as N.
  destruct (find (has_pid pid) (jl s)) as [j|] eqn:Fd.
  2:{ split; [|split; [exact AS|auto]]. destruct H as [H1 H2 H3 H4 H5].
      split; [exact H1| |exact H3|exact H4|eapply QI_drop; exact H5].
      rewrite Forall_forall in *. intros j Hj. apply (JI_drop h (pid, w)); [auto|].
      intros X. pose proof (find_none _ _ Fd j Hj) as Y. apply has_pid_In in X. cbn in X. congruence. }
  apply find_some in Fd. destruct Fd as [Hj Hp]. apply has_pid_In in Hp.
  set (i := j_id j).
  set (g := fun j => jprocs j (set_proc pid w (j_procs j))).
  set (s1 := with_jl s (upd i g (jl s))).
  assert (NP : NoDup (flat_map (fun j => map p_pid (j_procs j)) (jl s)))
    by (rewrite <- flat_kof; apply (li_pids _ _ (in_li _ _ _ H))).
  assert (OTH : forall x, In x (jl s) -> j_id x <> i -> ~ In pid (map p_pid (j_procs x))).
  { intros x Hx Hn X. apply Hn. unfold i. f_equal.
    exact (NoDup_flat_two (fun j => map p_pid (j_procs j)) _ x j pid NP Hx Hj X Hp). }
  assert (UNI : forall x, In x (jl s) -> j_id x = i -> x = j).
  { intros x Hx E. pose proof (In_get _ _ N Hx) as G1. pose proof (In_get _ _ N Hj) as G2.
    rewrite E in G1. fold i in G2. congruence. }
  assert (G1 : get (jl s1) i = Some (g j)) by (apply get_upd; [reflexivity|]; apply In_get; auto).
  assert (AS1 : allst s1).
  { unfold allst in *. rewrite Forall_forall in *. intros x Hx. cbn in Hx. apply upd_In in Hx.
    destruct Hx as [y [Hy [[_ ->]|[_ ->]]]]; cbn; auto. }
  assert (SJ : f_started (j_fl j) = true) by (unfold allst in AS; rewrite Forall_forall in AS; auto).
  pose proof (in_ji _ _ _ H) as HJ. rewrite Forall_forall in HJ. pose proof (HJ j Hj) as Jj.
  pose proof (in_q _ _ _ H) as [Q1 Q2].
  assert (Ow : outcome h pid = Some w) by (apply Q2; left; reflexivity).
  assert (Nq : ~ In pid (map fst q)) by (inversion Q1; assumption).
  assert (NPj : NoDup (map p_pid (j_procs j))).
  { pose proof (NoDup_flat_in (fun j => map p_pid (j_procs j)) _ j NP Hj). assumption. }
  (* the process was not recorded as ended *)
  assert (NF : finished j = false).
  { destruct (finished j) eqn:Fin; [|reflexivity]. exfalso.
    destruct (ji_st _ _ _ Jj SJ) as [_ St].
    apply (proj1 (finished_iff j (ji_ne _ _ _ Jj) St)) in Fin.
    apply in_map_iff in Hp. destruct Hp as [p [Ep Hp]]. rewrite Forall_forall in Fin.
    pose proof (ji_pinv _ _ _ Jj) as PI. rewrite Forall_forall in PI.
    specialize (Fin p Hp). specialize (PI p Hp). destruct PI as [[[X|X] _]|[w' [_ [_ [_ X]]]]].
    - destruct Fin; congruence.
    - destruct Fin; congruence.
    - apply X. rewrite Ep. left. reflexivity. }
  assert (Zj : f_zombie (j_fl j) = false).
  { destruct (f_zombie (j_fl j)) eqn:Z; [|reflexivity]. destruct (ji_z _ _ _ Jj Z) as [_ [Fin _]]. congruence. }
  assert (Rj : f_remove (j_fl j) = false).
  { destruct (f_remove (j_fl j)) eqn:R; [|reflexivity]. destruct (ji_rm _ _ _ Jj R) as [Fin _]. congruence. }
  assert (PI' : Forall (pinv h q) (set_proc pid w (j_procs j))).
  { apply Forall_forall. intros p' Hp'. apply (set_proc_In pid w _ _ NPj) in Hp'.
    pose proof (ji_pinv _ _ _ Jj) as PI. rewrite Forall_forall in PI.
    destruct Hp' as [[A B]|[p [A [B ->]]]].
    - apply (pinv_drop h (pid, w)); [auto|exact B].
    - destruct w as [n|n|n].
      + right. exists (WExit n). cbn. repeat split; auto.
      + right. exists (WSig n). cbn. repeat split; auto.
      + left. split; [right; reflexivity|]. cbn. intros w'. rewrite Ow. intros X Y.
        injection X as <-. destruct Y. }
  assert (QI' : QI h q) by (eapply QI_drop; split; eassumption).
  unfold check_job. rewrite G1. change (f_started (j_fl (g j))) with (f_started (j_fl j)). rewrite SJ.
  change (j_procs (g j)) with (set_proc pid w (j_procs j)).
  destruct (job_state PRun (set_proc pid w (j_procs j))) as [st|] eqn:JS.
  - set (rv := match last_proc (g j) with Some p => pcode p | None => 0 end).
    set (f := fun j => jfl (jset j st rv) (set_changed true (j_fl j))).
    set (s2 := with_jl s1 (upd i f (jl s1))).
    assert (E2 : jl s2 = upd i (fun j => f (g j)) (jl s)).
    { unfold s2, s1. cbn. rewrite upd_upd by reflexivity. reflexivity. }
    assert (H2 : Inv h s2 q).
    { replace s2 with (with_jl s (jl s2)) by reflexivity. rewrite E2.
      apply Inv_upd2 with (q := (pid, w) :: q); auto.
      - intros x Hx Ex _. rewrite (UNI x Hx Ex). destruct Jj as [A1 A2 A3 A4 A5 A6 A7 A8 A9].
        destruct (A9 SJ) as [A9a A9b].
        split; cbn; auto.
        + intros E. apply (f_equal (@length _)) in E. rewrite set_proc_len in E. destruct (j_procs j); [congruence|discriminate].
        + rewrite set_proc_pids. exact A2.
        + congruence.
        + congruence.
        + congruence.
        + intros _. rewrite set_proc_len. split; [exact A9a|]. unfold settled. cbn. rewrite JS. split; [reflexivity|].
          destruct (last_proc_len (g j)) as [p Ep].
          { cbn. intros E. apply (f_equal (@length _)) in E. rewrite set_proc_len in E. destruct (j_procs j); [congruence|discriminate]. }
          { cbn. rewrite set_proc_len. exact A9a. }
          exists p. split; [exact Ep|]. unfold rv. rewrite Ep. reflexivity.
      - intros x Hx Ex Jx. apply (JI_drop h (pid, w)); auto.
      - intros x. unfold kof, f, g. cbn. rewrite set_proc_pids. reflexivity. }
    assert (G2 : get (jl s2) i = Some (f (g j))) by (apply get_upd; [reflexivity|exact G1]).
    assert (AS2 : allst s2).
    { unfold allst in *. rewrite Forall_forall in *. intros x Hx. cbn in Hx. apply upd_In in Hx.
      destruct Hx as [y [Hy [[_ ->]|[_ ->]]]]; cbn; auto. }
    assert (NRUN : st <> PRun).
    { apply job_state_some in JS. destruct JS as [JS NR]. intros ->. cbn [pord] in JS.
      destruct (set_proc_get pid w _ Hp) as [p [P1 [P2 [P3 P4]]]].
      pose proof (fold_max_le _ p 0 P1) as LE. rewrite <- JS, P3 in LE. destruct w; cbn in LE; lia. }
    split; [|split].
    + eapply after_check_inv; [exact H2|exact G2|exact Zj|exact SJ|exact NRUN].
    + unfold allst in *. rewrite Forall_forall in *. intros x Hx. apply after_check_jl in Hx.
      destruct Hx as [y [Hy ->]]. auto.
    + intros k Hk. assert (Hk2 : In k (ids (jl s2))) by (rewrite E2, upd_ids by reflexivity; exact Hk).
      destruct (after_check_ids i s2 k _ (Inv_ids _ _ _ H2) G2 Hk2) as [X|[-> X]]; [left; exact X|right].
      pose proof (in_ji _ _ _ H2) as HJ2. rewrite Forall_forall in HJ2.
      destruct (get_In _ _ _ G2) as [G2a G2b]. rewrite <- G2b. apply (done_fin h q); [auto|].
      unfold finished. cbn in X |- *. destruct st; cbn; congruence.
  - split; [|split; [exact AS1|intros k Hk; left; cbn [jl s1 with_jl]; apply ids_upd_in; [reflexivity|exact Hk]]].
    apply Inv_upd2 with (q := (pid, w) :: q); auto.
    + intros x Hx Ex _. rewrite (UNI x Hx Ex). destruct Jj as [A1 A2 A3 A4 A5 A6 A7 A8 A9].
      destruct (A9 SJ) as [A9a A9b].
      split; cbn; auto.
      * intros E. apply (f_equal (@length _)) in E. rewrite set_proc_len in E. destruct (j_procs j); [congruence|discriminate].
      * rewrite set_proc_pids. exact A2.
      * congruence.
      * intros _. rewrite set_proc_len. split; [exact A9a|]. unfold settled. cbn. rewrite JS.
        unfold settled in A9b. destruct (job_state PRun (j_procs j)) as [st|] eqn:JS0; [|exact A9b].
        exfalso. apply job_state_some in JS0. destruct JS0 as [_ NR].
        apply job_state_none in JS. destruct JS as [p [Hp1 Hp2]].
        apply (set_proc_In pid w _ _ NPj) in Hp1. rewrite Forall_forall in NR.
        destruct Hp1 as [[A B]|[p0 [A [B ->]]]]; [exact (NR p A Hp2)|]. destruct w; discriminate.
    + intros x Hx Ex Jx. apply (JI_drop h (pid, w)); auto.
    + intros x. unfold kof, g. cbn. rewrite set_proc_pids. reflexivity.
Qed.

Lemma reap_inv h s e q : Inv h s (e :: q) -> allst s -> Inv h (reap s e) q /\ allst (reap s e).
Proof. intros H A. destruct (reap_inv3 h s e q H A) as [X [Y _]]. auto. Qed.
Lemma reaps_kept h q : forall s, Inv h s q -> allst s ->
  forall k, In k (ids (jl s)) -> In k (ids (jl (fold_left reap q s))) \/ done h k.
Proof.
  induction q as [|e q IH]; intros s H A k Hk; cbn; [auto|].
  destruct (reap_inv3 _ _ _ _ H A) as [H1 [A1 K]]. destruct (K k Hk) as [X|X]; [|auto]. apply IH; auto.
Qed.

Lemma reaps_inv h q s : Inv h s q -> allst s -> Inv h (fold_left reap q s) [] /\ allst (fold_left reap q s).
Proof.
  revert s. induction q as [|e q IH]; intros s H A; cbn; [auto|].
  destruct (reap_inv _ _ _ _ H A). auto.
Qed.

(** * The other operations *)
Lemma Inv_permq h s q q' : Permutation q q' -> Inv h s q -> Inv h s q'.
Proof.
  intros P [H1 H2 H3 H4 [Q1 Q2]]. split; auto.
  - eapply Forall_impl; [|exact H2]. intros j [A1 A2 A3 A4 A5 A6 A7 A8 A9]. split; auto.
    eapply Forall_impl; [|exact A4]. intros p [[A B]|[w [A [B [C D]]]]].
    + left. split; [exact A|]. intros w X Y. eapply Permutation_in; [exact P|]. auto.
    + right. exists w. repeat split; auto; try apply C. intros X. apply D.
      eapply Permutation_in; [apply Permutation_map, Permutation_sym, P|exact X].
  - split.
    + eapply Permutation_NoDup; [apply Permutation_map, P|exact Q1].
    + intros pid w X. apply Q2. eapply Permutation_in; [apply Permutation_sym, P|exact X].
Qed.

Lemma Inv_hist h h' s q : Inv h s q ->
  (forall pid, outcome h' pid = outcome h pid) ->
  (forall k, (k < nid s)%nat -> pids_of h' k = pids_of h k /\ pipefail_of h' k = pipefail_of h k) ->
  Inv h' s q.
Proof.
  intros [H1 H2 H3 H4 [Q1 Q2]] O P. split; auto.
  - rewrite Forall_forall in *. intros j Hj. destruct (H2 j Hj) as [A1 A2 A3 A4 A5 A6 A7 A8 A9].
    assert (L : (j_id j < nid s)%nat) by (apply (li_lt _ _ H1 (kof j)), in_map, Hj).
    destruct (P _ L) as [P1 P2]. split; auto; try congruence.
    eapply Forall_impl; [|exact A4]. intros p X. unfold pinv in *. rewrite O. exact X.
  - split; [exact Q1|]. intros. rewrite O. auto.
Qed.

Lemma Inv_map h s q g : Inv h s q -> (forall j, kof (g j) = kof j) ->
  (forall j, JI h q j -> JI h q (g j)) -> Inv h (with_jl s (map g (jl s))) q.
Proof.
  intros [H1 H2 H3 H4 H5] HK HJ.
  assert (K : map kof (map g (jl s)) = map kof (jl s)) by (rewrite map_map; apply map_ext; exact HK).
  assert (I : ids (map g (jl s)) = ids (jl s)) by (rewrite <- !kof_ids, K; reflexivity).
  split; cbn.
  - rewrite K. exact H1.
  - apply Forall_map. eapply Forall_impl; [|exact H2]. exact HJ.
  - destruct H3 as [Ra Rb]. split; cbn; intros k; rewrite I; auto.
  - rewrite K. exact H4.
  - exact H5.
Qed.

Lemma Inv_remove_marked h s q : Inv h s q -> Inv h (remove_marked s) q.
Proof.
  unfold remove_marked. generalize (jl s) as l. intros l. revert s.
  induction l as [|j l IH]; intros s H; cbn; [exact H|]. apply IH.
  destruct (f_remove (j_fl j)); [apply Inv_remove|]; exact H.
Qed.

Lemma JI_changed h q j b : JI h q j -> JI h q (jfl j (set_changed b (j_fl j))).
Proof. ji_flags. Qed.
Lemma JI_remove h q j : JI h q j -> finished j = true -> JI h q (jfl j (set_remove (j_fl j))).
Proof. intros H F. pose proof (fin_started _ _ _ H F). destruct H. split; cbn; auto. Qed.

Lemma Inv_notify h s q : Inv h s q -> Inv h (j_notify s) q.
Proof.
  intros H. apply Inv_remove_marked, Inv_map; [exact H| |].
  - intros j. destruct (mon s && f_changed (j_fl j)); cbv zeta;
      match goal with |- context [if finished ?x then _ else _] => destruct (finished x) end; reflexivity.
  - intros j J. destruct (mon s && f_changed (j_fl j)); cbv zeta;
      match goal with |- context [if finished ?x then _ else _] => destruct (finished x) eqn:F end;
      auto using JI_changed, JI_remove.
Qed.
Lemma Inv_jobs h s q w a b c : Inv h s q -> Inv h (j_jobs w a b c s) q.
Proof.
  intros H. apply Inv_remove_marked, Inv_map; [exact H| |].
  - intros j. destruct (_ && _ && _); [|reflexivity]. destruct a; cbv zeta;
      match goal with |- context [if finished ?x then _ else _] => destruct (finished x) end; reflexivity.
  - intros j J. destruct (_ && _ && _); [|exact J]. destruct a; cbv zeta;
      match goal with |- context [if finished ?x then _ else _] => destruct (finished x) eqn:F end;
      auto using JI_changed, JI_remove.
Qed.

Lemma job_state_run ps : ps <> [] -> Forall (fun p => p_state p = PRun) ps -> job_state PRun ps = None.
Proof.
  intros NE F. apply job_state_none. destruct ps as [|p r]; [congruence|]. inversion F; subst.
  exists p. split; [left; reflexivity|assumption].
Qed.

Lemma JI_start h q j : JI h q j ->
  JI h q (jlast (jfl j (set_started (j_fl j))) (Some (Nat.pred (length (j_procs j))))).
Proof.
  intros H. pose proof (ji_un _ _ _ H) as U. pose proof (ji_st _ _ _ H) as ST.
  pose proof (fin_started _ _ _ H) as FS. destruct H as [A1 A2 A3 A4 A5 A6 A7 A8 A9].
  split; cbn; auto.
  - intros X. destruct (A5 X). auto.
  - intros X. destruct (A7 X) as [? [? ?]]. auto.
  - discriminate.
  - intros _. split; [reflexivity|]. destruct (f_started (j_fl j)) eqn:S.
    + destruct (ST eq_refl) as [L T]. unfold settled in *. cbn.
      destruct (job_state PRun (j_procs j)); [|exact T].
      destruct T as [T1 [lp [T2 T3]]]. split; [exact T1|]. exists lp. split; [|exact T3].
      unfold last_proc in *. cbn. rewrite L in T2. exact T2.
    + destruct (U eq_refl) as [F E]. unfold settled. cbn. rewrite job_state_run by assumption. exact E.
Qed.

Lemma Inv_startjob h s q i : Inv h s q -> Inv h (j_startjob i s) q.
Proof.
  intros H. unfold j_startjob.
  set (s1 := with_jl s _).
  assert (H1 : Inv h s1 q).
  { eapply Inv_upd; [exact H|reflexivity|split; [|split; [|split]]; cbn; auto| |].
    - intros. apply JI_start. assumption.
    - reflexivity. }
  destruct (held s1); [|exact H1].
  eapply Inv_same; [exact H1| | | | |]; cbn; auto.
Qed.

Lemma older_none a l : older None a l = None ->
  forall j, In j l -> f_zombie (j_fl j) = true -> a = Some (j_id j).
Proof.
  assert (G : forall l acc, acc <> None -> older acc a l <> None).
  { clear l. induction l as [|x l IH]; intros acc N; cbn; [exact N|]. apply IH. destruct (_ && _); [discriminate|exact N]. }
  induction l as [|x l IH]; intros H j Hj Z; [destruct Hj|].
  unfold older in H. cbn [fold_left] in H. rewrite andb_true_r in H.
  destruct (negb _ && f_zombie (j_fl x)) eqn:C.
  - exfalso. revert H. apply (G l (Some x)). discriminate.
  - destruct Hj as [->|Hj]; [|apply IH; assumption].
    rewrite Z, andb_true_r in C. apply negb_false_iff in C. destruct a as [k|]; [|discriminate].
    apply Nat.eqb_eq in C. congruence.
Qed.

Lemma zcount_one l k : NoDup (ids l) -> (forall j, In j l -> f_zombie (j_fl j) = true -> j_id j = k) ->
  zcount (map kof l) = match get l k with Some j => if f_zombie (j_fl j) then 1 else 0 | None => 0 end.
Proof.
  intros N H.
  assert (Zr : forall l, (forall j, In j l -> f_zombie (j_fl j) = false) -> zcount (map kof l) = 0).
  { clear. induction l as [|a l IH]; intros H; [reflexivity|]. unfold zcount in *. cbn [map filter].
    change (k_z (kof a)) with (f_zombie (j_fl a)). rewrite (H a (or_introl eq_refl)). apply IH.
    intros j Hj. apply H. right. exact Hj. }
  destruct (get l k) as [j|] eqn:G.
  - apply get_In in G. destruct G as [G E].
    rewrite <- (zcount_perm _ _ (Permutation_map kof (unlink_perm l j N G))).
    assert (Z0 : zcount (map kof (unlink (j_id j) l)) = 0).
    { apply Zr. intros x Hx. apply unlink_In in Hx. destruct Hx as [Hx Hn].
      destruct (f_zombie (j_fl x)) eqn:Z; [|reflexivity]. specialize (H x Hx Z). congruence. }
    unfold zcount in *. cbn [map filter]. change (k_z (kof j)) with (f_zombie (j_fl j)).
    destruct (f_zombie (j_fl j)); cbn [length]; lia.
  - apply Zr. intros x Hx. destruct (f_zombie (j_fl x)) eqn:Z; [|reflexivity].
    exfalso. apply (get_None _ _ G). rewrite <- (H x Hx Z). apply in_map, Hx.
Qed.

Lemma zcount_nil l : (forall j, In j l -> f_zombie (j_fl j) = false) -> zcount (map kof l) = 0.
Proof.
  induction l as [|a l IH]; intros H; [reflexivity|]. unfold zcount in *. cbn [map filter].
  change (k_z (kof a)) with (f_zombie (j_fl a)). rewrite (H a (or_introl eq_refl)). apply IH.
  intros j Hj. apply H. right. exact Hj.
Qed.

Lemma older_some a l o : older None a l = Some o -> In o l /\ f_zombie (j_fl o) = true /\ a <> Some (j_id o).
Proof.
  assert (G : forall l acc, older acc a l = Some o -> acc = Some o \/
     (In o l /\ f_zombie (j_fl o) = true /\ a <> Some (j_id o))).
  { clear l. induction l as [|x l IH]; intros acc H; cbn in H; [auto|].
    apply IH in H. destruct H as [H|H]; [|right; cbn; tauto].
    destruct (_ && _) eqn:C in H; [|auto]. injection H as ->. right.
    apply andb_prop in C. destruct C as [C _]. apply andb_prop in C. destruct C as [C1 C2].
    split; [left; reflexivity|]. split; [exact C2|]. intros ->. rewrite Nat.eqb_refl in C1. discriminate. }
  intros H. destruct (G _ _ H) as [X|X]; [discriminate|exact X].
Qed.

(** What removal in j_set_async keeps. *)
Definition drop_rel (s s' : jst) : Prop :=
  (forall j, In j (jl s') -> In j (jl s))
  /\ (forall j, In j (jl s) -> f_zombie (j_fl j) = false -> In j (jl s'))
  /\ (held s' = held s /\ raised s' = raised s /\ nid s' = nid s /\ pfail s' = pfail s).
Lemma drop_rel_refl s : drop_rel s s.
Proof. unfold drop_rel. auto 10. Qed.
Lemma drop_rel_trans a b c : drop_rel a b -> drop_rel b c -> drop_rel a c.
Proof. intros [A1 [A2 [A3 [A4 [A5 A6]]]]] [B1 [B2 [B3 [B4 [B5 B6]]]]]. unfold drop_rel. split; [|split; [|split; [|split; [|split]]]]; auto; congruence. Qed.
Lemma drop_rel_remove s i j : NoDup (ids (jl s)) -> get (jl s) i = Some j -> f_zombie (j_fl j) = true ->
  drop_rel s (remove_job i s).
Proof.
  intros N G Z. destruct (remove_frame i s) as [F1 [F2 [F3 [F4 [F5 [F6 F7]]]]]].
  split; [|split; [|auto]].
  - intros x Hx. rewrite remove_jl in Hx. apply unlink_In in Hx. tauto.
  - intros x Hx Zx. rewrite remove_jl. apply unlink_In. split; [exact Hx|]. intros E.
    pose proof (In_get _ _ N Hx) as Gx. rewrite E in Gx. congruence.
Qed.

Lemma drop_zombies_inv h q n : forall s s', Inv h s q -> drop_zombies n s = Some s' ->
  Inv h s' q /\ drop_rel s s' /\ lastj s' = drop_ref (nid s) (lastj s') /\ (nzomb s' <= childmax s \/ nzomb s' <= 1).
Proof.
  assert (LR : forall s, Inv h s q -> lastj s = drop_ref (nid s) (lastj s)).
  { intros s H. destruct (in_refs _ _ _ H) as [Ra _]. destruct (lastj s) as [k|] eqn:E; [|reflexivity].
    destruct (Ra k eq_refl). cbn. destruct (Nat.eqb_spec k (nid s)); [lia|reflexivity]. }
  induction n as [|n IH]; intros s s' H E; cbn in E; [discriminate|].
  pose proof (Inv_ids _ _ _ H) as N.
  destruct (Z.ltb_spec (childmax s) (nzomb s)) as [C|C].
  2:{ injection E as <-. split; [exact H|]. split; [apply drop_rel_refl|]. split; [apply LR, H|]. left; lia. }
  destruct (older None (asyncj s) (jl s)) as [o|] eqn:O.
  - apply older_some in O. destruct O as [O1 [O2 O3]].
    pose proof (In_get _ _ N O1) as Go.
    destruct (IH _ _ (Inv_remove h s q (j_id o) H) E) as [I1 [I2 [I3 I4]]].
    destruct (remove_frame (j_id o) s) as [F1 [F2 [F3 [F4 [F5 [F6 F7]]]]]].
    split; [exact I1|]. split; [|split].
    + eapply drop_rel_trans; [eapply drop_rel_remove; eauto|exact I2].
    + rewrite F6 in I3. exact I3.
    + rewrite F7 in I4. exact I4.
  - pose proof (older_none _ _ O) as ON. injection E as <-.
    assert (Zc : nzomb s = match asyncj s with
                  | Some k => match get (jl s) k with Some j => if f_zombie (j_fl j) then 1 else 0 | None => 0 end
                  | None => 0 end).
    { rewrite (in_nz _ _ _ H). destruct (asyncj s) as [k|] eqn:A.
      - apply zcount_one; [exact N|]. intros j Hj Z. specialize (ON j Hj Z). congruence.
      - apply zcount_nil. intros j Hj. destruct (f_zombie (j_fl j)) eqn:Z; [|reflexivity].
        specialize (ON j Hj Z). discriminate. }
    set (az := match asyncj s with Some k => match get (jl s) k with Some j => f_zombie (j_fl j) | None => false end | None => false end).
    assert (nzomb s = if az then 1 else 0) as Za.
    { rewrite Zc. subst az. destruct (asyncj s); [|reflexivity]. destruct (get (jl s) n0); [|reflexivity].
      reflexivity. }
    destruct az.
    + rewrite Za. cbn. split; [exact H|]. split; [apply drop_rel_refl|]. split; [apply LR, H|]. right; lia.
    + cbn [negb orb]. split; [|split; [|split]].
      * eapply Inv_same; [exact H| | | | |]; cbn; auto.
      * split; [|split]; cbn; auto.
      * cbn. apply LR, H.
      * cbn. right. lia.
Qed.

Lemma drop_zombies_fuel h q n : forall s, Inv h s q -> (length (jl s) < n)%nat -> drop_zombies n s <> None.
Proof.
  induction n as [|n IH]; intros s H L; [lia|]. cbn.
  destruct (Z.ltb (childmax s) (nzomb s)); [|discriminate].
  destruct (older None (asyncj s) (jl s)) as [o|] eqn:O; [|discriminate].
  apply IH; [apply Inv_remove, H|].
  apply older_some in O. destruct O as [O1 [O2 O3]].
  pose proof (Permutation_length (unlink_perm _ _ (Inv_ids _ _ _ H) O1)) as X. cbn in X.
  rewrite remove_jl. lia.
Qed.

Lemma set_async_inv h s q i s' : Inv h s q -> j_set_async i s = Some s' ->
  Inv h s' q /\ drop_rel s s'.
Proof.
  intros H E. unfold j_set_async in E.
  set (s1 := match asyncj s with Some k => _ | None => s end) in E.
  assert (H1 : Inv h s1 q /\ drop_rel s s1).
  { subst s1. destruct (asyncj s) as [k|]; [|split; [exact H|apply drop_rel_refl]].
    destruct (get (jl s) k) as [a|] eqn:G; [|split; [exact H|apply drop_rel_refl]].
    destruct (f_zombie (j_fl a) && negb (f_known (j_fl a))) eqn:C; [|split; [exact H|apply drop_rel_refl]].
    apply andb_prop in C. split; [apply Inv_remove, H|].
    eapply drop_rel_remove; [eapply Inv_ids; exact H|exact G|tauto]. }
  destruct H1 as [H1 D1]. destruct (get (jl s1) i) as [j|] eqn:G; [|injection E as <-; auto].
  destruct (f_started (j_fl j)); [|injection E as <-; auto].
  set (s2 := with_async s1 _ _) in E.
  assert (H2 : Inv h s2 q).
  { eapply Inv_same; [exact H1| | | | |]; cbn; auto. right. intros k X. injection X as <-.
    apply get_In in G. destruct G as [G <-]. apply in_map, G. }
  destruct (drop_zombies_inv h q _ _ _ H2 E) as [A [B _]]. split; [exact A|].
  eapply drop_rel_trans; [exact D1|]. exact B.
Qed.

Definition resumed (j : job) : job :=
  let j' := jprocs j (map cont_proc (j_procs j)) in
  if existsb (fun p => pstate_eqb (p_state p) PStop) (j_procs j) then jset j' PRun (j_status j') else j'.
Lemma JI_resumed h q j : JI h q j -> JI h q (resumed j).
Proof.
  intros Jx.
  assert (PI : Forall (pinv h q) (map cont_proc (j_procs j))).
  { apply Forall_map. eapply Forall_impl; [|exact (ji_pinv _ _ _ Jx)].
    intros p [[A B]|[w [A [B [C D]]]]].
    - left. unfold cont_proc. destruct A as [A|A]; rewrite A.
      + split; [left; exact A|exact B].
      + split; [left; reflexivity|exact B].
    - right. exists w. unfold cont_proc. destruct C as [C1 C2]. rewrite C1.
      destruct w; cbn; [| |destruct A]; repeat split; auto. }
  assert (MP : map p_pid (map cont_proc (j_procs j)) = map p_pid (j_procs j)).
  { rewrite map_map. apply map_ext. intros p. unfold cont_proc. destruct (p_state p); reflexivity. }
  unfold resumed. cbv zeta. destruct (existsb _ (j_procs j)) eqn:R.
  - apply existsb_exists in R. destruct R as [p [Hp Ep]].
    assert (Sp : p_state p = PStop) by (unfold pstate_eqb in Ep; destruct (p_state p); cbn in Ep; congruence).
    assert (NF : finished j = false).
    { destruct (finished j) eqn:F; [|reflexivity]. pose proof (fin_started _ _ _ Jx F) as S.
      destruct (ji_st _ _ _ Jx S) as [_ St].
      apply (proj1 (finished_iff j (ji_ne _ _ _ Jx) St)) in F. rewrite Forall_forall in F.
      destruct (F p Hp); congruence. }
    assert (S : f_started (j_fl j) = true).
    { destruct (f_started (j_fl j)) eqn:S; [reflexivity|]. destruct (ji_un _ _ _ Jx S) as [U _].
      rewrite Forall_forall in U. specialize (U p Hp). congruence. }
    destruct Jx as [A1 A2 A3 A4 A5 A6 A7 A8 A9]. split; cbn; auto.
    + intros X. apply map_eq_nil in X. auto.
    + rewrite MP. exact A2.
    + intros X. destruct (A5 X). congruence.
    + intros X. destruct (A7 X) as [? [? ?]]. congruence.
    + congruence.
    + intros _. rewrite map_length. split; [apply (A9 S)|]. unfold settled. cbn.
      replace (job_state PRun (map cont_proc (j_procs j))) with (@None pstate); [reflexivity|].
      symmetry. apply job_state_none. exists (cont_proc p). split; [apply in_map, Hp|].
      unfold cont_proc. rewrite Sp. reflexivity.
  - assert (ID : map cont_proc (j_procs j) = j_procs j).
    { rewrite <- (map_id (j_procs j)) at 2. apply map_ext_in. intros p Hp. unfold cont_proc.
      destruct (p_state p) eqn:Sp; try reflexivity. exfalso.
      assert (existsb (fun p => pstate_eqb (p_state p) PStop) (j_procs j) = true) as X; [|congruence].
      apply existsb_exists. exists p. split; [exact Hp|]. rewrite Sp. reflexivity. }
    rewrite ID. destruct j; exact Jx.
Qed.

Lemma resume_inv h s q i bg s' : Inv h s q -> j_resume i bg s = Some s' ->
  exists s1, Inv h s1 q /\ Permutation (jl s1) (upd i resumed (jl s))
    /\ (held s1 = held s /\ raised s1 = raised s /\ nid s1 = nid s /\ pfail s1 = pfail s)
    /\ (drop_rel s1 s' \/ (jl s' = upd i (fun j => jfl j (set_known false (set_fg true (j_fl j)))) (jl s1)
         /\ held s' = held s1 /\ raised s' = raised s1 /\ nid s' = nid s1 /\ pfail s' = pfail s1)
       \/ s' = s) /\ Inv h s' q.
Proof.
  intros H E. unfold j_resume in E.
  assert (Kg : forall x, kof (resumed x) = kof x).
  { intros x. unfold resumed, kof. cbv zeta. destruct (existsb _ (j_procs x)); cbn; rewrite map_map; f_equal; apply map_ext;
      intros p; unfold cont_proc; destruct (p_state p); reflexivity. }
  assert (H0 : Inv h (with_jl s (upd i resumed (jl s))) q).
  { eapply Inv_upd; [exact H|reflexivity|split; [|split; [|split]]; cbn; auto| |exact Kg].
    intros x _ _ Jx. apply JI_resumed, Jx. }
  destruct (get (jl s) i) as [j|] eqn:G.
  2:{ injection E as <-. exists (with_jl s (upd i resumed (jl s))). auto 10. }
  destruct (Z.eqb (j_pgrp j) 0).
  { injection E as <-. exists (with_jl s (upd i resumed (jl s))). auto 10. }
  set (g := fun j0 : job => _) in E.
  assert (EQ : upd i g (jl s) = upd i resumed (jl s)).
  { unfold upd. apply map_ext_in. intros x Hx. unfold is_id. destruct (Nat.eqb_spec (j_id x) i) as [X|X]; [|reflexivity].
    assert (x = j) as ->.
    { pose proof (In_get _ _ (Inv_ids _ _ _ H) Hx) as Gx. rewrite X in Gx. congruence. }
    reflexivity. }
  rewrite EQ in E. set (s1 := with_jl s _) in E.
  assert (H1 : Inv h s1 q) by apply (Inv_reput h _ q false i H0).
  exists s1. split; [exact H1|].
  split; [apply reput_perm; exact (Inv_ids _ _ _ H0)|]. split; [auto|].
  destruct bg.
  - destruct (set_async_inv h s1 q i s' H1 E) as [A B]. auto.
  - injection E as <-. split; [right; left; auto 10|].
    eapply Inv_same; [exact (Inv_fgk h s1 q i H1)| | | | |]; cbn; auto.
    right. intros k X. apply drop_ref_some in X. destruct X as [X _].
    rewrite upd_ids by reflexivity. destruct (in_refs _ _ _ H1) as [_ Rb]. apply Rb. exact X.
Qed.

(** * Creating jobs *)
Lemma new_num_some l n : forall i, (forall j, 1 <= j < i -> In j (map j_num l)) -> 1 <= i ->
  new_num n i l = None -> forall j, 1 <= j < i + Z.of_nat n -> In j (map j_num l).
Proof.
  induction n as [|n IH]; intros i P I E j Hj; [apply P; lia|].
  cbn in E. destruct (existsb _ l) eqn:X; [|discriminate].
  apply existsb_exists in X. destruct X as [a [A B]]. apply Z.eqb_eq in B.
  apply (IH (i + 1)); [|lia|exact E|lia].
  intros k Hk. destruct (Z.eq_dec k i) as [->|N]; [|apply P; lia]. rewrite <- B. apply in_map, A.
Qed.

Lemma new_num_total l : new_num (S (length l)) 1 l <> None.
Proof.
  intros E. pose proof (new_num_some l _ 1 ltac:(intros; lia) ltac:(lia) E) as H.
  set (f := fun k => Z.of_nat k + 1).
  assert (ND : NoDup (map f (seq 0 (S (length l))))).
  { apply FinFun.Injective_map_NoDup; [|apply seq_NoDup]. intros x y Exy. unfold f in Exy. lia. }
  assert (IN : incl (map f (seq 0 (S (length l)))) (map j_num l)).
  { intros z Hz. apply in_map_iff in Hz. destruct Hz as [k [<- Hk]]. apply in_seq in Hk. apply H. unfold f. lia. }
  pose proof (NoDup_incl_length ND IN) as LE. rewrite !map_length, seq_length in LE. lia.
Qed.

Lemma new_num_spec l n : forall i num, new_num n i l = Some num ->
  i <= num /\ ~ In num (map j_num l) /\ (forall k, i <= k < num -> In k (map j_num l)).
Proof.
  induction n as [|n IH]; intros i num E; cbn in E; [discriminate|].
  destruct (existsb _ l) eqn:X.
  - apply existsb_exists in X. destruct X as [a [A B]]. apply Z.eqb_eq in B.
    destruct (IH _ _ E) as [I1 [I2 I3]]. split; [lia|]. split; [exact I2|].
    intros k Hk. destruct (Z.eq_dec k i) as [->|N]; [|apply I3; lia]. rewrite <- B. apply in_map, A.
  - injection E as <-. split; [lia|]. split; [|intros; lia].
    intros Hin. apply in_map_iff in Hin. destruct Hin as [a [A B]].
    assert (existsb (fun j => Z.eqb (j_num j) i) l = true) as Y; [|congruence].
    apply existsb_exists. exists a. rewrite A, Z.eqb_refl. auto.
Qed.

Lemma pids_of_fresh h k : (created h <= k)%nat -> pids_of h k = [].
Proof.
  induction h as [|a h IH]; [reflexivity|]. intros L.
  destruct a; cbn [pids_of]; cbn [created] in L; try (apply IH; exact L).
  - destruct cont.
    + destruct (Nat.eqb_spec (S k) (created (AFork true xxcom bg pid cmd :: h))) as [E|E].
      * cbn [created] in E. lia.
      * apply IH. lia.
    + destruct (Nat.eqb_spec (S k) (created (AFork false xxcom bg pid cmd :: h))) as [E|E].
      * cbn [created] in E. lia.
      * apply IH. lia.
  - apply IH. destruct cont; lia.
Qed.

(** Counters and options that follow the history. *)
Definition hist (h : list act) (s : jst) : Prop := nid s = created h /\ pfail s = pipefail_now h.

Lemma pgrp_key i s xx pid : map kof (jl (set_pid s i xx pid)) = map kof (jl s).
Proof. unfold set_pid. cbn. apply upd_key. intros j _. destruct (_ && _ && _); reflexivity. Qed.
Lemma Inv_pgrp h s q i xx pid : Inv h s q -> Inv h (set_pid s i xx pid) q.
Proof.
  intros H. unfold set_pid. eapply Inv_upd; [exact H|reflexivity|split; [|split; [|split]]; cbn; auto| |].
  - intros j _ _ J. cbv beta. destruct (_ && _ && _); [|exact J]. destruct J. split; auto.
  - intros j. cbv beta. destruct (_ && _ && _); reflexivity.
Qed.

Lemma recorded_kof s pid : recorded s pid <-> In pid (flat_map k_pids (map kof (jl s))).
Proof. rewrite flat_kof, in_flat_map. reflexivity. Qed.

(** History extended by a fork of a pid that is not recorded. *)
Lemma JI_fork h q j a pid : JI h q j -> (forall p, In p (j_procs j) -> p_pid p <> pid) ->
  (forall x, x <> pid -> outcome (a :: h) x = outcome h x) ->
  pids_of (a :: h) (j_id j) = pids_of h (j_id j) ->
  pipefail_of (a :: h) (j_id j) = pipefail_of h (j_id j) -> JI (a :: h) q j.
Proof.
  intros [A1 A2 A3 A4 A5 A6 A7 A8 A9] N O P F. split; auto; try congruence.
  rewrite Forall_forall in *. intros p Hp. specialize (A4 p Hp). unfold pinv in *. rewrite O by auto. exact A4.
Qed.

Lemma NoDup_app_single {A} (l : list A) x : NoDup l -> ~ In x l -> NoDup (l ++ [x]).
Proof.
  intros N X. eapply Permutation_NoDup; [apply Permutation_cons_append|]. constructor; assumption.
Qed.

Lemma exchild_fork_inv h s q cont xx bg pid cmd s' : Inv h s q -> hist h s ->
  ~ In pid (map fst q) -> ~ recorded s pid ->
  (cont = true -> exists i, lastj s = Some i /\ unstarted s i) ->
  exchild_fork cont xx bg pid cmd s = Some s' ->
  Inv (AFork cont xx bg pid cmd :: h) s' q /\ hist (AFork cont xx bg pid cmd :: h) s'.
Proof.
  intros H [HN HP] Nq Nr HC E. unfold exchild_fork in E.
  set (a := AFork cont xx bg pid cmd).
  pose proof (Inv_ids _ _ _ H) as N.
  assert (OE : forall x, x <> pid -> outcome (a :: h) x = outcome h x).
  { intros x X. cbn. destruct (Z.eqb_spec pid x); [congruence|reflexivity]. }
  assert (O0 : outcome (a :: h) pid = None) by (cbn; rewrite Z.eqb_refl; reflexivity).
  assert (NR : forall j p, In j (jl s) -> In p (j_procs j) -> p_pid p <> pid).
  { intros j p Hj Hp X. apply Nr. exists j. split; [exact Hj|]. rewrite <- X. apply in_map, Hp. }
  assert (QI' : QI (a :: h) q).
  { destruct (in_q _ _ _ H) as [Q1 Q2]. split; [exact Q1|]. intros x w X. rewrite OE; [auto|].
    intros ->. apply Nq. apply in_map_iff. exists (pid, w). auto. }
  assert (Pnew : pinv (a :: h) q (Proc pid PRun None cmd)).
  { left. split; [left; reflexivity|]. cbn [p_pid]. rewrite O0. discriminate. }
  destruct (link_proc cont xx bg (Proc pid PRun None cmd) s) as [[i s1]|] eqn:LK; [|discriminate].
  injection E as <-.
  assert (H1 : Inv (a :: h) s1 q /\ hist (a :: h) s1).
  2:{ destruct H1 as [H1 [H2 H3]]. split; [apply Inv_pgrp, H1|]. split; assumption. }
  unfold link_proc in LK. destruct cont.
  - destruct (HC eq_refl) as [i0 [Li [ju [Gu Su]]]]. rewrite Li in LK. injection LK as <- <-.
    apply get_In in Gu. destruct Gu as [Gu Eu].
    destruct H as [H1 H2 H3 H4 H5]. destruct H3 as [Ra Rb].
    destruct (Ra i0 Li) as [_ Si].
    set (f := fun j => jprocs j (j_procs j ++ [Proc pid PRun None cmd])).
    assert (CR : created (a :: h) = created h) by reflexivity.
    assert (I : ids (upd i0 f (jl s)) = ids (jl s)) by (apply upd_ids; reflexivity).
    pose proof (upd_perm i0 f (jl s) ju N Gu Eu) as P.
    pose proof (unlink_perm (jl s) ju N Gu) as U. rewrite Eu in U.
    assert (UNI : forall x, In x (jl s) -> j_id x = i0 -> x = ju).
    { intros x Hx Ex. pose proof (In_get _ _ N Hx) as G1. pose proof (In_get _ _ N Gu) as G2.
      rewrite Ex in G1. rewrite Eu in G2. congruence. }
    split; [split|split]; cbn [jl with_jl nid lastj asyncj nzomb pfail].
    + pose proof (LI_perm _ _ _ (Permutation_map kof (Permutation_sym U)) H1) as HL.
      eapply LI_perm; [apply Permutation_map, P|]. cbn [map] in *.
      assert (Npid : ~ In pid (flat_map k_pids (kof ju :: map kof (unlink i0 (jl s))))).
      { intros X. apply Nr. apply recorded_kof. eapply Permutation_in; [|exact X].
        apply Permutation_flat_map. exact (Permutation_map kof U). }
      destruct HL as [L1 L2 L3 L4]. split.
      * exact L1.
      * intros k [<-|Hk]; [apply (L2 (kof ju))|apply L2]; cbn; auto.
      * cbn [flat_map kof k_pids] in *. unfold f. cbn [j_procs jprocs].
        rewrite map_app. cbn [map p_pid].
        eapply Permutation_NoDup with (l := pid :: (map p_pid (j_procs ju) ++ flat_map k_pids (map kof (unlink i0 (jl s))))).
        -- rewrite <- app_assoc. apply Permutation_middle.
        -- constructor; assumption.
      * cbn [filter] in *. change (k_z (kof (f ju))) with (k_z (kof ju)).
        destruct (k_z (kof ju)); exact L4.
    + apply Forall_forall. intros j' Hj. apply upd_In in Hj. rewrite Forall_forall in H2.
      destruct Hj as [x [Hx [[Ex ->]|[Ex ->]]]].
      * rewrite (UNI x Hx Ex). destruct (H2 ju Gu) as [A1 A2 A3 A4 A5 A6 A7 A8 A9].
        destruct (A8 Su) as [A8a A8b].
        split; unfold f; cbn [j_procs jprocs j_fl j_id j_num j_state j_last]; auto.
        -- intros X. destruct (j_procs ju); discriminate.
        -- rewrite map_app, A2. cbn [pids_of a]. fold a. rewrite CR, Eu, <- HN, Si, Nat.eqb_refl. reflexivity.
        -- apply Forall_app. split; [|constructor; [exact Pnew|constructor]].
           rewrite Forall_forall in *. intros p Hp. specialize (A4 p Hp). unfold pinv in *.
           rewrite OE by (apply (NR ju); auto). exact A4.
        -- intros _. split; [|exact A8b]. apply Forall_app. split; [exact A8a|]. constructor; [reflexivity|constructor].
        -- intros X. congruence.
      * eapply JI_fork; [auto| | | |].
        -- intros p Hp. apply (NR x); auto.
        -- exact OE.
        -- cbn [pids_of a]. fold a. rewrite CR. destruct (Nat.eqb_spec (S (j_id x)) (created h)) as [Y|Y]; [|reflexivity].
           exfalso. apply Ex. lia.
        -- reflexivity.
    + split; cbn [lastj asyncj jl with_jl nid]; intros k; rewrite I; auto.
    + rewrite H4. rewrite <- (zcount_perm _ _ (Permutation_map kof U)).
      rewrite <- (zcount_perm _ _ (Permutation_map kof P)).
      unfold zcount. cbn [map filter]. change (k_z (kof (f ju))) with (k_z (kof ju)).
      destruct (k_z (kof ju)); reflexivity.
    + exact QI'.
    + rewrite CR. exact HN.
    + exact HP.
  - destruct (new_num _ 1 (jl s)) as [num|] eqn:NN; [|discriminate]. injection LK as <- <-.
    apply new_num_spec in NN. destruct NN as [N1 [N2 N3]].
    destruct H as [H1 H2 H3 H4 H5]. destruct H3 as [Ra Rb].
    set (nj := Job _ _ _ _ _ _ _ _ _).
    assert (Nid : ~ In (nid s) (ids (jl s))).
    { intros X. apply in_map_iff in X. destruct X as [x [X Y]].
      assert (j_id x < nid s)%nat by (apply (li_lt _ _ H1 (kof x)), in_map, Y). lia. }
    assert (P : Permutation (put_job false nj (jl s)) (nj :: jl s)).
    { eapply Permutation_trans; [apply put_perm|]. cbn [j_id nj]. rewrite unlink_absent by exact Nid. auto. }
    assert (CR : created (a :: h) = S (created h)) by reflexivity.
    split; [split|split]; cbn [jl with_jl with_last with_ids nid lastj asyncj nzomb pfail].
    + eapply LI_perm; [apply Permutation_map, Permutation_sym, P|]. cbn [map].
      destruct H1 as [L1 L2 L3 L4]. split.
      * cbn [map kof k_id nj j_id]. constructor; [|exact L1]. rewrite kof_ids. exact Nid.
      * intros k [<-|Hk]; [cbn; lia|]. specialize (L2 k Hk). lia.
      * cbn [flat_map kof k_pids nj j_procs map p_pid app]. constructor; [|exact L3].
        intros X. apply Nr, recorded_kof, X.
      * cbn [filter kof k_z nj j_fl f_zombie negb map k_num j_num]. constructor; [|exact L4].
        intros X. apply N2. apply in_map_iff in X. destruct X as [k [Ek Hk]]. apply filter_In in Hk.
        destruct Hk as [Hk _]. apply in_map_iff in Hk. destruct Hk as [x [Ex Hx]].
        rewrite <- Ek, <- Ex. apply (in_map j_num), Hx.
    + eapply Permutation_Forall; [apply Permutation_sym, P|]. constructor.
      * split; cbn [j_procs j_fl j_id j_num j_state j_last nj f_started f_zombie f_remove f_pipefail map p_pid];
          try discriminate; auto.
        -- cbn [pids_of a]. fold a. rewrite CR, HN, Nat.eqb_refl. rewrite pids_of_fresh by lia. reflexivity.
        -- cbn [pipefail_of a]. rewrite HN, Nat.eqb_refl. exact HP.
      * rewrite Forall_forall in *. intros x Hx.
        assert (Lx : (j_id x < nid s)%nat) by (apply (li_lt _ _ H1 (kof x)), in_map, Hx).
        eapply JI_fork; [auto| | | |].
        -- intros p Hp. apply (NR x); auto.
        -- exact OE.
        -- cbn [pids_of a]. fold a. rewrite CR. destruct (Nat.eqb_spec (S (j_id x)) (S (created h))); [lia|reflexivity].
        -- cbn [pipefail_of a]. destruct (Nat.eqb_spec (j_id x) (created h)); [lia|reflexivity].
    + split; cbn [lastj asyncj jl with_jl with_last with_ids nid].
      * intros k X. injection X as <-. split; [|reflexivity].
        eapply Permutation_in; [apply Permutation_map, Permutation_sym, P|]. left. reflexivity.
      * intros k X. eapply Permutation_in; [apply Permutation_map, Permutation_sym, P|]. right. apply Rb, X.
    + transitivity (zcount (map kof (nj :: jl s))); [exact H4|].
      apply zcount_perm, Permutation_map, Permutation_sym, P.
    + exact QI'.
    + rewrite CR, HN. reflexivity.
    + exact HP.
Qed.

Lemma unlink_past j l : ~ In (j_id j) (ids l) -> unlink (j_id j) (past_stopped j l) = l.
Proof.
  induction l as [|c l IH]; intros N.
  - unfold unlink, past_stopped, is_id. cbn. rewrite Nat.eqb_refl. reflexivity.
  - unfold ids in N. cbn in N. cbn [past_stopped]. destruct (pstate_eqb (j_state c) PStop).
    + unfold unlink. cbn [filter]. unfold is_id at 1. destruct (Nat.eqb_spec (j_id c) (j_id j)); [tauto|].
      cbn [negb]. fold (unlink (j_id j) (past_stopped j l)). rewrite IH by tauto. reflexivity.
    + change (unlink (j_id j) (j :: c :: l))
        with (if negb (Nat.eqb (j_id j) (j_id j)) then j :: unlink (j_id j) (c :: l) else unlink (j_id j) (c :: l)).
      rewrite Nat.eqb_refl. cbn [negb]. apply unlink_absent. exact N.
Qed.

Lemma get_past j l k : get (past_stopped j l) (j_id j) = Some k -> ~ In (j_id j) (ids l) -> k = j.
Proof.
  intros G N. apply get_In in G. destruct G as [G E].
  eapply Permutation_in in G; [|apply past_stopped_perm]. destruct G as [<-|G]; [reflexivity|].
  exfalso. apply N. rewrite <- E. apply in_map, G.
Qed.

Lemma exchild_fail_inv h s q cont xx bg s' : Inv h s q -> hist h s ->
  (cont = true -> exists i, lastj s = Some i /\ unstarted s i) ->
  exchild_fail cont xx bg s = Some s' ->
  Inv (AFail cont xx bg :: h) s' q /\ hist (AFail cont xx bg :: h) s'.
Proof.
  intros H [HN HP] HC E. unfold exchild_fail, link_proc in E. destruct cont.
  - destruct (HC eq_refl) as [i [Li Un]]. rewrite Li in E. injection E as <-.
    set (f := fun j => jprocs j (j_procs j ++ _)).
    assert (R : remove_job i (with_jl s (upd i f (jl s))) = remove_job i s).
    { unfold remove_job. cbn [jl with_jl]. destruct Un as [ju [Gu Su]].
      rewrite (get_upd i f _ _ ltac:(reflexivity) Gu), Gu.
      replace (unlink i (upd i f (jl s))) with (unlink i (jl s)); [reflexivity|].
      clear. unfold unlink, upd. induction (jl s) as [|x l IH]; [reflexivity|]. cbn.
      destruct (is_id i x) eqn:X.
      - unfold is_id in *. cbn. rewrite X. cbn. exact IH.
      - rewrite X. cbn. rewrite IH. reflexivity. }
    rewrite R. split.
    + apply (Inv_hist h); [apply Inv_remove, H| |]; reflexivity || (intros; split; reflexivity).
    + destruct (remove_frame i s) as [F1 [F2 [F3 [F4 [F5 [F6 F7]]]]]]. split; [rewrite F6|rewrite F3]; assumption.
  - destruct (new_num _ 1 (jl s)) as [num|] eqn:NN; [|discriminate]. injection E as <-.
    set (nj := Job _ _ _ _ _ _ _ _ _).
    assert (Nid : ~ In (nid s) (ids (jl s))).
    { intros X. apply in_map_iff in X. destruct X as [x [X Y]].
      pose proof (li_lt _ _ (in_li _ _ _ H) (kof x) (in_map kof _ _ Y)) as L. cbn in L. lia. }
    set (s1 := with_last _ _).
    assert (J1 : jl s1 = past_stopped nj (jl s)).
    { unfold s1. cbn [jl with_last with_ids with_jl]. unfold put_job. cbn [j_id nj]. rewrite unlink_absent by exact Nid. reflexivity. }
    assert (G : get (jl s1) (nid s) = Some nj).
    { rewrite J1. destruct (get (past_stopped nj (jl s)) (nid s)) as [k|] eqn:Gk.
      - f_equal. apply (get_past nj (jl s) k Gk Nid).
      - exfalso. apply (get_None _ _ Gk). eapply Permutation_in; [apply Permutation_map, Permutation_sym, past_stopped_perm|].
        left. reflexivity. }
    assert (J2 : jl (remove_job (nid s) s1) = jl s).
    { rewrite remove_jl, J1. apply (unlink_past nj), Nid. }
    assert (AJ : asyncj (remove_job (nid s) s1) = asyncj s /\ lastj (remove_job (nid s) s1) = None
                 /\ nzomb (remove_job (nid s) s1) = nzomb s).
    { unfold remove_job. rewrite G. cbn [asyncj lastj nzomb nj j_fl f_zombie].
      unfold s1. cbn [asyncj lastj nzomb with_last with_ids with_jl].
      split; [|split]; [|cbn; rewrite Nat.eqb_refl; reflexivity|reflexivity].
      destruct (asyncj s) as [k|] eqn:A; [|reflexivity]. cbn.
      destruct (Nat.eqb_spec k (nid s)) as [->|]; [|reflexivity].
      exfalso. apply Nid. destruct (in_refs _ _ _ H) as [_ Rb]. apply Rb, A. }
    destruct AJ as [AJ [LJ ZJ]].
    destruct (remove_frame (nid s) s1) as [F1 [F2 [F3 [F4 [F5 [F6 F7]]]]]].
    assert (CR : created (AFail false xx bg :: h) = S (created h)) by reflexivity.
    split.
    + destruct H as [H1 H2 [Ra Rb] H4 H5]. split; rewrite ?J2, ?F6, ?ZJ.
      * eapply LI_mono; [exact H1|]. cbn. lia.
      * rewrite Forall_forall in *. intros x Hx. destruct (H2 x Hx). split; auto.
      * split; rewrite ?LJ, ?AJ, ?J2; [discriminate|exact Rb].
      * exact H4.
      * exact H5.
    + split; [rewrite F6, CR; cbn; congruence|rewrite F3; exact HP].
Qed.

(** * The whole invariant *)
Fixpoint no_fail (h : list act) : Prop :=
  match h with [] => True | AFail _ _ _ :: _ => False | _ :: r => no_fail r end.
Definition some_un (s : jst) : Prop := exists j, In j (jl s) /\ f_started (j_fl j) = false.
Definition sigI (s : jst) (q : list (Z * wst)) : Prop :=
  q <> [] -> raised s = true \/ (held s = true /\ some_un s).

Record RI (h : list act) (s : sys) : Prop := {
  ri_inv : Inv h (sh s) (kq s);
  ri_hist : hist h (sh s);
  ri_sig : no_fail h -> sigI (sh s) (kq s) }.

(** Steps of the shell that remove only finished jobs and start none. *)
Definition keeps (s s' : jst) : Prop :=
  (forall j, In j (jl s) -> f_started (j_fl j) = false ->
     exists j', In j' (jl s') /\ j_id j' = j_id j /\ f_started (j_fl j') = false)
  /\ held s' = held s /\ raised s' = raised s.
Lemma keeps_sig s s' q : keeps s s' -> sigI s q -> sigI s' q.
Proof.
  intros [K [E1 E2]] H NE. rewrite E1, E2. destruct (H NE) as [R|[Hh [j [Hj U]]]]; [auto|].
  right. split; [exact Hh|]. destruct (K j Hj U) as [j' [A [_ B]]]. exists j'. auto.
Qed.
Lemma keeps_refl s : keeps s s.
Proof. split; eauto. Qed.
Lemma keeps_trans a b c : keeps a b -> keeps b c -> keeps a c.
Proof.
  intros [A [A1 A2]] [B [B1 B2]]. split; [|split; congruence]. intros j Hj U.
  destruct (A j Hj U) as [j' [X [Y Z]]]. destruct (B j' X Z) as [k [X' [Y' Z']]]. exists k.
  split; [exact X'|]. split; [congruence|exact Z'].
Qed.
Lemma keeps_upd s s' i f : jl s' = upd i f (jl s) -> held s' = held s -> raised s' = raised s ->
  (forall j, j_id (f j) = j_id j) ->
  (forall j, f_started (j_fl (f j)) = f_started (j_fl j)) -> keeps s s'.
Proof.
  intros E Hh Hr HI HF. split; [|auto]. intros j Hj U. rewrite E.
  exists (if is_id i j then f j else j). split; [|destruct (is_id i j); rewrite ?HI, ?HF; auto].
  unfold upd. apply in_map_iff. exists j. auto.
Qed.
Lemma keeps_map s g : (forall j, j_id (g j) = j_id j) -> (forall j, f_started (j_fl (g j)) = f_started (j_fl j)) ->
  keeps s (with_jl s (map g (jl s))).
Proof.
  intros HI HF. split; [|auto]. intros j Hj U. exists (g j). cbn. rewrite HI, HF. split; [apply in_map, Hj|auto].
Qed.
Lemma keeps_remove s i j : NoDup (ids (jl s)) -> get (jl s) i = Some j -> f_started (j_fl j) = true ->
  keeps s (remove_job i s).
Proof.
  intros N G S. destruct (remove_frame i s) as [F1 [F2 [F3 [F4 [F5 [F6 F7]]]]]].
  split; [|auto]. intros x Hx U. exists x. split; [|auto]. rewrite remove_jl. apply unlink_In. split; [exact Hx|].
  intros E. pose proof (In_get _ _ N Hx) as Gx. rewrite E in Gx. congruence.
Qed.
Lemma keeps_reput s front i : NoDup (ids (jl s)) -> keeps s (with_jl s (reput front i (jl s))).
Proof.
  intros N. split; [|auto]. intros x Hx U. exists x. split; [|auto]. cbn.
  eapply Permutation_in; [apply Permutation_sym, reput_perm, N|exact Hx].
Qed.

Lemma get_last_In h q (s : jst) i j : Inv h s q -> get (jl s) i = Some j -> JI h q j.
Proof.
  intros H G. apply get_In in G. destruct (Forall_forall (JI h q) (jl s)) as [X _].
  apply (X (in_ji _ _ _ H)). tauto.
Qed.

Lemma keeps_drop h q s s' : Inv h s q -> drop_rel s s' -> keeps s s'.
Proof.
  intros H [A [B [C [D _]]]]. split; [|auto]. intros j Hj U. exists j. split; [|auto]. apply B; [exact Hj|].
  destruct (f_zombie (j_fl j)) eqn:Z; [|reflexivity].
  pose proof (in_ji _ _ _ H) as J. rewrite Forall_forall in J.
  destruct (ji_z _ _ _ (J j Hj) Z) as [_ [_ S]]. congruence.
Qed.

Lemma remove_marked_keeps h q : forall l s, Inv h s q ->
  (forall j, In j l -> f_remove (j_fl j) = true -> forall k, get (jl s) (j_id j) = Some k -> f_started (j_fl k) = true) ->
  keeps s (fold_left (fun s j => if f_remove (j_fl j) then remove_job (j_id j) s else s) l s).
Proof.
  induction l as [|j l IH]; intros s H HS; cbn; [apply keeps_refl|].
  assert (K : keeps s (if f_remove (j_fl j) then remove_job (j_id j) s else s)
              /\ Inv h (if f_remove (j_fl j) then remove_job (j_id j) s else s) q).
  { destruct (f_remove (j_fl j)) eqn:R; [|split; [apply keeps_refl|exact H]].
    split; [|apply Inv_remove, H].
    destruct (get (jl s) (j_id j)) as [k|] eqn:G.
    - eapply keeps_remove; [eapply Inv_ids; exact H|exact G|]. apply (HS j); auto. left; reflexivity.
    - unfold remove_job. rewrite G. apply keeps_refl. }
  destruct K as [K1 K2]. eapply keeps_trans; [exact K1|]. apply IH; [exact K2|].
  intros x Hx R k G. apply (HS x (or_intror Hx) R).
  destruct (f_remove (j_fl j)); [|exact G]. rewrite remove_jl, get_unlink in G.
  destruct (Nat.eqb (j_id x) (j_id j)); [discriminate|exact G].
Qed.
Lemma keeps_marked h q s : Inv h s q -> keeps s (remove_marked s).
Proof.
  intros H. apply (remove_marked_keeps h q); [exact H|]. intros j Hj R k G.
  pose proof (in_ji _ _ _ H) as J. rewrite Forall_forall in J.
  rewrite (In_get _ _ (Inv_ids _ _ _ H) Hj) in G. injection G as <-. apply (ji_rm _ _ _ (J j Hj) R).
Qed.

Lemma live_not_ended h pid w : live h pid -> outcome h pid = Some w -> ~ ended w.
Proof.
  induction h as [|a h IH]; [discriminate|]. destruct a; cbn; auto.
  - destruct (Z.eqb pid0 pid); [discriminate|auto].
  - destruct (Z.eqb pid0 pid); [|auto]. intros L E. injection E as <-. exact L.
Qed.

Lemma push_In pid w q x v : In (x, v) (push pid w q) <-> (x = pid /\ v = w) \/ (x <> pid /\ In (x, v) q).
Proof.
  unfold push. rewrite in_app_iff, filter_In. cbn. destruct (Z.eqb_spec x pid); cbn; split; intros H.
  - destruct H as [[_ H]|[H|[]]]; [discriminate|]. injection H as -> ->. auto.
  - destruct H as [[-> ->]|[N _]]; [auto|congruence].
  - destruct H as [[H _]|[H|[]]]; [auto|]. congruence.
  - destruct H as [[-> _]|[_ H]]; [congruence|auto].
Qed.
Lemma push_fst pid w q x : In x (map fst (push pid w q)) <-> x = pid \/ In x (map fst q).
Proof.
  rewrite !in_map_iff. split.
  - intros [[y v] [E H]]. cbn in E. subst y. apply push_In in H. destruct H as [[-> _]|[_ H]]; [auto|].
    right. exists (x, v). auto.
  - intros [->|[[y v] [E H]]].
    + exists (pid, w). split; [reflexivity|]. apply push_In. auto.
    + cbn in E. subst y. destruct (Z.eq_dec x pid) as [->|N].
      * exists (pid, w). split; [reflexivity|]. apply push_In. auto.
      * exists (x, v). split; [reflexivity|]. apply push_In. auto.
Qed.
Lemma push_nodup pid w q : NoDup (map fst q) -> NoDup (map fst (push pid w q)).
Proof.
  intros N. unfold push. rewrite map_app. cbn. apply NoDup_app_single; [apply NoDup_map_filter, N|].
  intros H. apply in_map_iff in H. destruct H as [e [E F]]. apply filter_In in F. destruct F as [_ F].
  rewrite E, Z.eqb_refl in F. discriminate.
Qed.

Lemma Inv_child h s q pid w : Inv h s q -> live h pid ->
  Inv (AChild pid w :: h) (with_raised s) (push pid w q).
Proof.
  intros [H1 H2 H3 H4 [Q1 Q2]] LV. split; cbn [jl nid nzomb with_raised with_sig]; auto.
  - eapply Forall_impl; [|exact H2]. intros j [A1 A2 A3 A4 A5 A6 A7 A8 A9]. split; auto.
    eapply Forall_impl; [|exact A4]. intros p PI. unfold pinv in *. cbn [outcome].
    destruct (Z.eqb_spec pid (p_pid p)) as [E|E].
    + left. destruct PI as [[A B]|[v [A [B _]]]].
      * split; [exact A|]. intros v X _. injection X as <-. apply push_In. auto.
      * exfalso. rewrite <- E in B. exact (live_not_ended _ _ _ LV B A).
    + destruct PI as [[A B]|[v [A [B [C D]]]]].
      * left. split; [exact A|]. intros v X Y. apply push_In. right. auto.
      * right. exists v. split; [exact A|]. split; [exact B|]. split; [exact C|]. rewrite push_fst.
        intros [X|X]; [congruence|auto].
  - split; [apply push_nodup, Q1|]. intros x v X. apply push_In in X. cbn [outcome].
    destruct X as [[-> ->]|[N X]]; [rewrite Z.eqb_refl; reflexivity|].
    destruct (Z.eqb_spec pid x); [congruence|auto].
Qed.

Lemma Inv_acts h a s q : Inv h s q ->
  match a with AFork _ _ _ _ _ | AFail _ _ _ | AChild _ _ => False | _ => True end -> Inv (a :: h) s q.
Proof.
  intros H A. apply (Inv_hist h); [exact H| |]; destruct a; try destruct A; try reflexivity; intros; split; reflexivity.
Qed.

Lemma started_iff (s : jst) : existsb (fun j => negb (f_started (j_fl j))) (jl s) = false <-> allst s.
Proof.
  unfold allst. rewrite Forall_forall. split.
  - intros H j Hj. destruct (f_started (j_fl j)) eqn:E; [reflexivity|].
    assert (existsb (fun j => negb (f_started (j_fl j))) (jl s) = true) as X; [|congruence].
    apply existsb_exists. exists j. rewrite E. auto.
  - intros H. destruct (existsb _ (jl s)) eqn:E; [|reflexivity].
    apply existsb_exists in E. destruct E as [j [A B]]. rewrite (H j A) in B. discriminate.
Qed.

Lemma waitj_end_inv h s q i a rv s' : Inv h s q -> waitj_end i a s = Some (rv, s') ->
  Inv h s' q /\ keeps s s' /\ nid s' = nid s /\ pfail s' = pfail s.
Proof.
  intros H E. unfold waitj_end in E. destruct (get (jl s) i) as [j|] eqn:G; [|discriminate].
  destruct (waitj_waits (mon s) j) eqn:W; [discriminate|].
  set (f1 := fun j => jfl j (set_fg _ _)) in E. set (f2 := fun j => jfl j (set_changed _ _)) in E.
  set (s1 := with_jl s (upd i f1 (jl s))) in E.
  set (s2 := if negb a && _ then _ else s1) in E.
  assert (I1 : Inv h s1 q) by apply Inv_fgw, H.
  assert (K1 : keeps s s1) by (eapply keeps_upd; reflexivity).
  assert (X2 : Inv h s2 q /\ keeps s s2 /\ nid s2 = nid s /\ pfail s2 = pfail s
              /\ exists j2, get (jl s2) i = Some j2 /\ f_started (j_fl j2) = f_started (j_fl j)).
  { assert (G1 : get (jl s1) i = Some (f1 j)) by (apply get_upd; [reflexivity|exact G]).
    subst s2. destruct (negb a && _).
    - split; [apply Inv_changed, I1|]. split; [eapply keeps_trans; [exact K1|]; eapply keeps_upd; reflexivity|].
      split; [reflexivity|]. split; [reflexivity|]. exists (f2 (f1 j)). split; [|reflexivity].
      apply get_upd; [reflexivity|exact G1].
    - split; [exact I1|]. split; [exact K1|]. split; [reflexivity|]. split; [reflexivity|].
      exists (f1 j). auto. }
  destruct X2 as [I2 [K2 [N2 [P2 [j2 [G2 S2]]]]]]. clearbody s2. injection E as <- <-.
  assert (S : f_started (j_fl j) = true).
  { destruct (f_started (j_fl j)) eqn:S; [reflexivity|].
    destruct (ji_un _ _ _ (get_last_In _ _ _ _ _ H G) S) as [_ R].
    unfold waitj_waits in W. rewrite R in W. discriminate. }
  destruct (negb _ && _); [|auto].
  split; [apply Inv_remove, I2|]. destruct (remove_frame i s2) as [F1 [F2 [F3 [F4 [F5 [F6 F7]]]]]].
  split; [|split; congruence].
  eapply keeps_trans; [exact K2|]. eapply keeps_remove; [eapply Inv_ids; exact I2|exact G2|congruence].
Qed.

Lemma startjob_sig h s q i : Inv h s q -> sigI s q -> sigI (j_startjob i s) q.
Proof.
  intros HI H NE. unfold j_startjob. set (s1 := with_jl s _). change (held s1) with (held s).
  destruct (held s) eqn:Hh; [left; reflexivity|]. left. change (raised s1) with (raised s).
  destruct (H NE) as [R|[X _]]; [exact R|congruence].
Qed.

Lemma set_async_sig h s q i s' : Inv h s q -> j_set_async i s = Some s' -> sigI s q -> sigI s' q.
Proof.
  intros H E S. destruct (set_async_inv h s q i s' H E) as [_ D].
  eapply keeps_sig; [eapply keeps_drop; eassumption|exact S].
Qed.

Lemma resume_keeps h s q i bg s' : Inv h s q -> j_resume i bg s = Some s' ->
  keeps s s' /\ nid s' = nid s /\ pfail s' = pfail s.
Proof.
  intros H E. destruct (resume_inv h s q i bg s' H E) as [s1 [I1 [P [[A1 [A2 [A3 A4]]] [C _]]]]].
  assert (K1 : keeps s s1).
  { eapply keeps_trans with (b := with_jl s (upd i resumed (jl s))).
    - eapply keeps_upd; try reflexivity; intros x; unfold resumed; cbv zeta; destruct (existsb _ (j_procs x)); reflexivity.
    - split; [|auto]. intros x Hx U. exists x. split; [|auto].
      eapply Permutation_in; [apply Permutation_sym, P|exact Hx]. }
  destruct C as [D|[[B1 [B2 [B3 [B4 B5]]]]| ->]].
  - destruct D as [D1 [D2 [D3 [D4 [D5 D6]]]]]. split; [|split; congruence].
    eapply keeps_trans; [exact K1|]. eapply keeps_drop; [exact I1|]. repeat split; auto.
  - split; [|split; congruence]. eapply keeps_trans; [exact K1|].
    eapply keeps_upd; [exact B1|exact B2|exact B3| |]; reflexivity.
  - split; [apply keeps_refl|auto].
Qed.

Lemma fold_marked_frame l : forall s, 
  let s' := fold_left (fun s j => if f_remove (j_fl j) then remove_job (j_id j) s else s) l s in
  nid s' = nid s /\ pfail s' = pfail s.
Proof.
  induction l as [|j l IH]; intros s; cbn; [auto|].
  destruct (IH (if f_remove (j_fl j) then remove_job (j_id j) s else s)) as [A B]. rewrite A, B.
  destruct (f_remove (j_fl j)); [|auto].
  destruct (remove_frame (j_id j) s) as [F1 [F2 [F3 [F4 [F5 [F6 F7]]]]]]. auto.
Qed.
Lemma marked_frame s : nid (remove_marked s) = nid s /\ pfail (remove_marked s) = pfail s.
Proof. apply fold_marked_frame. Qed.

Lemma reap_frame s e : nid (reap s e) = nid s /\ pfail (reap s e) = pfail s /\ mon (reap s e) = mon s.
Proof.
  unfold reap. destruct (find _ (jl s)) as [j|]; [|auto].
  unfold check_job. destruct (get _ (j_id j)) as [k|]; [|auto].
  destruct (f_started (j_fl k)); [|auto]. destruct (job_state PRun (j_procs k)); [|auto].
  unfold after_check. set (s0 := with_jl _ _). 
  assert (Q0 : nid s0 = nid s /\ pfail s0 = pfail s /\ mon s0 = mon s) by (cbn; auto). clearbody s0.
  destruct (get (jl s0) (j_id j)) as [k'|]; [|exact Q0].
  set (P := fun x : jst => nid x = nid s /\ pfail x = pfail s /\ mon x = mon s).
  assert (PR : forall x i, P x -> P (remove_job i x)).
  { intros x i [A [B C]]. destruct (remove_frame i x) as [F1 [F2 [F3 [F4 [F5 [F6 F7]]]]]]. unfold P. repeat split; congruence. }
  assert (PL : forall x l, P x -> P (with_jl x l)) by (intros x l X; exact X).
  set (s1 := if mon s0 && _ then _ else s0). fold (P s0) in Q0.
  assert (P1 : P s1).
  { subst s1. destruct (mon s0 && _); [|exact Q0].
    set (s2 := if pstate_eqb _ _ then _ else s0).
    assert (P2 : P s2) by (subst s2; destruct (pstate_eqb _ _); auto).
    destruct (notif s2 && _); [|exact P2]. destruct (negb _ && _); auto. }
  fold (P s1). change (P (if negb (mon s1) && negb (f_waiting (j_fl k') || f_fg (j_fl k')) && negb (pstate_eqb (j_state k') PStop)
     then if match asyncj s1 with Some k0 => Nat.eqb k0 (j_id j) | None => false end || f_known (j_fl k')
     then with_nzomb (with_jl s1 (upd (j_id j) (fun j0 => jnum (jfl j0 (set_zombie (j_fl j0))) (-1)) (jl s1))) (nzomb s1 + 1)
     else remove_job (j_id j) s1 else s1)).
  destruct (negb (mon s1) && _ && _); [|exact P1]. destruct (_ || f_known (j_fl k')); [exact P1|auto].
Qed.
Lemma reaps_frame q : forall s, nid (fold_left reap q s) = nid s /\ pfail (fold_left reap q s) = pfail s
  /\ mon (fold_left reap q s) = mon s.
Proof.
  induction q as [|e q IH]; intros s; cbn; [auto|]. destruct (IH (reap s e)) as [A [B C]].
  destruct (reap_frame s e) as [D [E F]]. repeat split; congruence.
Qed.

Lemma step_RI h s a s' : RI h s -> step false h s a s' -> RI (a :: h) s'.
Proof.
  intros [HI HH HS] ST. destruct ST as
    [s q cont xx bg pid cmd s' NL NQ NR HC E|s q cont xx bg s' HC E|s q bg s' E|s q|s q i b|s q i|s q i b rv s' E
    |s q i bg s' E|s q|s q w b c d|s q s' pid E|s q m n p|s q pid w LV|s q order s' q' R PM E]; cbn [sh kq] in *.
  - destruct NR as [NR|NR]; [discriminate|].
    destruct (exchild_fork_inv h s q cont xx bg pid cmd s' HI HH NQ NR HC E) as [I1 H1].
    split; cbn [sh kq]; [exact I1|exact H1|]. intros NF NE. cbn in NF.
    specialize (HS NF NE). unfold exchild_fork in E.
    destruct (link_proc _ _ _ _ s) as [[i s1]|] eqn:LK; [|discriminate]. injection E as <-.
    assert (Hr : held s1 = held s /\ raised s1 = raised s).
    { unfold link_proc in LK. destruct cont.
      - destruct (lastj s); [|discriminate]. injection LK as <- <-. auto.
      - destruct (new_num _ _ _); [|discriminate]. injection LK as <- <-. auto. }
    destruct Hr as [E1 E2].
    destruct HS as [X|[X [j [Hj U]]]]; [left; cbn; congruence|]. right. split; [cbn; congruence|].
    assert (exists j', In j' (jl s1) /\ f_started (j_fl j') = false) as [j' [J1 J2]].
    { unfold link_proc in LK. destruct cont.
      - destruct (lastj s) as [i0|]; [|discriminate]. injection LK as <- <-. cbn [jl with_jl].
        exists (if is_id i0 j then jprocs j (j_procs j ++ [Proc pid PRun None cmd]) else j). split.
        + unfold upd. apply in_map_iff. exists j. auto.
        + destruct (is_id i0 j); exact U.
      - destruct (new_num _ _ _); [|discriminate]. injection LK as <- <-. cbn [jl with_jl with_last with_ids].
        eexists. split; [eapply Permutation_in; [apply Permutation_sym, past_stopped_perm|left; reflexivity]|reflexivity]. }
    exists (if is_id i j' then (if mon s1 && negb xx && Z.eqb (j_pgrp j') 0 then jpgrp j' pid else j') else j').
    split.
    + unfold set_pid, upd. cbn. apply in_map_iff. exists j'. auto.
    + destruct (is_id i j'); [destruct (_ && _ && _)|]; exact J2.
  - destruct (exchild_fail_inv h s q cont xx bg s' HI HH HC E) as [I1 H1].
    split; cbn [sh kq]; [exact I1|exact H1|]. intros NF. destruct NF.
  - unfold exchild_start in E. destruct (lastj s) as [i|]; [|discriminate].
    pose proof (Inv_startjob h s q i HI) as I1.
    assert (FR : nid (j_startjob i s) = nid s /\ pfail (j_startjob i s) = pfail s).
    { unfold j_startjob. destruct (held _); auto. }
    destruct FR as [F1 F2]. destruct HH as [HN HP]. destruct bg.
    + destruct (set_async_inv h _ q i s' I1 E) as [I2 D]. split; cbn [sh kq].
      * apply Inv_acts; [exact I2|exact I].
      * destruct D as [_ [_ [_ [_ [X Y]]]]]. split; cbn; congruence.
      * intros NF. eapply set_async_sig; [exact I1|exact E|]. eapply startjob_sig; [exact HI|]. exact (HS NF).
    + injection E as <-. split; cbn [sh kq].
      * apply Inv_acts; [exact I1|exact I].
      * split; cbn; congruence.
      * intros NF. eapply startjob_sig; [exact HI|exact (HS NF)].
  - unfold startlast. destruct (lastj s) as [i|].
    2:{ split; cbn [sh kq]; [apply Inv_acts; [exact HI|exact I]|exact HH|exact HS]. }
    set (s1 := with_jl s _).
    assert (I1 : Inv h s1 q) by (apply (Inv_waiting h s q i (fun j => f_wasync (j_fl j)) true), HI).
    assert (K1 : keeps s s1) by (eapply keeps_upd; reflexivity).
    split; cbn [sh kq].
    + apply Inv_acts; [|exact I]. apply Inv_startjob, I1.
    + destruct HH. unfold j_startjob. destruct (held _); split; assumption.
    + intros NF. eapply startjob_sig; [exact I1|]. eapply keeps_sig; [exact K1|exact (HS NF)].
  - split; cbn [sh kq].
    + apply Inv_acts; [|exact I]. apply (Inv_waiting h s q i (fun j => b || f_wasync (j_fl j)) true), HI.
    + exact HH.
    + intros NF. eapply keeps_sig; [eapply keeps_upd; reflexivity|exact (HS NF)].
  - split; cbn [sh kq].
    + apply Inv_acts; [|exact I]. apply (Inv_waiting h s q i (fun _ => false) false), HI.
    + exact HH.
    + intros NF. eapply keeps_sig; [eapply keeps_upd; reflexivity|exact (HS NF)].
  - destruct (waitj_end_inv h s q i b rv s' HI E) as [I1 [K [N P]]]. destruct HH as [HN HP].
    split; cbn [sh kq].
    + apply Inv_acts; [exact I1|exact I].
    + split; cbn; congruence.
    + intros NF. eapply keeps_sig; [exact K|exact (HS NF)].
  - destruct (resume_keeps h s q i bg s' HI E) as [K [N P]]. destruct HH as [HN HP].
    destruct (resume_inv h s q i bg s' HI E) as [_ [_ [_ [_ [_ I1]]]]].
    split; cbn [sh kq].
    + apply Inv_acts; [exact I1|exact I].
    + split; cbn; congruence.
    + intros NF. eapply keeps_sig; [exact K|exact (HS NF)].
  - split; cbn [sh kq].
    + apply Inv_acts; [apply Inv_notify, HI|exact I].
    + destruct HH as [HN HP]. unfold j_notify. match goal with |- hist _ (remove_marked ?x) => destruct (marked_frame x) as [A B] end.
      split; [rewrite A|rewrite B]; assumption.
    + intros NF. unfold j_notify. eapply keeps_sig; [|exact (HS NF)].
      eapply keeps_trans; [|eapply keeps_marked].
      * apply keeps_map; intros j; destruct (mon s && f_changed (j_fl j)); cbv zeta;
          match goal with |- context [if finished ?x then _ else _] => destruct (finished x) end; reflexivity.
      * apply Inv_map; [exact HI| |].
        -- intros j. destruct (mon s && f_changed (j_fl j)); cbv zeta;
             match goal with |- context [if finished ?x then _ else _] => destruct (finished x) end; reflexivity.
        -- intros j J. destruct (mon s && f_changed (j_fl j)); cbv zeta;
             match goal with |- context [if finished ?x then _ else _] => destruct (finished x) eqn:F end;
             auto using JI_changed, JI_remove.
  - split; cbn [sh kq].
    + apply Inv_acts; [apply Inv_jobs, HI|exact I].
    + destruct HH as [HN HP]. unfold j_jobs. match goal with |- hist _ (remove_marked ?x) => destruct (marked_frame x) as [A B] end.
      split; [rewrite A|rewrite B]; assumption.
    + intros NF. unfold j_jobs. eapply keeps_sig; [|exact (HS NF)].
      eapply keeps_trans; [|eapply keeps_marked].
      * apply keeps_map; intros j; destruct (_ && _ && _); try reflexivity; destruct b; cbv zeta;
          match goal with |- context [if finished ?x then _ else _] => destruct (finished x) end; reflexivity.
      * apply Inv_map; [exact HI| |].
        -- intros j; destruct (_ && _ && _); try reflexivity; destruct b; cbv zeta;
             match goal with |- context [if finished ?x then _ else _] => destruct (finished x) end; reflexivity.
        -- intros j J. destruct (_ && _ && _); [|exact J]. destruct b; cbv zeta;
             match goal with |- context [if finished ?x then _ else _] => destruct (finished x) eqn:F end;
             auto using JI_changed, JI_remove.
  - unfold j_async in E. injection E as <- <-. destruct (asyncj s) as [k|].
    + split; cbn [sh kq].
      * apply Inv_acts; [|exact I]. apply Inv_known, HI.
      * exact HH.
      * intros NF. eapply keeps_sig; [eapply keeps_upd; reflexivity|exact (HS NF)].
    + split; cbn [sh kq]; [apply Inv_acts; [exact HI|exact I]|exact HH|exact HS].
  - split; cbn [sh kq].
    + apply Inv_acts; [|exact I]. eapply Inv_same; [exact HI| | | | |]; cbn; auto.
    + destruct HH as [HN HP]. split; cbn; auto.
    + exact HS.
  - split; cbn [sh kq].
    + apply Inv_child; assumption.
    + exact HH.
    + intros _ _. left. reflexivity.
  - unfold j_sigchld in E. destruct (existsb _ (jl s)) eqn:X.
    + injection E as <- <-. split; cbn [sh kq].
      * apply Inv_acts; [|exact I]. eapply Inv_same; [eapply Inv_permq; [apply Permutation_sym, PM|exact HI]| | | | |]; cbn; auto.
      * exact HH.
      * intros _ _. right. split; [reflexivity|]. apply existsb_exists in X. destruct X as [j [A B]].
        exists j. split; [exact A|]. destruct (f_started (j_fl j)); [discriminate|reflexivity].
    + apply started_iff in X. injection E as <- <-.
      destruct (reaps_inv h order s (Inv_permq _ _ _ _ (Permutation_sym PM) HI) X) as [I1 _].
      destruct (reaps_frame order s) as [F1 [F2 _]]. destruct HH as [HN HP].
      split; cbn [sh kq].
      * apply Inv_acts; [|exact I]. eapply Inv_same; [exact I1| | | | |]; cbn; auto.
      * split; cbn; congruence.
      * intros _ NE. congruence.
Qed.

Lemma reach_RI h s : reach false h s -> RI h s.
Proof.
  induction 1 as [m n p cm|h s a s' R IH ST].
  - split; cbn.
    + split; cbn; auto.
      * split; cbn; auto; try constructor. intros k [].
      * split; discriminate.
      * split; [constructor|intros ? ? []].
    + split; reflexivity.
    + intros _ NE. cbn in NE. congruence.
  - eapply step_RI; eassumption.
Qed.

(** * What steps do to finished and unfinished jobs *)
Definition same3 (j k : job) : Prop := j_state k = j_state j /\ j_status k = j_status j /\ j_procs k = j_procs j.
Definition evo (strict : bool) (s s' : jst) : Prop :=
  forall k, In k (jl s') -> exists j, In j (jl s) /\ j_id j = j_id k
    /\ (finished j = true -> same3 j k) /\ (strict = true -> finished k = true -> finished j = true).

Lemma same3_fin j k : same3 j k -> finished k = finished j.
Proof. intros [A _]. unfold finished. rewrite A. reflexivity. Qed.
Lemma evo_refl b s : evo b s s.
Proof. intros k Hk. exists k. unfold same3. auto 10. Qed.
Lemma evo_trans b x y z : evo b x y -> evo b y z -> evo b x z.
Proof.
  intros A B k Hk. destruct (B k Hk) as [j [J1 [J2 [J3 J4]]]]. destruct (A j J1) as [i [I1 [I2 [I3 I4]]]].
  exists i. split; [exact I1|]. split; [congruence|]. split; [|auto].
  intros F. specialize (I3 F). assert (F' : finished j = true) by (rewrite (same3_fin _ _ I3); exact F).
  specialize (J3 F'). unfold same3 in *. intuition congruence.
Qed.
Lemma evo_weak s s' : evo true s s' -> evo false s s'.
Proof. intros A k Hk. destruct (A k Hk) as [j [J1 [J2 [J3 J4]]]]. exists j. split; [exact J1|]. split; [exact J2|]. split; [exact J3|discriminate]. Qed.
Lemma evo_any b s s' : evo true s s' -> evo b s s'.
Proof. destruct b; [auto|apply evo_weak]. Qed.
Lemma evo_sub s s' : (forall j, In j (jl s') -> In j (jl s)) -> evo true s s'.
Proof. intros H k Hk. exists k. unfold same3. auto 10. Qed.
Lemma evo_upd s s' i f : jl s' = upd i f (jl s) ->
  (forall j, In j (jl s) -> j_id (f j) = j_id j /\ same3 j (f j)) -> evo true s s'.
Proof.
  intros E H k Hk. rewrite E in Hk. apply upd_In in Hk. destruct Hk as [j [Hj [[X ->]|[X ->]]]].
  - destruct (H j Hj) as [H1 H2]. exists j. split; [exact Hj|]. split; [congruence|]. split; [auto|].
    rewrite (same3_fin _ _ H2). auto.
  - exists j. unfold same3. auto 10.
Qed.
Lemma evo_map s g : (forall j, j_id (g j) = j_id j /\ same3 j (g j)) -> evo true s (with_jl s (map g (jl s))).
Proof.
  intros H k Hk. cbn in Hk. apply in_map_iff in Hk. destruct Hk as [j [<- Hj]].
  destruct (H j) as [H1 H2]. exists j. split; [exact Hj|]. split; [congruence|]. split; [auto|].
  rewrite (same3_fin _ _ H2). auto.
Qed.
Lemma evo_remove s i : evo true s (remove_job i s).
Proof. apply evo_sub. intros j Hj. rewrite remove_jl in Hj. apply unlink_In in Hj. tauto. Qed.
Lemma evo_reput s front i : NoDup (ids (jl s)) -> evo true s (with_jl s (reput front i (jl s))).
Proof. intros N. apply evo_sub. intros j Hj. cbn in Hj. eapply Permutation_in; [apply reput_perm, N|exact Hj]. Qed.
Lemma evo_marked s : evo true s (remove_marked s).
Proof.
  unfold remove_marked. generalize (jl s) as l. intros l. revert s.
  induction l as [|j l IH]; intros s; cbn; [apply evo_refl|].
  eapply evo_trans; [|apply IH]. destruct (f_remove (j_fl j)); [apply evo_remove|apply evo_refl].
Qed.

Lemma after_check_evo h q s i : Inv h s q -> evo true s (after_check i s).
Proof.
  intros H. pose proof (Inv_ids _ _ _ H) as N. unfold after_check.
  destruct (get (jl s) i) as [j|]; [|apply evo_refl].
  set (s1 := if mon s && _ then _ else s).
  assert (E1 : evo true s s1).
  { subst s1. destruct (mon s && _); [|apply evo_refl].
    set (s2 := if pstate_eqb _ _ then _ else s).
    assert (E2 : evo true s s2) by (subst s2; destruct (pstate_eqb _ _); [apply evo_reput, N|apply evo_refl]).
    destruct (notif s2 && _); [|exact E2]. eapply evo_trans; [exact E2|].
    match goal with |- context [with_jl s2 ?l] => assert (E3 : evo true s2 (with_jl s2 l)) by (eapply evo_upd; [reflexivity|]; intros; unfold same3; cbn; auto) end.
    destruct (negb _ && _); [|exact E3]. eapply evo_trans; [exact E3|apply evo_remove]. }
  destruct (negb (mon s1) && _ && _); [|exact E1]. eapply evo_trans; [exact E1|].
  destruct (_ || f_known (j_fl j)); [|apply evo_remove].
  eapply evo_upd; [reflexivity|]. intros; unfold same3; cbn; auto.
Qed.

Lemma reap_evo h s e q : Inv h s (e :: q) -> allst s -> evo false s (reap s e).
Proof.
  intros H AS. destruct e as [pid w]. unfold reap. cbn [fst snd].
  pose proof (Inv_ids _ _ _ H) as N.
  destruct (find (has_pid pid) (jl s)) as [j|] eqn:Fd; [|apply evo_refl].
  apply find_some in Fd. destruct Fd as [Hj Hp]. apply has_pid_In in Hp.
  pose proof (in_ji _ _ _ H) as HJ. rewrite Forall_forall in HJ. pose proof (HJ j Hj) as Jj.
  assert (SJ : f_started (j_fl j) = true) by (unfold allst in AS; rewrite Forall_forall in AS; auto).
  assert (NF : finished j = false).
  { destruct (finished j) eqn:Fin; [|reflexivity]. exfalso.
    destruct (ji_st _ _ _ Jj SJ) as [_ St].
    apply (proj1 (finished_iff j (ji_ne _ _ _ Jj) St)) in Fin.
    apply in_map_iff in Hp. destruct Hp as [p [Ep Hp]]. rewrite Forall_forall in Fin.
    pose proof (ji_pinv _ _ _ Jj) as PI. rewrite Forall_forall in PI.
    specialize (Fin p Hp). specialize (PI p Hp). destruct PI as [[[X|X] _]|[w' [_ [_ [_ X]]]]].
    - destruct Fin; congruence.
    - destruct Fin; congruence.
    - apply X. rewrite Ep. left. reflexivity. }
  assert (UNI : forall x, In x (jl s) -> j_id x = j_id j -> x = j).
  { intros x Hx E. pose proof (In_get _ _ N Hx) as G1. pose proof (In_get _ _ N Hj) as G2. rewrite E in G1. congruence. }
  assert (UP : forall s' f, jl s' = upd (j_id j) f (jl s) -> (forall x, j_id (f x) = j_id x) -> evo false s s').
  { intros s' f E IDf k Hk. rewrite E in Hk. apply upd_In in Hk. destruct Hk as [x [Hx [[X ->]|[X ->]]]].
    - exists x. rewrite (UNI x Hx X), IDf. split; [exact Hj|]. split; [reflexivity|]. split; [congruence|discriminate].
    - exists x. unfold same3. split; [exact Hx|]. split; [reflexivity|]. split; [auto|discriminate]. }
  set (s1 := with_jl s _). unfold check_job.
  destruct (get (jl s1) (j_id j)) as [k|] eqn:G; [|eapply UP; reflexivity].
  destruct (f_started (j_fl k)); [|eapply UP; reflexivity].
  destruct (job_state PRun (j_procs k)) as [st|]; [|eapply UP; reflexivity].
  set (s2 := with_jl s1 _).
  eapply evo_trans with (y := s2).
  - eapply UP; [unfold s2, s1; cbn; rewrite upd_upd by reflexivity; reflexivity|reflexivity].
  - apply evo_weak.
    (* ids are distinct in s2, which is all after_check_evo uses *)
    assert (N2 : NoDup (ids (jl s2))).
    { unfold s2, s1. cbn. rewrite !upd_ids by reflexivity. exact N. }
    clearbody s2. unfold after_check.
    destruct (get (jl s2) (j_id j)) as [k2|]; [|apply evo_refl].
    set (s3 := if mon s2 && _ then _ else s2).
    assert (E1 : evo true s2 s3).
    { subst s3. destruct (mon s2 && _); [|apply evo_refl].
      set (s4 := if pstate_eqb _ _ then _ else s2).
      assert (E2 : evo true s2 s4) by (subst s4; destruct (pstate_eqb _ _); [apply evo_reput, N2|apply evo_refl]).
      destruct (notif s4 && _); [|exact E2]. eapply evo_trans; [exact E2|].
      match goal with |- context [with_jl s4 ?l] => assert (E3 : evo true s4 (with_jl s4 l)) by (eapply evo_upd; [reflexivity|]; intros; unfold same3; cbn; auto) end.
      destruct (negb _ && _); [|exact E3]. eapply evo_trans; [exact E3|apply evo_remove]. }
    destruct (negb (mon s3) && _ && _); [|exact E1]. eapply evo_trans; [exact E1|].
    destruct (_ || f_known (j_fl k2)); [|apply evo_remove].
    eapply evo_upd; [reflexivity|]. intros; unfold same3; cbn; auto.
Qed.

Lemma reaps_evo h : forall q s, Inv h s q -> allst s -> evo false s (fold_left reap q s).
Proof.
  induction q as [|e q IH]; intros s H A; cbn; [apply evo_refl|].
  destruct (reap_inv _ _ _ _ H A) as [H1 A1]. eapply evo_trans; [eapply reap_evo; eassumption|]. apply IH; assumption.
Qed.

Lemma drop_evo s s' : drop_rel s s' -> evo true s s'.
Proof. intros [A _]. apply evo_sub, A. Qed.
Lemma startjob_evo i s : evo true s (j_startjob i s).
Proof.
  unfold j_startjob. set (s1 := with_jl s _).
  assert (E : evo true s s1) by (eapply evo_upd; [reflexivity|]; intros; unfold same3; cbn; auto).
  destruct (held s1); exact E.
Qed.
Lemma waitj_end_evo i a s rv s' : waitj_end i a s = Some (rv, s') -> evo true s s'.
Proof.
  intros E. unfold waitj_end in E. destruct (get (jl s) i) as [j|]; [|discriminate].
  destruct (waitj_waits (mon s) j); [discriminate|].
  set (s1 := with_jl s _) in E. set (s2 := if negb a && _ then _ else s1) in E.
  assert (E1 : evo true s s1) by (eapply evo_upd; [reflexivity|]; intros; unfold same3; cbn; auto).
  assert (E2 : evo true s s2).
  { subst s2. destruct (negb a && _); [|exact E1]. eapply evo_trans; [exact E1|].
    eapply evo_upd; [reflexivity|]; intros; unfold same3; cbn; auto. }
  clearbody s2. injection E as _ <-. destruct (negb _ && _); [|exact E2]. eapply evo_trans; [exact E2|apply evo_remove].
Qed.

Lemma resumed_fin h q j : JI h q j -> (finished j = true -> same3 j (resumed j))
  /\ (finished (resumed j) = true -> finished j = true).
Proof.
  intros J. unfold resumed. cbv zeta. destruct (existsb _ (j_procs j)) eqn:R.
  - split; [|discriminate]. intros F. exfalso. pose proof (fin_started _ _ _ J F) as S.
    destruct (ji_st _ _ _ J S) as [_ St]. apply (proj1 (finished_iff j (ji_ne _ _ _ J) St)) in F.
    apply existsb_exists in R. destruct R as [p [Hp Ep]]. rewrite Forall_forall in F. specialize (F p Hp).
    unfold pstate_eqb in Ep. destruct F as [F|F]; rewrite F in Ep; discriminate.
  - assert (ID : map cont_proc (j_procs j) = j_procs j).
    { rewrite <- (map_id (j_procs j)) at 2. apply map_ext_in. intros p Hp. unfold cont_proc.
      destruct (p_state p) eqn:Sp; try reflexivity. exfalso.
      assert (existsb (fun p => pstate_eqb (p_state p) PStop) (j_procs j) = true) as X; [|congruence].
      apply existsb_exists. exists p. split; [exact Hp|]. rewrite Sp. reflexivity. }
    rewrite ID. split; [intros _; unfold same3; cbn; auto|auto].
Qed.

(** New jobs are not finished; old ones evolve. *)
Definition evon (b : bool) (s s' : jst) : Prop :=
  forall k, In k (jl s') -> (finished k = false /\ ~ In (j_id k) (ids (jl s))) \/
    exists j, In j (jl s) /\ j_id j = j_id k
    /\ (finished j = true -> same3 j k) /\ (b = true -> finished k = true -> finished j = true).
Lemma evo_evon b s s' : evo b s s' -> evon b s s'.
Proof. intros H k Hk. right. apply H, Hk. Qed.

Lemma step_evo h s a s' : RI h s -> step false h s a s' ->
  evon (match a with ASig _ => false | _ => true end) (sh s) (sh s').
Proof.
  intros [HI HH HS] ST. destruct ST as
    [s q cont xx bg pid cmd s' NL NQ NR HC E|s q cont xx bg s' HC E|s q bg s' E|s q|s q i b|s q i|s q i b rv s' E
    |s q i bg s' E|s q|s q w b c d|s q s' pid E|s q m n p|s q pid w LV|s q order s' q' R PM E]; cbn [sh kq] in *.
  - unfold exchild_fork in E. destruct (link_proc _ _ _ _ s) as [[i s1]|] eqn:LK; [|discriminate]. injection E as <-.
    intros k Hk. cbn [jl set_pid with_jl] in Hk. apply upd_In in Hk.
    assert (exists k1, In k1 (jl s1) /\ j_id k1 = j_id k /\ same3 k1 k) as [k1 [K1 [K2 K3]]].
    { destruct Hk as [k1 [K1 [[_ ->]|[_ ->]]]]; exists k1; unfold same3; [|auto].
      destruct (_ && _ && _); cbn; auto. }
    assert (F : finished k = finished k1) by (apply same3_fin; assumption).
    unfold link_proc in LK. destruct cont.
    + destruct (HC eq_refl) as [i0 [Li [ju [Gu Su]]]]. rewrite Li in LK. injection LK as <- <-.
      cbn [jl with_jl] in K1. apply upd_In in K1. right.
      pose proof (get_last_In _ _ _ _ _ HI Gu) as Ju. apply get_In in Gu. destruct Gu as [Gu Eu].
      destruct K1 as [x [Hx [[X ->]|[X ->]]]].
      * assert (x = ju) as ->.
        { pose proof (In_get _ _ (Inv_ids _ _ _ HI) Hx) as G1. pose proof (In_get _ _ (Inv_ids _ _ _ HI) Gu) as G2. rewrite X in G1. rewrite Eu in G2. congruence. }
        exists ju. split; [exact Hx|]. split; [exact K2|].
        pose proof (unstarted_unfinished _ _ _ Ju Su) as NF. split; [congruence|]. intros _. rewrite F. auto.
      * exists x. split; [exact Hx|]. split; [exact K2|]. split; [auto|]. rewrite F. auto.
    + destruct (new_num _ _ _); [|discriminate]. injection LK as <- <-. cbn [jl with_jl with_last with_ids] in K1.
      eapply Permutation_in in K1; [|apply past_stopped_perm]. destruct K1 as [<-|K1].
      * left. split; [rewrite F; reflexivity|]. rewrite <- K2. cbn. intros X. apply in_map_iff in X.
        destruct X as [x [X Y]]. pose proof (li_lt _ _ (in_li _ _ _ HI) (kof x) (in_map kof _ _ Y)) as Lx. cbn in Lx. lia.
      * right. apply unlink_In in K1. exists k1. split; [tauto|]. split; [exact K2|]. split; [auto|]. rewrite F. auto.
  - apply evo_evon. unfold exchild_fail in E.
    destruct (link_proc _ _ _ _ s) as [[i s1]|] eqn:LK; [|discriminate]. injection E as <-.
    apply evo_sub. intros j Hj. rewrite remove_jl in Hj. apply unlink_In in Hj. destruct Hj as [Hj Nj].
    unfold link_proc in LK. destruct cont.
    + destruct (lastj s) as [i0|]; [|discriminate]. injection LK as <- <-. cbn in Hj. apply upd_In in Hj.
      destruct Hj as [x [Hx [[X ->]|[X ->]]]]; [cbn in Nj; congruence|exact Hx].
    + destruct (new_num _ _ _); [|discriminate]. injection LK as <- <-. cbn [jl with_jl with_last with_ids] in Hj.
      eapply Permutation_in in Hj; [|apply past_stopped_perm]. destruct Hj as [<-|Hj]; [cbn in Nj; congruence|].
      apply unlink_In in Hj. tauto.
  - apply evo_evon. unfold exchild_start in E. destruct (lastj s) as [i|]; [|discriminate].
    pose proof (startjob_evo i s) as E1. destruct bg; [|injection E as <-; exact E1].
    destruct (set_async_inv h _ q i s' (Inv_startjob h s q i HI) E) as [_ D].
    eapply evo_trans; [exact E1|apply drop_evo, D].
  - apply evo_evon. unfold startlast. destruct (lastj s) as [i|]; [|apply evo_refl].
    eapply evo_trans; [|apply startjob_evo]. eapply evo_upd; [reflexivity|]; intros; unfold same3; cbn; auto.
  - apply evo_evon. eapply evo_upd; [reflexivity|]; intros; unfold same3; cbn; auto.
  - apply evo_evon. eapply evo_upd; [reflexivity|]; intros; unfold same3; cbn; auto.
  - apply evo_evon. eapply waitj_end_evo, E.
  - apply evo_evon. destruct (resume_inv h s q i bg s' HI E) as [s1 [I1 [P [_ [C _]]]]].
    assert (E1 : evo true s s1).
    { intros k Hk. eapply Permutation_in in Hk; [|exact P]. apply upd_In in Hk.
      destruct Hk as [j [Hj [[X ->]|[X ->]]]].
      - pose proof (in_ji _ _ _ HI) as J. rewrite Forall_forall in J.
        destruct (resumed_fin _ _ _ (J j Hj)) as [A B]. exists j. split; [exact Hj|]. split; [|auto].
        unfold resumed. cbv zeta. destruct (existsb _ _); reflexivity.
      - exists j. unfold same3. auto 10. }
    destruct C as [D|[[B1 _]| ->]].
    + eapply evo_trans; [exact E1|apply drop_evo, D].
    + eapply evo_trans; [exact E1|]. eapply evo_upd; [exact B1|]; intros; unfold same3; cbn; auto.
    + apply evo_refl.
  - apply evo_evon. unfold j_notify. eapply evo_trans; [|apply evo_marked].
    apply evo_map. intros j. destruct (mon s && f_changed (j_fl j)); cbv zeta;
      match goal with |- context [if finished ?x then _ else _] => destruct (finished x) end; unfold same3; cbn; auto.
  - apply evo_evon. unfold j_jobs. eapply evo_trans; [|apply evo_marked].
    apply evo_map. intros j; destruct (_ && _ && _); [|unfold same3; auto]; destruct b; cbv zeta;
      match goal with |- context [if finished ?x then _ else _] => destruct (finished x) end; unfold same3; cbn; auto.
  - apply evo_evon. unfold j_async in E. injection E as <- _. destruct (asyncj s) as [k|]; [|apply evo_refl].
    eapply evo_upd; [reflexivity|]; intros; unfold same3; cbn; auto.
  - apply evo_evon, evo_sub. auto.
  - apply evo_evon, evo_sub. auto.
  - apply evo_evon. unfold j_sigchld in E. destruct (existsb _ (jl s)) eqn:X.
    + injection E as <- _. apply evo_weak, evo_sub. auto.
    + apply started_iff in X. injection E as <- _.
      pose proof (reaps_evo h order s (Inv_permq _ _ _ _ (Permutation_sym PM) HI) X) as E1.
      intros k Hk. apply E1. exact Hk.
Qed.

(** * A job that is waited for is not removed by the handler *)
Definition has_wait (i : nat) (l : list job) : Prop :=
  exists j, get l i = Some j /\ f_waiting (j_fl j) = true.

Lemma after_check_wait i k s : NoDup (ids (jl s)) -> has_wait i (jl s) ->
  has_wait i (jl (after_check k s)) /\ NoDup (ids (jl (after_check k s))).
Proof.
  intros N W. unfold after_check. destruct (get (jl s) k) as [j|] eqn:G; [|auto].
  set (P := fun s' : jst => has_wait i (jl s') /\ NoDup (ids (jl s'))
            /\ (forall x, get (jl s') k = Some x -> f_waiting (j_fl x) = f_waiting (j_fl j))).
  assert (P0 : P s).
  { split; [exact W|]. split; [exact N|]. intros x X. congruence. }
  assert (PU : forall s' f, P s' -> (forall x, j_id (f x) = j_id x) ->
     (forall x, f_waiting (j_fl (f x)) = f_waiting (j_fl x)) -> P (with_jl s' (upd k f (jl s')))).
  { intros s' f [[x [X1 X2]] [N' M]] F1 F2. split; [|split].
    - destruct (Nat.eq_dec i k) as [->|NE].
      + exists (f x). split; [apply get_upd; auto|rewrite F2; exact X2].
      + exists x. split; [|exact X2]. cbn. rewrite get_upd_ne; auto.
    - cbn. rewrite upd_ids by exact F1. exact N'.
    - intros y Hy. cbn in Hy. destruct (get (jl s') k) as [z|] eqn:Gz.
      + rewrite (get_upd k f _ _ F1 Gz) in Hy. injection Hy as <-. rewrite F2. auto.
      + apply get_In in Hy. destruct Hy as [Hy Ey]. exfalso. apply (get_None _ _ Gz).
        rewrite <- (upd_ids k f _ F1). apply in_map_iff. exists y. auto. }
  assert (PP : forall s', P s' -> P (with_jl s' (reput true k (jl s')))).
  { intros s' [[x [X1 X2]] [N' M]]. pose proof (reput_perm true k _ N') as PM. apply Permutation_sym in PM. split; [|split].
    - exists x. split; [|exact X2]. cbn. rewrite (get_perm (jl s')); auto.
    - cbn. eapply Permutation_NoDup; [apply Permutation_map, PM|exact N'].
    - intros y Hy. cbn in Hy. rewrite (get_perm (jl s')) in Hy; auto. }
  assert (PR : forall s', P s' -> f_waiting (j_fl j) = false -> P (remove_job k s')).
  { intros s' [[x [X1 X2]] [N' M]] F. split; [|split].
    - exists x. split; [|exact X2]. rewrite remove_jl, get_unlink.
      destruct (Nat.eqb_spec i k) as [->|NE]; [|exact X1]. specialize (M x X1). congruence.
    - rewrite remove_jl. apply NoDup_map_filter, N'.
    - intros y Hy. rewrite remove_jl, get_unlink, Nat.eqb_refl in Hy. discriminate. }
  set (s1 := if mon s && _ then _ else s).
  assert (P1 : P s1).
  { subst s1. destruct (mon s && _); [|exact P0].
    set (s2 := if pstate_eqb _ _ then _ else s).
    assert (P2 : P s2) by (subst s2; destruct (pstate_eqb _ _); auto).
    destruct (notif s2 && _); [|exact P2].
    destruct (negb (f_waiting (j_fl j)) && _) eqn:C.
    - apply andb_prop in C. destruct C as [C _]. apply negb_true_iff in C. apply PR; [|exact C]. apply PU; auto.
    - apply PU; auto. }
  destruct (negb (mon s1) && negb (f_waiting (j_fl j) || f_fg (j_fl j)) && _) eqn:C; [|split; apply P1].
  apply andb_prop in C. destruct C as [C _]. apply andb_prop in C. destruct C as [_ C].
  apply negb_true_iff, orb_false_iff in C. destruct C as [C _].
  destruct (_ || f_known (j_fl j)).
  - destruct (PU s1 (fun j => jnum (jfl j (set_zombie (j_fl j))) (-1)) P1) as [X [Y _]]; auto.
  - destruct (PR s1 P1 C) as [X [Y _]]. auto.
Qed.

Lemma reap_wait i s e : NoDup (ids (jl s)) -> has_wait i (jl s) ->
  has_wait i (jl (reap s e)) /\ NoDup (ids (jl (reap s e))).
Proof.
  intros N W. unfold reap. destruct (find _ (jl s)) as [j|]; [|auto].
  assert (U : forall s' f, (has_wait i (jl s') /\ NoDup (ids (jl s'))) -> (forall x, j_id (f x) = j_id x) ->
    (forall x, f_waiting (j_fl (f x)) = f_waiting (j_fl x)) ->
    has_wait i (upd (j_id j) f (jl s')) /\ NoDup (ids (upd (j_id j) f (jl s')))).
  { intros s' f [[x [X1 X2]] N'] F1 F2. split.
    - destruct (Nat.eq_dec i (j_id j)) as [->|NE].
      + exists (f x). split; [apply get_upd; auto|rewrite F2; exact X2].
      + exists x. split; [|exact X2]. rewrite get_upd_ne; auto.
    - rewrite upd_ids by exact F1. exact N'. }
  set (s1 := with_jl s _).
  assert (W1 : has_wait i (jl s1) /\ NoDup (ids (jl s1))) by (apply U; auto).
  unfold check_job. destruct (get (jl s1) (j_id j)) as [k|]; [|exact W1].
  destruct (f_started (j_fl k)); [|exact W1]. destruct (job_state PRun (j_procs k)) as [st|]; [|exact W1].
  set (s2 := with_jl s1 _).
  assert (W2 : has_wait i (jl s2) /\ NoDup (ids (jl s2))) by (apply U; auto).
  destruct W2. apply after_check_wait; assumption.
Qed.
Lemma reaps_wait i q : forall s, NoDup (ids (jl s)) -> has_wait i (jl s) -> has_wait i (jl (fold_left reap q s)).
Proof.
  induction q as [|e q IH]; intros s N W; cbn; [exact W|]. destruct (reap_wait i s e N W). auto.
Qed.

(** * A job that is never started *)
Definition stuck (i : nat) (s : jst) : Prop :=
  (exists j, In j (jl s) /\ j_id j = i /\ f_started (j_fl j) = false) /\ lastj s <> Some i.

Lemma stuck_keeps i s s' : stuck i s -> keeps s s' -> (lastj s' = lastj s \/ lastj s' = None) -> stuck i s'.
Proof.
  intros [[j [A [B C]]] L] [K _] E. split.
  - destruct (K j A C) as [j' [X [Y Z]]]. exists j'. split; [exact X|]. split; [congruence|exact Z].
  - destruct E as [-> | ->]; [exact L|discriminate].
Qed.

Definition lastle (s s' : jst) : Prop := lastj s' = lastj s \/ lastj s' = None.
Lemma lastle_trans a b c : lastle a b -> lastle b c -> lastle a c.
Proof. unfold lastle. intros [A|A] [B|B]; rewrite B; auto. Qed.
Lemma lastle_remove i s : lastle s (remove_job i s).
Proof.
  unfold lastle, remove_job. destruct (get (jl s) i); [|auto]. cbn. destruct (lastj s) as [k|]; cbn; [|auto].
  destruct (Nat.eqb k i); auto.
Qed.
Lemma lastle_drop n : forall s s', drop_zombies n s = Some s' -> lastle s s'.
Proof.
  induction n as [|n IH]; intros s s' E; cbn in E; [discriminate|].
  destruct (Z.ltb _ _); [|injection E as <-; left; reflexivity].
  destruct (older None (asyncj s) (jl s)) as [o|].
  - eapply lastle_trans; [apply lastle_remove|apply IH, E].
  - injection E as <-. destruct (_ || _); left; reflexivity.
Qed.
Lemma lastle_async i s s' : j_set_async i s = Some s' -> lastle s s'.
Proof.
  intros E. unfold j_set_async in E. set (s1 := match asyncj s with Some k => _ | None => s end) in E.
  assert (L1 : lastle s s1).
  { subst s1. destruct (asyncj s) as [k|]; [|left; reflexivity]. destruct (get (jl s) k) as [a|]; [|left; reflexivity].
    destruct (_ && _); [apply lastle_remove|left; reflexivity]. }
  destruct (get (jl s1) i) as [j|]; [|injection E as <-; exact L1].
  destruct (f_started (j_fl j)); [|injection E as <-; exact L1].
  apply lastle_drop in E. eapply lastle_trans; [exact L1|]. exact E.
Qed.
Lemma lastle_marked s : lastle s (remove_marked s).
Proof.
  unfold remove_marked. generalize (jl s) as l. intros l. revert s. induction l as [|j l IH]; intros s; cbn; [left; reflexivity|].
  eapply lastle_trans; [|apply IH]. destruct (f_remove (j_fl j)); [apply lastle_remove|left; reflexivity].
Qed.

Lemma startjob_stuck i k s : stuck i s -> k <> i -> stuck i (j_startjob k s).
Proof.
  intros [[j [A [B C]]] L] N. unfold j_startjob. set (s1 := with_jl s _).
  assert (S1 : stuck i s1).
  { split; [|exact L]. exists j. split; [|auto]. unfold s1, upd. cbn. apply in_map_iff. exists j. split; [|exact A].
    unfold is_id. destruct (Nat.eqb_spec (j_id j) k); [congruence|reflexivity]. }
  destruct (held s1); exact S1.
Qed.

Lemma step_stuck i h s a s' : RI h s -> stuck i (sh s) -> step false h s a s' ->
  stuck i (sh s')
  /\ (forall x, In x (map fst (kq s)) -> In x (map fst (kq s')))
  /\ (forall k, In k (jl (sh s')) -> finished k = true ->
        exists j, In j (jl (sh s)) /\ j_id j = j_id k /\ finished j = true).
Proof.
  intros HR SK ST. pose proof (step_evo _ _ _ _ HR ST) as EV. destruct HR as [HI HH HS].
  assert (EV' : (match a with ASig _ => jl (sh s') = jl (sh s) | _ => True end) ->
     forall k, In k (jl (sh s')) -> finished k = true ->
        exists j, In j (jl (sh s)) /\ j_id j = j_id k /\ finished j = true).
  { intros X k Hk F. destruct (EV k Hk) as [[F' _]|[j [J1 [J2 [J3 J4]]]]]; [congruence|].
    destruct a; try (exists j; auto; fail). rewrite X in Hk. exists k. auto. }
  assert (Q3 : stuck i (sh s') /\ (forall x, In x (map fst (kq s)) -> In x (map fst (kq s'))) /\
     (match a with ASig _ => jl (sh s') = jl (sh s) | _ => True end)).
  2:{ destruct Q3 as [A [B C]]. auto. }
  clear EV EV'. destruct ST as
    [s q cont xx bg pid cmd s' NL NQ NR HC E|s q cont xx bg s' HC E|s q bg s' E|s q|s q k b|s q k|s q k b rv s' E
    |s q k bg s' E|s q|s q w b c d|s q s' pid E|s q m n p|s q pid w LV|s q order s' q' R PM E]; cbn [sh kq] in *;
    (split; [|split; [try (auto; fail)|try exact I]]).
  - destruct SK as [[j [A [B C]]] L]. unfold exchild_fork in E.
    destruct (link_proc _ _ _ _ s) as [[k s1]|] eqn:LK; [|discriminate]. injection E as <-.
    assert (S1 : stuck i s1).
    { unfold link_proc in LK. destruct cont.
      - destruct (lastj s) as [k0|] eqn:Lk; [|discriminate]. injection LK as <- <-. split; [|cbn; congruence].
        exists j. split; [|auto]. cbn. unfold upd. apply in_map_iff. exists j. split; [|exact A].
        unfold is_id. destruct (Nat.eqb_spec (j_id j) k0); [congruence|reflexivity].
      - destruct (new_num _ _ _); [|discriminate]. injection LK as <- <-.
        pose proof (li_lt _ _ (in_li _ _ _ HI) (kof j) (in_map kof _ _ A)) as Lj. cbn in Lj. split.
        + exists j. split; [|auto]. cbn [jl with_jl with_last with_ids].
          eapply Permutation_in; [apply Permutation_sym, past_stopped_perm|]. right. apply unlink_In. split; [exact A|]. cbn. lia.
        + cbn. intros X. injection X as X. lia. }
    eapply stuck_keeps; [exact S1| |left; reflexivity].
    eapply keeps_upd; try reflexivity; intros x; cbv beta; destruct (mon s1 && negb xx && Z.eqb (j_pgrp x) 0); reflexivity.
  - destruct SK as [[j [A [B C]]] L]. unfold exchild_fail in E.
    destruct (link_proc _ _ _ _ s) as [[k s1]|] eqn:LK; [|discriminate]. injection E as <-.
    assert (S1 : stuck i s1 /\ k <> i).
    { unfold link_proc in LK. destruct cont.
      - destruct (lastj s) as [k0|] eqn:Lk; [|discriminate]. injection LK as <- <-. split; [|congruence]. split; [|cbn; congruence].
        exists j. split; [|auto]. cbn. unfold upd. apply in_map_iff. exists j. split; [|exact A].
        unfold is_id. destruct (Nat.eqb_spec (j_id j) k0); [congruence|reflexivity].
      - destruct (new_num _ _ _); [|discriminate]. injection LK as <- <-.
        pose proof (li_lt _ _ (in_li _ _ _ HI) (kof j) (in_map kof _ _ A)) as Lj. cbn in Lj. split; [split|lia].
        + exists j. split; [|auto]. cbn [jl with_jl with_last with_ids].
          eapply Permutation_in; [apply Permutation_sym, past_stopped_perm|]. right. apply unlink_In. split; [exact A|]. cbn. lia.
        + cbn. intros X. injection X as X. lia. }
    destruct S1 as [[[x [X1 [X2 X3]]] L1] NK]. split.
    + exists x. split; [|auto]. rewrite remove_jl. apply unlink_In. split; [exact X1|congruence].
    + destruct (lastle_remove k s1) as [-> | ->]; [exact L1|discriminate].
  - unfold exchild_start in E. destruct (lastj s) as [k|] eqn:Lk; [|discriminate].
    assert (NK : k <> i) by (destruct SK as [_ L]; congruence).
    pose proof (startjob_stuck i k s SK NK) as S1. destruct bg; [|injection E as <-; exact S1].
    pose proof (Inv_startjob h s q k HI) as I1.
    eapply stuck_keeps; [exact S1| |eapply lastle_async; exact E].
    eapply keeps_drop; [exact I1|]. apply (set_async_inv h _ q k s' I1 E).
  - unfold startlast. destruct (lastj s) as [k|] eqn:Lk; [|exact SK].
    assert (NK : k <> i) by (destruct SK as [_ L]; congruence).
    apply startjob_stuck; [|exact NK]. eapply stuck_keeps; [exact SK|eapply keeps_upd; reflexivity|left; reflexivity].
  - eapply stuck_keeps; [exact SK|eapply keeps_upd; reflexivity|left; reflexivity].
  - eapply stuck_keeps; [exact SK|eapply keeps_upd; reflexivity|left; reflexivity].
  - eapply stuck_keeps; [exact SK|apply (waitj_end_inv h s q k b rv s' HI E)|].
    unfold waitj_end in E. destruct (get (jl s) k) as [j|]; [|discriminate].
    destruct (waitj_waits (mon s) j); [discriminate|].
    set (s1 := with_jl s _) in E. set (s2 := if negb b && _ then _ else s1) in E.
    assert (L2 : lastle s s2) by (subst s2; destruct (negb b && _); left; reflexivity). clearbody s2.
    injection E as _ <-. destruct (negb _ && _); [|exact L2]. eapply lastle_trans; [exact L2|apply lastle_remove].
  - eapply stuck_keeps; [exact SK|apply (resume_keeps h s q k bg s' HI E)|].
    unfold j_resume in E. destruct (get (jl s) k) as [j|]; [|injection E as <-; auto].
    destruct (Z.eqb _ 0); [injection E as <-; auto|]. destruct bg.
    + apply lastle_async in E. exact E.
    + injection E as <-. left. reflexivity.
  - unfold j_notify.
    match goal with |- stuck i (remove_marked (with_jl s (map ?g (jl s)))) =>
      assert (K : keeps s (with_jl s (map g (jl s)))) by
        (apply keeps_map; intros j; destruct (mon s && f_changed (j_fl j)); cbv zeta;
          match goal with |- context [if finished ?x then _ else _] => destruct (finished x) end; reflexivity);
      assert (I1 : Inv h (with_jl s (map g (jl s))) q) by
        (apply Inv_map; [exact HI| |];
         [intros j; destruct (mon s && f_changed (j_fl j)); cbv zeta;
             match goal with |- context [if finished ?x then _ else _] => destruct (finished x) end; reflexivity
         |intros j J; destruct (mon s && f_changed (j_fl j)); cbv zeta;
             match goal with |- context [if finished ?x then _ else _] => destruct (finished x) eqn:F end;
             auto using JI_changed, JI_remove]) end.
    eapply stuck_keeps; [eapply stuck_keeps; [exact SK|exact K|left; reflexivity]|eapply keeps_marked; exact I1|apply lastle_marked].
  - unfold j_jobs.
    match goal with |- stuck i (remove_marked (with_jl s (map ?g (jl s)))) =>
      assert (K : keeps s (with_jl s (map g (jl s)))) by
        (apply keeps_map; intros j; destruct (_ && _ && _); try reflexivity; destruct b; cbv zeta;
          match goal with |- context [if finished ?x then _ else _] => destruct (finished x) end; reflexivity);
      assert (I1 : Inv h (with_jl s (map g (jl s))) q) by
        (apply Inv_map; [exact HI| |];
         [intros j; destruct (_ && _ && _); try reflexivity; destruct b; cbv zeta;
             match goal with |- context [if finished ?x then _ else _] => destruct (finished x) end; reflexivity
         |intros j J; destruct (_ && _ && _); [|exact J]; destruct b; cbv zeta;
             match goal with |- context [if finished ?x then _ else _] => destruct (finished x) eqn:F end;
             auto using JI_changed, JI_remove]) end.
    eapply stuck_keeps; [eapply stuck_keeps; [exact SK|exact K|left; reflexivity]|eapply keeps_marked; exact I1|apply lastle_marked].
  - unfold j_async in E. injection E as <- _. destruct (asyncj s) as [k|]; [|exact SK].
    eapply stuck_keeps; [exact SK|eapply keeps_upd; reflexivity|left; reflexivity].
  - exact SK.
  - exact SK.
  - intros x Hx. apply push_fst. auto.
  - unfold j_sigchld in E. destruct (existsb _ (jl s)) eqn:X.
    + injection E as <- <-. exact SK.
    + exfalso. apply started_iff in X. unfold allst in X. rewrite Forall_forall in X.
      destruct SK as [[j [A [_ C]]] _]. specialize (X j A). congruence.
  - unfold j_sigchld in E. destruct (existsb _ (jl s)) eqn:X.
    + injection E as <- <-. intros x Hx. eapply Permutation_in; [apply Permutation_map, Permutation_sym, PM|exact Hx].
    + exfalso. apply started_iff in X. unfold allst in X. rewrite Forall_forall in X.
      destruct SK as [[j [A [_ C]]] _]. specialize (X j A). congruence.
  - unfold j_sigchld in E. destruct (existsb _ (jl s)) eqn:X.
    + injection E as <- <-. reflexivity.
    + exfalso. apply started_iff in X. unfold allst in X. rewrite Forall_forall in X.
      destruct SK as [[j [A [_ C]]] _]. specialize (X j A). congruence.
Qed.

(** * Jobs leave the list only when all their processes have ended *)
Definition kept (h : list act) (s s' : jst) : Prop :=
  forall k, In k (ids (jl s)) -> In k (ids (jl s')) \/ done h k.
Lemma kept_refl h s s' : ids (jl s') = ids (jl s) -> kept h s s'.
Proof. intros E k Hk. left. rewrite E. exact Hk. Qed.
Lemma kept_trans h a b c : kept h a b -> kept h b c -> kept h a c.
Proof. intros A B k Hk. destruct (A k Hk) as [X|X]; auto. Qed.
Lemma kept_remove h q s i : Inv h s q -> (forall j, get (jl s) i = Some j -> finished j = true) ->
  kept h s (remove_job i s).
Proof.
  intros H F k Hk. destruct (Nat.eq_dec k i) as [->|N].
  - right. destruct (In_ids_get _ _ Hk) as [j G]. pose proof (get_last_In _ _ _ _ _ H G) as J.
    destruct (get_In _ _ _ G) as [_ <-]. apply (done_fin h q); auto.
  - left. rewrite remove_jl. apply ids_unlink; auto.
Qed.
Lemma kept_drop h q s s' : Inv h s q -> drop_rel s s' -> kept h s s'.
Proof.
  intros H [_ [D _]] k Hk. destruct (In_ids_get _ _ Hk) as [j G]. pose proof (get_last_In _ _ _ _ _ H G) as J.
  destruct (get_In _ _ _ G) as [G1 <-]. destruct (f_zombie (j_fl j)) eqn:Z.
  - right. apply (done_fin h q); [exact J|]. apply (ji_z _ _ _ J Z).
  - left. apply in_map, D; auto.
Qed.
Lemma kept_fold h q : forall l s, Inv h s q ->
  (forall j, In j l -> f_remove (j_fl j) = true -> forall k, get (jl s) (j_id j) = Some k -> finished k = true) ->
  kept h s (fold_left (fun s j => if f_remove (j_fl j) then remove_job (j_id j) s else s) l s).
Proof.
  induction l as [|j l IH]; intros s H F; cbn; [apply kept_refl; reflexivity|].
  destruct (f_remove (j_fl j)) eqn:R.
  - eapply kept_trans; [eapply kept_remove; [exact H|]|apply IH].
    + apply (F j); [left; reflexivity|exact R].
    + apply Inv_remove, H.
    + intros x Hx Rx k G. rewrite remove_jl, get_unlink in G.
      destruct (Nat.eqb (j_id x) (j_id j)); [discriminate|]. apply (F x); [right; exact Hx|exact Rx|exact G].
  - apply IH; [exact H|]. intros x Hx. apply F. right. exact Hx.
Qed.
Lemma kept_marked h q s : Inv h s q -> kept h s (remove_marked s).
Proof.
  intros H. apply (kept_fold h q); [exact H|]. intros j Hj R k G.
  rewrite (In_get _ _ (Inv_ids _ _ _ H) Hj) in G. injection G as <-.
  pose proof (in_ji _ _ _ H) as HJ. rewrite Forall_forall in HJ. apply (ji_rm _ _ _ (HJ j Hj) R).
Qed.
Lemma kept_map h s g : (forall j, j_id (g j) = j_id j) -> kept h s (with_jl s (map g (jl s))).
Proof.
  intros E. apply kept_refl. cbn. unfold ids. rewrite map_map. apply map_ext, E.
Qed.

Lemma step_kept h s a s' : RI h s -> step false h s a s' ->
  forall k, In k (ids (jl (sh s))) ->
  In k (ids (jl (sh s'))) \/ done (a :: h) k \/ (lastj (sh s) = Some k /\ exists xx bg, a = AFail true xx bg).
Proof.
  intros [HI HH HS] ST. destruct ST as
    [s q cont xx bg pid cmd s' NL NQ NR HC E|s q cont xx bg s' HC E|s q bg s' E|s q|s q i b|s q i|s q i b rv s' E
    |s q i bg s' E|s q|s q w b c d|s q s' pid E|s q m n p|s q pid w LV|s q order s' q' R PM E]; cbn [sh kq] in *;
    intros k Hk.
  - left. unfold exchild_fork in E. destruct (link_proc _ _ _ _ s) as [[i s1]|] eqn:LK; [|discriminate]. injection E as <-.
    unfold set_pid. cbn [jl with_jl]. apply ids_upd_in; [intros x; destruct (mon s1 && negb xx && Z.eqb (j_pgrp x) 0); reflexivity|].
    unfold link_proc in LK. destruct cont.
    + destruct (lastj s) as [k0|]; [|discriminate]. injection LK as <- <-. cbn [jl with_jl]. apply ids_upd_in; [reflexivity|exact Hk].
    + destruct (new_num _ _ _); [|discriminate]. injection LK as <- <-. cbn [jl with_jl with_last with_ids].
      eapply Permutation_in; [apply Permutation_map, Permutation_sym, past_stopped_perm|]. right. apply ids_unlink; [exact Hk|].
      cbn [j_id]. apply in_map_iff in Hk. destruct Hk as [x [<- Hx]].
      pose proof (li_lt _ _ (in_li _ _ _ HI) (kof x) (in_map kof _ _ Hx)) as Lj. cbn in Lj. lia.
  - unfold exchild_fail in E. destruct (link_proc _ _ _ _ s) as [[i s1]|] eqn:LK; [|discriminate]. injection E as <-.
    unfold link_proc in LK. destruct cont.
    + destruct (lastj s) as [k0|]; [|discriminate]. injection LK as <- <-. destruct (Nat.eq_dec k k0) as [->|N]; [right; right; split; [reflexivity|]; exists xx, bg; reflexivity|].
      left. rewrite remove_jl. apply ids_unlink; [|exact N]. cbn [jl with_jl]. apply ids_upd_in; [reflexivity|exact Hk].
    + destruct (new_num _ _ _); [|discriminate]. injection LK as <- <-. left. rewrite remove_jl. cbn [jl with_jl with_last with_ids].
      assert (NE : k <> nid s).
      { apply in_map_iff in Hk. destruct Hk as [x [<- Hx]].
        pose proof (li_lt _ _ (in_li _ _ _ HI) (kof x) (in_map kof _ _ Hx)) as Lj. cbn in Lj. lia. }
      apply ids_unlink; [|exact NE].
      eapply Permutation_in; [apply Permutation_map, Permutation_sym, past_stopped_perm|]. right. apply ids_unlink; [exact Hk|exact NE].
  - unfold exchild_start in E. destruct (lastj s) as [i|]; [|discriminate].
    assert (K1 : In k (ids (jl (j_startjob i s)))).
    { unfold j_startjob. set (s1 := with_jl s _).
      assert (X : In k (ids (jl s1))) by (unfold s1; cbn [jl with_jl]; apply ids_upd_in; [reflexivity|exact Hk]).
      destruct (held s1); exact X. }
    destruct bg; [|injection E as <-; auto].
    pose proof (Inv_startjob h s q i HI) as I1.
    destruct (kept_drop h q _ _ I1 (proj2 (set_async_inv h _ q i s' I1 E)) k K1) as [X|X]; [left; exact X|right; left; exact X].
  - left. unfold startlast. destruct (lastj s) as [i|]; [|exact Hk]. unfold j_startjob. set (s1 := with_jl s _). set (s2 := with_jl s1 _).
    assert (X : In k (ids (jl s2))).
    { unfold s2, s1. cbn [jl with_jl]. apply ids_upd_in; [reflexivity|]. apply ids_upd_in; [reflexivity|exact Hk]. }
    destruct (held s2); exact X.
  - left. unfold waitj_begin. cbn [jl with_jl]. apply ids_upd_in; [reflexivity|exact Hk].
  - left. unfold waitj_intr. cbn [jl with_jl]. apply ids_upd_in; [reflexivity|exact Hk].
  - unfold waitj_end in E. destruct (get (jl s) i) as [j|] eqn:G; [|discriminate].
    destruct (waitj_waits (mon s) j) eqn:W; [discriminate|].
    set (f1 := fun j => jfl j (set_fg _ _)) in E. set (f2 := fun j => jfl j (set_changed _ _)) in E.
    set (s1 := with_jl s (upd i f1 (jl s))) in E. set (s2 := if negb b && _ then _ else s1) in E.
    assert (I1 : Inv h s1 q) by apply Inv_fgw, HI.
    assert (X2 : Inv h s2 q /\ In k (ids (jl s2)) /\ (forall x, get (jl s2) i = Some x -> finished x = finished j)).
    { assert (G1 : get (jl s1) i = Some (f1 j)) by (apply get_upd; [reflexivity|exact G]).
      assert (K1 : In k (ids (jl s1))) by (unfold s1; cbn [jl with_jl]; apply ids_upd_in; [reflexivity|exact Hk]).
      subst s2. destruct (negb b && _).
      - split; [apply Inv_changed, I1|]. split; [cbn [jl with_jl]; apply ids_upd_in; [reflexivity|exact K1]|].
        intros x Gx. cbn [jl with_jl] in Gx. rewrite (get_upd i f2 _ _ ltac:(reflexivity) G1) in Gx. injection Gx as <-. reflexivity.
      - split; [exact I1|]. split; [exact K1|]. intros x Gx. rewrite G1 in Gx. injection Gx as <-. reflexivity. }
    destruct X2 as [I2 [K2 F2]]. clearbody s2. injection E as _ <-.
    destruct (negb (pstate_eqb (j_state j) PStop) && _) eqn:C; [|auto].
    apply andb_prop in C. destruct C as [C _].
    destruct (kept_remove h q s2 i I2) with (k := k) as [X|X]; [|exact K2|left; exact X|right; left; exact X].
    intros x Gx. rewrite (F2 x Gx). unfold waitj_waits in W. unfold finished. destruct (j_state j); cbn in *; congruence.
  - destruct (resume_inv h s q i bg s' HI E) as [s1 [I1 [P1 [_ [D _]]]]].
    assert (K1 : In k (ids (jl s1))).
    { eapply Permutation_in; [apply Permutation_map, Permutation_sym, P1|].
      change (In k (ids (upd i resumed (jl s)))). apply ids_upd_in; [|exact Hk].
      intros x; unfold resumed; cbv zeta; destruct (existsb _ (j_procs x)); reflexivity. }
    destruct D as [D|[[D _]|D]].
    + destruct (kept_drop h q _ _ I1 D k K1) as [X|X]; [left; exact X|right; left; exact X].
    + left. rewrite D. apply ids_upd_in; [reflexivity|exact K1].
    + left. rewrite D. exact Hk.
  - unfold j_notify. set (s1 := with_jl s _).
    assert (X : Inv h s1 q /\ In k (ids (jl s1))).
    { split; [|unfold s1; cbn [jl with_jl]; unfold ids; rewrite map_map; apply in_map_iff in Hk; destruct Hk as [x [<- Hx]];
        apply in_map_iff; exists x; split; [|exact Hx]; destruct (mon s && f_changed (j_fl x)); cbv zeta;
        match goal with |- context [if finished ?x then _ else _] => destruct (finished x) end; reflexivity].
      apply Inv_map; [exact HI| |].
      - intros j. destruct (mon s && f_changed (j_fl j)); cbv zeta;
          match goal with |- context [if finished ?x then _ else _] => destruct (finished x) end; reflexivity.
      - intros j J. destruct (mon s && f_changed (j_fl j)); cbv zeta;
          match goal with |- context [if finished ?x then _ else _] => destruct (finished x) eqn:F end;
          auto using JI_changed, JI_remove. }
    destruct X as [I1 K1]. destruct (kept_marked h q s1 I1 k K1) as [X|X]; [left; exact X|right; left; exact X].
  - unfold j_jobs. set (s1 := with_jl s _).
    assert (X : Inv h s1 q /\ In k (ids (jl s1))).
    { split; [|unfold s1; cbn [jl with_jl]; unfold ids; rewrite map_map; apply in_map_iff in Hk; destruct Hk as [x [<- Hx]];
        apply in_map_iff; exists x; split; [|exact Hx]; destruct (_ && _ && _); try reflexivity; destruct b; cbv zeta;
        match goal with |- context [if finished ?x then _ else _] => destruct (finished x) end; reflexivity].
      apply Inv_map; [exact HI| |].
      - intros j. destruct (_ && _ && _); [|reflexivity]. destruct b; cbv zeta;
          match goal with |- context [if finished ?x then _ else _] => destruct (finished x) end; reflexivity.
      - intros j J. destruct (_ && _ && _); [|exact J]. destruct b; cbv zeta;
          match goal with |- context [if finished ?x then _ else _] => destruct (finished x) eqn:F end;
          auto using JI_changed, JI_remove. }
    destruct X as [I1 K1]. destruct (kept_marked h q s1 I1 k K1) as [X|X]; [left; exact X|right; left; exact X].
  - left. unfold j_async in E. injection E as <- _. destruct (asyncj s) as [i|]; [|exact Hk].
    cbn [jl with_jl]. apply ids_upd_in; [reflexivity|exact Hk].
  - left. exact Hk.
  - left. exact Hk.
  - unfold j_sigchld in E. destruct (existsb _ (jl s)) eqn:X; injection E as <- <-; [left; exact Hk|].
    apply started_iff in X. pose proof (Inv_permq h s q order (Permutation_sym PM) HI) as HI2.
    destruct (reaps_kept h order s HI2 X k Hk) as [Y|Y]; [left; exact Y|right; left; exact Y].
Qed.

(** * The list order *)
Lemma past_stopped_split j l : exists a b, l = a ++ b /\ past_stopped j l = a ++ j :: b
  /\ Forall (fun k => j_state k = PStop) a /\ (forall k, hd_error b = Some k -> j_state k <> PStop).
Proof.
  induction l as [|c l [a [b [E1 [E2 [E3 E4]]]]]]; cbn.
  - exists [], []. cbn. repeat split; auto; try discriminate.
  - unfold pstate_eqb. destruct (Nat.eqb (pord (j_state c)) (pord PStop)) eqn:S.
    + exists (c :: a), b. rewrite E1 at 1. rewrite E2. repeat split; auto.
      constructor; [|exact E3]. destruct (j_state c); cbn in S; congruence.
    + exists [], (c :: l). cbn. repeat split; auto. intros k X. injection X as <-. intros Y. rewrite Y in S. discriminate.
Qed.
Lemma unlink_mid a j b : NoDup (ids (a ++ j :: b)) -> unlink (j_id j) (a ++ j :: b) = a ++ b.
Proof.
  intros N. unfold ids in N. rewrite map_app in N. cbn in N. pose proof (NoDup_remove_2 _ _ _ N) as X. rewrite in_app_iff in X.
  unfold unlink. rewrite filter_app. cbn [filter]. unfold is_id at 2. rewrite Nat.eqb_refl. cbn [negb].
  assert (K : forall l, ~ In (j_id j) (map j_id l) -> filter (fun k => negb (is_id (j_id j) k)) l = l) by (intros l; apply unlink_absent).
  rewrite !K by tauto. reflexivity.
Qed.

Definition others (i : nat) (l : list nat) : list nat := filter (fun k => negb (Nat.eqb k i)) l.
Lemma ids_unlink_eq i l : map j_id (unlink i l) = others i (map j_id l).
Proof.
  unfold unlink, others. induction l as [|a l IH]; cbn; [reflexivity|]. unfold is_id at 1.
  destruct (Nat.eqb (j_id a) i); cbn; rewrite IH; reflexivity.
Qed.
Lemma job_state_stop ps : (forall p, In p ps -> p_state p <> PRun) -> (exists p, In p ps /\ p_state p = PStop) ->
  job_state PRun ps = Some PStop.
Proof.
  intros A [p [B C]]. destruct (job_state PRun ps) as [st|] eqn:E.
  - apply job_state_some in E. destruct E as [E _]. cbn [pord] in E.
    pose proof (fold_max_le _ p 0 B) as L. rewrite <- E, C in L. destruct st; cbn in L; try lia. reflexivity.
  - apply job_state_none in E. destruct E as [x [X Y]]. destruct (A x X Y).
Qed.
Lemma reap_stop h s pid n q j : Inv h s ((pid, WStop n) :: q) -> allst s -> mon s = true ->
  In j (jl s) -> In pid (map p_pid (j_procs j)) -> f_xxcom (j_fl j) = false ->
  (forall p, In p (j_procs j) -> p_pid p <> pid -> p_state p <> PRun) ->
  exists k r, jl (reap s (pid, WStop n)) = k :: r /\ j_id k = j_id j /\ j_state k = PStop
    /\ map j_id r = others (j_id j) (map j_id (jl s)).
Proof.
  intros H AS M Hj Hp X R. pose proof (Inv_ids _ _ _ H) as N. unfold reap. cbn [fst snd].
  assert (NP : NoDup (flat_map (fun j => map p_pid (j_procs j)) (jl s)))
    by (rewrite <- flat_kof; apply (li_pids _ _ (in_li _ _ _ H))).
  assert (NPj : NoDup (map p_pid (j_procs j))).
  { pose proof (NoDup_flat_in (fun j => map p_pid (j_procs j)) _ j NP Hj). assumption. }
  destruct (find (has_pid pid) (jl s)) as [j0|] eqn:Fd.
  2:{ pose proof (find_none _ _ Fd j Hj) as Y. apply has_pid_In in Hp. congruence. }
  apply find_some in Fd. destruct Fd as [Hj0 Hp0]. apply has_pid_In in Hp0.
  assert (j0 = j) as -> by exact (NoDup_flat_two (fun j => map p_pid (j_procs j)) _ j0 j pid NP Hj0 Hj Hp0 Hp). clear Hj0 Hp0.
  set (i := j_id j). set (g := fun j => jprocs j (set_proc pid (WStop n) (j_procs j))).
  set (s1 := with_jl s (upd i g (jl s))).
  assert (G1 : get (jl s1) i = Some (g j)) by (apply get_upd; [reflexivity|]; apply In_get; auto).
  assert (SJ : f_started (j_fl j) = true) by (unfold allst in AS; rewrite Forall_forall in AS; auto).
  unfold check_job. rewrite G1. change (f_started (j_fl (g j))) with (f_started (j_fl j)). rewrite SJ.
  change (j_procs (g j)) with (set_proc pid (WStop n) (j_procs j)).
  rewrite job_state_stop.
  2:{ intros p Hin. apply (set_proc_In pid _ _ _ NPj) in Hin. destruct Hin as [[A B]|[p0 [A [B ->]]]]; [auto|discriminate]. }
  2:{ destruct (set_proc_get pid (WStop n) _ Hp) as [p [P1 [P2 [P3 P4]]]]. exists p. auto. }
  set (rv := match last_proc (g j) with Some p => pcode p | None => 0 end).
  set (f := fun j => jfl (jset j PStop rv) (set_changed true (j_fl j))).
  set (s2 := with_jl s1 (upd i f (jl s1))).
  assert (G2 : get (jl s2) i = Some (f (g j))) by (apply get_upd; [reflexivity|exact G1]).
  assert (D2 : map j_id (jl s2) = map j_id (jl s)).
  { change (ids (jl s2) = ids (jl s)). unfold s2, s1. cbn [jl with_jl]. rewrite !upd_ids by reflexivity. reflexivity. }
  assert (M2 : mon s2 = true) by exact M. clearbody s2.
  unfold after_check. rewrite G2. cbn [j_fl f g jfl jset jprocs f_xxcom set_changed j_state]. rewrite M2, X. cbn [negb andb pstate_eqb pord Nat.eqb].
  set (s3 := with_jl s2 (reput true i (jl s2))).
  assert (J3 : jl s3 = f (g j) :: unlink i (jl s2)).
  { unfold s3, reput. cbn [jl with_jl]. rewrite G2. reflexivity. }
  rewrite !andb_false_r.
  assert (FIN : forall l, l = jl s3 \/ l = upd i (fun j => jfl j (set_changed false (j_fl j))) (jl s3) ->
    exists k r, l = k :: r /\ j_id k = i /\ j_state k = PStop /\ map j_id r = others i (map j_id (jl s))).
  { intros l [->| ->]; rewrite J3.
    - exists (f (g j)), (unlink i (jl s2)). rewrite ids_unlink_eq, D2. auto.
    - exists (jfl (f (g j)) (set_changed false (j_fl (f (g j))))),
        (upd i (fun j => jfl j (set_changed false (j_fl j))) (unlink i (jl s2))).
      split; [unfold upd; cbn [map]; unfold is_id at 1; cbn [j_id f g jfl jset jprocs]; unfold i; rewrite Nat.eqb_refl; reflexivity|].
      split; [reflexivity|]. split; [reflexivity|].
      transitivity (map j_id (unlink i (jl s2))); [apply upd_ids; reflexivity|]. rewrite ids_unlink_eq, D2. reflexivity. }
  destruct (notif s3 && _); cbn [andb negb].
  - apply FIN. right. reflexivity.
  - apply FIN. left. reflexivity.
Qed.
