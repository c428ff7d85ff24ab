(** Proofs for Aliascmd_props.v *)
From Verif Require Import Base Table_model Table_spec Pathglob_model Pathglob_spec Pathglob_proof Quote_model Whence_model Aliascmd_model Aliascmd_spec.
From Coq Require Import Sorting.Sorted Lia.
Local Open Scope Z_scope.

(** what a state means *)
Definition view (st : state) : amap := fun n =>
  match find (tab st) n with
  | Some e => if a_def e then Some (if a_set e then heap st (a_val e) else None, a_exp e) else None
  | None => None
  end.
Record wf (st : state) : Prop := {
  wf_nodup : NoDup (map a_name (tab st));
  wf_flags : forall n e, find (tab st) n = Some e -> a_alloc e = a_set e /\ (a_def e = false -> a_set e = false /\ a_exp e = false);
  wf_live : forall n e, find (tab st) n = Some e -> a_alloc e = true -> heap st (a_val e) <> None;
  wf_owner : forall n e k f, find (tab st) n = Some e -> find (tab st) k = Some f -> a_alloc e = true -> a_alloc f = true -> a_val e = a_val f -> n = k;
  wf_used : forall q, heap st q <> None -> exists n e, find (tab st) n = Some e /\ a_alloc e = true /\ a_val e = q;
  wf_next : forall q, heap st q <> None -> (q < next st)%nat }.

Lemma find_name l n e : find l n = Some e -> a_name e = n.
Proof. induction l as [|x l IH]; cbn; [discriminate|]. destruct (str_eqb_spec (a_name x) n); [intros [= ->]; auto|auto]. Qed.
Lemma find_put e l n : find (put e l) n = if str_eqb (a_name e) n then Some e else find l n.
Proof.
  induction l as [|x l IH]; cbn; [reflexivity|]. destruct (str_eqb_spec (a_name x) (a_name e)) as [E|E]; cbn.
  - rewrite E. destruct (str_eqb (a_name e) n); auto.
  - destruct (str_eqb_spec (a_name x) n) as [X|X]; [|exact IH]. destruct (str_eqb_spec (a_name e) n); [congruence|auto].
Qed.
Lemma put_names e l k : In k (map a_name (put e l)) <-> k = a_name e \/ In k (map a_name l).
Proof.
  induction l as [|x l IH]; cbn; [intuition|]. destruct (str_eqb_spec (a_name x) (a_name e)) as [E|E]; cbn; [rewrite E; intuition|]. rewrite IH. intuition.
Qed.
Lemma put_nodup e l : NoDup (map a_name l) -> NoDup (map a_name (put e l)).
Proof.
  induction l as [|x l IH]; cbn; intros H; [repeat constructor; auto|]. inversion H; subst. destruct (str_eqb_spec (a_name x) (a_name e)) as [E|E]; cbn.
  - rewrite <- E. auto.
  - constructor; auto. rewrite put_names. intros [X|X]; auto.
Qed.
Lemma find_in l n e : NoDup (map a_name l) -> (find l n = Some e <-> In e l /\ a_name e = n).
Proof.
  induction l as [|x l IH]; cbn; intros H; [split; [discriminate|tauto]|]. inversion H; subst. destruct (str_eqb_spec (a_name x) n) as [E|E].
  - split; [intros [= ->]; auto|]. intros [[->|I] N]; auto. exfalso. apply H2. rewrite E, <- N. now apply in_map.
  - rewrite IH by auto. split; [tauto|]. intros [[->|I] N]; [contradiction|auto].
Qed.

(** an entry is changed together with the heap *)
Lemma wf_put st e' h' k : wf st ->
  a_alloc e' = a_set e' -> (a_def e' = false -> a_set e' = false /\ a_exp e' = false) ->
  (a_alloc e' = true -> h' (a_val e') <> None) ->
  (a_alloc e' = true -> heap st (a_val e') = None \/ exists e, find (tab st) (a_name e') = Some e /\ a_alloc e = true /\ a_val e = a_val e') ->
  (forall q, h' q <> None -> a_alloc e' = true /\ a_val e' = q \/ heap st q <> None /\ forall e, find (tab st) (a_name e') = Some e -> a_alloc e = true -> a_val e <> q) ->
  (forall q, (forall e, find (tab st) (a_name e') = Some e -> a_alloc e = true -> a_val e <> q) -> heap st q <> None -> h' q = heap st q) ->
  (forall q, h' q <> None -> (q < k)%nat) ->
  wf (St (put e' (tab st)) h' k) /\ forall m, m <> a_name e' -> view (St (put e' (tab st)) h' k) m = view st m.
Proof.
  intros [N F Lv Ow U Nx] A1 A2 A3 A4 A5 A6 A7.
  assert (OTH : forall n e, find (tab st) n = Some e -> a_alloc e = true -> n <> a_name e' -> h' (a_val e) = heap st (a_val e)).
  { intros n e E AL NE. apply A6; [|eapply Lv; eauto]. intros f E' AL' X. apply NE. eapply (Ow n e (a_name e') f); eauto. }
  split.
  - constructor; cbn [tab heap next].
    + now apply put_nodup.
    + intros n e. rewrite find_put. destruct (str_eqb_spec (a_name e') n); [intros [= <-]; auto|apply F].
    + intros n e. rewrite find_put. destruct (str_eqb_spec (a_name e') n) as [EQ|NE]; [intros [= <-]; auto|]. intros E AL. rewrite (OTH n e); auto. eapply Lv; eauto.
    + assert (X : forall k f, find (tab st) k = Some f -> k <> a_name e' -> a_alloc e' = true -> a_alloc f = true -> a_val e' <> a_val f).
      { intros k0 f E NE AL AL' V. destruct (A4 AL) as [H|(e & E' & AE & V')]; [apply (Lv k0 f E AL'); congruence|]. apply NE. eapply (Ow k0 f (a_name e') e); eauto. congruence. }
      intros n e k0 f. rewrite !find_put. destruct (str_eqb_spec (a_name e') n) as [E1|E1], (str_eqb_spec (a_name e') k0) as [E2|E2].
      * congruence.
      * intros [= <-] E AL AL' V. destruct (X k0 f E); auto.
      * intros E [= <-] AL AL' V. destruct (X n e E); auto.
      * apply Ow.
    + intros q H. destruct (A5 q H) as [[AL V]|[H' O]].
      * exists (a_name e'), e'. rewrite find_put, str_eqb_refl. auto.
      * destruct (U q H') as (n & e & E & AL & V). exists n, e. rewrite find_put. destruct (str_eqb_spec (a_name e') n) as [<-|]; auto. destruct (O e E AL V).
    + exact A7.
  - intros m NE. unfold view. cbn [tab heap]. rewrite find_put. destruct (str_eqb_spec (a_name e') m); [congruence|]. destruct (find (tab st) m) as [e|] eqn:E; auto.
    destruct (a_def e); auto. destruct (a_set e) eqn:S; auto. destruct (F _ _ E) as [AL _]. rewrite (OTH m e); auto. congruence.
Qed.

Definition free_of (st : state) (n : cstr) (q : nat) : Prop := forall e, find (tab st) n = Some e -> a_alloc e = true -> a_val e <> q.
Lemma enter_ok st n : wf st -> let e := ktenter (tab st) n in
  a_name e = n /\ a_alloc e = a_set e /\ (a_set e = true -> find (tab st) n = Some e) /\
  val_of (view st n) = (if a_set e then heap st (a_val e) else None) /\ exp_of (view st n) = a_exp e.
Proof.
  intros W. unfold ktenter, view. destruct (find (tab st) n) as [e|] eqn:E; cbn zeta.
  - destruct (wf_flags _ W _ _ E) as [A B]. split; [eapply find_name; eauto|]. split; auto. split; [auto|].
    destruct (a_def e); cbn; auto. destruct B as [-> ->]; auto.
  - cbn. repeat split; auto. discriminate.
Qed.
Lemma release_ok st n : wf st -> let e := ktenter (tab st) n in exists h b,
  release (heap st) e = Some (h, b) /\ a_name b = n /\ a_alloc b = false /\ a_set b = false /\ a_exp b = a_exp e /\ a_def b = a_def e /\
  (forall q, h q <> None -> heap st q <> None /\ free_of st n q) /\ (forall q, free_of st n q -> h q = heap st q).
Proof.
  intros W e. destruct (enter_ok st n W) as (N & A & F & _). fold e in N, A, F. unfold release. destruct (a_alloc e) eqn:AL.
  - assert (FE : find (tab st) n = Some e) by auto. unfold hfree. destruct (heap st (a_val e)) as [v|] eqn:H; [|destruct (wf_live _ W _ _ FE AL H)].
    do 2 eexists. split; [reflexivity|]. cbn. repeat split; auto.
    + destruct (Nat.eqb_spec (a_val e) q); congruence.
    + intros f FF AF X. rewrite FE in FF. injection FF as <-. destruct (Nat.eqb_spec (a_val e) q); congruence.
    + intros q FQ. destruct (Nat.eqb_spec (a_val e) q) as [<-|]; auto. destruct (FQ e FE AL eq_refl).
  - do 2 eexists. split; [reflexivity|]. repeat split; auto.
    intros f FF AF. exfalso. unfold e, ktenter in AL. rewrite FF in AL. congruence.
Qed.
Lemma split_ok w : forall n v, split_eq w = (n, v) -> match v with Some v => assigns w n v | None => n = w /\ plain w end.
Proof.
  induction w as [|c w IH]; cbn; intros n v H; [injection H as <- <-; split; auto; intros []|].
  destruct (ceq c "="%char) eqn:E.
  - injection H as <- <-. apply ceq_true in E. subst. split; auto.
  - apply ceq_false in E. destruct (split_eq w) as [n1 v1]. injection H as <- <-. specialize (IH _ _ eq_refl). destruct v1.
    + destruct IH as [-> P]. split; auto. intros [X|X]; auto.
    + destruct IH as [-> P]. split; auto. intros [X|X]; auto.
Qed.
Lemma free_of_dec st n q : wf st -> heap st q <> None -> free_of st n q \/ exists e, find (tab st) n = Some e /\ a_alloc e = true /\ a_val e = q.
Proof.
  intros W H. destruct (find (tab st) n) as [e|] eqn:E; [|left; intros f FF; congruence]. destruct (a_alloc e) eqn:A; [|left; intros f FF; congruence].
  destruct (Nat.eq_dec (a_val e) q); [right; eauto|left]. intros f FF. congruence.
Qed.

Lemma mark_ok x plus old : marks x plus old (if x then negb plus else old).
Proof. destruct x; [|constructor; auto]. destruct plus; [apply Mk_off|apply Mk_on]; auto. Qed.
Lemma show_ok p plus h e v : h (a_val e) = Some v -> exists t, show p plus h e = Some t /\ line (a_name e) v p plus t.
Proof.
  intros H. unfold show. rewrite H. destruct plus, p; cbn [when]; eexists; split; try reflexivity; cbn [app]; rewrite ?app_assoc; try (rewrite <- ?app_assoc; constructor).
Qed.

Section Cmd.
Context (srch : cstr -> option cstr) (p t u x plus : bool).
(** new value *)
Lemma set_ok st n v : wf st -> exists b h k, 
  match release (heap st) (ktenter (tab st) n) with
  | None => None
  | Some (h, ap) =>
     match v with
     | Some v => Some (Al (a_name ap) true true (a_exp ap) (a_def ap) (next st), (fun q => if Nat.eqb (next st) q then Some v else h q), S (next st))
     | None => Some (Al (a_name ap) false (a_alloc ap) (a_exp ap) (a_def ap) (a_val ap), h, next st)
     end
  end = Some (b, h, k) /\ 
  let b := Al (a_name b) (a_set b) (a_alloc b) (if x then negb plus else a_exp b) true (a_val b) in
  let st' := St (put b (tab st)) h k in
  wf st' /\ exists e, marks x plus (exp_of (view st n)) e /\ changes (view st) (view st') n (Some (v, e)).
Proof.
  intros W. destruct (release_ok st n W) as (h & b & -> & N & A & S & X & _ & H1 & H2). destruct (enter_ok st n W) as (_ & _ & _ & _ & EX).
  assert (FR : heap st (next st) = None) by (destruct (heap st (next st)) eqn:Q; auto; exfalso; assert (Z : heap st (next st) <> None) by congruence; apply (wf_next _ W) in Z; lia).
  destruct v as [v|]; do 3 eexists; (split; [reflexivity|]); cbn [a_name a_set a_alloc a_exp a_val a_def].
  - set (e' := Al (a_name b) true true (if x then negb plus else a_exp b) true (next st)).
    destruct (wf_put st e' (fun q => if Nat.eqb (next st) q then Some v else h q) (Datatypes.S (next st)) W) as [W' O]; cbn [e' a_name a_set a_alloc a_exp a_val a_def]; auto.
    + discriminate.
    + intros _. rewrite Nat.eqb_refl. discriminate.
    + intros q. destruct (Nat.eqb_spec (next st) q); [auto|]. intros Q. right. rewrite N. exact (H1 q Q).
    + intros q FQ Q. rewrite N in FQ. destruct (Nat.eqb_spec (next st) q) as [<-|]; [congruence|]. now apply H2.
    + intros q. destruct (Nat.eqb_spec (next st) q); [lia|]. intros Q. apply H1 in Q. destruct Q as [Q _]. apply (wf_next _ W) in Q. lia.
    + split; auto. exists (if x then negb plus else a_exp b). rewrite EX, <- X. split; [apply mark_ok|]. split.
      * unfold view. cbn [tab heap]. rewrite find_put. cbn [e' a_name]. rewrite N, str_eqb_refl. cbn. rewrite Nat.eqb_refl. reflexivity.
      * intros k NK. apply O. cbn. congruence.
  - set (e' := Al (a_name b) false (a_alloc b) (if x then negb plus else a_exp b) true (a_val b)).
    destruct (wf_put st e' h (next st) W) as [W' O]; cbn [e' a_name a_set a_alloc a_exp a_val a_def]; auto; try congruence.
    + intros q Q. right. rewrite N. exact (H1 q Q).
    + intros q FQ Q. rewrite N in FQ. now apply H2.
    + intros q Q. apply H1 in Q. destruct Q as [Q _]. now apply (wf_next _ W).
    + split; auto. exists (if x then negb plus else a_exp b). rewrite EX, <- X. split; [apply mark_ok|]. split.
      * unfold view. cbn [tab heap]. rewrite find_put. cbn [e' a_name]. rewrite N, str_eqb_refl. reflexivity.
      * intros k NK. apply O. cbn. congruence.
Qed.
Lemma keep_ok st n : wf st -> let b := ktenter (tab st) n in let b := Al (a_name b) (a_set b) (a_alloc b) (if x then negb plus else a_exp b) true (a_val b) in
  let st' := St (put b (tab st)) (heap st) (next st) in
  wf st' /\ exists e, marks x plus (exp_of (view st n)) e /\ changes (view st) (view st') n (Some (val_of (view st n), e)).
Proof.
  intros W b. destruct (enter_ok st n W) as (N & A & F & V & EX). fold b in N, A, F, V, EX.
  set (e' := Al (a_name b) (a_set b) (a_alloc b) (if x then negb plus else a_exp b) true (a_val b)).
  destruct (wf_put st e' (heap st) (next st) W) as [W' O]; cbn [e' a_name a_set a_alloc a_exp a_val a_def]; auto; try discriminate.
  - intros AL. apply (wf_live _ W n); auto. apply F. congruence.
  - intros AL. right. exists b. rewrite N. split; auto. apply F. congruence.
  - intros q Q. rewrite N. destruct (free_of_dec st n q W Q) as [FR|(e & E & AL & Q')]; auto. left.
    assert (b = e) by (unfold b, ktenter; now rewrite E). subst e. auto.
  - apply (wf_next _ W).
  - split; auto. exists (if x then negb plus else a_exp b). rewrite EX. split; [apply mark_ok|]. split.
    + unfold view at 1. cbn [tab heap]. rewrite find_put. cbn [e' a_name]. rewrite N, str_eqb_refl, V. reflexivity.
    + intros k NK. apply O. cbn. congruence.
Qed.

Lemma word_ok st w : wf st -> exists out ok st', alias_word srch p t u x plus st w = Some (out, ok, st') /\ wf st' /\ does srch p t u x plus (view st) w (view st') out ok.
Proof.
  intros W. unfold alias_word. destruct (split_eq w) as [n v] eqn:SE. apply split_ok in SE.
  destruct ((match v with None => true | _ => false end) && negb t && negb x) eqn:SH.
  - destruct v; [discriminate|]. destruct SE as [-> P]. destruct t eqn:Et; [discriminate|]. destruct x eqn:Ex; [discriminate|]. unfold ktsearch.
    destruct (find (tab st) w) as [e|] eqn:E.
    + destruct (wf_flags _ W _ _ E) as [A B]. destruct (a_def e) eqn:D; [destruct (a_set e) eqn:S|].
      * destruct (heap st (a_val e)) as [v|] eqn:H; [|destruct (wf_live _ W _ _ E A H)].
        destruct (show_ok p plus (heap st) e v H) as (o & -> & LN). rewrite (find_name _ _ _ E) in LN. do 3 eexists. split; [reflexivity|]. split; auto.
        eapply Do_show; eauto; [|intros k; reflexivity]. exists (a_exp e). unfold view. now rewrite E, D, S, H.
      * do 3 eexists. split; [reflexivity|]. split; auto. apply Do_missing; auto; [|intros k; reflexivity]. intros v (y & V). unfold view in V. rewrite E, D, S in V. discriminate.
      * do 3 eexists. split; [reflexivity|]. split; auto. apply Do_missing; auto; [|intros k; reflexivity]. intros v (y & V). unfold view in V. rewrite E, D in V. discriminate.
    + do 3 eexists. split; [reflexivity|]. split; auto. apply Do_missing; auto; [|intros k; reflexivity]. intros v (y & V). unfold view in V. rewrite E in V. discriminate.
  - destruct v as [v|].
    + destruct t eqn:Et; cbn [negb].
      * destruct (keep_ok st n W) as (W' & e & MK & CH). do 3 eexists. split; [reflexivity|]. split; [exact W'|]. eapply Do_ignored; eauto.
      * destruct (set_ok st n (Some v) W) as (b & h & k & -> & W' & e & MK & CH). do 3 eexists. split; [reflexivity|]. split; [exact W'|]. eapply Do_set; eauto.
    + destruct SE as [-> P]. destruct t eqn:Et; cbn [andb].
      * destruct u eqn:Eu; cbn [negb].
        -- destruct (keep_ok st w W) as (W' & e & MK & CH). do 3 eexists. split; [reflexivity|]. split; [exact W'|]. eapply Do_enter; eauto.
        -- destruct (set_ok st w (srch w) W) as (b & h & k & -> & W' & e & MK & CH). do 3 eexists. split; [reflexivity|]. split; [exact W'|]. eapply Do_track; eauto.
      * destruct (keep_ok st w W) as (W' & e & MK & CH). do 3 eexists. split; [reflexivity|]. split; [exact W'|]. eapply Do_mark; eauto. destruct x; auto; discriminate.
Qed.
Lemma words_ok ws : forall st, wf st -> exists out ok st', alias_words srch p t u x plus st ws = Some (out, (if ok : bool then 0 else 1), st') /\ wf st' /\ does_all srch p t u x plus (view st) ws (view st') out ok.
Proof.
  induction ws as [|w ws IH]; intros st W; cbn [alias_words].
  - exists [], true, st. split; auto. split; auto. constructor. intros k. reflexivity.
  - destruct (word_ok st w W) as (o & ok & s1 & -> & W1 & D1). destruct (IH s1 W1) as (o2 & ok2 & s2 & -> & W2 & D2).
    exists (o ++ o2), (ok && ok2)%bool, s2. split; [destruct ok, ok2; reflexivity|]. split; auto. econstructor; eauto.
Qed.

Lemma list_ok st : wf st -> exists out, list_all p x plus st = Some out /\ lists p x plus (view st) out.
Proof.
  intros W. unfold list_all. set (ns := sorted_of _).
  assert (NI : forall n, In n ns <-> view st n <> None).
  { intros n. unfold ns. rewrite sort_in, in_map_iff. unfold view. split.
    - intros (e & <- & I). apply filter_In in I. destruct I as [I D]. rewrite (proj2 (find_in _ _ e (wf_nodup _ W))) by auto. rewrite D. discriminate.
    - destruct (find (tab st) n) as [e|] eqn:E; [|congruence]. destruct (a_def e) eqn:D; [|congruence]. intros _. apply find_in in E; [|apply W]. destruct E as [I N]. exists e. split; auto. apply filter_In. auto. }
  assert (SO : ascending ns).
  { apply sort_asc. assert (K : forall l, NoDup (map a_name l) -> NoDup (map a_name (filter a_def l))).
    { clear. induction l as [|e l IH]; cbn; intros H; [constructor|]. inversion H; subst. destruct (a_def e); cbn; auto. constructor; auto. intros X. apply H2. apply in_map_iff in X. destruct X as (f & F & X). apply filter_In in X. rewrite <- F. apply in_map. tauto. }
    apply K, W. }
  enough (G : forall ns, ascending ns -> (forall n, In n ns -> view st n <> None) -> exists out l, list_names p x plus st ns = Some out /\ lines p plus l out /\ StronglySorted str_lt (map fst l) /\
     (forall n, In n (map fst l) -> In n ns) /\ forall n v, In (n, v) l <-> In n ns /\ exists e, view st n = Some (Some v, e) /\ (x = true -> e = true)).
  { destruct (G ns SO) as (out & l & E & LI & SS & _ & IN); [intros n; apply NI|]. exists out. split; auto. exists l. split; auto. split; auto. intros n v. rewrite IN. split; [tauto|]. intros H. split; auto. apply NI. destruct H as (e & -> & _). discriminate. }
  clear ns NI SO. intros ns SO. unfold ascending in SO. induction SO as [|n ns S IH F]; intros NI.
  - exists [], []. cbn. split; auto. split; [constructor|]. split; [constructor|]. split; [tauto|]. intros n v. tauto.
  - destruct IH as (out & l & E & LI & SS & SUB & IN); [intros k K; apply NI; now right|]. cbn [list_names]. rewrite E.
    assert (NN : ~ In n ns) by (intros X; rewrite Forall_forall in F; apply F in X; clear - X; induction n; inversion X; subst; auto; lia).
    assert (VN := NI n (or_introl eq_refl)). unfold ktsearch. unfold view in VN. destruct (find (tab st) n) as [e|] eqn:FE; [|congruence]. destruct (a_def e) eqn:D; [|congruence].
    assert (VE : view st n = Some (if a_set e then heap st (a_val e) else None, a_exp e)) by (unfold view; now rewrite FE, D).
    destruct (a_set e && (negb x || a_exp e)) eqn:C.
    + apply andb_prop in C. destruct C as [C1 C2]. destruct (wf_flags _ W _ _ FE) as [A _]. rewrite C1 in A. destruct (heap st (a_val e)) as [v|] eqn:H; [|destruct (wf_live _ W _ _ FE A H)].
      destruct (show_ok p plus (heap st) e v H) as (o & -> & LN). rewrite (find_name _ _ _ FE) in LN. exists (o ++ out), ((n, v) :: l). rewrite C1 in VE. split; auto. split; [now constructor|]. split; [|split].
      * cbn. constructor; auto. rewrite Forall_forall in *. intros k K. apply F. auto.
      * cbn. intros k [->|K]; auto.
      * intros k v'. cbn [In]. rewrite IN. split.
        -- intros [[= <- <-]|[K Q]]; [|tauto]. split; auto. exists (a_exp e). split; auto. intros ->. cbn in C2. exact C2.
        -- intros [[<-|K] Q]; [|tauto]. left. destruct Q as (y & Q & _). rewrite VE in Q. congruence.
    + exists out, l. split; auto. split; auto. split; auto. split; [intros k K; right; auto|]. intros k v. rewrite IN. split; [intros [K Q]; split; auto; now right|].
      intros [[<-|K] Q]; [|tauto]. exfalso. destruct Q as (y & Q & X). rewrite VE in Q. destruct (a_set e); [|discriminate]. cbn in C. destruct x; [|discriminate]. cbn in C. injection Q as Q1 Q2. specialize (X eq_refl). congruence.
Qed.
End Cmd.

Lemma un_ok st w : wf st -> exists ok st', unalias_word st w = Some (ok, st') /\ wf st' /\ (ok = true <-> view st w <> None) /\ changes (view st) (view st') w None.
Proof.
  intros W. unfold unalias_word, ktsearch. destruct (find (tab st) w) as [e|] eqn:E.
  2:{ exists false, st. split; auto. split; auto. assert (V : view st w = None) by (unfold view; now rewrite E). split; [split; congruence|]. split; auto. }
  destruct (a_def e) eqn:D.
  2:{ exists false, st. split; auto. split; auto. assert (V : view st w = None) by (unfold view; now rewrite E, D). split; [split; congruence|]. split; auto. }
  destruct (release_ok st w W) as (h & b & R & N & A & S & X & _ & H1 & H2). unfold ktenter in R. rewrite E in R. rewrite R.
  assert (VN : view st w <> None) by (unfold view; rewrite E, D; discriminate).
  exists true. eexists. split; [reflexivity|].
  destruct (wf_put st (forget b) h (next st) W) as [W' O]; cbn [forget a_name a_set a_alloc a_exp a_val a_def]; auto; try congruence.
  - intros q Q. right. rewrite N. exact (H1 q Q).
  - intros q FQ Q. rewrite N in FQ. now apply H2.
  - intros q Q. apply H1 in Q. destruct Q as [Q _]. now apply (wf_next _ W).
  - split; auto. split; [tauto|]. split.
    + unfold view. cbn [tab heap]. rewrite find_put. cbn [forget a_name]. rewrite N, str_eqb_refl. reflexivity.
    + intros k NK. apply O. cbn. congruence.
Qed.
Lemma uns_ok ws : forall st, wf st -> exists rv st', unalias_words st ws = Some (rv, st') /\ wf st' /\ removes (view st) ws (view st') /\ (rv = 0 \/ rv = 1) /\ (rv = 0 <-> all_there (view st) ws).
Proof.
  induction ws as [|w ws IH]; intros st W; cbn [unalias_words].
  - exists 0, st. split; auto. split; auto. split; [split; [intros n []|auto]|]. split; auto. split; auto. intros _. split; [constructor|intros n []].
  - destruct (un_ok st w W) as (ok & s1 & -> & W1 & OK & C1 & C2). destruct (IH s1 W1) as (rv & s2 & -> & W2 & [R1 R2] & RV & AT).
    eexists _, s2. split; [reflexivity|]. split; auto. split; [split|].
    + intros n I. destruct (in_dec (list_eq_dec ascii_dec) n ws) as [I'|I']; auto. destruct I as [<-|I]; [|tauto]. rewrite R2; auto.
    + intros n NI. cbn in NI. rewrite R2 by tauto. apply C2. intros ->. tauto.
    + split; [destruct ok; auto|]. unfold all_there in *. destruct ok.
      * rewrite AT. assert (VN : view st w <> None) by tauto. split.
        -- intros [ND AL]. assert (NI : ~ In w ws) by (intros I; apply (AL w I); exact C1). split; [constructor; auto|]. intros n [<-|I]; auto. rewrite <- C2; auto. intros ->. contradiction.
        -- intros [ND AL]. inversion ND; subst. split; auto. intros n I. rewrite C2; [apply AL; now right|]. intros ->. contradiction.
      * split; [discriminate|]. intros [ND AL]. exfalso. assert (X : false = true) by (apply OK, AL; now left). discriminate.
Qed.
Lemma view_names st n : wf st -> (In n (map a_name (filter a_def (tab st))) <-> view st n <> None).
Proof.
  intros W. rewrite in_map_iff. unfold view. split.
  - intros (e & <- & I). apply filter_In in I. destruct I as [I D]. rewrite (proj2 (find_in _ _ e (wf_nodup _ W))) by auto. rewrite D. discriminate.
  - destruct (find (tab st) n) as [e|] eqn:E; [|congruence]. destruct (a_def e) eqn:D; [|congruence]. intros _. apply find_in in E; [|apply W]. destruct E as [I N]. exists e. split; auto. apply filter_In. auto.
Qed.
Lemma all_ok st : wf st -> exists st', unalias_all st = Some st' /\ wf st' /\ forall n, view st' n = None.
Proof.
  intros W. unfold unalias_all. destruct (uns_ok (map a_name (filter a_def (tab st))) st W) as (rv & s & -> & W' & [R1 R2] & _). exists s. split; auto. split; auto.
  intros n. destruct (view st n) eqn:V; [apply R1, view_names; auto; congruence|]. rewrite R2; auto. rewrite view_names; auto. 
Qed.
