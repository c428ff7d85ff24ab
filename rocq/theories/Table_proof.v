From Verif Require Import Base Num_model SimplifyPath_model Table_model Table_spec.
From Coq Require Import Permutation Sorted.

Section Proof.
Variable V : Type.
Variable hf : cstr -> N.
Notation entry := (entry V). Notation table := (table V). Notation op := (op V).
Implicit Types (sl : list (option entry)) (e : entry) (t : table).

(** ** probe order *)
Definition it (sz k i : nat) : nat := Nat.iter k (nxt sz) i.

Lemma nxt_lt sz i : i < sz -> nxt sz i < sz.
Proof. destruct i; cbn; lia. Qed.
Lemma it_lt sz k i : i < sz -> it sz k i < sz.
Proof. intros H. induction k as [|k IH]; [exact H|]. cbn. apply nxt_lt, IH. Qed.
Lemma it_S sz k i : it sz (S k) i = it sz k (nxt sz i).
Proof.
  induction k as [|k IH]; [reflexivity|].
  change (nxt sz (it sz (S k) i) = nxt sz (it sz k (nxt sz i))). rewrite IH. reflexivity.
Qed.

Lemma it_val sz k i : i < sz -> k <= sz -> it sz k i = if k <=? i then i - k else i + sz - k.
Proof.
  intros Hi. induction k as [|k IH]; intros Hk.
  - cbn. lia.
  - change (it sz (S k) i) with (nxt sz (it sz k i)). rewrite IH by lia.
    destruct (Nat.leb_spec k i), (Nat.leb_spec (S k) i); try lia.
    + destruct (i - k) eqn:E; cbn; lia.
    + assert (k = i) by lia. subst. rewrite Nat.sub_diag. cbn. lia.
    + destruct (i + sz - k) eqn:E; cbn; lia.
Qed.

Lemma it_cover sz i j : i < sz -> j < sz -> exists k, k < sz /\ it sz k i = j.
Proof.
  intros Hi Hj. destruct (le_lt_dec j i) as [H|H].
  - exists (i - j). split; [lia|]. rewrite it_val by lia. destruct (Nat.leb_spec (i - j) i); lia.
  - exists (i + sz - j). split; [lia|]. rewrite it_val by lia. destruct (Nat.leb_spec (i + sz - j) i); lia.
Qed.

Lemma home_lt sz h : 0 < sz -> home sz h < sz.
Proof.
  intros H. unfold home.
  assert (G : (N.land h (N.of_nat sz - 1) <= N.of_nat sz - 1)%N).
  { set (m := (N.of_nat sz - 1)%N). 
    assert (K : N.ldiff (N.land h m) m = 0%N) 
      by (apply N.bits_inj; intros k; rewrite N.ldiff_spec, N.land_spec, N.bits_0;
          destruct (N.testbit h k), (N.testbit m k); reflexivity).
    apply N.ldiff_le, K. }
  lia.
Qed.

Definition slot sl i : option entry := nth i sl None.
Lemma nth_error_slot sl i : i < length sl -> nth_error sl i = Some (slot sl i).
Proof. intros H. apply nth_error_nth'. exact H. Qed.

Lemma probe_spec p sl fuel : forall i, i < length sl ->
  match probe V fuel sl p i with
  | Ok (Found j e) => exists k, k < fuel /\ j = it (length sl) k i /\ slot sl j = Some e /\ p e = true /\
      forall m, m < k -> exists e', slot sl (it (length sl) m i) = Some e' /\ p e' = false
  | Ok (Null j) => exists k, k < fuel /\ j = it (length sl) k i /\ slot sl j = None /\
      forall m, m < k -> exists e', slot sl (it (length sl) m i) = Some e' /\ p e' = false
  | Err => forall m, m < fuel -> exists e', slot sl (it (length sl) m i) = Some e' /\ p e' = false
  | UB => False
  end.
Proof.
  induction fuel as [|fuel IH]; intros i Hi; cbn [probe]; [intros m Hm; lia|].
  rewrite (nth_error_slot sl i Hi). destruct (slot sl i) as [e|] eqn:Es.
  - destruct (p e) eqn:Ep.
    + exists 0. split; [lia|]. repeat split; auto. intros m Hm. lia.
    + specialize (IH (nxt (length sl) i) (nxt_lt _ _ Hi)).
      assert (STEP : forall k, (forall m, m < k -> exists e', slot sl (it (length sl) m (nxt (length sl) i)) = Some e' /\ p e' = false) ->
        forall m, m < S k -> exists e', slot sl (it (length sl) m i) = Some e' /\ p e' = false).
      { intros k H m Hm. destruct m as [|m]; [exists e; auto|]. rewrite it_S. apply H. lia. }
      destruct (probe V fuel sl p (nxt (length sl) i)) as [[j e'|j]| |].
      * destruct IH as (k & H1 & H2 & H3 & H4 & H5). exists (S k). rewrite it_S. split; [lia|]. do 3 (split; [assumption|]). exact (STEP k H5).
      * destruct IH as (k & H1 & H2 & H3 & H4). exists (S k). rewrite it_S. split; [lia|]. do 2 (split; [assumption|]). exact (STEP k H4).
      * apply STEP, IH.
      * exact IH.
  - exists 0. split; [lia|]. repeat split; auto. intros m Hm. lia.
Qed.

(** with a NULL slot somewhere probing ends within the array *)
Lemma probe_ends p sl i : i < length sl -> (exists j, j < length sl /\ slot sl j = None) ->
  exists s, probe V (S (length sl)) sl p i = Ok s.
Proof.
  intros Hi (j & Hj & Hn). pose proof (probe_spec p sl (S (length sl)) i Hi) as P.
  destruct (probe V (S (length sl)) sl p i) as [s| |]; [eauto| |destruct P].
  destruct (it_cover (length sl) i j Hi Hj) as (k & Hk & E).
  destruct (P k) as (e' & H & _); [lia|]. rewrite E, Hn in H. discriminate.
Qed.

(** ** the invariant *)
Definition chained sl : Prop := forall j e, j < length sl -> slot sl j = Some e -> e_name V e <> [] ->
  exists k, k < length sl /\ it (length sl) k (home (length sl) (hf (e_name V e))) = j /\
    forall m, m < k -> slot sl (it (length sl) m (home (length sl) (hf (e_name V e)))) <> None.
Definition unique sl : Prop := forall i j e e', i < length sl -> j < length sl ->
  slot sl i = Some e -> slot sl j = Some e' -> e_name V e = e_name V e' -> e_name V e <> [] -> i = j.
(* entries hidden while in use have lost their name *)
Definition named sl : Prop := forall j e, j < length sl -> slot sl j = Some e -> (e_def V e || e_array V e) = true -> e_name V e <> [].
Fixpoint used sl : nat := match sl with [] => 0 | None :: r => used r | Some _ :: r => S (used r) end.

Record inv t : Prop := {
  inv_chain : chained (slots V t);
  inv_uniq : unique (slots V t);
  inv_named : named (slots V t);
  inv_free : (nfree V t = 7 * Z.of_nat (size V t) / 10 - Z.of_nat (used (slots V t)))%Z;
  inv_nonneg : (0 <= nfree V t)%Z
}.

Lemma set_slot_len sl i o : i < length sl -> length (set_slot V sl i o) = length sl.
Proof. intros H. unfold set_slot. rewrite app_length. cbn [length]. rewrite firstn_length, skipn_length. lia. Qed.
Lemma slot_set sl i o j : i < length sl -> slot (set_slot V sl i o) j = if j =? i then o else slot sl j.
Proof.
  intros H. unfold slot, set_slot. assert (Hl : length (firstn i sl) = i) by (rewrite firstn_length; lia).
  destruct (Nat.eqb_spec j i) as [->|Hne].
  - rewrite app_nth2 by lia. rewrite Hl, Nat.sub_diag. reflexivity.
  - destruct (le_lt_dec i j) as [Hij|Hij].
    + rewrite app_nth2 by lia. rewrite Hl. destruct (j - i) as [|d] eqn:E; [lia|]. cbn [nth].
      assert (Hs : sl = firstn (S i) sl ++ skipn (S i) sl) by (symmetry; apply firstn_skipn).
      rewrite Hs at 2. assert (Hl2 : length (firstn (S i) sl) = S i) by (rewrite firstn_length; lia).
      rewrite app_nth2 by lia. f_equal. lia.
    + rewrite app_nth1 by lia. rewrite <- (firstn_skipn i sl) at 2. rewrite app_nth1 by lia. reflexivity.
Qed.

Lemma used_app a b : used (a ++ b) = used a + used b.
Proof. induction a as [|[e|] a IH]; cbn; lia. Qed.
Lemma used_set sl i o : i < length sl ->
  used (set_slot V sl i o) + (match slot sl i with Some _ => 1 | None => 0 end) = used sl + (match o with Some _ => 1 | None => 0 end).
Proof.
  intros H. unfold set_slot. rewrite used_app.
  assert (E : sl = firstn i sl ++ slot sl i :: skipn (S i) sl).
  { rewrite <- (firstn_skipn i sl) at 1. f_equal. unfold slot. clear -H. revert i H.
    induction sl as [|x sl IH]; intros i H; [cbn in H; lia|]. destruct i; [reflexivity|]. cbn in *. apply IH. lia. }
  rewrite E at 4. rewrite used_app. destruct o, (slot sl i); cbn [used]; lia.
Qed.
Lemma used_lt_null sl : used sl < length sl -> exists j, j < length sl /\ slot sl j = None.
Proof.
  induction sl as [|[e|] sl IH]; cbn [used length]; intros H; [lia| |].
  - destruct IH as (j & Hj & E); [lia|]. exists (S j). split; [lia|exact E].
  - exists 0. split; [lia|reflexivity].
Qed.

Lemma inv_null t : inv t -> 0 < size V t -> exists j, j < size V t /\ slot (slots V t) j = None.
Proof.
  intros [H1 H2 H0 H3 H4] Hs. apply used_lt_null. fold (size V t). lia.
Qed.

(** ** entries of a table *)
Definition has sl e : Prop := exists j, j < length sl /\ slot sl j = Some e.

Lemma has_In sl e : has sl e <-> In (Some e) sl.
Proof.
  unfold has, slot. split.
  - intros (j & Hj & E). rewrite <- E. apply nth_In, Hj.
  - intros H. apply (In_nth _ _ None) in H. exact H.
Qed.

(** the chain leads a probe to the entry *)
Lemma probe_finds sl e p : chained sl -> unique sl -> 0 < length sl -> has sl e -> e_name V e <> [] -> p e = true ->
  (forall e', p e' = true -> e_name V e' = e_name V e) ->
  exists j, probe V (S (length sl)) sl p (home (length sl) (hf (e_name V e))) = Ok (Found j e) /\ j < length sl /\ slot sl j = Some e.
Proof.
  intros Hc Hu Hs (j & Hj & Ej) Hne Hp Hpn.
  destruct (Hc j e Hj Ej Hne) as (k & Hk & Ek & Hch).
  pose proof (home_lt (length sl) (hf (e_name V e)) Hs) as Hh.
  pose proof (probe_spec p sl (S (length sl)) _ Hh) as P.
  destruct (probe V (S (length sl)) sl p (home (length sl) (hf (e_name V e)))) as [[j' e'|j']| |].
  - destruct P as (k' & H1 & H2 & H3 & H4 & H5). exists j.
    assert (j' < length sl) by (rewrite H2; apply it_lt, Hh).
    assert (Q : j' = j) by (apply (Hu j' j e' e); auto; rewrite (Hpn e' H4); exact Hne). rewrite Q, Ej in H3. assert (Q2 : e' = e) by congruence. rewrite Q, Q2. auto.
  - destruct P as (k' & H1 & H2 & H3 & H4). exfalso.
    destruct (lt_eq_lt_dec k' k) as [[Hlt|Heq]|Hgt].
    + apply (Hch k' Hlt). rewrite <- H2. exact H3.
    + subst k'. rewrite Ek in H2. subst j'. congruence.
    + destruct (H4 k Hgt) as (e'' & E1 & E2). rewrite Ek, Ej in E1. inversion E1. subst. congruence.
  - exfalso. destruct (P k) as (e'' & E1 & E2); [lia|]. rewrite Ek, Ej in E1. inversion E1. subst. congruence.
  - destruct P.
Qed.

(** ** search *)
Lemma ktsearch_spec t n : inv t ->
  match ktsearch V t n hf with
  | Ok (Some (i, e)) => i < size V t /\ slot (slots V t) i = Some e /\ e_name V e = n /\ e_def V e = true
  | Ok None => forall e, has (slots V t) e -> e_name V e = n -> e_def V e = false
  | _ => False
  end.
Proof.
  intros I. unfold ktsearch. destruct (size V t) as [|s] eqn:Es.
  - intros e (j & Hj & _). fold (size V t) in Hj. lia.
  - assert (Hs : 0 < size V t) by lia. rewrite <- Es. unfold size in *.
    set (p := fun e => str_eqb (e_name V e) n && e_def V e).
    pose proof (home_lt (length (slots V t)) (hf n) Hs) as Hh.
    destruct (probe_ends p (slots V t) _ Hh (inv_null t I Hs)) as (st & E).
    rewrite E. cbn [bind]. pose proof (probe_spec p (slots V t) (S (length (slots V t))) _ Hh) as P. rewrite E in P.
    destruct st as [i e|i].
    + destruct P as (k & H1 & H2 & H3 & H4 & _). unfold p in H4. apply andb_prop in H4. destruct H4 as [H4 H5].
      apply str_eqb_true in H4. repeat split; auto. rewrite H2. apply it_lt, Hh.
    + intros e He Hn. destruct (e_def V e) eqn:Ed; [|reflexivity]. exfalso.
      destruct (probe_finds (slots V t) e p) as (j & F & _); try apply I; auto.
      * destruct He as (j & Hj & Ej). apply (inv_named t I j e Hj Ej). rewrite Ed. reflexivity.
      * unfold p. rewrite Hn, str_eqb_refl, Ed. reflexivity.
      * intros e' He'. unfold p in He'. apply andb_prop in He'. destruct He' as [He' _]. apply str_eqb_true in He'. congruence.
      * rewrite Hn in F. rewrite F in E. discriminate.
Qed.

(** ** filling a NULL slot found by a probe for the entry's name *)
Lemma fill sl e i k p : chained sl -> unique sl -> 0 < length sl ->
  i = it (length sl) k (home (length sl) (hf (e_name V e))) -> k < length sl -> slot sl i = None ->
  (forall m, m < k -> exists e', slot sl (it (length sl) m (home (length sl) (hf (e_name V e)))) = Some e' /\ p e' = false) ->
  (forall e', has sl e' -> e_name V e' <> [] -> e_name V e' <> e_name V e) ->
  chained (set_slot V sl i (Some e)) /\ unique (set_slot V sl i (Some e)).
Proof.
  intros Hc Hu Hs Hi Hk Hn Hch Hnew.
  assert (Hil : i < length sl) by (rewrite Hi; apply it_lt, home_lt, Hs).
  split.
  - intros j e' Hj Ej Hne'. rewrite set_slot_len in * by exact Hil. rewrite slot_set in Ej by exact Hil.
    destruct (Nat.eqb_spec j i) as [->|Hne].
    + inversion Ej. subst e'. exists k. repeat split; auto. intros m Hm. rewrite slot_set by exact Hil.
      destruct (Nat.eqb _ i); [discriminate|]. destruct (Hch m Hm) as (e' & -> & _). discriminate.
    + destruct (Hc j e' Hj Ej Hne') as (k' & H1 & H2 & H3). exists k'. repeat split; auto. intros m Hm. rewrite slot_set by exact Hil.
      destruct (Nat.eqb _ i); [discriminate|]. apply H3, Hm.
  - intros j1 j2 e1 e2 Hj1 Hj2 E1 E2 Hnm Hnn. rewrite set_slot_len in Hj1, Hj2 by exact Hil.
    rewrite slot_set in E1, E2 by exact Hil.
    destruct (Nat.eqb_spec j1 i) as [->|], (Nat.eqb_spec j2 i) as [->|]; auto.
    + inversion E1. subst. exfalso. apply (Hnew e2); [exists j2; auto|congruence|congruence].
    + inversion E2. subst. exfalso. apply (Hnew e1); [exists j1; auto|congruence|congruence].
    + eapply Hu; eauto.
Qed.

Lemma has_set sl i o e : i < length sl -> 
  (has (set_slot V sl i o) e <-> (o = Some e \/ exists j, j < length sl /\ j <> i /\ slot sl j = Some e)).
Proof.
  intros Hi. unfold has. rewrite set_slot_len by exact Hi. split.
  - intros (j & Hj & E). rewrite slot_set in E by exact Hi. destruct (Nat.eqb_spec j i); [left; exact E|right; exists j; auto].
  - intros [->|(j & Hj & Hne & E)].
    + exists i. rewrite slot_set, Nat.eqb_refl by exact Hi. auto.
    + exists j. rewrite slot_set by exact Hi. destruct (Nat.eqb_spec j i); [lia|auto].
Qed.

Lemma has_fill sl i e0 e : i < length sl -> slot sl i = None ->
  (has (set_slot V sl i (Some e0)) e <-> (e = e0 \/ has sl e)).
Proof.
  intros Hi Hn. rewrite has_set by exact Hi. split.
  - intros [H|(j & Hj & _ & E)]; [left; congruence|right; exists j; auto].
  - intros [->|(j & Hj & E)]; [left; reflexivity|right; exists j; repeat split; auto; congruence].
Qed.

(** ** growing *)
Definition uniq_list (l : list (option entry)) : Prop :=
  forall i j e e', nth_error l i = Some (Some e) -> nth_error l j = Some (Some e') -> e_name V e = e_name V e' -> e_name V e <> [] -> i = j.
Definition named_list (l : list (option entry)) : Prop := forall e, In (Some e) l -> (e_def V e || e_array V e) = true -> e_name V e <> [].

Lemma unique_list sl : unique sl -> uniq_list sl.
Proof.
  intros H i j e e' H1 H2 Hn Hnn.
  assert (i < length sl) by (apply nth_error_Some; congruence).
  assert (j < length sl) by (apply nth_error_Some; congruence).
  rewrite nth_error_slot in H1, H2 by assumption. inversion H1. inversion H2. eapply H; eauto.
Qed.

Lemma named_In sl : named sl <-> named_list sl.
Proof.
  split.
  - intros H e He. apply has_In in He. destruct He as (j & Hj & Ej). apply (H j e Hj Ej).
  - intros H j e Hj Ej. apply H, has_In. exists j. auto.
Qed.

Fixpoint ndef (l : list (option entry)) : nat :=
  match l with [] => 0 | Some e :: r => (if e_def V e then 1 else 0) + ndef r | None :: r => ndef r end.
Lemma ndef_used l : ndef l <= used l.
Proof. induction l as [|[e|] l IH]; cbn; [lia|destruct (e_def V e); lia|exact IH]. Qed.

Lemma rehash_ok old : forall new nf freed,
  chained new -> unique new -> 0 < length new -> used new + ndef old < length new ->
  uniq_list old -> named_list old -> (forall e e', has new e -> In (Some e') old -> e_def V e' = true -> e_name V e <> [] -> e_name V e <> e_name V e') ->
  exists new' freed', rehash V old new nf freed hf = Ok (new', (nf - Z.of_nat (ndef old))%Z, freed') /\
    length new' = length new /\ chained new' /\ unique new' /\ used new' = used new + ndef old /\
    (forall e, has new' e <-> has new e \/ (In (Some e) old /\ e_def V e = true)) /\
    (forall e, In e freed' <-> In e freed \/ (In (Some e) old /\ e_def V e = false /\ e_inuse V e = false)).
Proof.
  induction old as [|[e|] old IH]; intros new nf freed Hc Hu Hl Hus Hq Hnm Hd; cbn [rehash ndef] in *.
  - exists new, freed. rewrite Z.sub_0_r, Nat.add_0_r. repeat split; auto; cbn; tauto.
  - assert (Hq' : uniq_list old).
    { intros i j a b H1 H2 Hn Hnn. specialize (Hq (S i) (S j) a b H1 H2 Hn Hnn). lia. }
    assert (Hnm' : named_list old) by (intros x Hx; apply Hnm; right; exact Hx).
    destruct (e_def V e) eqn:Ed.
    + pose proof (home_lt (length new) (hf (e_name V e)) Hl) as Hh.
      destruct (probe_ends (fun _ => false) new _ Hh) as (st & E).
      { apply used_lt_null. lia. }
      rewrite E. cbn [bind]. pose proof (probe_spec (fun _ => false) new (S (length new)) _ Hh) as P. rewrite E in P.
      destruct st as [i e'|i]; [destruct P as (k & _ & _ & _ & C & _); discriminate|].
      destruct P as (k & H1 & H2 & H3 & H4).
      assert (Hk : k < length new).
      { destruct (Nat.eq_dec k (length new)) as [->|]; [|lia]. exfalso.
        destruct (H4 (length new - 1)) as (x & Hx & _); [lia|].
        (* the slot of step size is the slot of step 0 *)
        assert (Ei : i = home (length new) (hf (e_name V e))).
        { rewrite H2. rewrite it_val by lia. destruct (Nat.leb_spec (length new) (home (length new) (hf (e_name V e)))); lia. }
        destruct (H4 0) as (y & Hy & _); [lia|]. cbn in Hy. rewrite <- Ei in Hy. congruence. }
      assert (Hi : i < length new) by (rewrite H2; apply it_lt, Hh).
      destruct (fill new e i k (fun _ => false)) as [Fc Fu]; auto.
      { intros e' He' Hnn. apply (Hd e' e He'); [left; reflexivity|exact Ed|exact Hnn]. }
      pose proof (used_set new i (Some e) Hi) as US. rewrite H3 in US.
      destruct (IH (set_slot V new i (Some e)) (nf - 1)%Z freed) as (new' & freed' & R & L1 & C1 & U1 & N1 & A1 & B1); auto.
      * rewrite set_slot_len by exact Hi. exact Hl.
      * rewrite set_slot_len by exact Hi. lia.
      * intros a b Ha Hb Hdb Hna. apply has_fill in Ha; auto. destruct Ha as [->|Ha].
        -- intros Hn. apply In_nth_error in Hb. destruct Hb as (j & Hb).
           specialize (Hq 0 (S j) e b eq_refl Hb Hn Hna). lia.
        -- apply (Hd a b Ha); auto. right. exact Hb.
      * exists new', freed'. rewrite set_slot_len in L1 by exact Hi. split.
        { rewrite R. f_equal. f_equal. f_equal. lia. }
        repeat split; auto; try lia.
        -- intros H. apply A1 in H. rewrite has_fill in H by auto. destruct H as [[->|H]|[H H']]; [right|left; exact H|right].
           ++ split; [left; reflexivity|exact Ed].
           ++ split; [right; exact H|exact H'].
        -- intros H. apply A1. rewrite has_fill by auto. destruct H as [H|[[H|H] H']]; [left; right; exact H| |right; auto].
           left. left. congruence.
        -- intros H. apply B1 in H. destruct H as [H|(H & Ha & Hb)]; [left; exact H|right; repeat split; auto; right; exact H].
        -- intros H. apply B1. destruct H as [H|([H|H] & Ha & Hb)]; [left; exact H| |right; auto]. inversion H. subst. congruence.
    + destruct (IH new nf (if e_inuse V e then freed else e :: freed)) as (new' & freed' & R & L1 & C1 & U1 & N1 & A1 & B1); auto.
      * intros a b Ha Hb. apply (Hd a b Ha); auto. right. exact Hb.
      * exists new', freed'. repeat split; auto.
        -- intros H. apply A1 in H. destruct H as [H|[H H']]; [left; exact H|right; split; [right; exact H|exact H']].
        -- intros H. apply A1. destruct H as [H|[[H|H] H']]; [left; exact H| |right; auto]. inversion H. subst. congruence.
        -- intros H. apply B1 in H. destruct H as [H|(H & Ha & Hb)]; [|right; repeat split; auto; right; exact H].
           destruct (e_inuse V e) eqn:Ei; [left; exact H|]. destruct H as [->|H]; [|left; exact H].
           right. repeat split; auto. left. reflexivity.
        -- intros H. apply B1. destruct H as [H|([H|H] & Ha & Hb)]; [left; destruct (e_inuse V e); [exact H|right; exact H]| |right; auto].
           inversion H. subst. rewrite Hb. left. left. reflexivity.
  - destruct (IH new nf freed) as (new' & freed' & R & L1 & C1 & U1 & N1 & A1 & B1); auto.
    + intros i j a b H1 H2 Hn Hnn. specialize (Hq (S i) (S j) a b H1 H2 Hn Hnn). lia.
    + intros x Hx. apply Hnm. right. exact Hx.
    + intros a b Ha Hb. apply (Hd a b Ha); auto. right. exact Hb.
    + exists new', freed'. repeat split; auto.
      * intros H. apply A1 in H. destruct H as [H|[H H']]; [left; exact H|right; split; [right; exact H|exact H']].
      * intros H. apply A1. destruct H as [H|[[H|H] H']]; [left; exact H|discriminate|right; auto].
      * intros H. apply B1 in H. destruct H as [H|(H & Ha & Hb)]; [left; exact H|right; repeat split; auto; right; exact H].
      * intros H. apply B1. destruct H as [H|([H|H] & Ha & Hb)]; [left; exact H|discriminate|right; auto].
Qed.

Lemma slot_repeat n j : slot (repeat None n) j = None.
Proof. unfold slot. revert j. induction n as [|n IH]; intros [|j]; cbn; auto. Qed.
Lemma used_repeat n : used (repeat None n) = 0.
Proof. induction n; cbn; auto. Qed.

Lemma texpand_ok t nsize : inv t -> 0 < nsize -> (7 * Z.of_nat nsize <= INT_MAX)%Z ->
  (Z.of_nat (used (slots V t)) <= 7 * Z.of_nat nsize / 10)%Z ->
  exists t' freed, texpand V t nsize hf = Ok (t', freed) /\ inv t' /\ size V t' = nsize /\
    used (slots V t') = ndef (slots V t) /\
    (forall e, has (slots V t') e <-> has (slots V t) e /\ e_def V e = true) /\
    (forall e, In e freed <-> has (slots V t) e /\ e_def V e = false /\ e_inuse V e = false).
Proof.
  intros I Hn Hmax Hus. unfold texpand. destruct (Z.ltb_spec INT_MAX (7 * Z.of_nat nsize)); [lia|].
  pose proof (ndef_used (slots V t)) as Hnd.
  destruct (rehash_ok (slots V t) (repeat None nsize) (7 * Z.of_nat nsize / 10)%Z []) as (sl & freed & R & L1 & C1 & U1 & N1 & A1 & B1).
  - intros j e Hj Ej. rewrite slot_repeat in Ej. discriminate.
  - intros i j e e' _ _ E. rewrite slot_repeat in E. discriminate.
  - rewrite repeat_length. exact Hn.
  - rewrite used_repeat, repeat_length. lia.
  - apply unique_list, I.
  - apply named_In, I.
  - intros e e' (j & _ & Ej). rewrite slot_repeat in Ej. discriminate.
  - rewrite R. cbn [bind]. rewrite repeat_length in L1. rewrite used_repeat in N1.
    exists (Table sl (7 * Z.of_nat nsize / 10 - Z.of_nat (ndef (slots V t)))%Z), freed. split; [reflexivity|].
    split.
    { constructor; cbn [slots nfree]; auto; try (unfold size; cbn [slots]; rewrite ?L1, ?N1; lia).
      intros j e Hj Ej Hd. assert (G : has sl e) by (exists j; auto). apply A1 in G.
      destruct G as [(i & _ & Ei)|[G _]]; [rewrite slot_repeat in Ei; discriminate|]. apply has_In in G. destruct G as (i & Hi & Ei). apply (inv_named t I i e Hi Ei Hd). }
    split; [exact L1|]. split; [cbn [slots]; lia|]. split.
    + intros e. cbn [slots]. rewrite A1, <- has_In. split; [intros [(j & _ & Ej)|H0]; [rewrite slot_repeat in Ej; discriminate|exact H0]|auto].
    + intros e. rewrite B1, <- has_In. cbn [In]. tauto.
Qed.

Lemma inv_empty : inv (Table [] 0).
Proof. constructor; cbn; try lia; intros ?; intros; cbn in *; lia. Qed.

(** ** enter *)
Definition same_defs (sl sl' : list (option entry)) : Prop :=
  forall e, e_def V e = true -> (has sl' e <-> has sl e).

Definition enter_ok t n (r : table * nat * entry) : Prop :=
  let '(t', i, e) := r in
  inv t' /\ i < size V t' /\ slot (slots V t') i = Some e /\ e_name V e = n /\
  used (slots V t') <= S (used (slots V t)) /\
  same_defs (slots V t) (slots V t').

Lemma insert_here t n i : inv t -> n <> [] -> 0 < size V t -> (0 < nfree V t)%Z ->
  probe V (S (size V t)) (slots V t) (fun e => str_eqb (e_name V e) n) (home (size V t) (hf n)) = Ok (Null i) ->
  enter_ok t n (Table (set_slot V (slots V t) i (Some (Entry n false false false None))) (nfree V t - 1)%Z, i, Entry n false false false None)
  /\ size V (Table (set_slot V (slots V t) i (Some (Entry n false false false None))) (nfree V t - 1)%Z) = size V t.
Proof.
  intros I Hnn Hs Hf E. unfold size in *.
  pose proof (home_lt (length (slots V t)) (hf n) Hs) as Hh.
  pose proof (probe_spec (fun e => str_eqb (e_name V e) n) (slots V t) (S (length (slots V t))) _ Hh) as P. rewrite E in P.
  destruct P as (k & H1 & H2 & H3 & H4).
  assert (Hi : i < length (slots V t)) by (rewrite H2; apply it_lt, Hh).
  assert (Hk : k < length (slots V t)).
  { destruct (Nat.eq_dec k (length (slots V t))) as [->|]; [|lia]. exfalso.
    assert (Ei : i = home (length (slots V t)) (hf n)).
    { rewrite H2. rewrite it_val by lia. destruct (Nat.leb_spec (length (slots V t)) (home (length (slots V t)) (hf n))); lia. }
    destruct (H4 0) as (y & Hy & _); [lia|]. cbn in Hy. rewrite <- Ei in Hy. congruence. }
  assert (Hnew : forall e', has (slots V t) e' -> e_name V e' <> n).
  { intros e' He' Hn. destruct (probe_finds (slots V t) e' (fun e => str_eqb (e_name V e) n)) as (j & F & _); try apply I; auto.
    - congruence.
    - cbv beta. rewrite Hn. apply str_eqb_refl.
    - intros e'' H'. apply str_eqb_true in H'. congruence.
    - rewrite Hn in F. rewrite F in E. discriminate. }
  set (e0 := Entry n false false false None).
  destruct (fill (slots V t) e0 i k (fun e => str_eqb (e_name V e) n)) as [Fc Fu]; try apply I; auto.
  pose proof (used_set (slots V t) i (Some e0) Hi) as US. rewrite H3 in US.
  split; [|cbn [slots]; apply set_slot_len, Hi].
  unfold enter_ok. cbn [slots]. split; [|split; [|split; [|split; [|split]]]].
  - destruct I as [I1 I2 I0 I3 I4]. constructor; cbn [slots nfree]; auto; try (unfold size in *; cbn [slots]; rewrite ?set_slot_len by exact Hi; lia).
    intros j e Hj Ej Hd. rewrite set_slot_len in Hj by exact Hi. rewrite slot_set in Ej by exact Hi. destruct (Nat.eqb_spec j i); [inversion Ej; subst e; discriminate|apply (I0 j e Hj Ej Hd)].
  - unfold size; cbn [slots]. rewrite set_slot_len by exact Hi. exact Hi.
  - rewrite slot_set, Nat.eqb_refl by exact Hi. reflexivity.
  - reflexivity.
  - lia.
  - intros e He. rewrite has_fill by auto. split; [intros [->|H]; [discriminate|exact H]|auto].
Qed.

Lemma find_here t n i e : inv t -> 0 < size V t ->
  probe V (S (size V t)) (slots V t) (fun e => str_eqb (e_name V e) n) (home (size V t) (hf n)) = Ok (Found i e) ->
  enter_ok t n (t, i, e).
Proof.
  intros I Hs E. unfold size in *.
  pose proof (home_lt (length (slots V t)) (hf n) Hs) as Hh.
  pose proof (probe_spec (fun e => str_eqb (e_name V e) n) (slots V t) (S (length (slots V t))) _ Hh) as P. rewrite E in P.
  destruct P as (k & H1 & H2 & H3 & H4 & _).
  split; [exact I|]. split; [unfold size; rewrite H2; apply it_lt, Hh|]. split; [exact H3|]. split; [apply str_eqb_true, H4|].
  split; [lia|]. intros e' _. tauto.
Qed.

Lemma enter_from_ok t n : inv t -> n <> [] -> 0 < size V t -> (Z.of_nat (used (slots V t)) < 100000000)%Z ->
  exists r, enter_from V 2 t n hf = Ok r /\ enter_ok t n r.
Proof.
  intros I Hnn Hs Hb. change (enter_from V 2 t n hf) with
    (do s <- probe V (S (size V t)) (slots V t) (fun e => str_eqb (e_name V e) n) (home (size V t) (hf n)) ;
    match s with
    | Found i e => Ok (t, i, e)
    | Null i =>
      if (nfree V t <=? 0)%Z then
        if (Z.of_nat (size V t) <=? INT_MAX / 2)%Z then
          do r <- texpand V t (2 * size V t) hf ; enter_from V 1 (fst r) n hf
        else Err
      else
        let e := Entry n false false false None in
        Ok (Table (set_slot V (slots V t) i (Some e)) (nfree V t - 1)%Z, i, e)
    end).
  pose proof (home_lt (size V t) (hf n) Hs) as Hh.
  destruct (probe_ends (fun e => str_eqb (e_name V e) n) (slots V t) _ Hh (inv_null t I Hs)) as (st & E).
  fold (size V t) in E. rewrite E. cbn [bind]. destruct st as [i e|i].
  - eexists. split; [reflexivity|]. apply find_here; assumption.
  - pose proof (inv_free t I) as If. pose proof (inv_nonneg t I) as Ig.
    destruct (Z.leb_spec (nfree V t) 0) as [Hf|Hf].
    + destruct (Z.leb_spec (Z.of_nat (size V t)) (INT_MAX / 2)) as [_|Hc]; [|unfold INT_MAX in Hc; lia].
      destruct (texpand_ok t (2 * size V t) I) as (t' & freed & X & I' & S' & U' & A' & _); [lia|unfold INT_MAX; lia|lia|].
      rewrite X. cbn [bind fst].
      assert (Hs' : 0 < size V t') by lia.
      pose proof (home_lt (size V t') (hf n) Hs') as Hh'.
      destruct (probe_ends (fun e => str_eqb (e_name V e) n) (slots V t') _ Hh' (inv_null t' I' Hs')) as (st & E').
      fold (size V t') in E'. cbn [enter_from]. rewrite E'. cbn [bind].
      pose proof (ndef_used (slots V t)) as Hnd.
      assert (SD : same_defs (slots V t) (slots V t')) by (intros e He; rewrite A'; tauto).
      destruct st as [j e|j].
      * eexists. split; [reflexivity|]. destruct (find_here t' n j e I' Hs' E') as (G1 & G2 & G3 & G4 & G5 & G6).
        split; [exact G1|]. repeat split; auto; try lia; [apply SD|apply SD]; auto.
      * pose proof (inv_free t' I') as If'. rewrite S', U' in If'.
        assert (Hpos : (0 < nfree V t')%Z) by lia.
        destruct (Z.leb_spec (nfree V t') 0) as [C|_]; [lia|].
        eexists. split; [reflexivity|]. destruct (insert_here t' n j I' Hnn Hs' Hpos E') as [(G1 & G2 & G3 & G4 & G5 & G6) _].
        split; [exact G1|]. split; [exact G2|]. split; [exact G3|]. split; [exact G4|]. split; [lia|].
        intros e He. rewrite (G6 e He). apply SD, He.
    + eexists. split; [reflexivity|]. apply insert_here; assumption.
Qed.

Lemma ktenter_ok t n : inv t -> n <> [] -> (Z.of_nat (used (slots V t)) < 100000000)%Z ->
  exists r, ktenter V t n hf = Ok r /\ enter_ok t n r.
Proof.
  intros I Hnn Hb. unfold ktenter. destruct (size V t) as [|s] eqn:Es.
  - assert (E0 : slots V t = []) by (apply length_zero_iff_nil, Es).
    destruct (texpand_ok t 8 I) as (t' & freed & X & I' & S' & U' & A' & _); [lia|unfold INT_MAX; lia|rewrite E0; cbn; lia|].
    rewrite X. cbn [bind fst]. rewrite E0 in *. cbn [ndef used] in *.
    destruct (enter_from_ok t' n I' Hnn) as (r & E & G); [lia|lia|]. exists r. split; [exact E|].
    destruct r as [[t2 i] e]. destruct G as (G1 & G2 & G3 & G4 & G5 & G6).
    split; [exact G1|]. split; [exact G2|]. split; [exact G3|]. split; [exact G4|]. split; [rewrite E0; cbn [used]; lia|].
    intros e' He. rewrite (G6 e' He), A'. rewrite E0. tauto.
  - apply enter_from_ok; auto. lia.
Qed.

(** ** changing an entry in place *)
Lemma change_ok t i e e' : inv t -> i < size V t -> slot (slots V t) i = Some e -> (e_name V e' = e_name V e /\ e_name V e <> [] \/ e_name V e' = [] /\ e_def V e' = false /\ e_array V e' = false) ->
  inv (Table (set_slot V (slots V t) i (Some e')) (nfree V t)).
Proof.
  intros [I1 I2 I0 I3 I4] Hi Ei Hn. unfold size in *.
  pose proof (used_set (slots V t) i (Some e') Hi) as US. rewrite Ei in US.
  constructor; unfold size in *; cbn [slots nfree] in *; rewrite ?set_slot_len by exact Hi; auto; try lia.
  - intros j x Hj Ej Hnn. rewrite set_slot_len in * by exact Hi. rewrite slot_set in Ej by exact Hi.
    assert (K : forall m q, slot (slots V t) (it (length (slots V t)) m q) <> None -> slot (set_slot V (slots V t) i (Some e')) (it (length (slots V t)) m q) <> None).
    { intros m q H. rewrite slot_set by exact Hi. destruct (it (length (slots V t)) m q =? i); [discriminate|exact H]. }
    destruct (Nat.eqb_spec j i) as [->|Hne].
    + inversion Ej. subst x. destruct Hn as [[Hn Hne]|[Hn _]]; [|contradiction]. rewrite Hn. destruct (I1 i e Hi Ei Hne) as (k & H1 & H2 & H3). exists k. auto.
    + destruct (I1 j x Hj Ej Hnn) as (k & H1 & H2 & H3). exists k. auto.
  - intros j1 j2 e1 e2 H1 H2 E1 E2 Hnm Hnn. rewrite set_slot_len in H1, H2 by exact Hi. rewrite slot_set in E1, E2 by exact Hi.
    destruct (Nat.eqb_spec j1 i) as [->|], (Nat.eqb_spec j2 i) as [->|]; auto.
    + inversion E1. subst. destruct Hn as [[Hn Hne]|[Hn _]]; [|contradiction]. apply (I2 i j2 e e2); auto; congruence.
    + inversion E2. subst. destruct Hn as [[Hn Hne]|[Hn _]]; [|congruence]. apply (I2 j1 i e1 e); auto; congruence.
    + eapply I2; eauto.
  - intros j x Hj Ej Hd. rewrite set_slot_len in Hj by exact Hi. rewrite slot_set in Ej by exact Hi.
    destruct (Nat.eqb_spec j i) as [->|Hne]; [|apply (I0 j x Hj Ej Hd)]. inversion Ej. subst x.
    destruct Hn as [[Hn Hne]|(_ & Hn1 & Hn2)]; [congruence|]. rewrite Hn1, Hn2 in Hd. discriminate.
Qed.

(** ** abstraction *)
Definition repr t (m : fmap V) : Prop := forall n,
  match m n with
  | Some v => exists e, has (slots V t) e /\ e_name V e = n /\ e_def V e = true /\ e_val V e = Some v
  | None => forall e, has (slots V t) e -> e_name V e = n -> e_def V e = false
  end.

Lemma repr_same t t' m : repr t m -> same_defs (slots V t) (slots V t') -> repr t' m.
Proof.
  intros R SD n. specialize (R n). destruct (m n) as [v|].
  - destruct R as (e & H1 & H2 & H3 & H4). exists e. split; [apply SD; assumption|auto].
  - intros e He Hn. destruct (e_def V e) eqn:Ed; [|reflexivity]. rewrite <- Ed. apply R; auto. apply SD; assumption.
Qed.

(** replacing a defined entry by one that is not defined removes its name *)
Lemma undef_repr t m n i e e1 : inv t -> repr t m -> i < size V t -> slot (slots V t) i = Some e -> e_name V e = n -> e_def V e = true ->
  e_def V e1 = false -> repr (Table (set_slot V (slots V t) i (Some e1)) (nfree V t)) (fset V m n None).
Proof.
  intros I R H1 H2 H3 H4 H5. unfold size in H1. assert (Hnn : e_name V e <> []) by (apply (inv_named t I i e H1 H2); rewrite H4; reflexivity).
  intros x. unfold fset. destruct (str_eqb_spec x n) as [->|Hne].
  - intros y Hy Hn. cbn [slots] in Hy. apply has_set in Hy; [|exact H1]. destruct Hy as [Hy|(j & Hj & Hji & Ej)].
    + congruence.
    + exfalso. apply Hji. apply (inv_uniq t I j i y e); auto; congruence.
  - specialize (R x). destruct (m x) as [w|].
    + destruct R as (y & J1 & J2 & J3 & J4). exists y. split; [|auto]. cbn [slots]. apply has_set; [exact H1|].
      destruct J1 as (j & Hj & Ej). right. exists j. repeat split; auto. intros ->. rewrite H2 in Ej. inversion Ej. congruence.
    + intros y Hy Hn. cbn [slots] in Hy. apply has_set in Hy; [|exact H1]. destruct Hy as [Hy|(j & Hj & _ & Ej)].
      * congruence.
      * apply R; auto. exists j. auto.
Qed.
Lemma keep_repr t m i e e1 : repr t m -> i < size V t -> slot (slots V t) i = Some e ->
  e_name V e1 = e_name V e -> e_def V e1 = e_def V e -> e_val V e1 = e_val V e -> repr (Table (set_slot V (slots V t) i (Some e1)) (nfree V t)) m.
Proof.
  intros R H1 H2 H3 H4 H5 x. unfold size in H1. specialize (R x). destruct (m x) as [w|].
  - destruct R as (y & (j & Hj & Ej) & J2 & J3 & J4). destruct (Nat.eq_dec j i) as [->|Hne].
    + rewrite H2 in Ej. inversion Ej. subst y. exists e1. split; [cbn [slots]; apply has_set; [exact H1|left; reflexivity]|]. repeat split; congruence.
    + exists y. split; [|auto]. cbn [slots]. apply has_set; [exact H1|right; exists j; auto].
  - intros y Hy Hn. cbn [slots] in Hy. apply has_set in Hy; [|exact H1]. destruct Hy as [Hy|(j & Hj & _ & Ej)].
    + inversion Hy. subst y. rewrite H4. apply R; [exists i; auto|congruence].
    + apply R; auto. exists j. auto.
Qed.

Lemma do_op_ok t m o : inv t -> repr t m -> op_name V o <> [] -> (Z.of_nat (used (slots V t)) < 100000000)%Z ->
  exists t', do_op V hf t o = Ok t' /\ inv t' /\ repr t' (fop V m o) /\ used (slots V t') <= S (used (slots V t)).
Proof.
  intros I R Hnn Hb. destruct o as [n|n v|n|n b|n]; cbn [do_op fop op_name] in *.
  - destruct (ktenter_ok t n I Hnn Hb) as (((t' & i) & e) & E & G). rewrite E. cbn [bind fst].
    destruct G as (G1 & G2 & G3 & G4 & G5 & G6). exists t'. split; [reflexivity|]. split; [exact G1|]. split; [|exact G5].
    eapply repr_same; eauto.
  - destruct (ktenter_ok t n I Hnn Hb) as (((t' & i) & e) & E & G). rewrite E. cbn [bind fst snd].
    destruct G as (G1 & G2 & G3 & G4 & G5 & G6).
    unfold define_at. rewrite (nth_error_slot _ _ G2), G3.
    set (e1 := Entry (e_name V e) true (e_inuse V e) (e_array V e) (Some v)).
    eexists. split; [reflexivity|]. split; [apply (change_ok t' i e e1); auto; left; split; [reflexivity|congruence]|]. split.
    + pose proof (repr_same _ _ _ R G6) as R'. intros x. unfold fset. unfold size in G2.
      destruct (str_eqb_spec x n) as [->|Hne].
      * exists e1. split; [cbn [slots]; apply has_set; [exact G2|left; reflexivity]|]. repeat split; auto.
      * specialize (R' x). destruct (m x) as [w|].
        -- destruct R' as (y & H1 & H2 & H3 & H4). exists y. split; [|auto]. cbn [slots]. apply has_set; [exact G2|].
           destruct H1 as (j & Hj & Ej). right. exists j. repeat split; auto. intros ->. rewrite G3 in Ej. inversion Ej. congruence.
        -- intros y Hy Hn. cbn [slots] in Hy. apply has_set in Hy; [|exact G2]. destruct Hy as [Hy|(j & Hj & _ & Ej)].
           ++ inversion Hy. subst y. cbn in Hn. congruence.
           ++ apply R'; auto. exists j. auto.
    + cbn [slots]. unfold size in G2. pose proof (used_set (slots V t') i (Some e1) G2) as US. rewrite G3 in US. lia.
  - pose proof (ktsearch_spec t n I) as S. destruct (ktsearch V t n hf) as [[[i e]|]| |]; try (destruct S; fail); cbn [bind].
    + destruct S as (H1 & H2 & H3 & H4). unfold ktdelete. rewrite (nth_error_slot _ _ H1), H2.
      set (e1 := Entry (e_name V e) false false false (e_val V e)).
      eexists. split; [reflexivity|]. split; [apply (change_ok t i e e1); auto; left; split; [reflexivity|congruence]|]. split.
      * apply (undef_repr t m n i e e1); auto.
      * cbn [slots]. unfold size in H1. pose proof (used_set (slots V t) i (Some e1) H1) as US. rewrite H2 in US. lia.
    + exists t. split; [reflexivity|]. split; [exact I|]. split; [|lia].
      intros x. unfold fset. destruct (str_eqb_spec x n) as [->|Hne]; [exact S|apply R].
  - pose proof (ktsearch_spec t n I) as S. destruct (ktsearch V t n hf) as [[[i e]|]| |]; try (destruct S; fail); cbn [bind].
    + destruct S as (H1 & H2 & H3 & H4). unfold use_at. rewrite (nth_error_slot _ _ H1), H2.
      set (e1 := Entry (e_name V e) (e_def V e) b (e_array V e) (e_val V e)).
      eexists. split; [reflexivity|]. split; [apply (change_ok t i e e1); auto; left; split; [reflexivity|congruence]|]. split.
      * apply (keep_repr t m i e e1); auto.
      * cbn [slots]. unfold size in H1. pose proof (used_set (slots V t) i (Some e1) H1) as US. rewrite H2 in US. lia.
    + exists t. auto.
  - pose proof (ktsearch_spec t n I) as S. destruct (ktsearch V t n hf) as [[[i e]|]| |]; try (destruct S; fail); cbn [bind].
    + destruct S as (H1 & H2 & H3 & H4). unfold hide_at. rewrite (nth_error_slot _ _ H1), H2.
      set (e1 := Entry [] false (e_inuse V e) false (e_val V e)).
      eexists. split; [reflexivity|]. split; [apply (change_ok t i e e1); auto|]. split.
      * apply (undef_repr t m n i e e1); auto.
      * cbn [slots]. unfold size in H1. pose proof (used_set (slots V t) i (Some e1) H1) as US. rewrite H2 in US. lia.
    + exists t. split; [reflexivity|]. split; [exact I|]. split; [|lia].
      intros x. unfold fset. destruct (str_eqb_spec x n) as [->|Hne]; [exact S|apply R].
Qed.

Lemma run_ok ops : forall t m, inv t -> repr t m -> Forall (fun o => op_name V o <> []) ops -> (Z.of_nat (used (slots V t)) + Z.of_nat (length ops) <= 100000000)%Z ->
  exists t', run V hf t ops = Ok t' /\ inv t' /\ repr t' (frun V m ops).
Proof.
  induction ops as [|o ops IH]; intros t m I R Hops Hb; cbn [run length] in *.
  - exists t. auto.
  - inversion Hops as [|? ? Ho Hops']; subst. destruct (do_op_ok t m o I R Ho) as (t1 & E & I1 & R1 & U1); [lia|]. rewrite E. cbn [bind].
    apply IH; auto. lia.
Qed.

Lemma ktinit_ok tsize : (7 * Z.of_nat tsize <= INT_MAX)%Z -> exists t, ktinit V tsize hf = Ok t /\ inv t /\ repr t (fempty V) /\ used (slots V t) = 0.
Proof.
  intros H. unfold ktinit. destruct tsize as [|n].
  - eexists. split; [reflexivity|]. split; [apply inv_empty|]. split; [|reflexivity]. intros x e (j & Hj & _). cbn in Hj. lia.
  - destruct (texpand_ok (Table [] 0) (S n) inv_empty) as (t & freed & E & I & S & U & A & _); [lia|exact H|cbn [slots used]; lia|].
    rewrite E. eexists. split; [reflexivity|]. split; [exact I|]. split; [|exact U].
    intros x e He. apply A in He. destruct He as [(j & Hj & _) _]. cbn in Hj. lia.
Qed.

Lemma search_repr t m n : inv t -> repr t m ->
  exists r, ktsearch V t n hf = Ok r /\
    match m n with Some v => exists i e, r = Some (i, e) /\ e_name V e = n /\ e_val V e = Some v | None => r = None end.
Proof.
  intros I R. pose proof (ktsearch_spec t n I) as S. specialize (R n).
  destruct (ktsearch V t n hf) as [[[i e]|]| |]; try (destruct S; fail); eexists; (split; [reflexivity|]).
  - destruct S as (H1 & H2 & H3 & H4). destruct (m n) as [v|].
    + destruct R as (y & (j & Hj & Ej) & J2 & J3 & J4). exists i, e. repeat split; auto.
      assert (i = j) by (apply (inv_uniq t I i j e y); auto; [congruence|apply (inv_named t I i e H1 H2); rewrite H4; reflexivity]). subst j. congruence.
    + rewrite (R e) in H4; [discriminate|exists i; auto|exact H3].
  - destruct (m n) as [v|]; [|reflexivity]. destruct R as (y & Hy & J2 & J3 & J4). rewrite (S y Hy J2) in J3. discriminate.
Qed.

(** ** walking and sorting *)
Lemma walk_In t e : In e (walk V t) <-> has (slots V t) e /\ e_def V e = true.
Proof.
  unfold walk. rewrite in_flat_map, has_In. split.
  - intros ([x|] & H1 & H2); [|destruct H2]. destruct (e_def V x) eqn:E; [destruct H2 as [<-|[]]; auto|destruct H2].
  - intros [H1 H2]. exists (Some e). rewrite H2. split; [exact H1|left; reflexivity].
Qed.

Definition pick (p : entry -> bool) sl : list entry :=
  flat_map (fun o => match o with Some e => if p e then [e] else [] | None => [] end) sl.

Lemma pick_nodup p sl : uniq_list sl -> (forall e, In (Some e) sl -> p e = true -> e_name V e <> []) -> NoDup (map (e_name V) (pick p sl)).
Proof.
  induction sl as [|[e|] sl IH]; intros H HN; cbn [pick flat_map map]; [constructor| |].
  - assert (H' : uniq_list sl) by (intros i j a b H1 H2 Hn Hnn; specialize (H (S i) (S j) a b H1 H2 Hn Hnn); lia).
    assert (HN' : forall e, In (Some e) sl -> p e = true -> e_name V e <> []) by (intros x Hx; apply HN; right; exact Hx).
    fold (pick p sl). destruct (p e) eqn:Ep; [|apply IH; assumption]. cbn [app map]. constructor; [|apply IH; assumption].
    intros C. apply in_map_iff in C. destruct C as (x & Hn & Hx). unfold pick in Hx. apply in_flat_map in Hx.
    destruct Hx as ([y|] & Hy & Hxy); [|destruct Hxy]. destruct (p y); [destruct Hxy as [->|[]]|destruct Hxy].
    apply In_nth_error in Hy. destruct Hy as (j & Hj). specialize (H 0 (S j) e x eq_refl Hj). rewrite Hn in H.
    specialize (H eq_refl (HN e (or_introl eq_refl) Ep)). lia.
  - apply IH; [intros i j a b H1 H2 Hn Hnn; specialize (H (S i) (S j) a b H1 H2 Hn Hnn); lia|]. intros x Hx. apply HN. right. exact Hx.
Qed.

Lemma walk_nodup t : inv t -> NoDup (map (e_name V) (walk V t)).
Proof.
  intros I. apply (pick_nodup (e_def V)); [apply unique_list, I|]. intros e He Hd.
  apply (proj1 (named_In _) (inv_named t I) e He). rewrite Hd. reflexivity.
Qed.

Lemma ins_perm e l : Permutation (ins V e l) (e :: l).
Proof. induction l as [|x l IH]; cbn; [reflexivity|]. destruct (str_le _ _); [reflexivity|]. rewrite IH. apply perm_swap. Qed.
Lemma sort_perm l : Permutation (isort V l) l.
Proof. induction l as [|x l IH]; cbn; [constructor|]. rewrite ins_perm, IH. reflexivity. Qed.

Lemma str_le_spec a : forall b, str_le a b = true <-> a = b \/ str_lt a b.
Proof.
  induction a as [|x a IH]; intros b; destruct b as [|y b]; cbn [str_le].
  - split; auto.
  - split; [right; constructor|reflexivity].
  - split; [discriminate|intros [H|H]; [discriminate|inversion H]].
  - destruct (ceq_spec x y) as [->|Hne].
    + rewrite IH. split; intros [H|H]; [left; congruence|right; constructor; exact H|left; congruence|].
      inversion H; subst; [lia|right; assumption].
    + rewrite Z.ltb_lt. split; [intros H; right; constructor; exact H|]. intros [H|H]; [congruence|].
      inversion H; subst; [assumption|congruence].
Qed.

Lemma str_trich a : forall b, str_lt a b \/ a = b \/ str_lt b a.
Proof.
  induction a as [|x a IH]; intros [|y b]; [auto|left; constructor|right; right; constructor|].
  destruct (Z.lt_trichotomy (ccode x) (ccode y)) as [H|[H|H]].
  - left. constructor. exact H.
  - assert (x = y). { unfold ccode in H. apply N2Z.inj in H. rewrite <- (ascii_N_embedding x), <- (ascii_N_embedding y), H. reflexivity. }
    subst y. destruct (IH b) as [G|[->|G]]; [left; constructor; exact G|auto|right; right; constructor; exact G].
  - right. right. constructor. exact H.
Qed.
Lemma str_lt_trans a b c : str_lt a b -> str_lt b c -> str_lt a c.
Proof.
  intros H. revert c. induction H as [x s|x y s t Hxy|x s t H IH]; intros c Hc.
  - inversion Hc; constructor.
  - inversion Hc; subst; [apply lt_head; lia|apply lt_head; assumption].
  - inversion Hc; subst; [apply lt_head; assumption|apply lt_tail; auto].
Qed.

Definition name_lt (a b : entry) : Prop := str_lt (e_name V a) (e_name V b).
Lemma ins_sorted e l : ~ In (e_name V e) (map (e_name V) l) -> StronglySorted name_lt l -> StronglySorted name_lt (ins V e l).
Proof.
  induction l as [|x l IH]; intros Hn Hs; cbn [ins]; [repeat constructor|].
  inversion Hs; subst. rewrite Forall_forall in H2. destruct (str_le (e_name V e) (e_name V x)) eqn:E.
  - apply str_le_spec in E. destruct E as [E|E]; [exfalso; apply Hn; left; congruence|].
    constructor; [exact Hs|]. rewrite Forall_forall. intros y [<-|Hy]; [exact E|]. eapply str_lt_trans; [exact E|apply H2, Hy].
  - assert (Hlt : str_lt (e_name V x) (e_name V e)).
    { destruct (str_trich (e_name V e) (e_name V x)) as [H|[H|H]]; auto.
      - rewrite (proj2 (str_le_spec _ _)) in E; [discriminate|right; exact H].
      - exfalso. apply Hn. left. congruence. }
    constructor; [apply IH; auto; intros C; apply Hn; right; exact C|].
    rewrite Forall_forall. intros y Hy. apply (Permutation_in _ (ins_perm e l)) in Hy. destruct Hy as [<-|Hy]; [exact Hlt|apply H2, Hy].
Qed.
Lemma sort_sorted l : NoDup (map (e_name V) l) -> StronglySorted name_lt (isort V l).
Proof.
  induction l as [|x l IH]; intros H; cbn [isort]; [constructor|]. inversion H; subst. apply ins_sorted; [|apply IH; assumption].
  intros C. apply H2. apply in_map_iff in C. destruct C as (y & E & Hy). apply (Permutation_in _ (sort_perm l)) in Hy.
  rewrite <- E. apply in_map, Hy.
Qed.

Lemma ktsort_ok t : inv t -> StronglySorted name_lt (ktsort V t) /\
  forall e, In e (ktsort V t) <-> has (slots V t) e /\ (e_def V e = true \/ e_array V e = true).
Proof.
  intros I. unfold ktsort. split.
  - apply sort_sorted. apply (pick_nodup (fun e => e_def V e || e_array V e)); [apply unique_list, I|]. apply (proj1 (named_In _) (inv_named t I)).
  - intros e. rewrite has_In. split.
    + intros H. apply (Permutation_in _ (sort_perm _)) in H. apply in_flat_map in H. destruct H as ([x|] & H1 & H2); [|destruct H2].
      destruct (e_def V x || e_array V x) eqn:E; [destruct H2 as [<-|[]]; apply orb_true_iff in E; auto|destruct H2].
    + intros [H1 H2]. apply (Permutation_in _ (Permutation_sym (sort_perm _))). apply in_flat_map. exists (Some e).
      apply orb_true_iff in H2. rewrite H2. split; [exact H1|left; reflexivity].
Qed.
End Proof.
