From Verif Require Import Base Num_model Num_spec.
Local Open Scope Z_scope.
Ltac Zify.zify_post_hook ::= Z.div_mod_to_equations.

(** digit tables agree with the specification's digit values *)
Definition tbl_ok (tbl : cstr) (b : Z) : Prop :=
  forall d, 0 <= d < b -> exists c, nth_error tbl (Z.to_nat d) = Some c /\ digit_of c = Some d /\
     (c = "0"%char -> d = 0).

Lemma tbl_check tbl (b : nat) :
  forallb (fun k => match nth_error tbl k with
                    | Some c => match digit_of c with Some d => (d =? Z.of_nat k) && (negb (ceq c "0") || (d =? 0)) | None => false end
                    | None => false end) (seq 0 b) = true ->
  tbl_ok tbl (Z.of_nat b).
Proof.
  intros H d Hd. rewrite forallb_forall in H. specialize (H (Z.to_nat d)).
  destruct (nth_error tbl (Z.to_nat d)) as [c|]; [|discriminate H; apply in_seq; lia].
  exists c. destruct (digit_of c) as [d'|]; [|discriminate H; apply in_seq; lia].
  assert (H' : (d' =? Z.of_nat (Z.to_nat d)) && (negb (ceq c "0") || (d' =? 0)) = true) by (apply H, in_seq; lia).
  apply andb_true_iff in H'. destruct H' as [H1 H2].
  apply Z.eqb_eq in H1. rewrite Z2Nat.id in H1 by lia. subst d'.
  repeat split. intros ->. rewrite ceq_refl in H2. cbn in H2. lia.
Qed.

Lemma tbl_lower_ok : tbl_ok digits_lower 36.
Proof. apply (tbl_check digits_lower 36). vm_compute. reflexivity. Qed.
Lemma tbl_upper_ok : tbl_ok digits_upper 36.
Proof. apply (tbl_check digits_upper 36). vm_compute. reflexivity. Qed.
Lemma tbl_hex_ok : tbl_ok (L "0123456789ABCDEF" ++ [NUL]) 16.
Proof. apply (tbl_check _ 16). vm_compute. reflexivity. Qed.
Lemma tbl_ok_le tbl a b : tbl_ok tbl b -> a <= b -> tbl_ok tbl a.
Proof. intros H Hab d Hd. apply H. lia. Qed.

Definition head_nz (ds : cstr) : Prop := match ds with [] => False | c :: _ => c <> "0"%char end.

Lemma denotes_nonempty b ds n : denotes b ds n -> ds <> [].
Proof. destruct 1; [discriminate|]. destruct ds; discriminate. Qed.

Lemma put_digits_ok tbl b : 2 <= b -> tbl_ok tbl b -> forall room n acc,
  0 <= n < b ^ Z.of_nat room -> (0 < room)%nat ->
  exists ds, put_digits tbl room n b acc = Ok (ds ++ acc, (room - length ds)%nat) /\
    denotes b ds n /\ (n <> 0 -> head_nz ds) /\ (n = 0 -> ds = ["0"%char] \/ length ds = 1%nat) /\
    (length ds <= room)%nat /\
    (length ds = 1%nat \/ b ^ (Z.of_nat (length ds) - 1) <= n).
Proof.
  intros Hb Ht. induction room as [|room IH]; intros n acc Hn Hr; [lia|].
  cbn [put_digits].
  destruct (Ht (n mod b)) as (c & Hc1 & Hc2 & Hc3). { apply Z.mod_pos_bound; lia. }
  rewrite Hc1.
  destruct (Z.eqb_spec (n / b) 0) as [E|E].
  - exists [c]. assert (Hm : n mod b = n). { apply Z.mod_small. pose proof (Z.div_mod n b ltac:(lia)). split; [lia|]. pose proof (Z.mod_pos_bound n b ltac:(lia)). lia. }
    rewrite Hm in *. cbn [length app]. replace (S room - 1)%nat with room by lia.
    repeat split; auto; try lia.
    + apply den_one; [assumption|]. pose proof (Z.mod_pos_bound n b). lia.
    + cbn. intros Hn0 ->. auto.
  - assert (Hroom : (0 < room)%nat).
    { destruct room; [|lia]. exfalso. apply E. apply Z.div_small. cbn in Hn. lia. }
    destruct (IH (n / b) (c :: acc)) as (ds & H1 & H2 & H3 & _ & H5 & H6).
    { split. apply Z.div_pos; lia. apply Z.div_lt_upper_bound; [lia|].
      rewrite Nat2Z.inj_succ, Z.pow_succ_r in Hn by lia. lia. }
    { assumption. }
    exists (ds ++ [c]). rewrite app_length. cbn [length].
    rewrite H1, <- app_assoc. cbn [app].
    replace (S room - (length ds + 1))%nat with (room - length ds)%nat by lia.
    split; [reflexivity|]. split.
    { replace n with ((n / b) * b + n mod b) at 1 by (pose proof (Z.div_mod n b ltac:(lia)); lia).
      apply den_snoc; auto. apply Z.mod_pos_bound; lia. }
    specialize (H3 E).
    split. { intros _. destruct ds; [destruct H3|exact H3]. }
    split. { intros ->. exfalso. apply E. apply Z.div_0_l. lia. }
    split. { lia. }
    right.
    pose proof (denotes_nonempty _ _ _ H2) as Hne.
    assert (Hlen : (1 <= length ds)%nat) by (destruct ds; [congruence|cbn; lia]).
    assert (Hq : 1 <= n / b) by (assert (0 <= n / b) by (apply Z.div_pos; lia); lia).
    assert (Hge : b ^ (Z.of_nat (length ds) - 1) <= n / b).
    { destruct H6 as [->|]; [cbn; lia|assumption]. }
    replace (Z.of_nat (length ds + 1) - 1) with (Z.succ (Z.of_nat (length ds) - 1)) by lia.
    rewrite Z.pow_succ_r by lia.
    apply Z.le_trans with (b * (n / b)). { apply Z.mul_le_mono_nonneg_l; lia. }
    apply Z.mul_div_le. lia.
Qed.

Lemma put_digits_ub tbl b : 2 <= b -> tbl_ok tbl b -> forall room n acc,
  0 <= n -> b ^ Z.of_nat room <= n ->
  put_digits tbl room n b acc = UB.
Proof.
  intros Hb Ht. induction room as [|room IH]; intros n acc Hn Hr; [reflexivity|].
  cbn [put_digits].
  destruct (Ht (n mod b)) as (c & Hc1 & Hc2 & Hc3). { apply Z.mod_pos_bound; lia. }
  rewrite Hc1.
  rewrite Nat2Z.inj_succ, Z.pow_succ_r in Hr by lia.
  assert (b ^ Z.of_nat room <= n / b). { apply Z.div_le_lower_bound; lia. }
  assert (0 < b ^ Z.of_nat room) by (apply Z.pow_pos_nonneg; lia).
  destruct (Z.eqb_spec (n / b) 0); [lia|]. apply IH; lia.
Qed.

(** ---- u64ton ---- *)
Lemma u64ton_ok n b : 2 <= b <= 16 -> 0 <= n < b ^ 19 ->
  exists ds, u64ton n b = Ok ds /\ denotes b ds n /\ canonical ds.
Proof.
  intros Hb Hn. unfold u64ton. destruct (Z.leb_spec b 0); [lia|].
  destruct (put_digits_ok (L "0123456789ABCDEF" ++ [NUL]) b) with (room := 19%nat) (n := n) (acc := @nil char)
    as (ds & H1 & H2 & H3 & H4 & _); try lia.
  { eapply tbl_ok_le; [apply tbl_hex_ok|lia]. }
  rewrite H1. exists ds. rewrite app_nil_r. repeat split; auto.
  unfold canonical. destruct ds as [|c [|d ds]]; auto.
  destruct (Z.eq_dec n 0) as [E|E]; [|apply (H3 E)].
  destruct (H4 E) as [H5|H5]; discriminate H5.
Qed.

Lemma u64ton_overflow n b : 2 <= b <= 16 -> b ^ 19 <= n -> u64ton n b = UB.
Proof.
  intros Hb Hn. unfold u64ton. destruct (Z.leb_spec b 0); [lia|].
  rewrite put_digits_ub; auto; try lia.
  eapply tbl_ok_le; [apply tbl_hex_ok|lia].
Qed.

(** ---- getint on numerals ---- *)
Lemma letnum_digit c d : digit_of c = Some d -> letnum_val c = Some d /\ ceq c "-" = false /\ ceq c "#" = false /\ 0 <= d.
Proof.
  intros H.
  assert (G : forallb (fun c => match digit_of c with
      | Some d => match letnum_val c with Some v => (v =? d) && negb (ceq c "-") && negb (ceq c "#") && (0 <=? d) | None => false end
      | None => true end) all_chars = true) by (vm_compute; reflexivity).
  pose proof (char_sweep _ G c) as K. cbv beta in K. rewrite H in K.
  destruct (letnum_val c) as [v|]; [|discriminate].
  repeat (apply andb_true_iff in K; destruct K as [K ?]).
  apply Z.eqb_eq in K. subst v.
  repeat split; try (apply negb_true_iff; assumption). lia.
Qed.

Lemma denotes_nonneg b ds n : 2 <= b -> denotes b ds n -> 0 <= n.
Proof.
  intros Hb. induction 1 as [c d H1 H2|ds n c d H IH H1 H2].
  - apply letnum_digit in H1. lia.
  - apply letnum_digit in H1. nia.
Qed.

Lemma getint_loop_digits b ds n : 2 <= b -> denotes b ds n -> n <= INT64_MAX -> forall rest neg hb,
  getint_loop (ds ++ rest) b 0 neg hb = getint_loop rest b n neg hb.
Proof.
  intros Hb. induction 1 as [c d H1 H2|ds n c d H IH H1 H2]; intros Hn rest neg hb.
  - apply letnum_digit in H1. destruct H1 as (H1 & H3 & H4 & H5).
    cbn [app getint_loop]. rewrite H3, H4, H1.
    replace ((d <? 0) || (b <=? d)) with false by lia.
    replace (0 * b + d <=? INT64_MAX) with true by (unfold INT64_MAX in *; lia).
    f_equal.
  - pose proof (denotes_nonneg _ _ _ Hb H) as Hn0.
    apply letnum_digit in H1. destruct H1 as (H1 & H3 & H4 & H5).
    rewrite <- app_assoc. rewrite IH by nia. cbn [app getint_loop]. rewrite H3, H4, H1.
    replace ((d <? 0) || (b <=? d)) with false by lia.
    replace (n * b + d <=? INT64_MAX) with true by (unfold INT64_MAX in *; lia).
    reflexivity.
Qed.

Lemma getint_loop_overflow b ds n : 2 <= b -> denotes b ds n -> INT64_MAX < n -> forall rest neg hb,
  getint_loop (ds ++ rest) b 0 neg hb = UB.
Proof.
  intros Hb. induction 1 as [c d H1 H2|ds n c d H IH H1 H2]; intros Hn rest neg hb.
  - apply letnum_digit in H1. destruct H1 as (H1 & H3 & H4 & H5).
    cbn [app getint_loop]. rewrite H3, H4, H1.
    replace ((d <? 0) || (b <=? d)) with false by lia.
    replace (0 * b + d <=? INT64_MAX) with false by (unfold INT64_MAX in *; lia). reflexivity.
  - rewrite <- app_assoc.
    apply letnum_digit in H1. destruct H1 as (H1 & H3 & H4 & H5).
    destruct (Z_le_gt_dec n INT64_MAX) as [Hle|Hgt].
    + rewrite (getint_loop_digits b ds n) by assumption. cbn [app getint_loop]. rewrite H3, H4, H1.
      replace ((d <? 0) || (b <=? d)) with false by lia.
      replace (n * b + d <=? INT64_MAX) with false by (unfold INT64_MAX in *; lia). reflexivity.
    + apply IH. lia.
Qed.

Lemma to_int32_small b : 0 <= b <= 36 -> to_int32 b = b.
Proof. intros. unfold to_int32. rewrite Z.mod_small by lia. unfold INT_MAX. destruct (Z.leb_spec b 2147483647); lia. Qed.

(** the loop applied to a whole numeral *)
Lemma getint_loop_pos s b v : numeral s b v -> (forall t, s <> "-"%char :: t) -> v <= INT64_MAX ->
  forall neg, getint_loop s 10 0 neg false = Ok (b, if neg then - v else v).
Proof.
  intros H Hneg Hv neg. destruct H as [ds n H|bs b ds n Hb Hr H|s b n Hs H].
  - rewrite <- (app_nil_r ds). rewrite (getint_loop_digits 10 ds n) by (assumption || lia). reflexivity.
  - rewrite (getint_loop_digits 10 bs b) by (assumption || (unfold INT64_MAX; lia)).
    cbn [getint_loop]. change (ceq "#" "-") with false. change (ceq "#" "#") with true. cbv iota.
    rewrite to_int32_small by lia.
    replace ((b <? 2)) with false by lia. replace (36 <? b) with false by lia. cbn [orb].
    rewrite <- (app_nil_r ds). rewrite (getint_loop_digits b ds n) by (assumption || lia). reflexivity.
  - exfalso. eapply Hneg. reflexivity.
Qed.

Lemma denotes_digits b ds n : denotes b ds n -> Forall (fun c => digit_of c <> None) ds.
Proof.
  induction 1 as [c d H1 H2|ds n c d H IH H1 H2].
  - constructor; [congruence|constructor].
  - apply Forall_app. split; [assumption|]. constructor; [congruence|constructor].
Qed.

Lemma denotes_not_minus b ds n rest t : denotes b ds n -> ds ++ rest <> "-"%char :: t.
Proof.
  intros H E. pose proof (denotes_nonempty _ _ _ H) as Hne. apply denotes_digits in H.
  destruct ds as [|c ds]; [congruence|]. cbn in E. injection E as -> _.
  inversion H as [|? ? H1 _]. apply H1. reflexivity.
Qed.

Lemma numeral_getint_loop s b v : numeral s b v -> Z.abs v <= INT64_MAX ->
  getint_loop s 10 0 false false = Ok (b, v).
Proof.
  intros H Hv. destruct H as [ds n H|bs b ds n Hb Hr H|s b n Hs H].
  - refine (getint_loop_pos _ _ _ _ _ _ false); try lia. { constructor; assumption. }
    intros t E. rewrite <- (app_nil_r ds) in E. eapply denotes_not_minus in E; eauto.
  - refine (getint_loop_pos _ _ _ _ _ _ false); try lia. { econstructor; eassumption. }
    intros t. eapply denotes_not_minus; eauto.
  - cbn [getint_loop]. change (ceq "-" "-") with true. cbv iota.
    assert (0 <= n).
    { destruct H as [ds n H|bs b ds n Hb Hr H|s b n Hs' H].
      - eapply denotes_nonneg; [|eassumption]; lia.
      - eapply denotes_nonneg; [|eassumption]; lia.
      - exfalso. eapply Hs. reflexivity. }
    rewrite (getint_loop_pos s b n); auto. lia.
Qed.

(** text that getint treats the same with and without the arithmetic prefixes *)
Definition no_prefix (s : cstr) : Prop :=
  match s with c :: _ :: _ => c <> "0"%char | _ => True end.

Lemma getint_numeral arith zf s b v : numeral s b v -> Z.abs v <= INT64_MAX ->
  (arith = true -> no_prefix s) -> getint arith zf s = Ok (b, v).
Proof.
  intros H Hv Hp. pose proof (numeral_getint_loop _ _ _ H Hv) as G.
  unfold getint. destruct s as [|c0 [|c1 s]]; auto.
  destruct arith; cbn [andb]; auto. specialize (Hp eq_refl). cbn in Hp.
  apply ceq_false in Hp. rewrite Hp. assumption.
Qed.

Lemma numeral_overflow s b v : numeral s b v -> INT64_MAX < Z.abs v ->
  getint false false s = UB.
Proof.
  intros H Hv. assert (G : getint_loop s 10 0 false false = UB).
  { assert (P : forall s b v, numeral s b v -> (forall t, s <> "-"%char :: t) -> INT64_MAX < Z.abs v ->
      forall neg, getint_loop s 10 0 neg false = UB).
    { clear. intros s b v H Hneg Hv neg. destruct H as [ds n H|bs b ds n Hb Hr H|s b n Hs H].
      - pose proof (denotes_nonneg 10 ds n ltac:(lia) H).
        rewrite <- (app_nil_r ds). apply (getint_loop_overflow 10 ds n); auto; lia.
      - pose proof (denotes_nonneg b ds n ltac:(lia) H).
        rewrite (getint_loop_digits 10 bs b) by (assumption || (unfold INT64_MAX; lia)).
        cbn [getint_loop]. change (ceq "#" "-") with false. change (ceq "#" "#") with true. cbv iota.
        rewrite to_int32_small by lia.
        replace ((b <? 2)) with false by lia. replace (36 <? b) with false by lia. cbn [orb].
        rewrite <- (app_nil_r ds). apply (getint_loop_overflow b ds n); auto; lia.
      - exfalso. eapply Hneg. reflexivity. }
    destruct H as [ds n H|bs b ds n Hb Hr H|s b n Hs H].
    - eapply P; eauto. { constructor; eassumption. }
      intros t E. rewrite <- (app_nil_r ds) in E. eapply denotes_not_minus in E; eauto.
    - eapply P; eauto. { econstructor; eassumption. }
      intros t. eapply denotes_not_minus; eauto.
    - cbn [getint_loop]. change (ceq "-" "-") with true. cbv iota.
      eapply P; eauto. lia. }
  unfold getint. destruct s as [|c0 [|c1 s]]; auto.
Qed.

(** ---- str_val ---- *)
Lemma base_digits (upper : bool) b : 2 <= b <= 36 -> b <> 10 ->
  let tbl := if upper then digits_upper else digits_lower in
  let lo := nth (Z.to_nat (b mod 10)) tbl NUL in
  let hi := nth (Z.to_nat (b / 10)) tbl NUL in
  (10 <= b -> denotes 10 [hi; lo] b /\ hi <> "0"%char) /\
  (b < 10 -> denotes 10 [lo] b /\ lo <> "0"%char).
Proof.
  intros Hb H10.
  assert (Ht : tbl_ok (if upper then digits_upper else digits_lower) 36)
    by (destruct upper; [apply tbl_upper_ok|apply tbl_lower_ok]).
  cbv zeta. set (tbl := if upper then digits_upper else digits_lower) in *.
  destruct (Ht (b mod 10)) as (lo & Hl1 & Hl2 & Hl3); [lia|].
  destruct (Ht (b / 10)) as (hi & Hh1 & Hh2 & Hh3); [lia|].
  apply (nth_error_nth _ _ NUL) in Hl1. apply (nth_error_nth _ _ NUL) in Hh1.
  rewrite Hl1, Hh1. split; intros H.
  - split; [|intros E; apply Hh3 in E; lia].
    replace b with ((b / 10) * 10 + b mod 10) by lia.
    apply (den_snoc 10 [hi] (b/10)); auto; [|lia]. apply den_one; auto; lia.
  - split; [|intros E; apply Hl3 in E; lia].
    assert (Hm : b mod 10 = b) by lia. rewrite Hm in Hl2. apply den_one; auto.
Qed.

Definition norm_base (ty : Z) : Z := if (ty <? 2) || (36 <? ty) then 10 else ty.

Lemma pow_bound n b : 2 <= b -> 0 <= n < 18446744073709551616 -> n < b ^ 64.
Proof.
  intros Hb Hn. apply Z.lt_le_trans with (2 ^ 64); [lia|]. apply Z.pow_le_mono_l. lia.
Qed.

Lemma str_val_core (upper int_u : bool) ty i :
  (if int_u then True else INT64_MIN < i <= INT64_MAX) ->
  let v := if int_u then i mod 18446744073709551616 else i in
  exists s, str_val_int upper int_u ty i = Ok s /\ numeral s (norm_base ty) v /\
    (length s <= 68)%nat /\ no_prefix s /\
    (exists pre ds, s = pre ++ ds /\ denotes (norm_base ty) ds (Z.abs v) /\ canonical ds).
Proof.
  intros Hi v. unfold str_val_int.
  assert (Hbase : (let base := if ty =? 0 then 10 else ty in
            if (base <? 2) || (36 <? base) then 10 else base) = norm_base ty).
  { unfold norm_base. destruct (Z.eqb_spec ty 0) as [->|]; reflexivity. }
  cbv zeta in Hbase |- *. rewrite Hbase. clear Hbase.
  assert (Hb : 2 <= norm_base ty <= 36).
  { unfold norm_base. destruct ((ty <? 2) || (36 <? ty)) eqn:E; lia. }
  set (b := norm_base ty) in *.
  assert (Ht : tbl_ok (if upper then digits_upper else digits_lower) b).
  { eapply tbl_ok_le with 36; [|lia]. destruct upper; [apply tbl_upper_ok|apply tbl_lower_ok]. }
  pose proof (base_digits upper b) as Hbd. cbv zeta in Hbd.
  set (tbl := if upper then digits_upper else digits_lower) in *.
  destruct (negb int_u && (i =? INT64_MIN)) eqn:Emin.
  { destruct int_u; [discriminate|]. cbn in Emin. lia. }
  set (n := if int_u then i mod 18446744073709551616 else Z.abs i).
  assert (Hn : 0 <= n < 18446744073709551616).
  { unfold n; destruct int_u. - apply Z.mod_pos_bound; lia. - unfold INT64_MIN, INT64_MAX in *; lia. }
  assert (Habs : Z.abs v = n). { unfold v, n in *; destruct int_u; lia. }
  destruct (put_digits_ok tbl b ltac:(lia) Ht 68 n []) as (ds & H1 & H2 & H3 & H4 & H5 & H6).
  { split; [lia|]. apply Z.lt_le_trans with (b ^ 64). apply pow_bound; lia. apply Z.pow_le_mono_r; lia. }
  { lia. }
  rewrite app_nil_r in H1.
  assert (Hlen : (length ds <= 64)%nat).
  { destruct H6 as [->|H6]; [lia|].
    destruct (le_lt_dec (length ds) 64) as [|Hgt]; [assumption|exfalso].
    assert (b ^ 64 <= b ^ (Z.of_nat (length ds) - 1)) by (apply Z.pow_le_mono_r; lia).
    pose proof (pow_bound n b ltac:(lia) Hn). lia. }
  assert (Hcan : canonical ds).
  { unfold canonical. destruct ds as [|c [|d ds']]; auto.
    destruct (Z.eq_dec n 0) as [E|E]; [|apply (H3 E)].
    destruct (H4 E) as [H7|H7]; discriminate H7. }
  rewrite H1. rewrite Habs.
  (* text without the sign *)
  assert (Hpos : exists pre room, 
    (if b =? 10 then Ok (ds, (68 - length ds)%nat)
     else if 10 <=? b then put1 (nth (Z.to_nat (b / 10)) tbl NUL)
               (put1 (nth (Z.to_nat (b mod 10)) tbl NUL) (put1 "#" (Ok (ds, (68 - length ds)%nat))))
          else put1 (nth (Z.to_nat (b mod 10)) tbl NUL) (put1 "#" (Ok (ds, (68 - length ds)%nat))))
    = Ok (pre ++ ds, S room) /\ (length (pre ++ ds) + S room = 68)%nat /\ numeral (pre ++ ds) b n /\ no_prefix (pre ++ ds) /\
      (forall t, pre ++ ds <> "-"%char :: t)).
  { remember (68 - length ds)%nat as r eqn:Er.
    destruct r as [|[|[|[|r]]]]; try lia.
    destruct (Z.eqb_spec b 10) as [E10|E10].
    - exists [], (S (S (S r))). cbn [app]. split; [reflexivity|]. split; [lia|].
      assert (Hnum : numeral ds b n) by (rewrite E10 in *; constructor; assumption).
      split; [assumption|]. split; [exact Hcan|].
      intros t E. rewrite <- (app_nil_r ds) in E. eapply denotes_not_minus in E; eauto.
    - destruct (Hbd Hb E10) as [Hbig Hsmall].
      destruct (Z.leb_spec 10 b) as [Hge|Hlt].
      + destruct (Hbig Hge) as [Hd Hnz]. cbn [put1].
        eexists [_; _; "#"%char], r. split; [reflexivity|]. split; [cbn; lia|].
        split. { change (numeral ([nth (Z.to_nat (b / 10)) tbl NUL; nth (Z.to_nat (b mod 10)) tbl NUL] ++ "#"%char :: ds) b n).
                 econstructor; eauto. }
        split. { cbn. assumption. }
        intros t. change (([nth (Z.to_nat (b / 10)) tbl NUL; nth (Z.to_nat (b mod 10)) tbl NUL] ++ "#"%char :: ds) <> "-"%char :: t).
        eapply denotes_not_minus; eauto.
      + destruct (Hsmall Hlt) as [Hd Hnz]. cbn [put1].
        eexists [_; "#"%char], (S r). split; [reflexivity|]. split; [cbn; lia|].
        split. { change (numeral ([nth (Z.to_nat (b mod 10)) tbl NUL] ++ "#"%char :: ds) b n).
                 econstructor; eauto. }
        split. { cbn. assumption. }
        intros t. change (([nth (Z.to_nat (b mod 10)) tbl NUL] ++ "#"%char :: ds) <> "-"%char :: t).
        eapply denotes_not_minus; eauto. }
  destruct Hpos as (pre & room & E1 & Hl & Hnum & Hnp & Hnm).
  rewrite E1.
  destruct (negb int_u && (i <? 0)) eqn:Es.
  - cbn [put1]. exists ("-"%char :: pre ++ ds). split; [reflexivity|].
    assert (v = - n). { unfold v, n; destruct int_u; cbn in Es; [discriminate|lia]. }
    rewrite H. split; [constructor; auto|]. split; [cbn; lia|]. split.
    { cbn. destruct (pre ++ ds); auto. discriminate. }
    exists ("-"%char :: pre), ds. repeat split; auto.
  - exists (pre ++ ds). split; [reflexivity|].
    assert (v = n). { unfold v, n; destruct int_u; cbn in Es; [reflexivity|lia]. }
    rewrite H. split; [assumption|]. split; [lia|]. split; [assumption|].
    exists pre, ds. auto.
Qed.

Lemma round_trip_signed upper arith zf ty i :
  INT64_MIN < i <= INT64_MAX ->
  exists s, str_val_int upper false ty i = Ok s /\ getint arith zf s = Ok (norm_base ty, i).
Proof.
  intros Hi. destruct (str_val_core upper false ty i) as (s & H1 & H2 & H3 & H4 & _); [exact Hi|].
  exists s. split; [assumption|]. apply getint_numeral; auto.
  unfold INT64_MIN, INT64_MAX in *. lia.
Qed.

(** ---- getn ---- *)
Lemma skip_space_spec s : exists w, s = w ++ skip_space s /\ forallb isspace w = true /\
  match skip_space s with [] => True | c :: _ => isspace c = false end.
Proof.
  induction s as [|c s (w & E & H1 & H2)].
  - exists []. cbn. auto.
  - cbn [skip_space]. destruct (isspace c) eqn:Ec.
    + exists (c :: w). cbn. rewrite Ec, H1. repeat split; auto. f_equal. assumption.
    + exists []. cbn. auto.
Qed.

Lemma isdigit_digit_of c : isdigit c = true <-> exists d, digit_of c = Some d /\ d < 10.
Proof.
  assert (G : forallb (fun c => Bool.eqb (isdigit c) (match digit_of c with Some d => d <? 10 | None => false end)) all_chars = true)
    by (vm_compute; reflexivity).
  pose proof (char_sweep _ G c) as K. cbv beta in K. apply eqb_prop in K. rewrite K.
  destruct (digit_of c) as [d|].
  - split; [intros; exists d; split; [auto|lia]|intros (d' & E & H); injection E as <-; lia].
  - split; [discriminate|intros (d' & E & H); discriminate].
Qed.

Lemma isdigit_val c d : isdigit c = true -> digit_of c = Some d -> d = ccode c - 48.
Proof.
  intros Hc Hd.
  assert (G : forallb (fun c => if isdigit c then match digit_of c with Some d => d =? ccode c - 48 | None => false end else true) all_chars = true)
    by (vm_compute; reflexivity).
  pose proof (char_sweep _ G c) as K. cbv beta in K. rewrite Hc, Hd in K. lia.
Qed.

(** digits read from the left, Horner style *)
Fixpoint horner (acc : Z) (ds : cstr) : Z :=
  match ds with [] => acc | c :: ds => horner (acc * 10 + (ccode c - 48)) ds end.

Lemma horner_app a x y : horner a (x ++ y) = horner (horner a x) y.
Proof. revert a; induction x as [|c x IH]; intros a; cbn; auto. Qed.

Lemma horner_denotes ds n : denotes 10 ds n <-> (ds <> [] /\ forallb isdigit ds = true /\ horner 0 ds = n).
Proof.
  split.
  - induction 1 as [c d H1 H2|ds n c d H IH H1 H2].
    + split; [discriminate|].
      assert (isdigit c = true) by (apply isdigit_digit_of; eauto).
      cbn. rewrite H. split; auto. rewrite (isdigit_val c d) by assumption. lia.
    + destruct IH as (I1 & I2 & I3).
      assert (Hc : isdigit c = true) by (apply isdigit_digit_of; eauto).
      split; [destruct ds; discriminate|]. rewrite forallb_app, I2. cbn. rewrite Hc. split; auto.
      rewrite horner_app, I3. cbn. rewrite (isdigit_val c d) by assumption. lia.
  - intros (H1 & H2 & <-). induction ds as [|c ds IH] using rev_ind; [congruence|].
    rewrite forallb_app in H2. apply andb_true_iff in H2. destruct H2 as [H2 H3]. cbn in H3.
    rewrite andb_true_r in H3. pose proof H3 as H4.
    apply isdigit_digit_of in H3. destruct H3 as (d & Hd & Hlt).
    rewrite horner_app. cbn. rewrite <- (isdigit_val c d) by assumption.
    destruct ds as [|c' ds].
    + cbn. replace d with d by lia. apply den_one; auto.
    + apply den_snoc; auto. apply IH; [discriminate|assumption].
Qed.

Lemma take_digits_spec s : forall acc any, exists ds,
  s = ds ++ snd (take_digits s acc any) /\ forallb isdigit ds = true /\
  fst (fst (take_digits s acc any)) = horner acc ds /\
  snd (fst (take_digits s acc any)) = (any || match ds with [] => false | _ => true end) /\
  match snd (take_digits s acc any) with [] => True | c :: _ => isdigit c = false end.
Proof.
  induction s as [|c s IH]; intros acc any.
  - exists []. cbn. rewrite orb_false_r. auto.
  - cbn [take_digits]. destruct (isdigit c) eqn:E.
    + destruct (IH (acc * 10 + (ccode c - 48)) true) as (ds & H1 & H2 & H3 & H4 & H5).
      exists (c :: ds). cbn [app forallb horner]. rewrite E, H2, <- H1. repeat split; auto.
      rewrite H4. cbn. rewrite orb_true_r. reflexivity.
    + exists []. cbn. rewrite orb_false_r. auto.
Qed.

Lemma skip_space_app w r : forallb isspace w = true ->
  match r with [] => True | c :: _ => isspace c = false end ->
  skip_space (w ++ r) = r.
Proof.
  intros Hw Hr. induction w as [|c w IH].
  - cbn. destruct r as [|c r]; auto. cbn. rewrite Hr. reflexivity.
  - cbn in *. apply andb_true_iff in Hw. destruct Hw as [-> Hw]. auto.
Qed.

Lemma take_digits_all ds : forallb isdigit ds = true -> forall acc any,
  take_digits ds acc any = (horner acc ds, any || match ds with [] => false | _ => true end, []).
Proof.
  induction ds as [|c ds IH]; intros H acc any.
  - cbn. rewrite orb_false_r. reflexivity.
  - cbn in *. apply andb_true_iff in H. destruct H as [-> H]. rewrite IH by assumption.
    cbn. rewrite orb_true_r. reflexivity.
Qed.

Lemma isdigit_facts c : isdigit c = true -> isspace c = false /\ ceq c "-" = false /\ ceq c "+" = false.
Proof.
  intros H.
  assert (G : forallb (fun c => negb (isdigit c) || (negb (isspace c) && negb (ceq c "-") && negb (ceq c "+"))) all_chars = true)
    by (vm_compute; reflexivity).
  pose proof (char_sweep _ G c) as K. cbv beta in K. rewrite H in K. cbn [negb orb] in K.
  apply andb_true_iff in K. destruct K as [K K3]. apply andb_true_iff in K. destruct K as [K1 K2].
  repeat split; apply negb_true_iff; assumption.
Qed.

Definition sign_apply (sg : cstr) (v : Z) : Z := if str_eqb sg ["-"%char] then - v else v.

Lemma strtol10_text w sg ds v : forallb isspace w = true ->
  (sg = [] \/ sg = ["+"%char] \/ sg = ["-"%char]) -> denotes 10 ds v ->
  strtol10 (w ++ sg ++ ds) = (Z.max INT64_MIN (Z.min INT64_MAX (sign_apply sg v)), []).
Proof.
  intros Hw Hs Hd. apply horner_denotes in Hd. destruct Hd as (Hne & Hdig & <-).
  assert (Hh : exists c ds', ds = c :: ds' /\ isdigit c = true).
  { destruct ds as [|c ds']; [congruence|]. cbn in Hdig. apply andb_true_iff in Hdig. exists c, ds'. tauto. }
  destruct Hh as (c & ds' & E & Hc). pose proof (isdigit_facts c Hc) as (F1 & F2 & F3).
  unfold strtol10.
  rewrite skip_space_app; auto.
  2:{ destruct Hs as [->|[->| ->]]; subst ds; cbn; auto. }
  destruct Hs as [->|[->| ->]]; cbn [app].
  - subst ds. cbv beta iota. rewrite F2, F3. rewrite take_digits_all by assumption. reflexivity.
  - rewrite ceq_refl. change (ceq "+" "-") with false. cbv iota.
    rewrite take_digits_all by assumption. subst ds. reflexivity.
  - rewrite ceq_refl. cbv iota.
    rewrite take_digits_all by assumption. subst ds. reflexivity.
Qed.

Lemma getn_accepts w sg ds v : forallb isspace w = true ->
  (sg = [] \/ sg = ["+"%char] \/ sg = ["-"%char]) -> denotes 10 ds v ->
  INT_MIN < sign_apply sg v < INT_MAX -> getn (w ++ sg ++ ds) = Some (sign_apply sg v).
Proof.
  intros Hw Hs Hd Hr. unfold getn. rewrite (strtol10_text w sg ds v) by assumption.
  destruct (w ++ sg ++ ds) eqn:E.
  - exfalso. apply app_eq_nil in E. destruct E as [_ E]. apply app_eq_nil in E. destruct E as [_ E].
    apply denotes_nonempty in Hd. congruence.
  - unfold INT_MIN, INT_MAX, INT64_MIN, INT64_MAX in *.
    rewrite Z.min_r by lia. rewrite Z.max_r by lia.
    destruct ((sign_apply sg v <=? -2147483648) || (2147483647 <=? sign_apply sg v)) eqn:E2; [lia|reflexivity].
Qed.

Lemma getn_only s n : getn s = Some n ->
  exists w sg ds v, s = w ++ sg ++ ds /\ forallb isspace w = true /\
    (sg = [] \/ sg = ["+"%char] \/ sg = ["-"%char]) /\ denotes 10 ds v /\
    n = sign_apply sg v /\ INT_MIN < n < INT_MAX.
Proof.
  unfold getn, strtol10. intros H.
  destruct (skip_space_spec s) as (w & Ew & Hw & _).
  remember (skip_space s) as r eqn:Er.
  set (sg := match r with c :: _ => if ceq c "-" then ["-"%char] else if ceq c "+" then ["+"%char] else [] | [] => [] end).
  set (rest := match r with c :: s' => if ceq c "-" then s' else if ceq c "+" then s' else r | [] => [] end).
  assert (Esg : r = sg ++ rest /\ (sg = [] \/ sg = ["+"%char] \/ sg = ["-"%char])).
  { unfold sg, rest. destruct r as [|c r']; [auto|].
    destruct (ceq_spec c "-") as [->|]; [auto|]. destruct (ceq_spec c "+") as [->|]; auto. }
  destruct Esg as (Esg & Hsg).
  replace (match r with
          | [] => (false, [])
          | c :: s' => if ceq c "-" then (true, s') else if ceq c "+" then (false, s') else (false, r)
          end) with (str_eqb sg ["-"%char], rest) in H.
  2:{ unfold sg, rest. destruct r as [|c r']; [reflexivity|].
      destruct (ceq_spec c "-") as [->|]; [reflexivity|]. destruct (ceq_spec c "+") as [->|]; reflexivity. }
  destruct (take_digits_spec rest 0 false) as (ds & E1 & E2 & E3 & E4 & E5).
  destruct (take_digits rest 0 false) as [[v any] rest'] eqn:Et. cbn [fst snd] in *.
  destruct any.
  - destruct s as [|c0 s0] eqn:Es; [discriminate|].
    destruct rest' as [|? ?]; [|discriminate].
    rewrite app_nil_r in E1.
    set (n0 := if str_eqb sg ["-"%char] then - v else v) in H.
    destruct ((Z.max INT64_MIN (Z.min INT64_MAX n0) <=? INT_MIN) || (INT_MAX <=? Z.max INT64_MIN (Z.min INT64_MAX n0))) eqn:Eb;
      [discriminate|].
    injection H as Hn.
    exists w, sg, ds, v. rewrite Ew at 1. rewrite Esg at 1. rewrite E1.
    repeat split; auto.
    + apply horner_denotes. repeat split; auto. destruct ds; [discriminate|discriminate].
    + unfold sign_apply. fold n0. unfold INT64_MIN, INT64_MAX, INT_MIN, INT_MAX in *. lia.
    + unfold INT64_MIN, INT64_MAX, INT_MIN, INT_MAX in *. lia.
    + unfold INT64_MIN, INT64_MAX, INT_MIN, INT_MAX in *. lia.
  - destruct s as [|c0 s0]; discriminate.
Qed.

Lemma denotes_no_char b ds n c : denotes b ds n -> digit_of c = None -> ~ In c ds.
Proof.
  intros H Hc Hin. apply denotes_digits in H. rewrite Forall_forall in H. apply (H c Hin Hc).
Qed.

Lemma numeral_minus_head s b v pre post :
  numeral s b v -> s = pre ++ "-"%char :: post -> pre = [].
Proof.
  assert (G : forall s b v, numeral s b v -> (forall t, s <> "-"%char :: t) -> ~ In "-"%char s).
  { clear. intros s b v H Hs. destruct H as [ds n H|bs b ds n Hb Hr H|s b n Hs' H].
    - eapply denotes_no_char; eauto.
    - intros Hin. apply in_app_or in Hin. destruct Hin as [Hin|[Hin|Hin]].
      + eapply denotes_no_char in Hin; eauto.
      + discriminate.
      + eapply denotes_no_char in Hin; eauto.
    - exfalso. eapply Hs. reflexivity. }
  intros H E. destruct H as [ds n H|bs b ds n Hb Hr H|s b n Hs H].
  - exfalso. eapply G; [constructor; eassumption| |rewrite E; apply in_or_app; right; left; reflexivity].
    intros t E2. rewrite <- (app_nil_r ds) in E2. eapply denotes_not_minus in E2; eauto.
  - exfalso. eapply G; [econstructor; eassumption| |rewrite E; apply in_or_app; right; left; reflexivity].
    intros t. eapply denotes_not_minus; eauto.
  - destruct pre as [|c pre]; [reflexivity|]. cbn in E. injection E as _ E.
    exfalso. eapply G; [exact H|exact Hs|]. rewrite E. apply in_or_app; right; left; reflexivity.
Qed.

Lemma getint_sloppy : exists s b v, getint false false s = Ok (b, v) /\ ~ exists b' v', numeral s b' v'.
Proof.
  exists (L "1-2"), 10, (-12). split; [vm_compute; reflexivity|].
  intros (b' & v' & H). pose proof (numeral_minus_head _ _ _ ["1"%char] ["2"%char] H eq_refl). discriminate.
Qed.

Lemma letnum_val_digit c v : letnum_val c = Some v -> 0 <= v -> digit_of c = Some v.
Proof.
  assert (G : forallb (fun c => match letnum_val c with
      | Some v => if 0 <=? v then match digit_of c with Some d => d =? v | None => false end else true
      | None => true end) all_chars = true) by (vm_compute; reflexivity).
  intros H Hv. pose proof (char_sweep _ G c) as K. cbv beta in K. rewrite H in K.
  destruct (Z.leb_spec 0 v); [|lia]. destruct (digit_of c); [|discriminate]. f_equal. lia.
Qed.

Lemma den0_snoc b ds n c d : den0 b ds n -> digit_of c = Some d -> d < b -> den0 b (ds ++ [c]) (n * b + d).
Proof.
  intros [[-> ->]|H] H1 H2; right.
  - cbn [app]. replace (0 * b + d) with d by lia. constructor; assumption.
  - constructor; assumption.
Qed.

Lemma mem_cons c x s : mem c (x :: s) = ceq c x || mem c s.
Proof. reflexivity. Qed.

Lemma getint_loop_based s : forall b0 num neg b v pre, getint_loop s b0 num neg true = Ok (b, v) ->
  den0 b0 pre num ->
  b = b0 /\ exists n, den0 b0 (pre ++ unsigned_text s) n /\ v = if neg || mem "-" s then - n else n.
Proof.
  induction s as [|c s IH]; intros b0 num neg b v pre H Hp.
  - cbn in H. injection H as <- <-. split; [reflexivity|]. exists num. cbn. rewrite app_nil_r, orb_false_r. auto.
  - cbn [getint_loop] in H. rewrite mem_cons. unfold unsigned_text in *. cbn [filter].
    destruct (ceq c "-") eqn:Ec.
    + apply ceq_true in Ec. subst c. destruct (IH _ _ _ _ _ _ H Hp) as (-> & n & Hn & ->).
      split; [reflexivity|]. exists n. cbn. rewrite orb_true_r. auto.
    + replace (ceq "-" c) with false
        by (symmetry; apply ceq_false; apply ceq_false in Ec; congruence). cbn [negb orb].
      destruct (ceq c "#") eqn:Eh; [cbn in H; discriminate|].
      destruct (letnum_val c) as [d|] eqn:El; [|discriminate].
      destruct ((d <? 0) || (b0 <=? d)) eqn:Ed; [discriminate|].
      destruct (num * b0 + d <=? INT64_MAX) eqn:Eo; [|discriminate].
      apply letnum_val_digit in El; [|lia].
      destruct (IH _ _ _ _ _ (pre ++ [c]) H) as (-> & n & Hn & ->).
      { apply den0_snoc; auto. lia. }
      split; [reflexivity|]. exists n. rewrite <- app_assoc in Hn. auto.
Qed.

Lemma to_int32_cong m : (m - to_int32 m) mod 2 ^ 32 = 0.
Proof.
  unfold to_int32. change (2 ^ 32) with 4294967296.
  destruct (Z.leb_spec (m mod 4294967296) INT_MAX); lia.
Qed.

Lemma getint_loop_unbased s : forall num neg b v pre, getint_loop s 10 num neg false = Ok (b, v) ->
  den0 10 pre num ->
  (b = 10 /\ exists n, den0 10 (pre ++ unsigned_text s) n /\ v = if neg || mem "-" s then - n else n) \/
  (exists bs m ds n, pre ++ unsigned_text s = bs ++ "#"%char :: ds /\ den0 10 bs m /\ 2 <= b <= 36 /\
     (m - b) mod 2 ^ 32 = 0 /\ den0 b ds n /\ v = if neg || mem "-" s then - n else n).
Proof.
  induction s as [|c s IH]; intros num neg b v pre H Hp.
  - left. cbn in H. injection H as <- <-. split; [reflexivity|]. exists num. cbn. rewrite app_nil_r, orb_false_r. auto.
  - cbn [getint_loop] in H. rewrite mem_cons. unfold unsigned_text in *. cbn [filter].
    destruct (ceq c "-") eqn:Ec.
    + apply ceq_true in Ec. subst c. cbn [negb]. change (ceq "-" "-") with true.
      replace (neg || (true || mem "-" s)) with (true || mem "-" s) by (cbn; rewrite orb_true_r; reflexivity).
      exact (IH _ _ _ _ _ H Hp).
    + replace (ceq "-" c) with false
        by (symmetry; apply ceq_false; apply ceq_false in Ec; congruence). cbn [negb orb].
      destruct (ceq c "#") eqn:Eh.
      * apply ceq_true in Eh. subst c. cbn [orb] in H.
        destruct ((to_int32 num <? 2) || (36 <? to_int32 num)) eqn:Eb; [discriminate|].
        destruct (getint_loop_based _ _ _ _ _ _ [] H) as (-> & n & Hn & ->); [left; auto|].
        right. eexists pre, num, _, n. split; [reflexivity|]. repeat split; auto; try lia.
        apply to_int32_cong.
      * destruct (letnum_val c) as [d|] eqn:El; [|discriminate].
        destruct ((d <? 0) || (10 <=? d)) eqn:Ed; [discriminate|].
        destruct (num * 10 + d <=? INT64_MAX) eqn:Eo; [|discriminate].
        apply letnum_val_digit in El; [|lia].
        specialize (IH _ _ _ _ (pre ++ [c]) H). rewrite <- app_assoc in IH. apply IH.
        apply den0_snoc; auto. lia.
Qed.

Lemma getint_only zf s b v : getint false zf s = Ok (b, v) -> loose_numeral s b v.
Proof.
  intros H. assert (G : getint_loop s 10 0 false false = Ok (b, v)).
  { unfold getint in H. destruct s as [|c0 [|c1 s]]; exact H. }
  destruct (getint_loop_unbased _ _ _ _ _ [] G) as [(-> & n & Hn & ->)|(bs & m & ds & n & H1 & H2 & H3 & H4 & H5 & ->)].
  - left; auto.
  - apply loose_dec. exact Hn.
  - eapply loose_based; eauto.
Qed.
