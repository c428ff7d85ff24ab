From Verif Require Import Base Num_model Num_spec Num_proof SimplifyPath_model Printf_model Printf_spec.
From Coq Require Import Lia ZArith.
Local Open Scope Z_scope.

(** * Numerals *)
Lemma digs_le k : forall j up b n, 2 <= b -> 0 <= n -> n < b ^ Z.of_nat k -> (1 <= k <= j)%nat -> digs j up b n = digs k up b n.
Proof.
  induction k as [|k IH]; intros j up b n Hb Hn Hlt Hj; [lia|].
  destruct j as [|j]; [lia|]. cbn [digs].
  destruct (n <? b) eqn:E; [reflexivity|]. f_equal.
  assert (1 <= k)%nat.
  { destruct k; [|lia]. change (b ^ Z.of_nat 1) with (b ^ 1) in Hlt. rewrite Z.pow_1_r in Hlt. lia. }
  assert (n / b < b ^ Z.of_nat k)
    by (apply Z.div_lt_upper_bound; [lia|]; rewrite Nat2Z.inj_succ, Z.pow_succ_r in Hlt by lia; lia).
  assert (0 <= n / b) by (apply Z.div_pos; lia).
  apply IH; lia.
Qed.

Lemma digs_len k : forall up b n m, 2 <= b -> 0 <= n -> n < b ^ Z.of_nat m -> (1 <= m)%nat -> (length (digs k up b n) <= m)%nat.
Proof.
  induction k as [|k IH]; intros up b n m Hb Hn Hlt Hm; [cbn; lia|].
  cbn [digs]. rewrite app_length. cbn [length].
  destruct (n <? b) eqn:E; cbn [length]; [lia|].
  destruct m as [|m]; [lia|].
  assert (1 <= m)%nat.
  { destruct m; [|lia]. change (b ^ Z.of_nat 1) with (b ^ 1) in Hlt. rewrite Z.pow_1_r in Hlt. lia. }
  enough (length (digs k up b (n / b)) <= m)%nat by lia.
  assert (n / b < b ^ Z.of_nat m)
    by (apply Z.div_lt_upper_bound; [lia|]; rewrite Nat2Z.inj_succ, Z.pow_succ_r in Hlt by lia; lia).
  assert (0 <= n / b) by (apply Z.div_pos; lia).
  apply IH; lia.
Qed.

Lemma digs_nonempty k up b n : digs (S k) up b n <> [].
Proof. cbn [digs]. intros H. apply app_eq_nil in H. destruct H; discriminate. Qed.

Definition tbl_fits (tbl : cstr) (up : bool) (b : Z) : Prop :=
  forall d, 0 <= d < b -> nth_error tbl (Z.to_nat d) = Some (digch up d).

Lemma put_digits_digs tbl up b : 2 <= b -> tbl_fits tbl up b ->
  forall room k n acc, (1 <= room <= k)%nat -> 0 <= n < b ^ Z.of_nat room ->
  put_digits tbl room n b acc = Ok (digs k up b n ++ acc, (room - length (digs k up b n))%nat).
Proof.
  intros Hb T. induction room as [|room IH]; intros k n acc Hr Hn; [lia|].
  destruct k as [|k]; [lia|]. cbn [put_digits digs].
  rewrite (T (n mod b)) by (apply Z.mod_pos_bound; lia).
  destruct (n <? b) eqn:E.
  - assert (n / b = 0) by (apply Z.div_small; lia). rewrite H. cbn. rewrite Nat.sub_0_r. reflexivity.
  - assert (1 <= n / b) by (apply Z.div_le_lower_bound; lia).
    replace (n / b =? 0) with false by (symmetry; apply Z.eqb_neq; lia).
    assert (1 <= room)%nat.
    { destruct room; [|lia]. change (b ^ Z.of_nat 1) with (b ^ 1) in Hn. rewrite Z.pow_1_r in Hn. lia. }
    rewrite IH with (k := k); [|lia|].
    + rewrite <- app_assoc, app_length. cbn [app length]. f_equal. f_equal. lia.
    + split; [lia|]. apply Z.div_lt_upper_bound; [lia|]. rewrite Nat2Z.inj_succ, Z.pow_succ_r in Hn by lia. lia.
Qed.

Lemma tbl10 : tbl_fits (L "0123456789") false 10.
Proof. intros d H. assert (K : In d (map Z.of_nat (seq 0 10))) by (apply in_map_iff; exists (Z.to_nat d); rewrite in_seq; lia).
  cbn in K. repeat (destruct K as [<-|K]; [reflexivity|]). destruct K. Qed.
Lemma tbl8 : tbl_fits (L "01234567") false 8.
Proof. intros d H. assert (K : In d (map Z.of_nat (seq 0 8))) by (apply in_map_iff; exists (Z.to_nat d); rewrite in_seq; lia).
  cbn in K. repeat (destruct K as [<-|K]; [reflexivity|]). destruct K. Qed.
Lemma tbl16 (up : bool) : tbl_fits (if up then L "0123456789ABCDEF" else L "0123456789abcdef") up 16.
Proof. intros d H. assert (K : In d (map Z.of_nat (seq 0 16))) by (apply in_map_iff; exists (Z.to_nat d); rewrite in_seq; lia).
  cbn in K. destruct up; repeat (destruct K as [<-|K]; [reflexivity|]); destruct K. Qed.

(** digits are alphanumeric, and never x *)
Definition plain_digit (c : char) : bool := isdigit c || ((65 <=? ccode c) && (ccode c <=? 70)) || ((97 <=? ccode c) && (ccode c <=? 102)).
Lemma digs_plain k : forall up b n, 2 <= b <= 16 -> 0 <= n -> forallb plain_digit (digs k up b n) = true.
Proof.
  induction k as [|k IH]; intros up b n Hb Hn; [reflexivity|].
  cbn [digs]. rewrite forallb_app. apply andb_true_iff. split.
  - destruct (n <? b); [reflexivity|]. apply IH; [lia|]. apply Z.div_pos; lia.
  - cbn [forallb]. rewrite andb_true_r.
    assert (H : 0 <= n mod b < b) by (apply Z.mod_pos_bound; lia).
    assert (K : In (n mod b) (map Z.of_nat (seq 0 16))) by (apply in_map_iff; exists (Z.to_nat (n mod b)); rewrite in_seq; lia).
    revert K. generalize (n mod b). intros d K.
    cbn in K. destruct up; repeat (destruct K as [<-|K]; [reflexivity|]); destruct K.
Qed.

(** decimal numerals *)
Lemma digch10 d : 0 <= d < 10 -> isdigit (digch false d) = true /\ ccode (digch false d) = 48 + d.
Proof. intros H. assert (K : In d (map Z.of_nat (seq 0 10))) by (apply in_map_iff; exists (Z.to_nat d); rewrite in_seq; lia).
  cbn in K. repeat (destruct K as [<-|K]; [split; reflexivity|]). destruct K. Qed.

Lemma digs10 k : forall n, 0 <= n < 10 ^ Z.of_nat k ->
  forallb isdigit (digs k false 10 n) = true /\ horner 0 (digs k false 10 n) = n /\
  (0 < n -> match digs k false 10 n with c :: _ => ceq c "0" = false | [] => False end).
Proof.
  induction k as [|k IH]; intros n Hn.
  - cbn in Hn. cbn. repeat split; lia.
  - cbn [digs]. rewrite forallb_app, horner_app.
    destruct (digch10 (n mod 10)) as [D1 D2]; [apply Z.mod_pos_bound; lia|].
    destruct (n <? 10) eqn:E.
    + cbn [forallb app horner]. rewrite D1, D2. rewrite Z.mod_small by lia. split; [reflexivity|]. split; [lia|].
      intros H. apply ceq_false. intros K.
      assert (Q : n mod 10 = n) by (apply Z.mod_small; lia). rewrite Q in D2.
      rewrite K in D2. change (ccode "0") with 48 in D2. lia.
    + assert (1 <= n / 10) by (apply Z.div_le_lower_bound; lia).
      destruct (IH (n / 10)) as (I1 & I2 & I3).
      { split; [lia|]. apply Z.div_lt_upper_bound; [lia|]. rewrite Nat2Z.inj_succ, Z.pow_succ_r in Hn by lia. lia. }
      rewrite I1, I2. cbn [forallb horner]. rewrite D1, D2. split; [reflexivity|].
      split; [pose proof (Z.div_mod n 10); lia|]. intros _.
      specialize (I3 ltac:(lia)). destruct (digs k false 10 (n / 10)); [destruct I3|exact I3].
Qed.

(** * The number's text *)
Lemma put1_ok c s room r : room = S r -> put1 c (Ok (s, room)) = Ok (c :: s, r).
Proof. intros ->. reflexivity. Qed.

Definition cchar (c : conv) : char := tolower (conv_char c).

(** value of an argument in the range of the conversion, as fetched *)
Definition vrange (c : conv) (v : Z) : Prop := if is_signed c then - 2 ^ 63 < v < 2 ^ 63 else 0 <= v < 2 ^ 64.

Lemma as_llong_mod v : - 2 ^ 63 <= v < 2 ^ 63 -> as_llong (v mod 2 ^ 64) = v.
Proof.
  intros H. unfold as_llong.
  destruct (Z.ltb_spec v 0) as [Hs|Hs].
  - assert (Q : v mod 2 ^ 64 = v + 2 ^ 64).
    { symmetry. apply (Z.mod_unique v (2 ^ 64) (-1)); lia. }
    rewrite Q. destruct (v + 2 ^ 64 <? 2 ^ 63) eqn:E; lia.
  - rewrite Z.mod_small by lia. destruct (v <? 2 ^ 63) eqn:E; lia.
Qed.

Definition alt_prefix (c : conv) (f : pflags) (v : Z) : cstr :=
  if is_signed c then
    if v <? 0 then L "-" else if f_plus f then L "+" else if f_blank f then L " " else []
  else if is_hex c && f_hash f then match c with CX => L "0X" | _ => L "0x" end
  else [].

Lemma number_text_ok c f v : is_number c = true -> vrange c v ->
  f_upper f = match c with CX => true | _ => false end ->
  number_text (cchar c) f (v mod 2 ^ 64) = Ok (alt_prefix c f v ++ digits_of c (f_hash f) None v).
Proof.
  intros Hc Hv Hu. unfold number_text, alt_prefix, digits_of, numtext.
  destruct c; try discriminate; unfold vrange, is_signed in Hv; unfold cchar;
    cbn [conv_char is_signed is_hex andb]; change (tolower "d") with "d"%char;
    change (tolower "i") with "i"%char; change (tolower "o") with "o"%char; change (tolower "u") with "u"%char;
    change (tolower "x") with "x"%char; change (tolower "X") with "x"%char; change (tolower "p") with "p"%char;
    repeat match goal with |- context [ceq ?a ?b] => match a with Ascii.Ascii _ _ _ _ _ _ _ _ => match b with Ascii.Ascii _ _ _ _ _ _ _ _ => let v := eval vm_compute in (ceq a b) in change (ceq a b) with v end end end; cbn [orb].
  - (* d *)
    rewrite as_llong_mod by lia. replace (v =? - 2 ^ 63) with false by (symmetry; apply Z.eqb_neq; lia).
    assert (Q : (if v <? 0 then - v else v mod 2 ^ 64) = Z.abs v)
      by (destruct (v <? 0) eqn:E; [lia|rewrite Z.mod_small by lia; lia]).
    rewrite Q. rewrite (put_digits_digs _ false 10 ltac:(lia) tbl10 NUMBUF 64) by (unfold NUMBUF; split; [lia|]; lia || (change (Z.of_nat 23) with 23; lia)).
    rewrite app_nil_r.
    assert (Hl : (length (digs 64 false 10 (Z.abs v)) <= 19)%nat) by (apply digs_len; lia).
    revert Hl. generalize (digs 64 false 10 (Z.abs v)). intros ds Hl.
    destruct (v <? 0); [|destruct (f_plus f); [|destruct (f_blank f); [|reflexivity]]];
      (erewrite put1_ok by (instantiate (1 := (22 - length ds)%nat); unfold NUMBUF; lia)); reflexivity.
  - (* i *)
    rewrite as_llong_mod by lia. replace (v =? - 2 ^ 63) with false by (symmetry; apply Z.eqb_neq; lia).
    assert (Q : (if v <? 0 then - v else v mod 2 ^ 64) = Z.abs v)
      by (destruct (v <? 0) eqn:E; [lia|rewrite Z.mod_small by lia; lia]).
    rewrite Q. rewrite (put_digits_digs _ false 10 ltac:(lia) tbl10 NUMBUF 64) by (unfold NUMBUF; split; [lia|]; lia || (change (Z.of_nat 23) with 23; lia)).
    rewrite app_nil_r.
    assert (Hl : (length (digs 64 false 10 (Z.abs v)) <= 19)%nat) by (apply digs_len; lia).
    revert Hl. generalize (digs 64 false 10 (Z.abs v)). intros ds Hl.
    destruct (v <? 0); [|destruct (f_plus f); [|destruct (f_blank f); [|reflexivity]]];
      (erewrite put1_ok by (instantiate (1 := (22 - length ds)%nat); unfold NUMBUF; lia)); reflexivity.
  - (* o *)
    rewrite Z.mod_small by lia. rewrite Z.abs_eq by lia.
    rewrite (put_digits_digs _ false 8 ltac:(lia) tbl8 NUMBUF 64) by (unfold NUMBUF; split; [lia|]; lia || (change (Z.of_nat 23) with 23; lia)).
    rewrite app_nil_r.
    assert (Hl : (length (digs 64 false 8 v) <= 22)%nat) by (apply digs_len; lia).
    pose proof (digs_nonempty 63 false 8 v) as Hne.
    revert Hl Hne. generalize (digs 64 false 8 v). intros ds Hl Hne.
    destruct ds as [|z ds]; [congruence|].
    destruct (f_hash f); cbn [andb]; [|reflexivity].
    destruct (ceq z "0"); cbn [negb]; [reflexivity|].
    erewrite put1_ok by (instantiate (1 := (22 - length (z :: ds))%nat); unfold NUMBUF; lia). reflexivity.
  - (* u *)
    rewrite Z.mod_small by lia. rewrite Z.abs_eq by lia.
    rewrite (put_digits_digs _ false 10 ltac:(lia) tbl10 NUMBUF 64) by (unfold NUMBUF; split; [lia|]; lia || (change (Z.of_nat 23) with 23; lia)).
    rewrite app_nil_r. reflexivity.
  - (* x *)
    rewrite Z.mod_small by lia. rewrite Z.abs_eq by lia. rewrite Hu.
    rewrite (put_digits_digs _ false 16 ltac:(lia) (tbl16 false) NUMBUF 64) by (unfold NUMBUF; split; [lia|]; lia || (change (Z.of_nat 23) with 23; lia)).
    rewrite app_nil_r.
    assert (Hl : (length (digs 64 false 16 v) <= 16)%nat) by (apply digs_len; lia).
    revert Hl. generalize (digs 64 false 16 v). intros ds Hl.
    destruct (f_hash f); [|reflexivity].
    erewrite put1_ok by (instantiate (1 := (22 - length ds)%nat); unfold NUMBUF; lia).
    erewrite put1_ok by (instantiate (1 := (21 - length ds)%nat); lia). reflexivity.
  - (* X *)
    rewrite Z.mod_small by lia. rewrite Z.abs_eq by lia. rewrite Hu.
    rewrite (put_digits_digs _ true 16 ltac:(lia) (tbl16 true) NUMBUF 64) by (unfold NUMBUF; split; [lia|]; lia || (change (Z.of_nat 23) with 23; lia)).
    rewrite app_nil_r.
    assert (Hl : (length (digs 64 true 16 v) <= 16)%nat) by (apply digs_len; lia).
    revert Hl. generalize (digs 64 true 16 v). intros ds Hl.
    destruct (f_hash f); [|reflexivity].
    erewrite put1_ok by (instantiate (1 := (22 - length ds)%nat); unfold NUMBUF; lia).
    erewrite put1_ok by (instantiate (1 := (21 - length ds)%nat); lia). reflexivity.
  - (* p *)
    rewrite Z.mod_small by lia. rewrite Z.abs_eq by lia. rewrite Hu.
    rewrite (put_digits_digs _ false 16 ltac:(lia) (tbl16 false) NUMBUF 64) by (unfold NUMBUF; split; [lia|]; lia || (change (Z.of_nat 23) with 23; lia)).
    rewrite app_nil_r.
    assert (Hl : (length (digs 64 false 16 v) <= 16)%nat) by (apply digs_len; lia).
    revert Hl. generalize (digs 64 false 16 v). intros ds Hl.
    destruct (f_hash f); [|reflexivity].
    erewrite put1_ok by (instantiate (1 := (22 - length ds)%nat); unfold NUMBUF; lia).
    erewrite put1_ok by (instantiate (1 := (21 - length ds)%nat); lia). reflexivity.
Qed.

(** * Fields *)
Lemma fill_pad c n : fill c n = pad c n.
Proof. reflexivity. Qed.
Lemma pad_neg c n : n <= 0 -> pad c n = [].
Proof. intros H. unfold pad. replace (Z.to_nat n) with 0%nat by lia. reflexivity. Qed.
Lemma firstn_zlen (s : cstr) : firstn (Z.to_nat (zlen s)) s = s.
Proof. unfold zlen. rewrite Nat2Z.id. apply firstn_all. Qed.
Lemma zlen_app a b : zlen (a ++ b) = zlen a + zlen b.
Proof. unfold zlen. rewrite app_length. lia. Qed.
Lemma zlen_pos a : 0 <= zlen a.
Proof. unfold zlen. lia. Qed.
Lemma zlen_pad c n : 0 <= n -> zlen (pad c n) = n.
Proof. intros H. unfold zlen, pad. rewrite repeat_length. lia. Qed.
Lemma pad_shift c n : pad c n ++ [c] = c :: pad c n.
Proof. unfold pad. symmetry. apply repeat_cons. Qed.

(** text fields *)
Lemma put_field_str s f w p : f_zero f && f_number f = false -> 0 <= p ->
  put_field s f w p = field (f_right f) (f_zero f) w [] (if f_dot f then firstn (Z.to_nat p) s else s).
Proof.
  intros Hn Hp. unfold put_field.
  set (t := if f_dot f then firstn (Z.to_nat p) s else s).
  set (pr := if negb (f_dot f) || (Z.of_nat (length s) <? p) then Z.of_nat (length s) else p).
  assert (Ht : firstn (Z.to_nat pr) s = t).
  { subst t pr. destruct (f_dot f); cbn [negb orb].
    - destruct (Z.ltb_spec (Z.of_nat (length s)) p); [|reflexivity].
      rewrite Nat2Z.id, firstn_all. symmetry. apply firstn_all2. lia.
    - rewrite Nat2Z.id. apply firstn_all. }
  assert (Hz : zlen t = pr).
  { rewrite <- Ht. unfold zlen. rewrite firstn_length. subst pr.
    destruct (negb (f_dot f) || (Z.of_nat (length s) <? p)) eqn:E; [lia|].
    apply orb_false_iff in E. destruct E as [_ E]. lia. }
  rewrite Ht, <- Hz. unfold field. change (zlen []) with 0. rewrite Z.sub_0_r. cbn [app].
  destruct (Z.ltb_spec (zlen t) w) as [H|H].
  - rewrite Hn. destruct (f_right f); cbn [negb]; [reflexivity|].
    destruct (f_zero f); reflexivity.
  - rewrite !(pad_neg _ (w - zlen t)) by lia. rewrite app_nil_r.
    destruct (f_right f), (f_zero f); reflexivity.
Qed.

(** number fields *)
Definition num_prefix (pre : cstr) : Prop := In pre [[]; L "-"; L "+"; L " "; L "0x"; L "0X"].

Lemma put_field_num pre body f w p : f_number f = true -> num_prefix pre ->
  body <> [] -> forallb plain_digit body = true -> (f_dot f = true -> zlen (pre ++ body) <= p) ->
  put_field (pre ++ body) f w p = field (f_right f) (f_zero f) w pre body.
Proof.
  intros Hn Hpre Hb Hd Hp. unfold put_field.
  set (s := pre ++ body) in *.
  set (pr := if negb (f_dot f) || (Z.of_nat (length s) <? p) then Z.of_nat (length s) else p).
  assert (Hpr : pr = Z.of_nat (length s) \/ (pr = p /\ p = Z.of_nat (length s))).
  { subst pr. destruct (f_dot f); cbn [negb orb]; [|auto].
    specialize (Hp eq_refl). unfold zlen in Hp. destruct (Z.ltb_spec (Z.of_nat (length s)) p); [auto|right; lia]. }
  assert (Hq : pr = zlen s) by (unfold zlen; lia). clear Hpr. clearbody pr. subst pr.
  rewrite firstn_zlen. unfold field.
  assert (Hw : w - zlen s = w - zlen pre - zlen body) by (subst s; rewrite zlen_app; lia).
  rewrite Hw.
  destruct (Z.ltb_spec (zlen s) w) as [H|H].
  - destruct (f_right f); cbn [negb]; [subst s; rewrite <- app_assoc; reflexivity|].
    rewrite Hn, andb_true_r. destruct (f_zero f); [|reflexivity].
    unfold fill. fold (pad "0" (w - zlen pre - zlen body)).
    set (z := pad "0" (w - zlen pre - zlen body)).
    assert (K : forall x y : cstr, length y = Z.to_nat (zlen (x ++ y) - zlen x)) by (intros; rewrite zlen_app; unfold zlen; lia).
    destruct body as [|b body]; [congruence|]. clear Hb.
    cbn [forallb] in Hd. apply andb_true_iff in Hd. destruct Hd as [Hd1 Hd2].
    assert (Hs : ceq b "+" = false /\ ceq b "-" = false /\ ceq b " " = false).
    { repeat split; apply ceq_false; intros ->; discriminate Hd1. }
    destruct Hs as (Hs1 & Hs2 & Hs3).
    assert (F : forall (x : cstr) n, n = zlen x -> firstn (Z.to_nat n) x = x) by (intros x n ->; apply firstn_zlen).
    destruct Hpre as [<-|[<-|[<-|[<-|[<-|[<-|[]]]]]]]; subst s; cbn [app] in *.
    + rewrite Hs1, Hs2, Hs3. cbn [orb].
      destruct (ceq_spec b "0") as [E|E].
      * subst b. replace (match body with [] => 1 | b0 :: _ => _ end) with 1.
        2:{ destruct body as [|b0 body]; [reflexivity|]. cbn [forallb] in Hd2. apply andb_true_iff in Hd2. destruct Hd2 as [Hd2 _].
            replace (ceq b0 "x") with false by (symmetry; apply ceq_false; intros ->; discriminate Hd2).
            replace (ceq b0 "X") with false by (symmetry; apply ceq_false; intros ->; discriminate Hd2).
            rewrite andb_false_r. reflexivity. }
        change (Z.to_nat 1) with 1%nat. change (Z.to_nat (Z.min 1 1)) with 1%nat. change (Z.to_nat (1 - 1)) with 0%nat.
        cbn [repeat app skipn nth]. rewrite F by (unfold zlen; cbn [length]; lia).
        change (z ++ "0"%char :: body) with (z ++ ["0"%char] ++ body). rewrite app_assoc. unfold z.
        rewrite pad_shift. reflexivity.
      * change (Z.to_nat 0) with 0%nat. change (Z.to_nat (Z.min 0 1)) with 0%nat. change (Z.to_nat (0 - 1)) with 0%nat.
        cbn [repeat app skipn nth]. rewrite F by (unfold zlen; cbn [length]; lia). reflexivity.
    + cbn -[zlen Z.sub firstn Z.to_nat]. change (Z.to_nat 1) with 1%nat. change (Z.to_nat (Z.min 1 1)) with 1%nat. change (Z.to_nat (1 - 1)) with 0%nat.
      cbn [repeat app skipn]. rewrite F by (unfold zlen; cbn [length]; lia). reflexivity.
    + cbn -[zlen Z.sub firstn Z.to_nat]. change (Z.to_nat 1) with 1%nat. change (Z.to_nat (Z.min 1 1)) with 1%nat. change (Z.to_nat (1 - 1)) with 0%nat.
      cbn [repeat app skipn]. rewrite F by (unfold zlen; cbn [length]; lia). reflexivity.
    + cbn -[zlen Z.sub firstn Z.to_nat]. change (Z.to_nat 1) with 1%nat. change (Z.to_nat (Z.min 1 1)) with 1%nat. change (Z.to_nat (1 - 1)) with 0%nat.
      cbn [repeat app skipn]. rewrite F by (unfold zlen; cbn [length]; lia). reflexivity.
    + change (L "0x" ++ b :: body) with ("0"%char :: "x"%char :: b :: body) in *.
      change (ceq "0" "+" || ceq "0" "-" || ceq "0" " ") with false. change (ceq "0" "0") with true.
      assert (Hl : 0 < zlen ("0"%char :: "x"%char :: b :: body) - 1) by (unfold zlen; cbn [length]; lia).
      apply Z.ltb_lt in Hl. cbv iota. rewrite Hl.
      cbn -[zlen Z.sub firstn Z.to_nat]. change (Z.to_nat 2) with 2%nat. change (Z.to_nat (Z.min 2 1)) with 1%nat. change (Z.to_nat (2 - 1)) with 1%nat.
      cbn [repeat app skipn]. rewrite F by (unfold zlen; cbn [length]; lia). reflexivity.
    + change (L "0X" ++ b :: body) with ("0"%char :: "X"%char :: b :: body) in *.
      change (ceq "0" "+" || ceq "0" "-" || ceq "0" " ") with false. change (ceq "0" "0") with true.
      assert (Hl : 0 < zlen ("0"%char :: "X"%char :: b :: body) - 1) by (unfold zlen; cbn [length]; lia).
      apply Z.ltb_lt in Hl. cbv iota. rewrite Hl.
      cbn -[zlen Z.sub firstn Z.to_nat]. change (Z.to_nat 2) with 2%nat. change (Z.to_nat (Z.min 2 1)) with 1%nat. change (Z.to_nat (2 - 1)) with 1%nat.
      cbn [repeat app skipn]. rewrite F by (unfold zlen; cbn [length]; lia). reflexivity.
  - rewrite !(pad_neg _ (w - zlen pre - zlen body)) by lia. rewrite app_nil_r.
    destruct (f_right f), (f_zero f); reflexivity.
Qed.

(** * Scanning a directive *)
Definition mkfl (h p r b z : bool) : pflags := PFlags h p r b false false z false false false.
Lemma mem_cons c d l : mem c (d :: l) = ceq c d || mem c l.
Proof. unfold mem. cbn. reflexivity. Qed.

Lemma scan_flags fl : forall rest w args h p r b z,
  forallb (fun c => mem c (L "#+- 0")) fl = true ->
  scan (fl ++ rest) None (PSt (mkfl h p r b z) w 0) args =
  scan rest None (PSt (mkfl (h || mem "#" fl) (p || mem "+" fl) (r || mem "-" fl) (b || mem " " fl) (z || mem "0" fl)) w 0) args.
Proof.
  induction fl as [|c fl IH]; intros rest w args h p r b z H; cbn [app].
  - unfold mem. cbn [existsb]. rewrite !orb_false_r. reflexivity.
  - cbn [forallb] in H. apply andb_true_iff in H. destruct H as [Hc H].
    apply mem_In in Hc. cbn in Hc.
    rewrite !mem_cons.
    destruct Hc as [<-|[<-|[<-|[<-|[<-|[]]]]]].
    + change (scan (("#"%char :: fl ++ rest)) None (PSt (mkfl h p r b z) w 0) args)
        with (scan (fl ++ rest) None (PSt (mkfl true p r b z) w 0) args).
      rewrite IH by assumption. change (ceq "#" "#") with true. change (ceq "+" "#") with false. change (ceq "-" "#") with false.
      change (ceq " " "#") with false. change (ceq "0" "#") with false. cbn [orb]. rewrite orb_true_r. reflexivity.
    + change (scan (("+"%char :: fl ++ rest)) None (PSt (mkfl h p r b z) w 0) args)
        with (scan (fl ++ rest) None (PSt (mkfl h true r b z) w 0) args).
      rewrite IH by assumption. change (ceq "#" "+") with false. change (ceq "+" "+") with true. change (ceq "-" "+") with false.
      change (ceq " " "+") with false. change (ceq "0" "+") with false. cbn [orb]. rewrite orb_true_r. reflexivity.
    + change (scan (("-"%char :: fl ++ rest)) None (PSt (mkfl h p r b z) w 0) args)
        with (scan (fl ++ rest) None (PSt (mkfl h p true b z) w 0) args).
      rewrite IH by assumption. change (ceq "#" "-") with false. change (ceq "+" "-") with false. change (ceq "-" "-") with true.
      change (ceq " " "-") with false. change (ceq "0" "-") with false. cbn [orb]. rewrite orb_true_r. reflexivity.
    + change (scan ((" "%char :: fl ++ rest)) None (PSt (mkfl h p r b z) w 0) args)
        with (scan (fl ++ rest) None (PSt (mkfl h p r true z) w 0) args).
      rewrite IH by assumption. change (ceq "#" " ") with false. change (ceq "+" " ") with false. change (ceq "-" " ") with false.
      change (ceq " " " ") with true. change (ceq "0" " ") with false. cbn [orb]. rewrite orb_true_r. reflexivity.
    + change (scan (("0"%char :: fl ++ rest)) None (PSt (mkfl h p r b z) w 0) args)
        with (scan (fl ++ rest) None (PSt (mkfl h p r b true) w 0) args).
      rewrite IH by assumption. change (ceq "#" "0") with false. change (ceq "+" "0") with false. change (ceq "-" "0") with false.
      change (ceq " " "0") with false. change (ceq "0" "0") with true. cbn [orb]. rewrite orb_true_r. reflexivity.
Qed.

(** digits of a number *)
Lemma horner_ge ds : forall a, 0 <= a -> forallb isdigit ds = true -> a <= horner a ds.
Proof.
  induction ds as [|c ds IH]; intros a Ha H; [cbn; lia|].
  cbn [forallb] in H. apply andb_true_iff in H. destruct H as [Hc H].
  cbn [horner]. assert (0 <= ccode c - 48) by (unfold isdigit, cbetween in Hc; change (ccode "0") with 48 in Hc; lia).
  specialize (IH (a * 10 + (ccode c - 48)) ltac:(lia) H). lia.
Qed.

Lemma scan_digits ds : forall n rest st args, forallb isdigit ds = true -> 0 <= n -> horner n ds <= INT_MAX - 48 ->
  scan (ds ++ rest) (Some n) st args = scan rest (Some (horner n ds)) st args.
Proof.
  induction ds as [|c ds IH]; intros n rest st args Hd Hn Hb; [reflexivity|].
  cbn [forallb] in Hd. apply andb_true_iff in Hd. destruct Hd as [Hc Hd].
  cbn [app scan horner] in *. rewrite Hc.
  assert (0 <= ccode c - 48) by (unfold isdigit, cbetween in Hc; change (ccode "0") with 48 in Hc; lia).
  pose proof (horner_ge ds (n * 10 + (ccode c - 48)) ltac:(lia) Hd).
  replace (n * 10 + ccode c <=? INT_MAX) with true by (symmetry; apply Z.leb_le; lia).
  replace (n * 10 + ccode c - 48) with (n * 10 + (ccode c - 48)) by lia. apply IH; auto; lia.
Qed.

Lemma scan_stop c rest n st args : isdigit c = false ->
  scan (c :: rest) (Some n) st args = scan (c :: rest) None (store st n) args.
Proof. intros H. cbn [scan]. rewrite H. reflexivity. Qed.

Lemma digit_not_special c : isdigit c = true -> ceq c "0" = false ->
  forall rest st args, scan (c :: rest) None st args = scan rest (Some (ccode c - 48)) st args.
Proof.
  intros H H0 rest st args. cbn [scan].
  replace (ceq c "#") with false by (symmetry; apply ceq_false; intros ->; discriminate H).
  replace (ceq c "+") with false by (symmetry; apply ceq_false; intros ->; discriminate H).
  replace (ceq c "-") with false by (symmetry; apply ceq_false; intros ->; discriminate H).
  replace (ceq c " ") with false by (symmetry; apply ceq_false; intros ->; discriminate H).
  replace (ceq c ".") with false by (symmetry; apply ceq_false; intros ->; discriminate H).
  replace (ceq c "*") with false by (symmetry; apply ceq_false; intros ->; discriminate H).
  replace (ceq c "l") with false by (symmetry; apply ceq_false; intros ->; discriminate H).
  replace (ceq c "h") with false by (symmetry; apply ceq_false; intros ->; discriminate H).
  rewrite H0, H. reflexivity.
Qed.

Lemma scan_number n rest st args c : 0 < n <= INT_MAX - 48 -> isdigit c = false ->
  scan (numtext false 10 n ++ c :: rest) None st args = scan (c :: rest) None (store st n) args.
Proof.
  intros Hn Hc. destruct (digs10 64 n) as (H1 & H2 & H3).
  { split; [lia|]. unfold INT_MAX in Hn. change (Z.of_nat 64) with 64. lia. }
  specialize (H3 ltac:(lia)). unfold numtext.
  destruct (digs 64 false 10 n) as [|d ds]; [destruct H3|].
  cbn [forallb] in H1. apply andb_true_iff in H1. destruct H1 as [H1 H1'].
  cbn [horner] in H2. cbn [app]. rewrite digit_not_special by assumption.
  assert (Q : 0 * 10 + (ccode d - 48) = ccode d - 48) by lia. rewrite Q in H2.
  assert (0 <= ccode d - 48) by (unfold isdigit, cbetween in H1; change (ccode "0") with 48 in H1; lia).
  rewrite scan_digits by (auto; lia). rewrite H2. apply scan_stop. assumption.
Qed.

(** the end of a directive: size and conversion *)
Definition end_flags (d : directive) (f : pflags) : pflags :=
  match d_size d with SL => set_long f | SLL => set_llong f true | _ => f end.

Lemma scan_end d rest st args :
  scan (size_text (d_size d) ++ conv_char (d_conv d) :: rest) None st args =
  Ok (Some (conv_char (d_conv d)), rest, PSt (end_flags d (p_fl st)) (p_field st) (p_prec st), args).
Proof.
  destruct st as [f w p]. unfold end_flags.
  destruct (d_size d), (d_conv d); reflexivity.
Qed.

Lemma end_head d rest : exists c r, size_text (d_size d) ++ conv_char (d_conv d) :: rest = c :: r /\ isdigit c = false.
Proof. destruct (d_size d), (d_conv d); cbn; eexists _, _; split; reflexivity. Qed.

Lemma scan_prec d rest f w args prec args' :
  f_dot f = false -> prec_of (d_prec d) args = Some (prec, args') ->
  scan ((match d_prec d with None_ => [] | a => "."%char :: amount_text a end) ++
        size_text (d_size d) ++ conv_char (d_conv d) :: rest) None (PSt f w 0) args =
  Ok (Some (conv_char (d_conv d)), rest,
      PSt (end_flags d (match prec with Some _ => set_dot f true | None => f end)) w (match prec with Some p => p | None => 0 end), args').
Proof.
  intros Hf Hp. unfold prec_of in Hp. destruct (d_prec d) as [|n|].
  - injection Hp as <- <-. cbn [app]. rewrite scan_end. reflexivity.
  - destruct ((0 <=? n) && (n <=? 2147483599)) eqn:E; [|discriminate]. injection Hp as <- <-.
    apply andb_true_iff in E. destruct E as [E1 E2].
    cbn [app amount_text].
    match goal with |- scan ("."%char :: ?r) None (PSt f w 0) args = _ =>
      change (scan ("."%char :: r) None (PSt f w 0) args) with (scan r None (PSt (set_dot f true) w 0) args) end.
    destruct (Z.eq_dec n 0) as [->|Hn].
    + change (numtext false 10 0) with ["0"%char]. cbn [app].
      match goal with |- scan ("0"%char :: ?r) None ?st args = _ =>
        change (scan ("0"%char :: r) None st args) with (scan r None st args) end.
      rewrite scan_end. reflexivity.
    + destruct (end_head d rest) as (c & r & Q & Hc). rewrite Q.
      rewrite scan_number; [|unfold INT_MAX; lia|assumption]. rewrite <- Q, scan_end. reflexivity.
  - destruct args as [|[z|z|s|] args]; try discriminate.
    destruct ((0 <=? z) && (z <? 2 ^ 31)) eqn:E; [|discriminate]. injection Hp as <- <-.
    cbn [app amount_text].
    match goal with |- scan ("."%char :: ?r) None (PSt f w 0) _ = _ =>
      change (scan ("."%char :: r) None (PSt f w 0) (AInt z :: args)) with (scan r None (PSt (set_dot f true) w 0) (AInt z :: args)) end.
    change (L "*" ++ size_text (d_size d) ++ conv_char (d_conv d) :: rest) with ("*"%char :: size_text (d_size d) ++ conv_char (d_conv d) :: rest).
    match goal with |- scan ("*"%char :: ?r) None _ _ = _ =>
      change (scan ("*"%char :: r) None (PSt (set_dot f true) w 0) (AInt z :: args)) with (scan r None (PSt (set_dot f true) w z) args) end.
    rewrite scan_end. reflexivity.
Qed.

Definition dflags (d : directive) (neg : bool) : pflags :=
  mkfl (flag d "#") (flag d "+") (neg || flag d "-") (flag d " ") (flag d "0").

Lemma scan_dir d rest args w neg args1 prec args2 :
  flag_chars_ok d = true -> width_of (d_width d) args = Some (w, neg, args1) -> prec_of (d_prec d) args1 = Some (prec, args2) ->
  scan (tl (dir_text d) ++ rest) None p0 args =
  Ok (Some (conv_char (d_conv d)), rest,
      PSt (end_flags d (match prec with Some _ => set_dot (dflags d neg) true | None => dflags d neg end)) w
          (match prec with Some p => p | None => 0 end), args2).
Proof.
  intros Hok Hw Hp. unfold dir_text. cbn [tl]. rewrite <- !app_assoc. cbn [app].
  change p0 with (PSt (mkfl false false false false false) 0 0).
  rewrite scan_flags by exact Hok. cbn [orb].
  change (mkfl (mem "#" (d_flags d)) (mem "+" (d_flags d)) (mem "-" (d_flags d)) (mem " " (d_flags d)) (mem "0" (d_flags d)))
    with (dflags d false).
  set (tail := (match d_prec d with None_ => [] | _ => _ end) ++ _).
  assert (Htail : exists c r, tail = c :: r /\ isdigit c = false).
  { subst tail. destruct (d_prec d); cbn [app]; [apply end_head|eexists _, _; split; reflexivity..]. }
  destruct Htail as (c & r & Qt & Hc).
  unfold width_of in Hw. destruct (d_width d) as [|n|].
  - injection Hw as <- <- <-. cbn [amount_text app]. subst tail. apply scan_prec; [reflexivity|assumption].
  - destruct ((0 <? n) && (n <=? 2147483599)) eqn:E; [|discriminate]. injection Hw as <- <- <-.
    cbn [amount_text]. rewrite Qt. rewrite scan_number; [|unfold INT_MAX; lia|assumption].
    rewrite <- Qt. subst tail. change (store (PSt (dflags d false) 0 0) n) with (PSt (dflags d false) n 0).
    apply scan_prec; [reflexivity|assumption].
  - destruct args as [|[z|z|s|] args]; try discriminate.
    destruct ((- 2 ^ 31 <? z) && (z <? 2 ^ 31)) eqn:E; [|discriminate]. injection Hw as <- <- <-.
    change (amount_text Star ++ tail) with ("*"%char :: tail).
    change (scan ("*"%char :: tail) None (PSt (dflags d false) 0 0) (AInt z :: args))
      with (if z <? 0 then if z =? INT_MIN then UB else scan tail None (PSt (set_right (dflags d false)) (- z) 0) args
            else scan tail None (PSt (dflags d false) z 0) args).
    destruct (Z.ltb_spec z 0) as [Hz|Hz].
    + replace (z =? INT_MIN) with false by (symmetry; apply Z.eqb_neq; unfold INT_MIN; lia).
      rewrite Z.abs_neq by lia. subst tail. apply scan_prec; [reflexivity|assumption].
    + rewrite Z.abs_eq by lia. subst tail. apply scan_prec; [reflexivity|assumption].
Qed.

(** * Conversions *)
Lemma fetch_ok d f a r v : value d a = Some v ->
  (f_llong f || f_long f) = (match d_size d with SL | SLL => true | _ => match d_conv d with Cp => true | _ => false end end) ->
  fetch f (is_signed (d_conv d)) (a :: r) = Ok (v mod 2 ^ 64, r) /\ vrange (d_conv d) v.
Proof.
  intros Hv Hf. unfold fetch, vrange. rewrite Hf. unfold value in Hv.
  destruct (match d_size d with SL | SLL => true | _ => match d_conv d with Cp => true | _ => false end end);
    destruct a as [z|z|s|]; try discriminate.
  - destruct (is_signed (d_conv d)).
    + destruct ((- 2 ^ 63 <? z) && (z <? 2 ^ 63)) eqn:E; [|discriminate]. injection Hv as <-. split; [reflexivity|lia].
    + destruct ((0 <=? z) && (z <? 2 ^ 64)) eqn:E; [|discriminate]. injection Hv as <-. split; [reflexivity|lia].
  - destruct (is_signed (d_conv d)).
    + destruct ((- 2 ^ 31 <=? z) && (z <? 2 ^ 31)) eqn:E; [|discriminate]. injection Hv as <-. split; [|lia].
      assert (Q : to_int32 z = z).
      { unfold to_int32, INT_MAX. apply andb_true_iff in E. destruct E as [E1 E2].
        destruct (Z.ltb_spec z 0).
        - assert (z mod 4294967296 = z + 4294967296) by (symmetry; apply (Z.mod_unique z 4294967296 (-1)); lia).
          rewrite H0. destruct (z + 4294967296 <=? 2147483647) eqn:E; lia.
        - rewrite Z.mod_small by lia. destruct (z <=? 2147483647) eqn:E; lia. }
      rewrite Q. reflexivity.
    + destruct ((0 <=? z) && (z <? 2 ^ 32)) eqn:E; [|discriminate]. injection Hv as <-. split; [|lia].
      rewrite (Z.mod_small z (2 ^ 32)) by lia. reflexivity.
Qed.

Lemma digits_of_plain c alt v : forallb plain_digit (digits_of c alt None v) = true /\ digits_of c alt None v <> [].
Proof.
  unfold digits_of, numtext.
  assert (P : forall up b, 2 <= b <= 16 -> forallb plain_digit (digs 64 up b (Z.abs v)) = true) by (intros; apply digs_plain; lia).
  assert (Q : forall up b, digs 64 up b (Z.abs v) <> []) by (intros; apply digs_nonempty).
  destruct c; try (split; [apply P; lia|apply Q]).
  destruct (alt && _); [|split; [apply P; lia|apply Q]].
  split; [|discriminate]. cbn [forallb]. rewrite P by lia. reflexivity.
Qed.

Lemma prefix_num c d v : num_prefix (prefix_of c d v).
Proof.
  unfold prefix_of, num_prefix. cbn [In].
  destruct (is_signed c).
  - destruct (v <? 0); [tauto|]. destruct (flag d "+"); [tauto|]. destruct (flag d " "); tauto.
  - destruct (is_hex c && flag d "#" && negb (v =? 0)); [|tauto]. destruct c; tauto.
Qed.

Definition int_flags (d : directive) (neg dot : bool) : pflags :=
  PFlags (flag d "#") (flag d "+") (neg || flag d "-") (flag d " ")
    (match d_size d with SL => true | _ => match d_conv d with Cp => true | _ => false end end)
    (match d_size d with SLL => match d_conv d with Cp => false | _ => true end | _ => false end)
    (flag d "0") dot (match d_conv d with CX => true | _ => false end) true.

Lemma digits_prec c alt p v : let n := zlen (digits_of c alt None v) in
  negb ((p =? 0) && (v =? 0)) = true -> 0 <= p ->
  (p <= n -> digits_of c alt (Some p) v = digits_of c alt None v) /\
  (alt = false -> digits_of c alt (Some p) v = pad "0" (p - n) ++ digits_of c alt None v).
Proof.
  intros n Hz Hp. subst n. unfold digits_of.
  set (ds := numtext _ _ _).
  replace ((p =? 0) && (v =? 0)) with false by (destruct ((p =? 0) && (v =? 0)); [discriminate|reflexivity]).
  split.
  - destruct c; intros H; try (rewrite pad_neg by lia; reflexivity).
    destruct alt; cbn [andb] in *; [|rewrite pad_neg by lia; reflexivity].
    assert (Hne : ds <> []) by apply digs_nonempty.
    destruct ds as [|z ds]; [congruence|]. clear Hne.
    destruct (ceq_spec z "0") as [->|E]; cbn [negb] in *.
    + rewrite pad_neg by lia. reflexivity.
    + change (zlen ("0"%char :: z :: ds)) with (zlen (["0"%char] ++ z :: ds)) in H. rewrite zlen_app in H. change (zlen ["0"%char]) with 1 in H.
      destruct (Z.eq_dec (p - zlen (z :: ds)) 1) as [Q|Q].
      * rewrite Q. reflexivity.
      * rewrite pad_neg by lia. cbn [app]. apply ceq_false in E. rewrite E. reflexivity.
  - intros ->. destruct c; try reflexivity.
Qed.

Lemma put_field_same s f w p q : f_dot f = false -> put_field s f w p = put_field s f w q.
Proof. intros H. unfold put_field. rewrite H. reflexivity. Qed.

Lemma conv_int_ok d neg w prec a r v :
  is_number (d_conv d) = true -> 0 <= w -> (match prec with Some p => 0 <= p | None => True end) ->
  value d a = Some v -> supported_int d (neg || flag d "-") w prec v = true ->
  convert (conv_char (d_conv d))
    (PSt (end_flags d (match prec with Some _ => set_dot (dflags d neg) true | None => dflags d neg end)) w
         (match prec with Some p => p | None => 0 end)) (a :: r) =
  Ok (iso_int d (neg || flag d "-") w prec v, r).
Proof.
  intros Hc Hw Hp Hv Hs. unfold convert. cbn [p_fl p_prec p_field].
  set (pr := match prec with Some p => p | None => 0 end).
  assert (Hpr : 0 <= pr) by (subst pr; destruct prec; lia).
  replace (if pr <? 0 then 0 else pr) with pr by (destruct (Z.ltb_spec pr 0); lia).
  set (dot := match prec with Some _ => true | None => false end).
  match goal with |- context [set_number ?F] => assert (HF : set_number F = int_flags d neg dot) end.
  { unfold int_flags, end_flags, dflags, dot. destruct prec, (d_size d), (d_conv d); try discriminate; reflexivity. }
  rewrite HF.
  replace (ceq (tolower (conv_char (d_conv d))) "d" || ceq (tolower (conv_char (d_conv d))) "i") with (is_signed (d_conv d))
    by (destruct (d_conv d); reflexivity).
  match goal with |- (if ?B then _ else _) = _ => replace B with true by (destruct (d_conv d); try discriminate; reflexivity) end.
  destruct (fetch_ok d (int_flags d neg dot) a r v Hv) as [Q1 Q2].
  { unfold int_flags. cbn. destruct (d_size d), (d_conv d); reflexivity. }
  rewrite Q1. cbn [bind].
  fold (cchar (d_conv d)).
  rewrite number_text_ok; [|assumption|assumption|reflexivity].
  cbn [bind].
  unfold supported_int in Hs. apply andb_true_iff in Hs. destruct Hs as [Hx Hs].
  assert (Hpre : alt_prefix (d_conv d) (int_flags d neg dot) v = prefix_of (d_conv d) d v).
  { unfold alt_prefix, prefix_of. cbn [f_plus f_blank f_hash int_flags].
    destruct (is_signed (d_conv d)); [reflexivity|].
    destruct (is_hex (d_conv d)); [|reflexivity]. destruct (flag d "#"); [|reflexivity].
    destruct (v =? 0); [discriminate|reflexivity]. }
  rewrite Hpre. clear Hpre. cbn [f_hash int_flags].
  destruct (digits_of_plain (d_conv d) (flag d "#") v) as [D1 D2].
  pose proof (prefix_num (d_conv d) d v) as P1.
  unfold iso_int.
  set (pre := prefix_of (d_conv d) d v) in *. set (ds := digits_of (d_conv d) (flag d "#") None v) in *.
  cbn [f_dot]. destruct prec as [p|]; cbn [dot] in *; subst pr dot.
  - change (f_dot (int_flags d neg true)) with true. cbv iota.
    apply andb_true_iff in Hs. destruct Hs as [Hs Hs2]. apply andb_true_iff in Hs. destruct Hs as [Hz Hs1].
    destruct (digits_prec (d_conv d) (flag d "#") p v Hz ltac:(lia)) as [DP1 DP2]. fold ds in DP1, DP2.
    apply negb_true_iff in Hs1.
    fold (zlen (pre ++ ds)). rewrite zlen_app.
    assert (Hp0 : 0 <= zlen pre) by apply zlen_pos.
    destruct (Z.leb_spec p (zlen ds)) as [E|E].
    + rewrite DP1 by assumption.
      replace (zlen pre + zlen ds <? p) with false by (symmetry; apply Z.ltb_ge; lia).
      rewrite put_field_num; auto; [|rewrite zlen_app; lia].
      cbn [f_right f_zero int_flags]. rewrite Hs1. reflexivity.
    + cbn [orb] in Hs2. rewrite !andb_true_iff in Hs2. destruct Hs2 as [[[Hs2 Hs3] Hs4] Hs5].
      apply Z.eqb_eq in Hs2. apply negb_true_iff in Hs3, Hs4. apply Z.leb_le in Hs5.
      assert (pre = []) by (destruct pre; [reflexivity|unfold zlen in Hs2; cbn in Hs2; lia]).
      clearbody pre. subst pre.
      rewrite DP2 by assumption.
      replace (zlen [] + zlen ds <? p) with true by (symmetry; apply Z.ltb_lt; change (zlen []) with 0; lia).
      rewrite put_field_num; auto; [|intros _; cbn [app]; lia].
      cbn [f_right f_zero set_zero int_flags]. rewrite Hs4. unfold field. rewrite zlen_app, zlen_pad by lia.
      cbn [app]. change (zlen []) with 0. rewrite Z.sub_0_r.
      rewrite (pad_neg " ") by lia. reflexivity.
  - change (f_dot (int_flags d neg false)) with false. cbv iota.
    rewrite put_field_num; auto. cbn. discriminate.
Qed.

Lemma convert_ok d args w neg args1 prec args2 t args3 :
  expect d args = Some (t, args3) ->
  width_of (d_width d) args = Some (w, neg, args1) -> prec_of (d_prec d) args1 = Some (prec, args2) ->
  convert (conv_char (d_conv d))
    (PSt (end_flags d (match prec with Some _ => set_dot (dflags d neg) true | None => dflags d neg end)) w
         (match prec with Some p => p | None => 0 end)) args2 = Ok (t, args3).
Proof.
  intros He Hw Hp. unfold expect in He. destruct (negb (flag_chars_ok d)); [discriminate|].
  rewrite Hw in He. rewrite Hp in He.
  assert (Hw0 : 0 <= w).
  { unfold width_of in Hw. destruct (d_width d) as [|n|].
    - injection Hw as <- _ _; lia.
    - destruct ((0 <? n) && (n <=? 2147483599)) eqn:E; [|discriminate]. injection Hw as <- _ _. lia.
    - destruct args as [|[z|z|s|] args]; try discriminate. destruct ((- 2 ^ 31 <? z) && (z <? 2 ^ 31)); [|discriminate].
      injection Hw as <- _ _. lia. }
  assert (Hp0 : match prec with Some p => 0 <= p | None => True end).
  { unfold prec_of in Hp. destruct (d_prec d) as [|n|].
    - injection Hp as <- _. exact I.
    - destruct ((0 <=? n) && (n <=? 2147483599)) eqn:E; [|discriminate]. injection Hp as <- _. lia.
    - destruct args1 as [|[z|z|s|] args1]; try discriminate. destruct ((0 <=? z) && (z <? 2 ^ 31)) eqn:E; [|discriminate].
      injection Hp as <- _. lia. }
  destruct (is_number (d_conv d)) eqn:Hnum.
  - destruct args2 as [|a r]; [destruct (d_conv d); discriminate|].
    assert (He' : match value d a with
                  | Some v => if supported_int d (neg || flag d "-") w prec v then Some (iso_int d (neg || flag d "-") w prec v, r) else None
                  | None => None end = Some (t, args3)) by (destruct (d_conv d); try discriminate; exact He).
    clear He. destruct (value d a) as [v|] eqn:Ev; [|discriminate].
    destruct (supported_int d (neg || flag d "-") w prec v) eqn:Es; [|discriminate].
    injection He' as <- <-. apply conv_int_ok; assumption.
  - set (pr := match prec with Some p => p | None => 0 end) in *.
    assert (Hpr : 0 <= pr) by (subst pr; destruct prec; lia).
    set (f := end_flags d _).
    assert (F1 : f_number f = false) by (subst f; unfold end_flags, dflags; destruct prec, (d_size d); reflexivity).
    assert (F2 : f_zero f = flag d "0") by (subst f; unfold end_flags, dflags; destruct prec, (d_size d); reflexivity).
    assert (F3 : f_right f = neg || flag d "-") by (subst f; unfold end_flags, dflags; destruct prec, (d_size d); reflexivity).
    assert (F4 : f_dot f = match prec with Some _ => true | None => false end) by (subst f; unfold end_flags, dflags; destruct prec, (d_size d); reflexivity).
    clearbody f.
    unfold convert. cbn [p_fl p_prec p_field].
    replace (if pr <? 0 then 0 else pr) with pr by (destruct (Z.ltb_spec pr 0); lia).
    destruct (d_conv d); try discriminate; cbn [conv_char].
    + (* s *) destruct args2 as [|[z|z|s|] r]; try discriminate. injection He as <- <-.
      cbn -[put_field iso_str]. unfold iso_str.
      rewrite put_field_str; [|rewrite F1; apply andb_false_r|assumption].
      rewrite F2, F3, F4. destruct prec; reflexivity.
    + (* c *) destruct args2 as [|[z|z|s|] r]; try discriminate.
      destruct ((0 <=? z) && (z <=? 255)) eqn:E; [|discriminate]. injection He as <- <-.
      cbn -[put_field iso_str Z.modulo ascii_of_N Z.to_N]. unfold iso_str.
      rewrite put_field_str; [|cbn; rewrite F1; apply andb_false_r|assumption].
      cbn [f_right f_zero f_dot set_dot]. rewrite F2, F3. rewrite Z.mod_small by lia. reflexivity.
    + (* % *) destruct prec; [discriminate|]. injection He as <- <-.
      cbn -[put_field field].
      rewrite put_field_str; [|rewrite F1; apply andb_false_r|assumption].
      rewrite F2, F3, F4. reflexivity.
Qed.

Lemma expect_inv d args t args3 : expect d args = Some (t, args3) ->
  flag_chars_ok d = true /\ exists w neg args1 prec args2,
    width_of (d_width d) args = Some (w, neg, args1) /\ prec_of (d_prec d) args1 = Some (prec, args2).
Proof.
  unfold expect. destruct (flag_chars_ok d); cbn [negb]; [|discriminate].
  destruct (width_of (d_width d) args) as [[[w neg] args1]|]; [|discriminate].
  destruct (prec_of (d_prec d) args1) as [[prec args2]|] eqn:E; [|discriminate].
  intros _. split; [reflexivity|]. exists w, neg, args1, prec, args2. auto.
Qed.

Lemma vfprintf_ok ps : forall args out fuel, expects ps args = Some out -> (length (text ps) < fuel)%nat ->
  vfprintf fuel (text ps) args = Ok out.
Proof.
  induction ps as [|[c|d] ps IH]; intros args out fuel He Hf; (destruct fuel as [|fuel]; [lia|]).
  - injection He as <-. reflexivity.
  - cbn [expects] in He. destruct (ceq c "%") eqn:Ec; [discriminate|].
    destruct (expects ps args) as [o|] eqn:Eo; [|discriminate]. injection He as <-.
    cbn [text flat_map app vfprintf]. rewrite Ec. cbn [negb]. fold (text ps).
    rewrite IH with (out := o); auto. cbn in Hf. fold (text ps) in Hf. lia.
  - cbn [expects] in He. destruct (expect d args) as [[t args3]|] eqn:Ed; [|discriminate].
    destruct (expects ps args3) as [o|] eqn:Eo; [|discriminate]. injection He as <-.
    destruct (expect_inv _ _ _ _ Ed) as (Hok & w & neg & args1 & prec & args2 & Hw & Hp).
    cbn [text flat_map]. fold (text ps).
    pose proof (scan_dir d (text ps) args w neg args1 prec args2 Hok Hw Hp) as S.
    assert (Hd : dir_text d = "%"%char :: tl (dir_text d)) by reflexivity.
    rewrite Hd. cbn [app vfprintf]. change (negb (ceq "%" "%")) with false. cbv iota.
    rewrite S. cbn [bind]. rewrite (convert_ok d args w neg args1 prec args2 t args3 Ed Hw Hp). cbn [bind snd fst].
    rewrite IH with (out := o); auto.
    cbn [text flat_map] in Hf. fold (text ps) in Hf. rewrite app_length in Hf.
    assert (0 < length (dir_text d))%nat by (rewrite Hd; cbn; lia). lia.
Qed.

(** * The number buffer is big enough, whatever the flags *)
Lemma number_text_safe c f ll : 0 <= ll < 2 ^ 64 -> ((ceq c "d" || ceq c "i") = true -> ll <> 2 ^ 63) ->
  exists s, number_text c f ll = Ok s /\ (1 <= length s <= NUMBUF)%nat.
Proof.
  intros H Hm. unfold number_text.
  assert (NE : forall up b n, (1 <= length (digs 64 up b n))%nat).
  { intros. pose proof (digs_nonempty 63 up b n) as Q. change (digs (S 63) up b n) with (digs 64 up b n) in Q. destruct (digs 64 up b n); [congruence|cbn; lia]. }
  destruct (ceq c "d" || ceq c "i") eqn:Ed.
  - specialize (Hm eq_refl).
    assert (Ha : (ll < 2 ^ 63 /\ as_llong ll = ll) \/ (2 ^ 63 < ll /\ as_llong ll = ll - 2 ^ 64))
      by (unfold as_llong; destruct (ll <? 2 ^ 63) eqn:E; [left|right]; lia).
    replace (as_llong ll =? - 2 ^ 63) with false by (symmetry; apply Z.eqb_neq; lia).
    set (n := if as_llong ll <? 0 then - as_llong ll else ll).
    assert (Hn : 0 <= n < 2 ^ 63) by (subst n; destruct (Z.ltb_spec (as_llong ll) 0); lia).
    rewrite (put_digits_digs _ false 10 ltac:(lia) tbl10 NUMBUF 64) by (unfold NUMBUF; split; [lia|]; lia || (change (Z.of_nat 23) with 23; lia)).
    rewrite app_nil_r.
    assert (Hl : (length (digs 64 false 10 n) <= 19)%nat) by (apply digs_len; lia).
    specialize (NE false 10 n). revert Hl NE. generalize (digs 64 false 10 n). intros ds Hl NE.
    destruct (as_llong ll <? 0); [|destruct (f_plus f); [|destruct (f_blank f); [|exists ds; split; [reflexivity|unfold NUMBUF; lia]]]];
      (erewrite put1_ok by (instantiate (1 := (22 - length ds)%nat); unfold NUMBUF; lia)); eexists; (split; [reflexivity|cbn [length]; unfold NUMBUF; lia]).
  - destruct (ceq c "u") eqn:Eu; [|destruct (ceq c "o") eqn:Eo].
    + rewrite (put_digits_digs _ false 10 ltac:(lia) tbl10 NUMBUF 64) by (unfold NUMBUF; split; [lia|]; lia || (change (Z.of_nat 23) with 23; lia)).
      rewrite app_nil_r. eexists; split; [reflexivity|].
      split; [apply NE|]. enough (length (digs 64 false 10 ll) <= 20)%nat by (unfold NUMBUF; lia). apply digs_len; lia.
    + rewrite (put_digits_digs _ false 8 ltac:(lia) tbl8 NUMBUF 64) by (unfold NUMBUF; split; [lia|]; lia || (change (Z.of_nat 23) with 23; lia)).
      rewrite app_nil_r.
      assert (Hl : (length (digs 64 false 8 ll) <= 22)%nat) by (apply digs_len; lia).
      specialize (NE false 8 ll). revert Hl NE. generalize (digs 64 false 8 ll). intros ds Hl NE.
      destruct ds as [|z ds]; [cbn in NE; lia|].
      destruct (f_hash f && negb (ceq z "0")).
      * erewrite put1_ok by (instantiate (1 := (22 - length (z :: ds))%nat); unfold NUMBUF; lia).
        eexists; split; [reflexivity|]. cbn [length] in *. unfold NUMBUF. lia.
      * eexists; split; [reflexivity|]. unfold NUMBUF. lia.
    + rewrite (put_digits_digs _ (f_upper f) 16 ltac:(lia) (tbl16 (f_upper f)) NUMBUF 64) by (unfold NUMBUF; split; [lia|]; lia || (change (Z.of_nat 23) with 23; lia)).
      rewrite app_nil_r.
      assert (Hl : (length (digs 64 (f_upper f) 16 ll) <= 16)%nat) by (apply digs_len; lia).
      specialize (NE (f_upper f) 16 ll). revert Hl NE. generalize (digs 64 (f_upper f) 16 ll). intros ds Hl NE.
      destruct (f_hash f).
      * erewrite put1_ok by (instantiate (1 := (22 - length ds)%nat); unfold NUMBUF; lia).
        erewrite put1_ok by (instantiate (1 := (21 - length ds)%nat); lia). eexists; split; [reflexivity|cbn [length]; unfold NUMBUF; lia].
      * eexists; split; [reflexivity|]. unfold NUMBUF. lia.
Qed.

(** the spec's numerals denote the number *)
Lemma digch_digit up d : 0 <= d < 16 -> digit_of (digch up d) = Some d.
Proof. intros H. assert (K : In d (map Z.of_nat (seq 0 16))) by (apply in_map_iff; exists (Z.to_nat d); rewrite in_seq; lia).
  cbn in K. destruct up; repeat (destruct K as [<-|K]; [reflexivity|]); destruct K. Qed.

Lemma digs_denote k : forall up b n, 2 <= b <= 16 -> 0 <= n < b ^ Z.of_nat k -> (1 <= k)%nat ->
  denotes b (digs k up b n) n.
Proof.
  induction k as [|k IH]; intros up b n Hb Hn Hk; [lia|].
  cbn [digs]. assert (Hm : 0 <= n mod b < b) by (apply Z.mod_pos_bound; lia).
  destruct (Z.ltb_spec n b) as [E|E].
  - cbn [app]. rewrite Z.mod_small by lia. apply den_one; [apply digch_digit; lia|lia].
  - assert (1 <= n / b) by (apply Z.div_le_lower_bound; lia).
    assert (Q : n = n / b * b + n mod b) by (pose proof (Z.div_mod n b); lia).
    assert (1 <= k)%nat.
    { destruct k; [|lia]. change (b ^ Z.of_nat 1) with (b ^ 1) in Hn. rewrite Z.pow_1_r in Hn. lia. }
    assert (n / b < b ^ Z.of_nat k)
      by (apply Z.div_lt_upper_bound; [lia|]; rewrite Nat2Z.inj_succ, Z.pow_succ_r in Hn by lia; lia).
    rewrite Q at 3. apply den_snoc; [apply IH; lia|apply digch_digit; lia|lia].
Qed.
Lemma numtext_denotes up b n : b = 8 \/ b = 10 \/ b = 16 -> 0 <= n < 2 ^ 64 -> denotes b (numtext up b n) n.
Proof.
  intros Hb Hn. apply digs_denote; [lia| |lia]. split; [lia|].
  apply Z.lt_le_trans with (2 ^ 64); [lia|]. apply Z.pow_le_mono_l. lia.
Qed.
