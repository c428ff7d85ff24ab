(** Proofs for Times_props.v *)
From Verif Require Import Base Num_model Num_spec Printf_model Printf_spec Printf_proof Printf_props Times_model Times_spec.
From Coq Require Import Lia.
Local Open Scope Z_scope.

Lemma digch_zero d : 0 <= d < 10 -> digch false d = "0"%char -> d = 0.
Proof.
  intros H. assert (K : In d (map Z.of_nat (seq 0 10))) by (apply in_map_iff; exists (Z.to_nat d); rewrite in_seq; lia).
  cbn in K. repeat (destruct K as [<-|K]; [vm_compute; intros X; try discriminate X; reflexivity|]). destruct K.
Qed.
Lemma digs_head k : forall n, 0 < n < 10 ^ Z.of_nat k -> exists c r, digs k false 10 n = c :: r /\ c <> "0"%char.
Proof.
  induction k as [|k IH]; intros n H; [change (10 ^ Z.of_nat 0) with 1 in H; lia|]. cbn [digs]. destruct (Z.ltb_spec n 10) as [E|E].
  - cbn [app]. do 2 eexists. split; [reflexivity|]. intros X. apply digch_zero in X; [|apply Z.mod_pos_bound; lia]. rewrite Z.mod_small in X; lia.
  - destruct (IH (n / 10)) as (c & r & Q & N).
    + split; [apply Z.div_str_pos; lia|]. apply Z.div_lt_upper_bound; [lia|]. rewrite Nat2Z.inj_succ, Z.pow_succ_r in H by lia. lia.
    + rewrite Q. do 2 eexists. split; [reflexivity|auto].
Qed.
Lemma numeral_ok n : 0 <= n < 2 ^ 63 -> numeral_of (numtext false 10 n) n.
Proof.
  intros H. split; [apply c43_digits; auto; lia|]. destruct (Z.eq_dec n 0) as [->|N]; [vm_compute; exact Logic.I|].
  destruct (digs_head 64 n) as (c & r & Q & X). { split; [lia|]. apply Z.lt_le_trans with (2 ^ 63); [lia|]. vm_compute. discriminate. }
  unfold numtext. rewrite Q. destruct r; cbn; auto.
Qed.
Lemma two_ok n : 0 <= n < 100 -> two_digits (field false true 2 [] (numtext false 10 n)) n.
Proof.
  intros H. unfold field, numtext. cbn [digs]. destruct (Z.ltb_spec n 10) as [E|E].
  - cbn [app]. rewrite Z.mod_small by lia. cbn -[digch]. split; auto. change (denotes 10 (["0"%char] ++ [digch false n]) n).
    replace n with (0 * 10 + n) at 2 by lia. apply den_snoc; [apply den_one; [reflexivity|lia]|apply digch_digit; lia|lia].
  - assert (1 <= n / 10 < 10) by (split; [apply Z.div_le_lower_bound; lia|apply Z.div_lt_upper_bound; lia]).
    destruct (Z.ltb_spec (n / 10) 10); [|lia]. rewrite (Z.mod_small (n / 10)) by lia. cbn -[digch Z.div Z.modulo]. split; auto.
    change (denotes 10 ([digch false (n / 10)] ++ [digch false (n mod 10)]) n). assert (0 <= n mod 10 < 10) by (apply Z.mod_pos_bound; lia).
    replace n with (n / 10 * 10 + n mod 10) at 3 by (pose proof (Z.div_mod n 10); lia). apply den_snoc; [apply den_one; [apply digch_digit; lia|lia]|apply digch_digit; lia|lia].
Qed.

(** the directives *)
Definition d_s := D (Dir [] None_ None_ SNone Cs).
Definition d_star := D (Dir [] Star None_ SLL Cd).
Definition d_2ll := D (Dir (L "0") (Given 2) None_ SLL Cd).
Definition d_2l := D (Dir (L "0") (Given 2) None_ SL Cd).
Lemma e_s s r ps : expects (d_s :: ps) (AStr s :: r) = option_map (app s) (expects ps r).
Proof. cbn [expects d_s]. assert (E : expect (Dir [] None_ None_ SNone Cs) (AStr s :: r) = Some (s, r)). { change (Some (pad " " (0 - zlen [] - zlen s) ++ [] ++ s, r) = Some (s, r)). unfold pad, zlen. cbn [length]. replace (Z.to_nat (0 - Z.of_nat 0 - Z.of_nat (length s))) with O by lia. reflexivity. } rewrite E. reflexivity. Qed.
Lemma sign_ok z : 0 <= z < 2 ^ 63 -> ((- 2 ^ 63 <? z) && (z <? 2 ^ 63)) = true.
Proof. intros H. apply andb_true_intro. split; [apply Z.ltb_lt|apply Z.ltb_lt]; lia. Qed.
Lemma e_star w z r ps : 0 <= w < 100 -> 0 <= z < 2 ^ 63 -> expects (d_star :: ps) (AInt w :: ALong z :: r) = option_map (app (right_in (Z.to_nat w) (numtext false 10 z))) (expects ps r).
Proof.
  intros Hw Hz. cbn [expects d_star]. assert (E : expect (Dir [] Star None_ SLL Cd) (AInt w :: ALong z :: r) = Some (right_in (Z.to_nat w) (numtext false 10 z), r)).
  { unfold expect. cbn [flag_chars_ok d_flags forallb negb d_width width_of]. assert (((- 2 ^ 31 <? w) && (w <? 2 ^ 31)) = true) as -> by (apply andb_true_intro; split; apply Z.ltb_lt; lia).
    cbn [d_prec prec_of d_conv]. unfold value. cbn [d_size d_conv is_signed]. rewrite sign_ok by auto. unfold supported_int. cbn [d_conv is_hex andb negb].
    unfold iso_int, field, prefix_of, digits_of. cbn [d_conv is_signed flag d_flags mem existsb]. destruct (Z.ltb_spec w 0); [lia|]. destruct (Z.ltb_spec z 0); [lia|]. cbn [orb].
    rewrite Z.abs_eq by lia. rewrite Z.abs_eq by lia. unfold right_in, pad, zlen. cbn [length app]. f_equal. f_equal. f_equal. f_equal. lia. }
  rewrite E. reflexivity.
Qed.
Lemma e_2 sz z r ps : sz = SL \/ sz = SLL -> 0 <= z < 100 -> expects (D (Dir (L "0") (Given 2) None_ sz Cd) :: ps) (ALong z :: r) = option_map (app (field false true 2 [] (numtext false 10 z))) (expects ps r).
Proof.
  intros S Hz. cbn [expects]. assert (E : expect (Dir (L "0") (Given 2) None_ sz Cd) (ALong z :: r) = Some (field false true 2 [] (numtext false 10 z), r)).
  { unfold expect. change (flag_chars_ok _) with true. cbn [negb d_width width_of]. change ((0 <? 2) && (2 <=? 2147483599)) with true. cbn [d_prec prec_of d_conv]. unfold value. cbn [d_size d_conv is_signed].
    assert ((match sz with SL | SLL => true | _ => false end) = true) as Q by (destruct S as [->| ->]; reflexivity). 
    destruct S as [->| ->]; rewrite sign_ok by lia; unfold supported_int; cbn [d_conv is_hex andb negb]; unfold iso_int, prefix_of, digits_of; cbn [d_conv is_signed]; (destruct (Z.ltb_spec z 0); [lia|]);
      rewrite Z.abs_eq by lia; reflexivity. }
  rewrite E. reflexivity.
Qed.

Definition norm (u : Z) (t : timev) : Prop := 0 <= tv_sec t < 2 ^ 62 /\ 0 <= tv_frac t < u.
Lemma p_ts_ok posix ts w pre suf : norm 1000000000 ts -> 0 <= w < 100 ->
  exists t, p_ts posix ts w pre suf = Ok (pre ++ t ++ suf) /\ prints (Z.to_nat w) (tv_sec ts * 1000000000 + tv_frac ts) posix t.
Proof.
  intros [Hs Hf] Hw. destruct ts as [s f]. cbn [tv_sec tv_frac] in *. unfold p_ts. cbn [tv_sec tv_frac].
  rewrite !Z.quot_div_nonneg by lia. 
  assert (Hc : 0 <= f / 10000000 < 100) by (split; [apply Z.div_pos; lia|apply Z.div_lt_upper_bound; lia]).
  assert (Q : (s * 1000000000 + f) / 10000000 = s * 100 + f / 10000000) by (replace (s * 1000000000 + f) with (s * 100 * 10000000 + f) by lia; now rewrite Z.div_add_l by lia).
  destruct posix.
  - change (L "%s%*lld.%02ld%s") with (text [d_s; d_star; Lit "."; d_2l; d_s]).
    exists (right_in (Z.to_nat w) (numtext false 10 s) ++ L "." ++ field false true 2 [] (numtext false 10 (f / 10000000))). split.
    + apply c43_printf_partial. rewrite e_s, e_star by lia. unfold d_2l.
      change (expects (Lit "." :: ?x) ?y) with (option_map (cons "."%char) (expects x y)).
      rewrite e_2 by (auto || lia). rewrite e_s. cbn [expects option_map]. rewrite app_nil_r, <- !app_assoc. reflexivity.
    + econstructor; [exact Q|exact Hc|apply numeral_ok; lia|now apply two_ok].
  - rewrite Z.rem_mod_nonneg by lia. assert (Hm : 0 <= s mod 60 < 60) by (apply Z.mod_pos_bound; lia).
    assert (Hq : 0 <= s / 60 < 2 ^ 62) by (split; [apply Z.div_pos; lia|apply Z.div_lt_upper_bound; lia]).
    change (L "%s%*lldm%02lld.%02lds%s") with (text [d_s; d_star; Lit "m"; d_2ll; Lit "."; d_2l; Lit "s"; d_s]).
    exists (right_in (Z.to_nat w) (numtext false 10 (s / 60)) ++ L "m" ++ field false true 2 [] (numtext false 10 (s mod 60)) ++ L "." ++ field false true 2 [] (numtext false 10 (f / 10000000)) ++ L "s"). split.
    + apply c43_printf_partial. rewrite e_s, e_star by lia. unfold d_2l, d_2ll.
      change (expects (Lit "m" :: ?x) ?y) with (option_map (cons "m"%char) (expects x y)). rewrite e_2 by (auto || lia).
      change (expects (Lit "." :: ?x) ?y) with (option_map (cons "."%char) (expects x y)). rewrite e_2 by (auto || lia).
      change (expects (Lit "s" :: ?x) ?y) with (option_map (cons "s"%char) (expects x y)). rewrite e_s. cbn [expects option_map]. rewrite app_nil_r, <- !app_assoc. reflexivity.
    + apply (Pr_minutes _ _ (s / 60) (s mod 60) (f / 10000000)); [|exact Hm|exact Hc|apply numeral_ok; lia|apply two_ok; lia|now apply two_ok].
      rewrite Q. pose proof (Z.div_mod s 60). lia.
Qed.
Lemma p_tv_ok posix tv w pre suf : norm 1000000 tv -> 0 <= w < 100 ->
  exists t, p_tv posix tv w pre suf = Ok (pre ++ t ++ suf) /\ prints (Z.to_nat w) ((tv_sec tv * 1000000 + tv_frac tv) * 1000) posix t.
Proof.
  intros [Hs Hf] Hw. unfold p_tv. destruct (p_ts_ok posix (to_timespec tv) w pre suf) as (t & E & P); [split; cbn; lia|auto|]. exists t. split; auto. cbn in P.
  replace ((tv_sec tv * 1000000 + tv_frac tv) * 1000) with (tv_sec tv * 1000000000 + tv_frac tv * 1000) by lia. exact P.
Qed.

(** a time in units *)
Definition units (u : Z) (t : timev) : Z := tv_sec t * u + tv_frac t.
Lemma tadd_ok u a b : 0 < u -> 0 <= tv_frac a < u -> 0 <= tv_frac b < u -> units u (tadd u a b) = units u a + units u b /\ 0 <= tv_frac (tadd u a b) < u.
Proof. intros. unfold tadd, units. destruct (Z.leb_spec u (tv_frac a + tv_frac b)); cbn; nia. Qed.
Lemma tsub_ok u a b : 0 < u -> 0 <= tv_frac a < u -> 0 <= tv_frac b < u -> units u (tsub u a b) = units u a - units u b /\ 0 <= tv_frac (tsub u a b) < u.
Proof. intros. unfold tsub, units. destruct (Z.ltb_spec (tv_frac a - tv_frac b) 0); cbn; nia. Qed.
Lemma norm_units u t : 0 < u -> 0 <= tv_frac t < u -> 0 <= units u t < 2 ^ 62 * u -> norm u t.
Proof. intros Hu Hf Ht. unfold units in Ht. split; [|auto]. nia. Qed.
