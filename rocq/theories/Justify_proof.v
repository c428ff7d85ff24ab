From Verif Require Import Base Num_model Num_spec SimplifyPath_model Printf_model Printf_spec Printf_proof Justify_model Justify_spec.
From Coq Require Import Lia ZArith.
Local Open Scope Z_scope.

Lemma rstrip_len_ok s : exists t w, s = t ++ w /\ rstrip_len (rev s) = strlen t /\
  forallb isspace w = true /\ (forall t' c, t = t' ++ [c] -> isspace c = false).
Proof.
  induction s as [|c s IH] using rev_ind.
  - exists [], []. cbn. repeat split; auto. intros t' c H. destruct t'; discriminate.
  - rewrite rev_app_distr. cbn [rev app rstrip_len].
    destruct (isspace c) eqn:E.
    + destruct IH as (t & w & -> & H1 & H2 & H3). exists t, (w ++ [c]).
      rewrite <- app_assoc. repeat split; auto. rewrite forallb_app, H2. cbn. rewrite E. reflexivity.
    + exists (s ++ [c]), []. rewrite app_nil_r. repeat split; auto.
      * unfold strlen. cbn [length]. rewrite rev_length, app_length. cbn. lia.
      * intros t' d H. apply app_inj_tail in H. destruct H as [_ <-]. exact E.
Qed.

Lemma skip_space_ok s : exists w, s = w ++ skip_space s /\ forallb isspace w = true /\
  (skip_space s = [] \/ exists c r, skip_space s = c :: r /\ isspace c = false).
Proof.
  induction s as [|c s IH]; cbn [skip_space].
  - exists []. cbn. auto.
  - destruct (isspace c) eqn:E.
    + destruct IH as (w & H1 & H2 & H3). exists (c :: w). cbn. rewrite <- H1, E, H2. auto.
    + exists []. cbn. repeat split; auto. right. eauto.
Qed.
Lemma skip_zero_ok s : exists z, s = z ++ skip_zero s /\ forallb (fun c => ceq c "0") z = true /\
  (forall c r, skip_zero s = c :: r -> c <> "0"%char).
Proof.
  induction s as [|c s IH]; cbn [skip_zero].
  - exists []. cbn. repeat split; auto. discriminate.
  - destruct (ceq_spec c "0") as [->|E].
    + destruct IH as (z & H1 & H2 & H3). exists ("0"%char :: z). cbn. rewrite <- H1, H2. auto.
    + exists []. cbn. repeat split; auto. intros c' r H. congruence.
Qed.

Definition star_s fl p := D (Dir fl Star p SNone Cs).

Lemma right_call (zero : bool) w slen (s : cstr) n : 0 <= w < 2 ^ 31 -> 0 <= slen < 2 ^ 31 -> slen <= strlen s -> n = Z.to_nat (w + slen + 1) ->
  snprintf n (if zero then L "%0*s%.*s" else L "%*s%.*s") [AInt w; AStr []; AInt slen; AStr s] =
  Ok (repeat (if zero then "0"%char else " "%char) (Z.to_nat w) ++ firstn (Z.to_nat slen) s).
Proof.
  intros Hw Hs Hl ->.
  set (ps := [star_s (if zero then ["0"%char] else []) None_; D (Dir [] None_ Star SNone Cs)]).
  assert (Q : text ps = if zero then L "%0*s%.*s" else L "%*s%.*s") by (destruct zero; reflexivity).
  rewrite <- Q. unfold snprintf, printf.
  rewrite (vfprintf_ok ps [AInt w; AStr []; AInt slen; AStr s]
             (repeat (if zero then "0"%char else " "%char) (Z.to_nat w) ++ firstn (Z.to_nat slen) s)).
  - cbn [bind]. f_equal. apply firstn_all2.
    rewrite app_length, repeat_length, firstn_length. unfold strlen in Hl. lia.
  - subst ps. cbn [expects star_s]. unfold expect at 1.
    replace (negb (flag_chars_ok _)) with false by (destruct zero; reflexivity).
    cbn [d_width d_prec d_conv width_of prec_of].
    replace ((- 2 ^ 31 <? w) && (w <? 2 ^ 31)) with true by (symmetry; apply andb_true_iff; lia).
    replace (w <? 0) with false by (symmetry; apply Z.ltb_ge; lia).
    rewrite Z.abs_eq by lia.
    unfold expect. change (negb (flag_chars_ok {| d_flags := []; d_width := None_; d_prec := Star; d_size := SNone; d_conv := Cs |})) with false.
    cbn [d_width d_prec d_conv width_of prec_of].
    replace ((0 <=? slen) && (slen <? 2 ^ 31)) with true by (symmetry; apply andb_true_iff; lia).
    cbn [option_map]. rewrite app_nil_r. f_equal. f_equal.
    + unfold iso_str, field. change (zlen []) with 0. rewrite !Z.sub_0_r.
      unfold pad. destruct zero; cbn; rewrite ?app_nil_r; reflexivity.
    + unfold iso_str, field. change (zlen []) with 0. change (0 - 0 - zlen (firstn (Z.to_nat slen) s)) with (- zlen (firstn (Z.to_nat slen) s)).
      unfold pad, zlen. replace (Z.to_nat (- Z.of_nat _)) with 0%nat by lia. reflexivity.
  - lia.
Qed.

Lemma left_call w (s : cstr) : 0 <= w < 2 ^ 31 ->
  snprintf (Z.to_nat (w + 1)) (L "%-*.*s") [AInt w; AInt w; AStr s] =
  Ok (firstn (Z.to_nat w) s ++ repeat " "%char (Z.to_nat w - length s)).
Proof.
  intros Hw.
  set (ps := [star_s ["-"%char] Star]).
  change (L "%-*.*s") with (text ps). unfold snprintf, printf.
  rewrite (vfprintf_ok ps [AInt w; AInt w; AStr s] (firstn (Z.to_nat w) s ++ repeat " "%char (Z.to_nat w - length s))).
  - cbn [bind]. f_equal. apply firstn_all2.
    rewrite app_length, repeat_length, firstn_length. lia.
  - subst ps. cbn [expects star_s]. unfold expect.
    change (negb (flag_chars_ok _)) with false.
    cbn [d_width d_prec d_conv width_of prec_of].
    replace ((- 2 ^ 31 <? w) && (w <? 2 ^ 31)) with true by (symmetry; apply andb_true_iff; lia).
    replace (w <? 0) with false by (symmetry; apply Z.ltb_ge; lia).
    rewrite Z.abs_eq by lia.
    replace ((0 <=? w) && (w <? 2 ^ 31)) with true by (symmetry; apply andb_true_iff; lia).
    cbn [option_map]. rewrite app_nil_r. f_equal.
    unfold iso_str, field. change (zlen []) with 0. cbn -[Z.sub zlen firstn Z.to_nat pad]. f_equal.
    unfold pad, zlen. rewrite firstn_length. f_equal. lia.
  - lia.
Qed.

Lemma upcase_ok c : (if islower c then toupper c else c) = upcased c.
Proof.
  assert (G : forallb (fun c => ceq (if islower c then toupper c else c) (upcased c)) all_chars = true) by (vm_compute; reflexivity).
  apply ceq_true. exact (char_sweep _ G c).
Qed.
Lemma downcase_ok c : (if isupper c then tolower c else c) = downcased c.
Proof.
  assert (G : forallb (fun c => ceq (if isupper c then tolower c else c) (downcased c)) all_chars = true) by (vm_compute; reflexivity).
  apply ceq_true. exact (char_sweep _ G c).
Qed.

Lemma isdigit_not_space c : isspace c = true -> isdigit c = false.
Proof.
  intros H. assert (G : forallb (fun c => negb (isspace c) || negb (isdigit c)) all_chars = true) by (vm_compute; reflexivity).
  pose proof (char_sweep _ G c) as K. cbv beta in K. rewrite H in K. cbn in K. destruct (isdigit c); [discriminate|reflexivity].
Qed.

Definition cased (f : jflags) (c : char) : char := if j_ucase f then upcased c else if j_lcase f then downcased c else c.
Lemma case_ok f p :
  (if j_ucase f then map (fun c => if islower c then toupper c else c) p
   else if j_lcase f then map (fun c => if isupper c then tolower c else c) p else p) = map (cased f) p.
Proof.
  unfold cased. destruct (j_ucase f); [apply map_ext; apply upcase_ok|].
  destruct (j_lcase f); [apply map_ext; apply downcase_ok|]. symmetry. apply map_id.
Qed.

Lemma formatstr_right f s : j_rjust f = true -> 0 <= j_field f < 2 ^ 31 - 1 -> strlen s < 2 ^ 31 - 1 ->
  exists t out, trimmed_right s t /\ right_justified (j_zerofil f) (Z.to_nat (field_of f s)) t out /\
  formatstr f s = Ok (map (cased f) out, field_of f s).
Proof.
  intros Hr Hf Hs. unfold formatstr. rewrite Hr. cbn [orb].
  destruct (rstrip_len_ok s) as (t & w & E & El & Hw & Ht).
  rewrite El. set (fld := field_of f s).
  assert (Hfld : 0 <= fld < 2 ^ 31 - 1) by (subst fld; unfold field_of; destruct (j_field f =? 0); unfold strlen in *; lia).
  assert (Hls : strlen s = strlen t + Z.of_nat (length w)) by (rewrite E; unfold strlen; rewrite app_length; lia).
  assert (Ht0 : 0 <= strlen t) by (unfold strlen; lia).
  assert (T : trimmed_right s t) by (exists w; auto).
  destruct (Z.ltb_spec fld (strlen t)) as [C|C].
  - set (s' := skipn (Z.to_nat (strlen t - fld)) s).
    set (out := skipn (Z.to_nat (strlen t - fld)) t).
    assert (Hlo : length out = Z.to_nat fld) by (subst out; rewrite skipn_length; unfold strlen in *; lia).
    assert (Q : s' = out ++ w).
    { subst s' out. rewrite E, skipn_app. replace (Z.to_nat (strlen t - fld) - length t)%nat with 0%nat by (unfold strlen in *; lia). reflexivity. }
    exists t, out. split; [exact T|]. split.
    { left. split; [unfold strlen in *; lia|]. split; [exact Hlo|]. exists (firstn (Z.to_nat (strlen t - fld)) t). symmetry. apply firstn_skipn. }
    rewrite (right_call _ (fld - fld) fld s') by (try lia; rewrite Q; unfold strlen; rewrite app_length; lia).
    cbn [bind]. rewrite case_ok.
    replace (Z.to_nat (fld - fld)) with 0%nat by lia. cbn [repeat app]. rewrite Q, <- Hlo, firstn_app, Nat.sub_diag, firstn_all.
    cbn [firstn]. rewrite app_nil_r. reflexivity.
  - set (z := j_zerofil f && match s with c :: _ => isdigit c | [] => false end).
    assert (Hz : z = j_zerofil f && match t with c :: _ => isdigit c | [] => false end \/ t = []).
    { subst z. destruct t as [|c t']; [right; reflexivity|left]. rewrite E. reflexivity. }
    assert (Hz' : t = [] -> z = false).
    { intros ->. subst z. rewrite E. destruct w as [|c w]; [apply andb_false_r|].
      cbn [forallb] in Hw. apply andb_true_iff in Hw. destruct Hw as [Hc _].
      cbn [app]. rewrite (isdigit_not_space c Hc). apply andb_false_r. }
    assert (Hz2 : z = j_zerofil f && match t with c :: _ => isdigit c | [] => false end).
    { destruct Hz as [Hz|Hz]; [exact Hz|]. rewrite (Hz' Hz), Hz. symmetry. apply andb_false_r. }
    rewrite (right_call _ (fld - strlen t) (strlen t) s) by lia.
    cbn [bind]. rewrite case_ok. 
    assert (F : firstn (Z.to_nat (strlen t)) s = t).
    { rewrite E. unfold strlen. rewrite Nat2Z.id, firstn_app, Nat.sub_diag, firstn_all. cbn. apply app_nil_r. }
    rewrite F, Hz2.
    eexists t, _. split; [exact T|]. split; [|reflexivity].
    destruct (Z.eq_dec fld (strlen t)) as [D|D].
    + left. replace (fld - strlen t) with 0 by lia. cbn [Z.to_nat repeat app].
      unfold strlen in D. split; [lia|]. split; [lia|]. exists []. reflexivity.
    + right. split; [unfold strlen in *; lia|]. f_equal. f_equal. unfold strlen. lia.
Qed.

Lemma formatstr_left f s : j_rjust f = false -> j_ljust f = true -> 0 <= j_field f < 2 ^ 31 - 1 -> strlen s < 2 ^ 31 - 1 ->
  exists t out, trimmed_left (j_zerofil f) s t /\ left_justified (Z.to_nat (field_of f s)) t out /\
  formatstr f s = Ok (map (cased f) out, field_of f s).
Proof.
  intros Hr Hl Hf Hs. unfold formatstr. rewrite Hr, Hl. cbn [orb].
  set (fld := field_of f s).
  assert (Hfld : 0 <= fld < 2 ^ 31 - 1) by (subst fld; unfold field_of; destruct (j_field f =? 0); unfold strlen in *; lia).
  destruct (skip_space_ok s) as (w & E1 & E2 & E3).
  set (s1 := skip_space s) in *.
  set (t := if j_zerofil f then skip_zero s1 else s1).
  assert (T : trimmed_left (j_zerofil f) s t).
  { subst t. destruct (j_zerofil f).
    - destruct (skip_zero_ok s1) as (z & Z1 & Z2 & Z3). exists w, z.
      rewrite <- Z1. repeat split; auto. discriminate.
    - exists w, []. cbn [app]. repeat split; auto. discriminate. }
  exists t. rewrite left_call by lia. cbn [bind]. rewrite case_ok.
  eexists. split; [exact T|]. split; [|reflexivity].
  destruct (Nat.le_gt_cases (Z.to_nat fld) (length t)) as [C|C].
  - left. split; [exact C|]. replace (Z.to_nat fld - length t)%nat with 0%nat by lia. cbn [repeat]. rewrite app_nil_r.
    split; [rewrite firstn_length; lia|]. exists (skipn (Z.to_nat fld) t). symmetry. apply firstn_skipn.
  - right. split; [exact C|]. rewrite firstn_all2 by lia. reflexivity.
Qed.
