(** C13: typeset -L -R -Z -u -l. *)
From Verif Require Import Base Num_model SimplifyPath_model Justify_model Justify_spec Justify_proof.
From Coq Require Import Lia ZArith.
Local Open Scope Z_scope.

(** the width in force: the one given, or the length of the first value *)
Definition width (f : jflags) (s : cstr) : nat := Z.to_nat (if j_field f =? 0 then Z.of_nat (length s) else j_field f).
Definition case_of (f : jflags) (c : char) : char := if j_ucase f then upcased c else if j_lcase f then downcased c else c.
Definition sizes_ok (f : jflags) (s : cstr) : Prop := 0 <= j_field f < 2 ^ 31 - 1 /\ Z.of_nat (length s) < 2 ^ 31 - 1.

Theorem c13_right : forall f s, j_rjust f = true -> sizes_ok f s ->
  exists t out, trimmed_right s t /\ right_justified (j_zerofil f) (width f s) t out /\
  length out = width f s /\ formatstr f s = Ok (map (case_of f) out, Z.of_nat (width f s)).
Proof.
  intros f s Hr [Hf Hs]. destruct (formatstr_right f s Hr Hf Hs) as (t & out & H1 & H2 & H3).
  change (Z.to_nat (field_of f s)) with (width f s) in H2.
  exists t, out. split; [exact H1|]. split; [exact H2|]. split.
  - destruct H2 as [(_ & H2 & _)|(H2 & ->)]; [exact H2|]. rewrite app_length, repeat_length. lia.
  - rewrite H3. f_equal. f_equal. unfold field_of, width, strlen. destruct (j_field f =? 0); lia.
Qed.
Print Assumptions c13_right.

Theorem c13_left : forall f s, j_rjust f = false -> j_ljust f = true -> sizes_ok f s ->
  exists t out, trimmed_left (j_zerofil f) s t /\ left_justified (width f s) t out /\
  length out = width f s /\ formatstr f s = Ok (map (case_of f) out, Z.of_nat (width f s)).
Proof.
  intros f s Hr Hl [Hf Hs]. destruct (formatstr_left f s Hr Hl Hf Hs) as (t & out & H1 & H2 & H3).
  change (Z.to_nat (field_of f s)) with (width f s) in H2.
  exists t, out. split; [exact H1|]. split; [exact H2|]. split.
  - destruct H2 as [(_ & H2 & _)|(H2 & ->)]; [exact H2|]. rewrite app_length, repeat_length. lia.
  - rewrite H3. f_equal. f_equal. unfold field_of, width, strlen. destruct (j_field f =? 0); lia.
Qed.
Print Assumptions c13_left.

(** without justification only the case of letters changes *)
Theorem c13_case : forall f s, j_rjust f = false -> j_ljust f = false ->
  formatstr f s = Ok (map (case_of f) s, j_field f).
Proof. intros f s Hr Hl. unfold formatstr. rewrite Hr, Hl. cbn [orb bind]. rewrite case_ok. reflexivity. Qed.
Print Assumptions c13_case.

(** the trimmed value is determined by the value *)
Theorem c13_trim_unique : forall s t t', trimmed_right s t -> trimmed_right s t' -> t = t'.
Proof.
  intros s t t' (w & E & Hw & Ht) (w' & E' & Hw' & Ht'). rewrite E in E'. clear E s.
  revert w' t' E' Hw' Ht'. induction w as [|c w IH] using rev_ind; intros w' t' E' Hw' Ht'.
  - rewrite app_nil_r in E'. destruct w' as [|c w' _] using rev_ind; [rewrite app_nil_r in E'; exact E'|].
    rewrite app_assoc in E'. rewrite forallb_app in Hw'. apply andb_true_iff in Hw'. destruct Hw' as [_ Hc]. cbn in Hc.
    rewrite (Ht _ _ E') in Hc. discriminate.
  - rewrite forallb_app in Hw. apply andb_true_iff in Hw. destruct Hw as [Hw Hc]. cbn in Hc. rewrite andb_true_r in Hc.
    destruct w' as [|c' w' _] using rev_ind.
    + rewrite app_nil_r, app_assoc in E'. rewrite (Ht' _ _ (eq_sym E')) in Hc. discriminate.
    + rewrite !app_assoc in E'. apply app_inj_tail in E'. destruct E' as [E' _].
      rewrite forallb_app in Hw'. apply andb_true_iff in Hw'. destruct Hw' as [Hw' _].
      exact (IH Hw w' t' E' Hw' Ht').
Qed.
Print Assumptions c13_trim_unique.

Example c13_zero_fill : formatstr (JFlags true false true false false 6) (L "42  ") = Ok (L "000042", 6).
Proof. vm_compute. reflexivity. Qed.
Example c13_cut_left : formatstr (JFlags true false false true false 3) (L "abcdef") = Ok (L "DEF", 3).
Proof. vm_compute. reflexivity. Qed.
Example c13_left_zero : formatstr (JFlags false true true false false 4) (L "  007x") = Ok (L "7x  ", 4).
Proof. vm_compute. reflexivity. Qed.
