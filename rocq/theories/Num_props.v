(** C06: integer text in every base.  C54: numeric builtin arguments. *)
From Verif Require Import Base Num_model Num_spec Num_proof.
Local Open Scope Z_scope.

(** C06.  Every signed value except the most negative one, printed in any base
    from 2 to 36 (lower or upper case digits), is read back as the same value in
    the same base, both by plain and by arithmetic-style reading. *)
Theorem c06_print_parse_round_trip (upper arith zerofil : bool) (base i : Z) :
  2 <= base <= 36 -> INT64_MIN < i <= INT64_MAX ->
  exists s, str_val_int upper false base i = Ok s /\ getint arith zerofil s = Ok (base, i).
Proof.
  intros Hb Hi.
  destruct (round_trip_signed upper arith zerofil base i Hi) as (s & H1 & H2).
  exists s. split; [exact H1|]. rewrite H2. unfold norm_base.
  destruct ((base <? 2) || (36 <? base)) eqn:E; [lia|reflexivity].
Qed.
Print Assumptions c06_print_parse_round_trip.

Example c06_round_trip_example :
  str_val_int false false 16 (-255) = Ok (L "-16#ff") /\ getint true false (L "-16#ff") = Ok (16, -255).
Proof. split; vm_compute; reflexivity. Qed.

(** C06.  The printed text is a numeral of the value in the variable's base
    (base 10 when unset or out of range), its digits carry no superfluous
    leading zero, and it fits the 69-byte buffer (68 characters and the NUL).
    For signed variables the value is itself, for unsigned ones its 64-bit
    unsigned reading. *)
Theorem c06_text_shape (upper int_u : bool) (ty i : Z) :
  (if int_u then True else INT64_MIN < i <= INT64_MAX) ->
  let v := if int_u then i mod 2 ^ 64 else i in
  let base := if (ty <? 2) || (36 <? ty) then 10 else ty in
  exists s, str_val_int upper int_u ty i = Ok s /\ numeral s base v /\
    (length s <= 68)%nat /\
    exists pre ds, s = pre ++ ds /\ denotes base ds (Z.abs v) /\ canonical ds.
Proof.
  intros Hi. destruct (str_val_core upper int_u ty i Hi) as (s & H1 & H2 & H3 & _ & H5).
  exists s. exact (conj H1 (conj H2 (conj H3 H5))).
Qed.
Print Assumptions c06_text_shape.

Example c06_text_shape_example :
  str_val_int false true 2 (-1) = Ok (L "2#1111111111111111111111111111111111111111111111111111111111111111").
Proof. vm_compute. reflexivity. Qed.

(** C06, finding: the most negative value is printed by negating it, which is
    undefined (var.c:330), so the round trip fails there. *)
Theorem c06_most_negative_refuted :
  exists i, INT64_MIN <= i <= INT64_MAX /\ str_val_int false false 10 i = UB.
Proof. exists INT64_MIN. split; [unfold INT64_MIN, INT64_MAX; lia|vm_compute; reflexivity]. Qed.
Print Assumptions c06_most_negative_refuted.

(** C06.  Every numeral of the documented form whose value fits is read with
    exactly that value and base... *)
Theorem c06_numerals_read_exactly (s : cstr) (base v : Z) (zerofil : bool) :
  numeral s base v -> Z.abs v <= INT64_MAX -> getint false zerofil s = Ok (base, v).
Proof. intros H Hv. exact (getint_numeral false zerofil s base v H Hv (fun E => False_ind _ (Bool.diff_false_true E))). Qed.
Print Assumptions c06_numerals_read_exactly.

Example c06_numeral_example : numeral (L "-16#ff") 16 (-255).
Proof.
  apply (num_neg (L "16#ff") 16 255); [discriminate|].
  apply (num_based (L "16") 16 (L "ff") 255); [|lia|].
  - apply (den_snoc 10 ["1"%char] 1 "6" 6); [apply den_one| |]; reflexivity.
  - apply (den_snoc 16 ["f"%char] 15 "f" 15); [apply den_one| |]; reflexivity.
Qed.

(** ... and one whose value does not fit is undefined behaviour (the
    accumulation overflows a signed 64-bit integer, var.c:485). *)
Theorem c06_numeral_overflow_is_undefined (s : cstr) (base v : Z) :
  numeral s base v -> INT64_MAX < Z.abs v -> getint false false s = UB.
Proof. exact (numeral_overflow s base v). Qed.
Print Assumptions c06_numeral_overflow_is_undefined.

(** C06.  Nothing else is accepted than the code's loose numerals: digits below
    the base, at most one base prefix naming a base from 2 to 36 (modulo 2^32),
    and minus signs anywhere; base and value are those the text says. *)
Theorem c06_only_loose_numerals_accepted (zerofil : bool) (s : cstr) (base v : Z) :
  getint false zerofil s = Ok (base, v) -> loose_numeral s base v.
Proof. exact (getint_only zerofil s base v). Qed.
Print Assumptions c06_only_loose_numerals_accepted.

Example c06_loose_example : getint false false (L "4294967298#1-01") = Ok (2, -5) /\ getint false false (L "2#2") = Err.
Proof. split; vm_compute; reflexivity. Qed.

(** C06, finding: some text that is no numeral at all is accepted (a minus sign
    is accepted anywhere: "1-2" reads as -12). *)
Theorem c06_only_numerals_refuted :
  exists s b v, getint false false s = Ok (b, v) /\ ~ exists b' v', numeral s b' v'.
Proof. exact getint_sloppy. Qed.
Print Assumptions c06_only_numerals_refuted.

(** C06.  u64ton writes a canonical numeral exactly when it needs at most 19
    digits; otherwise it writes in front of its 20-byte buffer. *)
Theorem c06_u64ton_within_buffer (n base : Z) :
  2 <= base <= 16 -> 0 <= n < base ^ 19 ->
  exists ds, u64ton n base = Ok ds /\ denotes base ds n /\ canonical ds.
Proof. exact (u64ton_ok n base). Qed.
Print Assumptions c06_u64ton_within_buffer.

Theorem c06_u64ton_beyond_buffer (n base : Z) :
  2 <= base <= 16 -> base ^ 19 <= n -> u64ton n base = UB.
Proof. exact (u64ton_overflow n base). Qed.
Print Assumptions c06_u64ton_beyond_buffer.

Example c06_u64ton_example : u64ton 9999999999999999999 10 = Ok (L "9999999999999999999") /\
  u64ton 10000000000000000000 10 = UB.
Proof. split; vm_compute; reflexivity. Qed.

(** C54.  A numeric argument is accepted exactly when it is white space, an
    optional sign and decimal digits denoting an integer strictly between
    INT_MIN and INT_MAX, and then with exactly that value. *)
Theorem c54_getn_exact (s : cstr) (n : Z) :
  getn s = Some n <->
  exists w sg ds v, s = w ++ sg ++ ds /\ forallb isspace w = true /\
    (sg = [] \/ sg = ["+"%char] \/ sg = ["-"%char]) /\ denotes 10 ds v /\
    n = (if str_eqb sg ["-"%char] then - v else v) /\ -2147483648 < n < 2147483647.
Proof.
  split; [exact (getn_only s n)|].
  intros (w & sg & ds & v & -> & H1 & H2 & H3 & -> & H4). exact (getn_accepts w sg ds v H1 H2 H3 H4).
Qed.
Print Assumptions c54_getn_exact.

Example c54_example : getn (L " -42") = Some (-42) /\ getn (L "42x") = None /\ getn (L "2147483647") = None.
Proof. repeat split; vm_compute; reflexivity. Qed.
