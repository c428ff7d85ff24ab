(** C43: formatted output. *)
From Verif Require Import Base Num_model Num_spec SimplifyPath_model Printf_model Printf_spec Printf_proof.
From Coq Require Import Lia.
Local Open Scope Z_scope.

(** Any format made of literal characters and directives prints what ISO C
    says (flags, width, precision, size, with or without stars), for the numbers
    and precisions of [supported_int]; strings and characters without exception. *)
Theorem c43_printf_partial : forall ps args out, expects ps args = Some out -> printf (text ps) args = Ok out.
Proof. intros ps args out H. apply vfprintf_ok; [assumption|]. unfold printf. lia. Qed.
Print Assumptions c43_printf_partial.

(** the numerals of the specification are the numbers *)
Theorem c43_digits : forall up b n, b = 8 \/ b = 10 \/ b = 16 -> 0 <= n < 2 ^ 64 -> denotes b (numtext up b n) n.
Proof. apply numtext_denotes. Qed.
Print Assumptions c43_digits.

(** the 23-byte number buffer is never overrun, for any 64-bit value, flags
    and conversion; only negating the most negative number is undefined *)
Theorem c43_numbuf : forall c f ll, 0 <= ll < 2 ^ 64 ->
  (number_text c f ll = UB <-> (c = "d"%char \/ c = "i"%char) /\ ll = 2 ^ 63) /\
  (forall s, number_text c f ll = Ok s -> (1 <= length s <= 23)%nat).
Proof.
  intros c f ll H.
  destruct (Z.eq_dec ll (2 ^ 63)) as [E|E].
  - destruct (ceq c "d" || ceq c "i") eqn:Ec.
    + subst ll.
      assert (Q : number_text c f (2 ^ 63) = UB) by (unfold number_text; rewrite Ec; reflexivity).
      split; [|rewrite Q; discriminate]. split; [|intros _; exact Q]. intros _. split; [|reflexivity].
      apply orb_true_iff in Ec. destruct Ec as [Ec|Ec]; apply ceq_true in Ec; auto.
    + destruct (number_text_safe c f ll H) as (s & Q & Hs); [rewrite Ec; discriminate|].
      rewrite Q. split; [|intros s' Hs'; injection Hs' as <-; exact Hs].
      split; [discriminate|]. intros [[->| ->] _]; discriminate Ec.
  - destruct (number_text_safe c f ll H) as (s & Q & Hs); [auto|].
    rewrite Q. split; [|intros s' Hs'; injection Hs' as <-; exact Hs].
    split; [discriminate|]. intros [_ K]; congruence.
Qed.
Print Assumptions c43_numbuf.

(** what is printed into a buffer of [n] bytes is the beginning that fits *)
Theorem c43_snprintf_partial : forall ps args out n, expects ps args = Some out ->
  exists s, snprintf n (text ps) args = Ok s /\ s = firstn (n - 1) out.
Proof. intros ps args out n H. unfold snprintf. rewrite (c43_printf_partial ps args out H). eexists; split; reflexivity. Qed.
Print Assumptions c43_snprintf_partial.

Definition dd fl w p c := Dir (L fl) w p SNone c.
(** "%+08d|%-6s|%#o|%5.2s|%lx": 42, "ab", 8, "xyz", 2^63 *)
Example c43_example :
  let ps := [D (dd "+0" (Given 8) None_ Cd); Lit "|"; D (dd "-" (Given 6) None_ Cs); Lit "|"; D (dd "#" None_ None_ Co); Lit "|";
             D (dd "" (Given 5) (Given 2) Cs); Lit "|"; D (Dir [] None_ None_ SL Cx)] in
  let args := [AInt 42; AStr (L "ab"); AInt 8; AStr (L "xyz"); ALong (2 ^ 63)] in
  text ps = L "%+08d|%-6s|%#o|%5.2s|%lx" /\
  expects ps args = Some (L "+0000042|ab    |010|   xy|8000000000000000").
Proof. vm_compute. split; reflexivity. Qed.
Example c43_stars : expects [D (dd "" Star Star Cd)] [AInt (-6); AInt 2; AInt (-17)] = Some (L "-17   ").
Proof. vm_compute. reflexivity. Qed.
Example c43_prec : expects [D (dd "" None_ (Given 5) Cu)] [AInt 42] = Some (L "00042").
Proof. vm_compute. reflexivity. Qed.

(** Deviations from ISO C (right: what ISO C prints) *)
Theorem c43_iso_refuted :
  let prints d v s := printf (text [D d]) [AInt v] = Ok s in
  let iso d w p v := iso_int d (flag d "-") w p v in
  (* %.5d of -42: the sign counts as a digit *)
  (let d := dd "" None_ (Given 5) Cd in prints d (-42) (L "-0042") /\ iso d 0 (Some 5) (-42) = L "-00042") /\
  (* %8.5d of 42: the width is lost *)
  (let d := dd "" (Given 8) (Given 5) Cd in prints d 42 (L "00042") /\ iso d 8 (Some 5) 42 = L "   00042") /\
  (* %-.5d of 42: blanks instead of zeros *)
  (let d := dd "-" None_ (Given 5) Cd in prints d 42 (L "42   ") /\ iso d 0 (Some 5) 42 = L "00042") /\
  (* %05.1d of 42: zeros despite a precision *)
  (let d := dd "0" (Given 5) (Given 1) Cd in prints d 42 (L "00042") /\ iso d 5 (Some 1) 42 = L "   42") /\
  (* %.0d of 0: a digit is printed *)
  (let d := dd "" None_ (Given 0) Cd in prints d 0 (L "0") /\ iso d 0 (Some 0) 0 = []) /\
  (* %#x of 0: prefix on zero *)
  (let d := dd "#" None_ None_ Cx in prints d 0 (L "0x0") /\ iso d 0 None 0 = L "0").
Proof. vm_compute. repeat split; reflexivity. Qed.
Print Assumptions c43_iso_refuted.

(** undefined behaviour: LLONG_MIN, widths above INT_MAX, INT_MIN as a width *)
Theorem c43_undefined_refuted :
  printf (L "%lld") [ALong (- 2 ^ 63)] = UB /\ printf (L "%2147483648d") [AInt 1] = UB /\
  printf (L "%*d") [AInt (- 2 ^ 31); AInt 1] = UB.
Proof. vm_compute. repeat split; reflexivity. Qed.
Print Assumptions c43_undefined_refuted.
