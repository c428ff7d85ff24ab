(** Specification of numerals, independent of the model. *)
From Verif Require Import Base.
Local Open Scope Z_scope.

(** value of one digit character in the 36-digit alphabet *)
Definition digit_of (c : char) : option Z :=
  let z := ccode c in
  if (48 <=? z) && (z <=? 57) then Some (z - 48)
  else if (97 <=? z) && (z <=? 122) then Some (z - 87)
  else if (65 <=? z) && (z <=? 90) then Some (z - 55)
  else None.

(** [denotes b ds n]: the digit string [ds] is a base-[b] numeral for [n] *)
Inductive denotes (b : Z) : cstr -> Z -> Prop :=
| den_one c d : digit_of c = Some d -> d < b -> denotes b [c] d
| den_snoc ds n c d : denotes b ds n -> digit_of c = Some d -> d < b ->
    denotes b (ds ++ [c]) (n * b + d).

(** no superfluous leading zero *)
Definition canonical (ds : cstr) : Prop :=
  match ds with
  | c :: _ :: _ => c <> "0"%char
  | _ => True
  end.

(** A numeral the manual describes: optional minus sign, optional base and #,
    digits.  [numeral s base v]: s is such a numeral in [base] with value [v]. *)
Inductive numeral : cstr -> Z -> Z -> Prop :=
| num_dec ds n : denotes 10 ds n -> numeral ds 10 n
| num_based bs b ds n : denotes 10 bs b -> 2 <= b <= 36 -> denotes b ds n ->
    numeral (bs ++ "#"%char :: ds) b n
| num_neg s b n : (forall t, s <> "-"%char :: t) -> numeral s b n -> numeral ("-"%char :: s) b (- n).

(** [den0]: like [denotes], the empty string standing for 0 *)
Definition den0 (b : Z) (ds : cstr) (n : Z) : Prop := (ds = [] /\ n = 0) \/ denotes b ds n.

(** the text with every minus sign removed *)
Definition unsigned_text (s : cstr) : cstr := filter (fun c => negb (ceq c "-")) s.

(** What the code takes for a number: after dropping all minus signs, digits of
    base 10, or digits of base 10 reduced to 32 bits giving a base from 2 to 36,
    a # and digits of that base; digits may be missing; negative exactly when
    there is some minus sign. *)
Inductive loose_numeral (s : cstr) : Z -> Z -> Prop :=
| loose_dec n : den0 10 (unsigned_text s) n ->
    loose_numeral s 10 (if mem "-" s then - n else n)
| loose_based bs m b ds n : unsigned_text s = bs ++ "#"%char :: ds -> den0 10 bs m ->
    2 <= b <= 36 -> (m - b) mod 2 ^ 32 = 0 -> den0 b ds n ->
    loose_numeral s b (if mem "-" s then - n else n).
