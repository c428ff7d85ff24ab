(** ISO C fprintf for the conversions the shell has. *)
From Verif Require Import Base Num_spec Printf_model.
Local Open Scope Z_scope.

(** numerals *)
Definition digch (up : bool) (d : Z) : char :=
  ascii_of_N (Z.to_N (if d <? 10 then 48 + d else if up then 55 + d else 87 + d)).
Fixpoint digs (k : nat) (up : bool) (b n : Z) : cstr :=
  match k with
  | O => []
  | S k' => (if n <? b then [] else digs k' up b (n / b)) ++ [digch up (n mod b)]
  end.
Definition numtext (up : bool) (b n : Z) : cstr := digs 64 up b n.

(** a directive: flags from "#+- 0", field width, precision, size, conversion *)
Inductive amount := None_ | Given (n : Z) | Star.
Inductive sizemod := SNone | SH | SL | SLL.
Inductive conv := Cd | Ci | Co | Cu | Cx | CX | Cp | Cs | Cc | Cpct.
Record directive := Dir { d_flags : list char; d_width : amount; d_prec : amount; d_size : sizemod; d_conv : conv }.
Inductive piece := Lit (c : char) | D (d : directive).

Definition conv_char (c : conv) : char :=
  match c with Cd => "d" | Ci => "i" | Co => "o" | Cu => "u" | Cx => "x" | CX => "X" | Cp => "p" | Cs => "s" | Cc => "c" | Cpct => "%" end%char.
Definition size_text (s : sizemod) : cstr := match s with SNone => [] | SH => L "h" | SL => L "l" | SLL => L "ll" end.
Definition amount_text (a : amount) : cstr := match a with None_ => [] | Given n => numtext false 10 n | Star => L "*" end.
Definition dir_text (d : directive) : cstr :=
  "%"%char :: d_flags d ++ amount_text (d_width d) ++
  (match d_prec d with None_ => [] | a => "."%char :: amount_text a end) ++ size_text (d_size d) ++ [conv_char (d_conv d)].
Definition text (ps : list piece) : cstr := flat_map (fun p => match p with Lit c => [c] | D d => dir_text d end) ps.

Definition pad (c : char) (n : Z) : cstr := repeat c (Z.to_nat n).
Definition zlen (s : cstr) : Z := Z.of_nat (length s).
(** a field of width [w]: [pre] is the sign or 0x *)
Definition field (left zero : bool) (w : Z) (pre body : cstr) : cstr :=
  let n := w - zlen pre - zlen body in
  if left then pre ++ body ++ pad " " n
  else if zero then pre ++ pad "0" n ++ body
  else pad " " n ++ pre ++ body.

Definition flag (d : directive) (c : char) : bool := mem c (d_flags d).
Definition is_signed (c : conv) : bool := match c with Cd | Ci => true | _ => false end.
Definition is_number (c : conv) : bool := match c with Cs | Cc | Cpct => false | _ => true end.
(** p prints like %lx *)
Definition is_hex (c : conv) : bool := match c with Cx | CX | Cp => true | _ => false end.

(** digits of |v|, and what precedes them *)
Definition digits_of (c : conv) (alt : bool) (prec : option Z) (v : Z) : cstr :=
  let base := match c with Co => 8 | Cx | CX | Cp => 16 | _ => 10 end in
  let ds := numtext (match c with CX => true | _ => false end) base (Z.abs v) in
  let ds := match prec with
            | Some p => if (p =? 0) && (v =? 0) then [] else pad "0" (p - zlen ds) ++ ds
            | None => ds end in
  match c with
  | Co => if alt && negb (match ds with z :: _ => ceq z "0" | [] => false end) then "0"%char :: ds else ds
  | _ => ds end.
Definition prefix_of (c : conv) (d : directive) (v : Z) : cstr :=
  if is_signed c then
    if v <? 0 then L "-" else if flag d "+" then L "+" else if flag d " " then L " " else []
  else if is_hex c && flag d "#" && negb (v =? 0) then match c with CX => L "0X" | _ => L "0x" end
  else [].

(** the text of one conversion with its amounts resolved *)
Definition iso_int (d : directive) (left : bool) (w : Z) (prec : option Z) (v : Z) : cstr :=
  field left (match prec with None => flag d "0" | Some _ => false end) w (prefix_of (d_conv d) d v)
        (digits_of (d_conv d) (flag d "#") prec v).
Definition iso_str (d : directive) (left : bool) (w : Z) (prec : option Z) (s : cstr) : cstr :=
  field left (flag d "0") w [] (match prec with Some p => firstn (Z.to_nat p) s | None => s end).

(** where the shell's printf is claimed to agree: precisions of numbers must not
    add zeros next to a sign or 0x, or in a wider or left-justified field, a zero flag is
    not combined with a precision; #x is not used on 0 *)
Definition supported_int (d : directive) (left : bool) (w : Z) (prec : option Z) (v : Z) : bool :=
  negb (is_hex (d_conv d) && flag d "#" && (v =? 0)) &&
  match prec with
  | None => true
  | Some p =>
    let n := zlen (digits_of (d_conv d) (flag d "#") None v) in
    let pre := zlen (prefix_of (d_conv d) d v) in
    negb ((p =? 0) && (v =? 0)) && negb (flag d "0") &&
    ((p <=? n) || ((pre =? 0) && negb (flag d "#") && negb left && (w <=? p)))
  end.

(** value an argument has under the size and signedness of the conversion *)
Definition value (d : directive) (a : arg) : option Z :=
  match a, (match d_size d with SL | SLL => true | _ => match d_conv d with Cp => true | _ => false end end) with
  | AInt z, false => if is_signed (d_conv d) then (if (- 2 ^ 31 <=? z) && (z <? 2 ^ 31) then Some z else None)
                     else if (0 <=? z) && (z <? 2 ^ 32) then Some z else None
  | ALong z, true => if is_signed (d_conv d) then (if (- 2 ^ 63 <? z) && (z <? 2 ^ 63) then Some z else None)
                     else if (0 <=? z) && (z <? 2 ^ 64) then Some z else None
  | _, _ => None
  end.

(** amounts: a star takes an int argument, negative meaning left-justified for
    the width; widths up to INT_MAX - 48 *)
Definition width_of (a : amount) (args : list arg) : option (Z * bool * list arg) :=
  match a, args with
  | None_, _ => Some (0, false, args)
  | Given n, _ => if (0 <? n) && (n <=? 2147483599) then Some (n, false, args) else None
  | Star, AInt z :: r => if (- 2 ^ 31 <? z) && (z <? 2 ^ 31) then Some (Z.abs z, z <? 0, r) else None
  | Star, _ => None
  end.
Definition prec_of (a : amount) (args : list arg) : option (option Z * list arg) :=
  match a, args with
  | None_, _ => Some (None, args)
  | Given n, _ => if (0 <=? n) && (n <=? 2147483599) then Some (Some n, args) else None
  | Star, AInt z :: r => if (0 <=? z) && (z <? 2 ^ 31) then Some (Some z, r) else None
  | Star, _ => None
  end.

Definition flag_chars_ok (d : directive) : bool := forallb (fun c => mem c (L "#+- 0")) (d_flags d).

(** one directive: its text and the remaining arguments; None outside the claim *)
Definition expect (d : directive) (args : list arg) : option (cstr * list arg) :=
  if negb (flag_chars_ok d) then None else
  match width_of (d_width d) args with
  | None => None
  | Some (w, neg, args) =>
    let left := neg || flag d "-" in
    match prec_of (d_prec d) args with
    | None => None
    | Some (prec, args) =>
      match d_conv d, args with
      | Cpct, _ => match prec with None => Some (field left (flag d "0") w [] (L "%"), args) | _ => None end
      | Cs, AStr s :: r => Some (iso_str d left w prec s, r)
      | Cs, _ => None
      | Cc, AInt z :: r => if (0 <=? z) && (z <=? 255) then Some (iso_str d left w None [ascii_of_N (Z.to_N z)], r) else None
      | Cc, _ => None
      | _, a :: r => match value d a with
                     | Some v => if supported_int d left w prec v then Some (iso_int d left w prec v, r) else None
                     | None => None end
      | _, [] => None
      end
    end
  end.
Fixpoint expects (ps : list piece) (args : list arg) : option cstr :=
  match ps with
  | [] => Some []
  | Lit c :: ps' => if ceq c "%" then None else option_map (cons c) (expects ps' args)
  | D d :: ps' => match expect d args with
                  | Some (t, args') => option_map (app t) (expects ps' args')
                  | None => None end
  end.
