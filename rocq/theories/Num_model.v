(** Integers as text: misc.c u64ton, getn; var.c str_val (integer branch), getint. *)
From Verif Require Import Base.
Local Open Scope Z_scope.

Definition INT64_MIN : Z := -9223372036854775808.
Definition INT64_MAX : Z := 9223372036854775807.
Definition UINT64_MAX : Z := 18446744073709551615.
Definition INT_MIN : Z := -2147483648.
Definition INT_MAX : Z := 2147483647.
Definition in_int64 (z : Z) : bool := (INT64_MIN <=? z) && (z <=? INT64_MAX).

(** C conversion to a signed 32-bit int (gcc: reduction modulo 2^32) *)
Definition to_int32 (z : Z) : Z :=
  let m := z mod 4294967296 in if m <=? INT_MAX then m else m - 4294967296.

(** Outcomes: a value, a reported error, or undefined behaviour. *)
Inductive res (A : Type) : Type :=
| Ok (a : A)
| Err
| UB.
Arguments Ok {A} a.
Arguments Err {A}.
Arguments UB {A}.

Definition digits_lower : cstr := L "0123456789abcdefghijklmnopqrstuvwxyz".
Definition digits_upper : cstr := L "0123456789ABCDEFGHIJKLMNOPQRSTUVWXYZ".

(** misc.c:73-76 and var.c:336-339: do { *--p = digits[n%base]; n /= base; }
    while (n != 0).  [room] is the number of bytes left in front of p: writing
    with no room is undefined behaviour.  Reading the digit table past its end
    is undefined behaviour as well. *)
Fixpoint put_digits (tbl : cstr) (room : nat) (n base : Z) (acc : cstr) : res (cstr * nat) :=
  match room with
  | O => UB
  | S room' =>
    match nth_error tbl (Z.to_nat (n mod base)) with
    | None => UB
    | Some d =>
      if n / base =? 0 then Ok (d :: acc, room')
      else put_digits tbl room' (n / base) base (d :: acc)
    end
  end.

(** misc.c:65-78 u64ton: static char buf[20], one byte for the NUL.
    base 0 divides by zero. *)
Definition u64ton (n base : Z) : res cstr :=
  if base <=? 0 then UB else
  match put_digits (L "0123456789ABCDEF" ++ [NUL]) 19 n base [] with
  | Ok (s, _) => Ok s | Err => Err | UB => UB
  end.

(** *--s = c with a room check *)
Definition put1 (c : char) (st : res (cstr * nat)) : res (cstr * nat) :=
  match st with
  | Ok (acc, S room) => Ok (c :: acc, room)
  | Ok (_, O) => UB
  | Err => Err
  | UB => UB
  end.

(** var.c:315-349 str_val, integer source, before justification.
    [ty] is vp->type (the output base, 0 = default).  strbuf has
    1 + 2 + 1 + 64 + 1 = 69 bytes.  Negating INT64_MIN (var.c:330) is undefined. *)
Definition str_val_int (upper int_u : bool) (ty : Z) (i : Z) : res cstr :=
  let digits := if upper then digits_upper else digits_lower in
  let base := if ty =? 0 then 10 else ty in
  let base := if (base <? 2) || (36 <? base) then 10 else base in
  if negb int_u && (i =? INT64_MIN) then UB else
  let n := if int_u then i mod 18446744073709551616 else Z.abs i in
  let st := put_digits digits 68 n base [] in
  let st := if base =? 10 then st else
    let st := put1 "#" st in
    let st := put1 (nth (Z.to_nat (base mod 10)) digits NUL) st in
    if 10 <=? base then put1 (nth (Z.to_nat (base / 10)) digits NUL) st else st in
  let st := if negb int_u && (i <? 0) then put1 "-" st else st in
  match st with Ok (s, _) => Ok s | Err => Err | UB => UB end.

(** var.c:477-484 value of a letter or digit; None for other characters,
    -1 for underscore (letnum, table.h/sh.h C_ALPHA|C_DIGIT includes _). *)
Definition letnum_val (c : char) : option Z :=
  if isdigit c then Some (ccode c - 48)
  else if islower c then Some (ccode c - 97 + 10)
  else if isupper c then Some (ccode c - 65 + 10)
  else if ceq c "_" then Some (-1)
  else None.

(** var.c:470-492 the character loop of getint *)
Fixpoint getint_loop (s : cstr) (base num : Z) (neg have_base : bool) : res (Z * Z) :=
  match s with
  | [] => Ok (base, if neg then - num else num)
  | c :: s' =>
    if ceq c "-" then getint_loop s' base num true have_base
    else if ceq c "#" then
      let b := to_int32 num in
      if have_base || (b <? 2) || (36 <? b) then Err
      else getint_loop s' b 0 neg true
    else match letnum_val c with
    | None => Err
    | Some v =>
      if (v <? 0) || (base <=? v) then Err
      else let num' := num * base + v in
           if num' <=? INT64_MAX then getint_loop s' base num' neg have_base else UB
    end
  end.

Fixpoint skip0 (s : cstr) : cstr :=
  match s with c :: s' => if ceq c "0" then skip0 s' else s | [] => [] end.

(** var.c:434-498 getint on a string value; [arith] enables 0x and 0 prefixes,
    [zerofil] is the ZEROFIL attribute of the variable. *)
Definition getint (arith zerofil : bool) (s : cstr) : res (Z * Z) :=
  match s with
  | c0 :: c1 :: s2 =>
    if arith && ceq c0 "0" then
      if ceq c1 "x" || ceq c1 "X" then getint_loop s2 16 0 false true
      else if zerofil then getint_loop (skip0 (c1 :: s2)) 10 0 false true
      else getint_loop (c1 :: s2) 8 0 false true
    else getint_loop s 10 0 false false
  | _ => getint_loop s 10 0 false false
  end.

(** C library strtol(as, &p, 10): skip white space, optional sign, digits;
    the value is clamped to long; p is as itself when there are no digits. *)
Fixpoint skip_space (s : cstr) : cstr :=
  match s with c :: s' => if isspace c then skip_space s' else s | [] => [] end.
Fixpoint take_digits (s : cstr) (acc : Z) (any : bool) : Z * bool * cstr :=
  match s with
  | c :: s' => if isdigit c then take_digits s' (acc * 10 + (ccode c - 48)) true
               else (acc, any, s)
  | [] => (acc, any, [])
  end.
Definition strtol10 (as_ : cstr) : Z * cstr :=
  let s := skip_space as_ in
  let '(neg, s) := match s with
    | c :: s' => if ceq c "-" then (true, s') else if ceq c "+" then (false, s') else (false, s)
    | [] => (false, []) end in
  let '(v, any, rest) := take_digits s 0 false in
  if any then
    let v := if (neg : bool) then - v else v in
    (Z.max INT64_MIN (Z.min INT64_MAX v), rest)
  else (0, as_).

(** misc.c:466-479 getn *)
Definition getn (as_ : cstr) : option Z :=
  let '(n, p) := strtol10 as_ in
  match as_, p with
  | [], _ => None
  | _, _ :: _ => None
  | _, [] => if (n <=? INT_MIN) || (INT_MAX <=? n) then None else Some n
  end.
