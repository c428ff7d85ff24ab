(** The shell's printf: shf.c:690-707 shf_snprintf, shf.c:734-1006 shf_vfprintf.

    Characters put with shf_putc are collected in a list (the stream itself is
    modelled elsewhere); nwritten is returned beside them. *)
From Verif Require Import Base Num_model SimplifyPath_model.
Local Open Scope Z_scope.

(** variadic arguments: an integer of 32 or 64 bits, or a string.  Fetching an
    argument of another type than was passed, or past the last, is UB. *)
Inductive arg := AInt (z : Z) | ALong (z : Z) | AStr (s : cstr) | ANull.

(** shf.c:722-732 *)
Record pflags := PFlags {
  f_hash : bool; f_plus : bool; f_right : bool; f_blank : bool; f_long : bool; f_llong : bool;
  f_zero : bool; f_dot : bool; f_upper : bool; f_number : bool }.
Definition no_flags := PFlags false false false false false false false false false false.

(** flags, field, precision *)
Record pst := PSt { p_fl : pflags; p_field : Z; p_prec : Z }.
Definition p0 : pst := PSt no_flags 0 0.

Definition with_fl (st : pst) (f : pflags) : pst := PSt f (p_field st) (p_prec st).
Definition set_hash f := PFlags true (f_plus f) (f_right f) (f_blank f) (f_long f) (f_llong f) (f_zero f) (f_dot f) (f_upper f) (f_number f).
Definition set_plus f := PFlags (f_hash f) true (f_right f) (f_blank f) (f_long f) (f_llong f) (f_zero f) (f_dot f) (f_upper f) (f_number f).
Definition set_right f := PFlags (f_hash f) (f_plus f) true (f_blank f) (f_long f) (f_llong f) (f_zero f) (f_dot f) (f_upper f) (f_number f).
Definition set_blank f := PFlags (f_hash f) (f_plus f) (f_right f) true (f_long f) (f_llong f) (f_zero f) (f_dot f) (f_upper f) (f_number f).
Definition set_long f := PFlags (f_hash f) (f_plus f) (f_right f) (f_blank f) true (f_llong f) (f_zero f) (f_dot f) (f_upper f) (f_number f).
Definition set_llong f (b : bool) := PFlags (f_hash f) (f_plus f) (f_right f) (f_blank f) (f_long f) b (f_zero f) (f_dot f) (f_upper f) (f_number f).
Definition set_zero f := PFlags (f_hash f) (f_plus f) (f_right f) (f_blank f) (f_long f) (f_llong f) true (f_dot f) (f_upper f) (f_number f).
Definition set_dot f (b : bool) := PFlags (f_hash f) (f_plus f) (f_right f) (f_blank f) (f_long f) (f_llong f) (f_zero f) b (f_upper f) (f_number f).
Definition set_upper f := PFlags (f_hash f) (f_plus f) (f_right f) (f_blank f) (f_long f) (f_llong f) (f_zero f) (f_dot f) true (f_number f).
Definition set_number f := PFlags (f_hash f) (f_plus f) (f_right f) (f_blank f) (f_long f) (f_llong f) (f_zero f) (f_dot f) (f_upper f) true.

(** shf.c:822-825 *)
Definition store (st : pst) (n : Z) : pst :=
  if f_dot (p_fl st) then PSt (p_fl st) (p_field st) n else PSt (p_fl st) n (p_prec st).

(** shf.c:764-829, the loop over flags, field and precision up to the format
    character.  [num] is the value while inside the digit loop 815-821, where
    tmp * 10 + c - '0' in an int may overflow.  [FL_SHORT] is never tested. *)
Fixpoint scan (fmt : cstr) (num : option Z) (st : pst) (args : list arg) : res (option char * cstr * pst * list arg) :=
  match fmt with
  | [] => Ok (None, [], match num with Some n => store st n | None => st end, args)
  | c :: rest =>
    let inner (st : pst) :=
      if ceq c "#" then scan rest None (with_fl st (set_hash (p_fl st))) args
      else if ceq c "+" then scan rest None (with_fl st (set_plus (p_fl st))) args
      else if ceq c "-" then scan rest None (with_fl st (set_right (p_fl st))) args
      else if ceq c " " then scan rest None (with_fl st (set_blank (p_fl st))) args
      else if ceq c "0" then scan rest None (if f_dot (p_fl st) then st else with_fl st (set_zero (p_fl st))) args
      else if ceq c "." then scan rest None (PSt (set_dot (p_fl st) true) (p_field st) 0) args
      else if ceq c "*" then
        match args with
        | AInt t :: args' =>
          if f_dot (p_fl st) then scan rest None (PSt (p_fl st) (p_field st) t) args'
          else if t <? 0 then
            (if t =? INT_MIN then UB else scan rest None (PSt (set_right (p_fl st)) (- t) (p_prec st)) args')
          else scan rest None (PSt (p_fl st) t (p_prec st)) args'
        | _ => UB
        end
      else if ceq c "l" then
        match rest with
        | d :: rest' => if ceq d "l" then scan rest' None (with_fl st (set_llong (p_fl st) true)) args
                        else scan rest None (with_fl st (set_long (p_fl st))) args
        | [] => scan rest None (with_fl st (set_long (p_fl st))) args
        end
      else if ceq c "h" then scan rest None st args
      else if isdigit c then scan rest (Some (ccode c - 48)) st args
      else Ok (Some c, rest, st, args) in
    match num with
    | Some n =>
      if isdigit c then if n * 10 + ccode c <=? INT_MAX then scan rest (Some (n * 10 + ccode c - 48)) st args else UB
      else inner (store st n)
    | None => inner st
    end
  end.

(** char numbuf[(BITS(long long) + 2) / 3 + 1] *)
Definition NUMBUF : nat := 23.

(** shf.c:854-866 fetching the number into an unsigned long long *)
Definition fetch (f : pflags) (signed : bool) (args : list arg) : res (Z * list arg) :=
  match args with
  | a :: args' =>
    if f_llong f || f_long f then match a with ALong z => Ok (z mod 2 ^ 64, args') | _ => UB end
    else match a with
    | AInt z => Ok ((if signed then to_int32 z else z mod 2 ^ 32) mod 2 ^ 64, args')
    | _ => UB end
  | [] => UB
  end.

Definition as_llong (n : Z) : Z := if n <? 2 ^ 63 then n else n - 2 ^ 64.

(** shf.c:867-919 the digits of a number, written backwards into numbuf *)
Definition number_text (c : char) (f : pflags) (ll : Z) : res cstr :=
  let st :=
    if ceq c "d" || ceq c "i" then
      let neg := as_llong ll <? 0 in
      if as_llong ll =? - 2 ^ 63 then UB            (* - (long long) llnum *)
      else
        let n := if neg then - as_llong ll else ll in
        let st := put_digits (L "0123456789") NUMBUF n 10 [] in
        if neg then put1 "-" st else if f_plus f then put1 "+" st else if f_blank f then put1 " " st else st
    else if ceq c "u" then put_digits (L "0123456789") NUMBUF ll 10 []
    else if ceq c "o" then
      let st := put_digits (L "01234567") NUMBUF ll 8 [] in
      match st with
      | Ok (d :: _, _) => if f_hash f && negb (ceq d "0") then put1 "0" st else st
      | _ => st
      end
    else
      let st := put_digits (if f_upper f then L "0123456789ABCDEF" else L "0123456789abcdef") NUMBUF ll 16 [] in
      if f_hash f then put1 "0" (put1 (if f_upper f then "X"%char else "x"%char) st) else st in
  match st with Ok (s, _) => Ok s | Err => Err | UB => UB end.

Definition fill (c : char) (n : Z) : cstr := repeat c (Z.to_nat n).

(** shf.c:955-1002: print [s] in a field *)
Definition put_field (s : cstr) (f : pflags) (field prec : Z) : cstr :=
  let len := Z.of_nat (length s) in
  let prec := if negb (f_dot f) || (len <? prec) then len else prec in
  if prec <? field then
    let field := field - prec in
    if negb (f_right f) then
      if f_zero f && f_number f then
        let pre :=                               (* how many characters go before the padding *)
          match s with
          | a :: t =>
            if ceq a "+" || ceq a "-" || ceq a " " then 1
            else if ceq a "0" then
              match t with
              | b :: _ => if (0 <? prec - 1) && (ceq b "x" || ceq b "X") then 2 else 1
              | [] => 1
              end
            else 0
          | [] => 0
          end in
        fill (nth 0 s NUL) (Z.min pre 1) ++ fill (nth 1 s NUL) (pre - 1) ++ fill "0" field ++
        firstn (Z.to_nat (prec - pre)) (skipn (Z.to_nat pre) s)
      else fill (if f_zero f then "0" else " ") field ++ firstn (Z.to_nat prec) s
    else firstn (Z.to_nat prec) s ++ fill " " field
  else firstn (Z.to_nat prec) s.

(** shf.c:831-948 one conversion; the case of letters other than d i o u x p s c is
    the default of 942-947 (the letter itself is printed) *)
Definition convert (c : char) (st : pst) (args : list arg) : res (cstr * list arg) :=
  let prec := if p_prec st <? 0 then 0 else p_prec st in
  let f := p_fl st in
  let f := if isupper c then set_upper f else f in
  let c := tolower c in
  if ceq c "p" || ceq c "d" || ceq c "i" || ceq c "o" || ceq c "u" || ceq c "x" then
    let f := if ceq c "p" then set_long (set_llong f false) else f in
    let f := set_number f in
    do r <- fetch f (ceq c "d" || ceq c "i") args ;
    let '(ll, args') := r in
    do s <- number_text c f ll ;
    let len := Z.of_nat (length s) in
    if f_dot f then
      if len <? prec then Ok (put_field s (set_zero f) prec prec, args')
      else Ok (put_field s f (p_field st) len, args')
    else Ok (put_field s f (p_field st) prec, args')
  else if ceq c "s" then
    match args with
    | AStr s :: args' => Ok (put_field s f (p_field st) prec, args')
    | ANull :: args' => Ok (put_field (L "(null %s)") f (p_field st) prec, args')
    | _ => UB
    end
  else if ceq c "c" then
    match args with
    | AInt z :: args' => Ok (put_field [ascii_of_N (Z.to_N (z mod 256))] (set_dot f false) (p_field st) prec, args')
    | _ => UB
    end
  else Ok (put_field [c] f (p_field st) prec, args).

(** shf.c:751-763 the main loop *)
Fixpoint vfprintf (fuel : nat) (fmt : cstr) (args : list arg) : res cstr :=
  match fuel with
  | O => Err
  | S fu =>
    match fmt with
    | [] => Ok []
    | c :: rest =>
      if negb (ceq c "%") then do o <- vfprintf fu rest args ; Ok (c :: o)
      else
        do r <- scan rest None p0 args ;
        let '(oc, rest', st, args') := r in
        match oc with
        | None => Ok []                                       (* nasty format *)
        | Some c => do t <- convert c st args' ; do o <- vfprintf fu rest' (snd t) ; Ok (fst t ++ o)
        end
    end
  end.
Definition printf (fmt : cstr) (args : list arg) : res cstr := vfprintf (S (length fmt)) fmt args.

(** shf.c:690-707 with shf_sopen, shf_sclose: what does not fit a buffer of bsize
    bytes with its NUL is dropped *)
Definition snprintf (bsize : nat) (fmt : cstr) (args : list arg) : res cstr :=
  do o <- printf fmt args ; Ok (firstn (bsize - 1) o).
