(** Words in command trees (tree.h:58-69): scanning, copying and stripping them (tree.c). *)
From Verif Require Import Base.

(** Prefix codes (tree.h:58-69). *)
Definition EOS : char := ascii_of_nat 0.
Definition CHAR : char := ascii_of_nat 1.
Definition QCHAR : char := ascii_of_nat 2.
Definition COMSUB : char := ascii_of_nat 3.
Definition EXPRSUB : char := ascii_of_nat 4.
Definition OQUOTE : char := ascii_of_nat 5.
Definition CQUOTE : char := ascii_of_nat 6.
Definition OSUBST : char := ascii_of_nat 7.
Definition CSUBST : char := ascii_of_nat 8.
Definition OPAT : char := ascii_of_nat 9.
Definition SPAT : char := ascii_of_nat 10.
Definition CPAT : char := ascii_of_nat 11.

(** The memory a word is in, from the word on; reading beyond its end is [WOob].  A pointer
    into it is the rest of it. *)
Inductive wres := WAt (rest : cstr) | WOob.
(** wdscan (tree.c:491-539).  The reading position within a code is the [mode]: at a code;
    before the byte belonging to CHAR, QCHAR or OPAT; inside the text of COMSUB, EXPRSUB or
    OSUBST; before the byte belonging to CSUBST.  (An unknown code is skipped with a warning.) *)
Inductive mode := MCode | MByte | MText | MClose.
Fixpoint scan (m : mode) (nest : Z) (c : char) (wp : cstr) : wres :=
  match wp with
  | [] => WOob
  | x :: wp =>
    match m with
    | MByte => scan MCode nest c wp
    | MText => if ceq x NUL then scan MCode nest c wp else scan MText nest c wp
    | MClose =>
      if ceq c CSUBST && (nest =? 0)%Z then WAt wp else scan MCode (nest - 1) c wp
    | MCode =>
      if ceq x EOS then WAt wp
      else if ceq x CHAR || ceq x QCHAR then scan MByte nest c wp
      else if ceq x COMSUB || ceq x EXPRSUB then scan MText nest c wp
      else if ceq x OQUOTE || ceq x CQUOTE then scan MCode nest c wp
      else if ceq x OSUBST then scan MText (nest + 1) c wp
      else if ceq x CSUBST then scan MClose nest c wp
      else if ceq x OPAT then scan MByte (nest + 1) c wp
      else if ceq x SPAT || ceq x CPAT then
        if ceq c x && (nest =? 0)%Z then WAt wp
        else scan MCode (if ceq x CPAT then nest - 1 else nest) c wp
      else scan MCode nest c wp
    end
  end.
Definition wdscan (wp : cstr) (c : char) : wres := scan MCode 0 c wp.
(** wdcopy (tree.c:483-488): [None] if it reads outside the memory. *)
Definition wdcopy (wp : cstr) : option cstr :=
  match wdscan wp EOS with
  | WAt rest => Some (firstn (length wp - length rest) wp)
  | WOob => None
  end.
(** str_save (misc.c:81-92): a C string with its null byte. *)
Fixpoint str_save (s : cstr) : option cstr :=
  match s with
  | [] => None
  | c :: r => if ceq c NUL then Some [NUL] else option_map (cons c) (str_save r)
  end.

(** * Trees (tree.h:12-28, 74-80) *)
(** Pointers to strings are the memory there; null pointers are [None]. *)
Record ioword := IOWord { io_unit : Z; io_flag : Z; io_name : option cstr; io_delim : option cstr; io_heredoc : option cstr }.
Inductive op :=
| TNull
| TOp (type flags : Z) (args vars : option (list cstr)) (ioact : option (list ioword))
      (left right : op) (str : option cstr) (lineno : Z).
Definition TCASE : Z := 11.                                     (* tree.h:42 *)

Definition copy_opt {A} (f : A -> option A) (x : option A) : option (option A) :=
  match x with None => Some None | Some y => option_map Some (f y) end.
Fixpoint copy_all {A} (f : A -> option A) (l : list A) : option (list A) :=
  match l with
  | [] => Some []
  | x :: l => match f x with Some y => option_map (cons y) (copy_all f l) | None => None end
  end.
(** iocopy (tree.c:610-637), one word. *)
Definition iocopy1 (p : ioword) : option ioword :=
  match copy_opt wdcopy (io_name p), copy_opt wdcopy (io_delim p), copy_opt str_save (io_heredoc p) with
  | Some n, Some d, Some h => Some (IOWord (io_unit p) (io_flag p) n d h)
  | _, _, _ => None
  end.
(** tcopy (tree.c:434-481) *)
Fixpoint tcopy (t : op) : option op :=
  match t with
  | TNull => Some TNull
  | TOp ty fl args vars io l r str ln =>
    match copy_opt (if (ty =? TCASE)%Z then wdcopy else str_save) str,
          copy_opt (copy_all wdcopy) vars, copy_opt (copy_all wdcopy) args,
          copy_opt (copy_all iocopy1) io, tcopy l, tcopy r with
    | Some str, Some vars, Some args, Some io, Some l, Some r => Some (TOp ty fl args vars io l r str ln)
    | _, _, _, _, _, _ => None
    end
  end.

(** * wdstrip (tree.c:545-608) *)
(** shf_putchar of a char: EOF (the byte 0xFF as a signed char) is not written. *)
Definition put (c : char) : cstr := if N.eqb (N_of_ascii c) 255 then [] else [c].
(** Modes: at a code; before the byte of CHAR or QCHAR; in the text of COMSUB and EXPRSUB, whose
    null byte is left to be read as a code; before { and then in the name of OSUBST; before the
    byte of CSUBST and of OPAT. *)
Inductive smode := SCode | SByte | SCom (close : cstr) | SBrace | SName | SClose | SPatc.
Fixpoint strip (m : smode) (wp : cstr) : option cstr :=
  let out t r := option_map (app t) r in
  match wp with
  | [] => None
  | x :: wp' =>
    match m with
    | SByte => out (put x) (strip SCode wp')
    | SCom close =>
      if ceq x NUL then out close (Some [])        (* the null byte is then taken for EOS *)
      else out (put x) (strip (SCom close) wp')
    | SBrace => out (if ceq x "{" then ["{"%char] else []) (strip SName wp')
    | SName => if ceq x NUL then strip SCode wp' else out (put x) (strip SName wp')
    | SClose => out (if ceq x "}" then ["}"%char] else []) (strip SCode wp')
    | SPatc => out (put x ++ ["("%char]) (strip SCode wp')
    | SCode =>
      if ceq x EOS then Some []
      else if ceq x CHAR || ceq x QCHAR then strip SByte wp'
      else if ceq x COMSUB then out (L "$(") (strip (SCom (L ")")) wp')
      else if ceq x EXPRSUB then out (L "$((") (strip (SCom (L "))")) wp')
      else if ceq x OQUOTE || ceq x CQUOTE then strip SCode wp'
      else if ceq x OSUBST then out (L "$") (strip SBrace wp')
      else if ceq x CSUBST then strip SClose wp'
      else if ceq x OPAT then strip SPatc wp'
      else if ceq x SPAT then out (L "|") (strip SCode wp')
      else if ceq x CPAT then out (L ")") (strip SCode wp')
      else strip SCode wp'
    end
  end.
Definition wdstrip (wp : cstr) : option cstr := strip SCode wp.
