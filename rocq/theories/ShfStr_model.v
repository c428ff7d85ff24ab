(** Output to strings: shf_sopen(…, SHF_WR), shf_snprintf, shf_smprintf (shf.c). *)
From Verif Require Import Base Shf_model.
Local Open Scope nat_scope.

(** [stext]: from buf to wp; [sleft]: wnleft (it can be made negative); [ssize]: wbsize;
    [salloc]: the size of the memory at buf; [sdyn]: SHF_DYNAMIC and SHF_ALLOCB. *)
Record sfile := SFile {
  stext : cstr; sleft : Z; ssize : nat; salloc : nat; sdyn : bool; serror : bool }.
(** Value returned (not EOF), or a store outside the memory. *)
Inductive sres := SRet (ok : bool) (s : sfile) | SOob.

(** shf_sopen (shf.c:186-216) for writing, into [n] > 0 bytes. *)
Definition sopen (n : nat) (dyn : bool) : sfile := SFile [] (Z.of_nat n - 1) n n dyn false.

(** shf_emptybuf with EB_GROW (shf.c:317-344): twice the size. *)
Definition s_grow (s : sfile) : sres :=
  if serror s then SRet false s
  else if negb (sdyn s) then SRet false s
  else SRet true (SFile (stext s) (sleft s + Z.of_nat (ssize s)) (2 * ssize s) (2 * ssize s) (sdyn s) (serror s)).
(** *wp++ = c; wnleft-- *)
Definition s_store (c : char) (s : sfile) : sres :=
  if Nat.ltb (length (stext s)) (salloc s)
  then SRet true (SFile (stext s ++ [c]) (sleft s - 1) (ssize s) (salloc s) (sdyn s) (serror s))
  else SOob.
(** shf_putchar (shf.c:565-602) *)
Definition s_putchar (c : Z) (s : sfile) : sres :=
  if (c =? -1)%Z then SRet false s
  else if (sleft s =? 0)%Z then
    match s_grow s with SRet true s => s_store (to_byte c) s | r => r end
  else s_store (to_byte c) s.
(** shf_putc (shf.h:14-15) *)
Definition s_putc (c : Z) (s : sfile) : sres :=
  if (sleft s =? 0)%Z then s_putchar c s else s_store (to_byte c) s.
(** memcpy to wp *)
Definition s_copy (bs : cstr) (s : sfile) : sres :=
  if Nat.leb (length (stext s) + length bs) (salloc s)
  then SRet true (SFile (stext s ++ bs) (sleft s - Z.of_nat (length bs)) (ssize s) (salloc s) (sdyn s) (serror s))
  else SOob.
(** shf_write (shf.c:617-675); the write(2) on descriptor -1 fails with EBADF. *)
Definition s_write_rest (bs : cstr) (s : sfile) : sres :=
  match bs with
  | [] => SRet true s
  | _ =>
    match s_grow s with
    | SRet true s =>
      if Nat.ltb (ssize s) (length bs)
      then SRet false (SFile (stext s) 0 (ssize s) (salloc s) (sdyn s) true)
      else s_copy bs s
    | r => r
    end
  end.
Definition s_write (bs : cstr) (s : sfile) : sres :=
  if negb (sleft s =? 0)%Z && (negb (Nat.eqb (length (stext s)) 0) || (Z.of_nat (length bs) <? sleft s)%Z) then
    let n := Z.min (sleft s) (Z.of_nat (length bs)) in
    if (n <? 0)%Z then SOob                       (* memcpy of a huge size *)
    else match s_copy (firstn (Z.to_nat n) bs) s with
         | SRet true s => s_write_rest (skipn (Z.to_nat n) bs) s
         | r => r
         end
  else s_write_rest bs s.
(** shf_sclose (shf.c:260-273): the string, up to the null byte put. [None]: none was put. *)
Inductive cres := CStr (t : cstr) | COpen | COob.
Definition s_close (s : sfile) : cres :=
  match s_putc 0 (SFile (stext s) (sleft s + 1) (ssize s) (salloc s) (sdyn s) (serror s)) with
  | SRet true _ => CStr (stext s)
  | SRet false _ => COpen
  | SOob => COob
  end.
