(** Model of misc.c:1067-1090 strip_nuls().

    The buffer is the list of its bytes (its length is nbytes); pointers are
    indices.  memchr and memmove are the C library functions. *)
From Verif Require Import Base.

(** memchr(buf + from, '\0', n): first index in [from, from+n) holding NUL.
    C library, used at misc.c:1073 and 1082. *)
Fixpoint memchr0 (buf : list char) (from n : nat) : option nat :=
  match n with
  | O => None
  | S n' => if is_nul (nth from buf SP) then Some from else memchr0 buf (S from) n'
  end.

(** memmove(buf + dst, buf + src, n) inside one buffer.  misc.c:1084 *)
Definition memmove (buf : list char) (dst src n : nat) : list char :=
  firstn dst buf ++ firstn n (skipn src buf) ++ skipn (dst + n) buf.

(** misc.c:1079-1080  while (++p < end && *p == 0) ;   (fuel: bytes left) *)
Fixpoint skip_nul (buf : list char) (fuel p : nat) : nat :=
  match fuel with
  | O => p
  | S f => if (p <? length buf) && is_nul (nth p buf SP) then skip_nul buf f (S p) else p
  end.

(** misc.c:1078-1087 the loop over blocks; None = out of fuel *)
Fixpoint strip_loop (fuel : nat) (buf : list char) (p dst : nat) : option (list char * nat) :=
  match fuel with
  | O => None
  | S f =>
    if p <? length buf then
      let p1 := skip_nul buf (length buf) (S p) in
      let q := match memchr0 buf p1 (length buf - p1) with
               | Some q => q | None => length buf end in
      strip_loop f (memmove buf dst p1 (q - p1)) q (dst + (q - p1))
    else Some (buf, dst)
  end.

(** buf[i] = c *)
Definition upd (buf : list char) (i : nat) (c : char) : list char :=
  firstn i buf ++ c :: skipn (S i) buf.

(** misc.c:1067-1090; returns the new buffer contents and the new length *)
Definition strip_nuls (buf : list char) : option (list char * nat) :=
  match memchr0 buf 0 (length buf) with
  | Some d =>
    match strip_loop (S (length buf)) buf d d with
    | Some (b, dst) => Some (upd b dst NUL, dst)
    | None => None
    end
  | None => Some (buf, length buf)
  end.
