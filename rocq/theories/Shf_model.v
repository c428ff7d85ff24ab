(** Buffered file output and input (shf.c), one direction per stream. *)
From Verif Require Import Base.
Local Open Scope nat_scope.

(** * Output *)
(** [ob]: the bytes between buf and wp; [oleft]: wnleft; [osize]: wbsize, which is the size of
    the buffer unless the stream is unbuffered (then 0). *)
Record ofile := OFile {
  ob : cstr; oleft : nat; osize : nat;
  ounbuf : bool; owriting : bool; oerror : bool;    (* SHF_UNBUF, SHF_WRITING, SHF_ERROR *)
  ointr : bool }.                                   (* SHF_INTERRUPT *)
(** What the next calls of write(2) return: a count (never more than asked), EINTR, or
    another error.  [sent]: what the descriptor has got. *)
Inductive wres := WN (n : nat) | WIntr | WErr.
Record okern := OKern { sent : cstr; wans : list wres }.

(** Value returned and state; waiting in write(2) for ever (no answer left); or a store
    outside the buffer. *)
Inductive ores := ORet (ok : bool) (s : ofile) (k : okern) | OBlock (k : okern) | OOob.

(** shf_fdopen (shf.c:76-128) for writing, buffer of [n] bytes. *)
Definition fdopen_w (n : nat) (unbuf intr : bool) : ofile :=
  OFile [] 0 (if unbuf then 0 else n) unbuf false false intr.

(** The loops around write(2) (shf.c:349-372, 647-664, 583-592): [LDone] all written, [LFail]
    with what is left. *)
Inductive lres := LDone (k : okern) | LFail (k : okern) (todo : cstr) | LBlock (k : okern).
Fixpoint write_loop (intr : bool) (out : cstr) (ws : list wres) (todo : cstr) : lres :=
  match todo with
  | [] => LDone (OKern out ws)
  | _ =>
    match ws with
    | [] => LBlock (OKern out [])
    | WN n :: ws => write_loop intr (out ++ firstn n todo) ws (skipn n todo)
    | WIntr :: ws => if intr then LFail (OKern out ws) todo else write_loop intr out ws todo
    | WErr :: ws => LFail (OKern out ws) todo
    end
  end.

(** shf_emptybuf (shf.c:309-385) for a file open for writing only. *)
Definition emptybuf (s : ofile) (k : okern) : ores :=
  if oerror s then ORet false s k
  else if owriting s then
    match write_loop (ointr s) (sent k) (wans k) (ob s) with
    | LDone k => ORet true (OFile [] (osize s) (osize s) (ounbuf s) true (oerror s) (ointr s)) k
    | LFail k todo => ORet false (OFile todo 0 (osize s) (ounbuf s) (owriting s) true (ointr s)) k
    | LBlock k => OBlock k
    end
  else ORet true (OFile [] (osize s) (osize s) (ounbuf s) true (oerror s) (ointr s)) k.
(** shf_flush (shf.c:278-304). *)
Definition flush (s : ofile) (k : okern) : ores :=
  if oerror s then ORet false s k
  else if owriting s then emptybuf s k else ORet true s k.

(** An int stored in an unsigned char. *)
Definition to_byte (c : Z) : char := ascii_of_nat (Z.to_nat (c mod 256)).
(** *wp++ = c; wnleft-- *)
Definition store (c : char) (s : ofile) (k : okern) : ores :=
  if Nat.ltb (length (ob s)) (osize s)
  then ORet true (OFile (ob s ++ [c]) (oleft s - 1) (osize s) (ounbuf s) (owriting s) (oerror s) (ointr s)) k
  else OOob.
(** shf_putchar (shf.c:565-602). *)
Definition putchar (c : Z) (s : ofile) (k : okern) : ores :=
  if (c =? -1)%Z then ORet false s k
  else if ounbuf s then
    if oerror s then ORet false s k
    else match write_loop (ointr s) (sent k) (wans k) [to_byte c] with
         | LDone k => ORet true s k
         | LFail k _ => ORet false (OFile (ob s) (oleft s) (osize s) (ounbuf s) (owriting s) true (ointr s)) k
         | LBlock k => OBlock k
         end
  else if Nat.eqb (oleft s) 0 then
    match emptybuf s k with
    | ORet true s k => store (to_byte c) s k
    | r => r
    end
  else store (to_byte c) s k.
(** shf_putc (shf.h:14-15). *)
Definition putc (c : Z) (s : ofile) (k : okern) : ores :=
  if Nat.eqb (oleft s) 0 then putchar c s k else store (to_byte c) s k.

(** memcpy(wp, buf, n) *)
Definition copy (bs : cstr) (s : ofile) : option ofile :=
  if Nat.leb (length (ob s) + length bs) (osize s)
  then Some (OFile (ob s ++ bs) (oleft s - length bs) (osize s) (ounbuf s) (owriting s) (oerror s) (ointr s))
  else None.
(** shf_write (shf.c:617-675).  The part written directly is a multiple of wbsize. *)
Definition direct (n size : nat) : nat := n - (if Nat.eqb size 0 then 0 else n mod size).
Definition write_rest (bs : cstr) (s : ofile) (k : okern) : ores :=
  match bs with
  | [] => ORet true s k
  | _ =>
    match emptybuf s k with
    | ORet true s k =>
      let fin bs s k := match copy bs s with Some s => ORet true s k | None => OOob end in
      if Nat.ltb (osize s) (length bs) then
        let n := direct (length bs) (osize s) in
        match write_loop (ointr s) (sent k) (wans k) (firstn n bs) with
        | LDone k => fin (skipn n bs) s k
        | LFail k _ => ORet false (OFile (ob s) 0 (osize s) (ounbuf s) (owriting s) true (ointr s)) k
        | LBlock k => OBlock k
        end
      else fin bs s k
    | r => r
    end
  end.
Definition write (bs : cstr) (s : ofile) (k : okern) : ores :=
  if negb (Nat.eqb (oleft s) 0) && (negb (Nat.eqb (length (ob s)) 0) || Nat.ltb (length bs) (oleft s)) then
    let n := Nat.min (oleft s) (length bs) in
    match copy (firstn n bs) s with
    | Some s => write_rest (skipn n bs) s k
    | None => OOob
    end
  else write_rest bs s k.
(** shf_clearerr (shf.h:18). *)
Definition clearerr (s : ofile) : ofile :=
  OFile (ob s) (oleft s) (osize s) (ounbuf s) (owriting s) false (ointr s).

(** * Input *)
(** [ipos]: rp - buf; [idata]: the rnleft bytes at rp; [isize]: rbsize. *)
Record ifile := IFile {
  ipos : nat; idata : cstr; isize : nat;
  ieof : bool; ierror : bool; iintr : bool }.
(** What the next calls of read(2) do: give so many bytes (at least one and not more than
    asked for or there are; none at the end of the file), EINTR, another error.
    [src]: what has not been read. *)
Inductive rres := RN (n : nat) | RIntr | RErr.
Record ikern := IKern { src : cstr; rans : list rres }.
Definition fdopen_r (n : nat) (intr : bool) : ifile := IFile 0 [] n false false intr.

(** blocking_read (misc.c:1095-1113) and the loop around it (shf.c:407-427); [None]: waits for
    ever.  Fails if [fst] is false. *)
Fixpoint fill_loop (s : ifile) (src : cstr) (ws : list rres) : option (bool * ifile * ikern) :=
  match ws with
  | [] => None
  | RN n :: ws =>
    match src with
    | [] => Some (true, IFile 0 [] (isize s) true (ierror s) (iintr s), IKern [] ws)
    | _ => let n := Nat.min (Nat.max 1 n) (isize s) in
           Some (true, IFile 0 (firstn n src) (isize s) (ieof s) (ierror s) (iintr s), IKern (skipn n src) ws)
    end
  | RIntr :: ws =>
    if iintr s then Some (false, IFile 0 [] (isize s) (ieof s) true (iintr s), IKern src ws) else fill_loop s src ws
  | RErr :: ws => Some (false, IFile 0 [] (isize s) (ieof s) true (iintr s), IKern src ws)
  end.
(** shf_fillbuf (shf.c:388-428). *)
Definition fillbuf (s : ifile) (k : ikern) : option (bool * ifile * ikern) :=
  if ieof s || ierror s then Some (false, s, k) else fill_loop s (src k) (rans k).

(** Taking [n] of the buffered bytes. *)
Definition take (n : nat) (s : ifile) : cstr * ifile :=
  (firstn n (idata s), IFile (ipos s + n) (skipn n (idata s)) (isize s) (ieof s) (ierror s) (iintr s)).

(** shf_getchar (shf.c:515-525), also shf_getc: a byte, or EOF. *)
Inductive ires := IChar (c : char) (s : ifile) (k : ikern) | IEof (s : ifile) (k : ikern) | IBlock.
Definition getchar (s : ifile) (k : ikern) : ires :=
  let get s k := match idata s with
                 | c :: _ => IChar c (snd (take 1 s)) k
                 | [] => IEof s k
                 end in
  match idata s with
  | [] => match fillbuf s k with
          | None => IBlock
          | Some (false, s, k) => IEof s k
          | Some (true, s, k) => get s k
          end
  | _ => get s k
  end.
(** shf_ungetc (shf.c:530-560): [None] if it stores before the buffer. *)
Definition ungetc (c : Z) (s : ifile) : option (bool * ifile) :=
  if ierror s || (c =? -1)%Z || (Nat.eqb (ipos s) 0 && negb (Nat.eqb (length (idata s)) 0)) then Some (false, s)
  else
    let pos := if Nat.eqb (ipos s) 0 then isize s else ipos s in
    match pos with
    | O => None
    | S p => Some (true, IFile p (to_byte c :: idata s) (isize s) false (ierror s) (iintr s))
    end.

Definition has_nul (s : cstr) : bool := existsb is_nul s.
(** shf_read (shf.c:434-466): the bytes read (none at the end, [TErr] at an error), an error
    message for a NUL byte, or waiting. *)
Inductive tres := TText (t : cstr) (s : ifile) (k : ikern) | TNone (s : ifile) (k : ikern)
  | TNul | TBlock | TFuel.
Fixpoint read_loop (fuel : nat) (n : nat) (acc : cstr) (s : ifile) (k : ikern) : tres :=
  match fuel with
  | O => TFuel
  | S f =>
    let fin s k := match acc with [] => if ierror s then TNone s k else TText [] s k | _ => TText acc s k end in
    match n with
    | O => fin s k
    | _ =>
      let go s k :=
        let m := Nat.min (length (idata s)) n in
        let (t, s) := take m s in
        if has_nul t then TNul else read_loop f (n - m) (acc ++ t) s k in
      match idata s with
      | [] => match fillbuf s k with
              | None => TBlock
              | Some (false, s, k) => fin s k
              | Some (true, s, k) => match idata s with [] => fin s k | _ => go s k end
              end
      | _ => go s k
      end
    end
  end.
Definition read (n : nat) (s : ifile) (k : ikern) : tres := read_loop (S n) n [] s k.

(** memchr(rp, '\n', rnleft): the length up to and with the newline. *)
Fixpoint find_nl (s : cstr) : option nat :=
  match s with
  | [] => None
  | c :: r => if ceq c NL then Some 1 else option_map S (find_nl r)
  end.
(** shf_getse (shf.c:472-512): a line, or nothing (error or end of file). *)
Fixpoint getse_loop (fuel : nat) (n : nat) (acc : cstr) (s : ifile) (k : ikern) : tres :=
  match fuel with
  | O => TFuel
  | S f =>
    let go s k :=
      let e := find_nl (idata s) in
      let m := match e with Some m => m | None => length (idata s) end in
      let m := Nat.min m n in
      let (t, s) := take m s in
      if has_nul t then TNul
      else match e with
           | Some _ => TText (acc ++ t) s k
           | None => if Nat.eqb (n - m) 0 then TText (acc ++ t) s k
                     else getse_loop f (n - m) (acc ++ t) s k
           end in
    match idata s with
    | [] => match fillbuf s k with
            | None => TBlock
            | Some (false, s, k) => TNone s k
            | Some (true, s, k) =>
              match idata s with
              | [] => match acc with [] => TNone s k | _ => TText acc s k end
              | _ => go s k
              end
            end
    | _ => go s k
    end
  end.
Definition getse (bsize : nat) (s : ifile) (k : ikern) : tres :=
  match bsize with
  | O => TNone s k
  | S n => getse_loop (S (S n)) n [] s k
  end.
