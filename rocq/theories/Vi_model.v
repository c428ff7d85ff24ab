(** The vi mode of the line editor (vi.c): the buffers and what each key does to them.

    What is modelled: the keys as vi_hook gets them (x_vi, vi.c:199-256, takes out the interrupt, quit and
    end-of-file characters first), the edit buffers with the stale bytes behind the end of the line, the
    cursor and the length as C ints that may go wrong, the insert, yank, hold and search buffers, undo, redo,
    counts, all movements and commands.  The bytes of a buffer are the list of all its allocated bytes: an
    access outside the list gives [Oob]; a signed overflow of a count gives [Ovf].
    What is not modelled: the display (refresh_line, redraw_line, display, x_putc), winleft; the text of a
    macro (the keys of a macro come as keys that say so); how x_cf_glob finds the expansions of a word (the
    answer comes with the key). *)
From Verif Require Import Base.
From Coq Require Import DecimalString.
Local Open Scope Z_scope.

Inductive res (A : Type) := Ok (a : A) | Oob | Ovf.
Arguments Ok {A} a.
Arguments Oob {A}.
Arguments Ovf {A}.
Definition bind {A B} (r : res A) (f : A -> res B) : res B :=
  match r with Ok a => f a | Oob => Oob | Ovf => Ovf end.
Notation "'let!' x ':=' e 'in' f" := (bind e (fun x => f)) (at level 200, x pattern, right associativity).

(** sh.h:39; vi.c:131-132.  getsc_line (lex.c:1103) always gives x_read a buffer of LINE bytes, so cbufsize
    (vi.c:1432-1434) is LINE for both edit states. *)
Definition LINE : Z := 4096.
Definition SRCHLEN : Z := 40.
(** The value of an int expression. *)
Definition int (z : Z) : res Z := if (-2147483648 <=? z) && (z <=? 2147483647) then Ok z else Ovf.

(** CTRL, edit.h *)
Definition cH : char := "008". Definition cI : char := "009". Definition cE : char := "005".
Definition cF : char := "006". Definition cL : char := "012". Definition cN : char := "014".
Definition cP : char := "016". Definition cR : char := "018". Definition cV : char := "022".
Definition cX : char := "024". Definition ESC : char := "027". Definition CR : char := "013".
Definition DEL : char := "127".

(** ** Access to byte arrays *)
Definition rd (b : cstr) (i : Z) : res char :=
  if i <? 0 then Oob else match nth_error b (Z.to_nat i) with Some c => Ok c | None => Oob end.
Definition splice (b : cstr) (i : nat) (t : cstr) : cstr := firstn i b ++ t ++ skipn (i + length t) b.
Definition wr (b : cstr) (i : Z) (c : char) : res cstr :=
  if (i <? 0) || (Z.of_nat (length b) <=? i) then Oob else Ok (splice b (Z.to_nat i) [c]).
(** memmove and memcpy: [n] bytes from [s] of [src] to [d] of [dst].  A negative [n] is a huge size_t. *)
Definition move (dst : cstr) (d : Z) (src : cstr) (s n : Z) : res cstr :=
  if n =? 0 then Ok dst
  else if (n <? 0) || (d <? 0) || (s <? 0) || (Z.of_nat (length dst) <? d + n) || (Z.of_nat (length src) <? s + n)
  then Oob
  else Ok (splice dst (Z.to_nat d) (firstn (Z.to_nat n) (skipn (Z.to_nat s) src))).

(** struct edstate, edit.h: cbuf, linelen, cursor *)
Record ed := Ed { buf : cstr; len : Z; cur : Z }.

Inductive imode := COMMAND | INSERT | REPLACE.
Inductive vstate := VNORMAL | VARG1 | VEXTCMD | VARG2 | VXCH | VFAIL | VCMD | VREDO | VLIT | VSEARCH.
Inductive xmode := XNONE | XEXPAND | XCOMPLETE | XPRINT.
Definition is_ins (m : imode) : bool := match m with COMMAND => false | _ => true end.
Definition is_repl (m : imode) : bool := match m with REPLACE => true | _ => false end.
Definition is_insm (m : imode) : bool := match m with INSERT => true | _ => false end.

(** The editor's variables, vi.c:142-195, 261-262, 1364-1372, 2029, 2083. *)
Record st := St {
  es : ed (* the line being edited (es) *);
  un : ed (* the other edit state (undo) *);
  swapped : bool (* es points to undobuf *);
  hb : cstr (* holdbuf *);
  hl : Z (* holdlen *);
  ib : cstr (* ibuf *);
  il : Z (* inslen *);
  sil : Z (* saved_inslen *);
  fi : bool (* first_insert *);
  yb : cstr (* ybuf *);
  yl : Z (* yanklen *);
  fcmd : char (* fsavecmd *);
  fch : char (* fsavech *);
  lcmd : cstr (* lastcmd *);
  lac : Z (* lastac *);
  lsrch : char (* lastsearch *);
  spat : cstr (* srchpat, as a string *);
  lpat : cstr (* locpat *);
  sl : Z (* srchlen *);
  ins : imode (* insert *);
  hn : Z (* hnum *);
  ohn : Z (* ohnum *);
  modi : bool (* modified *);
  vs : vstate (* state *);
  cc : cstr (* curcmd *);
  cl : Z (* cmdlen *);
  a1 : Z (* argc1 *);
  a2 : Z (* argc2 *);
  xb : option ed (* buf of expand_word *);
  cb : option ed (* buf of complete_word *);
  xp : xmode (* expanded *);
  hist : list cstr (* the history, oldest line first *);
  srcl : Z (* source->line *);
  fin : bool (* x_vi is about to return *)
}.
Definition set_es (v : ed) (s : st) : st := St v (un s) (swapped s) (hb s) (hl s) (ib s) (il s) (sil s) (fi s) (yb s) (yl s) (fcmd s) (fch s) (lcmd s) (lac s) (lsrch s) (spat s) (lpat s) (sl s) (ins s) (hn s) (ohn s) (modi s) (vs s) (cc s) (cl s) (a1 s) (a2 s) (xb s) (cb s) (xp s) (hist s) (srcl s) (fin s).
Definition set_un (v : ed) (s : st) : st := St (es s) v (swapped s) (hb s) (hl s) (ib s) (il s) (sil s) (fi s) (yb s) (yl s) (fcmd s) (fch s) (lcmd s) (lac s) (lsrch s) (spat s) (lpat s) (sl s) (ins s) (hn s) (ohn s) (modi s) (vs s) (cc s) (cl s) (a1 s) (a2 s) (xb s) (cb s) (xp s) (hist s) (srcl s) (fin s).
Definition set_swapped (v : bool) (s : st) : st := St (es s) (un s) v (hb s) (hl s) (ib s) (il s) (sil s) (fi s) (yb s) (yl s) (fcmd s) (fch s) (lcmd s) (lac s) (lsrch s) (spat s) (lpat s) (sl s) (ins s) (hn s) (ohn s) (modi s) (vs s) (cc s) (cl s) (a1 s) (a2 s) (xb s) (cb s) (xp s) (hist s) (srcl s) (fin s).
Definition set_hb (v : cstr) (s : st) : st := St (es s) (un s) (swapped s) v (hl s) (ib s) (il s) (sil s) (fi s) (yb s) (yl s) (fcmd s) (fch s) (lcmd s) (lac s) (lsrch s) (spat s) (lpat s) (sl s) (ins s) (hn s) (ohn s) (modi s) (vs s) (cc s) (cl s) (a1 s) (a2 s) (xb s) (cb s) (xp s) (hist s) (srcl s) (fin s).
Definition set_hl (v : Z) (s : st) : st := St (es s) (un s) (swapped s) (hb s) v (ib s) (il s) (sil s) (fi s) (yb s) (yl s) (fcmd s) (fch s) (lcmd s) (lac s) (lsrch s) (spat s) (lpat s) (sl s) (ins s) (hn s) (ohn s) (modi s) (vs s) (cc s) (cl s) (a1 s) (a2 s) (xb s) (cb s) (xp s) (hist s) (srcl s) (fin s).
Definition set_ib (v : cstr) (s : st) : st := St (es s) (un s) (swapped s) (hb s) (hl s) v (il s) (sil s) (fi s) (yb s) (yl s) (fcmd s) (fch s) (lcmd s) (lac s) (lsrch s) (spat s) (lpat s) (sl s) (ins s) (hn s) (ohn s) (modi s) (vs s) (cc s) (cl s) (a1 s) (a2 s) (xb s) (cb s) (xp s) (hist s) (srcl s) (fin s).
Definition set_il (v : Z) (s : st) : st := St (es s) (un s) (swapped s) (hb s) (hl s) (ib s) v (sil s) (fi s) (yb s) (yl s) (fcmd s) (fch s) (lcmd s) (lac s) (lsrch s) (spat s) (lpat s) (sl s) (ins s) (hn s) (ohn s) (modi s) (vs s) (cc s) (cl s) (a1 s) (a2 s) (xb s) (cb s) (xp s) (hist s) (srcl s) (fin s).
Definition set_sil (v : Z) (s : st) : st := St (es s) (un s) (swapped s) (hb s) (hl s) (ib s) (il s) v (fi s) (yb s) (yl s) (fcmd s) (fch s) (lcmd s) (lac s) (lsrch s) (spat s) (lpat s) (sl s) (ins s) (hn s) (ohn s) (modi s) (vs s) (cc s) (cl s) (a1 s) (a2 s) (xb s) (cb s) (xp s) (hist s) (srcl s) (fin s).
Definition set_fi (v : bool) (s : st) : st := St (es s) (un s) (swapped s) (hb s) (hl s) (ib s) (il s) (sil s) v (yb s) (yl s) (fcmd s) (fch s) (lcmd s) (lac s) (lsrch s) (spat s) (lpat s) (sl s) (ins s) (hn s) (ohn s) (modi s) (vs s) (cc s) (cl s) (a1 s) (a2 s) (xb s) (cb s) (xp s) (hist s) (srcl s) (fin s).
Definition set_yb (v : cstr) (s : st) : st := St (es s) (un s) (swapped s) (hb s) (hl s) (ib s) (il s) (sil s) (fi s) v (yl s) (fcmd s) (fch s) (lcmd s) (lac s) (lsrch s) (spat s) (lpat s) (sl s) (ins s) (hn s) (ohn s) (modi s) (vs s) (cc s) (cl s) (a1 s) (a2 s) (xb s) (cb s) (xp s) (hist s) (srcl s) (fin s).
Definition set_yl (v : Z) (s : st) : st := St (es s) (un s) (swapped s) (hb s) (hl s) (ib s) (il s) (sil s) (fi s) (yb s) v (fcmd s) (fch s) (lcmd s) (lac s) (lsrch s) (spat s) (lpat s) (sl s) (ins s) (hn s) (ohn s) (modi s) (vs s) (cc s) (cl s) (a1 s) (a2 s) (xb s) (cb s) (xp s) (hist s) (srcl s) (fin s).
Definition set_fcmd (v : char) (s : st) : st := St (es s) (un s) (swapped s) (hb s) (hl s) (ib s) (il s) (sil s) (fi s) (yb s) (yl s) v (fch s) (lcmd s) (lac s) (lsrch s) (spat s) (lpat s) (sl s) (ins s) (hn s) (ohn s) (modi s) (vs s) (cc s) (cl s) (a1 s) (a2 s) (xb s) (cb s) (xp s) (hist s) (srcl s) (fin s).
Definition set_fch (v : char) (s : st) : st := St (es s) (un s) (swapped s) (hb s) (hl s) (ib s) (il s) (sil s) (fi s) (yb s) (yl s) (fcmd s) v (lcmd s) (lac s) (lsrch s) (spat s) (lpat s) (sl s) (ins s) (hn s) (ohn s) (modi s) (vs s) (cc s) (cl s) (a1 s) (a2 s) (xb s) (cb s) (xp s) (hist s) (srcl s) (fin s).
Definition set_lcmd (v : cstr) (s : st) : st := St (es s) (un s) (swapped s) (hb s) (hl s) (ib s) (il s) (sil s) (fi s) (yb s) (yl s) (fcmd s) (fch s) v (lac s) (lsrch s) (spat s) (lpat s) (sl s) (ins s) (hn s) (ohn s) (modi s) (vs s) (cc s) (cl s) (a1 s) (a2 s) (xb s) (cb s) (xp s) (hist s) (srcl s) (fin s).
Definition set_lac (v : Z) (s : st) : st := St (es s) (un s) (swapped s) (hb s) (hl s) (ib s) (il s) (sil s) (fi s) (yb s) (yl s) (fcmd s) (fch s) (lcmd s) v (lsrch s) (spat s) (lpat s) (sl s) (ins s) (hn s) (ohn s) (modi s) (vs s) (cc s) (cl s) (a1 s) (a2 s) (xb s) (cb s) (xp s) (hist s) (srcl s) (fin s).
Definition set_lsrch (v : char) (s : st) : st := St (es s) (un s) (swapped s) (hb s) (hl s) (ib s) (il s) (sil s) (fi s) (yb s) (yl s) (fcmd s) (fch s) (lcmd s) (lac s) v (spat s) (lpat s) (sl s) (ins s) (hn s) (ohn s) (modi s) (vs s) (cc s) (cl s) (a1 s) (a2 s) (xb s) (cb s) (xp s) (hist s) (srcl s) (fin s).
Definition set_spat (v : cstr) (s : st) : st := St (es s) (un s) (swapped s) (hb s) (hl s) (ib s) (il s) (sil s) (fi s) (yb s) (yl s) (fcmd s) (fch s) (lcmd s) (lac s) (lsrch s) v (lpat s) (sl s) (ins s) (hn s) (ohn s) (modi s) (vs s) (cc s) (cl s) (a1 s) (a2 s) (xb s) (cb s) (xp s) (hist s) (srcl s) (fin s).
Definition set_lpat (v : cstr) (s : st) : st := St (es s) (un s) (swapped s) (hb s) (hl s) (ib s) (il s) (sil s) (fi s) (yb s) (yl s) (fcmd s) (fch s) (lcmd s) (lac s) (lsrch s) (spat s) v (sl s) (ins s) (hn s) (ohn s) (modi s) (vs s) (cc s) (cl s) (a1 s) (a2 s) (xb s) (cb s) (xp s) (hist s) (srcl s) (fin s).
Definition set_sl (v : Z) (s : st) : st := St (es s) (un s) (swapped s) (hb s) (hl s) (ib s) (il s) (sil s) (fi s) (yb s) (yl s) (fcmd s) (fch s) (lcmd s) (lac s) (lsrch s) (spat s) (lpat s) v (ins s) (hn s) (ohn s) (modi s) (vs s) (cc s) (cl s) (a1 s) (a2 s) (xb s) (cb s) (xp s) (hist s) (srcl s) (fin s).
Definition set_ins (v : imode) (s : st) : st := St (es s) (un s) (swapped s) (hb s) (hl s) (ib s) (il s) (sil s) (fi s) (yb s) (yl s) (fcmd s) (fch s) (lcmd s) (lac s) (lsrch s) (spat s) (lpat s) (sl s) v (hn s) (ohn s) (modi s) (vs s) (cc s) (cl s) (a1 s) (a2 s) (xb s) (cb s) (xp s) (hist s) (srcl s) (fin s).
Definition set_hn (v : Z) (s : st) : st := St (es s) (un s) (swapped s) (hb s) (hl s) (ib s) (il s) (sil s) (fi s) (yb s) (yl s) (fcmd s) (fch s) (lcmd s) (lac s) (lsrch s) (spat s) (lpat s) (sl s) (ins s) v (ohn s) (modi s) (vs s) (cc s) (cl s) (a1 s) (a2 s) (xb s) (cb s) (xp s) (hist s) (srcl s) (fin s).
Definition set_ohn (v : Z) (s : st) : st := St (es s) (un s) (swapped s) (hb s) (hl s) (ib s) (il s) (sil s) (fi s) (yb s) (yl s) (fcmd s) (fch s) (lcmd s) (lac s) (lsrch s) (spat s) (lpat s) (sl s) (ins s) (hn s) v (modi s) (vs s) (cc s) (cl s) (a1 s) (a2 s) (xb s) (cb s) (xp s) (hist s) (srcl s) (fin s).
Definition set_modi (v : bool) (s : st) : st := St (es s) (un s) (swapped s) (hb s) (hl s) (ib s) (il s) (sil s) (fi s) (yb s) (yl s) (fcmd s) (fch s) (lcmd s) (lac s) (lsrch s) (spat s) (lpat s) (sl s) (ins s) (hn s) (ohn s) v (vs s) (cc s) (cl s) (a1 s) (a2 s) (xb s) (cb s) (xp s) (hist s) (srcl s) (fin s).
Definition set_vs (v : vstate) (s : st) : st := St (es s) (un s) (swapped s) (hb s) (hl s) (ib s) (il s) (sil s) (fi s) (yb s) (yl s) (fcmd s) (fch s) (lcmd s) (lac s) (lsrch s) (spat s) (lpat s) (sl s) (ins s) (hn s) (ohn s) (modi s) v (cc s) (cl s) (a1 s) (a2 s) (xb s) (cb s) (xp s) (hist s) (srcl s) (fin s).
Definition set_cc (v : cstr) (s : st) : st := St (es s) (un s) (swapped s) (hb s) (hl s) (ib s) (il s) (sil s) (fi s) (yb s) (yl s) (fcmd s) (fch s) (lcmd s) (lac s) (lsrch s) (spat s) (lpat s) (sl s) (ins s) (hn s) (ohn s) (modi s) (vs s) v (cl s) (a1 s) (a2 s) (xb s) (cb s) (xp s) (hist s) (srcl s) (fin s).
Definition set_cl (v : Z) (s : st) : st := St (es s) (un s) (swapped s) (hb s) (hl s) (ib s) (il s) (sil s) (fi s) (yb s) (yl s) (fcmd s) (fch s) (lcmd s) (lac s) (lsrch s) (spat s) (lpat s) (sl s) (ins s) (hn s) (ohn s) (modi s) (vs s) (cc s) v (a1 s) (a2 s) (xb s) (cb s) (xp s) (hist s) (srcl s) (fin s).
Definition set_a1 (v : Z) (s : st) : st := St (es s) (un s) (swapped s) (hb s) (hl s) (ib s) (il s) (sil s) (fi s) (yb s) (yl s) (fcmd s) (fch s) (lcmd s) (lac s) (lsrch s) (spat s) (lpat s) (sl s) (ins s) (hn s) (ohn s) (modi s) (vs s) (cc s) (cl s) v (a2 s) (xb s) (cb s) (xp s) (hist s) (srcl s) (fin s).
Definition set_a2 (v : Z) (s : st) : st := St (es s) (un s) (swapped s) (hb s) (hl s) (ib s) (il s) (sil s) (fi s) (yb s) (yl s) (fcmd s) (fch s) (lcmd s) (lac s) (lsrch s) (spat s) (lpat s) (sl s) (ins s) (hn s) (ohn s) (modi s) (vs s) (cc s) (cl s) (a1 s) v (xb s) (cb s) (xp s) (hist s) (srcl s) (fin s).
Definition set_xb (v : option ed) (s : st) : st := St (es s) (un s) (swapped s) (hb s) (hl s) (ib s) (il s) (sil s) (fi s) (yb s) (yl s) (fcmd s) (fch s) (lcmd s) (lac s) (lsrch s) (spat s) (lpat s) (sl s) (ins s) (hn s) (ohn s) (modi s) (vs s) (cc s) (cl s) (a1 s) (a2 s) v (cb s) (xp s) (hist s) (srcl s) (fin s).
Definition set_cb (v : option ed) (s : st) : st := St (es s) (un s) (swapped s) (hb s) (hl s) (ib s) (il s) (sil s) (fi s) (yb s) (yl s) (fcmd s) (fch s) (lcmd s) (lac s) (lsrch s) (spat s) (lpat s) (sl s) (ins s) (hn s) (ohn s) (modi s) (vs s) (cc s) (cl s) (a1 s) (a2 s) (xb s) v (xp s) (hist s) (srcl s) (fin s).
Definition set_xp (v : xmode) (s : st) : st := St (es s) (un s) (swapped s) (hb s) (hl s) (ib s) (il s) (sil s) (fi s) (yb s) (yl s) (fcmd s) (fch s) (lcmd s) (lac s) (lsrch s) (spat s) (lpat s) (sl s) (ins s) (hn s) (ohn s) (modi s) (vs s) (cc s) (cl s) (a1 s) (a2 s) (xb s) (cb s) v (hist s) (srcl s) (fin s).
Definition set_hist (v : list cstr) (s : st) : st := St (es s) (un s) (swapped s) (hb s) (hl s) (ib s) (il s) (sil s) (fi s) (yb s) (yl s) (fcmd s) (fch s) (lcmd s) (lac s) (lsrch s) (spat s) (lpat s) (sl s) (ins s) (hn s) (ohn s) (modi s) (vs s) (cc s) (cl s) (a1 s) (a2 s) (xb s) (cb s) (xp s) v (srcl s) (fin s).
Definition set_srcl (v : Z) (s : st) : st := St (es s) (un s) (swapped s) (hb s) (hl s) (ib s) (il s) (sil s) (fi s) (yb s) (yl s) (fcmd s) (fch s) (lcmd s) (lac s) (lsrch s) (spat s) (lpat s) (sl s) (ins s) (hn s) (ohn s) (modi s) (vs s) (cc s) (cl s) (a1 s) (a2 s) (xb s) (cb s) (xp s) (hist s) v (fin s).
Definition set_fin (v : bool) (s : st) : st := St (es s) (un s) (swapped s) (hb s) (hl s) (ib s) (il s) (sil s) (fi s) (yb s) (yl s) (fcmd s) (fch s) (lcmd s) (lac s) (lsrch s) (spat s) (lpat s) (sl s) (ins s) (hn s) (ohn s) (modi s) (vs s) (cc s) (cl s) (a1 s) (a2 s) (xb s) (cb s) (xp s) (hist s) (srcl s) v.

(** What does not change while editing: edchars (-1 in C where there is none here), the options vi-show8,
    vi-tabcomplete and vi-esccomplete. *)
Record cfg := Cfg { erase : option char; kill : option char; werase : option char; show8 : bool; tabc : bool; escc : bool }.
Definition is_key (o : option char) (c : char) : bool := match o with Some d => ceq c d | None => false end.

(** ** classify, vi.c:96-129 *)
Definition low7 (c : char) : char := ascii_of_N (N.modulo (N_of_ascii c) 128).
Definition hi8 (c : char) : bool := (128 <=? ccode c)%Z.
Definition in_class (t : String.string) (more : cstr) (c : char) : bool := mem (low7 c) (more ++ L t).
Definition is_bad (c : char) : bool := ceq (low7 c) NUL.
Definition is_move (c : char) : bool := in_class " $%,0;BEFTW^befhltw|" [cH] c.
Definition is_extend (c : char) : bool := in_class "cdy" [] c.
Definition is_long (c : char) : bool := in_class "@FTfrt" [] c.
Definition is_srch (c : char) : bool := in_class "/?" [] c.
Definition is_nundo (c : char) : bool := in_class "GNYjknuvy" [cE; cL; cR] c.
Definition is_undoable (c : char) : bool := negb (is_nundo c).
Definition is_zerocount (c : char) : bool := in_class "G\_gv|" [cF; cI; ESC] c.
(** C_ *)
Definition is_c (c : char) : bool :=
  in_class "#*+-/=?@ACDGINPRSUXY\_agijknpsuvx~" [cE; cF; cI; cL; cN; cP; cR; cV; cX; ESC] c.
Definition is_cmd (c : char) : bool := is_move c || is_extend c || is_c c || is_nundo c.

(** letnum, vi.c:38: ctype(c, C_ALPHA | C_DIGIT) *)
Definition letnum (c : char) : bool := isalnum c || ceq c "_".
(** vi.c:1092 *)
Definition issp (c : char) : bool := isspace c || ceq c NL.

Section EDITOR.
Variable k : cfg.

(** isu8cont, vi.c:2262-2266 *)
Definition isu8cont (c : char) : bool := negb (show8 k) && (128 <=? ccode c) && (ccode c <? 192).
(** char_len, vi.c:2209-2221 *)
Definition char_len (c : char) : Z :=
  let hi := hi8 c && show8 k in
  let c' := if hi then low7 c else c in
  1 + (if hi then 2 else 0) + (if (ccode c' <? 32) || ceq c' DEL then 1 else 0).

(** while (isu8cont(b[--i])) continue; *)
Fixpoint back_loop (f : nat) (b : cstr) (i : Z) : res Z :=
  match f with
  | O => Oob
  | S f => let! c := rd b (i - 1) in if isu8cont c then back_loop f b (i - 1) else Ok (i - 1)
  end.
Definition back (b : cstr) (i : Z) : res Z := back_loop (S (Z.to_nat i)) b i.
(** while (i > 0) if (!isu8cont(b[--i])) break; *)
Fixpoint back0_loop (f : nat) (b : cstr) (i : Z) : res Z :=
  match f with
  | O => Oob
  | S f => if i <=? 0 then Ok i
           else let! c := rd b (i - 1) in if isu8cont c then back0_loop f b (i - 1) else Ok (i - 1)
  end.
Definition back0 (b : cstr) (i : Z) : res Z := back0_loop (S (Z.to_nat i)) b i.
(** while (isu8cont(b[++i])) continue; *)
Fixpoint fwd_loop (f : nat) (b : cstr) (i : Z) : res Z :=
  match f with
  | O => Oob
  | S f => let! c := rd b (i + 1) in if isu8cont c then fwd_loop f b (i + 1) else Ok (i + 1)
  end.
Definition fwd (b : cstr) (i : Z) : res Z := fwd_loop (S (length b)) b i.
(** while (i < n) if (!isu8cont(b[++i])) break; *)
Fixpoint fwd0_loop (f : nat) (b : cstr) (n i : Z) : res Z :=
  match f with
  | O => Oob
  | S f => if n <=? i then Ok i
           else let! c := rd b (i + 1) in if isu8cont c then fwd0_loop f b n (i + 1) else Ok (i + 1)
  end.
Definition fwd0 (b : cstr) (n i : Z) : res Z := fwd0_loop (S (Z.to_nat (n - i))) b n i.
(** while (i > 0 && isu8cont(b[i])) i--; vi.c:575-576 *)
Fixpoint tback_loop (f : nat) (b : cstr) (i : Z) : res Z :=
  match f with
  | O => Oob
  | S f => if 0 <? i then let! c := rd b i in if isu8cont c then tback_loop f b (i - 1) else Ok i else Ok i
  end.
Definition tback (b : cstr) (i : Z) : res Z := tback_loop (S (Z.to_nat i)) b i.

(** ** Buffer operations *)
(** putbuf, vi.c:1470-1489: [n] bytes of [src]; false is the result -1. *)
Definition putbuf (src : cstr) (n : Z) (repl : bool) (e : ed) : res (bool * ed) :=
  if n =? 0 then Ok (true, e)
  else if repl then
    if LINE <=? cur e + n then Ok (false, e)
    else
      let l := if len e <? cur e + n then cur e + n else len e in
      let! b := move (buf e) (cur e) src 0 n in
      Ok (true, Ed b l (cur e + n))
  else
    if LINE <=? len e + n then Ok (false, e)
    else
      let! b := move (buf e) (cur e + n) (buf e) (cur e) (len e - cur e) in
      let! b := move b (cur e) src 0 n in
      Ok (true, Ed b (len e + n) (cur e + n)).
(** del_range, vi.c:1492-1497 *)
Definition del_range (a b : Z) (e : ed) : res ed :=
  let! t := if len e =? b then Ok (buf e) else move (buf e) a (buf e) b (len e - b) in
  Ok (Ed t (len e - (b - a)) (cur e)).
Definition set_cur (i : Z) (e : ed) : ed := Ed (buf e) (len e) i.
(** yank_range, vi.c:1322-1327 *)
Definition yank_range (a b : Z) (s : st) : res st :=
  let! t := if b - a =? 0 then Ok (yb s) else move (yb s) 0 (buf (es s)) a (b - a) in
  Ok (set_yb t (set_yl (b - a) s)).
(** save_cbuf, restore_cbuf, vi.c:1374-1388 *)
Definition save_cbuf (s : st) : res st :=
  let! t := move (hb s) 0 (buf (es s)) 0 (len (es s)) in
  let! t := wr t (len (es s)) NUL in
  Ok (set_hb t (set_hl (len (es s)) s)).
Definition restore_cbuf (s : st) : res st :=
  let! t := move (buf (es s)) 0 (hb s) 0 (hl s) in
  Ok (set_es (Ed t (hl s) 0) s).
(** redo_insert, vi.c:1309-1319; false is the result -1 *)
Fixpoint redo_loop (n : nat) (s : st) : res (bool * st) :=
  match n with
  | O => Ok (true, s)
  | S n =>
      let! (ok, e) := putbuf (ib s) (il s) (is_repl (ins s)) (es s) in
      if ok then redo_loop n (set_es e s) else Ok (false, set_es e s)
  end.
Definition redo_insert (count : Z) (s : st) : res (bool * st) :=
  let! (ok, s) := redo_loop (Z.to_nat count) s in
  if ok then
    let! i := if 0 <? cur (es s) then back (buf (es s)) (cur (es s)) else Ok (cur (es s)) in
    Ok (true, set_ins COMMAND (set_es (set_cur i (es s)) s))
  else Ok (false, s).

(** ** Words: vi.c:1529-1672 *)
(** The inner loop of forwword, vi.c:1541-1554, from [n] one before the first byte looked at. *)
Fixpoint forw_in (f : nat) (b : cstr) (l n : Z) (skip : bool) (want : option bool) : res Z :=
  match f with
  | O => Oob
  | S f =>
      if l <=? n + 1 then Ok (n + 1)
      else
        let! c := rd b (n + 1) in
        if isspace c then forw_in f b l (n + 1) true want
        else if skip then Ok (n + 1)
        else if hi8 c then forw_in f b l (n + 1) skip want
        else match want with
             | None => forw_in f b l (n + 1) skip (Some (letnum c))
             | Some w => if Bool.eqb w (letnum c) then forw_in f b l (n + 1) skip want else Ok (n + 1)
             end
  end.
Fixpoint forw_out (f : nat) (b : cstr) (l n a : Z) : res Z :=
  match f with
  | O => Oob
  | S f =>
      if (l <=? n) || (a =? 0) then Ok n
      else let! n := forw_in (S (S (Z.to_nat l))) b l (n - 1) false None in forw_out f b l n (a - 1)
  end.
Definition forwword (e : ed) (a : Z) : res Z := forw_out (S (Z.to_nat (len e))) (buf e) (len e) (cur e) a.

(** The inner loop of backword, vi.c:1571-1584, [n] before the test of the loop; the result is after ncursor++. *)
Fixpoint backw_in (f : nat) (b : cstr) (n : Z) (skip : bool) (want : option bool) : res Z :=
  match f with
  | O => Oob
  | S f =>
      if n <=? 0 then Ok n
      else
        let! c := rd b (n - 1) in
        if isspace c then if skip then backw_in f b (n - 1) skip want else Ok n
        else if hi8 c then backw_in f b (n - 1) false want
        else match want with
             | None => backw_in f b (n - 1) false (Some (letnum c))
             | Some w => if Bool.eqb w (letnum c) then backw_in f b (n - 1) false want else Ok n
             end
  end.
Fixpoint backw_out (f : nat) (b : cstr) (n a : Z) : res Z :=
  match f with
  | O => Oob
  | S f =>
      if (n <=? 0) || (a =? 0) then Ok n
      else let! n := backw_in (S (Z.to_nat n)) b n true None in backw_out f b n (a - 1)
  end.
Definition backword (b : cstr) (c a : Z) : res Z := backw_out (S (Z.to_nat c)) b c a.

(** endword, vi.c:1591-1619 *)
Fixpoint endw_in (f : nat) (b : cstr) (l n : Z) (skip : bool) (want : option bool) : res Z :=
  match f with
  | O => Oob
  | S f =>
      if l <=? n + 1 then Ok (n + 1)
      else
        let! c := rd b (n + 1) in
        if isspace c then if skip then endw_in f b l (n + 1) skip want else Ok (n + 1)
        else if hi8 c then endw_in f b l (n + 1) false want
        else match want with
             | None => endw_in f b l (n + 1) false (Some (letnum c))
             | Some w => if Bool.eqb w (letnum c) then endw_in f b l (n + 1) false want else Ok (n + 1)
             end
  end.
Fixpoint endw_out (f : nat) (b : cstr) (l n a : Z) : res Z :=
  match f with
  | O => Oob
  | S f =>
      if (l <=? n) || (a =? 0) then Ok n
      else let! n := endw_in (S (S (Z.to_nat l))) b l n true None in endw_out f b l n (a - 1)
  end.
Definition endword (e : ed) (a : Z) : res Z := endw_out (S (Z.to_nat (len e))) (buf e) (len e) (cur e) a.

(** Moving up over bytes (not) of a kind: the byte is read before the test for the end of the line in Forwword
    (vi.c:1629-1634), after it in Endword. *)
Fixpoint up (f : nat) (p : char -> bool) (b : cstr) (l n : Z) : res Z :=
  match f with
  | O => Oob
  | S f => let! c := rd b n in if p c && (n <? l) then up f p b l (n + 1) else Ok n
  end.
Definition nonsp (c : char) : bool := negb (isspace c).
Fixpoint Forw_out (f : nat) (b : cstr) (l n a : Z) : res Z :=
  match f with
  | O => Oob
  | S f =>
      if (l <=? n) || (a =? 0) then Ok n
      else
        let! n := up (S (S (Z.to_nat l))) nonsp b l n in
        let! n := up (S (S (Z.to_nat l))) isspace b l n in
        Forw_out f b l n (a - 1)
  end.
Definition Forwword (e : ed) (a : Z) : res Z := Forw_out (S (Z.to_nat (len e))) (buf e) (len e) (cur e) a.
Fixpoint upl (f : nat) (p : char -> bool) (b : cstr) (l n : Z) : res Z :=
  match f with
  | O => Oob
  | S f => if l <=? n then Ok n else let! c := rd b n in if p c then upl f p b l (n + 1) else Ok n
  end.
Fixpoint Endw_out (f : nat) (b : cstr) (l n a : Z) : res Z :=
  match f with
  | O => Oob
  | S f =>
      if (l <=? n) || (a =? 0) then Ok n
      else
        let! n := upl (S (Z.to_nat l)) isspace b l (n + 1) in
        let! n := upl (S (Z.to_nat l)) nonsp b l n in
        Endw_out f b l n (a - 1)
  end.
Definition Endword (e : ed) (a : Z) : res Z := Endw_out (S (Z.to_nat (len e))) (buf e) (len e) (cur e) a.
(** Backword, vi.c:1641-1656: while (n >= 0 && p(b[n])) n--; *)
Fixpoint downl (f : nat) (p : char -> bool) (b : cstr) (n : Z) : res Z :=
  match f with
  | O => Oob
  | S f => if n <? 0 then Ok n else let! c := rd b n in if p c then downl f p b (n - 1) else Ok n
  end.
Fixpoint Backw_out (f : nat) (b : cstr) (n a : Z) : res Z :=
  match f with
  | O => Oob
  | S f =>
      if (n <=? 0) || (a =? 0) then Ok n
      else
        let! m := downl (S (Z.to_nat n)) isspace b (n - 1) in
        let! m := downl (S (Z.to_nat n)) nonsp b m in
        Backw_out f b (m + 1) (a - 1)
  end.
Definition Backword (e : ed) (a : Z) : res Z := Backw_out (S (Z.to_nat (cur e))) (buf e) (cur e) a.

(** findch, vi.c:1500-1524; [None] is -1. *)
Fixpoint find_in (f : nat) (b : cstr) (l n : Z) (ch : char) (forw : bool) : res (option Z) :=
  match f with
  | O => Oob
  | S f =>
      let n := if forw then n + 1 else n - 1 in
      if (if forw then n =? l else n <? 0) then Ok None
      else let! c := rd b n in if ceq c ch then Ok (Some n) else find_in f b l n ch forw
  end.
Fixpoint find_out (f : nat) (b : cstr) (l n cnt : Z) (ch : char) (forw : bool) : res (option Z) :=
  match f with
  | O => Oob
  | S f =>
      if cnt =? 0 then Ok (Some n)
      else
        let! r := find_in (S (S (Z.to_nat l))) b l n ch forw in
        match r with None => Ok None | Some n => find_out f b l n (cnt - 1) ch forw end
  end.
Definition findch (e : ed) (ch : char) (cnt : Z) (forw incl : bool) : res (option Z) :=
  if len e =? 0 then Ok None
  else
    let! r := find_out (S (S (Z.to_nat (len e)))) (buf e) (len e) (cur e) cnt ch forw in
    Ok (match r with
        | None => None
        | Some n => Some (if incl then n else if forw then n - 1 else n + 1)
        end).

(** bracktype, vi.c:1329-1357 *)
Definition bracktype (c : char) : Z :=
  if ceq c "(" then 1 else if ceq c "[" then 2 else if ceq c "{" then 3
  else if ceq c ")" then -1 else if ceq c "]" then -2 else if ceq c "}" then -3 else 0.
(** The first loop of %, vi.c:1273-1277 *)
Fixpoint brk_find (f : nat) (b : cstr) (l n : Z) : res (option (Z * Z)) :=
  match f with
  | O => Oob
  | S f => if l <=? n then Ok None
           else let! c := rd b n in if bracktype c =? 0 then brk_find f b l (n + 1) else Ok (Some (n, bracktype c))
  end.
(** The second, vi.c:1280-1293 *)
Fixpoint brk_match (f : nat) (b : cstr) (l n i cnt : Z) : res (option Z) :=
  match f with
  | O => Oob
  | S f =>
      let n := if 0 <? i then n + 1 else n - 1 in
      if (if 0 <? i then l <=? n else n <? 0) then Ok None
      else
        let! c := rd b n in
        let t := bracktype c in
        let cnt := if t =? i then cnt + 1 else if t =? - i then cnt - 1 else cnt in
        if cnt =? 0 then Ok (Some n) else brk_match f b l n i cnt
  end.

(** for (n = cur; n > 0; n--) if (!isu8cont(b[n])) if (a-- == 0) break;  vi.c:1221-1224, 1056-1059 *)
Fixpoint left_loop (f : nat) (b : cstr) (n a : Z) : res Z :=
  match f with
  | O => Oob
  | S f =>
      if n <=? 0 then Ok n
      else let! c := rd b n in
           if isu8cont c then left_loop f b (n - 1) a
           else if a =? 0 then Ok n else left_loop f b (n - 1) (a - 1)
  end.
(** for (n = cur; n < l; n++) if (!isu8cont(b[n])) if (a-- == 0) break;  vi.c:1013-1016, 1041-1044; with
    [first] the test of isu8cont is not made for the first byte, vi.c:1231-1235 *)
Fixpoint right_loop (f : nat) (b : cstr) (l n a : Z) (first : bool) : res Z :=
  match f with
  | O => Oob
  | S f =>
      if l <=? n then Ok n
      else
        let! u := if first then Ok false else let! c := rd b n in Ok (isu8cont c) in
        if u then right_loop f b l (n + 1) a false
        else if a =? 0 then Ok n else right_loop f b l (n + 1) (a - 1) false
  end.
(** while (n < l - 1 && isspace(b[n])) n++;  vi.c:1250-1252 *)
Fixpoint blank_loop (f : nat) (b : cstr) (l n : Z) : res Z :=
  match f with
  | O => Oob
  | S f => if l - 1 <=? n then Ok n else let! c := rd b n in if isspace c then blank_loop f b l (n + 1) else Ok n
  end.
Definition caret (e : ed) : res Z := blank_loop (S (Z.to_nat (len e))) (buf e) (len e) 0.
(** while (isu8cont(b[n])) n--;  vi.c:1260-1261 *)
Fixpoint bar_loop (f : nat) (b : cstr) (n : Z) : res Z :=
  match f with
  | O => Oob
  | S f => let! c := rd b n in if isu8cont c then bar_loop f b (n - 1) else Ok n
  end.

(** domove, vi.c:1177-1306; [None] is -1.  [c0], [c1] are cmd[0], cmd[1]. *)
Definition domove (a : Z) (c0 c1 : char) (sub : bool) (s : st) : res (option Z * st) :=
  let e := es s in
  let n0 := S (Z.to_nat (len e)) in
  let some r := let! n := r in Ok (Some n, s) in
  if ceq c0 "b" || ceq c0 "B" then
    if negb sub && (cur e =? 0) then Ok (None, s)
    else some (if ceq c0 "b" then backword (buf e) (cur e) a else Backword e a)
  else if ceq c0 "e" || ceq c0 "E" then
    if negb sub && (len e <=? cur e + 1) then Ok (None, s)
    else
      some (let! n := if ceq c0 "e" then endword e a else Endword e a in
            if sub then Ok n else back (buf e) n)
  else if mem c0 (L "fFtT,;") then
    let s := if mem c0 (L "fFtT") then set_fcmd c0 (set_fch c1 s) else s in
    if ceq (fcmd s) " " then Ok (None, s)
    else
      let incl := ceq (fcmd s) "f" || ceq (fcmd s) "F" in
      let t := 97 <? ccode (fcmd s) in
      let t := if ceq c0 "," then negb t else t in
      let! r := findch e (fch s) a t incl in
      Ok (match r with None => None | Some n => Some (if sub && t then n + 1 else n) end, s)
  else if ceq c0 "h" || ceq c0 cH then
    if negb sub && (cur e =? 0) then Ok (None, s)
    else some (left_loop (S (Z.to_nat (cur e))) (buf e) (cur e) a)
  else if ceq c0 " " || ceq c0 "l" then
    if negb sub && (len e <=? cur e + 1) then Ok (None, s)
    else some (right_loop n0 (buf e) (len e) (cur e) a true)
  else if ceq c0 "w" || ceq c0 "W" then
    if negb sub && (len e <=? cur e + 1) then Ok (None, s)
    else some (if ceq c0 "w" then forwword e a else Forwword e a)
  else if ceq c0 "0" then Ok (Some 0, s)
  else if ceq c0 "^" then some (caret e)
  else if ceq c0 "|" then
    let n := if len e <? a then len e else a in
    let n := if n =? 0 then n else n - 1 in
    some (bar_loop (S (S (Z.to_nat n))) (buf e) n)
  else if ceq c0 "$" then Ok (Some (len e), s)
  else if ceq c0 "%" then
    let! r := brk_find n0 (buf e) (len e) (cur e) in
    match r with
    | None => Ok (None, s)
    | Some (n, i) =>
        let! r := brk_match (S n0) (buf e) (len e) n i 1 in
        Ok (match r with None => None | Some n => Some (if sub && (0 <? i) then n + 1 else n) end, s)
    end
  else Ok (None, s).

(** ** History *)
Definition hlast (s : st) : Z := Z.of_nat (length (hist s)).
(** A line of the history in the edit buffer, vi.c:1694-1699, 1729-1733 *)
Definition load (h : cstr) (s : st) : res st :=
  let l := if LINE <=? Z.of_nat (length h) then LINE - 1 else Z.of_nat (length h) in
  let! b := move (buf (es s)) 0 h 0 l in
  Ok (set_es (Ed b l 0) s).
(** grabhist, vi.c:1676-1700; false is -1.  The line is there for 0 <= n < hlast. *)
Definition grabhist (save : bool) (n : Z) (s : st) : res (bool * st) :=
  if (n <? 0) || (hlast s <? n) then Ok (false, s)
  else if n =? hlast s then let! s := restore_cbuf s in Ok (true, set_ohn n s)
  else
    let! s := if save then save_cbuf s else Ok s in
    let! s := load (nth (Z.to_nat n) (hist s) []) s in
    Ok (true, set_ohn n s).
(** strncmp(h, pat, strlen(pat)) == 0, strstr(h, pat) *)
Fixpoint prefix (p h : cstr) : bool :=
  match p, h with
  | [], _ => true
  | a :: p, b :: h => ceq a b && prefix p h
  | _, _ => false
  end.
Fixpoint within (p h : cstr) : bool := prefix p h || match h with [] => false | _ :: h => within p h end.
(** findhist, history.c:496-514; [None] is -1 *)
Fixpoint find_loop (f : nat) (h : list cstr) (n : Z) (forw anch : bool) (p : cstr) : option Z :=
  match f with
  | O => None
  | S f =>
      if (n <? 0) || (Z.of_nat (length h) <=? n) then None
      else
        let t := nth (Z.to_nat n) h [] in
        if if anch then prefix p t else within p t then Some n
        else find_loop f h (if forw then n + 1 else n - 1) forw anch p
  end.
Definition findhist (h : list cstr) (start : Z) (forw anch : bool) (p : cstr) : option Z :=
  let m := Z.of_nat (length h) - 1 in
  find_loop (S (length h)) h (if (start <? 0) || (m <=? start) then m else start) forw anch p.
(** The string that a buffer holds; strcmp(a, b) >= 0 *)
Fixpoint zstr (b : cstr) : cstr := match b with [] => [] | c :: b => if is_nul c then [] else c :: zstr b end.
Fixpoint strge (a b : cstr) : bool :=
  match a, b with
  | _, [] => true
  | [], _ :: _ => false
  | x :: a, y :: b => if ceq x y then strge a b else ccode y <? ccode x
  end.
(** grabsearch, vi.c:1703-1735; [None] is -1 *)
Definition grabsearch (save : bool) (start : Z) (forw : bool) (p : cstr) (s : st) : res (option Z * st) :=
  if ((start =? 0) && negb forw) || ((hlast s - 1 <=? start) && forw) then Ok (None, s)
  else
    let start := if forw then start + 1 else start - 1 in
    let (anch, p) := match p with c :: p' => if ceq c "^" then (true, p') else (false, p) | [] => (false, p) end in
    match findhist (hist s) start forw anch p with
    | None =>
        if negb (start =? 0) && forw && strge (zstr (hb s)) p then
          let! s := restore_cbuf s in Ok (Some 0, s)
        else Ok (None, s)
    | Some h =>
        let! s := if save then save_cbuf s else Ok s in
        let! s := load (nth (Z.to_nat h) (hist s) []) s in
        Ok (Some h, s)
    end.

(** x_do_comment, edit.c:247-286: [None] is -1, otherwise the result and the new text. *)
Fixpoint uncomment (nl : bool) (t : cstr) : cstr :=
  match t with
  | [] => []
  | c :: t => if nl && ceq c "#" then uncomment (ceq c NL) t else c :: uncomment (ceq c NL) t
  end.
Fixpoint comment (t : cstr) : cstr :=
  match t with [] => [] | c :: t => if ceq c NL then c :: "#"%char :: comment t else c :: comment t end.
Definition do_comment (e : ed) : res (Z * ed) :=
  if len e =? 0 then Ok (1, e)
  else
    let t := firstn (Z.to_nat (len e)) (buf e) in
    let! c := rd (buf e) 0 in
    if ceq c "#" then
      let t := uncomment false (skipn 1 t) in
      let! b := move (buf e) 0 t 0 (Z.of_nat (length t)) in
      Ok (0, Ed b (Z.of_nat (length t)) (cur e))
    else
      let t := "#"%char :: comment t in
      if LINE <=? Z.of_nat (length t) then Ok (-1, e)
      else
        let! b := move (buf e) 0 t 0 (Z.of_nat (length t)) in
        Ok (1, Ed b (Z.of_nat (length t)) (cur e)).

(** ** Expansion and completion *)
(** What x_cf_glob and x_escape give for the word: where it starts and ends, the pieces of text put in its place
    (each by one call of putbuf), and whether there is one match only. *)
Record xans := Xans { xstart : Z; xend : Z; pieces : list cstr; unique : bool }.
Fixpoint put_pieces (ps : list cstr) (e : ed) : res (bool * ed) :=
  match ps with
  | [] => Ok (true, e)
  | p :: ps =>
      let! (ok, e) := putbuf p (Z.of_nat (length p)) false e in
      if ok then put_pieces ps e else Ok (false, e)
  end.
Definition touch (s : st) : st := set_modi true (set_hn (hlast s) s).
(** restore_edstate, vi.c:1408-1416 *)
Definition restore_ed (o : ed) (s : st) : res st :=
  let! b := move (buf (es s)) 0 (buf o) 0 (len o) in Ok (set_es (Ed b (len o) (cur o)) s).
(** expand_word, vi.c:2024-2076 *)
Definition expand_word (command : bool) (x : option xans) (s : st) : res st :=
  match negb command, xp s, xb s with
  | true, XEXPAND, Some o => let! s := restore_ed o s in Ok (set_xb None (set_xp XNONE s))
  | _, _, _ =>
      let s := set_xb None s in
      match x with
      | None => Ok s
      | Some x =>
          let e := es s in
          let! t := move (buf e) 0 (buf e) 0 (len e) in
          let! e1 := del_range (xstart x) (xend x) e in
          let! (ok, e1) := put_pieces (pieces x) (set_cur (xstart x) e1) in
          let i := cur e - xend x in
          let e1 := if ok && (0 <? i) then set_cur (cur e1 + i) e1 else e1 in
          Ok (set_lac 0 (set_ins INSERT (touch (set_es e1 (set_xp XEXPAND (set_xb (Some e) s))))))
      end
  end.
(** complete_word, vi.c:2078-2181; a count that is too large is an answer without words.  [menu]: with a count the
    mode is not changed before the text is put in. *)
Definition complete_word (command menu : bool) (x : option xans) (s : st) : res st :=
  match negb command, xp s, cb s with
  | true, XCOMPLETE, Some o => Ok (set_xp XPRINT s)
  | true, XPRINT, Some o => let! s := restore_ed o s in Ok (set_cb None (set_xp XNONE s))
  | _, _, _ =>
      let s := set_cb None s in
      match x with
      | None => Ok s
      | Some x =>
          let e := es s in
          let! t := move (buf e) 0 (buf e) 0 (len e) in
          let! e1 := del_range (xstart x) (xend x) e in
          let! (ok, e1) := put_pieces (pieces x) (set_cur (xstart x) e1) in
          let m := if ok && (menu || unique x) then XNONE else if menu then xp s else XCOMPLETE in
          Ok (set_lac 0 (set_ins INSERT (touch (set_es e1 (set_xp m (set_cb (Some e) s))))))
      end
  end.

(** ** Insert mode *)
Definition less_il (d : Z) (s : st) : st := set_il (if il s <? d then 0 else il s - d) s.
(** vi_insert, vi.c:554-691; the number is the result. *)
Definition ins_erase (s : st) : res (Z * st) :=
  let e := es s in
  if if is_repl (ins s) then cur e =? cur (un s) else cur e =? 0 then Ok (0, s)
  else
    let! t := tback (buf e) (cur e - 1) in
    let! b := if is_insm (ins s) then move (buf e) t (buf e) (cur e) (len e - cur e) else Ok (buf e) in
    let! (b, l) :=
      if is_repl (ins s) && (cur e <? len (un s)) then
        let! b := move b t (buf (un s)) t (cur e - t) in Ok (b, len e)
      else Ok (b, len e - (cur e - t)) in
    Ok (0, set_xp XNONE (set_es (Ed b l t) (less_il (cur e - t) s))).
Definition ins_kill (s : st) : res (Z * st) :=
  let e := es s in
  if cur e =? 0 then Ok (0, set_xp XNONE s)
  else
    let! b := move (buf e) 0 (buf e) (cur e) (len e - cur e) in
    Ok (0, set_xp XNONE (set_es (Ed b (len e - cur e) 0) (set_il 0 s))).
Definition ins_werase (s : st) : res (Z * st) :=
  let e := es s in
  if cur e =? 0 then Ok (0, set_xp XNONE s)
  else
    let! t := backword (buf e) (cur e) 1 in
    let! b := move (buf e) t (buf e) (cur e) (len e - cur e) in
    Ok (0, set_xp XNONE (set_es (Ed b (len e - (cur e - t)) t) (less_il (cur e - t) s))).
Definition ins_char (c : char) (s : st) : res (Z * st) :=
  let e := es s in
  if LINE - 1 <=? len e then Ok (-1, s)
  else
    let! t := wr (ib s) (il s) c in
    let s := set_ib t (set_il (il s + 1) s) in
    let! b := if is_insm (ins s) then move (buf e) (cur e + 1) (buf e) (cur e) (len e - cur e) else Ok (buf e) in
    let l := if is_insm (ins s) then len e + 1 else len e in
    let! b := wr b (cur e) c in
    let l := if is_repl (ins s) && (l <? cur e + 1) then l + 1 else l in
    Ok (0, set_xp XNONE (set_es (Ed b l (cur e + 1)) s)).
Definition sc_cmd (c : char) : bool := ceq c "s" || ceq c "c" || ceq c "C".
Definition cmd0 (cmd : cstr) : char := nth 0 cmd NUL.
Definition cmd1 (cmd : cstr) : char := nth 1 cmd NUL.
Definition cmd2 (cmd : cstr) : char := nth 2 cmd NUL.
Definition code_of (r : res (bool * st)) : res (Z * st) :=
  let! (ok, s) := r in Ok (if ok then 0 else -1, s).
Definition ins_esc (s : st) : res (Z * st) :=
  let s := set_xp XNONE s in
  let go s :=
    if sc_cmd (cmd0 (lcmd s)) then code_of (redo_insert 0 s)
    else let! n := int (lac s - 1) in code_of (redo_insert n s) in
  if fi s then
    let s := set_fi false s in
    if il s =? 0 then code_of (redo_insert 0 (set_il (sil s) s))
    else go (set_lac 1 (set_lcmd ("a"%char :: skipn 1 (lcmd s)) s))
  else go s.
Definition vi_insert (c : char) (x : option xans) (s : st) : res (Z * st) :=
  if is_key (erase k) c || ceq c cH then ins_erase s
  else if is_key (kill k) c then ins_kill s
  else if is_key (werase k) c then ins_werase s
  else
    let s := if fi s && negb (ceq c ESC) then set_sil 0 s else s in
    if is_nul c then Ok (-1, s)
    else if ceq c CR || ceq c NL then Ok (1, s)
    else if ceq c ESC then ins_esc s
    else if ceq c cX then let! s := expand_word false x s in Ok (0, s)
    else if ceq c cF || (ceq c cI && tabc k) then let! s := complete_word false false x s in Ok (0, s)
    else if ceq c cE || ceq c cL || ceq c cR then Ok (0, s)
    else ins_char c s.

(** ** Commands *)
(** The result of a command: [None] where vi_cmd goes on to its end, otherwise what it returns. *)
Definition cres := res (option Z * st).
Definition brk (s : st) : cres := Ok (None, s).
Definition ret (z : Z) (s : st) : cres := Ok (Some z, s).
Definition upd (f : ed -> res ed) (s : st) : res st := let! e := f (es s) in Ok (set_es e s).
Definition setcur (i : Z) (s : st) : st := set_es (set_cur i (es s)) s.

(** while (isspace(b[--n])) ; n++;  vi.c:833-836 *)
Fixpoint trail_loop (f : nat) (b : cstr) (n : Z) : res Z :=
  match f with
  | O => Oob
  | S f => let! c := rd b (n - 1) in if isspace c then trail_loop f b (n - 1) else Ok n
  end.
(** c, d, y, Y: vi.c:814-862 *)
Definition cdy_end (c0 : char) (c1 c2 : Z) (s : st) : cres :=
  let! s := if negb (ceq c0 "c") && negb (c1 =? c2) then yank_range c1 c2 s else Ok s in
  let! s := if ceq c0 "y" then Ok s
            else let! e := del_range c1 c2 (es s) in Ok (set_es (set_cur c1 e) s) in
  brk (if ceq c0 "c" then set_ins INSERT (touch s) else s).
Definition cmd_cdy (a : Z) (c0 c1 c2 : char) (s : st) : cres :=
  if ceq c0 c1 then
    let! p := if ceq c0 "c" then caret (es s) else Ok 0 in
    cdy_end c0 p (len (es s)) s
  else if negb (is_move c1) then ret (-1) s
  else
    let! (r, s) := domove a c1 c2 true s in
    match r with
    | None => ret (-1) s
    | Some n =>
        let e := es s in
        let! n :=
          if ceq c0 "c" && (ceq c1 "w" || ceq c1 "W") then
            let! c := rd (buf e) (cur e) in
            if isspace c then Ok n else trail_loop (S (S (Z.to_nat n))) (buf e) n
          else Ok n in
        if cur e <? n then cdy_end c0 (cur e) n s
        else cdy_end c0 n (if ceq c1 "%" then cur e + 1 else cur e) s
    end.
(** while (putbuf(ybuf, yanklen, 0) == 0 && --argcnt > 0) ;  the count left over *)
Fixpoint put_loop (f : nat) (a : Z) (s : st) : res (Z * st) :=
  match f with
  | O => Oob
  | S f =>
      let! (ok, e) := putbuf (yb s) (yl s) false (es s) in
      if ok then if 0 <? a - 1 then put_loop f (a - 1) (set_es e s) else Ok (a - 1, set_es e s)
      else Ok (a, set_es e s)
  end.
Definition put_end (a : Z) (s : st) : cres :=
  let! (a, s) := put_loop (S (Z.to_nat a)) a s in
  let! i := back0 (buf (es s)) (cur (es s)) in
  let s := setcur i s in
  if a =? 0 then brk s else ret (-1) s.
(** p, vi.c:864-876 *)
Definition cmd_p (a : Z) (s : st) : cres :=
  let s := touch s in
  let! i := fwd0 (buf (es s)) (len (es s)) (cur (es s)) in
  put_end a (setcur i s).
Definition cmd_grab (n : Z) (s : st) : cres :=
  let! (ok, s) := grabhist (modi s) n s in
  if ok then brk (set_modi false (set_hn n s)) else ret (-1) s.
(** g, G: vi.c:902-918 *)
Definition cmd_G (a : Z) (s : st) : cres :=
  let! a := if a =? 0 then Ok 1
            else let! d := int (srcl s - a) in int (hlast s - d) in
  let! n := int (a - 1) in cmd_grab n s.
(** r, vi.c:957-986: the loop counts the characters *)
Fixpoint r_loop (f : nat) (b : cstr) (l n c a : Z) : res (Z * Z) :=
  match f with
  | O => Oob
  | S f =>
      if l <=? n then Ok (n, c)
      else let! ch := rd b n in
           let c := if isu8cont ch then c else c + 1 in
           if a <? c then Ok (n, c) else r_loop f b l (n + 1) c a
  end.
Fixpoint put_n (n : nat) (t : cstr) (e : ed) : res ed :=
  match n with O => Ok e | S n => let! (ok, e) := putbuf t 1 false e in put_n n t e end.
Definition cmd_r (a : Z) (c1 : char) (s : st) : cres :=
  if len (es s) =? 0 then ret (-1) s
  else
    let s := touch s in
    if is_nul c1 then brk s
    else
      let e := es s in
      let! (n, c) := r_loop (S (Z.to_nat (len e))) (buf e) (len e) (cur e) 0 a in
      if c <? a then ret (-1) s
      else
        let! e := del_range (cur e) n e in
        let! e := put_n (Z.to_nat a) [c1] e in
        let! i := back0 (buf e) (cur e) in
        let! b := wr (buf e) (len e) NUL in
        brk (set_es (Ed b (len e) i) s).
(** s, x, X: vi.c:993-1003, 1036-1063 *)
Definition cmd_s (a : Z) (s : st) : cres :=
  if len (es s) =? 0 then ret (-1) s
  else
    let s := touch s in
    let e := es s in
    let! n := right_loop (S (Z.to_nat (len e))) (buf e) (len e) (cur e) a false in
    let! s := upd (del_range (cur e) n) s in
    brk (set_ins INSERT s).
Definition cmd_x (a : Z) (s : st) : cres :=
  if len (es s) =? 0 then ret (-1) s
  else
    let s := touch s in
    let e := es s in
    let! n := right_loop (S (Z.to_nat (len e))) (buf e) (len e) (cur e) a false in
    let! s := yank_range (cur e) n s in
    let! s := upd (del_range (cur e) n) s in
    brk s.
Definition cmd_X (a : Z) (s : st) : cres :=
  if cur (es s) =? 0 then ret (-1) s
  else
    let s := touch s in
    let e := es s in
    let! n := left_loop (S (Z.to_nat (cur e))) (buf e) (cur e) a in
    let! s := yank_range n (cur e) s in
    let! s := upd (del_range n (cur e)) s in
    brk (setcur n s).
(** v, vi.c:1005-1025: the line becomes a call of fc.  The history entry made is not modelled. *)
Definition cmd_v (a : Z) (s : st) : cres :=
  if (len (es s) =? 0) && (a =? 0) then ret (-1) s
  else
    let! (a, s) :=
      if a =? 0 then
        if modi s then let! b := wr (buf (es s)) (len (es s)) NUL in Ok (0, set_es (Ed b (len (es s)) (cur (es s))) s)
        else let! n := int (srcl s + 1 - (hlast s - hn s)) in Ok (n, s)
      else Ok (a, s) in
    let t := L "fc -e ${VISUAL:-${EDITOR:-vi}} --" ++
             (if a =? 0 then [] else SP :: L (NilZero.string_of_int (Z.to_int a))) in
    let t := firstn (Z.to_nat (LINE - 1)) t in
    let! b := move (buf (es s)) 0 (t ++ [NUL]) 0 (Z.of_nat (length t) + 1) in
    ret 2 (set_es (Ed b (Z.of_nat (length t)) (cur (es s))) s).
(** /, ?, n, N: vi.c:1078-1115 *)
Definition cmd_search (c0 : char) (s : st) : cres :=
  let s := if ceq c0 "?" && (hn s =? hlast s) then set_hn (-1) s else s in
  let c3 := ceq c0 "?" || ceq c0 "/" in
  let s := if c3 then set_sl 0 (set_lsrch c0 s) else s in
  if ceq (lsrch s) " " then ret (-1) s
  else
    let forw := ceq (lsrch s) "?" in
    let forw := if ceq c0 "N" then negb forw else forw in
    let! (r, s) := grabsearch (modi s) (hn s) forw (spat s) s in
    match r with
    | None => let! s := if c3 then restore_cbuf s else Ok s in ret (-1) s
    | Some h => brk (set_ohn h (set_hn h (set_modi false s)))
    end.
(** _, vi.c:1116-1171: the word of the last line of the history *)
Fixpoint drop_while (p : char -> bool) (t : cstr) : cstr :=
  match t with [] => [] | c :: t' => if p c then drop_while p t' else t end.
Fixpoint take_while (p : char -> bool) (t : cstr) : cstr :=
  match t with [] => [] | c :: t' => if p c then c :: take_while p t' else [] end.
Definition notsp (c : char) : bool := negb (issp c).
Fixpoint nth_word (f : nat) (a : Z) (p : cstr) : cstr :=
  match f with
  | O => []
  | S f => match p with
           | [] => []
           | _ => if a - 1 =? 0 then p else nth_word f (a - 1) (drop_while issp (drop_while notsp p))
           end
  end.
Fixpoint last_word (p sp : cstr) (insp : bool) : cstr :=
  match p with
  | [] => sp
  | c :: p' => if issp c then last_word p' sp true else if insp then last_word p' p false else last_word p' sp false
  end.
Definition cmd_under (a : Z) (s : st) : cres :=
  match hist s with
  | [] => ret (-1) s
  | _ =>
      let p := last (hist s) [] in
      let sp := if a =? 0 then Some (last_word p p false)
                else match nth_word (S (length p)) a (drop_while issp p) with [] => None | w => Some w end in
      match sp with
      | None => ret (-1) s
      | Some sp =>
          let s := touch s in
          let e := es s in
          let e := if cur e =? len e then e else set_cur (cur e + 1) e in
          let! (ok, e) := putbuf [SP] 1 false e in
          let! (ok, e) := if ok then putbuf sp (Z.of_nat (length (take_while notsp sp))) false e else Ok (false, e) in
          if ok then brk (set_ins INSERT (set_es e s))
          else ret (-1) (set_es (if cur e =? 0 then e else set_cur (cur e - 1) e) s)
      end
  end.
(** ~, vi.c:1173-1196 *)
Fixpoint tilde_loop (n : nat) (s : st) : res st :=
  match n with
  | O => Ok s
  | S n =>
      let e := es s in
      let! c := rd (buf e) (cur e) in
      let! (b, s) :=
        if islower c then let! b := wr (buf e) (cur e) (toupper c) in Ok (b, touch s)
        else if isupper c then let! b := wr (buf e) (cur e) (tolower c) in Ok (b, touch s)
        else Ok (buf e, s) in
      tilde_loop n (set_es (Ed b (len e) (if cur e <? len e - 1 then cur e + 1 else cur e)) s)
  end.
Definition cmd_tilde (a : Z) (s : st) : cres :=
  if len (es s) =? 0 then ret (-1) s else let! s := tilde_loop (Z.to_nat a) s in brk s.

(** The switch of vi_cmd, vi.c:723-1165.  [@]: a macro is taken in or not; either way only the keys that follow
    are different. *)
Definition command (a : Z) (cmd : cstr) (x : option xans) (s : st) : cres :=
  let c0 := cmd0 cmd in
  let e := es s in
  if ceq c0 cL || ceq c0 cR || ceq c0 "@" || ceq c0 "=" || ceq c0 cE then brk s
  else if ceq c0 "a" then
    let s := touch s in
    let! i := if len e =? 0 then Ok (cur e) else fwd (buf e) (cur e) in
    brk (set_ins INSERT (setcur i s))
  else if ceq c0 "A" then
    let! s := upd (del_range 0 0) (touch s) in
    brk (set_ins INSERT (setcur (len (es s)) s))
  else if ceq c0 "S" then
    let! i := caret e in
    let! s := upd (del_range i (len e)) (setcur i s) in
    brk (set_ins INSERT (touch s))
  else if ceq c0 "Y" then cmd_cdy a "y" "$" NUL s
  else if ceq c0 "c" || ceq c0 "d" || ceq c0 "y" then cmd_cdy a c0 (cmd1 cmd) (cmd2 cmd) s
  else if ceq c0 "p" then cmd_p a s
  else if ceq c0 "P" then put_end a (touch s)
  else if ceq c0 "C" then
    let! s := upd (del_range (cur e) (len e)) (touch s) in brk (set_ins INSERT s)
  else if ceq c0 "D" then
    let! s := yank_range (cur e) (len e) s in
    let! s := upd (del_range (cur e) (len e)) s in brk s
  else if ceq c0 "g" then cmd_G (if a =? 0 then hlast s else a) s
  else if ceq c0 "G" then cmd_G a s
  else if ceq c0 "i" then brk (set_ins INSERT (touch s))
  else if ceq c0 "I" then
    let! i := caret e in brk (set_ins INSERT (setcur i (touch s)))
  else if ceq c0 "j" || ceq c0 "+" || ceq c0 cN then let! n := int (hn s + a) in cmd_grab n s
  else if ceq c0 "k" || ceq c0 "-" || ceq c0 cP then let! n := int (hn s - a) in cmd_grab n s
  else if ceq c0 "r" then cmd_r a (cmd1 cmd) s
  else if ceq c0 "R" then brk (set_ins REPLACE (touch s))
  else if ceq c0 "s" then cmd_s a s
  else if ceq c0 "v" then cmd_v a s
  else if ceq c0 "x" then cmd_x a s
  else if ceq c0 "X" then cmd_X a s
  else if ceq c0 "u" then brk (set_es (un s) (set_un e (set_swapped (negb (swapped s)) s)))
  else if ceq c0 "U" then
    if modi s then cmd_grab (ohn s) s else ret (-1) s
  else if ceq c0 "?" || ceq c0 "/" || ceq c0 "n" || ceq c0 "N" then cmd_search c0 s
  else if ceq c0 "_" then cmd_under a s
  else if ceq c0 "~" then cmd_tilde a s
  else if ceq c0 "#" then
    let! (r, e) := do_comment e in
    ret r (set_es (if 0 <=? r then set_cur 0 e else e) s)
  else if ceq c0 cI then
    if tabc k then let! s := complete_word true (negb (a =? 0)) x s in brk s else ret (-1) s
  else if ceq c0 ESC && negb (escc k) then ret (-1) s
  else if ceq c0 ESC || ceq c0 "\" || ceq c0 cF then
    let! s := complete_word true (negb (a =? 0)) x s in brk s
  else if ceq c0 "*" || ceq c0 cX then let! s := expand_word true x s in brk s
  else brk s.
(** vi_cmd, vi.c:693-1174; [m]: a macro is being read. *)
Definition vi_cmd (a : Z) (cmd : cstr) (m : bool) (x : option xans) (s : st) : res (Z * st) :=
  let c0 := cmd0 cmd in
  let a := if (a =? 0) && negb (is_zerocount c0) then 1 else a in
  if is_move c0 then
    let! (r, s) := domove a c0 (cmd1 cmd) false s in
    match r with
    | None => Ok (-1, s)
    | Some n =>
        let! n := if (n =? len (es s)) && negb (n =? 0) then back (buf (es s)) n else Ok n in
        Ok (0, setcur n s)
    end
  else
    let! s :=
      if is_undoable c0 && negb m then
        let e := es s in
        let! b := move (buf (un s)) 0 (buf e) 0 (len e) in
        Ok (set_un (Ed b (len e) (cur e)) (set_lac a (set_lcmd cmd s)))
      else Ok s in
    let! (r, s) := command a cmd x s in
    match r with
    | Some z => Ok (z, s)
    | None =>
        if negb (is_ins (ins s)) && (len (es s) <=? cur (es s)) then
          let! i := back0 (buf (es s)) (cur (es s)) in Ok (0, setcur i s)
        else Ok (0, s)
    end.

(** ** vi_hook *)
Definition nextstate (c : char) : vstate :=
  if is_extend c then VEXTCMD else if is_srch c then VSEARCH else if is_long c then VXCH
  else if ceq c "." then VREDO else if is_cmd c then VCMD else VFAIL.
(** curcmd[cmdlen++] = ch; *)
Definition push_cmd (c : char) (s : st) : res st :=
  let! t := wr (cc s) (cl s) c in Ok (set_cc t (set_cl (cl s + 1) s)).
Definition digit (c : char) : Z := ccode c - 48.
Definition is19 (c : char) : bool := cbetween "1" "9" c.
Definition more (a : Z) (c : char) : res Z := let! t := int (a * 10) in let! t := int (t + ccode c) in Ok (t - 48).
(** vi.c:337-346, 354-361: the character after c, d or y *)
Definition ext_char (c : char) (s : st) : res st :=
  let! s := push_cmd c s in
  Ok (set_vs (if ceq c (cmd0 (cc s)) && negb (hi8 c) then VCMD else if is_move c then nextstate c else VFAIL) s).
(** The bytes that the search line shows for a character, vi.c:437-457 *)
Definition echo (c : char) : cstr :=
  let hi := hi8 c && show8 k in
  let c' := if hi then low7 c else c in
  (if hi then L "M-" else []) ++
  (if (ccode c' <? 32) || ceq c' DEL then ["^"%char; ascii_of_N (N.lxor (N_of_ascii c') 64)] else [c']).
Fixpoint put_echo (t : cstr) (e : ed) : res ed :=
  match t with
  | [] => Ok e
  | c :: t => let! b := wr (buf e) (len e) c in put_echo t (Ed b (len e + 1) (cur e))
  end.
Definition to_end (e : ed) : ed := set_cur (len e) e.
(** vi.c:397-404 *)
Fixpoint serase_loop (f : nat) (s : st) : res st :=
  match f with
  | O => Oob
  | S f =>
      let! c := rd (lpat s) (sl s - 1) in
      let e := es s in
      let s := set_es (Ed (buf e) (len e - char_len c) (cur e)) (set_sl (sl s - 1) s) in
      if (0 <? sl s) && isu8cont c then serase_loop f s else Ok s
  end.
Fixpoint sum_len (f : nat) (b : cstr) (i n : Z) : res Z :=
  match f with
  | O => Oob
  | S f => if i - 1 <? n then Ok 0
           else let! c := rd b (i - 1) in let! t := sum_len f b (i - 1) n in Ok (char_len c + t)
  end.
(** The search line, vi.c:376-463; [true]: on to the command *)
Definition search_key (c : char) (s : st) : res (bool * st) :=
  if ceq c CR || ceq c NL then
    let! s := restore_cbuf s in
    if sl s =? 0 then
      match spat s with [] => Ok (false, set_vs VNORMAL s) | _ => Ok (true, set_vs VCMD s) end
    else
      let! t := wr (lpat s) (sl s) NUL in
      let s := set_lpat t s in
      Ok (true, set_vs VCMD (set_spat (zstr (firstn (Z.to_nat (sl s)) (lpat s))) s))
  else if is_key (erase k) c || ceq c cH then
    if sl s =? 0 then let! s := restore_cbuf s in Ok (false, set_vs VNORMAL s)
    else let! s := serase_loop (S (Z.to_nat (sl s))) s in Ok (false, set_es (to_end (es s)) s)
  else if is_key (kill k) c then
    Ok (false, set_sl 0 (set_es (Ed (buf (es s)) 1 1) s))
  else if is_key (werase k) c then
    let! n := backword (lpat s) (sl s) 1 in
    let! d := sum_len (S (Z.to_nat (sl s))) (lpat s) (sl s) n in
    let e := es s in
    Ok (false, set_es (to_end (Ed (buf e) (len e - d) (cur e))) (set_sl n s))
  else if sl s =? SRCHLEN - 1 then Ok (false, s)
  else
    let! t := wr (lpat s) (sl s) c in
    let! e := put_echo (echo c) (es s) in
    Ok (false, set_es (to_end e) (set_lpat t (set_sl (sl s + 1) s))).
(** The first switch, vi.c:264-466: a result where vi_hook returns. *)
Definition hook1 (c : char) (x : option xans) (s : st) : cres :=
  match vs s with
  | VNORMAL =>
      if is_ins (ins s) then
        let lit := ceq c cV in
        let! (r, s) := vi_insert (if lit then "^"%char else c) x s in
        if r =? 1 then ret 1 s
        else if r =? 0 then brk (if lit then set_vs VLIT (setcur (cur (es s) - 1) s) else s)
        else brk s
      else if ceq c CR || ceq c NL then ret 1 s
      else
        let s := set_cl 0 (set_a1 0 s) in
        if is19 c then brk (set_a1 (digit c) (set_vs VARG1 s))
        else
          let! s := push_cmd c s in
          let s := set_vs (nextstate c) s in
          match vs s with
          | VSEARCH =>
              let! s := save_cbuf s in
              let! (ok, e) := putbuf [if ceq c "/" then c else "?"%char] 1 false (Ed (buf (es s)) 0 0) in
              if ok then brk (set_es e s) else ret (-1) (set_es e s)
          | _ => brk s
          end
  | VLIT =>
      let e := es s in
      let! e := if is_bad c then del_range (cur e) (cur e + 1) e
                else let! b := wr (buf e) (cur e) c in Ok (Ed b (len e) (cur e + 1)) in
      brk (set_vs VNORMAL (set_es e s))
  | VARG1 =>
      if isdigit c then let! n := more (a1 s) c in brk (set_a1 n s)
      else let! s := push_cmd c s in brk (set_vs (nextstate c) s)
  | VEXTCMD =>
      let s := set_a2 0 s in
      if is19 c then ret 0 (set_vs VARG2 (set_a2 (digit c) s))
      else let! s := ext_char c s in brk s
  | VARG2 =>
      if isdigit c then let! n := more (a2 s) c in brk (set_a2 n s)
      else
        let! n := if a1 s =? 0 then Ok (a2 s) else int (a1 s * a2 s) in
        let! s := ext_char c (set_a1 n s) in brk s
  | VXCH =>
      if ceq c ESC then brk (set_vs VNORMAL s)
      else let! s := push_cmd c s in brk (set_vs VCMD s)
  | VSEARCH => let! (go, s) := search_key c s in if go then brk s else ret 0 s
  | _ => brk s
  end.
(** The second switch, vi.c:468-520 *)
Definition hook2 (m : bool) (x : option xans) (s : st) : res (Z * st) :=
  match vs s with
  | VCMD =>
      let! (r, s) := vi_cmd (a1 s) (cc s) m x (set_vs VNORMAL s) in
      if r =? 0 then Ok (0, if is_ins (ins s) then set_il 0 s else s)
      else if r =? -1 then Ok (0, s)
      else Ok (1, s)
  | VREDO =>
      let s := set_vs VNORMAL s in
      let s := if a1 s =? 0 then s else set_lac (a1 s) s in
      let! (r, s) := vi_cmd (lac s) (lcmd s) m x s in
      if r =? 0 then
        if is_ins (ins s) then
          let! (ok, s) := redo_insert (if sc_cmd (cmd0 (lcmd s)) then 1 else lac s) s in Ok (0, s)
        else Ok (0, s)
      else if r =? 1 then Ok (1, s)
      else Ok (0, s)
  | VFAIL => Ok (0, set_vs VNORMAL s)
  | _ => Ok (0, s)
  end.
Definition vi_hook (c : char) (m : bool) (x : option xans) (s : st) : res (Z * st) :=
  let! (r, s) := hook1 c x s in
  match r with Some z => Ok (z, s) | None => hook2 m x s end.

(** vi_reset and edit_reset, vi.c:523-535, 1424-1458: a new line is read into the buffer [b] (whatever is in it);
    the history is [h] and source->line is [n]. *)
Definition vi_reset (b : cstr) (h : list cstr) (n : Z) (s : st) : st :=
  let u := if swapped s then buf (es s) else buf (un s) in
  let z := Z.of_nat (length h) in
  set_es (Ed b 0 0) (set_un (Ed u 0 0) (set_swapped false (set_hl 0
    (set_vs VNORMAL (set_hn z (set_ohn z (set_ins INSERT (set_sil (il s) (set_fi true (set_il 0 (set_modi true
    (set_hist h (set_srcl n (set_fin false s)))))))))))))).

(** What happens to the editor: a key (read from a macro or not, with what x_cf_glob would say), or the start of a
    new line, which may come at any time (an interrupt, vi.c:222-230). *)
Inductive event := Key (c : char) (m : bool) (x : option xans) | Start (b : cstr) (h : list cstr) (n : Z).
(** x_vi, vi.c:198-256: no key is read after vi_hook has returned non-zero. *)
Definition step (v : event) (s : st) : res st :=
  match v with
  | Start b h n => Ok (vi_reset b h n s)
  | Key c m x =>
      if fin s then Ok s
      else let! (r, s) := vi_hook c m x s in Ok (if r =? 0 then s else set_fin true s)
  end.
Fixpoint run (vs : list event) (s : st) : res st :=
  match vs with [] => Ok s | v :: vs => let! s := step v s in run vs s end.
End EDITOR.

Definition zeros (n : Z) : cstr := repeat NUL (Z.to_nat n).
(** The static variables at the start of the program; the line buffer is not there yet. *)
Definition st0 : st :=
  St (Ed [] 0 0) (Ed (zeros LINE) 0 0) false (zeros LINE) 0 (zeros LINE) 0 0 false (zeros LINE) 0 SP NUL
    (zeros 3) 0 SP [] (zeros SRCHLEN) 0 COMMAND 0 0 false VNORMAL (zeros 3) 0 0 0 None None XNONE [] 0 true.
