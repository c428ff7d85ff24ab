(** Input to the lexer: the stack of sources, putting characters back, and backslash-newline
    (lex.c, lex.h). *)
From Verif Require Import Base.

(** Source.type (lex.h:38-46).  [KStr] is SSTRING and SWSTR; [KLines] is SFILE and SSTDIN with the
    lines still to be read by getsc_line (lex.c:1074-1164: prompts, timeouts, line editing,
    history and read errors are not modelled); [KAlias] has the name and value of the alias
    (u.tblp); SWORDS and SWORDSEP have u.strv. *)
Inductive skind :=
| KEof | KStr | KLines (ls : list cstr) | KWords (ws : list cstr) | KWordSep (ws : list cstr)
| KAlias (name val : cstr) | KReread.
(** struct source (lex.h:14-35): the text from start up to str (in reverse) and from str on, and
    the flags SF_ALIAS and SF_ALIASEND.  SF_ECHO and line numbers are left out. *)
Record src := Src { kind : skind; before : cstr; after : cstr; f_alias : bool; f_end : bool }.
Definition or_alias (fl : bool) (s : src) : src :=
  Src (kind s) (before s) (after s) (f_alias s || fl) (f_end s).
(** s->type = SEOF; s->start = s->str = null (lex.c:1061-1064). *)
Definition eof_src (s : src) : src := Src KEof [] [] (f_alias s) (f_end s).
Definition eof_top (st : list src) : list src :=
  match st with s :: st => eof_src s :: st | [] => [] end.
(** The next buffer is there: its first character is read. *)
Definition take (k : skind) (c : char) (r : cstr) (s : src) : src :=
  Src k [c] r (f_alias s) (f_end s).

(** strip_nuls of a line (lex.c:1146, misc.c:1067-1090). *)
Definition line_text (l : cstr) : cstr := filter (fun c => negb (is_nul c)) l.
(** The next line with something in it. *)
Fixpoint lines_next (ls : list cstr) : option (char * cstr * list cstr) :=
  match ls with
  | [] => None
  | l :: ls => match line_text l with [] => lines_next ls | c :: r => Some (c, r, ls) end
  end.
Definition ends_blank (v : cstr) : bool :=             (* lex.c:1019-1020 *)
  match rev v with c :: _ => isspace c | [] => false end.

(** getsc__ (lex.c:974-1072), and getsc_ (lex.c:110) which is the same with a short cut.  [fl]: SF_ALIAS
    is or-ed into the flags of the top source. *)
Fixpoint getsc_raw (fl : bool) (st : list src) : char * list src :=
  match st with
  | [] => (NUL, [])
  | s0 :: st =>
    let s := or_alias fl s0 in
    match after s with
    | c :: r => (c, Src (kind s) (c :: before s) r (f_alias s) (f_end s) :: st)
    | [] =>
      match kind s with
      | KEof | KStr => (NUL, eof_src s :: st)
      | KLines ls =>
        match lines_next ls with
        | Some (c, r, ls) => (c, take (KLines ls) c r s :: st)
        | None => (NUL, eof_src s :: st)
        end
      | KWords [] => (NUL, eof_src s :: st)
      | KWords ((c :: r) :: ws) => (c, take (KWordSep ws) c r s :: st)
      | KWords ([] :: []) | KWordSep [] => (NL, take KEof NL [] s :: st)
      | KWords ([] :: ws) | KWordSep ws => (SP, take (KWords ws) SP [] s :: st)
      | KAlias n v =>
        if f_end s then getsc_raw (f_alias s) st
        else if ends_blank v then getsc_raw true st
        else
          let '(c, st') := getsc_raw (f_alias s) st in
          if is_nul c then (NUL, eof_top st')
          else (c, Src (KAlias n v) [c] [] (f_alias s) true :: st')
      | KReread => getsc_raw false st
      end
    end
  end.

(** The globals source, backslash_skip and ignore_backslash_newline (lex.c:94-97). *)
Record input := Input { srcs : list src; bskip : nat; ign : nat }.

(** ungetsc (lex.c:1620-1640). *)
Definition is_null_src (s : src) : bool :=                       (* source->str == null *)
  match kind s, after s with KEof, [] => true | _, _ => false end.
Definition unget_srcs (c : char) (st : list src) : list src :=
  match st with
  | [] => []
  | s :: st' =>
    if is_null_src s && is_nul c then st
    else match before s with
         | b :: bs => Src (kind s) bs (b :: after s) (f_alias s) (f_end s) :: st'
         | [] => Src KReread [] [c] false false :: st
         end
  end.
Definition ungetsc (c : char) (i : input) : input :=
  Input (unget_srcs c (srcs i)) (pred (bskip i)) (ign i).

(** The text to be read, up to the end of input: only used to bound the loop of getsc_bn. *)
Fixpoint pending (st : list src) : cstr :=
  match st with
  | [] => []
  | s :: st =>
    after s ++
    match kind s with
    | KEof | KStr => []
    | KLines ls => concat (map line_text ls)
    | KWords [] => []
    | KWords ws => fold_right (fun w r => w ++ match r with [] => [NL] | _ => SP :: r end) [] ws
    | KWordSep ws =>
      match ws with
      | [] => [NL]
      | _ => SP :: fold_right (fun w r => w ++ match r with [] => [NL] | _ => SP :: r end) [] ws
      end
    | KAlias _ _ | KReread => pending st
    end
  end.

(** getsc_bn (lex.c:1644-1670); the loop. *)
Fixpoint bn_loop (fuel : nat) (i : input) : char * input :=
  match fuel with
  | O => (NUL, i)
  | S f =>
    let '(c, st) := getsc_raw false (srcs i) in
    let i := Input st (bskip i) (ign i) in
    if ceq c "\" then
      let '(c2, st2) := getsc_raw false (srcs i) in
      let i := Input st2 (bskip i) (ign i) in
      if ceq c2 NL then bn_loop f i
      else let i := ungetsc c2 i in (c, Input (srcs i) 1 (ign i))
    else (c, i)
  end.
Definition getsc_bn (i : input) : char * input :=
  if Nat.ltb 0 (ign i) then
    let '(c, st) := getsc_raw false (srcs i) in (c, Input st (bskip i) (ign i))
  else if Nat.eqb (bskip i) 1 then
    let '(c, st) := getsc_raw false (srcs i) in (c, Input st 2 (ign i))
  else bn_loop (S (length (pending (srcs i)))) (Input (srcs i) 0 (ign i)).
(** The macro getsc (lex.c:107-108). *)
Definition getsc (i : input) : char * input :=
  match srcs i with
  | Src k b (c :: r) fa fe :: st =>
    if negb (ceq c "\") && Nat.eqb (bskip i) 0
    then (c, Input (Src k (c :: b) r fa fe :: st) (bskip i) (ign i))
    else getsc_bn i
  | _ => getsc_bn i
  end.
(** Text pushed to be read first: an alias (lex.c:844-848) or SREREAD (lex.c:280-285). *)
Definition push_src (s : src) (i : input) : input := Input (s :: srcs i) (bskip i) (ign i).
