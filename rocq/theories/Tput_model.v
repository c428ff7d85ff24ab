(** Printing words: tree.c:244-334 (tputC, tputS), as typeset -f and functions -- ptree, tree.c:26-189
    -- print them. *)
From Verif Require Import Base Word_model.

(** shf_putchar (shf.c:565-): a char of value -1 is taken for EOF and not written. *)
Definition tputc (c : char) : cstr := if ceq c "255" then [] else [c].
(** tputC (tree.c:248-259) *)
Definition tputC (c : char) : cstr :=
  let 'Ascii b0 b1 b2 b3 b4 b5 b6 b7 := c in
  if negb b5 && negb b6 then (if b7 then tputc "$" else tputc "^") ++ tputc (Ascii b0 b1 b2 b3 b4 b5 true false)
  else if b0 && b1 && b2 && b3 && b4 && b5 && b6 then (if b7 then tputc "$" else tputc "^") ++ tputc "?"
  else tputc c.

(** tputS (tree.c:261-334) on the memory from the word on; [None]: it is read beyond.  The reading
    position within a code: at a code; before the byte of CHAR, QCHAR, OPAT, CSUBST, the first byte
    of OSUBST; in the text of COMSUB, EXPRSUB ([close] is what is printed after it) and OSUBST. *)
Inductive pos := PCode | PChar | PQchar | POpat | PCsubst | POsubst | PText (close : cstr).
Fixpoint tput (m : pos) (quoted : bool) (wp : cstr) : option cstr :=
  match wp with
  | [] => None
  | c :: wp =>
    let put t m q := option_map (app t) (tput m q wp) in
    match m with
    | PCode =>
      if ceq c EOS then Some []
      else if ceq c CHAR then tput PChar quoted wp
      else if ceq c QCHAR then tput PQchar quoted wp
      else if ceq c COMSUB then put (L "$(") (PText (L ")")) quoted
      else if ceq c EXPRSUB then put (L "$((") (PText (L "))")) quoted
      else if ceq c OQUOTE then put (L """") PCode true
      else if ceq c CQUOTE then put (L """") PCode false
      else if ceq c OSUBST then put (L "$") POsubst quoted
      else if ceq c CSUBST then tput PCsubst quoted wp
      else if ceq c OPAT then tput POpat quoted wp
      else if ceq c SPAT then put (L "|") PCode quoted
      else if ceq c CPAT then put (L ")") PCode quoted
      else tput PCode quoted wp
    | PChar => put (tputC c) PCode quoted
    | PQchar => put ((if negb quoted || mem c (L """`$") then L "\" else []) ++ tputC c) PCode quoted
    | POpat => put (tputc c ++ L "(") PCode quoted
    | PCsubst => put (if ceq c "}" then L "}" else []) PCode quoted
    | POsubst => put (if ceq c "{" then L "{" else []) (PText []) quoted
    | PText close => if ceq c NUL then put close PCode quoted else put (tputC c) m quoted
    end
  end.
Definition tputS (wp : cstr) : option cstr := tput PCode false wp.
