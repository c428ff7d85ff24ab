(** The lexer (lex.c:136-855) without csh-style history (FCSHHISTORY, lex.c:196-261). *)
From Verif Require Import Base Word_model Src_model.
Local Open Scope nat_scope.

(** * Reading programs: what the lexer does to its input *)
(** getsc, ungetsc, pushing text to re-read (SREREAD, lex.c:280-285) and changing
    ignore_backslash_newline; [Err] is yyerror, [Oof] stands for a loop not finished within the
    given number of rounds. *)
Inductive lerr := NoClosingQuote | MissingBracket | HereUnclosed (eof : cstr) | OutOfFuel.
Inductive prog (A : Type) :=
| Ret (a : A)
| Get (k : char -> prog A)
| Unget (c : char) (p : prog A)
| Reread (t : cstr) (p : prog A)
| Ign (up : bool) (p : prog A)
| Err (e : lerr).
Arguments Ret {A}. Arguments Get {A}. Arguments Unget {A}. Arguments Reread {A}.
Arguments Ign {A}. Arguments Err {A}.
Fixpoint bind {A B} (p : prog A) (f : A -> prog B) : prog B :=
  match p with
  | Ret a => f a
  | Get k => Get (fun c => bind (k c) f)
  | Unget c p => Unget c (bind p f)
  | Reread t p => Reread t (bind p f)
  | Ign u p => Ign u (bind p f)
  | Err e => Err e
  end.
Notation "x <- p ;; q" := (bind p (fun x => q)) (at level 61, p at next level, right associativity).
Notation "' pat <- p ;; q" := (bind p (fun x => match x with pat => q end))
  (at level 61, pat pattern, p at next level, right associativity).
(** Running one on the sources. *)
Fixpoint run {A} (p : prog A) (i : input) : (A + lerr) * input :=
  match p with
  | Ret a => (inl a, i)
  | Get k => let '(c, i) := getsc i in run (k c) i
  | Unget c p => run p (ungetsc c i)
  | Reread t p => run p (push_src (Src KReread [] t false false) i)
  | Ign up p => run p (Input (srcs i) (bskip i) (if up then S (ign i) else pred (ign i)))
  | Err e => (inr e, i)
  end.
Definition get : prog char := Get (fun c => Ret c).

(** * Character classes (misc.c:45-61, sh.h:275-293) *)
Definition letter (c : char) : bool := isalpha c || ceq c "_".                 (* C_ALPHA *)
Definition letnum (c : char) : bool := letter c || isdigit c.
Definition lex1 (c : char) : bool := is_nul c || mem c ([SP; TAB; NL] ++ L "|&;<>()").
Definition var1 (c : char) : bool := mem c (L "*@#!$-?").

(** * States (lex.c:20-34), with the information in ls_info (lex.c:40-71) *)
Inductive lst :=
| SBASE | SWORD | SLETPAREN (nparen : nat) | SSQUOTE | SDQUOTE | SBRACE
| SCSPAREN (nparen : nat) (csstate : nat) | SBQUOTE (indquotes : bool)
| SASPAREN (nparen : nat) (start : nat) | SHEREDELIM | SHEREDQUOTE | SPATTERN | STBRACE | SBRACEQ.
Definition is_dquote (s : lst) : bool := match s with SDQUOTE => true | _ => false end.
Definition in_dq (s : lst) : bool := match s with SDQUOTE | SBRACEQ => true | _ => false end.
(** Flags of yylex (lex.h:97-108); [varasn] is VARASN or ARRAYVAR. *)
Record flags := Flags {
  contin : bool; oneword : bool; aliasok : bool; keyword : bool; letexpr : bool; varasn : bool;
  esaconly : bool; cmdword : bool; heredelim : bool; heredoc : bool; unescape : bool }.
Definition noflags : flags := Flags false false false false false false false false false false false.

(** arraysub (lex.c:1593-1617): whether the bracket was found, and the text. *)
Fixpoint arraysub (fuel depth : nat) (acc : cstr) : prog (bool * cstr) :=
  match fuel with
  | O => Err OutOfFuel
  | S f =>
    c <- get ;;
    let depth := if ceq c "[" then S depth else if ceq c "]" then pred depth else depth in
    if Nat.eqb depth 0 then Ret (true, acc ++ [c])
    else if is_nul c then Ret (false, acc)
    else if ceq c NL then Ret (false, acc ++ [c])
    else arraysub f depth (acc ++ [c])
  end.

(** get_brace_var (lex.c:1518-1586): the text it adds, with the null byte. *)
Inductive bvst := PS_INITIAL | PS_SAW_HASH | PS_IDENT | PS_NUMBER | PS_VAR1 | PS_END.
Definition bv_first (c : char) : bvst :=
  if letter c then PS_IDENT else if isdigit c then PS_NUMBER else if var1 c then PS_VAR1 else PS_END.
Fixpoint get_brace_var (fuel : nat) (s : bvst) (acc : cstr) : prog cstr :=
  match fuel with
  | O => Err OutOfFuel
  | S f =>
    c <- get ;;
    let finish c acc := Unget c (Ret (acc ++ [NUL])) in
    match s with
    | PS_INITIAL =>
      if ceq c "#" then get_brace_var f PS_SAW_HASH (acc ++ [c])
      else match bv_first c with PS_END => finish c acc | s => get_brace_var f s (acc ++ [c]) end
    | PS_SAW_HASH =>
      match bv_first c with PS_END => finish c acc | s => get_brace_var f s (acc ++ [c]) end
    | PS_IDENT =>
      if letnum c then get_brace_var f PS_IDENT (acc ++ [c])
      else if ceq c "[" then
        '(ok, tmp) <- arraysub f 1 [] ;;
        if ok : bool then c2 <- get ;; finish c2 (acc ++ c :: tmp) else Err MissingBracket
      else finish c acc
    | PS_NUMBER => if isdigit c then get_brace_var f PS_NUMBER (acc ++ [c]) else finish c acc
    | PS_VAR1 | PS_END => finish c acc
    end
  end.

(** The loop reading $name (lex.c:403-407): the first letter [c] is read. *)
Fixpoint dollar_name (fuel : nat) (c : char) (acc : cstr) : prog cstr :=
  match fuel with
  | O => Err OutOfFuel
  | S f =>
    c2 <- get ;;
    if letnum c2 then dollar_name f c2 (acc ++ [c])
    else Unget c2 (Ret (acc ++ [c]))
  end.

(** is_wdvarname(word, false) (var.c:805-843): the whole word is a name. *)
Fixpoint wd_name (first : bool) (w : cstr) : bool :=
  match w with
  | [] => negb first
  | k :: c :: w => ceq k CHAR && (if first then letter c else letnum c) && wd_name false w
  | _ => false
  end.
Definition is_wdvarname (w : cstr) : bool := wd_name true w.

(** What one round of the loop does: go on with the states and the word so far, or [Done] (lex.c:643). *)
Inductive round := Cont (stk : list lst) (out : cstr) | Stop (c : char) (stk : list lst) (out : cstr).
Definition cont (stk : list lst) (out : cstr) : prog round := Ret (Cont stk out).
Definition top (stk : list lst) : lst := match stk with s :: _ => s | [] => SBASE end.

(** Subst (lex.c:331-452).  [n] bounds the inner loops. *)
Definition subst (n : nat) (cf : flags) (c : char) (stk : list lst) (out : cstr) : prog round :=
  if ceq c "\" then
    c <- get ;;
    let quoted := cont stk (out ++ [QCHAR; c]) in
    let other := if unescape cf then quoted
                 else if is_nul c then cont stk out
                 else cont stk (out ++ [CHAR; "\"%char; CHAR; c]) in
    if ceq c "\" || ceq c "$" || ceq c "`" then quoted
    else if ceq c """" then if heredoc cf then other else quoted
    else other
  else if ceq c "$" then
    c <- get ;;
    if ceq c "(" then
      c <- get ;;
      if ceq c "(" then cont (SASPAREN 2 (length out) :: stk) (out ++ [EXPRSUB])
      else Unget c (cont (SCSPAREN 1 0 :: stk) (out ++ [COMSUB]))
    else if ceq c "{" then
      v <- get_brace_var n PS_INITIAL [] ;;
      let out := out ++ OSUBST :: "{"%char :: v in
      c <- get ;;
      '(c, out) <- (if ceq c ":" then c2 <- get ;; Ret (c2, out ++ [CHAR; c]) else Ret (c, out)) ;;
      if ceq c "#" || ceq c "%" then Unget c (cont (STBRACE :: stk) out)
      else Unget c (cont ((if in_dq (top stk) then SBRACEQ else SBRACE) :: stk) out)
    else if letter c then
      v <- dollar_name n c [] ;;
      cont stk (out ++ OSUBST :: "X"%char :: v ++ [NUL; CSUBST; "X"%char])
    else if var1 c || isdigit c then
      cont stk (out ++ [OSUBST; "X"%char; c; NUL; CSUBST; "X"%char])
    else Unget c (cont stk (out ++ [CHAR; "$"%char]))
  else if ceq c "`" then
    cont (SBQUOTE (existsb is_dquote stk) :: stk) (out ++ [COMSUB])
  else cont stk (out ++ [CHAR; c]).

(** Sbase2 (lex.c:306-329) and Sbase1 (lex.c:293-304). *)
Definition sbase2 (n : nat) (cf : flags) (c : char) (stk : list lst) (out : cstr) : prog round :=
  if ceq c "\" then
    c <- get ;; if is_nul c then cont stk out else cont stk (out ++ [QCHAR; c])
  else if ceq c "'" then
    if heredoc cf || match top stk with SBRACEQ => true | _ => false end
    then cont stk (out ++ [CHAR; c])
    else Ign true (cont (SSQUOTE :: stk) (out ++ [OQUOTE]))
  else if ceq c """" then cont (SDQUOTE :: stk) (out ++ [OQUOTE])
  else subst n cf c stk out.
Definition sbase1 (n : nat) (cf : flags) (c : char) (stk : list lst) (out : cstr) : prog round :=
  if mem c (L "*@+?!") then
    c2 <- get ;;
    if ceq c2 "(" then cont (SPATTERN :: stk) (out ++ [OPAT; c])
    else Unget c2 (sbase2 n cf c stk out)
  else sbase2 n cf c stk out.

Definition chars (t : cstr) : cstr := flat_map (fun c => [CHAR; c]) t.
Definition close_brace (rest : list lst) (out : cstr) : prog round :=
  cont rest (out ++ [CSUBST; "}"%char]).

(** One character (lex.c:194-718). *)
Definition step (n : nat) (cf : flags) (c : char) (stk : list lst) (out : cstr) : prog round :=
  match stk with
  | [] => cont [] out
  | SBASE :: _ =>                                                  (* lex.c:195-304 *)
    if ceq c "[" && varasn cf then
      if is_wdvarname out then
        '(ok, tmp) <- arraysub n 1 [] ;;
        if ok : bool then cont stk (out ++ [CHAR; c] ++ chars tmp)
        else Reread tmp (cont stk (out ++ [CHAR; c]))
      else cont stk (out ++ [CHAR; c])
    else sbase1 n cf c stk out
  | SSQUOTE :: rest =>                                             (* lex.c:454-465 *)
    if ceq c "'" then
      match top rest with
      | SBRACEQ => cont rest (out ++ [CHAR; c])
      | _ => Ign false (cont rest (out ++ [CQUOTE]))
      end
    else cont stk (out ++ [QCHAR; c])
  | SDQUOTE :: rest =>                                             (* lex.c:467-473 *)
    if ceq c """" then cont rest (out ++ [CQUOTE]) else subst n cf c stk out
  | SCSPAREN np cs :: rest =>                                      (* lex.c:475-527 *)
    let fin np cs := if Nat.eqb np 0 then cont rest (out ++ [NUL])
                     else cont (SCSPAREN np cs :: rest) (out ++ [c]) in
    match cs with
    | 0 => if ceq c "(" then fin (S np) 0
           else if ceq c ")" then fin (pred np) 0
           else if ceq c "\" then fin np 1
           else if ceq c """" then fin np 2
           else if ceq c "'" then Ign true (fin np 4)
           else fin np 0
    | 1 => fin np 0
    | 3 => fin np 2
    | 2 => if ceq c """" then fin np 0 else if ceq c "\" then fin np 3 else fin np 2
    | _ => if ceq c "'" then Ign false (fin np 0) else fin np cs
    end
  | SASPAREN np start :: rest =>                                   (* lex.c:529-565 *)
    if ceq c "(" then cont (SASPAREN (S np) start :: rest) (out ++ [c])
    else if ceq c ")" then
      if Nat.eqb (pred np) 1 then
        c2 <- get ;;
        if ceq c2 ")" then cont rest (out ++ [NUL])
        else Unget c2 (cont (SCSPAREN 1 0 :: rest)
               (firstn start out ++ COMSUB :: "("%char :: skipn (S start) out ++ [c]))
      else cont (SASPAREN (pred np) start :: rest) (out ++ [c])
    else cont stk (out ++ [c])
  | SBRACEQ :: rest =>                                             (* lex.c:567-575 *)
    if ceq c "}" then close_brace rest out else sbase2 n cf c stk out
  | SBRACE :: rest =>                                              (* lex.c:577-585 *)
    if ceq c "}" then close_brace rest out else sbase1 n cf c stk out
  | STBRACE :: rest =>                                             (* lex.c:587-602 *)
    if ceq c "}" then close_brace rest out
    else if ceq c "|" then cont stk (out ++ [SPAT])
    else if ceq c "(" then cont (SPATTERN :: stk) (out ++ [OPAT; SP])
    else sbase1 n cf c stk out
  | SBQUOTE indq :: rest =>                                        (* lex.c:604-629 *)
    if ceq c "`" then cont rest (out ++ [NUL])
    else if ceq c "\" then
      c <- get ;;
      if ceq c "\" || ceq c "$" || ceq c "`" || (ceq c """" && indq) then cont stk (out ++ [c])
      else if is_nul c then cont stk out
      else cont stk (out ++ ["\"%char; c])
    else cont stk (out ++ [c])
  | SWORD :: _ => subst n cf c stk out                             (* lex.c:631-632 *)
  | SLETPAREN np :: rest =>                                        (* lex.c:634-652 *)
    if ceq c ")" then
      if Nat.ltb 0 np then sbase2 n cf c (SLETPAREN (pred np) :: rest) out
      else
        c2 <- get ;;
        if ceq c2 ")" then Ret (Stop NUL stk (out ++ [CQUOTE]))
        else Unget c2 (sbase2 n cf c stk out)
    else if ceq c "(" then sbase2 n cf c (SLETPAREN (S np) :: rest) out
    else sbase2 n cf c stk out
  | SHEREDELIM :: rest =>                                          (* lex.c:654-680 *)
    if ceq c "\" then
      c <- get ;; if is_nul c then cont stk out else cont stk (out ++ [QCHAR; c])
    else if ceq c "'" then Ign true (cont (SSQUOTE :: stk) (out ++ [OQUOTE]))
    else if ceq c """" then cont (SHEREDQUOTE :: rest) (out ++ [OQUOTE])
    else cont stk (out ++ [CHAR; c])
  | SHEREDQUOTE :: rest =>                                         (* lex.c:682-703 *)
    if ceq c """" then cont (SHEREDELIM :: rest) (out ++ [CQUOTE])
    else if ceq c "\" then
      c <- get ;;
      if ceq c "\" || ceq c """" || ceq c "$" || ceq c "`" || is_nul c
      then cont stk (out ++ [CHAR; c])
      else cont stk (out ++ [CHAR; "\"%char; CHAR; c])
    else cont stk (out ++ [CHAR; c])
  | SPATTERN :: rest =>                                            (* lex.c:705-717 *)
    if ceq c ")" then cont rest (out ++ [CPAT])
    else if ceq c "|" then cont stk (out ++ [SPAT])
    else if ceq c "(" then cont (SPATTERN :: stk) (out ++ [OPAT; SP])
    else sbase1 n cf c stk out
  end.

(** The loop (lex.c:190-719): the last character read, the states and the word. *)
Definition base_like (s : lst) : bool := match s with SBASE | SHEREDELIM => true | _ => false end.
Fixpoint loop (n : nat) (cf : flags) (stk : list lst) (out : cstr) : prog (char * list lst * cstr) :=
  match n with
  | O => Err OutOfFuel
  | S n =>
    c <- get ;;
    if is_nul c || (base_like (top stk) && lex1 c) then Ret (c, stk, out)
    else
      r <- step n cf c stk out ;;
      match r with
      | Cont stk out => loop n cf stk out
      | Stop c stk out => Ret (c, stk, out)
      end
  end.

(** Blanks and a comment before the word (lex.c:166-177). *)
Fixpoint skip_blanks (n : nat) : prog char :=
  match n with
  | O => Err OutOfFuel
  | S n => c <- get ;; if ceq c SP || ceq c TAB then skip_blanks n else Ret c
  end.
Fixpoint skip_comment (n : nat) : prog char :=
  match n with
  | O => Err OutOfFuel
  | S n => c <- get ;; if is_nul c || ceq c NL then Ret c else skip_comment n
  end.
Definition start_word (n : nat) : prog unit :=
  c <- skip_blanks n ;;
  if ceq c "#" then Ign true (c <- skip_comment n ;; Ign false (Unget c (Ret tt)))
  else Unget c (Ret tt).

(** * Tokens (lex.h:66-93) *)
(** Redirections: unit and flag (tree.h:75-98). *)
Inductive ioflag := IOREAD | IOWRITE | IORDWR | IOHERE | IOCAT | IODUP.
Inductive token :=
| LWORD (w ident : cstr)
| REDIR (unit : nat) (flag : ioflag) (skip clob rdup : bool)
| CTok (c : char)                                   (* a character, NUL at the end of input *)
| LOGAND | LOGOR | BREAK | COPROC | MDPAREN
| KEY (name : cstr).                                (* a reserved word *)

(** Redirections (lex.c:730-768), after the word [out] and the character [c] (less or greater than). *)
Definition redir (c : char) (unit : nat) : prog token :=
  c2 <- get ;;
  if ceq c c2 then
    if ceq c ">" then Ret (REDIR unit IOCAT false false false)
    else c3 <- get ;;
         if ceq c3 "-" then Ret (REDIR unit IOHERE true false false)
         else Unget c3 (Ret (REDIR unit IOHERE false false false))
  else if ceq c "<" && ceq c2 ">" then Ret (REDIR unit IORDWR false false false)
  else if ceq c2 "&" then Ret (REDIR unit IODUP false false (ceq c "<"))
  else if ceq c ">" && ceq c2 "|" then Ret (REDIR unit IOWRITE false true false)
  else Unget c2 (Ret (REDIR unit (if ceq c ">" then IOWRITE else IOREAD) false false false)).
(** One of the characters | & ; ( (lex.c:773-809).  [sh] is the flag FSH. *)
Definition operator (sh : bool) (c : char) : prog token :=
  if ceq c "|" || ceq c "&" || ceq c ";" then
    c2 <- get ;;
    if ceq c2 c then Ret (if ceq c ";" then BREAK else if ceq c "|" then LOGOR else LOGAND)
    else if ceq c "|" && ceq c2 "&" then Ret COPROC
    else Unget c2 (Ret (CTok c))
  else if ceq c "(" && negb sh then
    c2 <- get ;; if ceq c2 "(" then Ret MDPAREN else Unget c2 (Ret (CTok c))
  else Ret (CTok c).

(** ident (lex.c:818-824; lex.h:11 IDENT 64): the text of an unquoted word of at most 63 characters, else empty. *)
Fixpoint unquoted (n : nat) (w : cstr) : option cstr :=
  match w with
  | [] => Some []
  | k :: c :: w => match n with
                   | O => None
                   | S n => if ceq k CHAR then option_map (cons c) (unquoted n w) else None
                   end
  | _ => None
  end.
Definition ident_of (w : cstr) : cstr := match unquoted 63 w with Some t => t | None => [] end.

(** The word is complete (lex.c:720-816, and 818-824): a token, or [None] for the newline. *)
Definition finish (n : nat) (sh : bool) (c : char) (stk : list lst) (out : cstr) : prog (option token) :=
  match stk with
  | [s] =>
    let word := match s with
                | SWORD | SLETPAREN _ => Ret (Some (LWORD (out ++ [EOS]) []))
                | _ => Unget c (Ret (Some (LWORD (out ++ [EOS]) (ident_of out))))
                end in
    if base_like s then
      match out with
      | [] => if ceq c "<" || ceq c ">" then t <- redir c (if ceq c ">" then 1 else 0) ;; Ret (Some t)
              else if ceq c NL then Ret None
              else t <- operator sh c ;; Ret (Some t)
      | [k; d] => if (ceq c "<" || ceq c ">") && ceq k CHAR && isdigit d
                  then t <- redir c (code d - 48) ;; Ret (Some t)
                  else word
      | _ => word
      end
    else word
  | _ => Err NoClosingQuote
  end.

(** * Here documents (lex.c:871-927) *)
(** The delimiter after evalstr, and the flags IOEVAL and IOSKIP. *)
Record here := Here { h_eof : cstr; h_eval : bool; h_skip : bool }.
(** The start of a line (lex.c:893-904): what is left of the delimiter, the character read last,
    and the text so far. *)
Fixpoint here_match (n : nat) (skip : bool) (eofp acc : cstr) : prog (cstr * char * cstr) :=
  match n with
  | O => Err OutOfFuel
  | S n =>
    c <- get ;;
    if is_nul c then Ret (eofp, c, acc)
    else if skip && ceq c TAB then here_match n skip eofp acc
    else match eofp with
         | e :: eofp' => if ceq c e then here_match n false eofp' (acc ++ [c]) else Ret (eofp, c, acc)
         | [] => Ret (eofp, c, acc)
         end
  end.
(** The rest of the line (lex.c:913-920). *)
Fixpoint here_line (n : nat) (eof acc : cstr) : prog cstr :=
  match n with
  | O => Err OutOfFuel
  | S n =>
    c <- get ;;
    if ceq c NL then Ret (acc ++ [c])
    else if is_nul c then Err (HereUnclosed eof)
    else here_line n eof (acc ++ [c])
  end.
Fixpoint here_loop (n : nat) (h : here) (acc : cstr) : prog cstr :=
  match n with
  | O => Err OutOfFuel
  | S n' =>
    '(eofp, c, acc') <- here_match n (h_skip h) (h_eof h) acc ;;
    match eofp with
    | [] => if is_nul c || ceq c NL then Ret acc
            else Unget c (acc'' <- here_line n (h_eof h) acc' ;; here_loop n' h acc'')
    | _ => Unget c (acc'' <- here_line n (h_eof h) acc' ;; here_loop n' h acc'')
    end
  end.
Definition readhere (n : nat) (h : here) : prog cstr :=
  if h_eval h then here_loop n h []
  else Ign true (t <- here_loop n h [] ;; Ign false (Ret t)).
(** gethere (lex.c:857-865) *)
Fixpoint gethere (n : nat) (hs : list here) : prog (list cstr) :=
  match hs with
  | [] => Ret []
  | h :: hs => t <- readhere n h ;; ts <- gethere n hs ;; Ret (t :: ts)
  end.

(** * yylex *)
(** Options FPOSIX and FSH; the reserved words; the aliases that are set. *)
Record lenv := LEnv { posix : bool; fsh : bool; keys : list cstr; aliases : list (cstr * cstr) }.
Definition alias_of (e : lenv) (n : cstr) : option cstr :=
  match find (fun p => str_eqb (fst p) n) (aliases e) with Some (_, v) => Some v | None => None end.
(** The aliases being read (lex.c:840-842). *)
Fixpoint alias_active (n : cstr) (st : list src) : bool :=
  match st with
  | Src (KAlias m _) _ _ _ _ :: st => str_eqb m n || alias_active n st
  | _ => false
  end.
Definition top_flag (i : input) : bool := match srcs i with s :: _ => f_alias s | [] => false end.
Definition clear_flag (i : input) : input :=
  match srcs i with
  | Src k b a _ e :: st => Input (Src k b a false e :: st) (bskip i) (ign i)
  | [] => i
  end.
Definition with_alias (cf : flags) : flags :=
  Flags (contin cf) (oneword cf) true (keyword cf) (letexpr cf) (varasn cf) (esaconly cf)
        (cmdword cf) (heredelim cf) (heredoc cf) (unescape cf).
(** lex.c:148-192: the part before the loop, the loop, and what follows it. *)
Definition lex_start (n : nat) (cf : flags) : prog unit :=
  if oneword cf || letexpr cf then Ret tt else start_word n.
Definition lex_word (n : nat) (sh : bool) (cf : flags) : prog (option token) :=
  let s := if oneword cf then SWORD else if letexpr cf then SLETPAREN 0
           else if heredelim cf then SHEREDELIM else SBASE in
  let out := if negb (oneword cf) && letexpr cf then [OQUOTE] else [] in
  '(c, stk, out) <- loop n cf [s] out ;;
  finish n sh c stk out.
(** The answer: a token, the bodies of here documents read on the way, and the input. *)
Inductive lres := LTok (t : token) (bodies : list cstr) (i : input) | LErr (e : lerr).
(** yylex; [rounds] bounds the jumps to Again, [n] the loops. *)
Fixpoint yylex (rounds n : nat) (e : lenv) (cf : flags) (hs : list here) (i : input) : lres :=
  match rounds with
  | O => LErr OutOfFuel
  | S rounds =>
    let i := Input (srcs i) 0 0 in                                       (* lex.c:157-158 *)
    match run (lex_start n cf) i with
    | (inr er, _) => LErr er
    | (inl _, i) =>
      let cf := if top_flag i && (negb (posix e) || cmdword cf) then with_alias cf else cf in
      let i := clear_flag i in
      match run (lex_word n (fsh e) cf) i with
      | (inr er, _) => LErr er
      | (inl (Some (LWORD w id)), i) =>
        match id with
        | [] => LTok (LWORD w id) [] i
        | _ =>
          if keyword cf && existsb (str_eqb id) (keys e) &&
             (negb (esaconly cf) || str_eqb id (L "esac") || str_eqb id (L "}"))
          then LTok (KEY id) [] i
          else if aliasok cf && negb (alias_active id (srcs i)) then
            match alias_of e id with
            | Some v => yylex rounds n e cf hs (push_src (Src (KAlias id v) [] v false false) i)
            | None => LTok (LWORD w id) [] i
            end
          else LTok (LWORD w id) [] i
        end
      | (inl (Some t), i) => LTok t [] i
      | (inl None, i) =>                                                  (* lex.c:791-795 *)
        match run (gethere n hs) i with
        | (inr er, _) => LErr er
        | (inl bodies, i) =>
          if contin cf then
            match yylex rounds n e cf [] i with
            | LTok t bs i => LTok t (bodies ++ bs) i
            | LErr er => LErr er
            end
          else LTok (CTok NL) bodies i
        end
      end
    end
  end.
