(** The parser (syn.c:52-625, 762-802), on top of a lexer. *)
From Verif Require Import Base Word_model Lex_model.
Local Open Scope nat_scope.

(** * Trees: Tree.type (tree.h:31-52) and the makers of nodes *)
Definition T_EOF := 0%Z.      Definition T_COM := 1%Z.      Definition T_PAREN := 2%Z.
Definition T_PIPE := 3%Z.     Definition T_LIST := 4%Z.     Definition T_OR := 5%Z.
Definition T_AND := 6%Z.      Definition T_BANG := 7%Z.     Definition T_FOR := 9%Z.
Definition T_SELECT := 10%Z.  Definition T_CASE := 11%Z.    Definition T_IF := 12%Z.
Definition T_WHILE := 13%Z.   Definition T_UNTIL := 14%Z.   Definition T_ELIF := 15%Z.
Definition T_PAT := 16%Z.     Definition T_BRACE := 17%Z.   Definition T_ASYNC := 18%Z.
Definition T_FUNCT := 19%Z.   Definition T_TIME := 20%Z.    Definition T_COPROC := 22%Z.
(** block (syn.c:612-622); line numbers are left out (0). *)
Definition block (type : Z) (l r : op) : op := TOp type 0 None None None l r None 0.
Definition is_null (t : op) : bool := match t with TNull => true | _ => false end.
Definition set_io (io : list ioword) (t : op) : op :=
  match t with
  | TOp ty fl a v _ l r s n => TOp ty fl a v (match io with [] => None | _ => Some io end) l r s n
  | TNull => TNull
  end.
(** Adding [p] where the tail pointer tl is: [d] is 0 for a null tl, else the number of nodes on the
    right spine down to tl (syn.c:82-85, 135-140). *)
Fixpoint graft (type : Z) (d : nat) (t p : op) : op :=
  match d with
  | 0 => block type t p
  | S d => match t with
           | TOp ty fl a v io l r s n => TOp ty fl a v io l (graft type d r p) s n
           | TNull => TNull
           end
  end.

(** skip_wdvarname(s, true) and is_wdvarassign (var.c:805-853), on the word. *)
Fixpoint skip_index (depth : nat) (w : cstr) : option cstr :=
  match w with
  | k :: c :: w =>
    if negb (ceq k CHAR) then None
    else if ceq c "[" then skip_index (S depth) w
    else if ceq c "]" then if Nat.eqb depth 1 then Some w else skip_index (pred depth) w
    else skip_index depth w
  | _ => None
  end.
Definition after_index (w : cstr) : cstr :=
  match w with
  | k :: c :: _ => if ceq k CHAR && ceq c "[" then match skip_index 0 w with Some r => r | None => w end else w
  | _ => w
  end.
Fixpoint skip_letnum (w : cstr) : cstr :=
  match w with
  | k :: c :: r => if ceq k CHAR && letnum c then skip_letnum r else w
  | _ => w
  end.
Definition is_wdvarassign (w : cstr) : bool :=
  match w with
  | k :: c :: r =>
    ceq k CHAR && letter c &&
    match after_index (skip_letnum r) with k2 :: c2 :: _ => ceq k2 CHAR && ceq c2 "=" | _ => false end
  | _ => false
  end.
(** is_wdvarname(w, true) (var.c:837-843). *)
Definition is_wdvarname_a (w : cstr) : bool :=
  match w with
  | k :: c :: r => ceq k CHAR && letter c && match after_index (skip_letnum r) with k2 :: _ => ceq k2 EOS | [] => false end
  | _ => false
  end.
(** assign_command (syn.c:781-791) *)
Definition assign_command (posix : bool) (id : cstr) : bool :=
  negb posix && (str_eqb id (L "alias") || str_eqb id (L "export") || str_eqb id (L "readonly") || str_eqb id (L "typeset")).
Definition DOVACHECK := 512%Z.                                       (* tree.h:123 *)
(** Valid names of functions (syn.c:540-549), C_QUOTE and =. *)
Definition bad_func_char (c : char) : bool := mem c ([SP; NL; TAB] ++ L """#$&'()*;<>?[\`|=").

(** Flags for yylex. *)
Definition fl (ct kw : bool) : flags := Flags ct false kw kw false false false false false false false.     (* CONTIN; KEYWORD|ALIAS *)
Definition fl_cmd (ct : bool) : flags := Flags ct false true true false true false false false false false. (* .. KEYWORD|ALIAS|VARASN *)
Definition fl_simple (arrayvar noargs : bool) : flags :=             (* syn.c:219-220 *)
  Flags false false noargs false false (arrayvar || noargs) false (negb noargs) false false false.
Definition fl_kw (ct : bool) (esac : bool) : flags := Flags ct false false true false false esac false false false false. (* CONTIN|KEYWORD, ESACONLY *)
Definition fl_delim : flags := Flags false false false false false false false false true false false.
Definition fl_let : flags := Flags false false false false true false false false false false false.
Definition fl_array : flags := Flags false false false false false true false false false false false.

Section Parser.
(** The lexer: yylex with its sources and pending here documents; [None] is yyerror.  [hadd]
    notes a here document (syn.c:160-164), [inalias] is inalias(source) (syn.c:795-802). *)
Variable St : Type.
Variable lex : flags -> St -> option (token * St).
Variable hadd : ioword -> St -> option St.
Variable inalias : St -> bool.
Variables posix fkeyword : bool.                                     (* Flag(FPOSIX), Flag(FKEYWORD) *)

(** reject and symbol (syn.c:49-55). *)
Record pst := PSt { lx : St; reject : bool; symbol : token }.
Inductive res (A : Type) := Ok (a : A) (s : pst) | Fail | Oof | Unmodelled.
Arguments Ok {A}. Arguments Fail {A}. Arguments Oof {A}. Arguments Unmodelled {A}.
Definition bindr {A B} (r : res A) (f : A -> pst -> res B) : res B :=
  match r with Ok a s => f a s | Fail => Fail | Oof => Oof | Unmodelled => Unmodelled end.
Notation "'let*' ( x , s ) := e 'in' b" := (bindr e (fun x s => b)) (at level 200, x name, s name).

Definition token_ (cf : flags) (s : pst) : res token :=
  if reject s then Ok (symbol s) (PSt (lx s) false (symbol s))
  else match lex cf (lx s) with Some (t, l) => Ok t (PSt l false t) | None => Fail end.
Definition tpeek (cf : flags) (s : pst) : res token :=
  if reject s then Ok (symbol s) s
  else match lex cf (lx s) with Some (t, l) => Ok t (PSt l true t) | None => Fail end.
Definition rej (s : pst) : pst := PSt (lx s) true (symbol s).
Definition accept (s : pst) : pst := PSt (lx s) false (symbol s).

Definition is_op (c : char) (t : token) : bool := match t with CTok d => ceq c d | _ => false end.
Definition is_key (k : cstr) (t : token) : bool := match t with KEY k' => str_eqb k k' | _ => false end.
(** musthave (syn.c:171-176): the test on the token. *)
Definition musthave (ok : token -> bool) (cf : flags) (s : pst) : res unit :=
  let* (t, s) := token_ cf s in if ok t then Ok tt s else Fail.
Definition musthave_word (cf : flags) (s : pst) : res (cstr * cstr) :=
  let* (t, s) := token_ cf s in match t with LWORD w id => Ok (w, id) s | _ => Fail end.

(** synio (syn.c:147-169); flags of ioword (tree.h:84-95). *)
Definition io_type (f : ioflag) : Z :=
  match f with IOREAD => 1 | IOWRITE => 2 | IORDWR => 3 | IOHERE => 4 | IOCAT => 5 | IODUP => 6 end%Z.
Definition is_here (f : ioflag) : bool := match f with IOHERE => true | _ => false end.
Definition io_word (unit : nat) (f : ioflag) (skip clob rdup : bool) (w id : cstr) : ioword :=
  let fl := (io_type f + (if skip then 32 else 0) + (if clob then 64 else 0) + (if rdup then 128 else 0)
             + (if is_here f then match id with [] => 0 | _ => 16 end else 0))%Z in
  if is_here f then IOWord (Z.of_nat unit) fl None (Some w) None
  else IOWord (Z.of_nat unit) fl (Some w) None None.
Definition synio (cf : flags) (s : pst) : res (option ioword) :=
  let* (t, s) := tpeek cf s in
  match t with
  | REDIR unit f skip clob rdup =>
    let* (wi, s) := musthave_word (if is_here f then fl_delim else fl false false) (accept s) in
    let io := io_word unit f skip clob rdup (fst wi) (snd wi) in
    if is_here f then
      match hadd io (lx s) with
      | Some l => Ok (Some io) (PSt l (reject s) (symbol s))
      | None => Fail
      end
    else Ok (Some io) s
  | _ => Ok None s
  end.
Definition NUFILE : nat := 32.
(** The redirections after a command (syn.c:387-391). *)
Fixpoint redirs (n : nat) (cf : flags) (io : list ioword) (s : pst) : res (list ioword) :=
  match n with
  | 0 => Oof
  | S n =>
    let* (r, s) := synio cf s in
    match r with
    | Some i => if Nat.leb NUFILE (length io) then Fail else redirs n cf (io ++ [i]) s
    | None => Ok io s
    end
  end.

(** The words and redirections of a simple command (syn.c:218-264). *)
Inductive simple := SCom (args vars : list cstr) (va : bool) (io : list ioword)
| SSub (io : list ioword) | SFun (name : cstr).
Fixpoint simple_loop (n : nat) (args vars : list cstr) (va : bool) (io : list ioword) (s : pst) : res simple :=
  match n with
  | 0 => Oof
  | S n =>
    let noargs := match args with [] => true | _ => false end in
    let novars := match vars with [] => true | _ => false end in
    let noio := match io with [] => true | _ => false end in
    let cf := fl_simple va noargs in
    let* (t, s) := tpeek cf s in
    match t with
    | REDIR _ _ _ _ _ =>
      if Nat.leb NUFILE (length io) then Fail
      else let* (r, s) := synio cf s in
           match r with Some i => simple_loop n args vars va (io ++ [i]) s | None => Fail end
    | LWORD w id =>
      let va := va || (noio && novars && noargs && assign_command posix id) in
      if (noargs || fkeyword) && is_wdvarassign w
      then simple_loop n args (vars ++ [w]) va io (accept s)
      else simple_loop n (args ++ [w]) vars va io (accept s)
    | CTok c =>
      if ceq c "(" then
        if noargs && novars then Ok (SSub io) (accept s)
        else match io, args, vars with
             | [], [w], [] => Ok (SFun w) (accept s)
             | _, _, _ => Fail
             end
      else Ok (SCom args vars va io) s
    | _ => Ok (SCom args vars va io) s
    end
  end.

(** wordlist (syn.c:590-608) *)
Fixpoint words (n : nat) (ws : list cstr) (s : pst) : res (list cstr) :=
  match n with
  | 0 => Oof
  | S n =>
    let* (t, s) := token_ (fl false false) s in
    match t with
    | LWORD w _ => words n (ws ++ [w]) s
    | CTok c => if ceq c NL || ceq c ";" then Ok ws s else Fail
    | _ => Fail
    end
  end.
Definition wordlist (n : nat) (s : pst) : res (option (list cstr)) :=
  let* (t, s) := token_ (fl true true) s in
  if is_key (L "in") t then let* (ws, s) := words n [] s in Ok (Some ws) s
  else if is_op ";" t then Ok None s else Ok None (rej s).

(** The patterns of casepart (syn.c:511-516). *)
Fixpoint patterns (n : nat) (ps : list cstr) (s : pst) : res (list cstr) :=
  match n with
  | 0 => Oof
  | S n =>
    let* (wi, s) := musthave_word (fl false false) s in
    let* (t, s) := token_ (fl false false) s in
    if is_op "|" t then patterns n (ps ++ [fst wi]) s else Ok (ps ++ [fst wi]) (rej s)
  end.

(** TIME (syn.c:362-375): str_save of whatever str is. *)
Definition timed (t : op) : option op :=
  match t with
  | TNull => Some TNull
  | TOp ty fl a v io l r s n =>
    match s with
    | Some w => match str_save w with Some w' => Some (TOp ty fl a v io l r (Some w') n) | None => None end
    | None => Some (TOp ty fl a v io l r (Some [NUL; NUL]) n)
    end
  end.
Definition let_word : cstr := [CHAR; "l"%char; CHAR; "e"%char; CHAR; "t"%char; EOS].
Definition colon : op := TOp T_COM 0 (Some [[CHAR; ":"%char; EOS]]) (Some []) None TNull TNull None 0.

(** The parts of the grammar; each calls the others through [rec]. *)
Inductive nonterminal :=
| NCommand (ct : bool) | NPipeline (ct : bool) | NPipeLoop (d : nat) (t : op) | NAndor | NAndorLoop (t : op)
| NList (multi : bool) | NListLoop (multi : bool) (t : op) (d : nat) | NNested (type : Z) (emark : token -> bool)
| NDo | NThen | NElse | NCases | NCaseLoop (e : cstr) | NCase (e : cstr) | NFunction (name : cstr) (ksh : bool).
Section Open.
(** [n] bounds the loops over words. *)
Variable n : nat.
Variable rec : nonterminal -> pst -> res op.
(** get_command (syn.c:191-414) *)
Definition get_command_ (ct : bool) (s : pst) : res op :=
  let finish (kw : bool) (io : list ioword) (t : op) (s : pst) : res op :=
    let* (io, s) := redirs n (fl false kw) io s in Ok (set_io io t) s in
  let* (c, s) := token_ (fl_cmd ct) s in
  match c with
  | LWORD _ _ | REDIR _ _ _ _ _ =>
    let* (r, s) := simple_loop n [] [] false [] (rej s) in
    match r with
    | SCom args vars va io =>
      finish false io (TOp T_COM (if va then DOVACHECK else 0) (Some args) (Some vars) None TNull TNull None 0) s
    | SSub io => let* (t, s) := rec (NNested T_PAREN (is_op ")")) s in finish false io t s
    | SFun w =>
      let* (_, s) := musthave (is_op ")") (fl false false) s in
      let* (t, s) := rec (NFunction w false) s in finish false [] t s
    end
  | CTok c =>
    if ceq c "(" then let* (t, s) := rec (NNested T_PAREN (is_op ")")) s in finish true [] t s
    else Ok TNull (rej s)
  | MDPAREN =>
    let* (wi, s) := musthave_word fl_let s in
    finish true [] (TOp T_COM 0 (Some [let_word; fst wi]) (Some []) None TNull TNull None 0) s
  | KEY k =>
    if str_eqb k (L "{") then let* (t, s) := rec (NNested T_BRACE (is_key (L "}"))) s in finish true [] t s
    else if str_eqb k (L "[[") then Unmodelled
    else if str_eqb k (L "for") || str_eqb k (L "select") then
      let* (wi, s) := musthave_word fl_array s in
      if negb (is_wdvarname_a (fst wi)) then Fail
      else
        let* (ws, s) := wordlist n s in
        let* (body, s) := rec NDo s in
        finish true [] (TOp (if str_eqb k (L "for") then T_FOR else T_SELECT) 0 None ws None body TNull
                            (Some (snd wi ++ [NUL])) 0) s
    else if str_eqb k (L "while") || str_eqb k (L "until") then
      let* (c, s) := rec (NList true) s in
      if is_null c then Fail
      else let* (body, s) := rec NDo s in
           finish true [] (block (if str_eqb k (L "while") then T_WHILE else T_UNTIL) c body) s
    else if str_eqb k (L "case") then
      let* (wi, s) := musthave_word (fl false false) s in
      let* (l, s) := rec NCases s in
      finish true [] (TOp T_CASE 0 None None None l TNull (Some (fst wi)) 0) s
    else if str_eqb k (L "if") then
      let* (c, s) := rec (NList true) s in
      let* (t, s) := rec NThen s in
      let* (_, s) := musthave (is_key (L "fi")) (fl false true) s in
      finish true [] (block T_IF c t) s
    else if str_eqb k (L "!") then
      let* (t, s) := rec (NPipeline false) s in
      if is_null t then Fail else finish false [] (block T_BANG TNull t) s
    else if str_eqb k (L "time") then
      let* (t, s) := rec (NPipeline false) s in
      match timed t with Some t => finish false [] (block T_TIME t TNull) s | None => Fail end
    else if str_eqb k (L "function") then
      let* (wi, s) := musthave_word (fl false false) s in
      let* (t, s) := rec (NFunction (fst wi) true) s in finish true [] t s
    else Ok TNull (rej s)
  | _ => Ok TNull (rej s)
  end.
(** pipeline (syn.c:72-90) *)
Definition pipeline_ (ct : bool) (s : pst) : res op :=
  let* (t, s) := rec (NCommand ct) s in
  if is_null t then Ok t s else rec (NPipeLoop 0 t) s.
(** pipe_loop (syn.c:79-87) *)
Definition pipe_loop_ (d : nat) (t : op) (s : pst) : res op :=
  let* (c, s) := token_ (fl false false) s in
  if is_op "|" c then
    let* (p, s) := rec (NCommand true) s in
    if is_null p then Fail else rec (NPipeLoop (S d) (graft T_PIPE d t p)) s
  else Ok t (rej s).
(** andor (syn.c:92-108) *)
Definition andor_ (s : pst) : res op :=
  let* (t, s) := rec (NPipeline false) s in
  if is_null t then Ok t s else rec (NAndorLoop t) s.
(** andor_loop (syn.c:100-105) *)
Definition andor_loop_ (t : op) (s : pst) : res op :=
  let* (c, s) := token_ (fl false false) s in
  match c with
  | LOGAND | LOGOR =>
    let* (p, s) := rec (NPipeline true) s in
    if is_null p then Fail
    else rec (NAndorLoop (block (match c with LOGAND => T_AND | _ => T_OR end) t p)) s
  | _ => Ok t (rej s)
  end.
(** c_list (syn.c:110-145) *)
Definition c_list_ (multi : bool) (s : pst) : res op :=
  rec (NListLoop multi TNull 0) s.
(** list_loop (syn.c:116-142) *)
Definition list_loop_ (multi : bool) (t : op) (d : nat) (s : pst) : res op :=
  let* (p, s) := rec NAndor s in
  let* (c, s) := token_ (fl false false) s in
  let add p := if is_null t then p else graft T_LIST d t p in
  let d' := if is_null t then 0 else S d in
  if is_op NL c && (multi || inalias (lx s)) then
    if is_null p then rec (NListLoop multi t d) s else rec (NListLoop multi (add p) d') s
  else if is_null p then Ok t (rej s)
  else if is_op "&" c then rec (NListLoop multi (add (block T_ASYNC p TNull)) d') s
  else match c with
       | COPROC => rec (NListLoop multi (add (block T_COPROC p TNull)) d') s
       | _ => if is_op ";" c then rec (NListLoop multi (add p) d') s else Ok (add p) (rej s)
       end.
(** nested (syn.c:178-189) *)
Definition nested_ (type : Z) (emark : token -> bool) (s : pst) : res op :=
  let* (t, s) := rec (NList true) s in
  let* (_, s) := musthave emark (fl false true) s in
  Ok (block type t TNull) s.
(** dogroup (syn.c:416-437) *)
Definition dogroup_ (s : pst) : res op :=
  let* (c, s) := token_ (fl true true) s in
  if is_key (L "do") c || is_key (L "{") c then
    let* (t, s) := rec (NList true) s in
    let* (_, s) := musthave (is_key (if is_key (L "do") c then L "done" else L "}")) (fl false true) s in
    Ok t s
  else Fail.
(** thenpart (syn.c:439-450) *)
Definition thenpart_ (s : pst) : res op :=
  let* (_, s) := musthave (is_key (L "then")) (fl false true) s in
  let* (l, s) := rec (NList true) s in
  if is_null l then Fail
  else let* (r, s) := rec NElse s in Ok (block 0 l r) s.
(** elsepart (syn.c:452-474) *)
Definition elsepart_ (s : pst) : res op :=
  let* (c, s) := token_ (fl_cmd false) s in
  if is_key (L "else") c then
    let* (t, s) := rec (NList true) s in if is_null t then Fail else Ok t s
  else if is_key (L "elif") c then
    let* (l, s) := rec (NList true) s in
    let* (r, s) := rec NThen s in
    Ok (block T_ELIF l r) s
  else Ok TNull (rej s).
(** caselist (syn.c:476-500) *)
Definition caselist_ (s : pst) : res op :=
  let* (c, s) := token_ (fl true true) s in
  if is_key (L "in") c || is_key (L "{") c then
    let e := if is_key (L "in") c then L "esac" else L "}" in
    let* (t, s) := rec (NCaseLoop e) s in
    let* (_, s) := musthave (is_key e) (fl false true) s in
    Ok t s
  else Fail.
(** case_loop (syn.c:490-496) *)
Definition case_loop_ (e : cstr) (s : pst) : res op :=
  let* (c, s) := tpeek (fl_kw true true) s in
  if is_key e c then Ok TNull s
  else
    let* (t, s) := rec (NCase e) s in
    let* (r, s) := rec (NCaseLoop e) s in
    Ok (match t with TOp ty fl a v io l _ st ln => TOp ty fl a v io l r st ln | TNull => TNull end) s.
(** casepart (syn.c:502-528) *)
Definition casepart_ (e : cstr) (s : pst) : res op :=
  let* (c, s) := token_ (fl_kw true false) s in
  let s := if is_op "(" c then s else rej s in
  let* (ps, s) := patterns n [] s in
  let* (_, s) := musthave (is_op ")") (fl false false) s in
  let* (l, s) := rec (NList true) s in
  let* (c, s) := tpeek (fl true true) s in
  let* (_, s) := (if is_key e c then Ok tt s
                  else musthave (fun t => match t with BREAK => true | _ => false end) (fl true true) s) in
  Ok (TOp T_PAT 0 None (Some ps) None l TNull None 0) s.
(** function_body (syn.c:530-588) *)
Definition function_body_ (name : cstr) (ksh : bool) (s : pst) : res op :=
  match wdstrip name with
  | None => Fail                                                   (* out of bounds: see Word_model *)
  | Some sname =>
    if existsb bad_func_char sname then Fail
    else
      let* (_, s) := (if ksh then let* (_, s) := musthave (is_key (L "{")) (fl true true) s in Ok tt (rej s)
                      else Ok tt s) in
      let* (t, s) := rec (NCommand true) s in
      Ok (TOp T_FUNCT (if ksh then 1 else 0) None None None (if is_null t then colon else t) TNull (Some (sname ++ [NUL])) 0) s
  end.
End Open.
(** The whole parser; [n] bounds the depth and the loops. *)
Fixpoint parse (n : nat) (j : nonterminal) (s : pst) {struct n} : res op :=
  match n with
  | 0 => Oof
  | S n =>
    match j with
    | NCommand ct => get_command_ n (parse n) ct s
    | NPipeline ct => pipeline_ (parse n) ct s
    | NPipeLoop d t => pipe_loop_ (parse n) d t s
    | NAndor => andor_ (parse n) s
    | NAndorLoop t => andor_loop_ (parse n) t s
    | NList multi => c_list_ (parse n) multi s
    | NListLoop multi t d => list_loop_ (parse n) multi t d s
    | NNested type emark => nested_ (parse n) type emark s
    | NDo => dogroup_ (parse n) s
    | NThen => thenpart_ (parse n) s
    | NElse => elsepart_ (parse n) s
    | NCases => caselist_ (parse n) s
    | NCaseLoop e => case_loop_ (parse n) e s
    | NCase e => casepart_ n (parse n) e s
    | NFunction name ksh => function_body_ (parse n) name ksh s
    end
  end.
(** yyparse (syn.c:57-70) *)
Definition yyparse (n : nat) (multi : bool) (l : St) : res op :=
  let* (t, s) := parse n (NList multi) (PSt l false (CTok NUL)) in
  let* (c, s) := tpeek (fl false false) s in
  if is_op NUL c && is_null t then Ok (block T_EOF TNull TNull) s
  else if is_op NL c || is_op NUL c then Ok t s
  else Fail.
End Parser.
