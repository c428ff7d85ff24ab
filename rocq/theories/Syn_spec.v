(** The shell grammar, as a relation between sequences of lexemes and trees; written from the
    manual, not from the parser. *)
From Verif Require Import Base Word_model Lex_model Syn_model.
Local Open Scope nat_scope.

(** * Lexemes, and the lexer that hands them out *)
(** A word with its identifier (empty if quoted), a newline, or an operator. *)
Inductive lexeme := XWord (w id : cstr) | XNl | XTok (t : token).
(** The reserved words (syn.c:627-662). *)
Definition reserved : list cstr :=
  map L ["if"; "then"; "else"; "elif"; "fi"; "case"; "esac"; "for"; "select"; "while"; "until"; "do"; "done";
         "in"; "function"; "time"; "{"; "}"; "!"; "[["]%string.
Definition is_reserved (id : cstr) : bool := existsb (str_eqb id) reserved.
(** Newlines are skipped after a connective; reserved words are known where a command starts. *)
Fixpoint lexl (cf : flags) (ts : list lexeme) : token * list lexeme :=
  match ts with
  | [] => (CTok NUL, [])
  | XNl :: ts => if contin cf then lexl cf ts else (CTok NL, ts)
  | XWord w id :: ts =>
    if keyword cf && is_reserved id && (negb (esaconly cf) || str_eqb id (L "esac") || str_eqb id (L "}"))
    then (KEY id, ts) else (LWORD w id, ts)
  | XTok t :: ts => (t, ts)
  end.
Definition lex_list (cf : flags) (ts : list lexeme) : option (token * list lexeme) := Some (lexl cf ts).

(** * The grammar *)
Definition encode (s : cstr) : cstr := flat_map (fun c => [CHAR; c]) s ++ [EOS].
Definition K (s : string) : lexeme := XWord (encode (L s)) (L s).
Definition O (c : char) : lexeme := XTok (CTok c).
Definition nls (n : nat) : list lexeme := repeat XNl n.
(** a, b, c: a <type> (b <type> c). *)
Fixpoint rnest (type : Z) (l : list op) : op :=
  match l with
  | [] => TNull
  | [x] => x
  | x :: l => block type x (rnest type l)
  end.
Inductive redirections : list lexeme -> list ioword -> Prop :=
| r_nil : redirections [] []
| r_cons u f sk cl rd w id ts io :
    redirections ts io ->
    redirections (XTok (REDIR u f sk cl rd) :: XWord w id :: ts) (io_word u f sk cl rd w id :: io).
(** What a simple command consists of, in order. *)
Inductive item := IWord (w id : cstr) | IRedir (u : nat) (f : ioflag) (sk cl rd : bool) (w id : cstr).
Definition item_lex (i : item) : list lexeme :=
  match i with
  | IWord w id => [XWord w id]
  | IRedir u f sk cl rd w id => [XTok (REDIR u f sk cl rd); XWord w id]
  end.
Definition words_of (its : list item) : list cstr :=
  flat_map (fun i => match i with IWord w _ => [w] | _ => [] end) its.
Definition redirs_of (its : list item) : list ioword :=
  flat_map (fun i => match i with IRedir u f sk cl rd w id => [io_word u f sk cl rd w id] | _ => [] end) its.
(** Assignments: the words before the first that is none; all of them with the option keyword. *)
Fixpoint leading (ws : list cstr) : list cstr * list cstr :=
  match ws with
  | [] => ([], [])
  | w :: ws => if is_wdvarassign w then let '(v, a) := leading ws in (w :: v, a) else ([], w :: ws)
  end.
Definition assignments (everywhere : bool) (ws : list cstr) : list cstr * list cstr :=
  if everywhere then (filter is_wdvarassign ws, filter (fun w => negb (is_wdvarassign w)) ws) else leading ws.
Definition not_reserved_first (its : list item) : bool :=
  match its with IWord _ id :: _ => negb (is_reserved id) | IRedir _ _ _ _ _ _ _ :: _ => true | [] => false end.
Definition with_time (t t' : op) : Prop :=
  match t with
  | TNull => False
  | TOp ty fl a v io l r None n => t' = TOp ty fl a v io l r (Some [NUL; NUL]) n
  | TOp ty fl a v io l r (Some s) n => (exists s', s = s' ++ [NUL] /\ ~ In NUL s') /\ t' = t
  end.
Inductive names : list lexeme -> option (list cstr) -> Prop :=
| n_none : names [] None
| n_semi n : names (nls n ++ [O ";"]) None
| n_in n ws sep : sep = O ";" \/ sep = XNl ->
    names (nls n ++ K "in" :: map (fun p => XWord (fst p) (snd p)) ws ++ [sep]) (Some (map fst ws)).
Definition pattern_lex (ps : list (cstr * cstr)) : list lexeme :=
  flat_map (fun p => [O "|"; XWord (fst p) (snd p)]) ps.
Inductive sep : bool -> lexeme -> (op -> op) -> Prop :=
| s_semi m : sep m (O ";") (fun t => t)
| s_nl : sep true XNl (fun t => t)
| s_async m : sep m (O "&") (fun t => block T_ASYNC t TNull)
| s_coproc m : sep m (XTok COPROC) (fun t => block T_COPROC t TNull).

Section Grammar.
Variables posix everywhere : bool.

(** [k]: a reserved word may follow at once, as the command is a compound one.  [o]: what follows
    a pipe sign would belong to the command (negated and timed pipelines). *)
Inductive cmd : list lexeme -> op -> bool -> bool -> Prop :=
| c_simple its vars args :
    not_reserved_first its = true -> length (redirs_of its) <= NUFILE ->
    assignments everywhere (words_of its) = (vars, args) ->
    cmd (flat_map item_lex its)
        (set_io (redirs_of its)
           (TOp T_COM (match its with IWord _ id :: _ => if assign_command posix id then DOVACHECK else 0 | _ => 0 end)
                (Some args) (Some vars) None TNull TNull None 0)) false false
| c_sub ts els k rs io :
    lst true ts els k -> redirections rs io -> length io <= NUFILE ->
    cmd (O "(" :: ts ++ O ")" :: rs) (set_io io (block T_PAREN (rnest T_LIST els) TNull)) true false
| c_rsub rs0 io0 ts els k rs io :
    redirections rs0 io0 -> io0 <> [] ->
    lst true ts els k -> redirections rs io -> length (io0 ++ io) <= NUFILE ->
    cmd (rs0 ++ O "(" :: ts ++ O ")" :: rs) (set_io (io0 ++ io) (block T_PAREN (rnest T_LIST els) TNull)) false false
| c_brace ts els rs io :
    lst true ts els true -> redirections rs io -> length io <= NUFILE ->
    cmd (K "{" :: ts ++ K "}" :: rs) (set_io io (block T_BRACE (rnest T_LIST els) TNull)) true false
| c_let w id rs io :
    redirections rs io -> length io <= NUFILE ->
    cmd (XTok MDPAREN :: XWord w id :: rs)
        (set_io io (TOp T_COM 0 (Some [encode (L "let"); w]) (Some []) None TNull TNull None 0)) true false
| c_for (sel : bool) w id ns vs ts t rs io :
    is_wdvarname_a w = true -> names ns vs -> dog ts t ->
    redirections rs io -> length io <= NUFILE ->
    cmd (K (if sel then "select" else "for") :: XWord w id :: ns ++ ts ++ rs)
        (set_io io (TOp (if sel then T_SELECT else T_FOR) 0 None vs None t TNull (Some (id ++ [NUL])) 0)) true false
| c_while (u : bool) ts els ts' els' rs io :
    lst true ts els true -> els <> [] -> lst true ts' els' true ->
    redirections rs io -> length io <= NUFILE ->
    cmd (K (if u then "until" else "while") :: ts ++ K "do" :: ts' ++ K "done" :: rs)
        (set_io io (block (if u then T_UNTIL else T_WHILE) (rnest T_LIST els) (rnest T_LIST els'))) true false
| c_case w id n (br : bool) ts t rs io :
    cases ts t -> redirections rs io -> length io <= NUFILE ->
    cmd (K "case" :: XWord w id :: nls n ++ K (if br then "{" else "in") :: ts ++
           K (if br then "}" else "esac") :: rs)
        (set_io io (TOp T_CASE 0 None None None t TNull (Some w) 0)) true false
| c_if ts els ts' t rs io :
    lst true ts els true -> thn ts' t ->
    redirections rs io -> length io <= NUFILE ->
    cmd (K "if" :: ts ++ ts' ++ K "fi" :: rs) (set_io io (block T_IF (rnest T_LIST els) t)) true false
| c_bang ts l k : pipe ts l k -> cmd (K "!" :: ts) (block T_BANG TNull (rnest T_PIPE l)) k true
| c_time ts l k t : pipe ts l k -> with_time (rnest T_PIPE l) t -> cmd (K "time" :: ts) (block T_TIME t TNull) k true
| c_func w id n name ts t k o :
    is_reserved id = false -> is_wdvarassign w = false ->
    wdstrip w = Some name -> existsb bad_func_char name = false -> cmd ts t k o ->
    cmd (XWord w id :: O "(" :: O ")" :: nls n ++ ts)
        (TOp T_FUNCT 0 None None None t TNull (Some (name ++ [NUL])) 0) k o
| c_kfunc w id n name ts t k o :
    wdstrip w = Some name -> existsb bad_func_char name = false -> cmd (K "{" :: ts) t k o ->
    cmd (K "function" :: XWord w id :: nls n ++ K "{" :: ts)
        (TOp T_FUNCT 1 None None None t TNull (Some (name ++ [NUL])) 0) k o
with pipe : list lexeme -> list op -> bool -> Prop :=
| p_one ts t k o : cmd ts t k o -> pipe ts [t] k
| p_cons ts t k n ts' l k' : cmd ts t k false -> pipe ts' l k' -> pipe (ts ++ O "|" :: nls n ++ ts') (t :: l) k'
with andors : list lexeme -> op -> bool -> Prop :=
| a_pipe ts l k : pipe ts l k -> andors ts (rnest T_PIPE l) k
| a_and ts t k n ts' l k' : andors ts t k -> pipe ts' l k' ->
    andors (ts ++ XTok LOGAND :: nls n ++ ts') (block T_AND t (rnest T_PIPE l)) k'
| a_or ts t k n ts' l k' : andors ts t k -> pipe ts' l k' ->
    andors (ts ++ XTok LOGOR :: nls n ++ ts') (block T_OR t (rnest T_PIPE l)) k'
with lst : bool -> list lexeme -> list op -> bool -> Prop :=
| l_nil m : lst m [] [] true
| l_blank ts els k : lst true ts els k -> lst true (XNl :: ts) els k
| l_last m ts t k : andors ts t k -> lst m ts [t] k
| l_sep m ts t k s w ts' els k' : andors ts t k -> sep m s w -> lst m ts' els k' ->
    lst m (ts ++ s :: ts') (w t :: els) k'
with dog : list lexeme -> op -> Prop :=
| d_do n ts els : lst true ts els true -> dog (nls n ++ K "do" :: ts ++ [K "done"]) (rnest T_LIST els)
| d_brace n ts els : lst true ts els true -> dog (nls n ++ K "{" :: ts ++ [K "}"]) (rnest T_LIST els)
with thn : list lexeme -> op -> Prop :=
| t_then ts els ts' r : lst true ts els true -> els <> [] -> els_ ts' r ->
    thn (K "then" :: ts ++ ts') (block 0 (rnest T_LIST els) r)
with els_ : list lexeme -> op -> Prop :=
| e_none : els_ [] TNull
| e_else ts els : lst true ts els true -> els <> [] -> els_ (K "else" :: ts) (rnest T_LIST els)
| e_elif ts els ts' t : lst true ts els true -> thn ts' t -> els_ (K "elif" :: ts ++ ts') (block T_ELIF (rnest T_LIST els) t)
with cases : list lexeme -> op -> Prop :=
| k_nil n : cases (nls n) TNull
| k_item n (paren : bool) w id ps ts els k ts' r :
    paren = true \/ (id <> L "esac" /\ id <> L "}") ->
    lst true ts els k -> cases ts' r ->
    cases (nls n ++ (if paren then [O "("] else []) ++ XWord w id :: pattern_lex ps ++ O ")" ::
             ts ++ XTok BREAK :: ts')
          (TOp T_PAT 0 None (Some (w :: map fst ps)) None (rnest T_LIST els) r None 0)
| k_last n (paren : bool) w id ps ts els :
    paren = true \/ (id <> L "esac" /\ id <> L "}") ->
    lst true ts els true ->
    cases (nls n ++ (if paren then [O "("] else []) ++ XWord w id :: pattern_lex ps ++ O ")" :: ts)
          (TOp T_PAT 0 None (Some (w :: map fst ps)) None (rnest T_LIST els) TNull None 0).
End Grammar.

(** What may come after a list: the end of input, ) and ;; , a newline if that does not separate
    commands, and reserved words that start no command. *)
Definition closer (id : cstr) : bool := existsb (str_eqb id) (map L ["then"; "else"; "elif"; "fi"; "do"; "done"; "esac"; "}"]%string).
Definition closes (multi k : bool) (rest : list lexeme) : bool :=
  match rest with
  | [] => true
  | XNl :: _ => negb multi
  | XTok (CTok c) :: _ => ceq c ")"
  | XTok BREAK :: _ => true
  | XTok _ :: _ => false
  | XWord _ id :: _ => k && closer id
  end.

(** * The words that are assignments, and names of variables *)
Definition wd (t : cstr) : cstr := flat_map (fun c => [CHAR; c]) t.
Definition id_first (c : char) : Prop := let n := nat_of_ascii c in 65 <= n <= 90 \/ 97 <= n <= 122 \/ n = 95.
Definition id_more (c : char) : Prop := id_first c \/ 48 <= nat_of_ascii c <= 57.
Definition identifier (t : cstr) : Prop := exists c r, t = c :: r /\ id_first c /\ Forall id_more r.
(** [sub_closes d t]: [t] ends where the last of [d] open brackets is closed. *)
Inductive sub_closes : nat -> cstr -> Prop :=
| cl_end : sub_closes 1 ["]"%char]
| cl_open d t : sub_closes (S d) t -> sub_closes d ("["%char :: t)
| cl_close d t : sub_closes (S d) t -> sub_closes (S (S d)) ("]"%char :: t)
| cl_char d c t : c <> "["%char -> c <> "]"%char -> sub_closes d t -> sub_closes d (c :: t).
Definition subscript (t : cstr) : Prop := t = [] \/ exists r, t = "["%char :: r /\ sub_closes 1 r.
(** name=... or name[...]=..., all unquoted up to the =; and name or name[...] *)
Definition assignment_word (w : cstr) : Prop := exists n i r, w = wd n ++ wd i ++ CHAR :: "="%char :: r /\ identifier n /\ subscript i.
Definition name_word (w : cstr) : Prop := exists n i r, w = wd n ++ wd i ++ EOS :: r /\ identifier n /\ subscript i.

(** The characters that may not occur in the name of a function: white space and the special characters of the shell. *)
Definition special_codes : list nat := [9; 10; 32; 34; 35; 36; 38; 39; 40; 41; 42; 59; 60; 61; 62; 63; 91; 92; 96; 124].
