(** Words that are printed as they can be read again, and when two words mean the same. *)
From Verif Require Import Base Word_model Word_spec.
Local Open Scope nat_scope.

(** Characters printed as themselves: not the control characters and DEL, with or without the
    high bit. *)
Definition printable (c : char) : bool := negb (cbetween "000" "031" c || cbetween "127" "159" c || ceq c "255").
Definition printables (s : cstr) : bool := forallb printable s.

(** Where a part of a word is: not in braces; in ${...} outside and inside quotes; in the pattern
    of ${x#...} and ${x%...}; in a pattern list. *)
Inductive ctx := CBase | CBrace | CBraceQ | CTrim | CPat.
Definition has_patterns (x : ctx) : bool := match x with CBraceQ => false | _ => true end.
Definition is_braceq (x : ctx) : bool := match x with CBraceQ => true | _ => false end.
Definition name_start (c : char) : bool := isalpha c || ceq c "_".
Definition name_char (c : char) : bool := name_start c || isdigit c.
Definition parameter (c : char) : bool := mem c (L "*@#!$-?").
(** [c], followed by [nx], stands for itself there; [d]: in double quotes *)
Definition meta (x : ctx) (d : bool) : cstr :=
  if d then L "\""`"
  else match x with
       | CBase => [SP; TAB; NL] ++ L "|&;<>()\'""`"
       | CBrace => L "}\'""`"
       | CBraceQ => L "}\""`"
       | CTrim => L "}|(\'""`"
       | CPat => L ")|(\'""`"
       end.
Definition itself (x : ctx) (d : bool) (c nx : char) : bool :=
  printable c && negb (mem c (meta x d)) &&
  (if ceq c "$" then negb (mem nx (L "({") || name_start nx || parameter nx || isdigit nx) else true) &&
  (if mem c (L "*@+?!") && negb d && has_patterns x then negb (ceq nx "(") else true).

(** ** Names
    what may be between ${ and an operator [nx] *)
Definition ident (s : cstr) : bool := match s with c :: s => name_start c && forallb name_char s | [] => false end.
Definition digits (s : cstr) : bool := match s with [] => false | _ => forallb isdigit s end.
(** brackets match *)
Fixpoint brackets (depth : nat) (s : cstr) : bool :=
  match s with
  | [] => Nat.eqb depth 0
  | c :: s => if ceq c "[" then brackets (S depth) s
              else if ceq c "]" then match depth with S d => brackets d s | O => false end
              else brackets depth s
  end.
Inductive brace_name : cstr -> char -> Prop :=
| bn_ident h s c : h = [] \/ h = L "#" -> ident s = true -> name_char c = false -> c <> "["%char -> brace_name (h ++ s) c
| bn_digits h s c : h = [] \/ h = L "#" -> digits s = true -> isdigit c = false -> brace_name (h ++ s) c
| bn_elem h s sub c : h = [] \/ h = L "#" -> ident s = true -> printables sub = true -> brackets 0 sub = true ->
    brace_name (h ++ s ++ L "[" ++ sub ++ L "]") c
| bn_one d c : parameter d = true -> d <> "#"%char -> brace_name [d] c
| bn_len d c : parameter d = true -> brace_name ["#"%char; d] c
| bn_hash c : name_start c = false -> isdigit c = false -> parameter c = false -> brace_name ["#"%char] c.
(** $name followed by [nx] *)
Definition dollar_name (s : cstr) (nx : char) : bool :=
  (ident s && negb (name_char nx)) || match s with [c] => parameter c || isdigit c | _ => false end.

(** ** The text of $(...) and $((...)): quotes and parentheses match *)
Inductive quoting := QNone | QBack | QDouble | QDback | QSingle.
Fixpoint closed (depth : nat) (m : quoting) (s : cstr) : bool :=
  match s with
  | [] => Nat.eqb depth 0 && match m with QNone => true | _ => false end
  | c :: s =>
    match m with
    | QNone => if ceq c "(" then closed (S depth) m s
               else if ceq c ")" then match depth with S d => closed d m s | O => false end
               else closed depth (if ceq c "\" then QBack else if ceq c """" then QDouble else if ceq c "'" then QSingle else QNone) s
    | QBack => closed depth QNone s
    | QDback => closed depth QDouble s
    | QDouble => closed depth (if ceq c """" then QNone else if ceq c "\" then QDback else QDouble) s
    | QSingle => closed depth (if ceq c "'" then QNone else QSingle) s
    end
  end.
Fixpoint balanced (depth : nat) (s : cstr) : bool :=
  match s with
  | [] => Nat.eqb depth 0
  | c :: s => if ceq c "(" then balanced (S depth) s
              else if ceq c ")" then match depth with S d => balanced d s | O => false end
              else balanced depth s
  end.

(** ** Words
    tputS prints a quoted character without \ between a double quote it has seen open and the next
    one closing, whatever they enclose ([f]), except these: *)
Definition bare (f : bool) (c : char) : bool := f && negb (mem c (L """`$")).
(** the first character printed for [w], followed by [t] *)
Definition first (f : bool) (w : word) (t : char) : char :=
  match w with
  | [] => t
  | Chr c :: _ => c
  | Qch c :: _ => if bare f c then c else "\"%char
  | OQ :: _ | CQ :: _ => """"%char
  | Com _ :: _ | Exp _ :: _ | Sub _ _ _ :: _ => "$"%char
  | Pat k _ :: _ => k
  end.
Definition trims (w : word) : bool :=
  match w with Chr ":" :: Chr c :: _ | Chr c :: _ => mem c (L "#%") | _ => false end.
Definition inside (x : ctx) (d : bool) (w : word) : ctx :=
  if trims w then CTrim else if d || is_braceq x then CBraceQ else CBrace.
(** ${name}, ${name op word} or ${name:op word}: the first character after the name, and what
    follows a colon *)
Definition operator (c : char) : bool := mem c (L "-=?+#%").
Definition after_name (w : word) : option (char * word) :=
  match w with
  | [] => Some ("}"%char, [])
  | Chr c :: w' => if operator c then Some (c, w)
                   else if ceq c ":" then match w' with Chr o :: _ => if operator o then Some (c, w') else None | _ => None end
                   else None
  | _ => None
  end.
(** [ok x f d w t f']: [w], in [x] and followed by [t], is printed so that it can be read again;
    [f], [f']: see [bare], before and after *)
Inductive ok : ctx -> bool -> bool -> word -> char -> bool -> Prop :=
| ok_nil x f t : ok x f false [] t f
| ok_chr x f d c w t f' : itself x d c (first f w t) = true -> ok x f d w t f' -> ok x f d (Chr c :: w) t f'
(* "\a": the backslash is kept *)
| ok_back x f i c w t f' : i = Chr "\" \/ i = Qch "\" /\ f = true -> printable c = true -> ~ In c (L "\""`$") ->
    ok x f true w t f' -> ok x f true (i :: Chr c :: w) t f'
| ok_qback x i c w t f' : i = Chr "\" \/ i = Qch "\" -> printable c = true -> ~ In c (L "\""`$") ->
    ok x true true w t f' -> ok x true true (i :: Qch c :: w) t f'
| ok_qch x f d c w t f' : printable c = true -> bare f c = false -> (d = true -> In c (L "\""`$")) ->
    ok x f d w t f' -> ok x f d (Qch c :: w) t f'
| ok_bare x d c w t f' : bare true c = true -> d || is_braceq x = true -> itself x d c (first true w t) = true ->
    ok x true d w t f' -> ok x true d (Qch c :: w) t f'
| ok_open x f w t f' : ok x true true w t f' -> ok x f false (OQ :: w) t f'
| ok_close x f w t f' : ok x false false w t f' -> ok x f true (CQ :: w) t f'
| ok_com x f d s w t f' : printables s = true -> closed 0 QNone s = true -> hd_error s <> Some "("%char ->
    ok x f d w t f' -> ok x f d (Com s :: w) t f'
| ok_exp x f d s w t f' : printables s = true -> balanced 0 s = true ->
    ok x f d w t f' -> ok x f d (Exp s :: w) t f'
| ok_name x f d s w t f' : dollar_name s (first f w t) = true ->
    ok x f d w t f' -> ok x f d (Sub false s [] :: w) t f'
| ok_brace x f d s v c v' w t f1 f' : after_name v = Some (c, v') -> brace_name s c ->
    ok (inside x d v) f false v' "}" f1 -> ok x f1 d w t f' -> ok x f d (Sub true s v :: w) t f'
| ok_pat x f k ps w t f1 f' : has_patterns x = true -> In k (L "*@+?!") ->
    okp f ps f1 -> ok x f1 false w t f' -> ok x f false (Pat k ps :: w) t f'
with okp : bool -> pats -> bool -> Prop :=
| okp_one f w f' : ok CPat f false w ")" f' -> okp f (P1 w) f'
| okp_cons f w ps f1 f' : ok CPat f false w "|" f1 -> okp f1 ps f' -> okp f (PCons w ps) f'.

(** ** The same word: where the text is quoted ([q]) it does not matter whether a character is quoted
    once more.  After ${...} it is quoted as it was before, and a pattern to trim starts unquoted. *)
Inductive same : bool -> word -> word -> bool -> Prop :=
| same_nil q : same q [] [] q
| same_chr q c w w' q2 : same q w w' q2 -> same q (Chr c :: w) (Chr c :: w') q2
| same_qch q c w w' q2 : same q w w' q2 -> same q (Qch c :: w) (Qch c :: w') q2
| same_quoted c w w' q2 : same true w w' q2 -> same true (Qch c :: w) (Chr c :: w') q2
| same_open q w w' q2 : same true w w' q2 -> same q (OQ :: w) (OQ :: w') q2
| same_close q w w' q2 : same false w w' q2 -> same q (CQ :: w) (CQ :: w') q2
| same_com q s w w' q2 : same q w w' q2 -> same q (Com s :: w) (Com s :: w') q2
| same_exp q s w w' q2 : same q w w' q2 -> same q (Exp s :: w) (Exp s :: w') q2
| same_name q s w w' q2 : same q w w' q2 -> same q (Sub false s [] :: w) (Sub false s [] :: w') q2
| same_brace q s v v' q1 w w' q2 : after_name v <> None -> same (negb (trims v) && q) v v' q1 -> same q w w' q2 ->
    same q (Sub true s v :: w) (Sub true s v' :: w') q2
| same_pat q k ps ps' q1 w w' q2 : samep q ps ps' q1 -> same q1 w w' q2 -> same q (Pat k ps :: w) (Pat k ps' :: w') q2
with samep : bool -> pats -> pats -> bool -> Prop :=
| samep_one q w w' q1 : same q w w' q1 -> samep q (P1 w) (P1 w') q1
| samep_cons q w w' q1 ps ps' q2 : same q w w' q1 -> samep q1 ps ps' q2 -> samep q (PCons w ps) (PCons w' ps') q2.
(** the characters of a word with no quotes and expansions: it may be a reserved word or an alias *)
Fixpoint letters (w : word) : option cstr :=
  match w with
  | [] => Some []
  | Chr c :: w => option_map (cons c) (letters w)
  | _ => None
  end.
