(** What a word expands to. *)
From Verif Require Import Base Num_model Glob_model Trim_model Trim_spec Word_model Expand_model.

(** A word: literal and escaped characters, "l", $n or ${n}, ${n[:]op l}, $(t), $((t)), c(l), and
    the | inside of it; each is followed by the rest of the word. *)
Inductive parts :=
| Stop
| Lit (c : char) (k : parts)
| Esc (c : char) (k : parts)
| Dq (l k : parts)
| Var (braces : bool) (n : cstr) (k : parts)
| Opr (n : cstr) (colon : bool) (op : char) (l k : parts)
| Com (t : cstr) (k : parts)
| Ari (t : cstr) (k : parts)
| Grp (c : char) (l k : parts)
| Bar (k : parts).
Fixpoint code (p : parts) : cstr :=
  match p with
  | Stop => []
  | Lit c k => CHAR :: c :: code k
  | Esc c k => QCHAR :: c :: code k
  | Dq l k => OQUOTE :: code l ++ CQUOTE :: code k
  | Var b n k => OSUBST :: (if b then "{" else "X")%char :: n ++ NUL :: CSUBST :: (if b then "}" else "X")%char :: code k
  | Opr n colon o l k => OSUBST :: "{"%char :: n ++ NUL :: (if colon then [CHAR; ":"%char] else []) ++ CHAR :: o :: code l ++ CSUBST :: "}"%char :: code k
  | Com t k => COMSUB :: t ++ NUL :: code k
  | Ari t k => EXPRSUB :: t ++ NUL :: code k
  | Grp c l k => OPAT :: c :: code l ++ CPAT :: code k
  | Bar k => SPAT :: code k
  end.

(** The effects that matter for the fields. *)
Inductive item :=
| Txt (first : bool) (t : tok)   (* a character of the text; [first]: the first one of a parameter's value *)
| Sep (c : char)                 (* a character that separates fields *)
| Quo | Unq                      (* an opening and a closing quote *)
| Full                           (* there is a field, if it has characters or not *)
| Begin                          (* a substitution *)
| Null                           (* $@ without parameters *)
| Alt                            (* an unquoted alternative: ${x-...} *)
| Args (l : list (list tok))     (* "$@" *)
| Brk.                           (* the end of one parameter of an unquoted $*, if IFS is empty *)

Inductive vkind := Scalar (v : option cstr) | Vector (at_ : bool) (l : list cstr).

Section Sem.
Context {E : Type}.
Variable y : sys E.
Variable bl : bool.      (* fields are split *)

Definition scalar_name (n : cstr) : bool :=
  match n with [] => false | c :: r => negb (mem "["%char n) && negb (mem c (L "@*")) && (negb (ceq c "#") || match r with [] => true | _ => false end) end.
Definition array_name (n : cstr) : option bool :=
  let k := (length n - 3)%nat in
  if scalar_name (firstn k n) && negb (str_eqb (firstn k n) (L "#")) then
    if str_eqb (skipn k n) (L "[@]") then Some true else if str_eqb (skipn k n) (L "[*]") then Some false else None
  else None.
Definition kind (e : E) (n : cstr) : option vkind :=
  if str_eqb n (L "@") then Some (Vector true (params y e))
  else if str_eqb n (L "*") then Some (Vector false (params y e))
  else if scalar_name n then Some (Scalar (value y e n))
  else match array_name n with Some a => Some (Vector a (elems y e n)) | None => None end.
Definition special (n : cstr) : bool := str_eqb n (L "@") || str_eqb n (L "*").
Definition unset (k : vkind) : bool := match k with Scalar None | Vector _ [] => true | _ => false end.
(** with a colon, empty counts as unset; for $* and arrays the first one decides *)
Definition missing (colon : bool) (k : vkind) : bool :=
  match k with
  | Scalar None | Vector _ [] => true
  | Scalar (Some s) => colon && match s with [] => true | _ => false end
  | Vector _ (s :: _) => colon && match s with [] => true | _ => false end
  end.

Definition tk (q : bool) (c : char) : tok := if q then TQ c else TU c.
Definition sep_at (q : bool) (e : E) (c : char) : bool := negb q && bl && mem c (ifs y e).
Fixpoint chars (q : bool) (e : E) (first : bool) (s : cstr) : list item :=
  match s with
  | [] => []
  | c :: r => if sep_at q e c then Sep c :: chars q e first r else Txt first (tk q c) :: chars q e false r
  end.
(** the character between two parameters *)
Definition between (q : bool) (e : E) : list item :=
  let c := ifs0 (ifs y e) in if is_nul c then (if q then [] else [Brk]) else if negb q && bl then [Sep c] else [Txt false (tk q c)].
Fixpoint joined (q : bool) (e : E) (l : list cstr) : list item :=
  match l with
  | [] => []
  | [s] => chars q e false s
  | s :: r => chars q e false s ++ between q e ++ joined q e r
  end.
(** "$@" where fields are not split *)
Fixpoint at_joined (e : E) (l : list cstr) : list item :=
  match l with
  | [] => []
  | [s] => chars true e false s ++ [Full]
  | s :: r => chars true e false s ++ [Full; Txt false (TU (ifs0 (ifs y e)))] ++ at_joined e r
  end.
Definition subst (q : bool) (e : E) (k : vkind) : list item :=
  match k with
  | Scalar v => Begin :: chars q e true (match v with Some s => s | None => [] end)
  | Vector true [] => [Null]
  | Vector false [] => [Begin]
  | Vector true l => Begin :: if q then if bl || is_nul (ifs0 (ifs y e)) then [Args (map (map TQ) l)] else at_joined e l else joined q e l
  | Vector false l => Begin :: joined q e l
  end.

Fixpoint drop_nl (s : cstr) : cstr :=       (* without the newlines at the end *)
  match s with
  | [] => []
  | c :: r => match drop_nl r with [] => if ceq c NL then [] else [c] | r' => c :: r' end
  end.
Definition printed (o : cstr) : cstr := drop_nl (filter (fun c => negb (is_nul c)) o).

(** the quoting after a part: quotes end at a closing quote, those in a substitution with it *)
Fixpoint qend (q : bool) (p : parts) : bool :=
  match p with
  | Stop => q
  | Lit _ k | Esc _ k | Var _ _ k | Opr _ _ _ _ k | Com _ k | Ari _ k | Bar k => qend q k
  | Dq _ k => qend false k
  | Grp _ l k => qend (qend q l) k
  end.

(** [q]: in quotes; [d]: in a substitution.  [None]: an error, or not covered (an assignment
    by ${x=...}, trimming, ${#x}). *)
Fixpoint sem (q d : bool) (e : E) (p : parts) : option (list item * E) :=
  let also (a : list item) (r : option (list item * E)) := match r with Some (its, e) => Some (a ++ its, e) | None => None end in
  match p with
  | Stop => Some ([], e)
  | Lit c k => also [if sep_at q e c && d then Sep c else Txt false (tk q c)] (sem q d e k)
  | Esc c k => also [Txt false (TQ c)] (sem q d e k)
  | Dq l k =>
    match sem true d e l with
    | Some (a, e) => also (Quo :: a ++ [Unq]) (sem false d e k)
    | None => None
    end
  | Var _ n k =>
    match kind e n with
    | Some v => if nounset y e && unset v && negb (special n) then None else also (subst q e v) (sem q d e k)
    | None => None
    end
  | Opr n colon o l k =>
    match kind e n with
    | None => None
    | Some v =>
      if mem o (L "-+") then
        if xorb (ceq o "+") (missing colon v) then
          match sem q true e l with
          | Some (a, e) => also (Begin :: (if q then Full else Alt) :: a) (sem q d e k)
          | None => None
          end
        else also (subst q e v) (sem q d e k)
      else if mem o (L "?=") then
        if missing colon v then None
        else if ceq o "=" && (special n || match v with Vector _ _ => true | Scalar _ => match n with c :: _ => mem c (L "*@#!$-?") || isdigit c | [] => true end end) then None
        else if ceq o "?" && negb (special n) && match v with Vector _ _ => true | _ => false end then None
        else also (subst q e v) (sem q d e k)
      else None
    end
  | Com t k =>
    match command y e t with
    | None => None
    | Some (e, None) => sem q d e k
    | Some (e, Some o) => also (chars q e false (printed o)) (sem q d e k)
    end
  | Ari t k =>
    match arith y e t with
    | None => None
    | Some (e, v) => also (Full :: map (fun c => Txt false (TQ c)) v) (sem q d e k)
    end
  | Grp c l k =>
    match sem q d e l with
    | Some (a, e) => also (Txt false (TOpen c) :: a ++ [Txt false TClose]) (sem (qend q l) d e k)
    | None => None
    end
  | Bar k => also [Txt false TBar] (sem q d e k)
  end.
End Sem.

(** Words the lexer makes (no unquoted ~, which is not covered): *)
Fixpoint lexed (p : parts) : bool :=
  match p with
  | Stop => true
  | Lit c k => negb (is_nul c) && negb (ceq c "~") && lexed k
  | Esc c k => negb (is_nul c) && lexed k
  | Dq l k => lexed l && lexed k
  | Var _ n k => nul_free n && lexed k
  | Opr n _ _ l k => nul_free n && lexed l && lexed k
  | Com t k | Ari t k => nul_free t && lexed k
  | Grp c l k => mem c (L "*+?@!") && lexed l && lexed k
  | Bar k => lexed k
  end.
(** Strings are C strings, and numbers have no MAGIC byte. *)
Definition sys_ok {E} (y : sys E) : Prop :=
  (forall e, Forall (fun s => nul_free s = true) (params y e)) /\
  (forall e n s, value y e n = Some s -> nul_free s = true) /\
  (forall e n, Forall (fun s => nul_free s = true) (elems y e n)) /\
  (forall e, nul_free (ifs y e) = true) /\
  (forall e t e' v, arith y e t = Some (e', v) -> forallb (fun c => negb (ismagic c) && negb (is_nul c)) v = true).

(** The fields: the text between separators; a field without text needs a quote, and quotes
    beginning with a $@ that has no parameters are none. *)
Definition opened (cur : option (list tok)) : list tok := match cur with Some ts => ts | None => [] end.
Definition closed (cur : option (list tok)) : list (list tok) := match cur with Some ts => [ts] | None => [] end.
Fixpoint fields (cur : option (list tok)) (its : list item) : list (list tok) :=
  match its with
  | [] => closed cur
  | Txt _ t :: r => fields (Some (opened cur ++ [t])) r
  | (Sep _ | Brk) :: r => closed cur ++ fields None r
  | Quo :: Null :: r => fields cur r
  | (Quo | Full) :: r => fields (Some (opened cur)) r
  | Args [] :: r => fields cur r
  | Args (a :: l) :: r =>
    let all := (opened cur ++ a) :: l in removelast all ++ fields (Some (last all [])) r
  | (Unq | Begin | Null | Alt) :: r => fields cur r
  end.
Definition nonempty {A} (l : list A) : bool := match l with [] => false | _ => true end.

(** What the second pass gets for a field. *)
Definition is_glob_tok (t : tok) : bool := match t with TU c => mem c (L "[*?") | TQ _ => false | _ => true end.
Definition brace_seen (b : bool) (ts : list tok) : bool := existsb (fun t => match t with TU c => b && ceq c "{" | _ => false end) ts.
Definition magic_tok (p : bool) (t : tok) : bool :=
  match t with TU c => (p && mem c (L "[!-]*?")) || ismagic c | TQ c => ismagic c | _ => true end.
Definition raw_of (fl : flags) (ts : list tok) : raw :=
  let p := pat fl || glob fl in
  Raw (brace_seen (brace fl) ts) (glob fl && existsb is_glob_tok ts)
      (existsb (magic_tok p) ts || brace_seen (brace fl) ts) (pat fl) (markd fl)
      (emits p (brace fl) false ts).

(** The run of expand() on a word ends with these words for the second pass. *)
Definition expands {E} (y : sys E) (o1 o2 o3 : bool) (fl : flags) (e : E) (w : cstr) (e' : E) (rs : list raw) : Prop :=
  exists n m, run E y n (start E o1 o2 o3 fl e w) = Done E m /\ env E m = e' /\ outs E m = rs.

(** * Splitting at IFS (POSIX 2.6.5) *)
Definition white (c : char) : bool := let n := nat_of_ascii c in (n =? 32) || (n =? 9) || (n =? 10).
Definition non (c : char) (w : cstr) : bool := mem c w && negb (white c).
Fixpoint skip_white (w s : cstr) : cstr :=
  match s with c :: r => if mem c w && white c then skip_white w r else s | [] => [] end.
(** the rest after a delimiter: IFS white space with at most one other IFS character *)
Definition after_delim (w s : cstr) : cstr :=
  match skip_white w s with c :: r => if non c w then skip_white w r else c :: r | [] => [] end.
Fixpoint upto_ifs (w s : cstr) : cstr * cstr :=
  match s with c :: r => if mem c w then ([], s) else let '(a, b) := upto_ifs w r in (c :: a, b) | [] => ([], []) end.
Fixpoint posix_fields (n : nat) (w s : cstr) : list cstr :=
  match n, s with
  | S n, _ :: _ => let '(a, b) := upto_ifs w s in a :: posix_fields n w (after_delim w b)
  | _, _ => []
  end.
Definition posix_split (w s : cstr) : list cstr := posix_fields (S (length s)) w (skip_white w s).

(** Words without the doubtful cases: a separator that is not white space where no field is open,
    a parameter right after such a separator, ${x-...} or a $@ without parameters right after empty
    quotes, and $* with an empty IFS right after a ${x-...}. *)
Inductive place := Between | AfterAlt | AfterMark | Quoted | Empty | Text.
Fixpoint tame (p : place) (its : list item) : bool :=
  match its with
  | [] => true
  | Txt f _ :: r => match p, f with AfterMark, true => false | _, _ => tame Text r end
  | Sep c :: r =>
    if white c then tame (match p with AfterMark => AfterMark | _ => Between end) r
    else match p with Quoted | Empty | Text => tame AfterMark r | _ => false end
  | Quo :: Null :: r => tame (match p with Text => Text | Quoted | Empty => Empty | _ => AfterAlt end) r
  | Quo :: r => tame (match p with Text => Text | Quoted | Empty => Empty | _ => Quoted end) r
  | Unq :: r => tame p r
  | Full :: r => tame (match p with Text => Text | _ => Empty end) r
  | Begin :: r => tame (match p with Quoted => Empty | _ => p end) r
  | Null :: r => match p with Text | Empty => tame p r | Quoted => false | _ => tame AfterAlt r end
  | Alt :: r => match p with Text => tame Text r | Quoted | Empty => false | _ => tame AfterAlt r end
  | Args [] :: r => tame p r
  | Args (a :: l) :: r =>
    tame (if match l with [] => match p with Text => true | _ => false end || nonempty a | _ => nonempty (last l []) end then Text else Empty) r
  | Brk :: r => match p with AfterAlt | AfterMark => false | _ => tame Between r end
  end.
(** The text of the items, in order. *)
Definition texts (its : list item) : list tok := flat_map (fun i => match i with Txt _ t => [t] | Args l => concat l | _ => [] end) its.
(** No quotes, and none of $@, $*, x[@], x[*]: what is between two quotes. *)
Fixpoint inner (p : parts) : bool :=
  match p with
  | Stop => true
  | Lit _ k | Esc _ k | Com _ k | Ari _ k | Bar k => inner k
  | Dq _ _ => false
  | Var _ n k => scalar_name n && inner k
  | Opr n _ _ l k => scalar_name n && inner l && inner k
  | Grp _ l k => inner l && inner k
  end.
(** what the user sees of a field *)
Definition ftext (ts : list tok) : cstr := flat_map tok_text ts.

(** Literal text. *)
Fixpoint lits (s : cstr) (k : parts) : parts := match s with [] => k | c :: r => Lit c (lits r k) end.
Definition intersperse (sep : cstr) (l : list cstr) : cstr :=
  match l with [] => [] | s :: r => s ++ flat_map (fun x => sep ++ x) r end.
