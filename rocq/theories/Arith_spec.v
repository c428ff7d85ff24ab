(** C arithmetic over 64-bit integers: grammar, spelling and meaning. *)
From Verif Require Import Base Num_model Num_spec Printf_spec Arith_model.
Local Open Scope Z_scope.

Inductive bop := Mul | Div | Mod | Add | Sub | Shl | Shr | Lt | Le | Gt | Ge | Eq | Ne | BAnd | BXor | BOr.
Inductive uop := UNeg | UPos | UNot | UInv.
Inductive expr :=
| EVar (x : name)
| ELit (s : cstr) (z : Z)                     (* a numeral and its value *)
| EPar (e : expr)
| EUn (u : uop) (e : expr)
| EPre (inc : bool) (x : name)
| EPost (x : name) (inc : bool)
| EBin (o : bop) (l r : expr)
| EAnd (l r : expr)
| EOr (l r : expr)
| ETern (c a b : expr)
| EAsn (x : name) (o : option bop) (e : expr)
| EComma (l r : expr).

(** * Grammar: how tightly things bind (0 tightest) *)
Definition level (o : bop) : nat :=
  match o with Mul | Div | Mod => 1 | Add | Sub => 2 | Shl | Shr => 3 | Lt | Le | Gt | Ge => 4 | Eq | Ne => 5
  | BAnd => 6 | BXor => 7 | BOr => 8 end.
Definition lvl (e : expr) : nat :=
  match e with
  | EVar _ | ELit _ _ | EPar _ | EUn _ _ | EPre _ _ | EPost _ _ => 0
  | EBin o _ _ => level o
  | EAnd _ _ => 9 | EOr _ _ => 10 | ETern _ _ _ => 11 | EAsn _ _ _ => 12 | EComma _ _ => 13
  end.
Definition assignable (o : bop) : bool := match o with Mul | Div | Mod | Add | Sub | Shl | Shr | BAnd | BXor | BOr => true | _ => false end.
(** binary operators group to the left, ?: and assignments to the right *)
Fixpoint wf (e : expr) : bool :=
  match e with
  | EVar _ | ELit _ _ | EPre _ _ | EPost _ _ => true
  | EPar e => wf e
  | EUn _ e => wf e && Nat.eqb (lvl e) 0
  | EBin o l r => wf l && wf r && Nat.leb (lvl l) (level o) && Nat.ltb (lvl r) (level o)
  | EAnd l r => wf l && wf r && Nat.leb (lvl l) 9 && Nat.ltb (lvl r) 9
  | EOr l r => wf l && wf r && Nat.leb (lvl l) 10 && Nat.ltb (lvl r) 10
  | ETern c a b => wf c && wf a && wf b && Nat.leb (lvl c) 10 && Nat.leb (lvl b) 11
  | EAsn _ o e => wf e && Nat.leb (lvl e) 12 && match o with Some o => assignable o | None => true end
  | EComma l r => wf l && wf r && Nat.ltb (lvl r) 13
  end.

(** * Spelling *)
Inductive stok := SVar (x : name) | SLit (s : cstr) (z : Z) | SOp (o : op).
Definition op_of (o : bop) : op :=
  match o with Mul => O_TIMES | Div => O_DIV | Mod => O_MOD | Add => O_PLUS | Sub => O_MINUS | Shl => O_LSHIFT | Shr => O_RSHIFT
  | Lt => O_LT | Le => O_LE | Gt => O_GT | Ge => O_GE | Eq => O_EQ | Ne => O_NE | BAnd => O_BAND | BXor => O_BXOR | BOr => O_BOR end.
Definition asn_of (o : option bop) : op :=
  match o with Some Mul => O_TIMESASN | Some Div => O_DIVASN | Some Mod => O_MODASN | Some Add => O_PLUSASN | Some Sub => O_MINUSASN
  | Some Shl => O_LSHIFTASN | Some Shr => O_RSHIFTASN | Some BAnd => O_BANDASN | Some BXor => O_BXORASN | Some BOr => O_BORASN | _ => O_ASN end.
Definition un_of (u : uop) : op := match u with UNeg => O_MINUS | UPos => O_PLUS | UNot => O_LNOT | UInv => O_BNOT end.
Definition pp (inc : bool) : op := if inc then O_PLUSPLUS else O_MINUSMINUS.
Fixpoint toks (e : expr) : list stok :=
  match e with
  | EVar x => [SVar x]
  | ELit s z => [SLit s z]
  | EPar e => SOp OPEN_PAREN :: toks e ++ [SOp CLOSE_PAREN]
  | EUn u e => SOp (un_of u) :: toks e
  | EPre i x => [SOp (pp i); SVar x]
  | EPost x i => [SVar x; SOp (pp i)]
  | EBin o l r => toks l ++ SOp (op_of o) :: toks r
  | EAnd l r => toks l ++ SOp O_LAND :: toks r
  | EOr l r => toks l ++ SOp O_LOR :: toks r
  | ETern c a b => toks c ++ SOp O_TERN :: toks a ++ SOp CTERN :: toks b
  | EAsn x o e => SVar x :: SOp (asn_of o) :: toks e
  | EComma l r => toks l ++ SOp O_COMMA :: toks r
  end.

Definition spell_op (o : op) : cstr :=
  match o with
  | O_PLUSPLUS => L "++" | O_MINUSMINUS => L "--" | O_EQ => L "==" | O_NE => L "!=" | O_ASN => L "=" | O_TIMESASN => L "*="
  | O_DIVASN => L "/=" | O_MODASN => L "%=" | O_PLUSASN => L "+=" | O_MINUSASN => L "-=" | O_LSHIFTASN => L "<<="
  | O_RSHIFTASN => L ">>=" | O_BANDASN => L "&=" | O_BXORASN => L "^=" | O_BORASN => L "|=" | O_LSHIFT => L "<<" | O_RSHIFT => L ">>"
  | O_LE => L "<=" | O_GE => L ">=" | O_LT => L "<" | O_GT => L ">" | O_LAND => L "&&" | O_LOR => L "||" | O_TIMES => L "*"
  | O_DIV => L "/" | O_MOD => L "%" | O_PLUS => L "+" | O_MINUS => L "-" | O_BAND => L "&" | O_BXOR => L "^" | O_BOR => L "|"
  | O_TERN => L "?" | O_COMMA => L "," | O_BNOT => L "~" | O_LNOT => L "!" | OPEN_PAREN => L "(" | CLOSE_PAREN => L ")" | CTERN => L ":"
  end.
Definition all_ops : list op :=
  [O_PLUSPLUS; O_MINUSMINUS; O_EQ; O_NE; O_ASN; O_TIMESASN; O_DIVASN; O_MODASN; O_PLUSASN; O_MINUSASN; O_LSHIFTASN; O_RSHIFTASN;
   O_BANDASN; O_BXORASN; O_BORASN; O_LSHIFT; O_RSHIFT; O_LE; O_GE; O_LT; O_GT; O_LAND; O_LOR; O_TIMES; O_DIV; O_MOD; O_PLUS; O_MINUS;
   O_BAND; O_BXOR; O_BOR; O_TERN; O_COMMA; O_BNOT; O_LNOT; OPEN_PAREN; CLOSE_PAREN; CTERN].
Fixpoint begins (p s : cstr) : bool :=
  match p, s with [] , _ => true | a :: p', b :: s' => ceq a b && begins p' s' | _ :: _, [] => false end.

Definition word_char (c : char) : bool := isalpha c || isdigit c || ceq c "_".
Definition identifier (x : cstr) : bool :=
  match x with c :: _ => (isalpha c || ceq c "_") && forallb word_char x | [] => false end.
(** what a numeral stands for: decimal, base#digits, and in arithmetic
    context 0x... and 0... ; values up to INT64_MAX *)
Inductive literal (arith : bool) : cstr -> Z -> Prop :=
| lit_num c s b z : isdigit c = true -> numeral (c :: s) b z -> z <= INT64_MAX ->
    (arith = true -> s <> [] -> c <> "0"%char) -> literal arith (c :: s) z
| lit_hex x ds z : arith = true -> x = "x"%char \/ x = "X"%char -> denotes 16 ds z -> z <= INT64_MAX -> literal arith ("0"%char :: x :: ds) z
| lit_oct ds z : arith = true -> denotes 8 ds z -> z <= INT64_MAX -> literal arith ("0"%char :: ds) z.

(** a token may be followed directly by [text] if it is not read as part of a
    longer token *)
Definition fits (arith : bool) (t : stok) (text : cstr) : Prop :=
  match t with
  | SVar x => identifier x = true /\ match text with c :: _ => word_char c = false /\ c <> "["%char | [] => True end
  | SLit s z => literal arith s z /\ match text with c :: _ => ((isalpha c || isdigit c) || ceq c "#") = false | [] => True end
  | SOp o => match text with
             | c :: _ => existsb (fun o' => begins (spell_op o ++ [c]) (spell_op o')) all_ops = false
             | [] => True end
  end.
Definition spell (t : stok) : cstr := match t with SVar x => x | SLit s _ => s | SOp o => spell_op o end.
Inductive spelled (arith : bool) : list stok -> cstr -> Prop :=
| sp_end w : forallb isspace w = true -> spelled arith [] w
| sp_cons w t ts text : forallb isspace w = true -> spelled arith ts text -> fits arith t text ->
    spelled arith (t :: ts) (w ++ spell t ++ text).

(** * Meaning *)
Definition fits64 (z : Z) : option Z := if (- 2 ^ 63 <=? z) && (z <? 2 ^ 63) then Some z else None.
(** quotient towards zero and the remainder that goes with it *)
Definition quotient (l r : Z) : Z := if (0 <=? l) && (0 <? r) || (l <? 0) && (r <? 0) then Z.abs l / Z.abs r else - (Z.abs l / Z.abs r).
Definition remainder (l r : Z) : Z := l - r * quotient l r.
Definition truth (b : bool) : Z := if b then 1 else 0.
Inductive calc := Num (z : Z) | DivZero | Outside.          (* Outside: result not representable *)
Definition num_of (o : option Z) : calc := match o with Some z => Num z | None => Outside end.
Definition math (o : bop) (l r : Z) : calc :=
  match o with
  | Mul => num_of (fits64 (l * r))
  | Add => num_of (fits64 (l + r))
  | Sub => num_of (fits64 (l - r))
  | Div => if r =? 0 then DivZero else if (l =? - 2 ^ 63) && (r =? -1) then Num (- 2 ^ 63) else num_of (fits64 (quotient l r))
  | Mod => if r =? 0 then DivZero else if (l =? - 2 ^ 63) && (r =? -1) then Num 0 else num_of (fits64 (remainder l r))
  | Shl => if (0 <=? l) && (0 <=? r) && (r <? 64) then num_of (fits64 (l * 2 ^ r)) else Outside
  | Shr => if (0 <=? r) && (r <? 64) then Num (l / 2 ^ r) else Outside
  | Lt => Num (truth (l <? r)) | Le => Num (truth (l <=? r)) | Gt => Num (truth (l >? r)) | Ge => Num (truth (l >=? r))
  | Eq => Num (truth (l =? r)) | Ne => Num (truth (negb (l =? r)))
  | BAnd => Num (Z.land l r) | BXor => Num (Z.lxor l r) | BOr => Num (Z.lor l r)
  end.
Definition umath (u : uop) (z : Z) : option Z :=
  match u with UNeg => fits64 (- z) | UPos => Some z | UNot => Some (truth (z =? 0)) | UInv => Some (Z.lnot z) end.

(** decimal text of a number, and the state after assigning it *)
Definition decimal (n : Z) : cstr := if n <? 0 then "-"%char :: numtext false 10 (- n) else numtext false 10 n.
Definition put (st : store) (x : name) (n : Z) : store :=
  let a := st x in
  upd st x (Var (v_integer a) (v_rdonly a) (v_zerofil a) (Some (if v_integer a then VI n else VS (decimal n)))).
(** assigning the most negative number to a string variable is not claimed *)
Definition put_ok (st : store) (x : name) (n : Z) : bool := v_integer (st x) || (- 2 ^ 63 <? n) && (n <? 2 ^ 63).

Inductive outcome := Good (z : Z) (st : store) | Bad (st : store).
Definition obind (m : option outcome) (f : Z -> store -> option outcome) : option outcome :=
  match m with Some (Good z st) => f z st | Some (Bad st) => Some (Bad st) | None => None end.

Section Meaning.
(** value of a variable in a state (None: not claimed) *)
Variable rd : store -> name -> option Z.

(** operands that are not evaluated: the value the shell computes while
    skipping them, None where skipping is not claimed to be harmless: when the operand
    begins with a variable ([lead]) that it assigns to, or a result overflows *)
Definition skip_math (o : bop) (l r : Z) : option Z :=
  match math o l r with Num z => Some z | DivZero => match math o l 1 with Num z => Some z | _ => None end | Outside => None end.
Fixpoint dry (st : store) (lead : bool) (e : expr) : option Z :=
  match e with
  | EVar x => if lead then rd st x else Some 0
  | ELit _ z => Some z
  | EPar e => dry st false e
  | EUn u e => match dry st false e with Some z => umath u z | None => None end
  | EPre inc _ => Some (if inc then 1 else -1)
  | EPost _ _ => if lead then None else Some 0
  | EBin o l r => match dry st lead l, dry st false r with Some a, Some b => skip_math o a b | _, _ => None end
  | EAnd l r => match dry st lead l, dry st false r with Some a, Some b => Some (truth (negb (a =? 0) && negb (b =? 0))) | _, _ => None end
  | EOr l r => match dry st lead l, dry st false r with Some a, Some b => Some (truth (negb (a =? 0) || negb (b =? 0))) | _, _ => None end
  | ETern c a b => match dry st lead c, dry st false a, dry st false b with
                   | Some c, Some a, Some b => Some (if c =? 0 then b else a) | _, _, _ => None end
  | EAsn _ o e => if lead then None else
                  match dry st false e with
                  | Some z => match o with Some o => skip_math o 0 z | None => Some z end
                  | None => None end
  | EComma l r => match dry st lead l, dry st false r with Some _, Some b => Some b | _, _ => None end
  end.
Definition skippable (st : store) (e : expr) : bool := match dry st true e with Some _ => true | None => false end.

Definition calc_out (c : calc) (st : store) : option outcome :=
  match c with Num z => Some (Good z st) | DivZero => Some (Bad st) | Outside => None end.
Definition put_out (st : store) (x : name) (n v : Z) : option outcome := if put_ok st x n then Some (Good v (put st x n)) else None.

(** evaluation, left to right, as C defines it; None: overflow, or a variable without a
    claimed value *)
Fixpoint csem (st : store) (e : expr) : option outcome :=
  match e with
  | EVar x => match rd st x with Some z => Some (Good z st) | None => None end
  | ELit _ z => Some (Good z st)
  | EPar e => csem st e
  | EUn u e => obind (csem st e) (fun z st => match umath u z with Some z => Some (Good z st) | None => None end)
  | EPre inc x =>
    if v_rdonly (st x) then Some (Bad st) else
    match rd st x with
    | Some z => match fits64 (if inc then z + 1 else z - 1) with Some z' => put_out st x z' z' | None => None end
    | None => None end
  | EPost x inc =>
    if v_rdonly (st x) then Some (Bad st) else
    match rd st x with
    | Some z => match fits64 (if inc then z + 1 else z - 1) with Some z' => put_out st x z' z | None => None end
    | None => None end
  | EBin o l r => obind (csem st l) (fun a st => obind (csem st r) (fun b st => calc_out (math o a b) st))
  | EAnd l r => obind (csem st l) (fun a st =>
      if a =? 0 then Some (Good 0 st) else obind (csem st r) (fun b st => Some (Good (truth (negb (b =? 0))) st)))
  | EOr l r => obind (csem st l) (fun a st =>
      if a =? 0 then obind (csem st r) (fun b st => Some (Good (truth (negb (b =? 0))) st)) else Some (Good 1 st))
  | ETern c a b => obind (csem st c) (fun z st => if z =? 0 then csem st b else csem st a)
  | EAsn x None e =>
    if v_rdonly (st x) then Some (Bad st) else
    obind (csem st e) (fun z st => put_out st x z z)
  | EAsn x (Some o) e =>
    match rd st x with
    | Some a => if v_rdonly (st x) then Some (Bad st) else
                obind (csem st e) (fun b st => obind (calc_out (math o a b) st) (fun z st => put_out st x z z))
    | None => None end
  | EComma l r => obind (csem st l) (fun _ st => csem st r)
  end.

(** the part of [csem] the shell gets right: operands that are skipped must be
    [skippable], and the postfix operators applied to 32-bit values *)
Fixpoint sem (st : store) (e : expr) : option outcome :=
  match e with
  | EVar x => match rd st x with Some z => Some (Good z st) | None => None end
  | ELit _ z => Some (Good z st)
  | EPar e => sem st e
  | EUn u e => obind (sem st e) (fun z st => match umath u z with Some z => Some (Good z st) | None => None end)
  | EPre inc x =>
    if v_rdonly (st x) then Some (Bad st) else
    match rd st x with
    | Some z => match fits64 (if inc then z + 1 else z - 1) with Some z' => put_out st x z' z' | None => None end
    | None => None end
  | EPost x inc =>
    if v_rdonly (st x) then Some (Bad st) else
    match rd st x with
    | Some z => if (- 2 ^ 31 <=? z) && (z <? 2 ^ 31) then put_out st x (if inc then z + 1 else z - 1) z else None
    | None => None end
  | EBin o l r => obind (sem st l) (fun a st => obind (sem st r) (fun b st => calc_out (math o a b) st))
  | EAnd l r => obind (sem st l) (fun a st =>
      if a =? 0 then (if skippable st r then Some (Good 0 st) else None)
      else obind (sem st r) (fun b st => Some (Good (truth (negb (b =? 0))) st)))
  | EOr l r => obind (sem st l) (fun a st =>
      if a =? 0 then obind (sem st r) (fun b st => Some (Good (truth (negb (b =? 0))) st))
      else if skippable st r then Some (Good 1 st) else None)
  | ETern c a b => obind (sem st c) (fun z st =>
      if z =? 0 then (if skippable st a then sem st b else None)
      else obind (sem st a) (fun v st => if skippable st b then Some (Good v st) else None))
  | EAsn x None e =>
    if v_rdonly (st x) then Some (Bad st) else
    obind (sem st e) (fun z st => put_out st x z z)
  | EAsn x (Some o) e =>
    match rd st x with
    | Some a => if v_rdonly (st x) then Some (Bad st) else
                obind (sem st e) (fun b st => obind (calc_out (math o a b) st) (fun z st => put_out st x z z))
    | None => None end
  | EComma l r => obind (sem st l) (fun _ st => sem st r)
  end.
End Meaning.

(** parentheses forgotten, and parentheses put everywhere *)
Fixpoint bare (e : expr) : expr :=
  match e with
  | EPar e => bare e
  | EUn u e => EUn u (bare e)
  | EBin o l r => EBin o (bare l) (bare r)
  | EAnd l r => EAnd (bare l) (bare r)
  | EOr l r => EOr (bare l) (bare r)
  | ETern c a b => ETern (bare c) (bare a) (bare b)
  | EAsn x o e => EAsn x o (bare e)
  | EComma l r => EComma (bare l) (bare r)
  | _ => e
  end.
Definition asn_ok (e : expr) : bool := match e with EAsn _ (Some o) _ => assignable o | _ => true end.
Fixpoint ops_ok (e : expr) : bool :=
  asn_ok e && match e with
  | EPar e | EUn _ e | EAsn _ _ e => ops_ok e
  | EBin _ l r | EAnd l r | EOr l r | EComma l r => ops_ok l && ops_ok r
  | ETern c a b => ops_ok c && ops_ok a && ops_ok b
  | _ => true
  end.

(** what the plainest variables stand for: integers, unset ones, decimal strings *)
Fixpoint dec_val (acc : Z) (s : cstr) : option Z :=
  match s with
  | [] => Some acc
  | c :: s => if isdigit c then dec_val (acc * 10 + (ccode c - 48)) s else None
  end.
Definition dec_text (s : cstr) : option Z :=
  match s with
  | [] => None
  | c :: r => if ceq c "0" && negb (match r with [] => true | _ => false end) then None else
              match dec_val 0 s with Some z => if z <? 2 ^ 63 then Some z else None | None => None end
  end.
Definition plain_rd (st : store) (x : name) : option Z :=
  match v_val (st x) with
  | Some (VI z) => Some z
  | None => Some 0
  | Some (VS (c :: s)) => if ceq c "-" then match dec_text s with Some z => Some (- z) | None => None end else dec_text (c :: s)
  | Some (VS []) => None
  end.

(** no assignment anywhere *)
Fixpoint pure (e : expr) : bool :=
  match e with
  | EVar _ | ELit _ _ => true
  | EPar e | EUn _ e => pure e
  | EPre _ _ | EPost _ _ | EAsn _ _ _ => false
  | EBin _ l r | EAnd l r | EOr l r | EComma l r => pure l && pure r
  | ETern c a b => pure c && pure a && pure b
  end.

(** What a variable stands for: its integer; 0 if unset; the number its text
    spells; or, when the text is no number, the value of the (assignment-free) expression it
    spells, where the variable itself is not used again. *)
Inductive stands_for (arith : bool) (inev : list name) (st : store) : name -> Z -> Prop :=
| sf_int x z : v_val (st x) = Some (VI z) -> stands_for arith inev st x z
| sf_unset x : v_val (st x) = None -> ~ In x inev -> stands_for arith inev st x 0
| sf_num x s b z : v_val (st x) = Some (VS s) -> numeral s b z -> Z.abs z <= INT64_MAX ->
    (arith = true -> match s with c :: _ :: _ => c <> "0"%char | _ => True end) -> stands_for arith inev st x z
| sf_expr x s e rd z : v_val (st x) = Some (VS s) -> getint arith (v_zerofil (st x)) s = Err -> ~ In x inev ->
    wf e = true -> spelled arith (toks e) s -> pure e = true ->
    (forall y v, rd y = Some v -> stands_for arith (x :: inev) st y v) ->
    sem (fun _ => rd) st e = Some (Good z st) -> stands_for arith inev st x z.
