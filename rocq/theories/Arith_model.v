(** Arithmetic expressions: expr.c.

    A variable is a record of the attributes expr.c looks at and its value.
    Not modelled: array references (name followed by [), special variables
    (getspec, setspec), justification attributes on assignment, and output bases. *)
From Verif Require Import Base Num_model.
Local Open Scope Z_scope.

Definition name := cstr.
Inductive vval := VI (z : Z) | VS (s : cstr).
(** INTEGER, RDONLY, ZEROFIL, and the value (None: not ISSET) *)
Record var := Var { v_integer : bool; v_rdonly : bool; v_zerofil : bool; v_val : option vval }.
Definition store := name -> var.
Definition upd (st : store) (x : name) (v : var) : store := fun y => if str_eqb y x then v else st y.

(** expr.c:17-43 *)
Inductive op :=
| O_PLUSPLUS | O_MINUSMINUS | O_EQ | O_NE
| O_ASN | O_TIMESASN | O_DIVASN | O_MODASN | O_PLUSASN | O_MINUSASN | O_LSHIFTASN | O_RSHIFTASN | O_BANDASN | O_BXORASN | O_BORASN
| O_LSHIFT | O_RSHIFT | O_LE | O_GE | O_LT | O_GT | O_LAND | O_LOR | O_TIMES | O_DIV | O_MOD | O_PLUS | O_MINUS
| O_BAND | O_BXOR | O_BOR | O_TERN | O_COMMA | O_BNOT | O_LNOT | OPEN_PAREN | CLOSE_PAREN | CTERN.
Scheme Equality for op.

(** expr.c:47-115 opinfo, in table order.  Precedences: P_PRIMARY 0, P_MULT 1,
    P_ADD 2, P_SHIFT 3, P_RELATION 4, P_EQUALITY 5, P_BAND 6, P_BXOR 7, P_BOR 8, P_LAND 9,
    P_LOR 10, P_TERN 11, P_ASSIGN 12, P_COMMA 13 *)
Definition opinfo : list (op * cstr * nat) :=
  [ (O_PLUSPLUS, L "++", 0%nat); (O_MINUSMINUS, L "--", 0%nat); (O_EQ, L "==", 5%nat); (O_NE, L "!=", 5%nat);
    (O_ASN, L "=", 12%nat); (O_TIMESASN, L "*=", 12%nat); (O_DIVASN, L "/=", 12%nat); (O_MODASN, L "%=", 12%nat);
    (O_PLUSASN, L "+=", 12%nat); (O_MINUSASN, L "-=", 12%nat); (O_LSHIFTASN, L "<<=", 12%nat); (O_RSHIFTASN, L ">>=", 12%nat);
    (O_BANDASN, L "&=", 12%nat); (O_BXORASN, L "^=", 12%nat); (O_BORASN, L "|=", 12%nat);
    (O_LSHIFT, L "<<", 3%nat); (O_RSHIFT, L ">>", 3%nat); (O_LE, L "<=", 4%nat); (O_GE, L ">=", 4%nat);
    (O_LT, L "<", 4%nat); (O_GT, L ">", 4%nat); (O_LAND, L "&&", 9%nat); (O_LOR, L "||", 10%nat);
    (O_TIMES, L "*", 1%nat); (O_DIV, L "/", 1%nat); (O_MOD, L "%", 1%nat); (O_PLUS, L "+", 2%nat); (O_MINUS, L "-", 2%nat);
    (O_BAND, L "&", 6%nat); (O_BXOR, L "^", 7%nat); (O_BOR, L "|", 8%nat); (O_TERN, L "?", 11%nat); (O_COMMA, L ",", 13%nat);
    (O_BNOT, L "~", 0%nat); (O_LNOT, L "!", 0%nat); (OPEN_PAREN, L "(", 0%nat); (CLOSE_PAREN, L ")", 0%nat); (CTERN, L ":", 0%nat) ].
Definition P_ASSIGN := 12%nat.
Definition P_TERN := 11%nat.
Definition MAX_PREC := 13%nat.

Definition prec_of (o : op) : nat := match find (fun e => op_beq (fst (fst e)) o) opinfo with Some e => snd e | None => 0%nat end.
(** expr.c:44-45 (the enumeration order) *)
Definition is_binop (o : op) : bool :=
  match o with O_PLUSPLUS | O_MINUSMINUS | O_BNOT | O_LNOT | OPEN_PAREN | CLOSE_PAREN | CTERN => false | _ => true end.
Definition is_assignop (o : op) : bool :=
  match o with O_ASN | O_TIMESASN | O_DIVASN | O_MODASN | O_PLUSASN | O_MINUSASN | O_LSHIFTASN | O_RSHIFTASN | O_BANDASN | O_BXORASN | O_BORASN => true | _ => false end.

Inductive tok := T_op (o : op) | T_VAR | T_LIT | T_END | T_BAD.

(** struct tbl * values: a shell variable, or a temporary (its value, and
    EXPRLVALUE).  A temporary is never reached again through another pointer after it was
    changed, except for a stale es->val in ill-formed input such as "++" followed by an
    operator, so temporaries are values here. *)
Inductive opnd := OVar (x : name) | OTmp (z : Z) (lvalue : bool).

(** expr.c:119-131 *)
Record estate := ES { e_txt : cstr; e_tok : tok; e_val : option opnd; e_na : nat }.

(** outcomes: value; evalerr (variables keep what was assigned); undefined
    behaviour; out of fuel; array reference, not modelled *)
Inductive out (A : Type) :=
| Val (a : A) (st : store)
| Fail (st : store)
| Undef
| NoFuel
| Array.
Arguments Val {A}. Arguments Fail {A}. Arguments Undef {A}. Arguments NoFuel {A}. Arguments Array {A}.
Definition bnd {A B} (m : out A) (f : A -> store -> out B) : out B :=
  match m with Val a st => f a st | Fail st => Fail st | Undef => Undef | NoFuel => NoFuel | Array => Array end.

(** sh.h:288-290 *)
Definition letter (c : char) : bool := isalpha c || ceq c "_".
Definition letnum (c : char) : bool := letter c || isdigit c.

Fixpoint span (p : char -> bool) (s : cstr) : cstr * cstr :=
  match s with c :: s' => if p c then let '(a, b) := span p s' in (c :: a, b) else ([], s) | [] => ([], []) end.

Fixpoint strip_prefix (p s : cstr) : option cstr :=
  match p, s with
  | [], _ => Some s
  | a :: p', b :: s' => if ceq a b then strip_prefix p' s' else None
  | _ :: _, [] => None
  end.
(** expr.c:519-525: first table entry the text begins with *)
Fixpoint match_op (tbl : list (op * cstr * nat)) (s : cstr) : option (op * cstr) :=
  match tbl with
  | [] => None
  | (o, sp, _) :: tbl' => match strip_prefix sp s with Some r => Some (o, r) | None => match_op tbl' s end
  end.

(** expr.c:464-530 token *)
Definition token (arith : bool) (es : estate) (st : store) : out estate :=
  let s := snd (span isspace (e_txt es)) in
  match s with
  | [] => Val (ES [] T_END (e_val es) (e_na es)) st
  | c :: _ =>
    if letter c then
      let '(w, r) := span letnum s in
      match r with
      | d :: _ => if ceq d "[" then Array
                  else Val (ES r T_VAR (Some (match e_na es with O => OVar w | _ => OTmp 0 true end)) (e_na es)) st
      | [] => Val (ES r T_VAR (Some (match e_na es with O => OVar w | _ => OTmp 0 true end)) (e_na es)) st
      end
    else if isdigit c then
      let '(w, r) := span (fun c => negb (ceq c "_") && (letnum c || ceq c "#")) s in
      match getint arith false w with
      | Ok (_, z) => Val (ES r T_LIT (Some (OTmp z false)) (e_na es)) st
      | Err => Fail st
      | UB => Undef
      end
    else match match_op opinfo s with
    | Some (o, r) => Val (ES r (T_op o) (e_val es) (e_na es)) st
    | None => Val (ES s T_BAD (e_val es) (e_na es)) st
    end
  end.

(** signed 64-bit results: overflow is undefined *)
Definition chk (z : Z) (st : store) : out Z := if in_int64 z then Val z st else Undef.

(** expr.c:336-342, 343-407, 444-449 without && || ?: *)
Definition bool_z (b : bool) : Z := if b then 1 else 0.
Definition is_div (o : op) : bool := match o with O_DIV | O_MOD | O_DIVASN | O_MODASN => true | _ => false end.
Definition c_binop (o : op) (na : nat) (l r : Z) (st : store) : out Z :=
  let zero := is_div o && (r =? 0) in
  if zero && match na with O => true | _ => false end then Fail st
  else
    let r := if zero then 1 else r in
    match o with
    | O_TIMES | O_TIMESASN => chk (l * r) st
    | O_DIV | O_DIVASN => if (l =? INT64_MIN) && (r =? -1) then Val INT64_MIN st else chk (Z.quot l r) st
    | O_MOD | O_MODASN => if (l =? INT64_MIN) && (r =? -1) then Val 0 st else chk (Z.rem l r) st
    | O_PLUS | O_PLUSASN => chk (l + r) st
    | O_MINUS | O_MINUSASN => chk (l - r) st
    | O_LSHIFT | O_LSHIFTASN => if (r <? 0) || (63 <? r) || (l <? 0) then Undef else chk (Z.shiftl l r) st
    | O_RSHIFT | O_RSHIFTASN => if (r <? 0) || (63 <? r) then Undef else Val (Z.shiftr l r) st
    | O_LT => Val (bool_z (l <? r)) st
    | O_LE => Val (bool_z (l <=? r)) st
    | O_GT => Val (bool_z (r <? l)) st
    | O_GE => Val (bool_z (r <=? l)) st
    | O_EQ => Val (bool_z (l =? r)) st
    | O_NE => Val (bool_z (negb (l =? r))) st
    | O_BAND | O_BANDASN => Val (Z.land l r) st
    | O_BXOR | O_BXORASN => Val (Z.lxor l r) st
    | O_BOR | O_BORASN => Val (Z.lor l r) st
    | O_ASN | O_COMMA => Val r st
    | _ => Val 0 st
    end.

(** expr.c:553-561 assign_check *)
Definition assign_check (es : estate) (v : option opnd) (st : store) : out unit :=
  match e_tok es, v with
  | T_END, _ => Fail st
  | _, None => Fail st
  | _, Some (OTmp _ lv) => if lv then Val tt st else Fail st
  | _, Some (OVar x) => if v_rdonly (st x) then Fail st else Val tt st
  end.

(** expr.c:451-456, 543-546: setint_v on an integer variable, otherwise setint,
    which goes through setstr and str_val (var.c:416-432); printing INT64_MIN is undefined *)
Definition assign (v : opnd) (n : Z) (st : store) : out unit :=
  match v with
  | OTmp _ _ => Val tt st
  | OVar x =>
    let a := st x in
    if v_integer a then Val tt (upd st x (Var true (v_rdonly a) (v_zerofil a) (Some (VI n))))
    else match str_val_int false false 0 n with
         | Ok s => Val tt (upd st x (Var false (v_rdonly a) (v_zerofil a) (Some (VS s))))
         | Err => Fail st
         | UB => Undef
         end
  end.

Definition get_opnd (v : option opnd) : opnd := match v with Some o => o | None => OTmp 0 false end.
Definition set_na (es : estate) (n : nat) : estate := ES (e_txt es) (e_tok es) (e_val es) n.

(** [inev]: the variables with EXPRINEVAL set (they are cleared again on every
    way out, expr.c:189-190, 597). *)
Fixpoint evalexpr (fuel : nat) (arith : bool) (inev : list name) (prec : nat) (es : estate) (st : store) {struct fuel}
  : out (opnd * estate) :=
  match fuel with
  | O => NoFuel
  | S n =>
    match prec with
    | O =>                                                  (* expr.c:288-323 *)
      bnd
        match e_tok es with
        | T_op (O_BNOT as o) | T_op (O_LNOT as o) | T_op (O_MINUS as o) | T_op (O_PLUS as o) =>
          bnd (token arith es st) (fun es st =>
          bnd (evalexpr n arith inev 0 es st) (fun r st => let '(o1, es) := r in
          bnd (intvar n arith inev o1 st) (fun z st =>
          bnd (match o with
               | O_BNOT => Val (- z - 1) st                 (* ~ *)
               | O_LNOT => Val (bool_z (z =? 0)) st
               | O_MINUS => chk (- z) st
               | _ => Val z st end) (fun z st =>
          Val (OTmp z false, es) st))))
        | T_op OPEN_PAREN =>
          bnd (token arith es st) (fun es st =>
          bnd (evalexpr n arith inev MAX_PREC es st) (fun r st => let '(v, es) := r in
          match e_tok es with
          | T_op CLOSE_PAREN => bnd (token arith es st) (fun es st => Val (v, es) st)
          | _ => Fail st
          end))
        | T_op (O_PLUSPLUS as o) | T_op (O_MINUSMINUS as o) =>
          bnd (token arith es st) (fun es st =>
          bnd (do_ppmm n arith inev o (e_val es) true es st) (fun v st =>
          bnd (token arith es st) (fun es st => Val (v, es) st)))
        | T_VAR | T_LIT => bnd (token arith es st) (fun es' st => Val (get_opnd (e_val es), es') st)
        | _ => Fail st
        end
        (fun r st => let '(v, es) := r in
         match e_tok es with
         | T_op (O_PLUSPLUS as o) | T_op (O_MINUSMINUS as o) =>
           bnd (do_ppmm n arith inev o (Some v) false es st) (fun v st =>
           bnd (token arith es st) (fun es st => Val (v, es) st))
         | _ => Val (v, es) st
         end)
    | S p => bnd (evalexpr n arith inev p es st) (fun r st => let '(v, es) := r in loop n arith inev prec v es st)
    end
  end
(** expr.c:325-460 *)
with loop (fuel : nat) (arith : bool) (inev : list name) (prec : nat) (vl : opnd) (es : estate) (st : store) {struct fuel}
  : out (opnd * estate) :=
  match fuel with
  | O => NoFuel
  | S n =>
    match e_tok es with
    | T_op o =>
      if is_binop o && Nat.eqb (prec_of o) prec then
        bnd (token arith es st) (fun es st =>
        bnd (match o with O_ASN => Val 0 st | _ => intvar n arith inev vl st end) (fun z st =>
        if is_assignop o then
          bnd (assign_check es (Some vl) st) (fun _ st =>
          bnd (evalexpr n arith inev P_ASSIGN es st) (fun r st => let '(o2, es) := r in
          bnd (intvar n arith inev o2 st) (fun zr st =>
          bnd (c_binop o (e_na es) z zr st) (fun res st =>
          bnd (assign vl res st) (fun _ st =>
          loop n arith inev prec (OTmp res false) es st)))))
        else match o with
        | O_LAND =>
          let es := if z =? 0 then set_na es (S (e_na es)) else es in
          bnd (evalexpr n arith inev (prec - 1) es st) (fun r st => let '(o2, es) := r in
          bnd (intvar n arith inev o2 st) (fun zr st =>
          let es := if z =? 0 then set_na es (pred (e_na es)) else es in
          loop n arith inev prec (OTmp (bool_z (negb (z =? 0) && negb (zr =? 0))) false) es st))
        | O_LOR =>
          let es := if z =? 0 then es else set_na es (S (e_na es)) in
          bnd (evalexpr n arith inev (prec - 1) es st) (fun r st => let '(o2, es) := r in
          bnd (intvar n arith inev o2 st) (fun zr st =>
          let es := if z =? 0 then es else set_na es (pred (e_na es)) in
          loop n arith inev prec (OTmp (bool_z (negb (z =? 0) || negb (zr =? 0))) false) es st))
        | O_TERN =>
          let es := if z =? 0 then set_na es (S (e_na es)) else es in
          bnd (evalexpr n arith inev MAX_PREC es st) (fun r st => let '(v1, es) := r in
          let es := if z =? 0 then set_na es (pred (e_na es)) else es in
          match e_tok es with
          | T_op CTERN =>
            bnd (token arith es st) (fun es st =>
            let es := if z =? 0 then es else set_na es (S (e_na es)) in
            bnd (evalexpr n arith inev P_TERN es st) (fun r st => let '(v2, es) := r in
            let es := if z =? 0 then es else set_na es (pred (e_na es)) in
            loop n arith inev prec (if z =? 0 then v2 else v1) es st))
          | _ => Fail st
          end)
        | _ =>
          bnd (evalexpr n arith inev (prec - 1) es st) (fun r st => let '(o2, es) := r in
          bnd (intvar n arith inev o2 st) (fun zr st =>
          bnd (c_binop o (e_na es) z zr st) (fun res st =>
          loop n arith inev prec (OTmp res false) es st)))
        end))
      else Val (vl, es) st
    | _ => Val (vl, es) st
    end
  end
(** expr.c:533-551 do_ppmm; the old value goes through an int *)
with do_ppmm (fuel : nat) (arith : bool) (inev : list name) (o : op) (v : option opnd) (prefix : bool) (es : estate) (st : store) {struct fuel}
  : out opnd :=
  match fuel with
  | O => NoFuel
  | S n =>
    bnd (assign_check es v st) (fun _ st =>
    bnd (intvar n arith inev (get_opnd v) st) (fun z st =>
    bnd (chk (match o with O_PLUSPLUS => z + 1 | _ => z - 1 end) st) (fun z' st =>
    bnd (assign (get_opnd v) z' st) (fun _ st =>
    Val (OTmp (if prefix then z' else to_int32 z) false) st))))
  end
(** expr.c:578-601 intvar with getint (var.c:434-498) *)
with intvar (fuel : nat) (arith : bool) (inev : list name) (v : opnd) (st : store) {struct fuel} : out Z :=
  match fuel with
  | O => NoFuel
  | S n =>
    match v with
    | OTmp z _ => Val z st
    | OVar x =>
      let again s := if existsb (str_eqb x) inev then Fail st else v_evaluate n arith (x :: inev) s st in
      match v_val (st x) with
      | None => again []
      | Some (VI z) => Val z st
      | Some (VS s) =>
        match getint arith (v_zerofil (st x)) s with
        | Ok (_, z) => Val z st
        | UB => Undef
        | Err => again s
        end
      end
    end
  end
(** expr.c:166-222 v_evaluate into an integer *)
with v_evaluate (fuel : nat) (arith : bool) (inev : list name) (expr : cstr) (st : store) {struct fuel} : out Z :=
  match fuel with
  | O => NoFuel
  | S n =>
    bnd (token arith (ES expr T_BAD None 0) st) (fun es st =>
    let es := match e_tok es with T_END => ES (e_txt es) T_LIT (Some (OTmp 0 false)) 0 | _ => es end in
    bnd (evalexpr n arith inev MAX_PREC es st) (fun r st => let '(v, es) := r in
    bnd (intvar n arith inev v st) (fun z st =>
    match e_tok es with T_END => Val z st | _ => Fail st end)))
  end.

(** expr.c:150-161 *)
Definition evaluate (fuel : nat) (arith : bool) (expr : cstr) (st : store) : out Z := v_evaluate fuel arith [] expr st.
