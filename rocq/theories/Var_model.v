(** Shell variables: var.c newblock, popblock, array_index_calc, global, local,
    str_val, setstr, setint, setint_v, export, typeset, unset, skip_varname,
    makenv, arraysearch, array_ref_len, arrayname, set_array, and their callers
    c_unset, c_read, varsub, c_getopts, x_sigwinch where they touch a variable.

    Not modelled here: the special variables (table [specials], flag SPECIAL,
    getspec, setspec, unsetspec): no name is special; the restricted shell;
    memory (ALLOC is kept as a flag only); positional parameters (a name that
    does not start with a letter denotes the read-only scratch variable vtemp). *)
From Verif Require Import Base Num_model SimplifyPath_model Printf_model Justify_model Arith_model.
Local Open Scope Z_scope.

(** ** table.h:41-67 flag bits *)
Definition ALLOC : N := 1. (* BIT(0) *)
Definition DEFINED : N := 2.
Definition ISSET : N := 4.
Definition EXPORT : N := 8.
Definition TRACE : N := 16.
Definition INTEGER : N := 512. (* BIT(9) *)
Definition RDONLY : N := 1024.
Definition LOCAL : N := 2048.
Definition ARRAY : N := 8192. (* BIT(13) *)
Definition LJUST : N := 16384.
Definition RJUST : N := 32768.
Definition ZEROFIL : N := 65536.
Definition LCASEV : N := 131072.
Definition UCASEV_AL : N := 262144.
Definition INT_U : N := 524288.
Definition INT_L : N := 1048576.
Definition IMPORT : N := 2097152.
Definition LOCAL_COPY : N := 4194304.

(** f & m, as a condition *)
Definition any (f m : N) : bool := negb (N.land f m =? 0)%N.

(** table.h:17-38 struct tbl.  The union val holds a string, an integer or what
    the allocator left there. *)
Inductive uval := VNone | VStr (s : cstr) | VInt (z : Z).
Record tbl := Tbl { t_flag : N; t_type : Z; t_val : uval; t_index : Z; t_field : Z }.
Definition set_flag (t : tbl) (f : N) : tbl := Tbl f (t_type t) (t_val t) (t_index t) (t_field t).
Definition set_type (t : tbl) (y : Z) : tbl := Tbl (t_flag t) y (t_val t) (t_index t) (t_field t).
Definition set_val (t : tbl) (v : uval) : tbl := Tbl (t_flag t) (t_type t) v (t_index t) (t_field t).
Definition set_field (t : tbl) (w : Z) : tbl := Tbl (t_flag t) (t_type t) (t_val t) (t_index t) w.
Definition set_index (t : tbl) (i : Z) : tbl := Tbl (t_flag t) (t_type t) (t_val t) i (t_field t).
Definition on (t : tbl) (m : N) : bool := any (t_flag t) m.

(** A table entry with its chain u.array of further elements. *)
Record ent := Ent { e_base : tbl; e_elems : list tbl }.
(** table.h struct block: only vars.  The hash table is a list of distinct
    names: C15 shows that ktsearch and ktenter implement a finite map. *)
Definition block := list (cstr * ent).
(** genv->loc and what it leads to by next: innermost block first *)
Definition vars := list block.

Fixpoint look (b : block) (n : cstr) : option ent :=
  match b with [] => None | (m, e) :: b' => if str_eqb m n then Some e else look b' n end.
Fixpoint store_ (b : block) (n : cstr) (e : ent) : block :=
  match b with [] => [(n, e)] | (m, x) :: b' => if str_eqb m n then (m, e) :: b' else (m, x) :: store_ b' n e end.
Fixpoint setnth {A} (k : nat) (x : A) (l : list A) : list A :=
  match l, k with [], _ => [] | _ :: l', O => x :: l' | y :: l', S k' => y :: setnth k' x l' end.
Definition entry (st : vars) (k : nat) (n : cstr) : option ent :=
  match nth_error st k with Some b => look b n | None => None end.
Definition put (st : vars) (k : nat) (n : cstr) (e : ent) : vars :=
  match nth_error st k with Some b => setnth k (store_ b n e) st | None => st end.

(** table.c:88-106 ktsearch: entries that are not DEFINED are passed over *)
Definition ktsearch (b : block) (n : cstr) : option ent :=
  match look b n with Some e => if on (e_base e) DEFINED then Some e else None | None => None end.
(** table.c:111-152 ktenter; val and index are not initialised *)
Definition fresh : ent := Ent (Tbl 0 0 VNone 0 0) [].
Definition ktenter (b : block) (n : cstr) : ent := match look b n with Some e => e | None => fresh end.

(** ** Outcomes: a result; an error that unwinds to the command loop, with the
    variables as they are then; undefined behaviour; the model's fuel ran out *)
Inductive out (A : Type) := Val (a : A) (st : vars) | Fail (st : vars) | Bad | Fuel.
Arguments Val {A} a st. Arguments Fail {A} st. Arguments Bad {A}. Arguments Fuel {A}.
Definition bnd {A B} (m : out A) (f : A -> vars -> out B) : out B :=
  match m with Val a st => f a st | Fail st => Fail st | Bad => Bad | Fuel => Fuel end.

(** A struct tbl pointer: element i of the entry for n in the k-th block, or
    &vtemp (var.c:41), which global and local return with RDONLY. *)
Inductive ref := RTemp | RVar (k : nat) (n : cstr) (i : Z).

Fixpoint find_elem (l : list tbl) (i : Z) : option tbl :=
  match l with [] => None | t :: l' => if t_index t =? i then Some t else find_elem l' i end.
Fixpoint put_elem (l : list tbl) (i : Z) (t : tbl) : list tbl :=
  match l with [] => [] | x :: l' => if t_index x =? i then t :: l' else x :: put_elem l' i t end.
Definition get_t (e : ent) (i : Z) : option tbl := if i =? 0 then Some (e_base e) else find_elem (e_elems e) i.
Definition put_t (e : ent) (i : Z) (t : tbl) : ent :=
  if i =? 0 then Ent t (e_elems e) else Ent (e_base e) (put_elem (e_elems e) i t).
Definition deref (st : vars) (r : ref) : option tbl :=
  match r with RTemp => None | RVar k n i => match entry st k n with Some e => get_t e i | None => None end end.
Definition assign_t (st : vars) (r : ref) (t : tbl) : vars :=
  match r with RTemp => st | RVar k n i => match entry st k n with Some e => put st k n (put_t e i t) | None => st end end.

(** ** Names *)
(** var.c:1198-1211 array_ref_len, called on the text after the first '[' with
    depth 1; [acc] counts the characters read. *)
Fixpoint ref_len (s : cstr) (depth acc : nat) : nat :=
  match s with
  | [] => 0
  | c :: s' => if ceq c "]" then match depth with S (S d) => ref_len s' (S d) (S acc) | _ => S acc end
               else ref_len s' (if ceq c "[" then S depth else depth) (S acc)
  end.
Definition array_ref_len (s : cstr) : nat := match s with c :: s' => if ceq c "[" then ref_len s' 1 1 else 0 | [] => 0 end.
(** var.c:790-802 skip_varname with aok = 0: the name and what follows it *)
Definition skip_varname (s : cstr) : cstr * cstr :=
  match s with c :: _ => if letter c then span letnum s else ([], s) | [] => ([], []) end.
(** var.c:149-175 array_index_calc up to the evaluation of the subscript *)
Definition split_ref (n : cstr) : cstr * option cstr :=
  let '(nm, p) := skip_varname n in
  match array_ref_len p with
  | O => (n, None)
  | len => match nm with [] => (n, None) | _ => (nm, Some (firstn (len - 2) (skipn 1 p))) end
  end.
(** var.c:1216-1226 arrayname *)
Fixpoint arrayname (s : cstr) : cstr := match s with [] => [] | c :: s' => if ceq c "[" then [] else c :: arrayname s' end.

(** misc.c:443-447 parse_args: !*array || *skip_varname(array, false) is refused *)
Definition is_name (n : cstr) : bool := match n, skip_varname n with _ :: _, (_, []) => true | _, _ => false end.

Section V.

(** What evaluating an arithmetic expression (substituted first when it is a
    subscript) does: the assignments it makes, in order (name, index, value,
    base), and then its value and base, an arithmetic error (LAEXPR), or another
    error (LERROR, e.g. a subscript out of range inside it). *)
Record asn := Asn { a_name : cstr; a_idx : Z; a_z : Z; a_base : Z }.
Inductive evres := EvOk (z base : Z) | EvFail | EvErr.
Variable ev : vars -> cstr -> list asn * evres.
(** bound on the length of an array chain in typeset *)
Variable fuel : nat.

(** ** Arrays *)
Definition as_flag (vp : tbl) : N := N.ldiff (t_flag vp) (N.lor ALLOC (N.lor DEFINED ISSET)).
Definition as_new (vp : tbl) (val : Z) (old : uval) : tbl := Tbl (as_flag vp) (t_type vp) old val (t_field vp).
(** var.c:1168-1190 *)
Fixpoint as_ins (vp : tbl) (val : Z) (l : list tbl) : list tbl :=
  match l with
  | [] => [as_new vp val VNone]
  | c :: l' => if t_index c <? val then c :: as_ins vp val l'
               else if t_index c =? val then (if on c ISSET then c else as_new vp val (t_val c)) :: l'
               else as_new vp val VNone :: c :: l'
  end.
(** var.c:1156-1192 arraysearch; the result is the element val of the entry *)
Definition arraysearch (e : ent) (val : Z) : ent :=
  let vp := set_index (set_flag (e_base e) (N.lor (t_flag (e_base e)) (N.lor ARRAY DEFINED))) 0 in
  Ent vp (if val =? 0 then e_elems e else as_ins vp val (e_elems e)).

(** ** Values *)
Definition jf (t : tbl) : jflags := JFlags (on t RJUST) (on t LJUST) (on t ZEROFIL) (on t UCASEV_AL) (on t LCASEV) (t_field t).
(** var.c:307-356 str_val: the text, and u2.field afterwards *)
Definition str_val (t : tbl) : res (cstr * Z) :=
  if negb (on t ISSET) then Ok ([], t_field t)
  else if negb (on t INTEGER) then
    match t_val t with
    | VStr s => if (0 <=? t_type t) && (t_type t <=? strlen s) then Ok (skipn (Z.to_nat (t_type t)) s, t_field t) else UB
    | _ => UB
    end
  else match t_val t with
       | VInt i => do s <- str_val_int (on t UCASEV_AL) (on t INT_U) (t_type t) i ;
                   if on t (N.lor RJUST LJUST) then formatstr (jf t) s else Ok (s, t_field t)
       | _ => UB
       end.

(** var.c:586-602 export *)
Definition export (n : cstr) (t : tbl) (val : cstr) : tbl :=
  Tbl (N.lor (t_flag t) ALLOC) (strlen n + 1) (VStr (n ++ "="%char :: val)) (t_index t) (t_field t).

(** var.c:384-402, 408: setstr with a string destination *)
Definition setstr_string (n : cstr) (t : tbl) (s : cstr) : res tbl :=
  let t := set_type (set_flag t (N.ldiff (t_flag t) (N.lor ISSET ALLOC))) 0 in
  do p <- (if on t (N.lor UCASEV_AL (N.lor LCASEV (N.lor LJUST RJUST))) then formatstr (jf t) s else Ok (s, t_field t)) ;
  let '(s, w) := p in
  let t := set_field t w in
  let t := if on t EXPORT then export n t s
           else set_val (set_flag t (N.lor (t_flag t) ALLOC)) (VStr s) in
  Ok (set_flag t (N.lor (t_flag t) ISSET)).

(** var.c:503-522 setint_v from an integer with the given base *)
Definition setint_v (t : tbl) (z base : Z) : tbl :=
  let t := if negb (on t INTEGER) && on t ALLOC then set_flag t (N.ldiff (t_flag t) ALLOC) else t in
  let t := set_val t (VInt z) in
  let t := if t_type t =? 0 then set_type t base else t in
  set_flag t (N.lor (t_flag t) (N.lor ISSET INTEGER)).

(** the name a reference carries, vp->name *)
Definition ref_name (r : ref) : cstr := match r with RTemp => [] | RVar _ n _ => n end.
Definition rd_only (st : vars) (r : ref) : bool := match deref st r with Some t => on t RDONLY | None => true end.

(** var.c:416-432 setint: setstr may refuse, the variable is ISSET all the same *)
Definition setint (st : vars) (r : ref) (z : Z) : out unit :=
  match deref st r with
  | None => Val tt st
  | Some t =>
    if negb (on t INTEGER) then
      match str_val_int false false 0 z with
      | Ok s => if on t RDONLY then Val tt (assign_t st r (set_flag t (N.lor (t_flag t) ISSET)))
                else match setstr_string (ref_name r) t s with
                     | Ok t' => Val tt (assign_t st r (set_flag t' (N.lor (t_flag t') ISSET)))
                     | _ => Bad
                     end
      | _ => Bad
      end
    else let t := set_val t (VInt z) in Val tt (assign_t st r (set_flag t (N.lor (t_flag t) ISSET)))
  end.

(** ** Lookup *)
(** var.c:239-248: the innermost block where n is DEFINED *)
Fixpoint find_block (st : vars) (n : cstr) : option nat :=
  match st with
  | [] => None
  | b :: st' => match ktsearch b n with Some _ => Some O | None => option_map S (find_block st' n) end
  end.
Definition define_t (t : tbl) : tbl := set_flag t (N.lor (t_flag t) DEFINED).
(** var.c:239-257 with the subscript already computed (None: no subscript).
    A subscript that is found leaves the flags as arraysearch made them. *)
Definition global_at (st : vars) (n : cstr) (sub : option Z) : ref * vars :=
  match n with
  | c :: _ =>
    if letter c then
      match find_block st n with
      | Some k => match entry st k n, sub with
                  | Some e, Some v => (RVar k n v, put st k n (arraysearch e v))
                  | _, _ => (RVar k n 0, st)
                  end
      | None =>
        let k := pred (length st) in
        let e := match nth_error st k with Some b => ktenter b n | None => fresh end in
        match sub with
        | Some v => let e := arraysearch e v in
                    let e := match get_t e v with Some t => put_t e v (define_t t) | None => e end in
                    (RVar k n v, put st k n e)
        | None => (RVar k n 0, put st k n (Ent (define_t (e_base e)) (e_elems e)))
        end
      end
    else (RTemp, st)
  | [] => (RTemp, st)
  end.

(** an assignment inside an expression: expr.c:555-561 assign_check, 452-456 and
    543-546; it fails when the variable is read only.  The names that token
    (expr.c:486-502) takes out of an expression are identifiers. *)
Definition arith_asn (st : vars) (a : asn) : out bool :=
  if negb (is_name (a_name a)) then Val false st else
  if (a_idx a <? 0) || (INT_MAX <? a_idx a) then Fail st else    (* array_index_calc, var.c:167 *)
  let '(r, st) := global_at st (a_name a) (if a_idx a =? 0 then None else Some (a_idx a)) in
  if rd_only st r then Val false st else
  match deref st r with
  | Some t => if on t INTEGER then Val true (assign_t st r (setint_v t (a_z a) (a_base a)))
              else bnd (setint st r (a_z a)) (fun _ st => Val true st)
  | None => Val false st
  end.
Fixpoint arith_asns (st : vars) (l : list asn) : out bool :=
  match l with
  | [] => Val true st
  | a :: l' => bnd (arith_asn st a) (fun ok st => if ok then arith_asns st l' else Val false st)
  end.
(** expr.c:152-224 evaluate / v_evaluate up to the use of the result: None after
    an arithmetic error *)
Definition evaluate (st : vars) (s : cstr) : out (option (Z * Z)) :=
  let '(l, r) := ev st s in
  bnd (arith_asns st l) (fun ok st =>
    if ok then match r with EvOk z b => Val (Some (z, b)) st | EvFail => Val None st | EvErr => Fail st end
    else Val None st).

(** var.c:149-175 array_index_calc: KSH_UNWIND_ERROR, and the range check *)
Definition subscript (st : vars) (sub : option cstr) : out (option Z) :=
  match sub with
  | None => Val None st
  | Some s => bnd (evaluate st s) (fun r st =>
      match r with
      | None => Fail st
      | Some (z, _) => if (z <? 0) || (INT_MAX <? z) then Fail st else Val (Some z) st
      end)
  end.

(** var.c:180-258 global *)
Definition global (st : vars) (n : cstr) : out ref :=
  let '(nm, sub) := split_ref n in
  bnd (subscript st sub) (fun i st => let '(r, st) := global_at st nm i in Val r st).

(** var.c:282-297: the attributes that a local copy takes from an outer block *)
Definition COPIED : N := N.lor EXPORT (N.lor INTEGER (N.lor RDONLY (N.lor LJUST (N.lor RJUST (N.lor ZEROFIL
  (N.lor LCASEV (N.lor UCASEV_AL (N.lor INT_U INT_L)))))))).
Definition copy_attr (vp vq : tbl) : tbl :=
  Tbl (N.lor (t_flag vp) (N.land (t_flag vq) COPIED)) (if on vq INTEGER then t_type vq else t_type vp)
      (t_val vp) (t_index vp) (t_field vq).
Definition outer (st : vars) (n : cstr) : option ent :=
  match st with
  | [] => None
  | _ :: st' => match find_block st' n with Some k => entry st' k n | None => None end
  end.
(** var.c:263-304 local with the subscript already computed *)
Definition local_at (st : vars) (n : cstr) (copy : bool) (sub : option Z) : ref * vars :=
  match n, st with
  | c :: _, b :: _ =>
    if letter c then
      let e := ktenter b n in
      let e := if copy && negb (on (e_base e) DEFINED) then
                 match outer st n with Some q => Ent (copy_attr (e_base e) (e_base q)) (e_elems e) | None => e end
               else e in
      let i := match sub with Some v => v | None => 0 end in
      let e := match sub with Some v => arraysearch e v | None => e end in
      let e := match get_t e i with Some t => put_t e i (define_t t) | None => e end in
      (RVar 0 n i, put st 0 n e)
    else (RTemp, st)
  | _, _ => (RTemp, st)
  end.
Definition local (st : vars) (n : cstr) (copy : bool) : out ref :=
  let '(nm, sub) := split_ref n in
  bnd (subscript st sub) (fun i st => let '(r, st) := local_at st nm copy i in Val r st).

(** ** Assignment *)
(** var.c:373-413 setstr.  [unwind]: error_ok is KSH_UNWIND_ERROR;
    [ign]: KSH_IGNORE_RDONLY *)
Definition setstr (st : vars) (r : ref) (s : cstr) (unwind ign : bool) : out bool :=
  if rd_only st r && negb ign then (if unwind then Fail st else Val false st) else
  match deref st r with
  | None => Bad
  | Some t =>
    if negb (on t INTEGER) then
      match setstr_string (ref_name r) t s with Ok t' => Val true (assign_t st r t') | _ => Bad end
    else
      bnd (evaluate st s) (fun o st =>
        match o with
        | None => if unwind then Fail st else Val false st
        | Some (z, b) => match deref st r with Some t => Val true (assign_t st r (setint_v t z b)) | None => Bad end
        end)
  end.

(** the next element of the chain: t = t->u.array *)
Fixpoint next_idx (l : list tbl) (i : Z) : option Z :=
  match l with [] => None | t :: l' => if i <? t_index t then Some (t_index t) else next_idx l' i end.

Definition JUSTIFY : N := N.lor UCASEV_AL (N.lor LCASEV (N.lor LJUST (N.lor RJUST ZEROFIL))).
(** var.c:691-699 *)
Definition fake_assign (t : tbl) (set clr : N) (target : bool) : bool :=
  on t ISSET && negb target &&
  (any set JUSTIFY || (on t INTEGER && any clr INTEGER) || (negb (on t INTEGER) && any set INTEGER)).
(** var.c:707-724: the changes of one element before the fake assignment.
    [target]: val && t == vp *)
Definition retype (t : tbl) (set clr : N) (field base : Z) (target fake : bool) : tbl :=
  let t := if fake then set_flag t (N.ldiff (t_flag t) ALLOC) else t in
  let t := if negb (on t INTEGER) && any set INTEGER then set_type (set_flag t (N.ldiff (t_flag t) ALLOC)) 0 else t in
  let t := set_flag t (N.ldiff (N.lor (t_flag t) set) clr) in
  let t := if any set INTEGER && (0 <? base) && negb target then set_type t base else t in
  if any set (N.lor LJUST (N.lor RJUST ZEROFIL)) then set_field t field else t.
(** var.c:730-739: the value is dropped, the flags are kept *)
Definition zap (t : tbl) : tbl :=
  if on t INTEGER then set_flag t (N.ldiff (t_flag t) ISSET)
  else set_type (set_flag t (N.ldiff (t_flag t) (N.lor ISSET ALLOC))) 0.

(** var.c:685-742: one element; the result says whether it went well *)
Definition typeset_elem (st : vars) (k : nat) (n : cstr) (i : Z) (set clr : N) (field base : Z) (target : bool) : out bool :=
  let r := RVar k n i in
  match deref st r with
  | None => Bad
  | Some t =>
    let fake := fake_assign t set clr target in
    match (if fake then str_val t else Ok ([], t_field t)) with
    | Ok (s, w) =>
      let ign := negb (on t RDONLY) && any set RDONLY in
      let st := assign_t st r (retype (set_field t w) set clr field base target fake) in
      if fake then
        bnd (setstr st r s false ign) (fun ok st =>
          if ok then Val true st
          else match deref st r with Some t => Val false (assign_t st r (zap t)) | None => Bad end)
      else Val true st
    | _ => Bad
    end
  end.
(** var.c:685-745: the loop over the elements *)
Fixpoint typeset_loop (f : nat) (st : vars) (k : nat) (n : cstr) (i : Z) (set clr : N) (field base : Z)
    (target : option Z) (ok : bool) : out bool :=
  match f with
  | O => Fuel
  | S f' =>
    bnd (typeset_elem st k n i set clr field base (match target with Some j => i =? j | None => false end)) (fun o st =>
      let ok := ok && o in
      match entry st k n with
      | Some e => match next_idx (e_elems e) i with
                  | Some j => typeset_loop f' st k n j set clr field base target ok
                  | None => Val ok st
                  end
      | None => Bad
      end)
  end.

(** var.c:615-644: the name (with its subscript), the value if there is one;
    None: not an identifier *)
Definition typeset_name (var : cstr) (set : N) : option (cstr * option cstr) :=
  let '(nm, p) := skip_varname var in
  match nm with
  | [] => None
  | _ =>
    let len := array_ref_len p in
    let bracket := match p with c :: _ => ceq c "[" | [] => false end in
    if bracket && (len =? 0)%nat then None
    else if bracket && any set IMPORT && negb (forallb isdigit (firstn (len - 2) (skipn 1 p))) then None
    else
      let tvar := nm ++ firstn len p in
      match skipn len p with
      | c :: v => if ceq c "=" then Some (tvar, Some v) else if any set IMPORT then None else Some (var, None)
      | [] => if any set IMPORT then None else Some (var, None)
      end
  end.

(** var.c:748-763: the assignment and the export of element 0 *)
Definition typeset_end (st : vars) (vp : ref) (kb : nat) (nb : cstr) (val : option cstr) (base : Z) : out (option ref) :=
  bnd (match val with
       | None => Val tt st
       | Some v =>
         match deref st vp with
         | None => Bad
         | Some t =>
           if on t INTEGER then
             bnd (setstr st vp v true true) (fun _ st =>
               if 0 <? base then
                 match deref st vp with Some t => Val tt (assign_t st vp (set_type t base)) | None => Bad end
               else Val tt st)
           else bnd (setstr st vp v false true) (fun _ st => Val tt st)
         end
       end) (fun _ st =>
  match deref st (RVar kb nb 0) with
  | None => Bad
  | Some b =>
    if on b EXPORT && negb (on b INTEGER) && (t_type b =? 0) then
      if on b ISSET then match t_val b with VStr s => Val (Some vp) (assign_t st (RVar kb nb 0) (export nb b s)) | _ => Bad end
      else Val (Some vp) (assign_t st (RVar kb nb 0) (export nb b []))
    else Val (Some vp) st
  end).

(** var.c:660-763: from the variable found on *)
Definition typeset_var (st : vars) (vp : ref) (tvar : cstr) (val : option cstr) (set clr : N) (field base : Z) : out (option ref) :=
  match deref st vp with
  | None => Fail st
  | Some t =>
    bnd (if on t ARRAY then global st (arrayname tvar) else Val vp st) (fun vb st =>
    match vb with
    | RTemp => Bad
    | RVar kb nb _ =>
      if rd_only st vb && ((match val with Some _ => true | None => false end) || negb (clr =? 0)%N || negb (N.ldiff set EXPORT =? 0)%N)
      then Fail st
      else
        bnd (if (N.lor set clr =? 0)%N then Val true st
             else typeset_loop fuel st kb nb 0 set clr field base
                    (match val, vp with Some _, RVar _ _ i => Some i | _, _ => None end) true) (fun ok st =>
        if ok then typeset_end st vp kb nb val base else Fail st)
    end)
  end.

(** var.c:609-757 typeset *)
Definition typeset (st : vars) (var : cstr) (set clr : N) (field base : Z) : out (option ref) :=
  match typeset_name var set with
  | None => Val None st
  | Some (tvar, val) =>
    bnd (if any set LOCAL then local st tvar (any set LOCAL_COPY) else global st tvar) (fun vp st =>
      typeset_var st vp tvar val (N.ldiff set (N.lor LOCAL LOCAL_COPY)) clr field base)
  end.

(** var.c:762-784 unset *)
Definition unset (st : vars) (r : ref) (array_ref : bool) : vars :=
  match r, deref st r with
  | RVar k n i, Some t =>
    let t' := set_flag t (N.land (t_flag t) (if array_ref then N.lor ARRAY DEFINED else 0%N)) in
    if on t ARRAY && negb array_ref then put st k n (Ent t' [])
    else assign_t st r t'
  | _, _ => st
  end.

(** c_sh.c:668-676 c_unset for one name; false: "is read only" *)
Definition c_unset (st : vars) (id : cstr) : out bool :=
  bnd (global st id) (fun r st =>
    if rd_only st r then Val false st
    else Val true (unset st r (existsb (fun c => ceq c "[") id))).

(** var.c:1251-1254 *)
Fixpoint set_elems (st : vars) (k : nat) (n : cstr) (i : Z) (vals : list cstr) : out unit :=
  match vals with
  | [] => Val tt st
  | v :: vals' =>
    match entry st k n with
    | None => Bad
    | Some e => bnd (setstr (put st k n (arraysearch e i)) (RVar k n i) v false false) (fun _ st =>
                set_elems st k n (i + 1) vals')
    end
  end.
(** var.c:1230-1255 set_array *)
Definition set_array (st : vars) (var : cstr) (reset : bool) (vals : list cstr) : out unit :=
  bnd (global st var) (fun r st =>
    match r with
    | RTemp => Fail st
    | RVar k n _ =>
      if rd_only st r then Fail st
      else set_elems (if reset then unset st r false else st) k n 0 vals
    end).

(** exec.c:299, 313 (for, select) and eval.c:444 (${x:=word}): global, then
    setstr that unwinds; c_ksh.c:136, 149 (cd) with KSH_RETURN_ERROR *)
Definition assign_to (st : vars) (n s : cstr) (unwind : bool) : out bool :=
  bnd (global st n) (fun r st => setstr st r s unwind false).

(** c_sh.c:394-406 c_read for one name; allexport: Flag(FEXPORT) *)
Definition c_read (st : vars) (n s : cstr) (allexport : bool) : out bool :=
  bnd (global st n) (fun r st =>
    if rd_only st r then Val false st
    else bnd (if allexport then typeset st n EXPORT 0 0 0 else Val None st) (fun _ st => setstr st r s false false)).

(** eval.c:862-864 varsub: a plain parameter; reading may create an unset variable *)
Definition get (st : vars) (n : cstr) : out (option cstr) :=
  bnd (global st n) (fun r st =>
    match deref st r with
    | None => Val None st
    | Some t => match str_val t with
                | Ok (s, w) => Val (if on t ISSET then Some s else None) (assign_t st r (set_field t w))
                | _ => Bad
                end
    end).

(** eval.c:763-768, 841-848 varsub: the set elements of an array *)
Definition elems_of (e : ent) : list tbl := filter (fun t => on t ISSET) (e_base e :: e_elems e).
Definition get_all (st : vars) (n : cstr) : out (list (res (cstr * Z))) :=
  bnd (global st (arrayname n)) (fun r st =>
    match r with
    | RTemp => Val [] st
    | RVar k m _ => match entry st k m with Some e => Val (map str_val (elems_of e)) st | None => Val [] st end
    end).
Definition count_all (st : vars) (n : cstr) : out Z :=
  bnd (global st (arrayname n)) (fun r st =>
    match r with
    | RTemp => Val 0 st
    | RVar k m _ => match entry st k m with Some e => Val (Z.of_nat (length (elems_of e))) st | None => Val 0 st end
    end).

(** edit.c:79-86 x_sigwinch: typeset(name, 0, 0, 0, 0) and setint *)
Definition winch (st : vars) (n : cstr) (z : Z) : out unit :=
  bnd (typeset st n 0 0 0 0) (fun o st => match o with Some r => setint st r z | None => Val tt st end).

(** c_ksh.c:1341-1350 c_getopts: OPTARG loses RDONLY and INTEGER, then is unset or set *)
Definition getopts_arg (st : vars) (arg : option cstr) : out unit :=
  bnd (global st (L "OPTARG")) (fun r st =>
    match deref st r with
    | None => Bad
    | Some t =>
      let st := assign_t st r (set_flag t (N.ldiff (t_flag t) RDONLY)) in
      bnd (if on t INTEGER then typeset st (L "OPTARG") 0 INTEGER 0 0 else Val None st) (fun _ st =>
      match arg with
      | None => Val tt (unset st r false)
      | Some a => bnd (setstr st r a false false) (fun _ st => Val tt st)
      end)
    end).

(** ** Blocks *)
(** var.c:56-77 newblock and 82-101 popblock *)
Definition newblock (st : vars) : vars := [] :: st.
Definition popblock (st : vars) : vars := match st with _ :: b :: st' => b :: st' | _ => st end.

(** ** makenv, var.c:857-892 *)
(** var.c:874-878: the same name in the outer blocks is no longer exported *)
Definition unexport (b : block) (n : cstr) : block :=
  match ktsearch b n with
  | Some e => store_ b n (Ent (set_flag (e_base e) (N.ldiff (t_flag (e_base e)) EXPORT)) (e_elems e))
  | None => b
  end.
(** one block; [b]: what is left of it, [done]: what has been visited (the
    table is walked in an order that depends on the hashes: any order) *)
Fixpoint env_block (b done : block) (outer : vars) : res (list cstr * block * vars) :=
  match b with
  | [] => Ok ([], rev done, outer)
  | (n, e) :: b' =>
    let t := e_base e in
    if on t ISSET && on t EXPORT then
      let outer := map (fun b => unexport b n) outer in
      if on t INTEGER then
        do p <- str_val t ; let '(s, w) := p in
        do t' <- setstr_string n (set_flag (set_field t w) (N.ldiff (t_flag t) (N.lor INTEGER RDONLY))) s ;
        match t_val t' with
        | VStr x => do p <- env_block b' ((n, Ent t' (e_elems e)) :: done) outer ; let '(l, b'', o) := p in Ok (x :: l, b'', o)
        | _ => UB
        end
      else match t_val t with
           | VStr x => do p <- env_block b' ((n, e) :: done) outer ; let '(l, b'', o) := p in Ok (x :: l, b'', o)
           | _ => UB
           end
    else env_block b' ((n, e) :: done) outer
  end.
Fixpoint makenv_ (f : nat) (st : vars) : res (list cstr * vars) :=
  match f, st with
  | S f', b :: st' =>
    do p <- env_block b [] st' ; let '(l, b', st') := p in
    do q <- makenv_ f' st' ; let '(l', st') := q in Ok (l ++ l', b' :: st')
  | _, _ => Ok ([], st)
  end.
Definition makenv (st : vars) : res (list cstr * vars) := makenv_ (length st) st.

(** ** Commands as operations on the variables *)
Inductive vop :=
| Typeset (var : cstr) (set clr : N) (field base : Z)   (* assignments, typeset, export, readonly, local *)
| Unset (id : cstr)
| SetArray (n : cstr) (reset : bool) (vals : list cstr)  (* set -A, set +A *)
| Assign (n s : cstr) (unwind : bool)                    (* for, select, ${n:=s}, cd *)
| Read (n s : cstr) (allexport : bool)
| Let (expr : cstr)                                      (* let, (( )), $(( )) *)
| Get (n : cstr) | GetAll (n : cstr)
| NewBlock | PopBlock.

(** the variables after a command, and whether it succeeded *)
Definition step (st : vars) (o : vop) : out bool :=
  match o with
  | Typeset v s c f b => bnd (typeset st v s c f b) (fun r st => Val (match r with Some _ => true | None => false end) st)
  | Unset id => c_unset st id
  | SetArray n r vals => if is_name n then bnd (set_array st n r vals) (fun _ st => Val true st) else Val false st
  | Assign n s u => assign_to st n s u
  | Read n s x => c_read st n s x
  | Let e => bnd (evaluate st e) (fun r st => Val (match r with Some _ => true | None => false end) st)
  | Get n => bnd (get st n) (fun _ st => Val true st)
  | GetAll n => bnd (get_all st n) (fun _ st => Val true st)
  | NewBlock => Val true (newblock st)
  | PopBlock => Val true (popblock st)
  end.
(** a command that fails leaves its effects, and the shell reads the next one *)
Definition after (o : out bool) : option vars :=
  match o with Val _ st => Some st | Fail st => Some st | Bad | Fuel => None end.
Fixpoint steps (st : vars) (l : list vop) : option vars :=
  match l with
  | [] => Some st
  | o :: l' => match after (step st o) with Some st' => steps st' l' | None => None end
  end.
End V.
