(** Special variables: var.c:915-1150 special, unspecial, getspec, setspec, unsetspec, and where
    they are called from: global (195-260), local (264-304), str_val (307-318), intval (358-369),
    setstr (372-414), setint (417-432), typeset (609-757), unset (763-784), newblock and popblock
    (56-101), c_unset (c_sh.c:667-676).

    Simplifications: no arrays, no attributes but integer and readonly, integers of base 10;
    [ev] stands for v_evaluate, without side effects; what the shell does with a value
    (set_editmode, sethistcontrol, sethistfile, mbset, mpset, setupterm, sethistsize, flushcom) is represented
    by the value it was last given, reallocarray succeeds; names do not start with a digit or
    sign (vtemp); Var_model has what is left out, without the special variables. *)
From Verif Require Import Base Num_model.
Local Open Scope Z_scope.

(** table.h:200-219 *)
Inductive id := V_COLUMNS | V_IFS | V_OPTIND | V_PATH | V_POSIXLY_CORRECT | V_TMPDIR | V_HISTCONTROL | V_HISTFILE | V_HISTSIZE
  | V_EDITOR | V_VISUAL | V_MAIL | V_MAILCHECK | V_MAILPATH | V_RANDOM | V_SECONDS | V_TMOUT | V_LINENO | V_TERM.
(** var.c:106-132 *)
Definition names : list (cstr * id) :=
  [(L "COLUMNS", V_COLUMNS); (L "IFS", V_IFS); (L "OPTIND", V_OPTIND); (L "PATH", V_PATH); (L "POSIXLY_CORRECT", V_POSIXLY_CORRECT);
   (L "TMPDIR", V_TMPDIR); (L "HISTCONTROL", V_HISTCONTROL); (L "HISTFILE", V_HISTFILE); (L "HISTSIZE", V_HISTSIZE);
   (L "EDITOR", V_EDITOR); (L "VISUAL", V_VISUAL); (L "MAIL", V_MAIL); (L "MAILCHECK", V_MAILCHECK); (L "MAILPATH", V_MAILPATH);
   (L "RANDOM", V_RANDOM); (L "SECONDS", V_SECONDS); (L "TMOUT", V_TMOUT); (L "LINENO", V_LINENO); (L "TERM", V_TERM)].

(** What the shell keeps apart from the variables: texts and numbers *)
Inductive tset := X_path | X_ifs | X_ifs0 | X_tmpdir | X_histcontrol | X_mail | X_mailpath | X_histfile | X_editmode | X_term.
Inductive nset := N_flushes | N_mailcheck | N_cols | N_tmout | N_lineno | N_sec | N_nsec | N_optind | N_histsize | N_seed | N_rands | N_posix.
Definition tset_eq (a b : tset) : {a = b} + {a <> b}. Proof. decide equality. Defined.
Definition nset_eq (a b : nset) : {a = b} + {a <> b}. Proof. decide equality. Defined.

Inductive val := VNone | VStr (s : cstr) | VInt (z : Z).
Record var := Var { defined : bool; isset : bool; special : bool; integer : bool; rdonly : bool; value : val }.
Definition fresh : var := Var false false false false false VNone.
Definition block := list (cstr * var).
Record state := St {
  blocks : list block;              (* genv->loc and what follows *)
  specials : list (cstr * id);
  texts : tset -> option cstr;
  nums : nset -> Z;
  now : Z * Z;                      (* CLOCK_MONOTONIC: seconds, nanoseconds *)
  lineno : Z }.                     (* current_lineno *)
Definition set_blocks st b := St b (specials st) (texts st) (nums st) (now st) (lineno st).
Definition set_specials st l := St (blocks st) l (texts st) (nums st) (now st) (lineno st).
Definition set_text st k v := St (blocks st) (specials st) (fun j => if tset_eq j k then v else texts st j) (nums st) (now st) (lineno st).
Definition set_num st k v := St (blocks st) (specials st) (texts st) (fun j => if nset_eq j k then v else nums st j) (now st) (lineno st).

(** Done; an error that unwinds; undefined behaviour *)
Inductive out (A : Type) := Ok_ (a : A) (st : state) | Fail (st : state) | Bad.
Arguments Ok_ {A}. Arguments Fail {A}. Arguments Bad {A}.
Definition bind {A B} (m : out A) (g : A -> state -> out B) : out B := match m with Ok_ a st => g a st | Fail st => Fail st | Bad => Bad end.

(** table.c:88-152: ktsearch passes over entries that are not DEFINED, ktenter does not *)
Fixpoint look (b : block) (n : cstr) : option var := match b with [] => None | (m, v) :: b => if str_eqb m n then Some v else look b n end.
Fixpoint store (b : block) (n : cstr) (v : var) : block :=
  match b with [] => [(n, v)] | (m, w) :: b => if str_eqb m n then (m, v) :: b else (m, w) :: store b n v end.
Definition here (b : block) (n : cstr) : bool := match look b n with Some v => defined v | None => false end.
Fixpoint find_block (l : list block) (n : cstr) : option nat :=
  match l with [] => None | b :: l => if here b n then Some O else match find_block l n with Some k => Some (S k) | None => None end end.
Fixpoint at_block (l : list block) (k : nat) : block := match l, k with [], _ => [] | b :: _, O => b | _ :: l, S k => at_block l k end.
Fixpoint upd_block (l : list block) (k : nat) (b : block) : list block :=
  match l, k with [], _ => [] | _ :: l, O => b :: l | c :: l, S k => c :: upd_block l k b end.
Definition get (st : state) (k : nat) (n : cstr) : var := match look (at_block (blocks st) k) n with Some v => v | None => fresh end.
Definition put (st : state) (k : nat) (n : cstr) (v : var) : state := set_blocks st (upd_block (blocks st) k (store (at_block (blocks st) k) n v)).

(** var.c:911-929 *)
Fixpoint assoc (l : list (cstr * id)) (n : cstr) : option id := match l with [] => None | (m, i) :: l => if str_eqb m n then Some i else assoc l n end.
Definition special_id (st : state) (n : cstr) : option id := assoc (specials st) n.
Definition unspecial (st : state) (n : cstr) : state := set_specials st (filter (fun p => negb (str_eqb (fst p) n)) (specials st)).

Definition is_some {A} (o : option A) : bool := match o with Some _ => true | None => false end.
Definition set_special v b := Var (defined v) (isset v) b (integer v) (rdonly v) (value v).
Definition clear (st : state) (k : nat) (n : cstr) : state := put st k n (set_special (get st k n) false).
Definition restore (st : state) (k : nat) (n : cstr) : state := put st k n (set_special (get st k n) true).

(** global (var.c:195-260): the block the variable is in, created in the last if in none *)
Definition enter (st : state) (k : nat) (n : cstr) : state :=
  let v := get st k n in
  put st k n (Var true (isset v) (special v || is_some (special_id st n)) (integer v) (rdonly v) (value v)).
Definition global (st : state) (n : cstr) : nat * state :=
  match find_block (blocks st) n with
  | Some k => (k, st)
  | None => let k := (length (blocks st) - 1)%nat in (k, enter st k n)
  end.
(** local (var.c:264-304) *)
Definition local (st : state) (n : cstr) (copy : bool) : state :=
  let v := get st 0 n in
  let v := if copy && negb (defined v) then
             match find_block (tl (blocks st)) n with
             | Some k => let q := get st (S k) n in Var (defined v) (isset v) (special v) (integer v || integer q) (rdonly v || rdonly q) (value v)
             | None => v
             end
           else v in
  enter (put st 0 n v) 0 n.

Section Shell.
Variable ev : cstr -> option Z.          (* v_evaluate; None: an error *)
Variable usable_dir : cstr -> bool.      (* access(W_OK|X_OK), stat, S_ISDIR: 1001-1002 *)
Variable def_path : cstr.
Variable rand : Z -> Z -> Z.             (* the n-th rand() after srand(seed) *)

(** the text of a variable (var.c:312-349) without getspec; None: undefined behaviour *)
Definition text_of (v : var) : option (option cstr) :=
  if isset v then
    match value v with
    | VStr s => if integer v then None else Some (Some s)
    | VInt z => if integer v then match str_val_int false false 0 z with Ok s => Some (Some s) | _ => None end else None
    | VNone => None
    end
  else Some None.
(** getint(vp, &n, false) (var.c:434-498); None: undefined behaviour, Some None: -1 *)
Definition number_of (v : var) : option (option Z) :=
  if isset v then
    match value v with
    | VStr s => if integer v then None else match getint false false s with Ok (_, z) => Some (Some z) | Err => Some None | UB => None end
    | VInt z => if integer v then Some (Some z) else None
    | VNone => None
    end
  else Some None.
(** var.c:358-369, the flag SPECIAL being off *)
Definition intval (st : state) (k : nat) (n : cstr) : out Z :=
  match number_of (get st k n) with Some (Some z) => Ok_ z st | Some None => Fail st | None => Bad end.
Definition str_of (st : state) (k : nat) (n : cstr) : out cstr :=
  match text_of (get st k n) with Some (Some s) => Ok_ s st | Some None => Ok_ [] st | None => Bad end.
Definition to_uint (z : Z) : Z := z mod 4294967296.
Definition MIN_COLS : Z := 12.

(** setspec, var.c:975-1097 *)
Definition with_int (st : state) (k : nat) (n : cstr) (g : Z -> state -> option state) : out unit :=
  bind (intval (clear st k n) k n) (fun z st => match g z st with Some st => Ok_ tt (restore st k n) | None => Bad end).
Definition setspec (st : state) (k : nat) (n : cstr) : out unit :=
  let text g := bind (str_of st k n) (fun s st => Ok_ tt (g s st)) in
  match special_id st n with
  | None => Ok_ tt st
  | Some V_PATH => text (fun s st => set_num (set_text st X_path (Some s)) N_flushes (nums st N_flushes + 1))
  | Some V_IFS => text (fun s st => set_text (set_text st X_ifs (Some s)) X_ifs0 (Some [match s with [] => NUL | c :: _ => c end]))
  | Some V_OPTIND => with_int st k n (fun z st => Some (let z := to_int32 z in if 1 <=? z then set_num st N_optind z else st))
  | Some V_POSIXLY_CORRECT => Ok_ tt (set_num st N_posix 1)
  | Some V_TMPDIR => text (fun s st => set_text st X_tmpdir (match s with c :: _ => if ceq c "/" && usable_dir s then Some s else None | [] => None end))
  | Some V_HISTCONTROL => text (fun s st => set_text st X_histcontrol (Some s))
  | Some V_HISTSIZE => with_int st k n (fun z st => Some (let z := to_int32 z in if 0 <? z then set_num st N_histsize z else st))
  | Some V_HISTFILE => text (fun s st => set_text st X_histfile (Some s))
  | Some V_VISUAL => text (fun s st => set_text st X_editmode (Some s))
  | Some V_EDITOR =>
    let '(j, st) := global st (L "VISUAL") in
    if isset (get st j (L "VISUAL")) then Ok_ tt st else bind (str_of st k n) (fun s st => Ok_ tt (set_text st X_editmode (Some s)))
  | Some V_COLUMNS =>
    match number_of (get st k n) with
    | None => Bad
    | Some None => Ok_ tt (set_num st N_cols MIN_COLS)
    | Some (Some l) => Ok_ tt (set_num st N_cols (if (l <=? MIN_COLS) || (INT_MAX <? l) then MIN_COLS else l))
    end
  | Some V_MAIL => text (fun s st => set_text st X_mail (Some s))
  | Some V_MAILPATH => text (fun s st => set_text st X_mailpath (Some s))
  | Some V_MAILCHECK => with_int st k n (fun z st => Some (set_num st N_mailcheck z))
  | Some V_RANDOM => with_int st k n (fun z st => Some (set_num (set_num st N_seed (to_uint z)) N_rands 0))
  | Some V_SECONDS => with_int st k n (fun z st => let d := fst (now st) - z in if in_int64 d then Some (set_num (set_num st N_sec d) N_nsec (snd (now st))) else None)
  | Some V_TMOUT => with_int st k n (fun z st => Some (if integer (get st k n) then set_num st N_tmout (if 0 <=? z then to_uint z else 0) else st))
  | Some V_LINENO => with_int st k n (fun z st => Some (set_num st N_lineno (to_int32 (to_uint (to_uint z - lineno st - 1)))))
  | Some V_TERM => bind (str_of (clear st k n) k n) (fun s st => Ok_ tt (restore (set_text st X_term (Some s)) k n))
  end.

(** unsetspec, var.c:1099-1150 *)
Definition unsetspec (st : state) (n : cstr) : state :=
  match special_id st n with
  | Some V_PATH => set_num (set_text st X_path (Some def_path)) N_flushes (nums st N_flushes + 1)
  | Some V_IFS => set_text (set_text st X_ifs (Some [SP; TAB; NL])) X_ifs0 (Some [SP])
  | Some V_TMPDIR => set_text st X_tmpdir None
  | Some V_MAIL => set_text st X_mail None
  | Some V_MAILPATH => set_text st X_mailpath None
  | Some V_HISTCONTROL => set_text st X_histcontrol None
  | Some V_LINENO | Some V_MAILCHECK | Some V_RANDOM | Some V_SECONDS | Some V_TMOUT => unspecial st n
  | _ => st
  end.

(** setstr, var.c:372-414; [ro]: KSH_IGNORE_RDONLY; [soft]: KSH_RETURN_ERROR, the result 0 is then not looked at *)
Definition setstr (st : state) (k : nat) (n : cstr) (s : cstr) (soft ro : bool) : out unit :=
  let v := get st k n in
  let fail := if soft then Ok_ tt st else Fail st in
  if rdonly v && negb ro then fail
  else
    let set x := let st := put st k n (Var (defined v) true (special v) (integer v) (rdonly v) x) in
                 if special v then setspec st k n else Ok_ tt st in
    if integer v then match ev s with Some z => if in_int64 z then set (VInt z) else Bad | None => fail end
    else set (VStr s).
(** setint, var.c:417-432, with SPECIAL off *)
Definition setint (st : state) (k : nat) (n : cstr) (z : Z) : out unit :=
  let v := get st k n in
  if integer v then Ok_ tt (put st k n (Var (defined v) true (special v) true (rdonly v) (VInt z)))
  else match str_val_int false false 0 z with
       | Ok s => bind (setstr st k n s true false) (fun _ st =>
                   let v := get st k n in Ok_ tt (put st k n (Var (defined v) true (special v) (integer v) (rdonly v) (value v))))
       | _ => Bad
       end.

(** getspec, var.c:933-973 *)
Definition around (st : state) (k : nat) (n : cstr) (z : Z) : out unit :=
  bind (setint (clear st k n) k n z) (fun _ st => Ok_ tt (restore st k n)).
Definition seconds_since (st : state) : Z :=       (* timespecsub: floor *)
  fst (now st) - nums st N_sec - (if snd (now st) <? nums st N_nsec then 1 else 0).
Definition getspec (st : state) (k : nat) (n : cstr) : out unit :=
  match special_id st n with
  | Some V_SECONDS => if isset (get st k n) then if in_int64 (seconds_since st) then around st k n (seconds_since st) else Bad else Ok_ tt (restore st k n)
  | Some V_RANDOM =>
    let i := nums st N_rands in
    around (set_num st N_rands (i + 1)) k n (Z.land (rand (nums st N_seed) i) 32767)
  | Some V_HISTSIZE => around st k n (nums st N_histsize)
  | Some V_OPTIND => around st k n (nums st N_optind)
  | Some V_LINENO => around st k n (lineno st + nums st N_lineno)
  | _ => Ok_ tt st
  end.
(** $name *)
Definition read (st : state) (n : cstr) : out (option cstr) :=
  let '(k, st) := global st n in
  bind (if special (get st k n) then getspec st k n else Ok_ tt st) (fun _ st =>
    match text_of (get st k n) with Some o => Ok_ o st | None => Bad end).

(** typeset name[=value] in a function, and assignments before a command (var.c:654-754); [copy]: LOCAL_COPY *)
Definition typeset (st : state) (n : cstr) (v : option cstr) (copy : bool) : out unit :=
  let st := local st n copy in
  match v with
  | None => Ok_ tt st
  | Some s => if rdonly (get st 0 n) then Fail st else setstr st 0 n s (negb (integer (get st 0 n))) true
  end.
(** c_sh.c:667-676 and var.c:763-784 *)
Definition unset (st : state) (n : cstr) : out unit :=
  let '(k, st) := global st n in
  let v := get st k n in
  if rdonly v then Fail st
  else let st := put st k n (Var false false (special v) false false VNone) in
       Ok_ tt (if special v then unsetspec st n else st).
(** popblock, var.c:82-101: the order is that of the hash table, here that of the list *)
Fixpoint pop_loop (b : block) (st : state) : out unit :=
  match b with
  | [] => Ok_ tt st
  | (n, v) :: b =>
    if special v then
      let '(k, st) := global st n in
      if isset (get st k n) then bind (setspec st k n) (fun _ => pop_loop b) else pop_loop b (unsetspec st n)
    else pop_loop b st
  end.

Inductive op :=
| Assign (n s : cstr)                      (* n=s *)
| Typeset (n : cstr) (v : option cstr) (copy : bool)
| Unset (n : cstr)
| Readonly (n : cstr)                      (* readonly n *)
| Get (n : cstr)                           (* $n *)
| Push                                     (* a function is called *)
| Pop                                      (* it returns *)
| Tick (t : Z * Z) (line : Z).             (* time passes, the shell is at another line *)
Definition step (o : op) (st : state) : out (option cstr) :=
  let quiet (m : out unit) := bind m (fun _ st => Ok_ None st) in
  match o with
  | Assign n s => let '(k, st) := global st n in quiet (setstr st k n s false false)
  | Typeset n v copy => quiet (typeset st n v copy)
  | Unset n => quiet (unset st n)
  | Readonly n => let '(k, st) := global st n in
                  let v := get st k n in Ok_ None (put st k n (Var (defined v) (isset v) (special v) (integer v) true (value v)))
  | Get n => read st n
  | Push => Ok_ None (set_blocks st ([] :: blocks st))
  | Pop => match blocks st with
           | b :: (_ :: _) as l => quiet (pop_loop b (set_blocks st (tl (blocks st))))
           | _ => Bad
           end
  | Tick t l => Ok_ None (St (blocks st) (specials st) (texts st) (nums st) t l)
  end.
(** After an error the shell goes on with the variables as they are. *)
Definition next (o : op) (st : state) : option state := match step o st with Ok_ _ st => Some st | Fail st => Some st | Bad => None end.

(** The start: main.c:83, 225-232, 91-99, 321-328 (OPTIND, RANDOM, MAILCHECK, SECONDS and TMOUT are integers), nothing
    imported *)
Definition ivar (i : bool) (v : val) : var := Var true i true true false v.
Definition start (t : Z * Z) : state :=
  St [[(L "PATH", Var true true true false false (VStr def_path)); (L "OPTIND", ivar true (VInt 1)); (L "RANDOM", ivar false VNone);
       (L "MAILCHECK", ivar true (VInt 600)); (L "SECONDS", ivar true (VInt 0)); (L "TMOUT", ivar true (VInt 0)); (L "IFS", Var true true true false false (VStr [SP; TAB; NL]))]]
     names
     (fun k => match k with X_path => Some def_path | X_ifs => Some [SP; TAB; NL] | X_ifs0 => Some [SP] | _ => None end)
     (fun k => match k with N_mailcheck => 600 | N_sec => fst t | N_nsec => snd t | N_optind => 1 | N_histsize => 500 | N_cols => 80 | N_seed => 1 | _ => 0 end)
     t 1.
End Shell.
