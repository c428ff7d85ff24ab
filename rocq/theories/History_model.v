(** The history vector and fc -s (history.c). *)
From Verif Require Import Base Num_model.
Local Open Scope nat_scope.

(** Strings in APERM: [heap] has one cell for each str_save, [None] once freed.  [vec] is
    history[0 .. histsize-1], whose cells hold such strings or nothing yet; [cnt] is
    histptr - history + 1. *)
Record hst := Hst {
  vec : list (option nat); cnt : nat; heap : list (option cstr);
  dups : bool; space : bool }.                 (* ignoredups, ignorespace *)
Definition hsize (s : hst) : nat := length (vec s).                  (* histsize *)

(** Use of freed memory or of a cell never written is undefined: [None]. *)
Definition set_at {A} (i : nat) (x : A) (l : list A) : list A := firstn i l ++ x :: skipn (S i) l.
Definition cell (s : hst) (i : nat) : option nat :=
  match nth_error (vec s) i with Some (Some k) => Some k | _ => None end.
Definition live (s : hst) (k : nat) : option cstr :=
  match nth_error (heap s) k with Some (Some c) => Some c | _ => None end.
(** *hp as a string. *)
Definition entry (s : hst) (i : nat) : option cstr :=
  match cell s i with Some k => live s k | None => None end.
(** afree( *hp, APERM). *)
Definition afree_cell (i : nat) (s : hst) : option hst :=
  match cell s i with
  | Some k => match live s k with
              | Some _ => Some (Hst (vec s) (cnt s) (set_at k None (heap s)) (dups s) (space s))
              | None => None
              end
  | None => None
  end.
(** for (i = a; i < a + n; i++) afree(history[i]). *)
Fixpoint afree_cells (a n : nat) (s : hst) : option hst :=
  match n with
  | O => Some s
  | S n => match afree_cell a s with Some s => afree_cells (S a) n s | None => None end
  end.

(** init_histvec (history.c:620-637), with histsize = [n]. *)
Definition init_histvec (n : nat) : hst := Hst (repeat None n) 0 [] false false.

(** sethistcontrol (history.c:534-554): the words between colons. *)
Fixpoint words_at (c : char) (cur : cstr) (s : cstr) : list cstr :=          (* strtok_r *)
  match s with
  | [] => match cur with [] => [] | _ => [rev cur] end
  | x :: r => if ceq x c then match cur with [] => words_at c [] r | _ => rev cur :: words_at c [] r end
              else words_at c (x :: cur) r
  end.
Definition sethistcontrol (str : option cstr) (s : hst) : hst :=
  let toks := match str with Some t => words_at ":" [] t | None => [] end in
  Hst (vec s) (cnt s) (heap s) (existsb (str_eqb (L "ignoredups")) toks)
      (existsb (str_eqb (L "ignorespace")) toks).

(** strrchr(c, '\n') and cutting there (history.c:671-673). *)
Fixpoint cut_last_nl (s : cstr) : option cstr :=
  match s with
  | [] => None
  | c :: r => match cut_last_nl r with
              | Some t => Some (c :: t)
              | None => if ceq c NL then Some [] else None
              end
  end.
Definition hist_line (cmd : cstr) : cstr :=
  match cut_last_nl cmd with Some t => t | None => cmd end.

(** histsave (history.c:662-725) without the history file. *)
Definition histsave (cmd : cstr) (s : hst) : option hst :=
  if space s && match cmd with c :: _ => ceq c SP | [] => false end then Some s
  else
    let c := hist_line cmd in
    let new := Hst (vec s) (cnt s) (heap s ++ [Some c]) (dups s) (space s) in
    let add :=
      let k := length (heap s) in
      if Nat.ltb (cnt s) (hsize s) then
        Some (Hst (set_at (cnt s) (Some k) (vec s)) (S (cnt s)) (heap new) (dups s) (space s))
      else
        match afree_cell 0 new with
        | None => None
        | Some n =>
          let v := skipn 1 (vec n) ++ [None] in              (* memmove; the last cell is overwritten *)
          Some (Hst (set_at (cnt s - 1) (Some k) v) (cnt s) (heap n) (dups s) (space s))
        end in
    if dups s && Nat.ltb 0 (cnt s) then
      match entry s (cnt s - 1) with
      | None => None
      | Some p => if str_eqb p c then Some (Hst (vec s) (cnt s) (heap s ++ [None]) (dups s) (space s))
                  else add
      end
    else add.

(** sethistsize (history.c:560-587).  [ok]: reallocarray succeeds. *)
Definition resized (n : nat) (v : list (option nat)) : list (option nat) :=
  firstn n v ++ repeat None (n - length v).
Definition sethistsize (n : Z) (ok : bool) (s : hst) : option hst :=
  let m := Z.to_nat n in
  if (0 <? n)%Z && negb (Nat.eqb m (hsize s)) then
    let r := if Nat.ltb m (cnt s) then
               match afree_cells 0 (cnt s - m) s with
               | None => None
               | Some s =>
                 let v := firstn m (skipn (cnt s - m) (vec s)) ++ skipn m (vec s) in   (* memmove *)
                 Some (Hst v (cnt s) (heap s) (dups s) (space s), m)
               end
             else Some (s, cnt s) in
    match r with
    | None => None
    | Some (s, c) =>
      if ok then Some (Hst (resized m (vec s)) c (heap s) (dups s) (space s)) else Some s
    end
  else Some s.

(** histbackup (history.c:443-454).  [again]: last_line equals the current line. *)
Definition histbackup (again : bool) (s : hst) : option hst :=
  if Nat.ltb 0 (cnt s) && negb again then
    match afree_cell (cnt s - 1) s with
    | None => None
    | Some s => Some (Hst (vec s) (cnt s - 1) (heap s) (dups s) (space s))
    end
  else Some s.
(** histreset (history.c:456-465). *)
Definition histreset (s : hst) : option hst :=
  match afree_cells 0 (cnt s) s with
  | None => None
  | Some s => Some (Hst (vec s) 0 (heap s) (dups s) (space s))
  end.

(** strncmp(s, p, strlen(p)) == 0 and strstr (the part before the first occurrence). *)
Fixpoint prefix_of (p s : cstr) : bool :=
  match p, s with
  | [], _ => true
  | a :: p, b :: s => ceq a b && prefix_of p s
  | _, [] => false
  end.
Fixpoint strstr_ (p s : cstr) : option (cstr * cstr) :=        (* text before, text from there *)
  if prefix_of p s then Some ([], s)
  else match s with
       | [] => None
       | c :: r => match strstr_ p r with Some (a, b) => Some (c :: a, b) | None => None end
       end.

(** findhist (history.c:496-514) backwards: from history[start] down to history[0].
    [UB]: a dangling entry is read. *)
Inductive fres := FNone | FAt (i : nat) | FUB.
Definition hmatch (anch : bool) (p s : cstr) : bool :=
  if anch then prefix_of p s else match strstr_ p s with Some _ => true | None => false end.
Fixpoint find_down (s : hst) (anch : bool) (p : cstr) (n : nat) : fres :=     (* entries n-1 .. 0 *)
  match n with
  | O => FNone
  | S i => match entry s i with
           | None => FUB
           | Some t => if hmatch anch p t then FAt i else find_down s anch p i
           end
  end.
(** maxhist = histptr - history = cnt - 1; start outside [0, maxhist) means maxhist. *)
Definition findhist (s : hst) (start : Z) (anch : bool) (p : cstr) : fres :=
  let maxhist := (Z.of_nat (cnt s) - 1)%Z in
  let start := if ((start <? 0) || (maxhist <=? start))%Z then maxhist else start in
  find_down s anch p (Z.to_nat (start + 1)).
(** hist_get (history.c:376-414) for a string that is not a number. *)
Definition hist_get_str (s : hst) (str : cstr) : fres :=
  let start := (Z.of_nat (cnt s) - 2)%Z in
  match str with
  | c :: r => if ceq c "?" then findhist s start false r else findhist s start true str
  | [] => findhist s start true str
  end.
(** hist_get for a number [n], hist_source->line being [line]; no entry found: [FNone]. *)
Definition hist_get_num (s : hst) (line n : Z) (approx allow_cur : bool) : fres :=
  let top := (Z.of_nat (cnt s) - 1)%Z in
  let hp := (top + (if n <? 0 then n else n - line))%Z in
  if (hp <? 0)%Z then
    if approx then if (top <=? 0)%Z then FNone else FAt 0 else FNone
  else if (top <? hp)%Z then
    if approx then
      if (top <? 0)%Z || (negb allow_cur && Z.eqb top 0) then FNone
      else FAt (Z.to_nat (if allow_cur then top else top - 1))
    else FNone
  else if negb allow_cur && Z.eqb hp top then FNone
  else FAt (Z.to_nat hp).

(** * fc -s *)
(** The old=new argument (history.c:134-141). *)
Fixpoint split_eq (s : cstr) : option (cstr * cstr) :=          (* at the first = *)
  match s with
  | [] => None
  | c :: r => if ceq c "=" then Some ([], r)
              else match split_eq r with Some (a, b) => Some (c :: a, b) | None => None end
  end.
Definition fc_subst (arg : cstr) : option (cstr * cstr) :=
  match arg with
  | [] => None
  | c :: r => match split_eq r with Some (a, b) => Some (c :: a, b) | None => None end
  end.

(** hist_replace (history.c:332-370): the loop.  [None]: out of fuel. *)
Fixpoint replace_loop (fuel : nat) (pat rep : cstr) (global any : bool) (s acc : cstr)
  : option (bool * cstr) :=
  match fuel with
  | O => None
  | S f =>
    match strstr_ pat s with
    | Some (a, b) =>
      if negb any || global then
        replace_loop f pat rep global true (skipn (length pat) b) (acc ++ a ++ rep)
      else Some (any, acc ++ s)
    | None => Some (any, acc ++ s)
    end
  end.
Inductive rres := RText (line : cstr) | RFailed | RFuel.
Definition hist_replace (hp : cstr) (sub : option (cstr * cstr)) (global : bool) : rres :=
  match sub with
  | None => RText hp
  | Some (pat, rep) =>
    match replace_loop (S (S (length hp))) pat rep global false hp [] with
    | None => RFuel
    | Some (true, t) => RText t
    | Some (false, _) => RFailed
    end
  end.

(** hist_execute (history.c:297-330): the lines saved, and the text run. *)
Fixpoint exec_lines (cur cmd : cstr) : list cstr :=
  match cmd with
  | [] => [rev cur]
  | c :: r => if ceq c NL then match r with [] => [rev cur] | _ => rev cur :: exec_lines [] r end
              else exec_lines (c :: cur) r
  end.
Fixpoint exec_text (cmd : cstr) : cstr :=
  match cmd with
  | [] => []
  | c :: r => match r with
              | [] => if ceq c NL then [] else [c]
              | _ => c :: exec_text r
              end
  end.
