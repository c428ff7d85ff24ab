(** Model of the emacs line editor: emacs.c:268-2128 (edit.c:247-286 x_do_comment, 795-812 x_longest_prefix, 943-971 x_escape).

    The line is a list of bytes; xep is its length, so that pointers are positions.  What is read or moved outside of
    xbuf..xep is [UB].  The display (x_redraw, x_adjust, x_zots, x_bs, x_lastcp, x_e_putc, and xbp, xlp, x_col) is left out: it reads the
    line and does not change it, and x_goto ends with xcp as asked.  What x_cf_glob answers is given.  Input is the bytes
    that x_getc gives, and then -1; signals are left out.  char is signed, as it is on amd64.  x_debug_info is left out. *)
From Verif Require Import Base Num_model.
From Coq Require Import ZArith.

Definition then_ {A B} (r : res A) (f : A -> res B) : res B := match r with Ok a => f a | Err => Err | UB => UB end.
Notation "'do' x <- r ; k" := (then_ r (fun x => k)) (at level 200, x name, r at level 100, k at level 200, right associativity).

(** emacs.c:206-258 *)
Inductive func :=
| F_abort | F_beg_hist | F_clear_screen | F_comp_comm | F_comp_file | F_complete | F_del_back | F_del_bword | F_del_char
| F_del_fword | F_del_line | F_draw_line | F_end_hist | F_end_of_text | F_enumerate | F_eot_del | F_error | F_goto_hist
| F_ins_string | F_insert | F_kill | F_kill_region | F_list_comm | F_list_file | F_literal | F_meta_yank | F_mv_back
| F_mv_begin | F_mv_bword | F_mv_end | F_mv_forw | F_mv_fword | F_newline | F_next_com | F_nl_next_com | F_noop | F_prev_com
| F_prev_histword | F_search_char_forw | F_search_char_back | F_search_hist | F_set_mark | F_transpose | F_xchg_point_mark
| F_yank | F_comp_list | F_expand | F_fold_capitalize | F_fold_lower | F_fold_upper | F_set_arg | F_comment.
Scheme Equality for func.

(** emacs.c:71-77 *)
Record binding := Bind { seq_of : cstr; fn : func; args : option cstr }.
(** What does not change while a line is edited: xend - xbuf; LINE; the history, with histptr on its last line; source->line; the
    bindings; the option gmacs; IFS; the answer of x_cf_glob (its flags; start, end and words; [None] is no word). *)
Record env := Env {
  cap : nat; line_max : nat; hist : list cstr; lineno : Z; keys : list binding; gmacs : bool; ifs : cstr;
  glob : nat -> cstr -> nat -> option (nat * nat * list cstr)
}.
(** The line, xcp, xmp; killstack, killsp, killtp; x_last_command; x_arg ([None] is -1; x_arg_defaulted is that it was -1);
    x_literal_set; x_histp - history; x_nextcmd; unget_char, macro_args, and what x_getc will give *)
Record ed := Ed {
  txt : cstr; cur : nat; mark : option nat; kills : list (option cstr); ksp : nat; ktp : nat; last_cmd : option func;
  arg : option nat; lit : bool; histp : Z; nextcmd : Z; unget : option Z; macro : option cstr; input : list char
}.
Definition with_txt t c s := Ed t c (mark s) (kills s) (ksp s) (ktp s) (last_cmd s) (arg s) (lit s) (histp s) (nextcmd s) (unget s) (macro s) (input s).
Definition with_mark m s := Ed (txt s) (cur s) m (kills s) (ksp s) (ktp s) (last_cmd s) (arg s) (lit s) (histp s) (nextcmd s) (unget s) (macro s) (input s).
Definition with_kills l i s := Ed (txt s) (cur s) (mark s) l i (ktp s) (last_cmd s) (arg s) (lit s) (histp s) (nextcmd s) (unget s) (macro s) (input s).
Definition with_ktp i s := Ed (txt s) (cur s) (mark s) (kills s) (ksp s) i (last_cmd s) (arg s) (lit s) (histp s) (nextcmd s) (unget s) (macro s) (input s).
Definition with_last f s := Ed (txt s) (cur s) (mark s) (kills s) (ksp s) (ktp s) f (arg s) (lit s) (histp s) (nextcmd s) (unget s) (macro s) (input s).
Definition with_arg a s := Ed (txt s) (cur s) (mark s) (kills s) (ksp s) (ktp s) (last_cmd s) a (lit s) (histp s) (nextcmd s) (unget s) (macro s) (input s).
Definition with_lit b s := Ed (txt s) (cur s) (mark s) (kills s) (ksp s) (ktp s) (last_cmd s) (arg s) b (histp s) (nextcmd s) (unget s) (macro s) (input s).
Definition with_histp h s := Ed (txt s) (cur s) (mark s) (kills s) (ksp s) (ktp s) (last_cmd s) (arg s) (lit s) h (nextcmd s) (unget s) (macro s) (input s).
Definition with_next h s := Ed (txt s) (cur s) (mark s) (kills s) (ksp s) (ktp s) (last_cmd s) (arg s) (lit s) (histp s) h (unget s) (macro s) (input s).
Definition with_in u m i s := Ed (txt s) (cur s) (mark s) (kills s) (ksp s) (ktp s) (last_cmd s) (arg s) (lit s) (histp s) (nextcmd s) u m i.

(** ** Input *)
Definition uchar (c : char) : Z := Z.of_nat (nat_of_ascii c).
Definition schar (c : char) : Z := if (uchar c <? 128)%Z then uchar c else (uchar c - 256)%Z.
Definition to_char (c : Z) : char := ascii_of_nat (Z.to_nat (c mod 256)).
(** emacs.c:1820-1838 x_e_getc *)
Definition x_getc (s : ed) : Z * ed :=
  match input s with
  | [] => ((-1)%Z, with_in None None [] s)
  | c :: i => (uchar c, with_in None None i s)
  end.
Definition getc (s : ed) : Z * ed :=
  match unget s with
  | Some c => (c, with_in None (macro s) (input s) s)
  | None => match macro s with
            | Some (c :: m) => (schar c, with_in None (Some m) (input s) s)
            | _ => x_getc s
            end
  end.
(** emacs.c:1814-1818: what is negative is no character *)
Definition ungetc (c : Z) (s : ed) : ed := with_in (if (c <? 0)%Z then None else Some c) (macro s) (input s) s.
(** emacs.c:268-272 *)
Definition u8cont (c : Z) : bool := (Z.land c 192 =? 128)%Z.
(** emacs.c:1865-1878 *)
Fixpoint conts (c : Z) (n : nat) (s : ed) : cstr * ed :=
  match n with
  | O | 1 => ([], s)
  | S n' =>
      let (cc, s') := getc s in
      if (cc =? -1)%Z then ([], s')
      else if negb (u8cont cc) || ((c =? 224)%Z && Nat.eqb n 3 && (cc <? 160)%Z) || ((c =? 237)%Z && Nat.eqb n 3 && (159 <? cc)%Z)
              || ((c =? 240)%Z && Nat.eqb n 4 && (cc <? 144)%Z) || ((c =? 244)%Z && Nat.eqb n 4 && (143 <? cc)%Z) then ([], ungetc cc s')
      else let (r, s'') := conts c n' s' in (to_char cc :: r, s'')
  end.
(** emacs.c:1840-1882 x_e_getu8; [None] is -1 *)
Definition getu8 (s : ed) : option cstr * ed :=
  let (c, s) := getc s in
  if (c =? -1)%Z then (None, s)
  else
    let n := if (Z.land c 248 =? 240)%Z && (c <? 245)%Z then 4
             else if (Z.land c 240 =? 224)%Z then 3
             else if (Z.land c 224 =? 192)%Z && (193 <? c)%Z then 2
             else 1 in
    let (r, s) := conts c n s in (Some (to_char c :: r), s).

(** ** Changing the line *)
Definition at_ (s : ed) (i : nat) : char := nth i (txt s) NUL.
(** emacs.c:428-441 x_do_ins *)
Definition do_ins (e : env) (t : cstr) (s : ed) : bool * ed :=
  if cap e <=? length (txt s) + length t then (false, s)
  else (true, with_txt (firstn (cur s) (txt s) ++ t ++ skipn (cur s) (txt s)) (cur s + length t) s).
(** emacs.c:443-467 x_ins *)
Definition ins (e : env) (t : cstr) (s : ed) : ed := snd (do_ins e t s).
Fixpoint times (n : nat) (f : ed -> ed) (s : ed) : ed := match n with O => s | S n => times n f (f s) end.
(** emacs.c:635-649 x_goto *)
Definition goto (p : nat) (s : ed) : res ed := if p <=? length (txt s) then Ok (with_txt (txt s) p s) else UB.
(** emacs.c:1179-1186 x_push *)
Fixpoint set_nth {A} (l : list A) (i : nat) (v : A) : list A :=
  match l, i with [], _ => [] | _ :: l, O => v :: l | a :: l, S i => a :: set_nth l i v end.
Definition KILLSIZE := 20.
Definition push (n : nat) (s : ed) : ed :=
  with_kills (set_nth (kills s) (ksp s) (Some (firstn n (skipn (cur s) (txt s))))) ((ksp s + 1) mod KILLSIZE) s.
(** emacs.c:504-558 x_delete *)
Definition delete (n : nat) (keep : bool) (s : ed) : res ed :=
  if n =? 0 then Ok s
  else if length (txt s) <? cur s + n then UB
  else
    let s := match mark s with
             | Some m => if cur s <? m then with_mark (Some (if m <? cur s + n then cur s else m - n)) s else s
             | None => s
             end in
    let s := if keep then push n s else s in
    Ok (with_txt (firstn (cur s) (txt s) ++ skipn (cur s + n) (txt s)) (cur s) s).

(** ** Commands *)
Inductive ret := KSTD | KEOL | KINTR.
(** isu8cont of a byte *)
Definition cont (c : char) : bool := u8cont (uchar c).
(** emacs.c:478-481, 719-722: at most [col] back, not into a character *)
Fixpoint more_back (f a col : nat) (s : ed) : nat :=
  match f with O => a | S f => if (a <? col) && cont (at_ s (cur s - a)) then more_back f (S a) col s else a end.
Definition back_by (n : nat) (s : ed) : nat := let a := Nat.min n (cur s) in more_back (cur s) a (cur s) s.
(** emacs.c:496-499, 736-739 *)
Fixpoint more_forw (f a col from : nat) (s : ed) : nat :=
  match f with O => a | S f => if (a <? col) && cont (at_ s (from + a)) then more_forw f (S a) col from s else a end.
Definition forw_by (n : nat) (s : ed) : nat := let left := length (txt s) - cur s in more_forw left (Nat.min n left) left (cur s) s.
(** emacs.c:469-485 *)
Definition x_del_back (n : nat) (s : ed) : res ed :=
  if cur s =? 0 then Ok s else let a := back_by n s in do s <- goto (cur s - a) s ; delete a false s.
(** emacs.c:487-502 *)
Definition x_del_char (n : nat) (s : ed) : res ed :=
  if length (txt s) =? cur s then Ok s else delete (forw_by n s) false s.
(** emacs.c:55-57 is_mfs *)
Definition is_alnum (c : char) : bool := let n := nat_of_ascii c in ((48 <=? n) && (n <=? 57)) || ((65 <=? n) && (n <=? 90)) || ((97 <=? n) && (n <=? 122)).
Definition is_mfs (c : char) : bool := negb (is_alnum c || ceq c "_" || ceq c "$" || (128 <=? nat_of_ascii c)).
(** How many of the first bytes satisfy [p] *)
Fixpoint span (p : char -> bool) (t : cstr) : nat := match t with c :: t => if p c then S (span p t) else 0 | [] => 0 end.
(** emacs.c:588-610 x_bword: [t] is what is before the position, backwards *)
Fixpoint words (n : nat) (t : cstr) : nat :=
  match n with
  | O => 0
  | S n => let a := span is_mfs t in
           let b := span (fun c => negb (is_mfs c)) (skipn a t) in
           a + b + words n (skipn (a + b) t)
  end.
Definition x_bword (n : nat) (s : ed) : res (nat * ed) :=
  if cur s =? 0 then Ok (0, s)
  else let a := words n (rev (firstn (cur s) (txt s))) in do s <- goto (cur s - a) s ; Ok (a, s).
(** emacs.c:612-633 x_fword *)
Definition x_fword (n : nat) (s : ed) : nat := words n (skipn (cur s) (txt s)).
(** emacs.c:710-742 *)
Definition x_mv_back (n : nat) (s : ed) : res ed := if cur s =? 0 then Ok s else goto (cur s - back_by n s) s.
Definition x_mv_forw (n : nat) (s : ed) : res ed := if length (txt s) =? cur s then Ok s else goto (cur s + forw_by n s) s.
(** emacs.c:744-761; strchr also finds the NUL at the end *)
Fixpoint find_char (c : char) (t : cstr) : option nat :=
  match t with
  | [] => if is_nul c then Some 0 else None
  | a :: t => if ceq a c then Some 0 else match find_char c t with Some i => Some (S i) | None => None end
  end.
Fixpoint chars_forw (n : nat) (c : char) (t : cstr) (p : nat) : option nat :=
  match n with
  | O => Some p
  | S n =>
      let q := if p =? length t then None else match find_char c (skipn (S p) t) with Some i => Some (S p + i) | None => None end in
      match q with
      | Some q => chars_forw n c t q
      | None => match find_char c t with Some q => chars_forw n c t q | None => None end
      end
  end.
Definition x_search_char_forw (n : nat) (s : ed) : res ed :=
  let (c, s) := getc s in
  match n with
  | O => goto (cur s) s
  | _ => if (c <? 0)%Z then Ok s
         else match chars_forw n (to_char c) (txt s) (cur s) with Some p => goto p s | None => Ok s end
  end.
(** emacs.c:763-782 *)
Fixpoint first_of (p : nat -> bool) (l : list nat) : option nat := match l with [] => None | i :: l => if p i then Some i else first_of p l end.
Fixpoint chars_back (n : nat) (c : Z) (s : ed) (p : nat) : option nat :=
  match n with
  | O => Some p
  | S n => match first_of (fun i => (schar (at_ s i) =? c)%Z) (rev (seq 0 p) ++ rev (seq (S p) (length (txt s) - p))) with
           | Some q => chars_back n c s q
           | None => None
           end
  end.
Definition x_search_char_back (n : nat) (s : ed) : res ed :=
  let (c, s) := getc s in
  match n with
  | O => goto (cur s) s
  | _ => if (c <? 0)%Z then Ok s else match chars_back n c s (cur s) with Some p => goto p s | None => Ok s end
  end.
(** emacs.c:784-792 *)
Definition x_newline (e : env) (s : ed) : res (ret * ed) :=
  if cap e <=? length (txt s) then UB else Ok (KEOL, with_txt (txt s ++ [NL]) (cur s) s).
(** histptr - history *)
Definition histptr (e : env) : Z := Z.of_nat (length (hist e)) - 1.
(** emacs.c:826-844 x_load_hist *)
Definition load_hist (e : env) (h : Z) (s : ed) : ed :=
  if (h <? 0)%Z || (histptr e <? h)%Z then s
  else let t := firstn (cap e - 1) (nth (Z.to_nat h) (hist e) []) in with_histp h (with_txt t (length t) s).
(** emacs.c:963-973 x_match *)
Fixpoint prefix (p t : cstr) : bool := match p, t with [], _ => true | a :: p, b :: t => ceq a b && prefix p t | _, _ => false end.
Fixpoint find (p t : cstr) : option nat :=
  if prefix p t then Some 0 else match t with [] => None | _ :: t => match find p t with Some i => Some (S i) | None => None end end.
Definition caret (pat : cstr) : bool := match pat with c :: _ => ceq c "^" | [] => false end.
Definition x_match (t pat : cstr) : option nat := if caret pat then (if prefix (tl pat) t then Some 0 else None) else find pat t.
(** where x_goto goes (emacs.c:925, 954) *)
Definition found_at (i : nat) (pat : cstr) : nat := i + length pat - (if caret pat then 1 else 0).
(** emacs.c:941-961 x_search: downwards from [h - 1] *)
Fixpoint search_down (e : env) (pat : cstr) (h : nat) : option (nat * nat) :=
  match h with
  | O => None
  | S h => match x_match (nth h (hist e) []) pat with Some i => Some (h, i) | None => search_down e pat h end
  end.
Definition x_search (e : env) (pat : cstr) (same : bool) (s : ed) : res (option nat * ed) :=
  let from := (if same then histp s else histp s - 1)%Z in
  if (histptr e <? from)%Z then UB
  else match search_down e pat (Z.to_nat (from + 1)) with
       | Some (h, i) => do s <- goto (found_at i pat) (load_hist e (Z.of_nat h) s) ; Ok (Some i, s)
       | None => Ok (None, with_histp (histptr e) s)
       end.
(** emacs.c:862-875 *)
Definition find_hist_func (e : env) (c : Z) : func :=
  let l := let c := to_char c in if is_nul c then [] else [c] in
  match List.find (fun k => str_eqb (seq_of k) l) (keys e) with Some k => fn k | None => F_insert end.
(** emacs.c:877-939 x_search_hist; [Err] is out of fuel *)
Fixpoint search_hist (e : env) (f : nat) (pat : cstr) (off : option nat) (s : ed) : res ed :=
  match f with
  | O => Err
  | S f =>
      let (c, s) := getc s in
      if (c <? 0)%Z then Ok s
      else
        let g := find_hist_func e c in
        if (c =? 27)%Z || (c =? 0)%Z then Ok (ungetc c s)
        else if func_beq g F_search_hist then do r <- x_search e pat false s ; search_hist e f pat (fst r) (snd r)
        else if func_beq g F_del_back then
          match pat with
          | [] => Ok s
          | _ => let pat := removelast pat in
                 match pat with
                 | [] => search_hist e f pat None s
                 | _ => do r <- x_search e pat true s ; search_hist e f pat (fst r) (snd r)
                 end
          end
        else if func_beq g F_insert then
          if 256 <=? length pat then search_hist e f pat off s
          else
            let pat := pat ++ [to_char c] in
            let again := match off with Some _ => x_match (txt s) pat | None => None end in
            match again with
            | Some i => do s <- goto (found_at i pat) s ; search_hist e f pat (Some i) s
            | None => do r <- x_search e pat false s ; search_hist e f pat (fst r) (snd r)
            end
        else Ok (ungetc c s)
  end.
(** emacs.c:975-991 *)
Definition x_del_line (s : ed) : ed := with_mark None (with_txt [] 0 (push (length (txt s)) (with_txt (txt s) 0 s))).
(** emacs.c:1098-1148 *)
Definition swap (i : nat) (t : cstr) : cstr := firstn i t ++ nth (S i) t NUL :: nth i t NUL :: skipn (S (S i)) t.
Definition x_transpose (e : env) (s : ed) : res ed :=
  if cur s =? 0 then Ok s
  else if (cur s =? length (txt s)) || gmacs e then
    if cur s =? 1 then Ok s else Ok (with_txt (swap (cur s - 2) (txt s)) (cur s) s)
  else goto (cur s + 1) (with_txt (swap (cur s - 1) (txt s)) (cur s) s).
(** emacs.c:1157-1177 *)
Definition x_kill (n : option nat) (s : ed) : res ed :=
  let last := length (txt s) in
  let a := match n with None => last | Some n => Nat.min n last end in
  let a := more_forw last a last 0 s in
  if a <? cur s then let d := cur s - a in do s <- goto a s ; delete d true s else delete (a - cur s) true s.
(** emacs.c:1188-1204 *)
Definition x_yank (e : env) (s : ed) : ed :=
  let i := (if ksp s =? 0 then KILLSIZE else ksp s) - 1 in
  let s := with_ktp i s in
  match nth i (kills s) None with
  | None => s
  | Some t => ins e t (with_mark (Some (cur s)) s)
  end.
(** emacs.c:1206-1228 *)
Definition prev_kill (i : nat) : nat := if i =? 0 then KILLSIZE - 1 else i - 1.
Fixpoint older (f : nat) (l : list (option cstr)) (i : nat) : option (nat * cstr) :=
  match f with
  | O => None
  | S f => let i := prev_kill i in match nth i l None with Some t => Some (i, t) | None => older f l i end
  end.
Definition x_meta_yank (e : env) (s : ed) : res ed :=
  match last_cmd s, nth (ktp s) (kills s) None with
  | Some F_yank, Some t | Some F_meta_yank, Some t =>
      if cur s <? length t then UB
      else
        do s <- goto (cur s - length t) s ;
        do s <- delete (length t) false s ;
        match older KILLSIZE (kills s) (ktp s) with
        | Some (i, t) => Ok (ins e t (with_ktp i s))
        | None => Err
        end
  | _, _ => Ok (with_ktp (ksp s) s)
  end.
(** emacs.c:1610-1631 *)
Definition x_kill_region (s : ed) : res ed :=
  match mark s with
  | None => Ok s
  | Some m => let r := Nat.min m (cur s) in let n := Nat.max m (cur s) - r in
              do s <- goto r s ; do s <- delete n true s ; Ok (with_mark (Some r) s)
  end.
(** emacs.c:1633-1646 *)
Definition x_xchg (s : ed) : res ed := match mark s with None => Ok s | Some m => goto m (with_mark (Some (cur s)) s) end.
(** edit.c:943-971 x_escape; [t] is what is not yet put *)
Definition special (e : env) (c : char) : bool := existsb (ceq c) (L "!""#$&'()*:;<=>?[\]`{|}") || existsb (ceq c) (ifs e).
Fixpoint escape (e : env) (t s : cstr) (st : ed) : bool * ed :=
  match s with
  | [] => match t with [] => (true, st) | _ => do_ins e t st end
  | c :: s =>
      if special e c then
        let (ok, st) := do_ins e t st in
        if ok then escape e [] s (snd (do_ins e [c] (snd (do_ins e (L "\") st)))) else (false, st)
      else escape e (t ++ [c]) s st
  end.
(** emacs.c:1700-1729 *)
Fixpoint put_words (e : env) (l : list cstr) (st : ed) : ed :=
  match l with
  | [] => st
  | w :: l =>
      let (ok, st) := escape e [] w st in
      if ok then match l with
                 | [] => st
                 | _ => let (ok, st) := do_ins e (L " ") st in if ok then put_words e l st else st
                 end
      else st
  end.
Definition x_expand (e : env) (s : ed) : res ed :=
  match glob e 1 (txt s) (cur s) with
  | None => Ok s
  | Some (a, b, l) => do s <- goto a s ; do s <- delete (b - a) false s ; Ok (put_words e l s)
  end.
(** edit.c:795-812 x_longest_prefix *)
Fixpoint common (a b : cstr) : nat := match a, b with x :: a, y :: b => if ceq x y then S (common a b) else 0 | _, _ => 0 end.
Definition longest (l : list cstr) : nat :=
  match l with [] => 0 | w :: l => fold_left (fun n v => Nat.min n (common w v)) l (length w) end.
(** emacs.c:1731-1782 do_complete; [list]: CT_LIST *)
Definition do_complete (e : env) (flags : nat) (list : bool) (s : ed) : res ed :=
  match glob e flags (txt s) (cur s) with
  | None => Ok s
  | Some (a, b, l) =>
      if list then Ok s
      else
        let w := nth 0 l [] in
        let n := longest l in
        do s <- (if (length l =? 1) || (b - a <? n) then
                   do s <- goto a s ; do s <- delete (b - a) false s ; Ok (snd (escape e [] (firstn n w) s))
                 else Ok s) ;
        if length l =? 1 then
          if n =? 0 then UB else if ceq (nth (n - 1) w NUL) "/" then Ok s else Ok (ins e (L " ") s)
        else Ok s
  end.
(** emacs.c:1947-1966 x_set_arg: the argument, or [None] *)
Definition digit (c : Z) : bool := (48 <=? c)%Z && (c <=? 57)%Z.
Definition INT_MAX : Z := 2147483647.
Fixpoint set_arg (f : nat) (first : bool) (n c : Z) (s : ed) : res (option nat * ed) :=
  if (0 <=? c)%Z && digit c then
    let n := (n * 10 + (c - 48))%Z in
    if (INT_MAX <? n)%Z then UB
    else match f with O => Err | S f => let (c, s) := getc s in set_arg f false n c s end
  else if (c <? 0)%Z || first then Ok (None, s)
  else Ok (Some (Z.to_nat n), ungetc c s).
(** edit.c:247-286 *)
Fixpoint uncomment (nl : bool) (t : cstr) : cstr :=
  match t with
  | [] => []
  | c :: t => if nl && ceq c "#" then uncomment (ceq c NL) t else c :: uncomment (ceq c NL) t
  end.
Fixpoint comment (t : cstr) : cstr := match t with [] => [] | c :: t => if ceq c NL then c :: "#"%char :: comment t else c :: comment t end.
(** emacs.c:1969-1988 *)
Definition x_comment (e : env) (s : ed) : res (ret * ed) :=
  match txt s with
  | [] => x_newline e s
  | c :: t =>
      if ceq c "#" then Ok (KSTD, with_txt (uncomment false t) 0 s)
      else let t := "#"%char :: comment (txt s) in
           if cap e <=? length t then Ok (KSTD, s) else x_newline e (with_txt t 0 s)
  end.
(** emacs.c:2006-2049 *)
Definition is_cfs (c : char) : bool := ceq c " " || ceq c "009" || ceq c """" || ceq c "'".
Definition not_cfs (c : char) : bool := negb (is_cfs c).
Definition last_word (t : cstr) : cstr :=
  let r := rev t in
  let r := skipn (span is_cfs r) r in
  rev (firstn (span not_cfs r) r).
(** The first byte stays even if the line is blank (emacs.c:2020-2025). *)
Definition last_word_c (t : cstr) : cstr :=
  if forallb is_cfs t then skipn 1 t else
    let n := span is_cfs (rev t) in last_word t ++ skipn (length t - n) t.
Fixpoint nth_word (n : nat) (t : cstr) : cstr :=
  match n with
  | S (S _ as n) => let t := skipn (span not_cfs t) t in nth_word n (skipn (span is_cfs t) t)
  | _ => firstn (span not_cfs t) t
  end.
Definition x_prev_histword (e : env) (n : option nat) (s : ed) : res ed :=
  match hist e with
  | [] => UB
  | _ => let t := last (hist e) [] in
         match n with
         | None => match t with [] => UB | _ => Ok (ins e (last_word_c t) s) end
         | Some n => Ok (ins e (nth_word n (skipn (span is_cfs t) t)) s)
         end
  end.
(** emacs.c:2083-2128: [u]: upper case, of the first byte and of the others *)
Definition upper (c : char) : char := let n := nat_of_ascii c in if (97 <=? n) && (n <=? 122) then ascii_of_nat (n - 32) else c.
Definition lower (c : char) : char := let n := nat_of_ascii c in if (65 <=? n) && (n <=? 90) then ascii_of_nat (n + 32) else c.
Fixpoint fold_words (n : nat) (u1 u2 : bool) (t : cstr) : cstr * cstr :=
  match n with
  | O => ([], t)
  | S n =>
      let a := span is_mfs t in
      match skipn a t with
      | [] => (t, [])
      | c :: r => let b := span (fun c => negb (is_mfs c)) r in
                  let (x, y) := fold_words n u1 u2 (skipn b r) in
                  (firstn a t ++ (if u1 then upper c else lower c) :: map (fun c => if u2 then upper c else lower c) (firstn b r) ++ x, y)
      end
  end.
Definition x_fold (n : nat) (u1 u2 : bool) (s : ed) : res ed :=
  if cur s =? length (txt s) then Ok s
  else let (x, y) := fold_words n u1 u2 (skipn (cur s) (txt s)) in
       goto (cur s + length x) (with_txt (firstn (cur s) (txt s) ++ x ++ y) (cur s) s).
(** emacs.c:403-420 *)
Definition x_insert (e : env) (n : nat) (c : char) (s : ed) : ed := if is_nul c then s else times n (ins e [c]) s.

(** The functions of emacs.c:206-258.  [c] is the last key, [a] is x_arg if it is not defaulted; [f] is fuel. *)
Definition std (r : res ed) : res (ret * ed) := do s <- r ; Ok (KSTD, s).
Definition run (e : env) (f : nat) (g : func) (c : char) (a : option nat) (s : ed) : res (ret * ed) :=
  let n := match a with None => 1 | Some n => n end in
  match g with
  | F_abort => Ok (KINTR, with_txt [] 0 s)
  | F_beg_hist => std (Ok (load_hist e 0 s))
  | F_clear_screen | F_draw_line | F_error | F_noop => std (Ok s)
  | F_comp_comm => std (do_complete e 0 false s)
  | F_comp_file => std (do_complete e 1 false s)
  | F_complete | F_comp_list => std (do_complete e 2 false s)
  | F_list_comm => std (do_complete e 0 true s)
  | F_list_file => std (do_complete e 1 true s)
  | F_enumerate => std (do_complete e 2 true s)
  | F_expand => std (x_expand e s)
  | F_del_back => std (x_del_back n s)
  | F_del_bword => std (do r <- x_bword n s ; delete (fst r) true (snd r))
  | F_del_char => std (x_del_char n s)
  | F_del_fword => std (delete (x_fword n s) true s)
  | F_del_line => std (Ok (x_del_line s))
  | F_end_hist => std (Ok (load_hist e (histptr e) s))
  | F_end_of_text => Ok (KEOL, s)
  | F_eot_del => if (length (txt s) =? 0) && (match a with None => true | Some _ => false end) then Ok (KEOL, s) else std (x_del_char n s)
  | F_goto_hist => std (Ok (load_hist e (match a with None => 0 | Some n => histptr e + Z.of_nat n - lineno e end)%Z s))
  | F_ins_string | F_insert => std (Ok (x_insert e n c s))
  | F_kill => std (x_kill a s)
  | F_kill_region => std (x_kill_region s)
  | F_literal => std (Ok (with_lit true s))
  | F_meta_yank => std (x_meta_yank e s)
  | F_mv_back => std (x_mv_back n s)
  | F_mv_begin => std (goto 0 s)
  | F_mv_bword => std (do r <- x_bword n s ; Ok (snd r))
  | F_mv_end => std (goto (length (txt s)) s)
  | F_mv_forw => std (x_mv_forw n s)
  | F_mv_fword => std (goto (cur s + x_fword n s) s)
  | F_newline => x_newline e s
  | F_next_com => std (Ok (load_hist e (histp s + Z.of_nat n) s))
  | F_nl_next_com => x_newline e (with_next (lineno e - (histptr e - histp s) + 1) s)
  | F_prev_com => std (Ok (load_hist e (histp s - Z.of_nat n) s))
  | F_prev_histword => std (x_prev_histword e a s)
  | F_search_char_forw => std (x_search_char_forw n s)
  | F_search_char_back => std (x_search_char_back n s)
  | F_search_hist => std (search_hist e f [] None s)
  | F_set_mark => std (Ok (with_mark (Some (cur s)) s))
  | F_transpose => std (x_transpose e s)
  | F_xchg_point_mark => std (x_xchg s)
  | F_yank => std (Ok (x_yank e s))
  | F_fold_capitalize => std (x_fold n true false s)
  | F_fold_lower => std (x_fold n false false s)
  | F_fold_upper => std (x_fold n true true s)
  | F_set_arg => do r <- set_arg f true 0 (schar c) s ; Ok (KSTD, with_arg (fst r) (snd r))
  | F_comment => x_comment e s
  end.

(** ** emacs.c:317-400 *)
(** emacs.c:333-349: how many bindings start with the keys (at most two are counted), and the one that is these keys *)
Fixpoint look (l : cstr) (ks : list binding) (n : nat) (m : option binding) : nat * option binding :=
  match ks with
  | [] => (n, m)
  | k :: ks =>
      if length (seq_of k) <? length l then look l ks n m
      else if prefix l (seq_of k) then
        let m := if length (seq_of k) =? length l then Some k else m in
        if 1 <=? n then (S n, m) else look l ks (S n) m
      else look l ks n m
  end.
Inductive turn := TGo (s : ed) | TLine (t : cstr) (s : ed) | TEof (s : ed) | TIntr (s : ed).
(** emacs.c:373-399: [g]: x_last_command becomes that; x_set_arg alone keeps x_arg *)
Definition after (g : option func) (keep : bool) (r : ret * ed) : turn :=
  let s := snd r in
  let s' := with_last g (if keep then s else with_arg None s) in
  match fst r with KSTD => TGo s' | KEOL => TLine (txt s) s | KINTR => TIntr s end.
(** One command: [l] are the keys so far, [n] how often x_e_getu8 was called *)
Fixpoint key (e : env) (f : nat) (l : cstr) (n : nat) (s : ed) : res turn :=
  match f with
  | O => Err
  | S f' =>
      let (r, s) := getu8 s in
      match r with
      | None => Ok (TEof s)
      | Some b =>
          let l := l ++ b in
          if line_max e <? length l then UB
          else
            let plain (s : ed) :=
              match b with
              | [c] => x_insert e (match arg s with None => 1 | Some n => n end) c s
              | _ => ins e l s
              end in
            if lit s then Ok (after (last_cmd s) false (KSTD, if n =? 0 then plain (with_lit false s) else with_lit false s))
            else
              match look l (keys e) 0 None with
              | (1, Some k) =>
                  match fn k, args k, macro s with
                  | F_ins_string, Some m, None => Ok (after (Some F_ins_string) false (KSTD, with_in (unget s) (Some m) (input s) s))
                  | g, _, _ => do r <- run e f g (last l NUL) (arg s) s ; Ok (after (Some g) (func_beq g F_set_arg) r)
                  end
              | (O, _) => Ok (after None false (KSTD, if n =? 0 then plain s else s))
              | _ => key e f' l (S n) s
              end
      end
  end.
(** emacs.c:282-316 *)
Definition start (e : env) (ks : list (option cstr)) (sp tp : nat) (next : Z) (u : option Z) (m : option cstr) (i : list char) : ed :=
  let s := Ed [] 0 None ks sp tp None None false (histptr e + 1) (-1) u m i in
  if (0 <=? next)%Z then
    let off := (lineno e - next)%Z in
    if (off <=? histptr e)%Z then load_hist e (histptr e - off) s else s
  else s.
(** A line: the keys of [g] commands at most *)
Fixpoint edit (e : env) (f : nat) (g : nat) (s : ed) : res turn :=
  match g with
  | O => Ok (TGo s)
  | S g => do t <- key e f [] 0 s ;
           match t with TGo s => edit e f g s | t => Ok t end
  end.

(** ** Bindings: emacs.c:1247-1467 *)
(** edit.h:20-21 *)
Definition ctrl (c : char) : char := if ceq c "?" then "127"%char else ascii_of_nat (nat_of_ascii c mod 32).
Definition is_cntrl (c : char) : bool := (nat_of_ascii c <? 32) || ceq c "127".
Definition unctrl (c : char) : char := if ceq c "127" then "?"%char else ascii_of_nat (nat_of_ascii c + 64).
(** emacs.c:1247-1269; *s >= '?' of a signed char *)
Definition ctrl_of (c : char) : bool := (63 <=? nat_of_ascii c) && (nat_of_ascii c <? 128).
Fixpoint encode (s : cstr) : cstr :=
  match s with
  | [] => []
  | c :: s =>
      if ceq c "^" then
        match s with
        | d :: s' => if ctrl_of d then ctrl d :: encode s' else c :: encode s
        | [] => [c]
        end
      else c :: encode s
  end.
(** emacs.c:1271-1288 *)
Fixpoint decode (s : cstr) : cstr :=
  match s with [] => [] | c :: s => if is_cntrl c then "^"%char :: unctrl c :: decode s else c :: decode s end.
(** The static buffers are written without a check. *)
Definition in_buf (n : nat) (s : cstr) : res cstr := if n <? length s then UB else Ok s.
(** A string ends at its NUL: "^@" is one. *)
Fixpoint cut (s : cstr) : cstr := match s with [] => [] | c :: s => if is_nul c then [] else c :: cut s end.
(** emacs.c:1290-1305 *)
Definition kb_match (s : cstr) (ks : list binding) : bool := existsb (fun k => (length s <=? length (seq_of k)) && prefix s (seq_of k)) ks.
(** emacs.c:1315-1348: refused with a message unless x_bind_quiet *)
Definition kb_add (g : func) (a : option cstr) (s : cstr) (ks : list binding) : list binding :=
  if kb_match s ks then ks else ks ++ [Bind s g a].
(** The first binding of exactly these keys is deleted (emacs.c:1430-1434, 1441-1445, 1456-1460). *)
Fixpoint kb_del (s : cstr) (ks : list binding) : list binding :=
  match ks with [] => [] | k :: ks => if str_eqb (seq_of k) s then ks else k :: kb_del s ks end.
(** emacs.c:1383-1467 with a1 and a2: what x_bind does to the bindings; [named]: the functions of x_ftab by name; [None]: no such
    function *)
Definition x_bind (n : nat) (named : cstr -> option func) (a1 a2 : cstr) (mac : bool) (ks : list binding) : res (option (list binding)) :=
  do k <- in_buf n (encode a1) ;
  let k := cut k in
  match a2 with
  | [] => Ok (Some (kb_del k ks))
  | _ => if mac then do m <- in_buf n (encode a2) ; Ok (Some (kb_add F_ins_string (Some (cut m)) k (kb_del k ks)))
         else match named a2 with Some g => Ok (Some (kb_add g None k (kb_del k ks))) | None => Ok None end
  end.
(** emacs.c:1478-1581, in kb_encode's notation *)
Definition default_keys : list (func * cstr) :=
  [(F_abort, L "^G"); (F_mv_back, L "^B"); (F_mv_back, L "^X^D"); (F_mv_bword, L "^[b"); (F_beg_hist, L "^[<");
   (F_mv_begin, L "^A"); (F_fold_capitalize, L "^[C"); (F_fold_capitalize, L "^[c"); (F_comment, L "^[#");
   (F_complete, L "^[^["); (F_comp_comm, L "^X^["); (F_comp_file, L "^[^X"); (F_comp_list, L "^I"); (F_comp_list, L "^[=");
   (F_del_back, L "^?"); (F_del_back, L "^H"); (F_del_char, L "^[[3~"); (F_del_bword, L "^W"); (F_del_bword, L "^[^?");
   (F_del_bword, L "^[^H"); (F_del_bword, L "^[h"); (F_del_fword, L "^[d"); (F_next_com, L "^N"); (F_next_com, L "^XB");
   (F_fold_lower, L "^[L"); (F_fold_lower, L "^[l"); (F_end_hist, L "^[>"); (F_mv_end, L "^E"); (F_end_of_text, L "^_");
   (F_eot_del, L "^D"); (F_xchg_point_mark, L "^X^X"); (F_expand, L "^[*"); (F_mv_forw, L "^F"); (F_mv_forw, L "^XC");
   (F_mv_fword, L "^[f"); (F_goto_hist, L "^[g"); (F_kill, L "^K"); (F_enumerate, L "^[?"); (F_list_comm, L "^X?");
   (F_list_file, L "^X^Y"); (F_newline, L "^J"); (F_newline, L "^M"); (F_nl_next_com, L "^O"); (F_prev_histword, L "^[.");
   (F_prev_histword, L "^[_"); (F_literal, L "^^"); (F_clear_screen, L "^L"); (F_search_char_back, L "^[^]");
   (F_search_char_forw, L "^]"); (F_search_hist, L "^R"); (F_set_mark, L "^[ "); (F_transpose, L "^T"); (F_prev_com, L "^P");
   (F_prev_com, L "^XA"); (F_fold_upper, L "^[U"); (F_fold_upper, L "^[u"); (F_literal, L "^V"); (F_yank, L "^Y");
   (F_meta_yank, L "^[y");
   (F_prev_com, L "^[[A"); (F_next_com, L "^[[B"); (F_mv_forw, L "^[[C"); (F_mv_back, L "^[[D"); (F_prev_com, L "^[OA");
   (F_next_com, L "^[OB"); (F_mv_forw, L "^[OC"); (F_mv_back, L "^[OD"); (F_mv_begin, L "^[[H"); (F_mv_end, L "^[[F");
   (F_mv_begin, L "^[OH"); (F_mv_end, L "^[OF"); (F_mv_begin, L "^[[1~"); (F_mv_end, L "^[[4~"); (F_mv_begin, L "^[[7~");
   (F_mv_end, L "^[[8~");
   (F_set_arg, L "^[0"); (F_set_arg, L "^[1"); (F_set_arg, L "^[2"); (F_set_arg, L "^[3"); (F_set_arg, L "^[4");
   (F_set_arg, L "^[5"); (F_set_arg, L "^[6"); (F_set_arg, L "^[7"); (F_set_arg, L "^[8"); (F_set_arg, L "^[9");
   (F_mv_end, L "^[[1;5A"); (F_mv_begin, L "^[[1;5B"); (F_mv_fword, L "^[[1;5C"); (F_mv_bword, L "^[[1;5D")].
Definition init_keys : list binding := fold_left (fun ks p => kb_add (fst p) None (encode (snd p)) ks) default_keys [].
(** emacs.c:1584-1601: the characters of the terminal; [None] is a negative one.  kb_add takes a NUL for the end of the keys. *)
Definition tty_key (c : char) : cstr := if is_nul c then [] else [c].
Definition tty_keys (erase kill werase intr quit : option char) (ks : list binding) : list binding :=
  let add g l c ks := match c with Some c => kb_add g None (l ++ tty_key c) ks | None => ks end in
  add F_noop [] quit (add F_abort [] intr (add F_del_bword [] werase (add F_del_line [] kill
    (add F_del_bword [ctrl "["] erase (add F_del_back [] erase ks))))).
