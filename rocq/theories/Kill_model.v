(** Signals by name and number, and the commands that take them: trap.c inittraps (the
    names), gettrap; c_ksh.c c_kill; jobs.c j_kill, kill_job; c_sh.c c_trap.

    Simplified: the numbers of the signals are those of Linux on x86 with glibc (those of
    sys_signame that are not defined there are left out); the messages of strsignal are a
    function [mess].  Error messages and the usage text are left out.  What the kernel
    answers to kill and killpg is the oracle [ok] on the calls made before; the list of
    jobs, too, may depend on them.  trap is a special builtin: a script does not come back
    from its errors, the traps set before stay. *)
From Verif Require Import Base Num_model SimplifyPath_model Var_model Opt_model Jobs_model Columns_model Quote_model.
Local Open Scope Z_scope.

Definition NSIG := 65.                                              (* <signal.h> *)
Definition SIGEXIT_ := 0.                                           (* sh.h:248 *)
Definition SIGERR_ := NSIG.                                         (* sh.h:249 *)
Definition SIGTERM := 15. Definition SIGHUP := 1. Definition SIGCONT := 18.

(** posix_signals.h:41-124, with the numbers of x86; the rest of the array is zero *)
Definition sys_signame : list (cstr * Z) :=
  [ (L "HUP", 1); (L "INT", 2); (L "QUIT", 3); (L "ILL", 4); (L "ABRT", 6); (L "FPE", 8); (L "KILL", 9); (L "SEGV", 11);
    (L "PIPE", 13); (L "ALRM", 14); (L "TERM", 15); (L "USR1", 10); (L "USR2", 12); (L "CHLD", 17); (L "CONT", 18);
    (L "STOP", 19); (L "TSTP", 20); (L "TTIN", 21); (L "TTOU", 22); (L "TRAP", 5); (L "IOT", 6); (L "BUS", 7); (L "SYS", 31);
    (L "STKFLT", 16); (L "URG", 23); (L "IO", 29); (L "POLL", 29); (L "CLD", 17); (L "XCPU", 24); (L "XFSZ", 25);
    (L "VTALRM", 26); (L "PROF", 27); (L "PWR", 30); (L "WINCH", 28) ].
(** trap.c:24-44 inittraps: sigtraps[i].name *)
Definition name_of (i : Z) : option cstr :=
  if i =? SIGEXIT_ then Some (L "EXIT")
  else if i =? SIGERR_ then Some (L "ERR")
  else option_map fst (find (fun e => snd e =? i) sys_signame).
(** the indices of sigtraps *)
Definition all_sigs : list Z := map Z.of_nat (seq 0 66).

(** C library: strcasecmp(a, b) == 0, strncasecmp(p, s, strlen(p)) == 0 *)
Fixpoint casecmp (a b : cstr) : bool :=
  match a, b with
  | [], [] => true
  | x :: a, y :: b => ceq (tolower x) (tolower y) && casecmp a b
  | _, _ => false
  end.
Fixpoint ncasecmp (p s : cstr) : bool :=
  match p, s with
  | [], _ => true
  | x :: p, y :: s => ceq (tolower x) (tolower y) && ncasecmp p s
  | _, [] => false
  end.

(** trap.c:92-119 gettrap: the number of the signal *)
Definition gettrap (name : cstr) (igncase : bool) : option Z :=
  if isdigit (hd NUL name) then
    match getn name with
    | Some n => if (0 <=? n) && (n <? NSIG) then Some n else None
    | None => None
    end
  else
    let name := if igncase && ncasecmp (L "SIG") name then skipn 3 name
                else if negb igncase && starts (L "SIG") name then skipn 3 name
                else name in
    find (fun i => match name_of i with
                   | Some n => if igncase then casecmp n name else str_eqb n name
                   | None => false
                   end) all_sigs.

(** ** trap *)
(** c_sh.c:508-515: the calls of settrap, in order, and the status *)
Fixpoint set_traps (s : option cstr) (wp : list cstr) : list (Z * option cstr) * Z :=
  match wp with
  | [] => ([], 0)
  | w :: wp => match gettrap w true with
               | None => ([], 1)
               | Some p => let '(l, rv) := set_traps s wp in ((p, s) :: l, rv)
               end
  end.
(** c_sh.c:486-494, one trap; shf.c:930-931 for a signal without a name *)
Definition trap_line (p : Z) (t : cstr) : cstr :=
  L "trap -- " ++ print_value_quoted t ++ L " " ++
  match name_of p with Some n => n | None => L "(null %s)" end ++ [NL].
Inductive trap_res := TList (out : cstr) | TSet (calls : list (Z * option cstr)) (rv : Z).
(** c_sh.c:475-516 c_trap; [traps p]: sigtraps[p].trap *)
Definition c_trap (traps : Z -> option cstr) (wp : list cstr) : res trap_res :=
  do r <- ksh_getopt wp (getopt_reset 0 false) [] ;
  let '(z, g) := r in
  if z =? schar "?" then Ok (TSet [] 1)
  else match skipn (optind g) wp with
       | [] => Ok (TList (concat (map (fun p => match traps p with Some t => trap_line p t | None => [] end) all_sigs)))
       | w :: wp' =>
         let '(s, wp) := match gettrap w false with None => (Some w, wp') | Some _ => (None, w :: wp') end in
         let s := match s with Some w => if str_eqb w (L "-") then None else Some w | None => None end in
         let '(l, rv) := set_traps s wp in Ok (TSet l rv)
       end.

(** ** kill *)
Inductive act := Kill (pid sig : Z) | Killpg (pgrp sig : Z).
(** %d of an int *)
Definition dec (n : Z) : cstr :=
  if n <? 0 then "-"%char :: match u64ton (- n) 10 with Ok s => s | _ => [] end
  else match u64ton n 10 with Ok s => s | _ => [] end.
(** %*s and %*d *)
Definition rpad (w : Z) (s : cstr) : cstr := repeat SP (Z.to_nat w - length s) ++ s.
(** exec.c:1333, c_ksh.c:1214: the number of digits *)
Fixpoint ndigits (fuel : nat) (i : Z) : Z :=
  match fuel with O => 1 | S f => if 10 <=? i then 1 + ndigits f (i / 10) else 1 end.

Record kout := Ko { k_status : Z; k_usage : bool; k_out : cstr; k_acts : list act }.

Section Kill.
Variable posix : bool.
Variable x_cols : Z.
Variable mess : Z -> cstr.
Variable ok : list act -> act -> bool.
Variable jobs : list act -> list job.

(** a system call: the calls made so far, and whether it succeeded *)
Definition call (h : list act) (a : act) : list act * bool := (h ++ [a], ok h a).
(** jobs.c:1649-1660 kill_job *)
Fixpoint kill_job (ps : list proc) (sig : Z) (h : list act) (rv : bool) : list act * bool :=
  match ps with
  | [] => (h, rv)
  | p :: ps => if p_pid p =? 0 then kill_job ps sig h rv
               else let '(h, b) := call h (Kill (p_pid p) sig) in kill_job ps sig h (if b then rv else false)
  end.
(** jobs.c:669-703 j_kill; true: it returns 0 *)
Definition j_kill (cp : cstr) (sig : Z) (h : list act) : list act * bool :=
  match j_lookup cp (jobs h) with
  | LJob i =>
    match get (jobs h) i with
    | None => (h, false)
    | Some j =>
      if j_pgrp j =? 0 then kill_job (j_procs j) sig h true
      else
        let h := if pstate_eqb (j_state j) PStop && ((sig =? SIGTERM) || (sig =? SIGHUP))
                 then fst (call h (Killpg (j_pgrp j) SIGCONT)) else h in
        call h (Killpg (j_pgrp j) sig)
    end
  | _ => (h, false)
  end.
(** c_ksh.c:1236-1253 *)
Fixpoint kill_all (ps : list cstr) (sig : Z) (h : list act) (rv : Z) : list act * Z :=
  match ps with
  | [] => (h, rv)
  | p :: ps =>
    let '(h, b) :=
      if ceq (hd NUL p) "%" then j_kill p sig h
      else match getn p with
           | None => (h, false)
           | Some n => call h (if n <? -1 then Killpg (- n) sig else Kill n sig)
           end in
    kill_all ps sig h (if b then rv else 1)
  end.

(** c_ksh.c:1191-1200 *)
Fixpoint kill_names (ps : list cstr) (out : cstr) : cstr * Z :=
  match ps with
  | [] => (out, 0)
  | p :: ps =>
    match getn p with
    | None => (out, 1)
    | Some n =>
      let n := if (128 <? n) && (n <? 128 + NSIG) then n - 128 else n in
      let t := match (if (0 <? n) && (n <? NSIG) then name_of n else None) with Some s => s | None => dec n end in
      kill_names ps (out ++ t ++ [NL])
    end
  end.
(** c_ksh.c:1202-1206 *)
Fixpoint posix_names (l : list Z) (p : cstr) : cstr :=
  match l with
  | [] => [NL]
  | i :: l => match name_of i with Some s => p ++ s | None => [] end ++ posix_names l (L " ")
  end.
(** c_ksh.c:1208-1226 *)
Definition num_width : Z := ndigits 64 NSIG.
Definition widest (f : Z -> Z) (l : list Z) : Z := fold_left (fun w i => if w <? f i then f i else w) l 0.
Definition name_width : Z :=
  widest (fun i => match name_of i with Some s => Z.of_nat (length s) | None => num_width end) (map Z.of_nat (seq 0 65)).
Definition mess_width : Z := widest (fun i => Z.of_nat (length (mess i))) (map Z.of_nat (seq 0 65)).
(** c_ksh.c:1125-1142 kill_fmt_entry; the text always fits into the buffer *)
Definition kill_fmt_entry (i : Z) : cstr :=
  let i := i + 1 in
  rpad num_width (dec i) ++ L " " ++ rpad name_width (match name_of i with Some s => s | None => dec i end) ++ L " " ++ mess i.
(** c_ksh.c:1201-1231 *)
Definition kill_list : cstr :=
  if posix then posix_names (map Z.of_nat (seq 1 64)) []
  else concat (map (fun r => r ++ [NL])
    (print_columns x_cols (NSIG - 1) (num_width + name_width + mess_width + 3) true kill_fmt_entry)).

(** c_ksh.c:1164-1178: -l, -s and the getopt structure; None: return 1.  Out of fuel: Ok None. *)
Fixpoint kill_opts (fuel : nat) (wp : list cstr) (g : getopt) (lflag : bool) (t : option Z) : res (option (option (bool * option Z * getopt))) :=
  match fuel with
  | O => Ok None
  | S f =>
    do r <- ksh_getopt wp g (L "ls:") ;
    let '(z, g) := r in
    if z =? -1 then Ok (Some (Some (lflag, t, g)))
    else if z =? schar "l" then kill_opts f wp g true t
    else if z =? schar "s" then
      match optarg g with
      | None => UB
      | Some a => match gettrap a true with
                  | None => Ok (Some None)
                  | Some n => kill_opts f wp g lflag (Some n)
                  end
      end
    else if z =? schar "?" then Ok (Some None)
    else kill_opts f wp g lflag t
  end.
(** c_ksh.c:1181-1254: the operands are known *)
Definition kill_main (lflag : bool) (t : option Z) (ps : list cstr) : kout :=
  if (lflag && match t with Some _ => true | None => false end) || (match ps with [] => true | _ => false end && negb lflag) then
    Ko 1 true [] []
  else if lflag then
    match ps with
    | _ :: _ => let '(out, rv) := kill_names ps [] in Ko rv false out []
    | [] => Ko 0 false kill_list []
    end
  else
    let sig := match t with Some n => n | None => SIGTERM end in
    let '(h, rv) := kill_all ps sig [] 0 in Ko rv false [] h.
(** c_ksh.c:1145-1255 c_kill *)
Definition c_kill (fuel : nat) (wp : list cstr) : res (option kout) :=
  let new :=
    do r <- kill_opts fuel wp (getopt_reset 0 false) false None ;
    match r with
    | None => Ok None
    | Some None => Ok (Some (Ko 1 false [] []))
    | Some (Some (lflag, t, g)) => Ok (Some (kill_main lflag t (skipn (optind g) wp)))
    end in
  match wp with
  | _ :: (m :: c :: p) :: rest =>
    if ceq m "-" && (isdigit c || isupper c) then
      match gettrap (c :: p) true with
      | None => Ok (Some (Ko 1 false [] []))
      | Some n => Ok (Some (kill_main false (Some n)
                    (match rest with w :: r => if str_eqb w (L "--") then r else rest | [] => [] end)))
      end
    else new
  | _ => new
  end.
End Kill.
