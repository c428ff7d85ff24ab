(** Redirections: exec.c:1047-1179 iosetup, 1185-1250 herein, the descriptors in exec.c:43-402
    execute (106-131, TPIPE 140-166), io.c:242-303 ksh_dup2, savefd, restfd, openpipe,
    315-347 check_fd, 360-395 coproc_*_close, main.c:729-745 quitenv, 482-540 include,
    eval.c:885-935 comsub, c_sh.c:828-850 c_exec, shf.c:36-72 shf_open, io.c:434-460 maketemp.

    The descriptor table of the process is a function from descriptors to open files and the
    close-on-exec flag.  The kernel gives the lowest free descriptor; whether an open() or a
    fork() succeeds and the file that an open() gives come from an oracle.  dup2 and close of
    open descriptors do not fail otherwise (no EINTR).  Only the descriptors of the parent
    are followed across fork(); buffers are not modelled. *)
From Coq Require Import ZArith List Bool.
Import ListNotations.
Local Open Scope Z_scope.

(** the table: open file, close-on-exec *)
Definition table := Z -> option (Z * bool).
Definition upd {A} (t : Z -> A) (i : Z) (v : A) : Z -> A := fun j => if j =? i then v else t j.

Record st := St {
  tab : table;
  lim : Z;                          (* RLIMIT_NOFILE *)
  cr : Z; crw : Z; cw : Z;          (* coproc.read, coproc.readw, coproc.write; -1: none *)
  fsh : bool;                       (* Flag(FSH) *)
  orc : list (option Z)             (* what the kernel answers; the end: failures *)
}.
Definition with_tab s t := St t (lim s) (cr s) (crw s) (cw s) (fsh s) (orc s).
Definition with_cop s r rw w := St (tab s) (lim s) r rw w (fsh s) (orc s).
Definition with_lim s n := St (tab s) n (cr s) (crw s) (cw s) (fsh s) (orc s).
Definition pop s : option Z * st :=
  match orc s with [] => (None, s) | x :: r => (x, St (tab s) (lim s) (cr s) (crw s) (cw s) (fsh s) r) end.

(** ** The kernel *)
Fixpoint lowest (t : table) (base : Z) (n : nat) : option Z :=
  match n with O => None | S n => match t base with None => Some base | Some _ => lowest t (base + 1) n end end.
Definition free (s : st) (base : Z) : option Z := lowest (tab s) base (Z.to_nat (lim s - base)).
Definition sys_close (s : st) (fd : Z) : st := with_tab s (upd (tab s) fd None).
(** open(): [None] when it fails *)
Definition sys_open (s : st) : option Z * st :=
  let '(r, s) := pop s in
  match r with
  | None => (None, s)
  | Some f => match free s 0 with None => (None, s) | Some n => (Some n, with_tab s (upd (tab s) n (Some (f, false)))) end
  end.
Definition sys_cloexec (s : st) (fd : Z) : st :=
  match tab s fd with Some (f, _) => with_tab s (upd (tab s) fd (Some (f, true))) | None => s end.
(** fcntl(fd, F_DUPFD, base) or F_DUPFD_CLOEXEC of an open descriptor: [None] when there is
    no descriptor left *)
Definition sys_dupfd (s : st) (f base : Z) (cloexec : bool) : option (Z * st) :=
  match free s base with None => None | Some n => Some (n, with_tab s (upd (tab s) n (Some (f, cloexec)))) end.
Definition sys_dup2 (s : st) (a b : Z) : option st :=
  match tab s a with
  | None => None
  | Some (f, _) => if b <? lim s then Some (with_tab s (upd (tab s) b (Some (f, false)))) else None
  end.

(** How something ends: normally; with an error message, but the shell goes on (a redirection
    that fails); by unwinding (errorf); by unwinding because the system has no more
    descriptors or processes *)
Inductive out := Done | Failed | Abort | Sys.

Definition FDBASE := 10.                                                       (* sh.h:28 *)
Definition fds32 : list Z := map Z.of_nat (seq 0 32).                          (* sh.h:27 NUFILE *)
(** the elements of savefd are short (sh.h:80) *)
Definition short (x : Z) : Z := (x + 32768) mod 65536 - 32768.

(** io.c:257-275; [None]: errorf *)
Definition savefd (s : st) (fd : Z) : option (Z * st) :=
  if fd <? FDBASE then
    match tab s fd with
    | None => Some (-1, s)
    | Some (f, _) => sys_dupfd s f FDBASE true
    end
  else Some (fd, sys_cloexec s fd).
(** io.c:277-288 *)
Definition restfd (s : st) (fd ofd : Z) : st :=
  if ofd <? 0 then sys_close s fd
  else if fd =? ofd then s
  else sys_close (match sys_dup2 s ofd fd with Some s => s | None => s end) ofd.
(** io.c:290-303: moving one end to shell space, with the error of savefd *)
Definition hi_end (s : st) (fd : Z) : option (Z * st) :=
  match savefd s fd with
  | None => None
  | Some (n, s) => Some (n, if n =? fd then s else sys_close s fd)
  end.
(** io.c:290-303: [None] is errorf, with the state it leaves *)
Definition openpipe (s : st) : option (Z * Z) * st :=
  let '(a, s) := sys_open s in
  match a with
  | None => (None, s)
  | Some a =>
    let '(b, s) := sys_open s in
    match b with
    | None => (None, sys_close s a)                                             (* pipe() makes both or none *)
    | Some b =>
      match hi_end s a with
      | None => (None, s)
      | Some (p, s) =>
        match hi_end s b with None => (None, s) | Some (q, s) => (Some (p, q), s) end
      end
    end
  end.

(** jobs.c:396-560 exchild in the parent: fork() *)
Definition fork (s : st) : bool * st := let '(r, s) := pop s in (match r with None => false | Some _ => true end, s).

(** main.c:737-745; [sv] is savefd *)
Definition saved := Z -> Z.
Definition quitenv (sv : saved) (s : st) : st :=
  fold_left (fun s fd => if sv fd =? 0 then s else restfd s fd (sv fd)) fds32 s.
(** c_sh.c:834-848 *)
Definition c_exec (sv : saved) (s : st) : st :=
  fold_left (fun s i =>
    let s := if 0 <? sv i then sys_close s (sv i) else s in
    if negb (fsh s) && (2 <? i) && negb (sv i =? 0) then sys_cloexec s i else s) fds32 s.

(** exec.c:140-166: a pipeline of [n] + 1 processes, in the parent *)
Fixpoint pipe_loop (n : nat) (s : st) : out * st :=
  match n with
  | O => (Done, s)
  | S n =>
    let '(pv, s) := openpipe s in
    match pv with
    | None => (Sys, s)
    | Some (p, q) =>
      let s := match sys_dup2 s q 1 with Some s => s | None => s end in
      let '(ok, s) := fork s in
      if ok then
        let s := match sys_dup2 s p 0 with Some s => s | None => s end in
        pipe_loop n (sys_close (sys_close s p) q)
      else (Sys, s)
    end
  end.
(** the savefd of a pipeline: [-] 1 for closed *)
Definition pipeline (n : nat) (s : st) : out * st :=
  match savefd s 0 with
  | None => (Sys, s)
  | Some (a, s) =>
    let sv := upd (fun _ => 0) 0 (short a) in
    match savefd s 1 with
    | None => (Sys, quitenv sv s)
    | Some (b, s) =>
      let sv1 := upd sv 1 (short b) in
      let '(o, s) := pipe_loop n s in
      match o with
      | Done =>
        let s := restfd s 1 (sv1 1) in
        let '(ok, s) := fork s in
        if ok then (Done, quitenv sv (sys_close s 0)) else (Sys, quitenv sv s)
      | o => (o, quitenv sv1 s)
      end
    end
  end.
(** eval.c:885-935: a command substitution that is a pipeline of [n] + 1 processes, and the
    end of its output (expand closes the pipe) *)
Definition comsub (n : nat) (s : st) : out * st :=
  let '(pv, s) := openpipe s in
  match pv with
  | None => (Sys, s)
  | Some (p, q) =>
    match savefd s 1 with
    | None => (Sys, s)
    | Some (ofd1, s) =>
      let s := if q =? 1 then s else sys_close (match sys_dup2 s q 1 with Some s => s | None => s end) q in
      let '(o, s) := match n with
                     | O => let '(ok, s) := fork s in (if ok then Done else Sys, s)
                     | S _ => pipeline n s
                     end in
      match o with
      | Done => (Done, sys_close (restfd s 1 ofd1) p)
      | o => (o, s)
      end
    end
  end.
(** shf.c:36-72 shf_open with SHF_MAPHI|SHF_CLEXEC *)
Definition shf_open (s : st) : option Z * st :=
  let '(r, s) := sys_open s in
  match r with
  | None => (None, s)
  | Some fd =>
    if fd <? FDBASE then
      match tab s fd with
      | None => (None, s)
      | Some (f, _) =>
        match sys_dupfd s f FDBASE false with
        | None => (None, sys_close s fd)
        | Some (n, s) => (Some n, sys_cloexec (sys_close s fd) n)
        end
      end
    else (Some fd, sys_cloexec s fd)
  end.

(** ** Redirections *)
(** the word after >& or <& : a digit, or p *)
Inductive dsrc := Digit (fd : Z) | Coproc.
(** What happens in the expansion of a word: command substitutions (of [n] + 1 processes),
    at the end perhaps an error *)
Inductive work := Work (subs : list nat) (err : bool).
Inductive io :=
| IoOpen (unit : Z) (w : work)                     (* < > >> <> : the name is expanded and opened *)
| IoHere (unit : Z) (w : work)                     (* << : the text is expanded *)
| IoDup (unit : Z) (rd : bool) (w : work) (src : dsrc)
| IoClose (unit : Z) (w : work)
| IoBad (w : work).                                (* refused: restricted, no such descriptor name, no text *)

Fixpoint do_subs (l : list nat) (s : st) : out * st :=
  match l with
  | [] => (Done, s)
  | n :: l => let '(o, s) := comsub n s in match o with Done => do_subs l s | o => (o, s) end
  end.
Definition expand (w : work) (s : st) : out * st :=
  let '(Work l err) := w in
  let '(o, s) := do_subs l s in
  match o with Done => (if err then Abort else Done, s) | o => (o, s) end.

(** io.c:377-395 *)
Definition coproc_write_close (s : st) (fd : Z) : st :=
  if (0 <=? cw s) && (fd =? cw s) then with_cop (sys_close s (cw s)) (cr s) (crw s) (-1) else s.
Definition coproc_readw_close (s : st) (fd : Z) : st :=
  if (0 <=? crw s) && (0 <=? cr s) && (fd =? cr s) then with_cop (sys_close s (crw s)) (cr s) (-1) (cw s) else s.
Definition coproc_read_close (s : st) (fd : Z) : st :=
  if (0 <=? cr s) && (fd =? cr s) then
    let s := coproc_readw_close s fd in with_cop (sys_close s (cr s)) (-1) (crw s) (cw s)
  else s.

(** exec.c:1136-1178: [u] becomes [unit]; [dup]: iotype == IODUP *)
Definition place (s : st) (sv : saved) (unit u : Z) (dup do_close isexec rd : bool) : out * saved * st :=
  match (if sv unit =? 0 then
           if u =? unit then Some (-1, s)
           else match savefd s unit with None => None | Some (n, s) => Some (short n, s) end
         else Some (sv unit, s)) with
  | None => (Sys, sv, s)
  | Some (n, s) =>
    let sv := upd sv unit n in
    if do_close then (Done, sv, sys_close s unit)
    else if u =? unit then (Done, sv, s)
    else match sys_dup2 s u unit with
         | None => (Failed, sv, if dup then s else sys_close s u)
         | Some s =>
           (Done, sv,
            if dup then if isexec then if rd then coproc_read_close s u else coproc_write_close s u else s
            else sys_close s u)
         end
  end.
(** exec.c:1185-1250 herein; [None]: an error has been printed *)
Definition herein (w : work) (s : st) : option (option Z) * st :=
  let '(t, s) := sys_open s in
  match t with
  | None => (Some None, s)
  | Some t =>
    let '(u, s) := sys_open s in
    match u with
    | None => (Some None, sys_close s t)
    | Some u =>
      let '(o, s) := expand w s in
      match o with
      | Done => (Some (Some u), sys_close s t)
      | Sys => (None, sys_close (sys_close s t) u)
      | _ => (Some None, sys_close (sys_close s t) u)
      end
    end
  end.
(** exec.c:1047-1134.  After Sys in herein the shell goes on (the error is caught there); the
    outcome is kept to say that the system failed. *)
Definition iosetup (isexec : bool) (i : io) (sv : saved) (s : st) : out * saved * st :=
  match i with
  | IoOpen unit w =>
    let '(o, s) := expand w s in
    match o with
    | Done =>
      let '(u, s) := sys_open s in
      match u with None => (Failed, sv, s) | Some u => place s sv unit u false false isexec false end
    | o => (o, sv, s)
    end
  | IoHere unit w =>
    let '(u, s) := herein w s in
    match u with
    | None => (Sys, sv, s)
    | Some None => (Failed, sv, s)
    | Some (Some u) => place s sv unit u false false isexec false
    end
  | IoDup unit rd w src =>
    let '(o, s) := expand w s in
    match o with
    | Done =>
      let u := match src with
               | Digit d => match tab s d with None => -1 | Some _ => d end     (* io.c:320-338 *)
               | Coproc => if rd then cr s else cw s                            (* io.c:401-411 *)
               end in
      if u <? 0 then (Failed, sv, s)
      else if u =? unit then (Done, sv, s)
      else place s sv unit u true false isexec rd
    | o => (o, sv, s)
    end
  | IoClose unit w =>
    let '(o, s) := expand w s in
    match o with
    | Done => if 1009 =? unit then (Done, sv, s) else place s sv unit 1009 true true isexec false
    | o => (o, sv, s)
    end
  | IoBad w =>
    let '(o, s) := expand w s in
    match o with Done => (Failed, sv, s) | o => (o, sv, s) end
  end.
(** exec.c:113-131 *)
Fixpoint io_all (isexec : bool) (l : list io) (sv : saved) (s : st) : out * saved * st :=
  match l with
  | [] => (Done, sv, s)
  | i :: l =>
    let '(o, sv, s) := iosetup isexec i sv s in
    match o with Done => io_all isexec l sv s | o => (o, sv, s) end
  end.

(** ** Commands
    The tree of the commands that are executed (loops and conditions are unfolded). *)
Inductive cmd :=
| Skip
| Simple (rs : list io) (special forks fails : bool)  (* a builtin or a program; [special]: a special
                                                         builtin; [fails]: the builtin calls errorf *)
| Exec (rs : list io)                                 (* exec without arguments *)
| Group (rs : list io) (c : cmd)                      (* a compound command or a function call *)
| Seq (c1 c2 : cmd)
| Expand (w : work)                                   (* the words of a command, assignments *)
| Pipe (n : nat)                                      (* [n] + 1 processes *)
| Catch (c : cmd)                                     (* a place where errors are caught: E_FUNC, E_PARSE.. *)
| Dot (c : cmd)                                       (* main.c:482-540: . file, and $(<file) *)
| Ulimit (n : Z).                                     (* ulimit -n *)

(** exec.c:106-131 and quitenv, which is also called when a command is unwound
    (main.c:669-711) *)
Definition redirected (isexec : bool) (rs : list io) (s : st) (body : saved -> st -> out * st) : out * st :=
  let '(o, sv, s) := io_all isexec rs (fun _ => 0) s in
  match o with
  | Done => body sv s
  | o => (o, quitenv sv s)
  end.
Fixpoint exec (c : cmd) (s : st) : out * st :=
  match c with
  | Skip => (Done, s)
  | Simple rs special forks fails =>
    let '(o, s) :=
      redirected false rs s (fun sv s =>
        let '(o, s) := if forks then let '(ok, s) := fork s in (if ok then Done else Sys, s) else (if fails then Abort else Done, s) in
        (o, quitenv sv s)) in
    (match o with Failed => if special then Abort else Failed | o => o end, s)
  | Exec rs => redirected true rs s (fun sv s => (Done, c_exec sv s))
  | Group rs c => redirected false rs s (fun sv s => let '(o, s) := exec c s in (o, quitenv sv s))
  | Seq c1 c2 => let '(o, s) := exec c1 s in match o with Done | Failed => exec c2 s | o => (o, s) end
  | Expand w => expand w s
  | Pipe n => pipeline n s
  | Catch c => let '(o, s) := exec c s in (match o with Abort => Done | o => o end, s)
  | Dot c =>
    let '(f, s) := shf_open s in
    match f with
    | None => (Failed, s)
    | Some f => let '(o, s) := exec c s in (match o with Abort => Done | o => o end, sys_close s f)
    end
  | Ulimit n => (Done, with_lim s n)
  end.
