(** Jobs: the job list, the SIGCHLD handler and waiting (jobs.c).

    The model is that of one shell process: jobs inherited by a child shell (ppid
    different from procpid) are left out.  Terminal modes and process groups of the
    terminal, times, coprocesses, and the text printed by j_print are left out.  A
    pointer to a Job is a number [j_id], different for every call of new_job: the reuse of
    freed structures is not modelled. *)
From Verif Require Import Base.
Local Open Scope Z_scope.

(** What waitpid() reports: exit status, terminating signal, stopping signal. *)
Inductive wst := WExit (n : Z) | WSig (n : Z) | WStop (n : Z).

(** PRUNNING PEXITED PSIGNALLED PSTOPPED (jobs.c:46-51, "order important"). *)
Inductive pstate := PRun | PExit | PSig | PStop.
Definition pord (s : pstate) : nat :=
  match s with PRun => 0 | PExit => 1 | PSig => 2 | PStop => 3 end.

(** struct proc (jobs.c:53-61).  [p_status = None]: 0, not yet set. *)
Record proc := Proc { p_pid : Z; p_state : pstate; p_status : option wst; p_cmd : cstr }.

(** JF_* (jobs.c:64-81), those not concerned with the terminal. *)
Record jflags := Flags {
  f_started : bool; f_waiting : bool; f_wasync : bool; f_xxcom : bool; f_fg : bool;
  f_changed : bool; f_known : bool; f_zombie : bool; f_remove : bool; f_pipefail : bool }.

(** struct job (jobs.c:83-104).  [j_last]: index of last_proc in the process list;
    [None] before j_startjob, when the C field is not initialised. *)
Record job := Job {
  j_id : nat; j_num : Z; j_fl : jflags; j_state : pstate; j_status : Z; j_pgrp : Z;
  j_age : Z; j_procs : list proc; j_last : option nat }.

(** Globals of jobs.c (127-142).  [raised]: SIGCHLD is pending for the shell.
    [mon], [notif], [pfail]: Flag(FMONITOR), Flag(FNOTIFY), Flag(FPIPEFAIL). *)
Record jst := Jst {
  jl : list job; lastj : option nat; asyncj : option nat; asyncpid : Z; nzomb : Z;
  held : bool; raised : bool; njobs : Z; nid : nat;
  mon : bool; notif : bool; pfail : bool; childmax : Z }.

(** Field updates. *)
Definition with_jl (s : jst) l := Jst l (lastj s) (asyncj s) (asyncpid s) (nzomb s) (held s)
  (raised s) (njobs s) (nid s) (mon s) (notif s) (pfail s) (childmax s).
Definition with_async (s : jst) a p := Jst (jl s) (lastj s) a p (nzomb s) (held s)
  (raised s) (njobs s) (nid s) (mon s) (notif s) (pfail s) (childmax s).
Definition with_last (s : jst) a := Jst (jl s) a (asyncj s) (asyncpid s) (nzomb s) (held s)
  (raised s) (njobs s) (nid s) (mon s) (notif s) (pfail s) (childmax s).
Definition with_nzomb (s : jst) z := Jst (jl s) (lastj s) (asyncj s) (asyncpid s) z (held s)
  (raised s) (njobs s) (nid s) (mon s) (notif s) (pfail s) (childmax s).
Definition with_sig (s : jst) h r := Jst (jl s) (lastj s) (asyncj s) (asyncpid s) (nzomb s) h
  r (njobs s) (nid s) (mon s) (notif s) (pfail s) (childmax s).
Definition with_ids (s : jst) n i := Jst (jl s) (lastj s) (asyncj s) (asyncpid s) (nzomb s)
  (held s) (raised s) n i (mon s) (notif s) (pfail s) (childmax s).
Definition with_opts (s : jst) m n p := Jst (jl s) (lastj s) (asyncj s) (asyncpid s) (nzomb s)
  (held s) (raised s) (njobs s) (nid s) m n p (childmax s).

Definition jfl (j : job) f := Job (j_id j) (j_num j) f (j_state j) (j_status j) (j_pgrp j)
  (j_age j) (j_procs j) (j_last j).
Definition jset (j : job) st rv := Job (j_id j) (j_num j) (j_fl j) st rv (j_pgrp j)
  (j_age j) (j_procs j) (j_last j).
Definition jprocs (j : job) ps := Job (j_id j) (j_num j) (j_fl j) (j_state j) (j_status j)
  (j_pgrp j) (j_age j) ps (j_last j).
Definition jnum (j : job) n := Job (j_id j) n (j_fl j) (j_state j) (j_status j) (j_pgrp j)
  (j_age j) (j_procs j) (j_last j).
Definition jpgrp (j : job) g := Job (j_id j) (j_num j) (j_fl j) (j_state j) (j_status j) g
  (j_age j) (j_procs j) (j_last j).
Definition jlast (j : job) l := Job (j_id j) (j_num j) (j_fl j) (j_state j) (j_status j)
  (j_pgrp j) (j_age j) (j_procs j) l.

Definition set_started f := Flags true (f_waiting f) (f_wasync f) (f_xxcom f) (f_fg f)
  (f_changed f) (f_known f) (f_zombie f) (f_remove f) (f_pipefail f).
Definition set_waiting b w f := Flags (f_started f) b w (f_xxcom f) (f_fg f)
  (f_changed f) (f_known f) (f_zombie f) (f_remove f) (f_pipefail f).
Definition set_fg b f := Flags (f_started f) (f_waiting f) (f_wasync f) (f_xxcom f) b
  (f_changed f) (f_known f) (f_zombie f) (f_remove f) (f_pipefail f).
Definition set_changed b f := Flags (f_started f) (f_waiting f) (f_wasync f) (f_xxcom f) (f_fg f)
  b (f_known f) (f_zombie f) (f_remove f) (f_pipefail f).
Definition set_known b f := Flags (f_started f) (f_waiting f) (f_wasync f) (f_xxcom f) (f_fg f)
  (f_changed f) b (f_zombie f) (f_remove f) (f_pipefail f).
Definition set_zombie f := Flags (f_started f) (f_waiting f) (f_wasync f) (f_xxcom f) (f_fg f)
  (f_changed f) (f_known f) true (f_remove f) (f_pipefail f).
Definition set_remove f := Flags (f_started f) (f_waiting f) (f_wasync f) (f_xxcom f) (f_fg f)
  (f_changed f) (f_known f) (f_zombie f) true (f_pipefail f).

Definition is_id (i : nat) (j : job) : bool := Nat.eqb (j_id j) i.
Definition get (l : list job) (i : nat) : option job := find (is_id i) l.
(** Assignment through a Job pointer: *j changes, its place in the list does not. *)
Definition upd (i : nat) (f : job -> job) (l : list job) : list job :=
  map (fun j => if is_id i j then f j else j) l.
Definition pstate_eqb (a b : pstate) : bool := Nat.eqb (pord a) (pord b).
Definition finished (j : job) : bool := pstate_eqb (j_state j) PExit || pstate_eqb (j_state j) PSig.

(** new_job (jobs.c:1527-1549), the number: for (i = 1; ; i++) until no job has number i.
    [None]: out of fuel. *)
Fixpoint new_num (fuel : nat) (i : Z) (l : list job) : option Z :=
  match fuel with
  | O => None
  | S n => if existsb (fun j => Z.eqb (j_num j) i) l then new_num n (i + 1) l else Some i
  end.

(** put_job (jobs.c:1614-1643). *)
Definition unlink (i : nat) (l : list job) : list job := filter (fun j => negb (is_id i j)) l.
Fixpoint past_stopped (j : job) (l : list job) : list job :=
  match l with
  | c :: r => if pstate_eqb (j_state c) PStop then c :: past_stopped j r else j :: l
  | [] => [j]
  end.
Definition put_job (front : bool) (j : job) (l : list job) : list job :=
  let l' := unlink (j_id j) l in
  if front then j :: l' else past_stopped j l'.
(** put_job of a job that is in the list. *)
Definition reput (front : bool) (i : nat) (l : list job) : list job :=
  match get l i with Some j => put_job front j l | None => l end.

(** remove_job (jobs.c:1574-1607). *)
Definition drop_ref (i : nat) (r : option nat) : option nat :=
  match r with Some k => if Nat.eqb k i then None else r | None => None end.
Definition remove_job (i : nat) (s : jst) : jst :=
  match get (jl s) i with
  | None => s                                             (* job not found *)
  | Some j =>
    Jst (unlink i (jl s)) (drop_ref i (lastj s)) (drop_ref i (asyncj s)) (asyncpid s)
      (if f_zombie (j_fl j) then nzomb s - 1 else nzomb s)
      (held s) (raised s) (njobs s) (nid s) (mon s) (notif s) (pfail s) (childmax s)
  end.

(** WEXITSTATUS or 128 + WTERMSIG (jobs.c:1110-1118, 1242-1251). *)
Definition pcode (p : proc) : Z :=
  match p_state p, p_status p with
  | PExit, Some (WExit n) => n
  | PSig, Some (WSig n) => 128 + n
  | _, _ => 0
  end.

(** j_startjob (jobs.c:975-990): kill(procpid, SIGCHLD) makes the signal pending. *)
Definition j_startjob (i : nat) (s : jst) : jst :=
  let l := upd i (fun j => jlast (jfl j (set_started (j_fl j)))
                                 (Some (Nat.pred (length (j_procs j))))) (jl s) in
  let s := with_jl s l in
  if held s then with_sig s false true else s.

Definition last_proc (j : job) : option proc :=
  match j_last j with Some k => nth_error (j_procs j) k | None => None end.

(** check_job (jobs.c:1217-1312), in three parts.  First the state: None if a process
    is still running. *)
Fixpoint job_state (acc : pstate) (ps : list proc) : option pstate :=
  match ps with
  | [] => Some acc
  | p :: r =>
    match p_state p with
    | PRun => None
    | st => job_state (if Nat.ltb (pord acc) (pord st) then st else acc) r
    end
  end.
(** 1254-1311: JF_CHANGED, reordering, notification, removal or zombie. *)
Definition after_check (i : nat) (s : jst) : jst :=
  match get (jl s) i with
  | None => s
  | Some j =>
    let stopped := pstate_eqb (j_state j) PStop in
    let s := if mon s && negb (f_xxcom (j_fl j)) then
        let s := if stopped then with_jl s (reput true i (jl s)) else s in
        if notif s && negb (f_waiting (j_fl j) && negb (f_wasync (j_fl j))) then
          let s := with_jl s (upd i (fun j => jfl j (set_changed false (j_fl j))) (jl s)) in
          if negb (f_waiting (j_fl j)) && negb stopped then remove_job i s else s
        else s
      else s in
    if negb (mon s) && negb (f_waiting (j_fl j) || f_fg (j_fl j)) && negb stopped then
      if match asyncj s with Some k => Nat.eqb k i | None => false end || f_known (j_fl j) then
        with_nzomb (with_jl s (upd i (fun j => jnum (jfl j (set_zombie (j_fl j))) (-1)) (jl s)))
                   (nzomb s + 1)
      else remove_job i s
    else s
  end.
Definition check_job (i : nat) (s : jst) : jst :=
  match get (jl s) i with
  | None => s
  | Some j =>
    if f_started (j_fl j) then
      match job_state PRun (j_procs j) with
      | None => s
      | Some st =>
        let rv := match last_proc j with Some p => pcode p | None => 0 end in
        after_check i
          (with_jl s (upd i (fun j => jfl (jset j st rv) (set_changed true (j_fl j))) (jl s)))
      end
    else s                                    (* internal_warningf *)
  end.

(** j_sigchld (jobs.c:1144-1207): one result of waitpid(). *)
Definition wstate (w : wst) : pstate :=
  match w with WStop _ => PStop | WSig _ => PSig | WExit _ => PExit end.
Fixpoint set_proc (pid : Z) (w : wst) (ps : list proc) : list proc :=
  match ps with
  | [] => []
  | p :: r => if Z.eqb (p_pid p) pid then Proc pid (wstate w) (Some w) (p_cmd p) :: r
              else p :: set_proc pid w r
  end.
Definition has_pid (pid : Z) (j : job) : bool := existsb (fun p => Z.eqb (p_pid p) pid) (j_procs j).
Definition reap (s : jst) (e : Z * wst) : jst :=
  match find (has_pid (fst e)) (jl s) with
  | None => s
  | Some j =>
    check_job (j_id j)
      (with_jl s (upd (j_id j) (fun j => jprocs j (set_proc (fst e) (snd e) (j_procs j))) (jl s)))
  end.
(** The handler; [q]: what waitpid() will report, in this order.  Returns what is left
    unreported. *)
Definition j_sigchld (q : list (Z * wst)) (s : jst) : jst * list (Z * wst) :=
  if existsb (fun j => negb (f_started (j_fl j))) (jl s)
  then (with_sig s true false, q)
  else (with_sig (fold_left reap q s) (held s) false, []).

(** j_set_async (jobs.c:939-969).  [None]: out of fuel. *)
Definition older (acc : option job) (a : option nat) (l : list job) : option job :=
  fold_left (fun acc j =>
    if negb (match a with Some k => Nat.eqb k (j_id j) | None => false end)
       && f_zombie (j_fl j)
       && match acc with None => true | Some o => Z.ltb (j_age j) (j_age o) end
    then Some j else acc) l acc.
Fixpoint drop_zombies (fuel : nat) (s : jst) : option jst :=
  match fuel with
  | O => None
  | S n =>
    if Z.ltb (childmax s) (nzomb s) then
      match older None (asyncj s) (jl s) with
      | None =>
        let az := match asyncj s with
                  | Some k => match get (jl s) k with Some j => f_zombie (j_fl j) | None => false end
                  | None => false end in
        Some (if negb az || negb (Z.eqb (nzomb s) 1) then with_nzomb s 0 else s)
      | Some o => drop_zombies n (remove_job (j_id o) s)
      end
    else Some s
  end.
Definition j_set_async (i : nat) (s : jst) : option jst :=
  let s := match asyncj s with
    | Some k => match get (jl s) k with
      | Some a => if f_zombie (j_fl a) && negb (f_known (j_fl a)) then remove_job k s else s
      | None => s end
    | None => s end in
  match get (jl s) i with
  | None => Some s
  | Some j =>
    if f_started (j_fl j) then
      let pid := match last_proc j with Some p => p_pid p | None => 0 end in
      drop_zombies (S (length (jl s))) (with_async s (Some i) pid)
    else Some s
  end.

(** exchild (jobs.c:394-573), the parent's part up to the fork.  [cont]: XPIPEI.
    [pid]: the result of fork().  [None]: internal_errorf, XPIPEI and no last_job. *)
Definition set_pid (s : jst) (i : nat) (xxcom : bool) (pid : Z) : jst :=
  with_jl s (upd i (fun j => if mon s && negb xxcom && Z.eqb (j_pgrp j) 0 then jpgrp j pid else j)
                 (jl s)).
Definition link_proc (cont xxcom bg : bool) (p : proc) (s : jst) : option (nat * jst) :=
  if cont then
    match lastj s with
    | None => None
    | Some i => Some (i, with_jl s (upd i (fun j => jprocs j (j_procs j ++ [p])) (jl s)))
    end
  else
    match new_num (S (length (jl s))) 1 (jl s) with
    | None => None
    | Some num =>
      let fl := Flags false false false xxcom (negb xxcom && negb bg) false false false false (pfail s) in
      let j := Job (nid s) num fl PRun 0 0 (njobs s + 1) [p] None in
      Some (nid s, with_last (with_ids (with_jl s (put_job false j (jl s))) (njobs s + 1) (S (nid s)))
                             (Some (nid s)))
    end.
Definition exchild_fork (cont xxcom bg : bool) (pid : Z) (cmd : cstr) (s : jst) : option jst :=
  match link_proc cont xxcom bg (Proc pid PRun None cmd) s with
  | None => None
  | Some (i, s) => Some (set_pid s i xxcom pid)
  end.
(** The same when fork() fails: kill_job and remove_job, then errorf.  What kill_job
    does to the processes is left to the kernel.  (The process that could not be started
    has pid 0 and is freed with the job.) *)
Definition exchild_fail (cont xxcom bg : bool) (s : jst) : option jst :=
  match link_proc cont xxcom bg (Proc 0 PRun None []) s with
  | None => None
  | Some (i, s) => Some (remove_job i s)
  end.
(** The rest of exchild for the last process of a job, without the wait. *)
Definition exchild_start (bg : bool) (s : jst) : option jst :=
  match lastj s with
  | None => None
  | Some i => let s := j_startjob i s in if bg then j_set_async i s else Some s
  end.

(** startlast (jobs.c:576-590). *)
Definition startlast (s : jst) : jst :=
  match lastj s with
  | None => s
  | Some i => j_startjob i (with_jl s (upd i (fun j => jfl j (set_waiting true (f_wasync (j_fl j)) (j_fl j))) (jl s)))
  end.

(** j_waitj (jobs.c:997-1138) up to the first sigsuspend().  [async]: JW_ASYNCNOTIFY. *)
Definition waitj_begin (i : nat) (async : bool) (s : jst) : jst :=
  with_jl s (upd i (fun j => jfl j (set_waiting true (async || f_wasync (j_fl j)) (j_fl j))) (jl s)).
(** Interrupted by a trap (1025-1028). *)
Definition waitj_intr (i : nat) (s : jst) : jst :=
  with_jl s (upd i (fun j => jfl j (set_waiting false false (j_fl j))) (jl s)).
(** The loop condition (1015-1016). *)
Definition waitj_waits (m : bool) (j : job) : bool :=
  pstate_eqb (j_state j) PRun || (negb m && pstate_eqb (j_state j) PStop).
(** pipefail (1104-1125). *)
Definition last_fail (ps : list proc) : Z :=
  fold_left (fun rv p => if Z.eqb (pcode p) 0 then rv else pcode p) ps 0.
Definition waitj_rv (j : job) : Z :=
  if f_pipefail (j_fl j) then last_fail (j_procs j) else j_status j.
(** After the loop.  j_print clears JF_CHANGED. *)
Definition waitj_end (i : nat) (async : bool) (s : jst) : option (Z * jst) :=
  match get (jl s) i with
  | None => None
  | Some j =>
    if waitj_waits (mon s) j then None
    else
      let stopped := pstate_eqb (j_state j) PStop in
      let s := with_jl s (upd i (fun j => jfl j (set_fg false (set_waiting false false (j_fl j)))) (jl s)) in
      let s := if negb async && (negb (mon s) || negb stopped)
               then with_jl s (upd i (fun j => jfl j (set_changed false (j_fl j))) (jl s)) else s in
      Some (waitj_rv j,
            if negb stopped && (negb (mon s) || negb async) then remove_job i s else s)
  end.

(** j_resume (jobs.c:706-803) up to j_waitj, when nothing fails. *)
Definition cont_proc (p : proc) : proc :=
  match p_state p with PStop => Proc (p_pid p) PRun None (p_cmd p) | _ => p end.
Definition j_resume (i : nat) (bg : bool) (s : jst) : option jst :=
  match get (jl s) i with
  | None => Some s
  | Some j =>
    if Z.eqb (j_pgrp j) 0 then Some s                     (* job not job-controlled *)
    else
      let running := existsb (fun p => pstate_eqb (p_state p) PStop) (j_procs j) in
      let l := upd i (fun j => let j := jprocs j (map cont_proc (j_procs j)) in
                               if running then jset j PRun (j_status j) else j) (jl s) in
      let s := with_jl s (reput false i l) in
      if bg then j_set_async i s
      else
        let s := with_jl s (upd i (fun j => jfl j (set_known false (set_fg true (j_fl j)))) (jl s)) in
        Some (with_async s (drop_ref i (asyncj s)) (asyncpid s))
  end.

(** Second loops of j_jobs and j_notify (jobs.c:880-884, 909-913). *)
Definition remove_marked (s : jst) : jst :=
  fold_left (fun s j => if f_remove (j_fl j) then remove_job (j_id j) s else s) (jl s) s.
(** j_notify (jobs.c:894-917). *)
Definition j_notify (s : jst) : jst :=
  remove_marked (with_jl s (map (fun j =>
    let j := if mon s && f_changed (j_fl j) then jfl j (set_changed false (j_fl j)) else j in
    if finished j then jfl j (set_remove (j_fl j)) else j) (jl s))).
(** j_jobs (jobs.c:847-888).  [which]: the job named by the argument, if any;
    [pg]: -p (j_print does not clear JF_CHANGED); [nfl]: -n; [z]: print zombies. *)
Definition j_jobs (which : option nat) (pg nfl z : bool) (s : jst) : jst :=
  remove_marked (with_jl s (map (fun j =>
    if (match which with Some i => Nat.eqb i (j_id j) | None => true end)
       && (negb (f_zombie (j_fl j)) || z) && (negb nfl || f_changed (j_fl j)) then
      let j := if pg then j else jfl j (set_changed false (j_fl j)) in
      if finished j then jfl j (set_remove (j_fl j)) else j
    else j) (jl s))).
(** j_async (jobs.c:920-933): the value of $!. *)
Definition j_async (s : jst) : jst * Z :=
  (match asyncj s with
   | None => s
   | Some k => with_jl s (upd k (fun j => jfl j (set_known true (j_fl j))) (jl s))
   end, asyncpid s).

(** j_lookup (jobs.c:1426-1518).  [LUndef]: last_proc of a job not started is read. *)
Inductive lres := LJob (i : nat) | LNosuch | LAmbig | LInvalid | LUndef.
(** strtonum(cp, 1, INT_MAX) on a string that begins with a digit (strtonum.c). *)
Definition digits_val (s : cstr) : Z :=
  fold_left (fun v c => 10 * v + (ccode c - ccode "0"%char)) s 0.
Definition strtonum1 (s : cstr) : option Z :=
  if forallb isdigit s then
    let v := digits_val s in if (1 <=? v) && (v <=? 2147483647) then Some v else None
  else None.
Fixpoint find_last (pid : Z) (l : list job) : lres :=
  match l with
  | [] => LNosuch
  | j :: r => match last_proc j with
              | None => LUndef
              | Some p => if Z.eqb (p_pid p) pid then LJob (j_id j) else find_last pid r
              end
  end.
Definition found (o : option job) : lres := match o with Some j => LJob (j_id j) | None => LNosuch end.
Fixpoint starts (p s : cstr) : bool :=                    (* strncmp(p, s, strlen(p)) == 0 *)
  match p, s with
  | [], _ => true
  | a :: p, b :: s => ceq a b && starts p s
  | _, [] => false
  end.
Fixpoint strstr (p s : cstr) : bool :=
  starts p s || match s with [] => false | _ :: r => strstr p r end.
(** The loops of %?string and %string: one entry for each match. *)
Definition unique (m : list nat) : lres :=
  match m with [] => LNosuch | [i] => LJob i | _ => LAmbig end.
Definition j_lookup (cp : cstr) (l : list job) : lres :=
  match cp with
  | [] => LInvalid
  | c :: r =>
    if isdigit c then
      match strtonum1 cp with
      | None => LNosuch
      | Some n =>
        match find_last n l with
        | LNosuch => found (find (fun j => negb (Z.eqb (j_pgrp j) 0) && Z.eqb (j_pgrp j) n) l)
        | x => x
        end
      end
    else if negb (ceq c "%") then LInvalid
    else match r with
      | [] => found (hd_error l)
      | d :: e =>
        if ceq d "+" || ceq d "%" then found (hd_error l)
        else if ceq d "-" then found (hd_error (tl l))
        else if isdigit d then
          match strtonum1 r with
          | None => LNosuch
          | Some n => found (find (fun j => Z.eqb (j_num j) n) l)
          end
        else if ceq d "?" then
          unique (flat_map (fun j => map (fun _ => j_id j)
                              (filter (fun p => strstr e (p_cmd p)) (j_procs j))) l)
        else
          unique (map j_id (filter (fun j => match j_procs j with
                                             | p :: _ => starts r (p_cmd p) | [] => false end) l))
      end
  end.
