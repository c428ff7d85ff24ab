(** Signals and traps: trap.c:19-63 inittraps, 124-140 trapsig, 145-260 intrcheck,
    fatal_trap_check, trap_pending, runtraps, runtrap, 263-323 cleartraps, restoresigs, settrap,
    328-431 block_pipe, restore_pipe, setsig, setexecsig; main.c:669-684 (the traps in unwind);
    jobs.c:499-537 (the signals of a child), jobs.c:173 (SIGCHLD in j_init); exec.c:77-78,
    386-400 (where execute looks at traps, and the ERR trap), 681-687, 380-383 (exec).

    Not modelled: TMOUT (alarm_catcher, the first lines of runtraps), the job control signals
    (tt_sigs) and SIGWINCH, which the shell uses when it is interactive or monitors jobs;
    shtrap handlers (SIGCHLD: jobs.c, see Jobs_model) are only noted. *)
From Coq Require Import ZArith List Bool.
From Verif Require Import Base.
Import ListNotations.
Local Open Scope Z_scope.

Definition text := list char.
(** signal(3): SIG_DFL, SIG_IGN, and trapsig *)
Inductive hand := HDfl | HIgn | HTrap.
Definition heq (a b : hand) : bool := match a, b with HDfl, HDfl | HIgn, HIgn | HTrap, HTrap => true | _, _ => false end.

(** sh.h:215-236: one signal.  TF_SHELL_USES, TF_USER_SET, TF_ORIG_*, TF_EXEC_*, TF_DFL_INTR,
    TF_CHANGED, TF_FATAL; TF_TTY_INTR is not modelled *)
Record ent := Ent {
  tr : option text; pend : bool; uses : bool; uset : bool; orig : option hand; exe : option hand;
  dfli : bool; chg : bool; fatal : bool; cur : hand; sht : bool }.
Definition NSIG := 65.
Definition SIGEXIT := 0.
Definition SIGERR := NSIG.
Definition SIGHUP := 1. Definition SIGINT := 2. Definition SIGQUIT := 3. Definition SIGKILL := 9. Definition SIGPIPE := 13.
Definition SIGTERM := 15. Definition SIGCHLD := 17. Definition SIGSTOP := 19.
Definition sigs : list Z := map Z.of_nat (seq 0 66).

(** What happens, in order (only to state the properties): a signal arrives, a pending signal
    is taken by runtrap with its action, a trap is set *)
Inductive event := Deliv (p : Z) | Take (p : Z) (t : option text) | Set_ (p : Z) (t : option text).
Record st := St {
  ents : Z -> ent;
  disp : Z -> hand;                 (* what the kernel does with each signal *)
  trapf : bool; intrf : bool; fatalf : bool;   (* trap, intrsig, fatal_trap *)
  talking : bool;                   (* Flag(FTALKING) *)
  monitor : bool;                   (* Flag(FMONITOR) *)
  errexit : bool;                   (* Flag(FERREXIT) *)
  exstat : Z;
  undef : bool;                     (* an indeterminate value has been read *)
  cut : bool;                       (* not in the code: a pass of runtraps, or an EXIT or ERR
                                       trap run by unwind, has itself been left by unwinding *)
  log : list event                  (* not in the code: what has happened, the latest first *)
}.
Definition upd {A} (f : Z -> A) (i : Z) (v : A) : Z -> A := fun j => if j =? i then v else f j.
Definition with_ent s p e := St (upd (ents s) p e) (disp s) (trapf s) (intrf s) (fatalf s) (talking s) (monitor s) (errexit s) (exstat s) (undef s) (cut s) (log s).
Definition with_disp s d := St (ents s) d (trapf s) (intrf s) (fatalf s) (talking s) (monitor s) (errexit s) (exstat s) (undef s) (cut s) (log s).
Definition with_flags s a b c := St (ents s) (disp s) a b c (talking s) (monitor s) (errexit s) (exstat s) (undef s) (cut s) (log s).
Definition with_talk s b m := St (ents s) (disp s) (trapf s) (intrf s) (fatalf s) b m (errexit s) (exstat s) (undef s) (cut s) (log s).
Definition with_errexit s b := St (ents s) (disp s) (trapf s) (intrf s) (fatalf s) (talking s) (monitor s) b (exstat s) (undef s) (cut s) (log s).
Definition with_exstat s v := St (ents s) (disp s) (trapf s) (intrf s) (fatalf s) (talking s) (monitor s) (errexit s) v (undef s) (cut s) (log s).
Definition with_undef s := St (ents s) (disp s) (trapf s) (intrf s) (fatalf s) (talking s) (monitor s) (errexit s) (exstat s) true (cut s) (log s).
Definition with_cut s := St (ents s) (disp s) (trapf s) (intrf s) (fatalf s) (talking s) (monitor s) (errexit s) (exstat s) (undef s) true (log s).
Definition note s e := St (ents s) (disp s) (trapf s) (intrf s) (fatalf s) (talking s) (monitor s) (errexit s) (exstat s) (undef s) (cut s) (e :: log s).

Definition set_tr e v := Ent v (pend e) (uses e) (uset e) (orig e) (exe e) (dfli e) (chg e) (fatal e) (cur e) (sht e).
Definition set_pend e v := Ent (tr e) v (uses e) (uset e) (orig e) (exe e) (dfli e) (chg e) (fatal e) (cur e) (sht e).
Definition set_uset e := Ent (tr e) (pend e) (uses e) true (orig e) (exe e) (dfli e) (chg e) (fatal e) (cur e) (sht e).
Definition set_orig e v := Ent (tr e) (pend e) (uses e) (uset e) v (exe e) (dfli e) (chg e) (fatal e) (cur e) (sht e).
Definition set_exe e v := Ent (tr e) (pend e) (uses e) (uset e) (orig e) v (dfli e) (chg e) (fatal e) (cur e) (sht e).
Definition set_chg e v := Ent (tr e) (pend e) (uses e) (uset e) (orig e) (exe e) (dfli e) v (fatal e) (cur e) (sht e).
Definition set_cur e v := Ent (tr e) (pend e) (uses e) (uset e) (orig e) (exe e) (dfli e) (chg e) (fatal e) v (sht e).
Definition set_sht e v := Ent (tr e) (pend e) (uses e) (uset e) (orig e) (exe e) (dfli e) (chg e) (fatal e) (cur e) v.

(** sigaction(2): fails for SIGKILL and SIGSTOP (and, glibc, for its own signals 32 and 33) *)
Definition settable (p : Z) : bool := negb ((p =? SIGKILL) || (p =? SIGSTOP) || (p =? 32) || (p =? 33)).
Definition sigaction (s : st) (p : Z) (h : hand) : st := if settable p then with_disp s (upd (disp s) p h) else s.

(** SS_RESTORE_* *)
Inductive restore := RCurr | ROrig | RDfl | RIgn.
Definition is_ign (h : option hand) : bool := match h with Some HIgn => true | _ => false end.
(** trap.c:408-431; the check for an unset signal is an internal error that does not happen *)
Definition setexecsig (s : st) (p : Z) (r : restore) : st :=
  let e := ents s p in
  with_ent s p (set_exe e (match r with
    | RCurr => None
    | ROrig => if is_ign (orig e) then Some HIgn else Some HDfl
    | RDfl => Some HDfl
    | RIgn => Some HIgn end)).
(** trap.c:357-405.  With SS_SHTRAP [f] is trapsig.  When sigaction() fails the first time,
    sigact is not set: an indeterminate value is read (taken as not SIG_IGN here). *)
Definition setsig (s : st) (p : Z) (f : hand) (r : restore) (force user shtrap : bool) : bool * st :=
  if (p =? SIGEXIT) || (p =? SIGERR) then (true, s)
  else
    let s := match orig (ents s p) with
             | Some _ => s
             | None =>
               let old := if settable p then disp s p else HDfl in
               let s := sigaction (if settable p then s else with_undef s) p HIgn in
               with_ent s p (set_cur (set_orig (ents s p) (Some (if heq old HIgn then HIgn else HDfl))) HIgn)
             end in
    if is_ign (orig (ents s p)) && negb force && (negb user || negb (talking s)) then (false, s)
    else
      let s := setexecsig s p r in
      let s := if user then s else with_ent s p (set_sht (ents s p) shtrap) in
      (true, if heq (cur (ents s p)) f then s else sigaction (with_ent s p (set_cur (ents s p) f)) p f).

(** trap.c:19-63, and jobs.c:173: the start of the shell; [o p]: signal [p] is ignored *)
Definition ent0 := Ent None false false false None None false false false HDfl false.
Definition init (o : Z -> bool) (talk : bool) : st :=
  let fl := fun p => if (p =? SIGINT) || (p =? SIGQUIT) || (p =? SIGTERM) then Ent None false false false None None true false false HDfl false
                     else if p =? SIGHUP then Ent None false false false None None false false true HDfl false
                     else if p =? SIGCHLD then Ent None false true false None None false false false HDfl false
                     else ent0 in
  let s := St fl (fun p => if o p then HIgn else HDfl) false false false talk false false 0 false false [] in
  let s := snd (setsig s SIGINT HTrap ROrig false false false) in
  let s := snd (setsig s SIGQUIT HTrap ROrig false false false) in
  let s := snd (setsig s SIGTERM HTrap ROrig false false false) in
  let s := snd (setsig s SIGHUP HTrap ROrig false false false) in
  snd (setsig s SIGCHLD HTrap ROrig true false true).

(** trap.c:124-140 *)
Definition trapsig (s : st) (p : Z) : st :=
  let e := set_pend (ents s p) true in
  let s := with_ent s p e in
  let s := with_flags s true (intrf s || dfli e) (fatalf s) in
  let s := if fatal e && match tr e with None => true | Some _ => false end then with_flags s (trapf s) true true else s in
  note s (Deliv p).
(** the kernel delivers a signal; what SIG_DFL does to the process is not modelled *)
Definition deliver (s : st) (p : Z) : st := match disp s p with HTrap => trapsig s p | _ => s end.

(** trap.c:292-323 *)
Definition settrap (s : st) (p : Z) (t : option text) : st :=
  let f := match t with None => HDfl | Some [] => HIgn | Some _ => HTrap end in
  let e := set_uset (set_chg (set_tr (ents s p) t) true) in
  let s := note (with_ent s p e) (Set_ p t) in
  if (dfli e || fatal e) && heq f HDfl then snd (setsig s p HTrap RCurr false true false)
  else if uses e then
    if negb (is_ign (orig e)) || talking s then with_ent s p (set_exe e (Some (if heq f HIgn then HIgn else HDfl)))
    else s
  else snd (setsig s p f RCurr false true false).

(** trap.c:263-277 *)
Definition clear1 (s : st) (p : Z) : st :=
  let s := with_ent s p (set_pend (ents s p) false) in
  if uset (ents s p) && match tr (ents s p) with Some (_ :: _) => true | _ => false end then settrap s p None else s.
Definition cleartraps (s : st) : st := fold_left clear1 sigs (with_flags s false false false).
(** trap.c:280-290 *)
Definition restoresigs (s : st) : st :=
  fold_left (fun s p => match exe (ents s p) with Some h => snd (setsig s p h RCurr true false false) | None => s end) sigs s.
(** jobs.c:499-537: a child; [bg]: XBGND.  The job control signals (FMONITOR) are not modelled. *)
Definition child (bg : bool) (s : st) : st :=
  let s := if bg && negb (monitor s) then
             let s := snd (setsig s SIGINT HIgn RIgn true false false) in
             snd (setsig s SIGQUIT HIgn RIgn true false false)
           else s in
  cleartraps (with_talk s false false).
(** exec.c:681-687 and 382: execve(); handlers become SIG_DFL in the program.  [direct]: the
    program replaces the shell (XEXEC) *)
Definition program (direct bg : bool) (s : st) (p : Z) : hand :=
  let s := if direct && (negb bg || monitor s) then setexecsig (setexecsig s SIGINT ROrig) SIGQUIT ROrig else s in
  match disp (restoresigs s) p with HTrap => HDfl | h => h end.
(** trap.c:328-350, as c_print uses them *)
Definition block_pipe (s : st) : bool * st :=
  let e := ents s SIGPIPE in
  match orig e with
  | None => let s := snd (setsig s SIGPIPE HIgn RCurr false false false) in (negb (is_ign (orig (ents s SIGPIPE))), s)
  | Some _ => if heq (cur e) HDfl then (true, snd (setsig s SIGPIPE HIgn RCurr false false false)) else (false, s)
  end.
Definition restore_pipe (b : bool) (s : st) : st := if b then snd (setsig s SIGPIPE HDfl RCurr false false false) else s.

(** trap.c:155-188 *)
Definition fatal_trap_check (s : st) : Z :=
  match find (fun p => pend (ents s p) && (dfli (ents s p) || fatal (ents s p))) sigs with Some p => 128 + p | None => 0 end.
Definition trap_pending (s : st) : Z :=
  match find (fun p => pend (ents s p) && match tr (ents s p) with Some [] => false | Some _ => true | None => dfli (ents s p) || fatal (ents s p) end) sigs with
  | Some p => p | None => 0 end.

(** ** Running them
    What the shell does, as far as traps are concerned: *)
Inductive op :=
| OTrap (p : Z) (t : option text)  (* the trap command *)
| OSignal (p : Z)                  (* a signal arrives *)
| OStatus (v : Z)                  (* a command ends (exec.c:386-400) *)
| OPoint                           (* exec.c:77-78, main.c:615: if (trap) runtraps(0) *)
| OIntr                            (* trap.c:145-150 intrcheck *)
| OReturn                          (* return, break..: unwind to a frame inside the shell *)
| OError                           (* errorf: unwind(LERROR) *)
| OExit                            (* exit: unwind(LEXIT) *)
| OCatch (l : list op)             (* a frame that catches these: a function, the interactive shell *)
| OErrexit (b : bool).             (* set -e *)
(** [runtraps]'s flag: 0, TF_DFL_INTR|TF_FATAL, TF_FATAL *)
Inductive rflag := RAll | RIntr | RFatal.
Definition wanted (f : rflag) (e : ent) : bool :=
  match f with
  | RAll => true
  | RIntr => (dfli e || fatal e) && match tr e with None => true | _ => false end
  | RFatal => fatal e && match tr e with None => true | _ => false end
  end.
Inductive task := TList (l : list op) | TOp (o : op) | TRun (f : rflag) | TLoop (f : rflag) (l : list Z) | TTrap (p : Z) | TUnwind (exit : bool).
(** normally; unwinding inside the shell; the shell is gone *)
Inductive res := Fin (s : st) | Unw (s : st) | Gone (s : st) | NoFuel.
Definition bind (r : res) (k : st -> res) : res := match r with Fin s => k s | r => r end.

Section Run.
(** what the commands of a trap do *)
Variable body : text -> list op.

Fixpoint run (n : nat) (t : task) (s : st) : res :=
  match n with
  | O => NoFuel
  | S n =>
    match t with
    | TList [] => Fin s
    | TList (o :: l) => bind (run n (TOp o) s) (run n (TList l))
    | TOp o =>
      match o with
      | OTrap p t => Fin (settrap s p t)
      | OSignal p => Fin (deliver s p)
      | OStatus v =>
        let s := with_exstat s v in
        if v =? 0 then Fin s
        else let s := trapsig s SIGERR in
             if errexit s then run n (TUnwind false) s else Fin s
      | OPoint => if trapf s then run n (TRun RAll) s else Fin s
      | OIntr => if intrf s then run n (TRun RIntr) s else Fin s
      | OReturn => Unw s
      | OError => run n (TUnwind false) s
      | OExit => run n (TUnwind true) s
      | OCatch l => match run n (TList l) s with Unw s => Fin s | r => r end
      | OErrexit b => Fin (with_errexit s b)
      end
    (* trap.c:190-215 *)
    | TRun f =>
      let s := match f with
               | RAll => with_flags s false (intrf s) (fatalf s)
               | RIntr => with_flags s (trapf s) false false
               | RFatal => with_flags s (trapf s) (intrf s) false end in
      match run n (TLoop f sigs) s with Unw s => Unw (with_cut s) | r => r end
    | TLoop f [] => Fin s
    | TLoop f (p :: l) =>
      if pend (ents s p) && wanted f (ents s p) then bind (run n (TTrap p) s) (run n (TLoop f l)) else run n (TLoop f l) s
    (* trap.c:217-260 *)
    | TTrap p =>
      let e := ents s p in
      let s := note (with_ent s p (set_pend e false)) (Take p (tr e)) in
      match tr e with
      | None =>
        if fatal e then Gone (with_exstat s (128 + p))
        else if dfli e then run n (TUnwind false) (with_exstat s (128 + p))
        else Fin s
      | Some [] => Fin s
      | Some a =>
        let special := (p =? SIGEXIT) || (p =? SIGERR) in
        let s1 := if special then with_ent s p (set_tr (set_chg (ents s p) false) None) else s in
        bind (run n (TList (OPoint :: body a ++ [OPoint])) s1) (fun s2 =>
        let s2 := with_exstat s2 (exstat s) in
        Fin (if special then
               let e2 := ents s2 p in
               with_ent s2 p (let e3 := if chg e2 then e2 else set_tr e2 (Some a) in set_chg e3 (chg e3 || chg e))
             else s2))
      end
    (* main.c:669-684; [exit]: LEXIT, else LERROR or LINTR *)
    | TUnwind ex =>
      if ex || errexit s && match tr (ents s SIGEXIT) with Some _ => true | None => false end then
        bind (if trapf s then run n (TRun RAll) s else Fin s) (fun s =>
        match run n (TTrap SIGEXIT) s with Fin s => Gone s | Unw s => Unw (with_cut s) | r => r end)
      else if errexit s then
        bind (if trapf s then run n (TRun RAll) s else Fin s) (fun s =>
        match run n (TTrap SIGERR) s with Fin s => Gone s | Unw s => Unw (with_cut s) | r => r end)
      else Unw s
    end
  end.
End Run.
