(** Specification side of the job properties: the shell together with a kernel that lets
    children change state at any moment, and the history of what happened. *)
From Verif Require Import Base Jobs_model.
From Coq Require Import Permutation.
Local Open Scope Z_scope.

(** What can happen.  [AChild]: a child exits, dies or stops.  [ASig]: SIGCHLD is
    delivered, waitpid() reporting the children in the given order. *)
Inductive act :=
| AFork (cont xxcom bg : bool) (pid : Z) (cmd : cstr)
| AFail (cont xxcom bg : bool)
| AStart (bg : bool) | AStartLast
| AWait (i : nat) (async : bool) | AIntr (i : nat) | AWaitEnd (i : nat) (async : bool) (rv : Z)
| AResume (i : nat) (bg : bool)
| ANotify | AJobs (which : option nat) (pg nfl z : bool) | AAsync (pid : Z)
| AOpts (m n p : bool)
| AChild (pid : Z) (w : wst)
| ASig (order : list (Z * wst)).

Definition ended (w : wst) : Prop := match w with WStop _ => False | _ => True end.

(** Histories are newest first.  What last happened to child [pid] since it was forked. *)
Fixpoint outcome (h : list act) (pid : Z) : option wst :=
  match h with
  | [] => None
  | AChild p w :: r => if Z.eqb p pid then Some w else outcome r pid
  | AFork _ _ _ p _ :: r => if Z.eqb p pid then None else outcome r pid
  | _ :: r => outcome r pid
  end.
(** Child [pid] has been forked and has not ended. *)
Fixpoint live (h : list act) (pid : Z) : Prop :=
  match h with
  | [] => False
  | AChild p w :: r => if Z.eqb p pid then ~ ended w else live r pid
  | AFork _ _ _ p _ :: r => if Z.eqb p pid then True else live r pid
  | _ :: r => live r pid
  end.
(** Number of jobs created. *)
Fixpoint created (h : list act) : nat :=
  match h with
  | [] => 0
  | AFork false _ _ _ _ :: r | AFail false _ _ :: r => S (created r)
  | _ :: r => created r
  end.
(** The processes of the k-th job created, in the order of the pipeline. *)
Fixpoint pids_of (h : list act) (k : nat) : list Z :=
  match h with
  | [] => []
  | AFork cont _ _ p _ :: r =>
    if Nat.eqb (S k) (created h) then pids_of r k ++ [p] else pids_of r k
  | _ :: r => pids_of r k
  end.
(** The option pipefail when the k-th job was created. *)
Fixpoint pipefail_now (h : list act) : bool :=
  match h with [] => false | AOpts _ _ p :: _ => p | _ :: r => pipefail_now r end.
Fixpoint pipefail_of (h : list act) (k : nat) : bool :=
  match h with
  | [] => false
  | AFork false _ _ _ _ :: r => if Nat.eqb k (created r) then pipefail_now r else pipefail_of r k
  | _ :: r => pipefail_of r k
  end.

Record sys := Sys { sh : jst; kq : list (Z * wst) }.
Definition init (m n p : bool) (cm : Z) : sys :=
  Sys (Jst [] None None 0 0 false false 0 0 m n p cm) [].

(** The kernel keeps one report for each child: the last one. *)
Definition push (pid : Z) (w : wst) (q : list (Z * wst)) : list (Z * wst) :=
  filter (fun e => negb (Z.eqb (fst e) pid)) q ++ [(pid, w)].
Definition with_raised (s : jst) : jst := with_sig s (held s) true.

Definition recorded (s : jst) (pid : Z) : Prop :=
  exists j, In j (jl s) /\ In pid (map p_pid (j_procs j)).
Definition unstarted (s : jst) (i : nat) : Prop :=
  exists j, get (jl s) i = Some j /\ f_started (j_fl j) = false.

(** One step.  A fork returns a pid that is not that of a living or unreported child;
    if [reuse] is false also not the pid of a process still in the job list.  A pipeline
    is continued only before its job is started (exec.c:141-167). *)
Inductive step (reuse : bool) (h : list act) : sys -> act -> sys -> Prop :=
| SFork s q cont xx bg pid cmd s' :
    ~ live h pid -> ~ In pid (map fst q) -> (reuse = true \/ ~ recorded s pid) ->
    (cont = true -> exists i, lastj s = Some i /\ unstarted s i) ->
    exchild_fork cont xx bg pid cmd s = Some s' ->
    step reuse h (Sys s q) (AFork cont xx bg pid cmd) (Sys s' q)
| SFail s q cont xx bg s' :
    (cont = true -> exists i, lastj s = Some i /\ unstarted s i) ->
    exchild_fail cont xx bg s = Some s' ->
    step reuse h (Sys s q) (AFail cont xx bg) (Sys s' q)
| SStart s q bg s' : exchild_start bg s = Some s' ->
    step reuse h (Sys s q) (AStart bg) (Sys s' q)
| SStartLast s q : step reuse h (Sys s q) AStartLast (Sys (startlast s) q)
| SWait s q i a : step reuse h (Sys s q) (AWait i a) (Sys (waitj_begin i a s) q)
| SIntr s q i : step reuse h (Sys s q) (AIntr i) (Sys (waitj_intr i s) q)
| SWaitEnd s q i a rv s' : waitj_end i a s = Some (rv, s') ->
    step reuse h (Sys s q) (AWaitEnd i a rv) (Sys s' q)
| SResume s q i bg s' : j_resume i bg s = Some s' ->
    step reuse h (Sys s q) (AResume i bg) (Sys s' q)
| SNotify s q : step reuse h (Sys s q) ANotify (Sys (j_notify s) q)
| SJobs s q w a b c : step reuse h (Sys s q) (AJobs w a b c) (Sys (j_jobs w a b c s) q)
| SAsync s q s' pid : j_async s = (s', pid) -> step reuse h (Sys s q) (AAsync pid) (Sys s' q)
| SOpts s q m n p : step reuse h (Sys s q) (AOpts m n p) (Sys (with_opts s m n p) q)
| SChild s q pid w : live h pid ->
    step reuse h (Sys s q) (AChild pid w) (Sys (with_raised s) (push pid w q))
| SSig s q order s' q' : raised s = true -> Permutation order q ->
    j_sigchld order s = (s', q') ->
    step reuse h (Sys s q) (ASig order) (Sys s' q').

Inductive reach (reuse : bool) : list act -> sys -> Prop :=
| RInit m n p cm : reach reuse [AOpts m n p] (init m n p cm)
| RStep h s a s' : reach reuse h s -> step reuse h s a s' -> reach reuse (a :: h) s'.

(** The status of a pipeline whose processes ended like [ws]. *)
Definition end_code (w : wst) : Z := match w with WExit n => n | WSig n => 128 + n | WStop _ => 0 end.
Definition pipeline_status (pipefail : bool) (ws : list wst) : Z :=
  if pipefail then last (filter (fun n => negb (Z.eqb n 0)) (map end_code ws)) 0
  else last (map end_code ws) 0.
(** [ws] are the endings of [pids]. *)
Definition endings (h : list act) (pids : list Z) (ws : list wst) : Prop :=
  Forall2 (fun pid w => outcome h pid = Some w /\ ended w) pids ws.

(** The shell's record of a process says that it ended like [w]. *)
Definition says (p : proc) (w : wst) : Prop := p_state p = wstate w /\ p_status p = Some w.

(** Listed jobs: those that have not been made zombies. *)
Definition listed (j : job) : Prop := f_zombie (j_fl j) = false.
