(** What the dispositions of the signals should be, and when traps are run. *)
From Coq Require Import ZArith List Bool.
From Verif Require Import Base Trap_model.
Import ListNotations.
Local Open Scope Z_scope.

(** ** Dispositions
    The life of one process, and of its ancestors back to the start of the shell *)
Inductive label :=
| LTrap (p : Z) (t : option text)            (* the trap command *)
| LSignal (p : Z)                            (* a signal arrives *)
| LErr                                       (* a command fails *)
| LTake (p : Z)                              (* its trap is run *)
| LSpecial (p : Z) (e : ent)                 (* something happens to EXIT or ERR *)
| LFlags (a b c : bool) | LExstat (v : Z) | LNote (e : event) | LCut | LErrexit (b : bool)
| LPrint                                     (* print -p: SIGPIPE is blocked and restored *)
| LChild (bg : bool).                        (* go on in a subshell; in the background *)
Definition act (s : st) (l : label) : st :=
  match l with
  | LTrap p t => settrap s p t
  | LSignal p => deliver s p
  | LErr => trapsig s SIGERR
  | LTake p => with_ent s p (set_pend (ents s p) false)
  | LSpecial p e => if (p =? SIGEXIT) || (p =? SIGERR) then with_ent s p e else s
  | LFlags a b c => with_flags s a b c
  | LExstat v => with_exstat s v
  | LNote e => note s e
  | LCut => with_cut s
  | LErrexit b => with_errexit s b
  | LPrint => let '(b, s) := block_pipe s in restore_pipe b s
  | LChild bg => child bg s
  end.
Definition acts (ls : list label) (s : st) : st := fold_left act ls s.

(** The trap settings in force: the action, whether the signal is ignored because the process
    runs in the background, whether the user has ever set the trap *)
Record setting := Setting { g_tr : Z -> option text; g_bg : Z -> bool; g_us : Z -> bool }.
Definition action (t : option text) : bool := match t with Some (_ :: _) => true | _ => false end.
Definition set1 (g : setting) (l : label) : setting :=
  match l with
  | LTrap p t => Setting (upd (g_tr g) p t) (upd (g_bg g) p false) (upd (g_us g) p true)
  | LChild bg => Setting (fun p => if action (g_tr g p) then None else g_tr g p)
                         (fun p => g_bg g p || bg && ((p =? SIGINT) || (p =? SIGQUIT))) (g_us g)
  | _ => g
  end.
Definition setting0 := Setting (fun _ => None) (fun _ => false) (fun _ => false).
Definition settings (ls : list label) : setting := fold_left set1 ls setting0.

(** the signals that the shell catches to clean up *)
Definition terminal (p : Z) : bool := (p =? SIGINT) || (p =? SIGQUIT) || (p =? SIGTERM) || (p =? SIGHUP).
(** [ign]: it stays ignored *)
Definition demanded (ign : bool) (p : Z) (t : option text) (b : bool) : hand :=
  if ign then HIgn
  else match t with
       | Some [] => HIgn
       | Some _ => HTrap
       | None => if b then HIgn else if terminal p then HTrap else HDfl
       end.
(** what a program finds *)
Definition wants (ign : bool) (t : option text) (b : bool) : hand :=
  if ign then HIgn else match t with Some [] => HIgn | Some _ => HDfl | None => if b then HIgn else HDfl end.
(** ignored at the start of the shell, and not changed by the user of an interactive shell *)
Definition stays (o : Z -> bool) (talk : bool) (g : setting) (p : Z) : bool := o p && (negb talk || negb (g_us g p)).
Definition is_sig (p : Z) : Prop := 0 < p < 65 /\ settable p = true.

(** the histories: no background process while INT or QUIT is trapped; an interactive shell
    has no children here *)
Fixpoint fine (talk : bool) (g : setting) (ls : list label) : Prop :=
  match ls with
  | [] => True
  | l :: ls =>
    match l with
    | LChild bg => talk = false /\ (bg = true -> action (g_tr g SIGINT) = false /\ action (g_tr g SIGQUIT) = false)
    | _ => True
    end /\ fine talk (set1 g l) ls
  end.

(** ** Running traps: properties of the log (latest first) *)
Definition of_sig (p : Z) (e : event) : bool := match e with Deliv q | Take q _ => q =? p | Set_ _ _ => false end.
Definition last_of (p : Z) (l : list event) : option event := find (of_sig p) l.
(** is [p] waiting: something has arrived since the last time it was taken *)
Definition waiting (p : Z) (l : list event) : bool := match last_of p l with Some (Deliv _) => true | _ => false end.
(** the action set last *)
Fixpoint in_force (p : Z) (l : list event) : option text :=
  match l with [] => None | Set_ q t :: l => if q =? p then t else in_force p l | _ :: l => in_force p l end.
(** each time that [p] is taken something has arrived since the last time, and the action is
    the one in force *)
Fixpoint orderly (p : Z) (l : list event) : Prop :=
  match l with
  | [] => True
  | Take q t :: l => (q = p -> waiting p l = true /\ t = in_force p l) /\ orderly p l
  | _ :: l => orderly p l
  end.
Definition takes (l : list event) : list Z := flat_map (fun e => match e with Take p _ => [p] | _ => [] end) (rev l).
Definition delivs (p : Z) (l : list event) : bool := existsb (fun e => match e with Deliv q => q =? p | _ => false end) l.
Definition state (r : res) : option st := match r with Fin s | Unw s | Gone s => Some s | NoFuel => None end.
(** each time that [p] is taken with an action, it is the one in force *)
Fixpoint faithful (p : Z) (l : list event) : Prop :=
  match l with
  | [] => True
  | Take q t :: l => (q = p -> t = None \/ t = in_force p l) /\ faithful p l
  | _ :: l => faithful p l
  end.
