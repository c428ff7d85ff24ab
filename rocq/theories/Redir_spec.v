(** What redirections do to the descriptors 0 to 9, without any saving and restoring. *)
From Coq Require Import ZArith List Bool.
From Verif Require Import Redir_model.
Import ListNotations.
Local Open Scope Z_scope.

Definition user (i : Z) : Prop := 0 <= i < 10.
(** the open file of a descriptor *)
Definition file (s : st) (i : Z) : option Z := option_map fst (tab s i).
(** the descriptors of the coprocess *)
Definition cop (s : st) (i : Z) : Prop := 0 <= i /\ (i = cr s \/ i = crw s \/ i = cw s).
(** the state seen from outside: the files of 0..9, the files of the coprocess (read, write),
    what the kernel will answer *)
Record view := View { vu : Z -> option Z; vr : option Z; vw : option Z; vo : list (option Z) }.
Definition look (s : st) : view :=
  View (file s) (if cr s <? 0 then None else file s (cr s)) (if cw s <? 0 then None else file s (cw s)) (orc s).

Definition suffix {A} (l' l : list A) : Prop := exists p, l = p ++ l'.
(** nothing changes but what the kernel has been asked *)
Definition quiet (A A' : view) : Prop := (forall i, user i -> vu A' i = vu A i) /\ vr A' = vr A /\ vw A' = vw A /\ suffix (vo A') (vo A).
(** nothing that can be seen changes *)
Definition same (A A' : view) : Prop := (forall i, user i -> vu A' i = vu A i) /\ vr A' = vr A /\ vw A' = vw A /\ vo A' = vo A.
(** an open() *)
Definition opened (A : view) (f : option Z) (A' : view) : Prop := quiet A A' /\
  match f with Some _ => vo A = f :: vo A' | None => vo A = vo A' \/ exists x, vo A = x :: vo A' end.
(** the descriptor [u] becomes [f] *)
Definition put (A : view) (u : Z) (f : option Z) (A' : view) : Prop :=
  (forall i, user i -> vu A' i = if i =? u then f else vu A i) /\ vr A' = vr A /\ vw A' = vw A /\ vo A' = vo A.
(** the set of the touched descriptors *)
Definition touch (T : Z -> bool) (u : Z) (T' : Z -> bool) : Prop := forall i, T' i = (i =? u) || T i.

Definition werr (w : work) : bool := let '(Work _ e) := w in e.
Definition io_work (i : io) : work := match i with IoOpen _ w | IoHere _ w | IoDup _ _ w _ | IoClose _ w | IoBad w => w end.
Definition source (A : view) (rd : bool) (src : dsrc) : option Z :=
  match src with Digit d => vu A d | Coproc => if rd then vr A else vw A end.
(** exec with <&p or >&p: the shell has no use for the coprocess any more *)
Definition forget (isexec rd : bool) (src : dsrc) (A A' : view) : Prop :=
  (forall i, user i -> vu A' i = vu A i) /\ vo A' = vo A /\
  match isexec, src with
  | true, Coproc => if rd then vr A' = None /\ vw A' = vw A else vr A' = vr A /\ vw A' = None
  | _, _ => vr A' = vr A /\ vw A' = vw A
  end.

(** one redirection *)
Inductive rstep (isexec : bool) : io -> view -> (Z -> bool) -> out -> view -> (Z -> bool) -> Prop :=
| R_err i A T A' : (forall u w, i <> IoHere u w) -> werr (io_work i) = true -> quiet A A' -> rstep isexec i A T Abort A' T
| R_open u w A T A1 f A2 A' T' : werr w = false -> quiet A A1 -> opened A1 (Some f) A2 -> put A2 u (Some f) A' -> touch T u T' ->
    rstep isexec (IoOpen u w) A T Done A' T'
| R_open_fail u w A T A1 A' : werr w = false -> quiet A A1 -> opened A1 None A' -> rstep isexec (IoOpen u w) A T Failed A' T
| R_here u w A T t A1 f A2 A3 A' T' : opened A (Some t) A1 -> opened A1 (Some f) A2 -> werr w = false -> quiet A2 A3 -> put A3 u (Some f) A' -> touch T u T' ->
    rstep isexec (IoHere u w) A T Done A' T'
| R_here_err u w A T t A1 f A2 A' : opened A (Some t) A1 -> opened A1 (Some f) A2 -> werr w = true -> quiet A2 A' ->
    rstep isexec (IoHere u w) A T Failed A' T
| R_here_fail u w A T A1 A' : (A1 = A \/ exists t, opened A (Some t) A1) -> opened A1 None A' -> rstep isexec (IoHere u w) A T Failed A' T
| R_dup u rd w src A T A1 f A2 A' T' : werr w = false -> quiet A A1 -> src <> Digit u -> source A1 rd src = Some f -> put A1 u (Some f) A2 ->
    forget isexec rd src A2 A' -> touch T u T' -> rstep isexec (IoDup u rd w src) A T Done A' T'
| R_dup_self u rd w A T A' f : werr w = false -> quiet A A' -> vu A' u = Some f -> rstep isexec (IoDup u rd w (Digit u)) A T Done A' T
| R_dup_fail u rd w src A T A' : werr w = false -> quiet A A' -> source A' rd src = None -> rstep isexec (IoDup u rd w src) A T Failed A' T
| R_close u w A T A1 A' T' : werr w = false -> quiet A A1 -> put A1 u None A' -> touch T u T' -> rstep isexec (IoClose u w) A T Done A' T'
| R_bad w A T A' : werr w = false -> quiet A A' -> rstep isexec (IoBad w) A T Failed A' T.

(** a list of redirections: up to the first one that fails *)
Inductive rsteps (isexec : bool) : list io -> view -> (Z -> bool) -> out -> view -> (Z -> bool) -> Prop :=
| Rs_nil A T : rsteps isexec [] A T Done A T
| Rs_cons i l A T A1 T1 o A' T' : rstep isexec i A T Done A1 T1 -> rsteps isexec l A1 T1 o A' T' -> rsteps isexec (i :: l) A T o A' T'
| Rs_stop i l A T o A' T' : rstep isexec i A T o A' T' -> o <> Done -> rsteps isexec (i :: l) A T o A' T'.

(** the touched descriptors become what they were *)
Definition undo (A : view) (T : Z -> bool) (A1 A' : view) : Prop :=
  (forall i, user i -> vu A' i = if T i then vu A i else vu A1 i) /\ vr A' = vr A1 /\ vw A' = vw A1 /\ vo A' = vo A1.
Definition none : Z -> bool := fun _ => false.

(** commands: only exec keeps its redirections *)
Inductive sem : cmd -> view -> out -> view -> Prop :=
| S_skip A : sem Skip A Done A
| S_simple rs sp fo fa A A1 T A2 A' : rsteps false rs A none Done A1 T -> quiet A1 A2 -> undo A T A2 A' ->
    sem (Simple rs sp fo fa) A (if negb fo && fa then Abort else Done) A'
| S_simple_stop rs sp fo fa A A1 T A' o : rsteps false rs A none o A1 T -> o <> Done -> undo A T A1 A' ->
    sem (Simple rs sp fo fa) A (if sp then Abort else o) A'
| S_exec rs A A1 A' T : rsteps true rs A none Done A1 T -> same A1 A' -> sem (Exec rs) A Done A'
| S_exec_stop rs A A1 T A' o : rsteps true rs A none o A1 T -> o <> Done -> undo A T A1 A' -> sem (Exec rs) A o A'
| S_group rs c A A1 T o A2 A' : rsteps false rs A none Done A1 T -> sem c A1 o A2 -> undo A T A2 A' -> sem (Group rs c) A o A'
| S_group_stop rs c A A1 T A' o : rsteps false rs A none o A1 T -> o <> Done -> undo A T A1 A' -> sem (Group rs c) A o A'
| S_seq c1 c2 A o A1 o' A' : sem c1 A o A1 -> o = Done \/ o = Failed -> sem c2 A1 o' A' -> sem (Seq c1 c2) A o' A'
| S_seq_stop c1 c2 A A' : sem c1 A Abort A' -> sem (Seq c1 c2) A Abort A'
| S_expand w A A' : quiet A A' -> sem (Expand w) A (if werr w then Abort else Done) A'
| S_pipe n A A' : quiet A A' -> sem (Pipe n) A Done A'
| S_catch c A o A' : sem c A o A' -> sem (Catch c) A (match o with Abort => Done | o => o end) A'
| S_dot_fail c A A' : opened A None A' -> sem (Dot c) A Failed A'
| S_dot c A f A1 o A2 A' : opened A (Some f) A1 -> sem c A1 o A2 -> same A2 A' -> sem (Dot c) A (match o with Abort => Done | o => o end) A'.

(** Well-formed: units are single digits (lex.c), ulimit -n is not used *)
Definition io_ok (i : io) : Prop := match i with
  | IoOpen u _ | IoHere u _ | IoClose u _ => user u
  | IoDup u _ _ src => user u /\ match src with Digit d => user d | Coproc => True end
  | IoBad _ => True end.
Fixpoint cmd_ok (c : cmd) : Prop := match c with
  | Simple rs _ _ _ | Exec rs => Forall io_ok rs
  | Group rs c => Forall io_ok rs /\ cmd_ok c
  | Seq a b => cmd_ok a /\ cmd_ok b
  | Catch c | Dot c => cmd_ok c
  | Ulimit _ => False
  | _ => True end.
Fixpoint no_exec (c : cmd) : Prop := match c with
  | Exec _ => False
  | Group _ c | Catch c | Dot c => no_exec c
  | Seq a b => no_exec a /\ no_exec b
  | _ => True end.

(** The state is in order: the descriptors of the coprocess are open, different, and in shell
    space; there can be descriptors in shell space, and they fit into a short *)
Record good (s : st) : Prop := {
  g_lim : 10 < lim s <= 32768;
  g_neg : forall i, i < 0 -> tab s i = None;
  g_cop : forall i, cop s i -> 10 <= i /\ tab s i <> None;
  g_dist : (0 <= cr s -> cr s <> crw s /\ cr s <> cw s) /\ (0 <= crw s -> crw s <> cw s)
}.
(** The shell's own descriptors: the same as before, unless a descriptor of the coprocess has
    been given up *)
Definition private_kept (s s' : st) : Prop := forall i, 10 <= i -> tab s' i = tab s i \/ cop s i /\ tab s' i = None /\ ~ cop s' i.
