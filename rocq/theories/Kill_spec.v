(** What kill and trap should do with the names and numbers of signals (ksh.1). *)
From Verif Require Import Base Num_spec Opt_spec Jobs_model Kill_model.
Local Open Scope Z_scope.

(** ** Signals *)
(** the names of the signals, and of the two conditions that only trap knows *)
Definition signals : list (Z * cstr) :=
  [ (0, L "EXIT"); (1, L "HUP"); (2, L "INT"); (3, L "QUIT"); (4, L "ILL"); (5, L "TRAP"); (6, L "ABRT"); (7, L "BUS"); (8, L "FPE");
    (9, L "KILL"); (10, L "USR1"); (11, L "SEGV"); (12, L "USR2"); (13, L "PIPE"); (14, L "ALRM"); (15, L "TERM"); (16, L "STKFLT");
    (17, L "CHLD"); (18, L "CONT"); (19, L "STOP"); (20, L "TSTP"); (21, L "TTIN"); (22, L "TTOU"); (23, L "URG"); (24, L "XCPU");
    (25, L "XFSZ"); (26, L "VTALRM"); (27, L "PROF"); (28, L "WINCH"); (29, L "IO"); (30, L "PWR"); (31, L "SYS"); (65, L "ERR") ].
(** other names of three of them *)
Definition synonyms : list (Z * cstr) := [ (6, L "IOT"); (29, L "POLL"); (17, L "CLD") ].

(** the same text, up to case if [ic] *)
Definition same_text (ic : bool) (a b : cstr) : Prop := if ic then map tolower a = map tolower b else a = b.
(** [w] stands for signal [n]: its number, or its name with or without SIG *)
Inductive stands (ic : bool) (w : cstr) (n : Z) : Prop :=
| St_number : denotes 10 w n -> n < 65 -> stands ic w n
| St_name nm : In (n, nm) signals -> same_text ic nm w -> stands ic w n
| St_sig nm : In (n, nm) signals -> same_text ic (L "SIG" ++ nm) w -> stands ic w n.

(** ** trap *)
(** the conditions, one after the other; the first that is none ends it *)
Inductive set_each (a : option cstr) : list cstr -> list (Z * option cstr) -> bool -> Prop :=
| SE_end : set_each a [] [] true
| SE_set w n ws l b : stands true w n -> set_each a ws l b -> set_each a (w :: ws) ((n, a) :: l) b
| SE_bad w ws : (forall n, ~ stands true w n) -> set_each a (w :: ws) [] false.
(** the operands of trap: conditions to be reset, or an action (or -) and conditions *)
Inductive trap_asks : list cstr -> list (Z * option cstr) -> bool -> Prop :=
| TA_reset w n ws l b : stands false w n -> set_each None (w :: ws) l b -> trap_asks (w :: ws) l b
| TA_dash ws l b : set_each None ws l b -> trap_asks (L "-" :: ws) l b
| TA_action w ws l b : (forall n, ~ stands false w n) -> w <> L "-" -> set_each (Some w) ws l b -> trap_asks (w :: ws) l b.
(** an action that trap can have been given *)
Definition action (t : cstr) : Prop := (forall n, ~ stands false t n) /\ t <> L "-".
(** the arguments without -- *)
Inductive operands_of : list cstr -> list cstr -> Prop :=
| Oo_dd ws : operands_of (L "--" :: ws) ws
| Oo_none : operands_of [] []
| Oo_plain w ws : ~ option_word false w -> w <> L "--" -> operands_of (w :: ws) (w :: ws).

(** ** kill: which job is meant *)
Definition contains (s t : cstr) : Prop := exists a b, t = a ++ s ++ b.
Inductive names_job (l : list job) : cstr -> job -> Prop :=
| NJ_percent j r : l = j :: r -> names_job l (L "%") j
| NJ_current c t j r : In c (L "%+") -> l = j :: r -> names_job l ("%"%char :: c :: t) j     (* %% and %+, whatever follows *)
| NJ_previous t j0 j r : l = j0 :: j :: r -> names_job l (L "%-" ++ t) j                      (* %-, whatever follows *)
| NJ_number ds n a j r : denotes 10 ds n -> 1 <= n < 2147483648 -> l = a ++ j :: r -> j_num j = n ->
    (forall k, In k a -> j_num k <> n) -> names_job l ("%"%char :: ds) j
| NJ_has s a j r ps p qs : l = a ++ j :: r -> j_procs j = ps ++ p :: qs -> contains s (p_cmd p) ->
    (forall k q, In k (a ++ r) -> In q (j_procs k) -> ~ contains s (p_cmd q)) ->
    (forall q, In q (ps ++ qs) -> ~ contains s (p_cmd q)) -> names_job l ("%"%char :: "?"%char :: s) j
| NJ_starts c s a j r : isdigit c = false -> ~ In c (L "%+-?") -> l = a ++ j :: r ->
    (exists p ps t, j_procs j = p :: ps /\ p_cmd p = (c :: s) ++ t) ->
    (forall k p ps t, In k (a ++ r) -> j_procs k = p :: ps -> p_cmd p <> (c :: s) ++ t) -> names_job l ("%"%char :: c :: s) j.

(** ** kill: what is sent *)
(** an integer as the C library reads it *)
Definition int_text (w : cstr) (n : Z) : Prop :=
  exists sp sg ds v, w = sp ++ sg ++ ds /\ (forall c, In c sp -> isspace c = true) /\ denotes 10 ds v /\
    ((sg = [] \/ sg = L "+") /\ n = v \/ sg = L "-" /\ n = - v) /\ -2147483648 < n < 2147483647.
(** the signals that one target asks for *)
Definition job_acts (j : job) (sig : Z) : list (act * bool) :=   (* true: a failure is a failure of kill *)
  if Z.eq_dec (j_pgrp j) 0 then map (fun p => (Kill (p_pid p) sig, true)) (filter (fun p => negb (p_pid p =? 0)) (j_procs j))
  else (match j_state j with
        | PStop => if in_dec Z.eq_dec sig [15; 1] then [(Killpg (j_pgrp j) 18, false)] else []
        | _ => [] end) ++ [(Killpg (j_pgrp j) sig, true)].
Inductive target (l : list job) (sig : Z) (w : cstr) : option (list (act * bool)) -> Prop :=
| Tg_process n : (forall t, w <> "%"%char :: t) -> int_text w n -> -1 <= n -> target l sig w (Some [(Kill n sig, true)])
| Tg_group n : (forall t, w <> "%"%char :: t) -> int_text w n -> n < -1 -> target l sig w (Some [(Killpg (- n) sig, true)])
| Tg_none : (forall t, w <> "%"%char :: t) -> (forall n, ~ int_text w n) -> target l sig w None
| Tg_job t j : w = "%"%char :: t -> names_job l w j -> target l sig w (Some (job_acts j sig))
| Tg_nojob t : w = "%"%char :: t -> (forall j, ~ names_job l w j) -> target l sig w None.
(** system calls one after the other: all are made; [b]: those that matter succeeded *)
Inductive made (ok : list act -> act -> bool) : list act -> list (act * bool) -> list act -> bool -> Prop :=
| Md_end h : made ok h [] h true
| Md_call h a m l h' b : made ok (h ++ [a]) l h' b -> made ok h ((a, m) :: l) h' (if m then ok h a && b else b).
Inductive sent (ok : list act -> act -> bool) (jobs : list act -> list job) (sig : Z) : list act -> list cstr -> list act -> bool -> Prop :=
| Sn_end h : sent ok jobs sig h [] h true
| Sn_target h w ws l h1 h2 b1 b2 : target (jobs h) sig w (Some l) -> made ok h l h1 b1 -> sent ok jobs sig h1 ws h2 b2 ->
    sent ok jobs sig h (w :: ws) h2 (b1 && b2)
| Sn_bad h w ws h2 b2 : target (jobs h) sig w None -> sent ok jobs sig h ws h2 b2 -> sent ok jobs sig h (w :: ws) h2 false.

(** ** kill: what the arguments ask for *)
Inductive wish := Send (sig : Z) (targets : list cstr) | Names (ps : list cstr) | Everything | Usage | Refused.
Inductive decided : Prop -> option Z -> list cstr -> wish -> Prop :=
| De_both (l : Prop) n ps : l -> decided l (Some n) ps Usage
| De_nothing (l : Prop) t : ~ l -> decided l t [] Usage
| De_names (l : Prop) p ps : l -> decided l None (p :: ps) (Names (p :: ps))
| De_all (l : Prop) : l -> decided l None [] Everything
| De_term (l : Prop) p ps : ~ l -> decided l None (p :: ps) (Send 15 (p :: ps))
| De_send (l : Prop) n p ps : ~ l -> decided l (Some n) (p :: ps) (Send n (p :: ps)).
(** the first argument is -number or -NAME *)
Definition old_style (args : list cstr) : Prop :=
  exists c t r, args = ("-"%char :: c :: t) :: r /\ (isdigit c = true \/ isupper c = true).
Definition bad_option (e : ev) : Prop :=
  match e with
  | Opt _ _ c (Some a) => c = "s"%char /\ forall n, ~ stands true a n
  | Opt _ _ _ None => False
  | _ => True
  end.
(** the signal of the last -s *)
Inductive chosen : list ev -> option Z -> Prop :=
| Ch_none evs : (forall b k a, ~ In (Opt b k "s" a) evs) -> chosen evs None
| Ch_some e1 b k a n e2 : stands true a n -> (forall b k a, ~ In (Opt b k "s" a) e2) -> chosen (e1 ++ Opt b k "s" (Some a) :: e2) (Some n).
Inductive asks : list cstr -> wish -> Prop :=
| As_old c t n r ps w : isdigit c = true \/ isupper c = true -> stands true (c :: t) n ->
    (r = L "--" :: ps \/ (forall x, r <> L "--" :: x) /\ ps = r) -> decided False (Some n) ps w -> asks (("-"%char :: c :: t) :: r) w
| As_old_bad c t r : isdigit c = true \/ isupper c = true -> (forall n, ~ stands true (c :: t) n) -> asks (("-"%char :: c :: t) :: r) Refused
| As_bad args evs rest mm : ~ old_style args -> scan (L "ls:") false None args evs rest mm -> Exists bad_option evs -> asks args Refused
| As_new args evs rest mm t w : ~ old_style args -> scan (L "ls:") false None args evs rest mm -> Forall (fun e => ~ bad_option e) evs ->
    chosen evs t -> decided (exists b k a, In (Opt b k "l" a) evs) t rest w -> asks args w.

(** ** kill -l *)
(** a decimal number without superfluous zeros *)
Definition decimal (s : cstr) (n : Z) : Prop :=
  0 <= n /\ denotes 10 s n /\ canonical s \/ n < 0 /\ exists t, s = "-"%char :: t /\ denotes 10 t (- n) /\ canonical t.
(** an exit status or a number is shown as the name of the signal, or as a number *)
Definition plain_number (n m : Z) : Prop := 128 < n < 193 /\ m = n - 128 \/ ~ 128 < n < 193 /\ m = n.
Inductive name_line (w : cstr) : cstr -> Prop :=
| NL_name n m nm : int_text w n -> plain_number n m -> 0 < m < 65 -> In (m, nm) signals -> name_line w nm
| NL_number n m s : int_text w n -> plain_number n m -> (forall nm, 0 < m < 65 -> ~ In (m, nm) signals) -> decimal s m -> name_line w s.
Inductive name_lines : list cstr -> cstr -> bool -> Prop :=
| Ns_end : name_lines [] [] true
| Ns_line w ws s out b : name_line w s -> name_lines ws out b -> name_lines (w :: ws) (s ++ [NL] ++ out) b
| Ns_bad w ws : (forall n, ~ int_text w n) -> name_lines (w :: ws) [] false.
(** one entry of the list: number, name (or number again), message *)
Definition entry (mess : Z -> cstr) (n : Z) (s : cstr) : Prop :=
  exists i j d nm, s = repeat SP i ++ d ++ L " " ++ repeat SP j ++ nm ++ L " " ++ mess n /\ decimal d n /\
    (In (n, nm) signals \/ (forall x, ~ In (n, x) signals) /\ nm = d).

(** all names, separated by blanks *)
Fixpoint spaced (l : list cstr) : cstr :=
  match l with [] => [] | [a] => a | a :: l => a ++ L " " ++ spaced l end.
(** what is left when kill has done what it was asked for; [listing]: what -l alone prints *)
Definition carried_out (ok : list act -> act -> bool) (jobs : list act -> list job) (listing : cstr) (w : wish) (k : kout) : Prop :=
  match w with
  | Send sig ts => exists h b, sent ok jobs sig [] ts h b /\ k = Ko (if b then 0 else 1) false [] h
  | Names ps => exists out b, name_lines ps out b /\ k = Ko (if b then 0 else 1) false out []
  | Everything => k = Ko 0 false listing []
  | Usage => k = Ko 1 true [] []
  | Refused => k = Ko 1 false [] []
  end.
