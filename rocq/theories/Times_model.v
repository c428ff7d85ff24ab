(** times and time: c_sh.c:682-793 p_tv, p_ts, c_times, timex, with the macros of sys/time.h.

    The clocks (clock_gettime, getrusage) are parameters; timex_hook, which takes the options of
    time off the words, is in Timehook_model: [posix] says whether -p was given, [args] whether a
    command was. *)
From Verif Require Import Base Num_model Printf_model.
Local Open Scope Z_scope.

(** struct timeval and struct timespec: seconds, and microseconds or nanoseconds *)
Record timev := Tv { tv_sec : Z; tv_frac : Z }.
(** sys/time.h timeradd (1000000), timersub (1000000), timespecsub (1000000000) *)
Definition tadd (unit : Z) (a b : timev) : timev :=
  let s := tv_sec a + tv_sec b in
  let u := tv_frac a + tv_frac b in
  if unit <=? u then Tv (s + 1) (u - unit) else Tv s u.
Definition tsub (unit : Z) (a b : timev) : timev :=
  let s := tv_sec a - tv_sec b in
  let u := tv_frac a - tv_frac b in
  if u <? 0 then Tv (s - 1) (u + unit) else Tv s u.
Definition timeradd := tadd 1000000.
Definition timersub := tsub 1000000.
Definition timespecsub := tsub 1000000000.
(** sys/time.h TIMEVAL_TO_TIMESPEC *)
Definition to_timespec (tv : timev) : timev := Tv (tv_sec tv) (tv_frac tv * 1000).

(** c_sh.c:692-706; C division truncates *)
Definition p_ts (posix : bool) (ts : timev) (width : Z) (prefix suffix : cstr) : res cstr :=
  if posix then printf (L "%s%*lld.%02ld%s") [AStr prefix; AInt width; ALong (tv_sec ts); ALong (Z.quot (tv_frac ts) 10000000); AStr suffix]
  else printf (L "%s%*lldm%02lld.%02lds%s")
         [AStr prefix; AInt width; ALong (Z.quot (tv_sec ts) 60); ALong (Z.rem (tv_sec ts) 60); ALong (Z.quot (tv_frac ts) 10000000); AStr suffix].
(** c_sh.c:682-690 *)
Definition p_tv (posix : bool) (tv : timev) (width : Z) (prefix suffix : cstr) : res cstr := p_ts posix (to_timespec tv) width prefix suffix.

(** struct rusage: ru_utime, ru_stime *)
Record rusage := Ru { ru_utime : timev; ru_stime : timev }.
Definition seq2 (a b : res cstr) : res cstr := match a, b with Ok x, Ok y => Ok (x ++ y) | Ok _, r => r | r, _ => r end.
(** c_sh.c:708-722 *)
Definition c_times (self children : rusage) : res cstr :=
  seq2 (p_tv false (ru_utime self) 0 [] (L " "))
  (seq2 (p_tv false (ru_stime self) 0 [] ["010"%char])
  (seq2 (p_tv false (ru_utime children) 0 [] (L " "))
        (p_tv false (ru_stime children) 0 [] ["010"%char]))).

(** c_sh.c:727-793 after the command: the clocks before ([ts0], [ru0], [cru0]) and after it
    ([ts1], [ru1]), and what j_wait counted for the command ([j_usr], [j_sys]) *)
Definition timex (args posix : bool) (ts0 ts1 : timev) (ru0 cru0 ru1 : rusage) (j_usr j_sys : timev) : res cstr :=
  let usr := if args then timeradd (timersub (ru_utime ru1) (ru_utime ru0)) j_usr else timeradd (ru_utime ru0) (ru_utime cru0) in
  let sys := if args then timeradd (timersub (ru_stime ru1) (ru_stime ru0)) j_sys else timeradd (ru_stime ru0) (ru_stime cru0) in
  seq2 (if args then
          if posix then p_ts true (timespecsub ts1 ts0) 5 (L "real ") ["010"%char] else p_ts false (timespecsub ts1 ts0) 5 [] (L " real ")
        else Ok [])
  (seq2 (if posix then p_tv true usr 5 (L "user ") ["010"%char] else p_tv false usr 5 [] (L " user "))
        (if posix then p_tv true sys 5 (L "sys  ") ["010"%char] else p_tv false sys 5 [] (L " system" ++ ["010"%char]))).
