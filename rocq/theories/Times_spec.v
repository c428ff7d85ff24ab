(** What times and time print: durations in nanoseconds, as text. *)
From Verif Require Import Base Num_spec.
Local Open Scope Z_scope.

(** a numeral without zeros before it; two digits *)
Definition numeral_of (ds : cstr) (n : Z) : Prop := denotes 10 ds n /\ canonical ds.
Definition two_digits (ds : cstr) (n : Z) : Prop := denotes 10 ds n /\ length ds = 2%nat.
(** right-justified *)
Definition right_in (w : nat) (s : cstr) : cstr := repeat " "%char (w - length s) ++ s.
(** a duration of [ns] nanoseconds, cut to hundredths of seconds: minutes and seconds, or
    (posix) seconds *)
Inductive prints (w : nat) (ns : Z) : bool -> cstr -> Prop :=
| Pr_minutes m s c dm ds dc : ns / 10000000 = (m * 60 + s) * 100 + c -> 0 <= s < 60 -> 0 <= c < 100 ->
    numeral_of dm m -> two_digits ds s -> two_digits dc c ->
    prints w ns false (right_in w dm ++ L "m" ++ ds ++ L "." ++ dc ++ L "s")
| Pr_seconds s c ds dc : ns / 10000000 = s * 100 + c -> 0 <= c < 100 -> numeral_of ds s -> two_digits dc c ->
    prints w ns true (right_in w ds ++ L "." ++ dc).
(** times: user and system time of the shell and of its children *)
Inductive times_text (u s cu cs : Z) : cstr -> Prop :=
| Tt a b c d : prints 0 u false a -> prints 0 s false b -> prints 0 cu false c -> prints 0 cs false d ->
    times_text u s cu cs (a ++ L " " ++ b ++ [NL] ++ c ++ L " " ++ d ++ [NL]).
(** time: the real time if a command was timed, user and system time *)
Inductive time_text : option Z -> Z -> Z -> bool -> cstr -> Prop :=
| Ti_command r u s a b c : prints 5 r false a -> prints 5 u false b -> prints 5 s false c ->
    time_text (Some r) u s false (a ++ L " real " ++ b ++ L " user " ++ c ++ L " system" ++ [NL])
| Ti_shell u s b c : prints 5 u false b -> prints 5 s false c -> time_text None u s false (b ++ L " user " ++ c ++ L " system" ++ [NL])
| Ti_posix r u s a b c : prints 5 r true a -> prints 5 u true b -> prints 5 s true c ->
    time_text (Some r) u s true (L "real " ++ a ++ [NL] ++ L "user " ++ b ++ [NL] ++ L "sys  " ++ c ++ [NL])
| Ti_posix_shell u s b c : prints 5 u true b -> prints 5 s true c -> time_text None u s true (L "user " ++ b ++ [NL] ++ L "sys  " ++ c ++ [NL]).
