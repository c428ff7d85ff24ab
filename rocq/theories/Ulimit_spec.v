(** What the ulimit command should do (ksh.1). *)
From Verif Require Import Base Opt_spec Ulimit_kernel.
Local Open Scope Z_scope.

(** the options, what they limit, in units of how many bytes (or seconds, or
    things), and the name of the limit *)
Definition documented_limits : list (char * resource * Z * cstr) :=
  [ ("t"%char, RCpu, 1, L "time(cpu-seconds)"); ("f"%char, RFsize, 512, L "file(blocks)"); ("c"%char, RCore, 512, L "coredump(blocks)");
    ("d"%char, RData, 1024, L "data(kbytes)"); ("s"%char, RStack, 1024, L "stack(kbytes)"); ("l"%char, RMemlock, 1024, L "lockedmem(kbytes)");
    ("m"%char, RRss, 1024, L "memory(kbytes)"); ("n"%char, RNofile, 1, L "nofiles(descriptors)"); ("p"%char, RNproc, 1, L "processes") ].
Definition option_string : cstr := L "HSat#f#c#d#s#l#m#n#p#".

(** which of the two limits is meant: the last of -H and -S decides *)
Inductive which := Both | Soft | Hard.
Inductive meant : list ev -> which -> Prop :=
| M_none evs : (forall b k a, ~ In (Opt b k "H" a) evs /\ ~ In (Opt b k "S" a) evs) -> meant evs Both
| M_hard e1 b k a e2 : (forall b k a, ~ In (Opt b k "S" a) e2) -> meant (e1 ++ Opt b k "H" a :: e2) Hard
| M_soft e1 b k a e2 : (forall b k a, ~ In (Opt b k "H" a) e2) -> meant (e1 ++ Opt b k "S" a :: e2) Soft.
Definition changed_limit (w : which) (old : rlimit) (v : Z) : rlimit :=
  match w with Both => Rl v v | Soft => Rl v (rlim_max old) | Hard => Rl (rlim_cur old) v end.

(** the limit shown: a number of units, rounded down; None: unlimited *)
Definition shown (w : which) (unit : Z) (l : rlimit) (x : option Z) : Prop :=
  exists v, v = (match w with Hard => rlim_max l | _ => rlim_cur l end) /\
    (v = rlim_infinity /\ x = None \/
     v <> rlim_infinity /\ exists n, x = Some n /\ n * unit <= v < (n + 1) * unit).

(** the limit that an argument asks for *)
Inductive amount (eval : cstr -> option Z) (unit : Z) : cstr -> option Z -> Prop :=
| A_unlimited : amount eval unit (L "unlimited") (Some rlim_infinity)
| A_number a n : a <> L "unlimited" -> eval a = Some n -> amount eval unit a (Some (n * unit))
| A_bad a : a <> L "unlimited" -> eval a = None -> amount eval unit a None.

(** carrying out options one after the other: the limits, the lines and whether
    all went well; the first failure ends it *)
Inductive carried (eval : cstr -> option Z) (allow : kernel) (w : which) : limits -> list ev -> limits -> list (option Z) -> bool -> Prop :=
| C_end st : carried eval allow w st [] st [] true
| C_flag st b k c a evs st' out ok : In c (L "HSa") -> carried eval allow w st evs st' out ok -> carried eval allow w st (Opt b k c a :: evs) st' out ok
| C_show st b k c r u nm evs st' x out ok : In (c, r, u, nm) documented_limits -> shown w u (st r) x ->
    carried eval allow w st evs st' out ok -> carried eval allow w st (Opt b k c None :: evs) st' (x :: out) ok
| C_set st b k c r u nm a v evs st' out ok : In (c, r, u, nm) documented_limits -> amount eval u a (Some v) ->
    allow r (st r) (changed_limit w (st r) v) = true ->
    carried eval allow w (set_limit st r (changed_limit w (st r) v)) evs st' out ok ->
    carried eval allow w st (Opt b k c (Some a) :: evs) st' out ok
| C_refused st b k c r u nm a v evs : In (c, r, u, nm) documented_limits -> amount eval u a (Some v) ->
    allow r (st r) (changed_limit w (st r) v) = false -> carried eval allow w st (Opt b k c (Some a) :: evs) st [] false
| C_bad st b k c r u nm a evs : In (c, r, u, nm) documented_limits -> amount eval u a None ->
    carried eval allow w st (Opt b k c (Some a) :: evs) st [] false.

(** a number that can be shown: below 2^63, or no limit *)
Definition plain_limit (v : Z) : Prop := 0 <= v < 9223372036854775808 \/ v = rlim_infinity.
Definition plain_limits (st : limits) : Prop := forall r, plain_limit (rlim_cur (st r)) /\ plain_limit (rlim_max (st r)).
