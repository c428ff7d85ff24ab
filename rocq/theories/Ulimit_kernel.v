(** Resource limits as the kernel keeps them: getrlimit(2) and setrlimit(2). *)
From Verif Require Import Base.
Local Open Scope Z_scope.

Inductive resource := RCpu | RFsize | RCore | RData | RStack | RMemlock | RRss | RNofile | RNproc.
Definition resource_eqb (a b : resource) : bool :=
  match a, b with
  | RCpu, RCpu | RFsize, RFsize | RCore, RCore | RData, RData | RStack, RStack
  | RMemlock, RMemlock | RRss, RRss | RNofile, RNofile | RNproc, RNproc => true
  | _, _ => false
  end.
(** struct rlimit; rlim_t is an unsigned type of 64 bits *)
Record rlimit := Rl { rlim_cur : Z; rlim_max : Z }.
Definition rlim_infinity : Z := 18446744073709551615.
(** the limits of the process *)
Definition limits := resource -> rlimit.
Definition set_limit (st : limits) (r : resource) (l : rlimit) : limits := fun x => if resource_eqb x r then l else st x.
(** whether setrlimit succeeds, given the old and the new limit *)
Definition kernel := resource -> rlimit -> rlimit -> bool.
