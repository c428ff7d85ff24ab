(** The ulimit command: c_ulimit.c.

    Simplified: evaluate() (c_ulimit.c:145) is an oracle on the text; that it may
    assign variables is not modelled.  getrlimit is taken to succeed.  What is
    printed is a list of lines: the name (with -a) and the value.  Error messages
    are left out.  ulimit is not a special builtin, so that bi_errorf comes back. *)
From Verif Require Import Base Num_model SimplifyPath_model Var_model Opt_model Ulimit_kernel.
Local Open Scope nat_scope.

(** c_ulimit.c:33-38 *)
Record lim := Lm { l_name : cstr; l_resource : resource; l_factor : Z; l_option : char }.
(** c_ulimit.c:46-58 *)
Definition limit_table : list lim :=
  [ Lm (L "time(cpu-seconds)") RCpu 1 "t"; Lm (L "file(blocks)") RFsize 512 "f"; Lm (L "coredump(blocks)") RCore 512 "c";
    Lm (L "data(kbytes)") RData 1024 "d"; Lm (L "stack(kbytes)") RStack 1024 "s"; Lm (L "lockedmem(kbytes)") RMemlock 1024 "l";
    Lm (L "memory(kbytes)") RRss 1024 "m"; Lm (L "nofiles(descriptors)") RNofile 1 "n"; Lm (L "processes") RNproc 1 "p" ].
(** c_ulimit.c:59 *)
Definition ulimit_options : cstr := L "HSat#f#c#d#s#l#m#n#p#".

(** a line of output: the name in the first column and the number; None: unlimited *)
Definition line := (option cstr * option Z)%type.
(** the bits of how, c_ulimit.c:30-31, 60 *)
Record how := Hw { h_soft : bool; h_hard : bool }.

Section Ulimit.
Variable eval : cstr -> option Z.
Variable allow : kernel.

(** c_ulimit.c:134-174 set_ulimit; None: it returns 1 *)
Definition set_ulimit (l : lim) (v : cstr) (h : how) (st : limits) : option limits :=
  let val :=
    if str_eqb v (L "unlimited") then Some rlim_infinity
    else match eval v with
         | None => None
         | Some rval =>
           if (rval =? 0)%Z && negb (isdigit (hd NUL v)) then None
           else Some ((rval * l_factor l) mod 18446744073709551616)%Z
         end in
  match val with
  | None => None
  | Some val =>
    let old := st (l_resource l) in
    let new := Rl (if h_soft h then val else rlim_cur old) (if h_hard h then val else rlim_max old) in
    if allow (l_resource l) old new then Some (set_limit st (l_resource l) new) else None
  end.
(** c_ulimit.c:176-193 print_ulimit; the number is converted to int64_t *)
Definition print_ulimit (l : lim) (h : how) (st : limits) : option Z :=
  let val := if h_soft h then rlim_cur (st (l_resource l)) else if h_hard h then rlim_max (st (l_resource l)) else 0%Z in
  if (val =? rlim_infinity)%Z then None
  else Some (let z := (val / l_factor l)%Z in if (z <? 9223372036854775808)%Z then z else (z - 18446744073709551616)%Z).

(** c_ulimit.c:64-80: the first pass; None in the result: return 1.
    Out of fuel: Ok None. *)
Fixpoint pass1 (fuel : nat) (wp : list cstr) (g : getopt) (h : how) (all : bool) : res (option (option (how * bool * getopt))) :=
  match fuel with
  | O => Ok None
  | S f =>
    do r <- ksh_getopt wp g ulimit_options ;
    let '(z, g) := r in
    if (z =? -1)%Z then Ok (Some (Some (h, all, g)))
    else if (z =? schar "H")%Z then pass1 f wp g (Hw false true) all
    else if (z =? schar "S")%Z then pass1 f wp g (Hw true false) all
    else if (z =? schar "a")%Z then pass1 f wp g h true
    else if (z =? schar "?")%Z then Ok (Some None)
    else pass1 f wp g h all
  end.
(** c_ulimit.c:98-99 *)
Definition find_limit (z : Z) : option lim := find (fun l => (schar (l_option l) =? z)%Z) limit_table.
(** c_ulimit.c:87-110: the second pass; the getopt structure in the result, None: return 1 *)
Fixpoint pass2 (fuel : nat) (wp : list cstr) (g : getopt) (h : how) (st : limits) (out : list line)
  : res (option (option getopt * limits * list line)) :=
  match fuel with
  | O => Ok None
  | S f =>
    do r <- ksh_getopt wp g ulimit_options ;
    let '(z, g) := r in
    if (z =? -1)%Z then Ok (Some (Some g, st, out))
    else if (z =? schar "a")%Z || (z =? schar "H")%Z || (z =? schar "S")%Z then pass2 f wp g h st out
    else if (z =? schar "?")%Z then Ok (Some (None, st, out))
    else
      match find_limit z with
      | None => Ok (Some (None, st, out))
      | Some l =>
        match optarg g with
        | Some v =>
          match set_ulimit l v h st with
          | Some st => pass2 f wp g h st out
          | None => Ok (Some (None, st, out))
          end
        | None => pass2 f wp g h st (out ++ [(None, print_ulimit l h st)])
        end
      end
  end.
(** c_ulimit.c:43-132 c_ulimit: the status, the limits, the output *)
Definition c_ulimit (fuel : nat) (wp : list cstr) (st : limits) : res (option (Z * limits * list line)) :=
  do r <- pass1 fuel wp (getopt_reset 0 false) (Hw true true) false ;
  match r with
  | None => Ok None
  | Some None => Ok (Some (1%Z, st, []))
  | Some (Some (h, all, g)) =>
    do a <- argv_at wp (optind g) ;
    match a with
    | Some _ => Ok (Some (1%Z, st, []))
    | None =>
      do r <- pass2 fuel wp (getopt_reset 0 false) h st [] ;
      match r with
      | None => Ok None
      | Some (None, st, out) => Ok (Some (1%Z, st, out))
      | Some (Some g, st, out) =>
        if all then Ok (Some (0%Z, st, out ++ map (fun l => (Some (l_name l), print_ulimit l h st)) limit_table))
        else if optind g =? 1 then
          match limit_table with
          | _ :: l :: _ =>
            do a <- argv_at wp (optind g) ;
            match a with
            | Some v => match set_ulimit l v h st with Some st => Ok (Some (0%Z, st, out)) | None => Ok (Some (1%Z, st, out)) end
            | None => Ok (Some (0%Z, st, out ++ [(None, print_ulimit l h st)]))
            end
          | _ => UB
          end
        else Ok (Some (0%Z, st, out))
      end
    end
  end.
End Ulimit.
