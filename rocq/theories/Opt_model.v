(** Option parsing: misc.c ksh_getopt, ksh_getopt_reset, c_ksh.c getopts_reset,
    c_getopts; the shell's options: misc.c sh_options, option, getoptions,
    change_flag, parse_args, edit.c set_editmode.

    Not modelled: the messages (warningf, bi_errorf: a special builtin of a
    non-interactive shell does not come back from them; nothing is changed after
    them); j_change and the system calls of change_flag, which touch no option. *)
From Verif Require Import Base Num_model SimplifyPath_model Var_model.
Local Open Scope nat_scope.

(** ** Reading argv: argv[argc] is NULL, what lies behind it must not be read;
    likewise a string and its NUL *)
Definition argv_at (argv : list cstr) (i : nat) : res (option cstr) :=
  if i <=? length argv then Ok (nth_error argv i) else UB.
Definition char_at (s : cstr) (p : nat) : res char :=
  if p <=? length s then Ok (nth p s NUL) else UB.
(** argv[i][p] *)
Definition argv_char (argv : list cstr) (i p : nat) : res char :=
  do a <- argv_at argv i ; match a with Some s => char_at s p | None => UB end.

(** sh.h:306-317 Getopt: flags is reduced to GF_PLUSOPT; buf is part of optarg *)
Record getopt := Go { optind : nat; uoptind : nat; optarg : option cstr; plusopt : bool;
                      g_plus : bool; g_mm : bool; g_p : nat }.
(** misc.c:847-856 ksh_getopt_reset (uoptind is left alone) *)
Definition getopt_reset (u : nat) (plus : bool) : getopt := Go 1 u None plus false false 0.

(** a char converted to int: char is signed on the systems the shell runs on *)
Definition schar (c : char) : Z := let z := ccode c in if (z <? 128)%Z then z else (z - 256)%Z.

(** misc.c:911-912 strchr(options, c): the text after the first c *)
Fixpoint after_chr (options : cstr) (c : char) : option cstr :=
  match options with [] => None | d :: o => if ceq d c then Some o else after_chr o c end.
(** digit, sh.h:293 and the word "unlimited", misc.c:961-962, 968-969 *)
Definition numeric (s : cstr) : bool :=
  match s with d :: _ => isdigit d || str_eqb s (L "unlimited") | [] => false end.

Definition with_p (g : getopt) (p : nat) : getopt := Go (optind g) (uoptind g) (optarg g) (plusopt g) (g_plus g) (g_mm g) p.
Definition with_arg (g : getopt) (a : option cstr) : getopt := Go (optind g) (uoptind g) a (plusopt g) (g_plus g) (g_mm g) (g_p g).
Definition with_ind (g : getopt) (i : nat) : getopt := Go i (uoptind g) (optarg g) (plusopt g) (g_plus g) (g_mm g) (g_p g).
Definition with_uind (g : getopt) (i : nat) : getopt := Go (optind g) i (optarg g) (plusopt g) (g_plus g) (g_mm g) (g_p g).

(** misc.c:913-923 and 938-948: the error results *)
Definition getopt_err (g : getopt) (options : cstr) (c r : char) : Z * getopt :=
  match options with
  | o :: _ => if ceq o ":" then (schar r, with_arg g (Some [c])) else (schar "?", g)
  | [] => (schar "?", g)
  end.

(** misc.c:910-976: the option character c has been found *)
Definition getopt_opt (argv : list cstr) (g : getopt) (options : cstr) (c : char) : res (Z * getopt) :=
  let g := with_p g (S (g_p g)) in
  match (if mem c (L "?:;,#") then None else after_chr options c) with
  | None => Ok (getopt_err g options c "?")
  | Some o =>
    let k := match o with d :: _ => d | [] => NUL end in
    let rest := do a <- argv_at argv (optind g - 1) ;
                match a with Some s => if g_p g <=? length s then Ok (skipn (g_p g) s) else UB | None => UB end in
    if ceq k ":" || ceq k ";" then
      do t <- rest ;
      match t with
      | _ :: _ => Ok (schar c, with_p (with_arg g (Some t)) 0)
      | [] =>
        do a <- argv_at argv (optind g) ;
        match a with
        | Some s => Ok (schar c, with_p (with_ind (with_arg g (Some s)) (S (optind g))) 0)
        | None => if ceq k ";" then Ok (schar c, with_p (with_arg g None) 0)
                  else Ok (getopt_err g options c ":")
        end
      end
    else if ceq k "," then
      do t <- rest ; Ok (schar c, with_p (with_arg g (Some t)) 0)
    else if ceq k "#" then
      do t <- rest ;
      match t with
      | _ :: _ => if numeric t then Ok (schar c, with_p (with_arg g (Some t)) 0) else Ok (schar c, with_arg g None)
      | [] =>
        do a <- argv_at argv (optind g) ;
        match a with
        | Some s => if numeric s then Ok (schar c, with_p (with_ind (with_arg g (Some s)) (S (optind g))) 0)
                    else Ok (schar c, with_arg g None)
        | None => Ok (schar c, with_arg g None)
        end
      end
    else Ok (schar c, g)
  end.

(** misc.c:890-908: the next argument *)
Definition getopt_next (argv : list cstr) (g : getopt) (options : cstr) : res (Z * getopt) :=
  do a <- argv_at argv (optind g) ;
  match a with
  | None => Ok ((-1)%Z, with_p g 0)
  | Some arg =>
    if str_eqb arg (L "--") then
      Ok ((-1)%Z, Go (S (optind g)) (uoptind g) (optarg g) (plusopt g) (g_plus g) true 0)
    else
      match arg with
      | f :: c :: _ =>
        if ceq f "-" || (plusopt g && ceq f "+") then
          getopt_opt argv (Go (S (optind g)) (uoptind g) (optarg g) (plusopt g) (negb (ceq f "-")) (g_mm g) 1) options c
        else Ok ((-1)%Z, with_p g 0)
      | _ => Ok ((-1)%Z, with_p g 0)
      end
  end.

(** misc.c:883-977 ksh_getopt *)
Definition ksh_getopt (argv : list cstr) (g : getopt) (options : cstr) : res (Z * getopt) :=
  if g_p g =? 0 then getopt_next argv g options
  else
    match optind g with
    | O => UB
    | S i => do c <- argv_char argv i (g_p g) ;
             if is_nul c then getopt_next argv g options else getopt_opt argv g options c
    end.

(** the loops around it, e.g. misc.c:375: what each call returned, up to -1.
    Out of fuel: None. *)
Record seen := Seen { s_ret : Z; s_plus : bool; s_arg : option cstr }.
Fixpoint getopt_loop (fuel : nat) (argv : list cstr) (g : getopt) (options : cstr) : res (option (list seen * getopt)) :=
  match fuel with
  | O => Ok None
  | S f =>
    do r <- ksh_getopt argv g options ;
    let '(z, g) := r in
    if (z =? -1)%Z then Ok (Some ([], g))
    else do l <- getopt_loop f argv g options ;
         Ok (match l with Some (l, g') => Some (Seen z (g_plus g) (optarg g) :: l, g') | None => None end)
  end.

(** ** getopts *)
(** c_ksh.c:1257-1265 getopts_reset, called when OPTIND is assigned and, with 1,
    when a function starts *)
Definition getopts_reset (g : getopt) (val : Z) (posix : bool) : getopt :=
  if (1 <=? val)%Z then let i := Z.to_nat val in with_ind (getopt_reset i (negb posix)) i else g.

(** what c_getopts does: an error message and status 1, or a value for the
    variable, one for OPTARG (None: unset) and a status; the state is user_opt *)
Inductive gres := GError | GSet (value : cstr) (arg : option cstr) (status : Z).
(** c_ksh.c:1303-1361, with the arguments wp already selected, wp[0] the name;
    setting the variables is modelled in Var_model *)
Definition c_getopts (g : getopt) (wp : list cstr) (options : cstr) : res (gres * getopt) :=
  let argc := length wp in
  if argc <? optind g then Ok (GError, g)
  else
    do long <- (if g_p g =? 0 then Ok false
                else match optind g with
                     | O => UB
                     | S i => do a <- argv_at wp i ;
                              match a with Some s => Ok (length s <? g_p g) | None => UB end
                     end) ;
    if (long : bool) then Ok (GError, g)
    else
      do r <- ksh_getopt wp (with_arg g None) options ;
      let '(z, g) := r in
      let buf := if (0 <=? z)%Z && negb (z =? schar "?")%Z && g_plus g then ["+"%char; ascii_of_N (Z.to_N z)]
                 else [if (z <? 0)%Z then "?"%char else ascii_of_N (Z.to_N z)] in
      let g := if (z =? schar "?")%Z then g else with_uind g (optind g) in
      Ok (GSet buf (optarg g) (if (z <? 0)%Z then 1%Z else 0%Z), g).

(** repeated getopts commands on the same arguments, up to one that fails *)
Fixpoint getopts_loop (fuel : nat) (g : getopt) (wp : list cstr) (options : cstr) : res (option (list gres * getopt)) :=
  match fuel with
  | O => Ok None
  | S f =>
    do r <- c_getopts g wp options ;
    match r with
    | (GSet v a 0%Z, g) => do l <- getopts_loop f g wp options ;
                           Ok (match l with Some (l, g') => Some (GSet v a 0%Z :: l, g') | None => None end)
    | (x, g) => Ok (Some ([x], g))
    end
  end.

(** a history of user_opt: OPTIND assigned, getopts run on any arguments, a
    function entered (exec.c:606-607) and left (var.c:97-98 popblock) *)
Inductive gop := GReset (val : Z) (posix : bool) | GGetopts (wp : list cstr) (options : cstr) | GCall (posix : bool) | GReturn.
Fixpoint gops (g : getopt) (saved : list getopt) (l : list gop) : res (getopt * list getopt) :=
  match l with
  | [] => Ok (g, saved)
  | GReset v px :: l' => gops (getopts_reset g v px) saved l'
  | GGetopts wp o :: l' => do r <- c_getopts g wp o ; gops (snd r) saved l'
  | GCall px :: l' => gops (getopts_reset g 1 px) (g :: saved) l'
  | GReturn :: l' => match saved with s :: saved' => gops s saved' l' | [] => gops g [] l' end
  end.

(** ** Options of the shell *)
(** sh.h:126-131 OF_* as booleans: allowed on the command line, in set *)
Record sh_option := Oo { o_name : option cstr; o_c : option char; o_cmdline : bool; o_set : bool }.
Definition named n c := Oo (Some (L n)) c true true.
Definition inv n c := Oo n c true false.
(** misc.c:122-173, with EMACS and VI *)
Definition sh_options : list sh_option :=
  [ named "allexport" (Some "a"%char); named "braceexpand" None; named "bgnice" None; inv None (Some "c"%char);
    named "csh-history" None; named "emacs" None; named "errexit" (Some "e"%char); named "gmacs" None;
    named "ignoreeof" None; inv (Some (L "interactive")) (Some "i"%char); named "keyword" (Some "k"%char);
    inv (Some (L "login")) (Some "l"%char); named "markdirs" (Some "X"%char); named "monitor" (Some "m"%char);
    named "noclobber" (Some "C"%char); named "noexec" (Some "n"%char); named "noglob" (Some "f"%char);
    named "nohup" None; named "nolog" None; named "notify" (Some "b"%char); named "nounset" (Some "u"%char);
    named "physical" None; named "pipefail" None; named "posix" None; named "privileged" (Some "p"%char);
    inv (Some (L "restricted")) (Some "r"%char); named "sh" None; inv (Some (L "stdin")) (Some "s"%char);
    named "trackall" (Some "h"%char); named "verbose" (Some "v"%char); named "vi" None; named "viraw" None;
    named "vi-show8" None; named "vi-tabcomplete" None; named "vi-esccomplete" None; named "xtrace" (Some "x"%char);
    Oo None None false false ].
(** sh.h:143-187 enum sh_flag: the ones used below *)
Definition FBRACEEXPAND := 1. Definition FEMACS := 5. Definition FGMACS := 7. Definition FTALKING := 9.
Definition FLOGIN := 11. Definition FMONITOR := 13. Definition FPOSIX := 23. Definition FVERBOSE := 29.
Definition FVI := 30. Definition FXTRACE := 35. Definition FTALKING_I := 36.

(** Flag(f), sh.h: shell_flags[] *)
Definition flags := nat -> Z.
Definition upd (fl : flags) (f : nat) (v : Z) : flags := fun g => if g =? f then v else fl g.

(** misc.c:178-188 option *)
Fixpoint option_from (l : list sh_option) (i : nat) (n : cstr) : option nat :=
  match l with
  | [] => None
  | o :: l' => match o_name o with
               | Some m => if str_eqb m n then Some i else option_from l' (S i) n
               | None => option_from l' (S i) n
               end
  end.
Definition option_ (n : cstr) : option nat := option_from sh_options 0 n.

(** who changes an option, sh.h:126-131 *)
Inductive what := OF_CMDLINE | OF_SET | OF_SPECIAL.
Definition allowed (w : what) (o : sh_option) : bool := match w with OF_CMDLINE => o_cmdline o | OF_SET => o_set o | OF_SPECIAL => true end.

(** misc.c:265-324 change_flag; [self]: procpid == kshpid *)
Definition change_flag (self : bool) (fl : flags) (f : nat) (w : what) (newval : Z) : flags :=
  let fl := upd fl f newval in
  let fl :=
    if f =? FMONITOR then fl
    else if (f =? FVI) || (f =? FEMACS) || (f =? FGMACS) then
      (if (newval =? 0)%Z then fl else upd (upd (upd (upd fl FVI 0) FGMACS 0) FEMACS 0) f newval)
    else if (f =? FPOSIX) && negb (newval =? 0)%Z then upd fl FBRACEEXPAND 0
    else fl in
  if (f =? FTALKING) && match w with OF_SPECIAL => false | _ => self end then upd fl FTALKING_I newval else fl.

(** misc.c:343-362: the option strings *)
Definition letters (w : what) : cstr :=
  flat_map (fun o => match o_c o with Some c => if allowed w o then [c] else [] | None => [] end) sh_options.
Definition opts_of (w : what) : cstr := match w with OF_CMDLINE => L "o:" ++ letters w | _ => L "A:o;s" ++ letters w end.

(** misc.c:419-425: the option with this letter *)
Fixpoint letter_from (l : list sh_option) (i : nat) (w : what) (z : Z) : option nat :=
  match l with
  | [] => None
  | o :: l' => match o_c o with
               | Some c => if (z =? schar c)%Z && allowed w o then Some i else letter_from l' (S i) w z
               | None => letter_from l' (S i) w z
               end
  end.

(** What parse_args leaves behind: the options, the arguments that were sorted or
    assigned to an array, and what it returns *)
Record pargs := Pa { pa_flags : flags; pa_sort : bool; pa_array : option (bool * cstr) }.
Inductive pstep := PGo (s : pargs) | PBad (s : pargs) | PInternal.
(** misc.c:376-430: one option *)
Definition parse_one (self : bool) (w : what) (s : pargs) (x : seen) : pstep :=
  let set := negb (s_plus x) in
  let v := if set then 1%Z else 0%Z in
  let fl := pa_flags s in
  let with_fl fl := Pa fl (pa_sort s) (pa_array s) in
  if (s_ret x =? schar "A")%Z then
    PGo (Pa fl (pa_sort s) (match s_arg x with Some a => Some (set, a) | None => None end))
  else if (s_ret x =? schar "o")%Z then
    match s_arg x with
    | None => PGo s
    | Some n => match option_ n with
                | Some i => if (v =? fl i)%Z then PGo s
                            else if match nth_error sh_options i with Some o => allowed w o | None => false end
                                 then PGo (with_fl (change_flag self fl i w v)) else PBad s
                | None => PBad s
                end
    end
  else if (s_ret x =? schar "?")%Z then PBad s
  else if match w with OF_SET => (s_ret x =? schar "s")%Z | _ => false end then PGo (Pa fl true (pa_array s))
  else match letter_from sh_options 0 w (s_ret x) with
       | Some i => PGo (with_fl (change_flag self fl i w v))
       | None => PInternal
       end.

(** misc.c:375-431: the loop.  Out of fuel: None. *)
Inductive pres := PEnd (s : pargs) (g : getopt) | PErr (s : pargs) | PInt.
Fixpoint parse_loop (fuel : nat) (self : bool) (w : what) (argv : list cstr) (s : pargs) (g : getopt) : res (option pres) :=
  match fuel with
  | O => Ok None
  | S f =>
    do r <- ksh_getopt argv g (opts_of w) ;
    let '(z, g) := r in
    if (z =? -1)%Z then Ok (Some (PEnd s g))
    else match parse_one self w s (Seen z (g_plus g) (optarg g)) with
         | PGo s => parse_loop f self w argv s g
         | PBad s => Ok (Some (PErr s))
         | PInternal => Ok (Some PInt)
         end
  end.

(** misc.c:329-463 parse_args: the options afterwards, -1 (None) or the index of
    the first operand and whether the positional parameters are to be set, and
    what is done with the operands (sorted, put into an array) *)
Record parsed := Pd { pd_flags : flags; pd_ret : option (nat * bool); pd_sort : bool; pd_array : option (bool * cstr) }.
Definition login_name (n : cstr) : bool :=
  match n with c :: _ => ceq c "-" | [] => false end ||
  (* strrchr(argv[0], '/') && *++p == '-' *)
  (fix go (s : cstr) (cur : bool) := match s with
     | [] => cur
     | c :: s' => if ceq c "/" then go s' (match s' with d :: _ => ceq d "-" | [] => false end) else go s' cur
     end) n false.
Definition parse_args (fuel : nat) (self : bool) (w : what) (fl : flags) (argv : list cstr) : res (option parsed) :=
  match argv with
  | [] => UB
  | name :: _ =>
    let fl := match w with OF_CMDLINE => upd fl FLOGIN (if login_name name then 1%Z else 0%Z) | _ => fl end in
    do r <- parse_loop fuel self w argv (Pa fl false None) (getopt_reset 0 true) ;
    match r with
    | None => Ok None
    | Some PInt => UB
    | Some (PErr s) => Ok (Some (Pd (pa_flags s) None (pa_sort s) (pa_array s)))
    | Some (PEnd s g) =>
      do a <- argv_at argv (optind g) ;
      let lone c := negb (g_mm g) && match a with Some x => str_eqb x [c] | None => false end in
      let fl := pa_flags s in
      let fl := if lone "-"%char && (fl FPOSIX =? 0)%Z then upd (upd fl FXTRACE 0) FVERBOSE 0 else fl in
      let i := if lone "-"%char || lone "+"%char then S (optind g) else optind g in
      do a <- argv_at argv i ;
      if match pa_array s with Some (_, n) => negb (is_name n) | None => false end
      then Ok (Some (Pd fl None (pa_sort s) (pa_array s)))
      else
      Ok (Some (Pd fl (Some (i, match pa_array s with None => g_mm g || match a with Some _ => true | None => false end
                                                    | Some _ => false end)) (pa_sort s) (pa_array s)))
    end
  end.

(** edit.c:213-234 set_editmode, called when EDITOR or VISUAL is assigned *)
Fixpoint basename_ (s cur : cstr) : cstr :=
  match s with [] => cur | c :: s' => if ceq c "/" then basename_ s' s' else basename_ s' cur end.
Fixpoint prefixb (p s : cstr) : bool :=
  match p, s with [], _ => true | c :: p', d :: s' => ceq c d && prefixb p' s' | _, [] => false end.
Fixpoint strstr (s p : cstr) : bool := prefixb p s || match s with [] => false | _ :: s' => strstr s' p end.
Definition set_editmode (self : bool) (fl : flags) (ed : cstr) : flags :=
  let ed := basename_ ed ed in
  if strstr ed (L "emacs") then change_flag self fl FEMACS OF_SPECIAL 1
  else if strstr ed (L "gmacs") then change_flag self fl FGMACS OF_SPECIAL 1
  else if strstr ed (L "vi") then change_flag self fl FVI OF_SPECIAL 1
  else fl.

(** misc.c:250-262 getoptions: $- *)
Fixpoint getoptions_from (l : list sh_option) (i : nat) (fl : flags) : cstr :=
  match l with
  | [] => []
  | o :: l' => match o_c o with
               | Some c => if (fl i =? 0)%Z then getoptions_from l' (S i) fl else c :: getoptions_from l' (S i) fl
               | None => getoptions_from l' (S i) fl
               end
  end.
Definition getoptions (fl : flags) : cstr := getoptions_from sh_options 0 fl.
