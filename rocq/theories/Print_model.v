(** print and echo: c_ksh.c:204-403 c_print.

    The environment is a parameter: whether the posix option is set, the descriptor
    of the coprocess ([None]: an error) and check_fd (io.c:315-347) for -u.  Messages,
    block_pipe and restore_pipe are not modelled; for print -s the text handed to
    histsave is returned. *)
From Verif Require Import Base Num_model SimplifyPath_model XString_model Opt_model.
Local Open Scope nat_scope.

Definition isoct (c : char) : bool := let z := ccode c in ((48 <=? z) && (z <=? 55))%Z.
Definition octval (c : char) : Z := (ccode c - 48)%Z.
(** an int stored in a char *)
Definition tochar (z : Z) : char := ascii_of_N (Z.to_N (z mod 256)).

(** c_ksh.c:311-350: what is done for the bytes of one argument.  [nl] is PO_NL, [ex]
    is PO_EXPAND.  Every byte starts with Xcheck; the result is the sequence of
    operations on the string and PO_NL afterwards. *)
Definition dop (os : list xop) (r : list xop * bool) : list xop * bool := (os ++ fst r, snd r).
Fixpoint put_arg (ex nl : bool) (s : cstr) : list xop * bool :=
  match s with
  | [] => ([], nl)
  | c :: s =>
    if ex && ceq c "\" then
      match s with
      | [] => ([XCheck 1; XPut "\"%char], nl)                        (* line 343 *)
      | e :: s =>
        let put z := dop [XCheck 1; XPut (tochar z)] (put_arg ex nl s) in
        if ceq e "a" then put 7%Z
        else if ceq e "b" then put 8%Z
        else if ceq e "c" then dop [XCheck 1] (put_arg ex false s)   (* line 323 *)
        else if ceq e "f" then put 12%Z
        else if ceq e "n" then put 10%Z
        else if ceq e "r" then put 13%Z
        else if ceq e "t" then put 9%Z
        else if ceq e "v" then put 11%Z
        else if ceq e "0" then                                       (* lines 330-342 *)
          match s with
          | d1 :: s1 =>
            if isoct d1 then
              match s1 with
              | d2 :: s2 =>
                if isoct d2 then
                  match s2 with
                  | d3 :: s3 =>
                    if isoct d3 then dop [XCheck 1; XPut (tochar (octval d1 * 64 + octval d2 * 8 + octval d3))] (put_arg ex nl s3)
                    else dop [XCheck 1; XPut (tochar (octval d1 * 8 + octval d2))] (put_arg ex nl s2)
                  | [] => dop [XCheck 1; XPut (tochar (octval d1 * 8 + octval d2))] (put_arg ex nl s2)
                  end
                else dop [XCheck 1; XPut (tochar (octval d1))] (put_arg ex nl s1)
              | [] => dop [XCheck 1; XPut (tochar (octval d1))] (put_arg ex nl s1)
              end
            else put 0%Z
          | [] => put 0%Z
          end
        else if ceq e "\" then dop [XCheck 1; XPut "\"%char] (put_arg ex nl s)
        else dop [XCheck 1; XPut "\"%char; XPut e] (put_arg ex nl s)
      end
    else dop [XCheck 1; XPut c] (put_arg ex nl s)
  end.

(** c_ksh.c:308-353: the arguments; no check before the space *)
Fixpoint put_args (ex nl : bool) (wp : list cstr) : list xop * bool :=
  match wp with
  | [] => ([], nl)
  | s :: wp' =>
    let '(os, nl) := put_arg ex nl s in
    dop (os ++ match wp' with [] => [] | _ => [XPut " "%char] end) (put_args ex nl wp')
  end.

(** c_ksh.c:306-355, 358: the string; [None] when a byte is stored outside it *)
Definition build (ex nl hist : bool) (wp : list cstr) : option cstr :=
  let '(os, nl) := put_args ex nl wp in
  match xrun (os ++ (if nl then [XPut "010"%char] else []) ++ if hist then [XPut NUL] else []) (xinit 128) with
  | Some x => Some (xtext x)
  | None => None
  end.

(** c_ksh.c:238-255: the options of echo.  [None]: a letter that is none *)
Fixpoint echo_word (s : cstr) (ex nl : bool) : option (bool * bool) :=
  match s with
  | [] => Some (ex, nl)
  | c :: s => if ceq c "n" then echo_word s ex false else if ceq c "e" then echo_word s true nl
              else if ceq c "E" then echo_word s false nl else None
  end.
Fixpoint echo_opts (wp : list cstr) (ex nl : bool) : bool * bool * list cstr :=
  match wp with
  | (d :: c :: s) :: wp' =>
    if ceq d "-" then match echo_word (c :: s) ex nl with Some (ex, nl) => echo_opts wp' ex nl | None => (ex, nl, wp) end
    else (ex, nl, wp)
  | _ => (ex, nl, wp)
  end.

(** the flags of print and the descriptor *)
Record pflags := PF { p_ex : bool; p_nl : bool; p_mm : bool; p_hist : bool; p_fd : nat }.
Definition pf0 : pflags := PF true true false false 1.

Section Env.
Context (posix : bool) (coproc_fd : option nat) (check_fd : cstr -> option nat).

(** c_ksh.c:261-295: one option; [None]: print returns 1 *)
Definition print_opt (f : pflags) (options : cstr) (optc : Z) (arg : option cstr) : res (option (pflags * cstr)) :=
  if (optc =? ccode "R")%Z then Ok (Some (PF false (p_nl f) true (p_hist f) (p_fd f), L "ne"))
  else if (optc =? ccode "e")%Z then Ok (Some (PF true (p_nl f) (p_mm f) (p_hist f) (p_fd f), options))
  else if (optc =? ccode "n")%Z then Ok (Some (PF (p_ex f) false (p_mm f) (p_hist f) (p_fd f), options))
  else if (optc =? ccode "p")%Z then
    Ok (match coproc_fd with Some fd => Some (PF (p_ex f) (p_nl f) (p_mm f) (p_hist f) fd, options) | None => None end)
  else if (optc =? ccode "r")%Z then Ok (Some (PF false (p_nl f) (p_mm f) (p_hist f) (p_fd f), options))
  else if (optc =? ccode "s")%Z then Ok (Some (PF (p_ex f) (p_nl f) (p_mm f) true (p_fd f), options))
  else if (optc =? ccode "u")%Z then
    match arg with
    | None => UB                                                    (* *NULL *)
    | Some [] => Ok (Some (PF (p_ex f) (p_nl f) (p_mm f) (p_hist f) 0, options))
    | Some s => Ok (match check_fd s with Some fd => Some (PF (p_ex f) (p_nl f) (p_mm f) (p_hist f) fd, options) | None => None end)
    end
  else if (optc =? ccode "?")%Z then Ok None
  else Ok (Some (f, options)).

(** c_ksh.c:260-295; fuel as an explicit outcome *)
Inductive ores := OEnd (f : pflags) (g : getopt) | OStop | OFuel.
Fixpoint print_opts (fuel : nat) (argv : list cstr) (g : getopt) (options : cstr) (f : pflags) : res ores :=
  match fuel with
  | O => Ok OFuel
  | S n =>
    do r <- ksh_getopt argv g options ;
    let '(z, g) := r in
    if (z =? -1)%Z then Ok (OEnd f g)
    else do o <- print_opt f options z (optarg g) ;
         match o with None => Ok OStop | Some (f, options) => print_opts n argv g options f end
  end.

(** a buffer as a C string *)
Fixpoint cut_nul (t : cstr) : cstr := match t with [] => [] | c :: t => if is_nul c then [] else c :: cut_nul t end.
(** what print does before writing *)
Inductive pres := PFail | PHist (text : cstr) | PWrite (fd : nat) (text : cstr) | PFuel.
Definition output (f : pflags) (wp : list cstr) : res pres :=
  match build (p_ex f) (p_nl f) (p_hist f) wp with
  | None => UB
  | Some t => Ok (if p_hist f then PHist (cut_nul t) else PWrite (p_fd f) t)
  end.
(** c_ksh.c:219-355, up to the writing *)
Definition c_print (fuel : nat) (wp : list cstr) : res pres :=
  match wp with
  | (c :: _) :: args =>
    if ceq c "e" then
      let '(ex, nl, args) :=
        if posix then match args with a :: args' => if str_eqb a (L "-n") then (true, false, args') else (true, true, args) | [] => (true, true, []) end
        else echo_opts args true true in
      output (PF ex nl false false 1) args
    else
      do r <- print_opts fuel wp (getopt_reset 0 false) (L "Rnprsu,") pf0 ;
      match r with
      | OFuel => Ok PFuel
      | OStop => Ok PFail
      | OEnd f g =>
        do a <- argv_at wp (optind g) ;
        let i := if g_mm g then (if p_mm f then optind g - 1 else optind g)
                 else match a with Some s => if str_eqb s (L "-") then S (optind g) else optind g | None => optind g end in
        output f (skipn i wp)
      end
  | _ => UB
  end.
End Env.

(** ** Writing: c_ksh.c:375-397 *)
(** the results of the system call: bytes written, interrupted (intrcheck comes back
    or leaves the loop, e.g. for a trap), another error *)
Inductive wev := WDone (n : nat) | WIntr (goes_on : bool) | WErr.
Inductive wres := WOk (sent : cstr) | WFail (sent : cstr) | WLeft (sent : cstr) | WBlocked (sent : cstr).
Fixpoint write_all (evs : list wev) (s : cstr) (sent : cstr) : wres :=
  match s with
  | [] => WOk sent
  | _ =>
    match evs with
    | [] => WBlocked sent
    | WDone n :: evs => write_all evs (skipn n s) (sent ++ firstn n s)
    | WIntr true :: evs => write_all evs s sent
    | WIntr false :: _ => WLeft sent
    | WErr :: _ => WFail sent
    end
  end.
