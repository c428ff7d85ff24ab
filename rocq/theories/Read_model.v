(** read: c_sh.c:252-424 c_read, from the opened input to the variables.

    The options (-p -r -s -u) are parsed by ksh_getopt (Opt_model) and are parameters
    here: [expand] is 1 without -r, [savehist] is 1 with -s.  The descriptor, the prompts,
    shf_flush and coproc_read_close are not modelled.  The kernel and the signals are a
    list of events; a list that ends before the command does means that it is waiting. *)
From Verif Require Import Base Num_model SimplifyPath_model XString_model.
Local Open Scope nat_scope.

(** shf_getc returns a byte, EOF, or EOF with errno EINTR; for the latter the value of
    fatal_trap_check (trap.c:155-167) is part of the event (0: go on) *)
Inductive rdev := RByte (c : char) | REof | RIntr (code : nat).
(** c and ecode: nothing that ends the line, a newline, EOF *)
Inductive lastc := LChar | LNl | LEof (ecode : nat).

Section Read.
(** ctype(c, C_IFS), expand, savehist *)
Context (ifs : char -> bool) (expand savehist : bool).
(** ctype(c, C_IFSWS) (misc.c:59: initctypes) *)
Definition ifsws (c : char) : bool := mem c [" "; "009"; "010"]%char.

(** Xput after Xcheck for the history text *)
Definition hput (c : char) (xs : xstr) : res xstr :=
  if savehist then match xput c (xcheckn 1 xs) with Some xs => Ok xs | None => UB end else Ok xs.
(** Xput(cs, cp, c) *)
Definition cput (c : char) (cs : xstr) : res xstr := match xput c cs with Some cs => Ok cs | None => UB end.
Definition EOFBYTE : char := "255"%char.      (* EOF stored in a char *)

(** c_sh.c:336-389: the loop for one variable; [more] is wp[1] != NULL.  [FBlock]: waiting
    for input *)
Inductive fres := FStop (c : lastc) (cs xs : xstr) (evs : list rdev) | FBlock.
Fixpoint field (more : bool) (evs : list rdev) (expanding : bool) (cs xs : xstr) : res fres :=
  match evs with
  | [] => Ok FBlock
  | RIntr 0 :: evs => field more evs expanding cs xs                             (* 350-353 *)
  | RIntr code :: evs =>
    do xs' <- hput EOFBYTE xs ;
    Ok (FStop (LEof code) (xcheckn 1 cs) xs' evs)
  | REof :: evs =>
    do xs' <- hput EOFBYTE xs ;
    Ok (FStop (LEof 0) (xcheckn 1 cs) xs' evs)
  | RByte c :: evs =>
    if is_nul c then field more evs expanding cs xs                              (* 341-342 *)
    else
      do xs <- hput c xs ;
      let cs := xcheckn 1 cs in
      if expanding then                                                          (* 362-376 *)
        if ceq c "010" then field more evs false cs xs
        else do cs <- cput c cs ; field more evs false cs xs
      else if expand && ceq c "\" then field more evs true cs xs                 (* 377-380 *)
      else if ceq c "010" then Ok (FStop LNl cs xs evs)
      else if ifs c && (length (xtext cs) =? 0) && ifsws c then field more evs false cs xs
      else if ifs c && more then Ok (FStop LChar cs xs evs)
      else do cs <- cput c cs ; field more evs false cs xs
  end.

(** c_sh.c:391-394: the position after the white space at the end is stripped *)
Fixpoint strip (n : nat) (t : cstr) : nat :=
  match n with
  | O => O
  | S k => match nth_error t k with Some c => if ifs c && ifsws c then strip k t else n | None => n end
  end.

(** the variables: global and setstr, None when one is read only or cannot be set *)
Context {St : Type} (assign : St -> cstr -> cstr -> option St).
Inductive rres :=
| RDone (status : nat) (hist : option cstr) (st : St) (rest : list rdev)
| RFailed (st : St) (rest : list rdev)
| RWait (st : St).
(** c_sh.c:334-409: the variables.  [expanding] is 0 whenever a field ends, except at EOF,
    where no further byte is read *)
Fixpoint vars (wp : list cstr) (c : lastc) (evs : list rdev) (cs xs : xstr) (st : St) : res rres :=
  match wp with
  | [] =>
    let code := match c with LEof O => 1 | LEof e => e | _ => 0 end in           (* 423 *)
    if savehist then match xput NUL xs with Some xs => Ok (RDone code (Some (xtext xs)) st evs) | None => UB end
    else Ok (RDone code None st evs)
  | v :: wp' =>
    let more := match wp' with [] => false | _ => true end in
    let cs := xback 0 cs in
    do r <- match c with LChar => field more evs false cs xs | _ => Ok (FStop c cs xs evs) end ;
    match r with
    | FBlock => Ok (RWait st)
    | FStop c cs xs evs =>
      let cs := if more then cs else xback (strip (length (xtext cs)) (xtext cs)) cs in
      do cs' <- cput NUL cs ;
      match assign st v (xtext cs) with
      | None => Ok (RFailed st evs)
      | Some st => vars wp' c evs cs' xs st
      end
    end
  end.
(** c_sh.c:301-302, 329-332: without names, REPLY *)
Definition c_read (names : list cstr) (evs : list rdev) (st : St) : res rres :=
  vars (match names with [] => [L "REPLY"] | _ => names end) LChar evs (xinit 128) (xinit 128) st.
End Read.
