(** The options of time: c_sh.c timex_hook.

    The vector of words is a list of cells; the cell after the last word is NULL.
    [freed] lists the words given to afree.  errorf does not come back: its text is
    the outcome. *)
From Verif Require Import Base Num_model SimplifyPath_model Opt_model.
Local Open Scope nat_scope.

Inductive opts_out := OErr (text : cstr) | ODone (posix : bool) (g : getopt).
Inductive hook := HErr (text : cstr) | HOk (posix noargs : bool) (cells : list (option cstr)) (freed : list cstr).

(** "%s" of opt.optarg: NULL must not be printed *)
Definition optarg_text (g : getopt) : res cstr := match optarg g with Some a => Ok a | None => UB end.

(** c_sh.c:805-815: the loop over the options *)
Fixpoint hook_opts (fuel : nat) (wp : list cstr) (g : getopt) (posix : bool) : res (option opts_out) :=
  match fuel with
  | O => Ok None
  | S f =>
    do r <- ksh_getopt wp g (L ":p") ;
    let '(optc, g) := r in
    if (optc =? -1)%Z then Ok (Some (ODone posix g))
    else if (optc =? ccode "p")%Z then hook_opts f wp g true
    else if (optc =? ccode "?")%Z then do a <- optarg_text g ; Ok (Some (OErr (L "time: -" ++ a ++ L " unknown option")))
    else if (optc =? ccode ":")%Z then do a <- optarg_text g ; Ok (Some (OErr (L "time: -" ++ a ++ L " requires an argument")))
    else hook_opts f wp g posix
  end.

(** c_sh.c:818-819: the words before i are freed *)
Fixpoint free_words (n : nat) (cells : list (option cstr)) : res (list cstr) :=
  match n with
  | O => Ok []
  | S m => match cells with
           | Some w :: r => do l <- free_words m r ; Ok (w :: l)
           | _ => UB
           end
  end.
(** c_sh.c:820: for (i = 0, j = optind; (wp[i] = wp[j]); i++, j++) *)
Definition set_cell (cells : list (option cstr)) (i : nat) (x : option cstr) : list (option cstr) := firstn i cells ++ x :: skipn (S i) cells.
Fixpoint copy_down (fuel : nat) (cells : list (option cstr)) (i j : nat) : res (option (list (option cstr))) :=
  match fuel with
  | O => Ok None
  | S f =>
    match nth_error cells j with
    | None => UB
    | Some x => let cells := set_cell cells i x in
                match x with None => Ok (Some cells) | Some _ => copy_down f cells (S i) (S j) end
    end
  end.

(** c_sh.c:795-826 *)
Definition timex_hook (fuel : nat) (wp : list cstr) : res (option hook) :=
  let cells := map Some wp ++ [None] in
  do o <- hook_opts fuel wp (with_ind (getopt_reset 0 false) 0) false ;
  match o with
  | None => Ok None
  | Some (OErr t) => Ok (Some (HErr t))
  | Some (ODone posix g) =>
    let finish (cells : list (option cstr)) (freed : list cstr) :=
      match cells with
      | [] => UB
      | x :: _ => Ok (Some (HOk posix (match x with None => true | Some _ => false end) cells freed))
      end in
    if optind g =? 0 then finish cells []
    else do freed <- free_words (optind g) cells ;
         do c <- copy_down (S (length wp)) cells 0 (optind g) ;
         match c with None => Ok None | Some cells => finish cells freed end
  end.
