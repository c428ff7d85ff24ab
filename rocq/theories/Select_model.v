(** The select command: exec.c:275-318 (TSELECT in execute), do_selectargs, pr_menu,
    select_fmt_entry.

    Simplified: the variables are a state [St] with the functions of read (Read_model) and
    [value], str_val(global(name)), so that integer, read-only or exported variables are
    covered; the list of commands is the oracle [body], which may change the variables and
    read from the same input.  What the commands write is left out of the output.  The
    expansion of the words (eval) is not part of this; the words are [ap].  int is
    taken for Z: the number of words must be below 2^31 - 1. *)
From Verif Require Import Base Num_model SimplifyPath_model XString_model Read_model Columns_model Kill_model.
Local Open Scope Z_scope.

(** strtonum(s, 1, maxval, &errstr) of the C library: None if errstr is set *)
Definition strtonum_1 (s : cstr) (maxval : Z) : option Z :=
  if maxval <? 1 then None
  else let '(n, p) := strtol10 s in
    match s, p with
    | [], _ => None
    | _, _ :: _ => None
    | _, [] => if (1 <=? n) && (n <=? maxval) then Some n else None
    end.

(** exec.c:1293-1301 select_fmt_entry: "%*d) %s" into a buffer of [buflen] bytes *)
Definition select_fmt_entry (ap : list cstr) (num_width buflen : Z) (i : Z) : cstr :=
  firstn (Z.to_nat (buflen - 1)) (rpad num_width (dec (i + 1)) ++ L ") " ++ nth (Z.to_nat i) ap []).
(** exec.c:1323-1326: the length of the longest word *)
Definition nwidth (ap : list cstr) : Z :=
  fold_left (fun w s => let i := Z.of_nat (length s) in if w <? i then i else w) ap 0.
(** exec.c:1333-1334 *)
Definition dwidth (ap : list cstr) : Z := ndigits 10 (Z.of_nat (length ap)).
(** exec.c:1306-1343 pr_menu: the text *)
Definition pr_menu (x_cols : Z) (ap : list cstr) : cstr :=
  let mw := dwidth ap + nwidth ap + 2 in
  concat (map (fun r => r ++ ["010"%char])
    (print_columns x_cols (Z.of_nat (length ap)) mw true (select_fmt_entry ap (dwidth ap) (mw + 1)))).

Section Select.
Context {St : Type} (x_cols : Z) (ifs : St -> char -> bool) (assign : St -> cstr -> cstr -> option St) (value : St -> cstr -> cstr).

(** exec.c:1250-1282 do_selectargs: a word, NULL, or waiting for input *)
Inductive ask := AWord (w : cstr) (st : St) (rest : list rdev) | ANull (st : St) | AWait (st : St).
(** [Err]: the fuel is used up *)
Fixpoint do_selectargs (fuel : nat) (ap : list cstr) (print_menu : bool) (evs : list rdev) (st : St) : res (cstr * ask) :=
  match fuel with
  | O => Err
  | S f =>
    let t := (if print_menu || match value st (L "REPLY") with [] => true | _ => false end then pr_menu x_cols ap else [])
             ++ value st (L "PS3") in                                            (* 1268-1270 *)
    match c_read (ifs st) false false assign [L "REPLY"] evs st with             (* 1271 *)
    | Err => Err
    | UB => UB
    | Ok (RWait st) => Ok (t, AWait st)
    | Ok (RFailed st _) => Ok (t, ANull st)
    | Ok (RDone (S _) _ st _) => Ok (t, ANull st)
    | Ok (RDone O _ st rest) =>
      match value st (L "REPLY") with
      | [] => match do_selectargs f ap true rest st with Ok (t', r) => Ok (t ++ t', r) | Err => Err | UB => UB end
      | s => match strtonum_1 s (Z.of_nat (length ap)) with                       (* 1275-1278 *)
             | None => Ok (t, AWord [] st rest)
             | Some i => match nth_error ap (Z.to_nat (i - 1)) with Some w => Ok (t, AWord w st rest) | None => UB end
             end
      end
    end
  end.

(** how the commands end: to the end, by continue, break, or by something that leaves the
    loop as well (return, exit, an error, break or continue of an outer loop) *)
Inductive bout := BDone | BContinue | BBreak | BUnwind.
Context (body : St -> list rdev -> bout * St * list rdev) (name : cstr) (ap : list cstr).
Inductive sout := SEnd (st : St) | SBreak (st : St) (rest : list rdev) | SUnwind (st : St) | SWait (st : St).
(** exec.c:284-317: the loop; the status is 1 for [SEnd], 0 for [SBreak].  setstr of [name]
    unwinds if it fails (309-313) *)
Fixpoint select_loop (fuel : nat) (is_first : bool) (evs : list rdev) (st : St) : res (cstr * sout) :=
  match fuel with
  | O => Err
  | S f =>
    match do_selectargs (S (length evs)) ap is_first evs st with
    | Err => Err
    | UB => UB
    | Ok (t, AWait st) => Ok (t, SWait st)
    | Ok (t, ANull st) => Ok (t, SEnd st)
    | Ok (t, AWord w st rest) =>
      match assign st name w with
      | None => Ok (t, SUnwind st)
      | Some st =>
        let '(b, st, rest) := body st rest in
        match b with
        | BBreak => Ok (t, SBreak st rest)
        | BUnwind => Ok (t, SUnwind st)
        | BDone | BContinue =>
          match select_loop f false rest st with Ok (t', r) => Ok (t ++ t', r) | Err => Err | UB => UB end
        end
      end
    end
  end.
Definition select_cmd (fuel : nat) (evs : list rdev) (st : St) : res (cstr * sout) := select_loop fuel true evs st.
End Select.
