(** Printing the prompt: lex.c:1166-1175 special_prompt_expand, 1211-1501 dopprompt, 1503-1513 pprompt, promptlen.

    Simplifications: what time, host, terminal, user, version and numbers are is given (numbers as text); texts are shorter than
    the buffers of 1024 bytes (no cutting off in strlcpy, snprintf, strftime), localtime and gethostname succeed; the output is a text.
    The parameter and command substitution done by set_prompt is C23, C24, C27. *)
From Verif Require Import Base.

Record penv := PEnv {
  psh : bool;                       (* Flag(FSH) *)
  date : cstr -> cstr;              (* strftime now, of a format *)
  host : cstr; njobs : cstr; tty : option cstr; kname : cstr; root : bool; user : cstr; version : cstr;
  pwd : cstr; home : cstr; base : cstr -> cstr;
  hist_no : cstr;                   (* source->line + 1 *)
  cmd_no : cstr }.                  (* source->line - source->cmd_offset + 1 *)

(** lex.c:1166-1175; the search goes on behind the p *)
Fixpoint dollars (s : cstr) : cstr :=
  match s with
  | c :: ((d :: r) as r') => if ceq c "\" && ceq d "$" then c :: "p"%char :: dollars r else c :: dollars r'
  | _ => s
  end.

Definition octal (c : char) : bool := cbetween "0" "7" c.
Fixpoint until (c : char) (s : cstr) : cstr := match s with d :: r => if ceq c d then [] else d :: until c r | [] => [] end.
Fixpoint after (c : char) (s : cstr) : option cstr := match s with d :: r => if ceq c d then Some r else after c r | [] => None end.
Definition CR : char := "013".
Definition code (c : char) : N := (N_of_ascii c - 48)%N.
Fixpoint cut (p s : cstr) : option cstr := match p, s with [], _ => Some s | c :: p, d :: s => if ceq c d then cut p s else None | _, [] => None end.
(** lex.c:1380-1394 *)
Definition cwd (e : penv) : cstr :=
  if str_eqb (pwd e) (L "/") then pwd e
  else if str_eqb (pwd e) (home e) then L "~"
  else match cut (home e) (pwd e) with
       | Some (c :: r) => if ceq c "/" then L "~/" ++ r else pwd e
       | _ => pwd e
       end.
(** lex.c:1240-1446: the text for a backslash, a character and what follows, and the rest; None: a read beyond the string, or of
    a buffer that was not written *)
Definition expand (e : penv) (c : char) (r : cstr) : option (cstr * cstr) :=
  if psh e && negb (ceq c "h" || ceq c "p") then Some (["\"%char; c], r)
  else
    match c with
    | "a"%char => Some (["007"%char], r)
    | "d"%char => Some (date e (L "%a %b %d"), r)
    | "D"%char =>
        match r with
        | [] => None
        | d :: f => match after "}" f with
                    | Some r' => if ceq d "{" then Some (date e (until "}" f), r') else Some (L "\D", r)
                    | None => Some (L "\D", r)
                    end
        end
    | "e"%char => Some (["027"%char], r)
    | "h"%char => Some (until "." (host e), r)
    | "H"%char => Some (host e, r)
    | "j"%char => Some (njobs e, r)
    | "l"%char => match tty e with Some t => Some (base e t, r) | None => None end
    | "n"%char => Some ([NL], r)
    | "p"%char => Some (if root e then L "#" else L "$", r)
    | "r"%char => Some ([CR], r)
    | "s"%char => Some (kname e, r)
    | "t"%char => Some (date e (L "%T"), r)
    | "T"%char => Some (date e (L "%l:%M:%S"), r)
    | "@"%char => Some (date e (L "%r"), r)
    | "A"%char => Some (date e (L "%R"), r)
    | "u"%char => Some (user e, r)
    | "v"%char => match after " " (version e) with
                  | Some v => match after " " v with Some v => Some (until " " v, r) | None => None end
                  | None => None
                  end
    | "V"%char => Some (version e, r)
    | "w"%char => Some (cwd e, r)
    | "W"%char => Some (if str_eqb (pwd e) (home e) then L "~" else base e (pwd e), r)
    | "!"%char => Some (hist_no e, r)
    | "#"%char => Some (cmd_no e, r)
    | "\"%char => Some (L "\", r)
    | "["%char | "]"%char => Some ([], r)
    | _ =>
        if octal c then
          match r with
          | x :: y :: r' =>
              if octal x && octal y then
                let n := ((code c * 64 + code x * 8 + code y) mod 256)%N in Some (if (n =? 0)%N then [] else [ascii_of_N n], r')
              else Some (["\"%char; c], r)
          | _ => Some (["\"%char; c], r)
          end
        else Some (["\"%char; c], r)
    end.

(** totlen, indelimit, counting, ntruncate; what is printed; where sp points *)
Record pst := PSt { tot : nat; ind : bool; cnt : bool; trunc : nat; out : cstr; sp : cstr }.
(** lex.c:1226-1238 *)
Definition delimit (delim : option char) (c : char) (r : cstr) (st : pst) : bool * pst :=
  let is_d := match delim with Some d => ceq c d | None => false end in
  if ind st && negb is_d then (false, st)
  else if ceq c NL || ceq c CR then (false, PSt 0 (ind st) (cnt st) (trunc st) (out st) r)
  else if ceq c TAB then (false, PSt (if cnt st then Nat.lor (tot st) 7 + 1 else tot st) (ind st) (cnt st) (trunc st) (out st) (sp st))
  else if is_d then (true, PSt (tot st) (negb (ind st)) (cnt st) (trunc st) (out st) (sp st))
  else (false, st).
Definition counts (d : bool) (st : pst) : bool := cnt st && negb (ind st) && negb d.
(** lex.c:1449-1464, 1470-1486 *)
Definition put_text (v : cstr) (d : bool) (st : pst) : pst :=
  if Nat.ltb 0 (trunc st) && Nat.leb (length v) (trunc st) then PSt (tot st) (ind st) (cnt st) (trunc st - length v) (out st) (sp st)
  else let v := skipn (trunc st) v in
       PSt (if counts d st then tot st + length v else tot st) (ind st) (cnt st) 0 (out st ++ v) (sp st).
(** lex.c:1488-1494 *)
Definition put_char (c : char) (d : bool) (st : pst) : pst :=
  let t := if counts d st then tot st + 1 else tot st in
  if cnt st && Nat.ltb 0 (trunc st) then PSt t (ind st) (cnt st) (trunc st - 1) (out st) (sp st)
  else PSt t (ind st) (cnt st) (trunc st) (out st ++ [c]) (sp st).
(** lex.c:1305-1320, 1434-1441: what else these do *)
Definition effect (e : penv) (c : char) (r : cstr) (st : pst) : pst :=
  if psh e then st
  else if ceq c "n" || ceq c "r" then PSt 0 (ind st) (cnt st) (trunc st) (out st) r
  else if ceq c "[" then PSt (tot st) (ind st) false (trunc st) (out st) (sp st)
  else if ceq c "]" then PSt (tot st) (ind st) true (trunc st) (out st) (sp st)
  else st.
Fixpoint go (f : nat) (e : penv) (delim : option char) (st : pst) (s : cstr) : option pst :=
  match f, s with
  | _, [] => Some st
  | O, _ => None
  | S f, c :: r =>
      let (d, st) := delimit delim c r st in
      if ceq c "\" then
        match r with
        | [] => Some st
        | x :: r => match expand e x r with
                    | None => None
                    | Some (v, r') => go f e delim (put_text v d (effect e x r st)) r'
                    end
        end
      else if negb (ceq c "!") then go f e delim (put_char c d st) r
      else match r with
           | x :: r' => if ceq x "!" then go f e delim (put_char "!" d st) r' else go f e delim (put_text (hist_no e) d st) r
           | [] => go f e delim (put_text (hist_no e) d st) r
           end
  end.
Definition dopprompt (e : penv) (s : cstr) (n : nat) : option pst :=
  match s with
  | c :: x :: r => if ceq x CR then go (length s) e (Some c) (PSt 0 false true n [] s) r else go (length s) e None (PSt 0 false true n [] s) s
  | _ => go (length s) e None (PSt 0 false true n [] s) s
  end.
Definition pprompt (e : penv) (s : cstr) (n : nat) : option cstr := option_map out (dopprompt e s n).
(** The width, and what is printed again *)
Definition promptlen (e : penv) (s : cstr) : option (nat * cstr) := option_map (fun st => (tot st, sp st)) (dopprompt e s 0).
