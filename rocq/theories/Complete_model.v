(** Completion of words: edit.c:584-750 x_locate_word, x_try_array, x_cf_glob, 752-789 add_glob, 824-855 x_basename.
    What is done with the words is in [Emacs_model] (do_complete, x_escape, x_longest_prefix).

    Simplifications: x_command_glob and x_file_glob, which look up names, are given; so are the arrays
    complete_NAME_N and complete_NAME (None: not an array that is set), named by NAME and N; line lengths are ints. *)
From Verif Require Import Base.

(** edit.c:584-585 with misc.c:55 *)
Definition word_char (c : char) : bool := negb (ceq c NUL || mem c ([SP; TAB; NL] ++ L "|&;<>()" ++ ["'"%char; """"%char; "`"%char; "="%char; ":"%char])).
(** edit.c:602-608; None: outside of the line *)
Fixpoint back (buf : cstr) (start : nat) : option nat :=
  match start with
  | O => Some O
  | S k =>
    match nth_error buf k with
    | None => None
    | Some c =>
      if word_char c then back buf k
      else match k with
           | O => Some start
           | S j => match nth_error buf j with None => None | Some d => if ceq d "\" then back buf k else Some start end
           end
    end
  end.
(** edit.c:609-613, of the rest of the line: the length *)
Fixpoint forw (l : cstr) : nat :=
  match l with
  | [] => O
  | c :: r =>
    if word_char c then if ceq c "\" then match r with [] => 1 | _ :: r' => S (S (forw r')) end else S (forw r)
    else O
  end.
Fixpoint drop_space (l : cstr) : cstr := match l with c :: r => if isspace c then drop_space r else l | [] => [] end.
(** strchr(";|&()`", c), which also finds NUL *)
Definition starts_command (c : char) : bool := ceq c NUL || mem c (L ";|&()`").
(** edit.c:615-634 *)
Definition is_command (buf : cstr) (start len : nat) : bool :=
  match drop_space (rev (firstn start buf)) with [] => true | c :: _ => starts_command c end && negb (mem "/" (firstn len (skipn start buf))).
(** edit.c:587-639: start, length, is_command *)
Definition locate (buf : cstr) (pos : nat) : option (nat * nat * bool) :=
  if Nat.ltb (length buf) pos then Some (pos, O, false)
  else match back buf pos with
       | None => None
       | Some start => let len := forw (skipn start buf) in Some (start, len, is_command buf start len)
       end.

(** edit.c:641-714 *)
Fixpoint walk_back (l : cstr) : cstr := match l with c :: r => if starts_command c then [] else c :: walk_back r | [] => [] end.
Fixpoint leading (l : cstr) : cstr := match l with c :: r => if isspace c then [] else c :: leading r | [] => [] end.
Fixpoint ends (l : cstr) : nat :=
  match l with
  | x :: ((y :: _) as r) => (if negb (isspace x) && isspace y then 1 else 0) + ends r
  | _ => O
  end.
Definition name_char (c : char) : bool := isalnum c || ceq c "_".
Fixpoint starts_with (p s : cstr) : bool := match p, s with [], _ => true | c :: p, d :: s => ceq c d && starts_with p s | _, [] => false end.
Section Glob.
Variable arrays : cstr -> option nat -> option (list cstr).
Definition try_array (buf : cstr) (start len : nat) : list cstr :=
  if Nat.eqb start 0 then []
  else
    let rest := drop_space (rev (walk_back (rev (firstn start buf)))) in
    let cmd := leading rest in
    if forallb name_char cmd then
      let n := (1 + ends (skipn (length cmd) rest))%nat in
      match (match arrays cmd (Some n) with Some l => Some l | None => arrays cmd None end) with
      | None => []
      | Some l => filter (starts_with (firstn len (skipn start buf))) l
      end
    else [].
Variable commands files : cstr -> list cstr.
(** edit.c:716-750: start, end, words; [cmds]: XCF_COMMAND *)
Definition cf_glob (cmds : bool) (buf : cstr) (pos : nat) : option (nat * nat * list cstr) :=
  match locate buf pos with
  | None => None
  | Some (start, len, iscmd) =>
    let iscmd := iscmd && cmds in
    if Nat.eqb len 0 && iscmd then None
    else
      let w := firstn len (skipn start buf) in
      let words := if iscmd then commands w else match try_array buf start len with [] => files w | l => l end in
      match words with [] => None | _ => Some (start, (start + len)%nat, words) end
  end.
End Glob.

(** edit.c:755-789; the second: the loop stopped before the end, and whether it passed a slash *)
Fixpoint scan (s : cstr) (slash : bool) : bool * bool :=
  match s with
  | [] => (false, slash)
  | c :: r =>
    match r with
    | d :: r' =>
      if ceq c "\" then scan r' slash
      else if mem c (L "*[?$") || (ceq d "(" && mem c (L "+@!")) then (true, slash)
      else scan r (slash || ceq c "/")
    | [] => if mem c (L "*[?$") then (true, slash) else (false, slash || ceq c "/")
    end
  end.
Definition add_glob (s : cstr) : cstr :=
  let '(stopped, slash) := scan s false in
  if negb stopped && (negb (match s with c :: _ => ceq c "~" | [] => false end) || slash) then s ++ L "*" else s.

(** edit.c:829-855: the offset *)
Fixpoint strip_slashes (l : cstr) : cstr := match l with c :: ((_ :: _) as r) => if ceq c "/" then strip_slashes r else l | _ => l end.
Fixpoint last_part (l : cstr) : cstr := match l with c :: ((_ :: _) as r) => if ceq c "/" then l else last_part r | _ => l end.
Definition basename (s : cstr) : nat :=
  match s with
  | [] => O
  | _ => let l := last_part (strip_slashes (rev s)) in        (* p + 1 is the length *)
         match l with
         | c :: _ => if ceq c "/" && Nat.ltb (length l) (length s) then length l else (length l - 1)%nat
         | [] => O
         end
  end.
