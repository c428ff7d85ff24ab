(** Pattern matching: misc.c:502-827 gmatch, has_globbing, do_gmatch,
    posix_cclass, cclass, pat_scan; eval.c:1148-1173 debunk.

    A pointer into the pattern is the suffix of the pattern it points at, so
    pointers into the same pattern compare by length (a later pointer is a
    shorter suffix).  A pointer [pe] used only as a bound is the length of its
    suffix.  The string between s and se is a list, since the code never reads
    at or after se.  Reading the byte at the end of the pattern gives NUL. *)
From Verif Require Import Base.

(** p[k] *)
Definition at_ (p : cstr) (k : nat) : char := nth k p NUL.

Definition ismagic (c : char) : bool := ceq c MAGIC.

Definition high (c : char) : bool := (128 <=? ccode c)%Z.   (* c & 0x80 *)
Definition low7 (c : char) : char := ascii_of_N (N_of_ascii c mod 128). (* c & 0x7f *)
Definition hi_of (c : char) : char := ascii_of_N (N_of_ascii c + 128).  (* 0x80 | c, c ASCII *)

(** (c & 0x80) && strchr("*+?@! ", c & 0x7f); strchr also finds the NUL *)
Definition is_ext (c : char) : bool :=
  high c && (mem (low7 c) (L "*+?@! ") || is_nul (low7 c)).

(** misc.c:812-827 pat_scan; [e] is pe *)
Fixpoint pat_scan (p : cstr) (e : nat) (sep : bool) (nest : nat) : option cstr :=
  match p with
  | [] => None
  | c :: r =>
    if length p <=? e then None
    else if negb (ismagic c) then pat_scan r e sep nest
    else match r with
    | [] => None
    | d :: r' =>
      if ceq d ")" && (nest =? 0) then Some r'
      else if ceq d "|" && sep && (nest =? 0) then Some r'
      else pat_scan r' e sep ((if ceq d ")" then nest - 1 else nest) + (if is_ext d then 1 else 0))
    end
  end.

(** charclass.h:14-31 (the entry for blank is commented out); <ctype.h> in the C locale *)
Definition cclasses : list (cstr * (char -> bool)) :=
  [ (L "alnum", isalnum); (L "alpha", isalpha);
    (L "cntrl", fun c => cbetween "000" "031" c || ceq c "127");
    (L "digit", isdigit); (L "graph", cbetween "!" "~"); (L "lower", islower);
    (L "print", cbetween " " "~");
    (L "punct", fun c => cbetween "!" "~" c && negb (isalnum c));
    (L "space", isspace); (L "upper", isupper);
    (L "xdigit", fun c => isdigit c || cbetween "a" "f" c || cbetween "A" "F" c) ].

(** strchr(pattern, ':'): the text before the colon and the suffix at it *)
Fixpoint find_colon (p : cstr) : option (cstr * cstr) :=
  match p with
  | [] => None
  | c :: r => if ceq c ":" then Some ([], p)
              else match find_colon r with Some (a, q) => Some (c :: a, q) | None => None end
  end.

Fixpoint find_class (cs : list (cstr * (char -> bool))) (name : cstr) : option (char -> bool) :=
  match cs with
  | [] => None
  | (n, f) :: cs' => if str_eqb name n then Some f else find_class cs' name
  end.

(** misc.c:722-748; [back] is the suffix pattern - 2.
    rv: Some (Some b) = found class with answer b; Some None = -2; None = -1 *)
Definition posix_cclass (back p : cstr) (test : char) : option (option bool) * cstr :=
  match find_colon p with
  | Some (name, colon) =>
    if negb (ismagic (at_ colon 1)) then (None, back)
    else (Some (match find_class cclasses name with Some f => Some (f test) | None => None end),
          skipn 3 colon)
  | None => (None, back)
  end.

(** p[0] == MAGIC && p[1] == '[' && p[2] == ':' *)
Definition at_mclass (p : cstr) : bool := ismagic (at_ p 0) && ceq (at_ p 1) "[" && ceq (at_ p 2) ":".

(** misc.c:761-773 the inner do-while over consecutive classes.
    None = return NULL; Some (found, p).  Out of fuel is not reachable with
    fuel = length of p + 1; it yields None. *)
Fixpoint classes_loop (fuel : nat) (p : cstr) (sub : char) (found : bool) : option (bool * cstr) :=
  match fuel with
  | O => None
  | S f =>
    let k := (if ismagic (at_ p 0) then 1 else 0) in
    let '(rv, p') := posix_cclass (skipn k p) (skipn (k + 2) p) sub in
    match rv with
    | None => Some (found, p')
    | Some None => None
    | Some (Some b) =>
      let found := if b then true else found in
      if at_mclass p' then classes_loop f p' sub found else Some (found, p')
    end
  end.

(** read one member: c = *p++, and after MAGIC the next byte with an extended
    operator reduced to its character (misc.c:778-787; [paren] maps the plain
    ( operator, done only for the first end of a range) *)
Definition member (paren : bool) (p : cstr) : char * cstr :=
  match p with
  | [] => (NUL, [])
  | c :: r =>
    if ismagic c then
      match r with
      | [] => (NUL, [])
      | d :: r' =>
        if high d && negb (ismagic d) then
          let d := low7 d in ((if paren && ceq d " " then "("%char else d), r')
        else (d, r')
      end
    else (c, r)
  end.

(** misc.c:757-806 the outer do-while: result None = return NULL *)
Fixpoint cclass_loop (fuel : nat) (orig p : cstr) (sub : char) (not found : bool) : option cstr :=
  match fuel with
  | O => None
  | S f =>
    let finish p found := if Bool.eqb found not then None else Some (skipn 2 p) in
    let continue p found :=
      let '(c, p1) := member true p in
      if is_nul c then (if ceq sub "[" then Some orig else None)
      else
        let '(d, p2) :=
          if ismagic (at_ p1 0) && ceq (at_ p1 1) "-" &&
             (negb (ismagic (at_ p1 2)) || negb (ceq (at_ p1 3) "]"))
          then let '(d, q) := member false (skipn 2 p1) in (Some d, q)
          else (None, p1) in
        let dd := match d with Some d => d | None => c end in
        if match d with Some d => (ccode d <? ccode c)%Z | None => false end then None
        else
          let found := if ceq c sub || ((ccode c <=? ccode sub) && (ccode sub <=? ccode dd))%Z
                       then true else found in
          if ismagic (at_ p2 0) && ceq (at_ p2 1) "]" then finish p2 found
          else cclass_loop f orig p2 sub not found in
    if at_mclass p || (ceq (at_ p 0) "[" && ceq (at_ p 1) ":") then
      match classes_loop (S (length p)) p sub found with
      | None => None
      | Some (found, p') =>
        if ismagic (at_ p' 0) && ceq (at_ p' 1) "]" then finish p' found
        else continue p' found
      end
    else continue p found
  end.

(** misc.c:750-809 *)
Definition cclass (p : cstr) (sub : char) : option cstr :=
  if ismagic (at_ p 0) then
    if ceq (at_ p 1) "!" then cclass_loop (S (length p)) p (skipn 2 p) sub true false
    else cclass_loop (S (length p)) p (skipn 1 p) sub false false
  else cclass_loop (S (length p)) p p sub false false.

(** first true answer of a list of computations, in order; None = not answered *)
Fixpoint any_o {A} (f : A -> option bool) (l : list A) : option bool :=
  match l with
  | [] => Some false
  | x :: l' => match f x with
               | None => None | Some true => Some true | Some false => any_o f l' end
  end.
Definition and_o (a b : option bool) : option bool :=
  match a with None => None | Some false => Some false | Some true => b end.
Definition or_o (a b : option bool) : option bool :=
  match a with None => None | Some true => Some true | Some false => b end.

(** misc.c:626-627 while (ISMAGIC(p[0]) && p[1] == '*') p += 2; *)
Fixpoint skip_stars (p : cstr) : cstr :=
  match p with
  | a :: ((b :: r) as r0) => if ismagic a && ceq b "*" then skip_stars r else p
  | _ => p
  end.

(** all the ways to cut s at srest, srest going from s to se *)
Definition cuts (s : cstr) : list nat := seq 0 (S (length s)).

Section Loops.
  (** the recursive do_gmatch: string segment, pattern suffix, pe *)
  Variable rec : cstr -> cstr -> nat -> option bool.

  (** the loop over alternatives: psub = p; pnext = pat_scan(psub, pe, 1); ... until pnext == prest *)
  Fixpoint any_alt (fuel : nat) (psub : cstr) (e : nat) (prest : cstr)
      (body : cstr -> nat -> option bool) : option bool :=
    match fuel with
    | O => None
    | S f =>
      match pat_scan psub e true 0 with
      | None => None    (* NULL - 2: not reachable when prest exists *)
      | Some pnext =>
        or_o (body psub (length pnext + 2))
             (if length pnext =? length prest then Some false else any_alt f pnext e prest body)
      end
    end.
End Loops.

(** misc.c:596-720 do_gmatch; [e] is pe.  None = out of fuel. *)
Fixpoint do_gmatch (fuel : nat) (s p : cstr) (e : nat) : option bool :=
  match fuel with
  | O => None
  | S f =>
    if length p <=? e then Some (match s with [] => true | _ => false end)   (* return s == se *)
    else
    let sc := at_ s 0 in           (* s < se ? *s : 0; the segment has no NUL *)
    match p with
    | [] => Some (match s with [] => true | _ => false end)
    | pc :: p1 =>
      if negb (ismagic pc) then
        match s with
        | c :: s' => if ceq c pc then do_gmatch f s' p1 e else Some false
        | [] => Some false         (* sc = 0 <> pc *)
        end
      else
      let op := at_ p1 0 in
      let p2 := skipn 1 p1 in
      if ceq op "[" then
        match s with
        | [] => Some false
        | c :: s' => match cclass p2 c with None => Some false | Some q => do_gmatch f s' q e end
        end
      else if ceq op "?" then
        match s with [] => Some false | _ :: s' => do_gmatch f s' p2 e end
      else if ceq op "*" then
        let q := skip_stars p2 in
        if length q =? e then Some true
        else any_o (fun k => do_gmatch f (skipn k s) q e) (cuts s)
      else if ceq op (hi_of "+") || ceq op (hi_of "*") then
        match pat_scan p2 e false 0 with
        | None => Some false
        | Some prest =>
          or_o (if ceq op (hi_of "*") then do_gmatch f s prest e else Some false)
          (any_alt (S (length p2)) p2 e prest (fun psub e' =>
             any_o (fun k =>
               and_o (do_gmatch f (firstn k s) psub e')
                     (or_o (do_gmatch f (skipn k s) prest e)
                           (if k =? 0 then Some false else do_gmatch f (skipn k s) p e))) (cuts s)))
        end
      else if ceq op (hi_of "?") || ceq op (hi_of "@") || ceq op (hi_of " ") then
        match pat_scan p2 e false 0 with
        | None => Some false
        | Some prest =>
          or_o (if ceq op (hi_of "?") then do_gmatch f s prest e else Some false)
          (any_alt (S (length p2)) p2 e prest (fun psub e' =>
             any_o (fun k =>
               and_o (do_gmatch f (firstn k s) psub e')
                     (do_gmatch f (skipn k s) prest e))
               (if length prest =? e then [length s] else cuts s)))
        end
      else if ceq op (hi_of "!") then
        match pat_scan p2 e false 0 with
        | None => Some false
        | Some prest =>
          any_o (fun k =>
            match any_alt (S (length p2)) p2 e prest (fun psub e' => do_gmatch f (firstn k s) psub e') with
            | None => None
            | Some true => Some false
            | Some false => do_gmatch f (skipn k s) prest e
            end) (cuts s)
        end
      else
        match s with
        | c :: s' => if ceq c op then do_gmatch f s' p2 e else Some false
        | [] => Some false
        end
    end
  end.

(** misc.c:542-593 has_globbing *)
Fixpoint glob_scan (fuel : nat) (p : cstr) (nest bnest : nat) (saw inb : bool) : bool :=
  match fuel with
  | O => false
  | S f =>
    match p with
    | [] => saw && negb inb && (nest =? 0)
    | a :: r =>
      if negb (ismagic a) then glob_scan f r nest bnest saw inb
      else
      let c := at_ r 0 in
      let q := skipn 1 r in
      if ceq c "*" || ceq c "?" then glob_scan f q nest bnest true inb
      else if ceq c "[" then
        if inb then glob_scan f q nest bnest saw inb
        else
          let q := if ismagic (at_ q 0) && ceq (at_ q 1) "!" then skipn 2 q else q in
          let q := if ismagic (at_ q 0) && ceq (at_ q 1) "]" then skipn 2 q else q in
          glob_scan f q nest bnest true true
      else if ceq c "]" then
        if inb then (if negb (bnest =? 0) then false else glob_scan f q nest bnest saw false)
        else glob_scan f q nest bnest saw inb
      else if is_ext c then
        if inb then glob_scan f q nest (S bnest) true inb else glob_scan f q (S nest) bnest true inb
      else if ceq c "|" then
        if inb && (bnest =? 0) then false else glob_scan f q nest bnest saw inb
      else if ceq c ")" then
        if inb then (if bnest =? 0 then false else glob_scan f q nest (bnest - 1) saw inb)
        else glob_scan f q (nest - 1) bnest saw inb
      else glob_scan f q nest bnest saw inb
    end
  end.
Definition has_globbing (p : cstr) : bool := glob_scan (S (length p)) p 0 0 false false.

(** eval.c:1148-1173 debunk with enough room in the destination (dlen > strlen) *)
Fixpoint debunk (s : cstr) : cstr :=
  match s with
  | [] => []
  | c :: r =>
    if ismagic c then
      match r with
      | [] => []     (* *++s is the NUL: copied, loop then leaves the string; see the comment *)
      | d :: r' =>
        if is_ext d then
          (if ceq (low7 d) " " then [] else [low7 d]) ++ "("%char :: debunk r'
        else d :: debunk r'
      end
    else c :: debunk r
  end.

(** misc.c:502-524 gmatch with isfile = false *)
Definition gmatch (s p : cstr) : option bool :=
  if has_globbing p then do_gmatch (S (length p * S (length s) + length s)) s p 0
  else Some (str_eqb (debunk p) s).
