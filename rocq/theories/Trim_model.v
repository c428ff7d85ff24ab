(** ${x#p} and friends: eval.c:938-980 trimsub; and the marking of characters
    with MAGIC at the end of expand(): eval.c:637-720. *)
From Verif Require Import Base Num_model SimplifyPath_model Glob_model.

(** gmatch(str, pat, false) on the C string at the start of a buffer; an
    unanswered match is kept apart *)
Definition gm (buf : list char) (pat : cstr) : res bool :=
  do s <- c_string buf ; match gmatch s pat with Some b => Ok b | None => Err end.

(** eval.c:947-954, 957-964: cut the string at index k, try it, put the byte back.
    The buffer is threaded through so that a missing restore shows. *)
Definition try_prefix (buf : list char) (k : nat) (pat : cstr) : res (bool * list char) :=
  do c <- rd buf k ;
  do cut <- wr buf k NUL ;
  do b <- gm cut pat ;
  do back <- wr cut k c ;
  Ok (b, back).

(** the loops over p, given the list of the indices p takes.
    Ok (Some k, buf): returned at index k. *)
Fixpoint try_prefixes (ks : list nat) (buf : list char) (pat : cstr) : res (option nat * list char) :=
  match ks with
  | [] => Ok (None, buf)
  | k :: ks' =>
    do r <- try_prefix buf k pat ;
    if fst r then Ok (Some k, snd r) else try_prefixes ks' (snd r) pat
  end.

(** eval.c:967-976 *)
Fixpoint try_suffixes (ks : list nat) (buf : list char) (pat : cstr) : res (option nat) :=
  match ks with
  | [] => Ok None
  | k :: ks' => do b <- gm (skipn k buf) pat ; if b then Ok (Some k) else try_suffixes ks' buf pat
  end.

Inductive how := ShortPre | LongPre | ShortSuf | LongSuf.   (* # ## % %% *)

(** eval.c:938-980: the result string and the contents of str's buffer afterwards *)
Definition trimsub (str : cstr) (pat : cstr) (h : how) : res (cstr * list char) :=
  let buf := str ++ [NUL] in
  let up := seq 0 (S (length str)) in
  let down := rev up in
  match h with
  | ShortPre | LongPre =>
    do r <- try_prefixes (match h with ShortPre => up | _ => down end) buf pat ;
    match fst r with
    | Some k => do s <- c_string (skipn k (snd r)) ; Ok (s, snd r)     (* return p *)
    | None => do s <- c_string (snd r) ; Ok (s, snd r)                 (* return str *)
    end
  | ShortSuf | LongSuf =>
    do r <- try_suffixes (match h with ShortSuf => down | _ => up end) buf pat ;
    match r with
    | Some k => Ok (firstn k str, buf)                     (* str_nsave(str, p - str) *)
    | None => do s <- c_string buf ; Ok (s, buf)
    end
  end.

(** ** marking *)
(** a character of the expanded word: quoted or not, or an extended pattern
    token (OPAT with its character, SPAT, CPAT: eval.c:471-486) *)
Inductive tok := TQ (c : char) | TU (c : char) | TOpen (c : char) | TBar | TClose.

(** eval.c:637-720: bytes appended for one token.  [pat] is f & (DOPAT|DOGLOB),
    [brace] is f & DOBRACE_, [seen] is fdo & DOBRACE_.  The tilde cases, which
    replace characters before this point, are not included. *)
Definition emit (pat brace seen : bool) (t : tok) : cstr * bool :=
  let last c := if ismagic c then [MAGIC; c] else [c] in
  match t with
  | TQ c => (last c, seen)
  | TU c =>
    if mem c (L "[!-]*?") then ((if pat then [MAGIC] else []) ++ last c, seen)
    else if mem c (L "{,}") then
      if brace && (ceq c "{" || seen) then (MAGIC :: last c, true) else (last c, seen)
    else (last c, seen)
  | TOpen c => ([MAGIC; hi_of c], seen)
  | TBar => ([MAGIC; "|"%char], seen)
  | TClose => ([MAGIC; ")"%char], seen)
  end.
Fixpoint emits (pat brace seen : bool) (w : list tok) : cstr :=
  match w with
  | [] => []
  | t :: w' => let '(b, seen') := emit pat brace seen t in b ++ emits pat brace seen' w'
  end.
