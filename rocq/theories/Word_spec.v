(** The words the encoding stands for. *)
From Verif Require Import Base Word_model.

Inductive item :=
| Chr (c : char)                       (* a character *)
| Qch (c : char)                       (* a quoted character *)
| Com (s : cstr)                       (* $(s) *)
| Exp (s : cstr)                       (* $((s)) *)
| OQ | CQ                              (* opening and closing quote *)
| Sub (brace : bool) (name : cstr) (w : list item)   (* ${name w} or $name *)
| Pat (k : char) (alts : pats)         (* k(a|b|...) *)
with pats := P1 (w : list item) | PCons (w : list item) (ps : pats).
Definition word := list item.

(** The encoding (comment in tree.h; lex.c). *)
Fixpoint enc1 (i : item) : cstr :=
  match i with
  | Chr c => [CHAR; c]
  | Qch c => [QCHAR; c]
  | Com s => COMSUB :: s ++ [NUL]
  | Exp s => EXPRSUB :: s ++ [NUL]
  | OQ => [OQUOTE]
  | CQ => [CQUOTE]
  | Sub b n w => let m := if b then "{"%char else "X"%char in
                 let e := if b then "}"%char else "X"%char in
                 OSUBST :: m :: n ++ [NUL] ++ flat_map enc1 w ++ [CSUBST; e]
  | Pat k ps => OPAT :: k :: encp ps ++ [CPAT]
  end
with encp (ps : pats) : cstr :=
  match ps with
  | P1 w => flat_map enc1 w
  | PCons w ps => flat_map enc1 w ++ SPAT :: encp ps
  end.
Definition enc (w : word) : cstr := flat_map enc1 w.

(** Texts with no null byte in them. *)
Fixpoint good1 (i : item) : Prop :=
  match i with
  | Com s | Exp s => ~ In NUL s
  | Sub _ n w => ~ In NUL n /\ (fix all (w : list item) : Prop := match w with [] => True | i :: w => good1 i /\ all w end) w
  | Pat _ ps => goodp ps
  | _ => True
  end
with goodp (ps : pats) : Prop :=
  match ps with
  | P1 w => (fix all (w : list item) : Prop := match w with [] => True | i :: w => good1 i /\ all w end) w
  | PCons w ps => (fix all (w : list item) : Prop := match w with [] => True | i :: w => good1 i /\ all w end) w /\ goodp ps
  end.
Fixpoint good (w : word) : Prop := match w with [] => True | i :: w => good1 i /\ good w end.

(** A word copied: the memory of the original may go on after it. *)
Definition word_copy (m m' : cstr) : Prop :=
  exists w rest, good w /\ m = enc w ++ EOS :: rest /\ m' = enc w ++ [EOS].
Definition str_copy (m m' : cstr) : Prop :=
  exists s rest, ~ In NUL s /\ m = s ++ NUL :: rest /\ m' = s ++ [NUL].
Definition opt_rel {A} (R : A -> A -> Prop) (x y : option A) : Prop :=
  match x, y with None, None => True | Some a, Some b => R a b | _, _ => False end.
Definition io_copy (p q : ioword) : Prop :=
  io_unit q = io_unit p /\ io_flag q = io_flag p /\
  opt_rel word_copy (io_name p) (io_name q) /\ opt_rel word_copy (io_delim p) (io_delim q) /\
  opt_rel str_copy (io_heredoc p) (io_heredoc q).
Inductive tree_copy : op -> op -> Prop :=
| tc_null : tree_copy TNull TNull
| tc_op : forall ty fl a v io l r s ln a' v' io' l' r' s',
    opt_rel (Forall2 word_copy) a a' -> opt_rel (Forall2 word_copy) v v' -> opt_rel (Forall2 io_copy) io io' ->
    tree_copy l l' -> tree_copy r r' ->
    opt_rel (if (ty =? TCASE)%Z then word_copy else str_copy) s s' ->
    tree_copy (TOp ty fl a v io l r s ln) (TOp ty fl a' v' io' l' r' s' ln).
(** Trees made of whole words and strings. *)
Definition word_at (m : cstr) : Prop := exists w rest, good w /\ m = enc w ++ EOS :: rest.
Definition str_at (m : cstr) : Prop := exists s rest, ~ In NUL s /\ m = s ++ NUL :: rest.
Definition opt_all {A} (P : A -> Prop) (x : option A) : Prop := match x with None => True | Some a => P a end.
Definition io_at (p : ioword) : Prop :=
  opt_all word_at (io_name p) /\ opt_all word_at (io_delim p) /\ opt_all str_at (io_heredoc p).
Fixpoint tree_at (t : op) : Prop :=
  match t with
  | TNull => True
  | TOp ty fl a v io l r s ln =>
    opt_all (Forall word_at) a /\ opt_all (Forall word_at) v /\ opt_all (Forall io_at) io /\
    tree_at l /\ tree_at r /\ opt_all (if (ty =? TCASE)%Z then word_at else str_at) s
  end.

(** The text of a word without quotes. *)
Fixpoint plain1 (i : item) : cstr :=
  match i with
  | Chr c | Qch c => [c]
  | Com s => L "$(" ++ s ++ L ")"
  | Exp s => L "$((" ++ s ++ L "))"
  | OQ | CQ => []
  | Sub b n w => if b then L "${" ++ n ++ flat_map plain1 w ++ L "}" else L "$" ++ n ++ flat_map plain1 w
  | Pat k ps => k :: L "(" ++ plainp ps ++ L ")"
  end
with plainp (ps : pats) : cstr :=
  match ps with
  | P1 w => flat_map plain1 w
  | PCons w ps => flat_map plain1 w ++ L "|" ++ plainp ps
  end.
Definition plain (w : word) : cstr := flat_map plain1 w.
(** No substitution of a command or expression, and no byte 0xFF. *)
Fixpoint simple1 (i : item) : Prop :=
  match i with
  | Chr c | Qch c => c <> ascii_of_nat 255
  | Com _ | Exp _ => False
  | OQ | CQ => True
  | Sub _ n w => ~ In (ascii_of_nat 255) n /\
      (fix all (w : list item) : Prop := match w with [] => True | i :: w => simple1 i /\ all w end) w
  | Pat k ps => k <> ascii_of_nat 255 /\ simplep ps
  end
with simplep (ps : pats) : Prop :=
  match ps with
  | P1 w => (fix all (w : list item) : Prop := match w with [] => True | i :: w => simple1 i /\ all w end) w
  | PCons w ps => (fix all (w : list item) : Prop := match w with [] => True | i :: w => simple1 i /\ all w end) w /\ simplep ps
  end.
Fixpoint simple (w : word) : Prop := match w with [] => True | i :: w => simple1 i /\ simple w end.
