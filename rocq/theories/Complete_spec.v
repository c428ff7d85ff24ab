(** What completion promises. *)
From Verif Require Import Base Lex_spec.

(** A word written with backslashes only, without other characters that end a word for the completion. *)
Definition part_ok (s : seg) : Prop :=
  match s with
  | Plain c => special c = false /\ c <> "="%char /\ c <> ":"%char
  | Back c => c <> NL /\ c <> NUL
  | _ => False
  end.
(** The text before it does not run into it: it ends in a character that ends a word and has no backslash before. *)
Inductive apart : cstr -> Prop :=
| ap_nil : apart []
| ap_one c : In c ([SP; TAB; NL] ++ L "|&;<>()'""`=:") -> apart [c]
| ap_two p d c : d <> "\"%char -> In c ([SP; TAB; NL] ++ L "|&;<>()'""`=:") -> apart (p ++ [d; c]).
(** The text after it does not continue it. *)
Definition ended (q : cstr) : Prop := match q with [] => True | c :: _ => In c ([SP; TAB; NL] ++ L "|&;<>()'""`=:") end.
(** A command starts after this text: at the start of the line or after an operator, and blanks. *)
Definition at_command (p : cstr) : Prop :=
  exists a b, p = a ++ b /\ Forall (fun c => isspace c = true) b /\ (a = [] \/ exists a' c, a = a' ++ [c] /\ (In c (L ";|&()`") \/ c = NUL)).

(** The longest common prefix. *)
Definition common_prefix (p : cstr) (l : list cstr) : Prop := forall w, In w l -> exists r, w = p ++ r.
Definition longest_common (p : cstr) (l : list cstr) : Prop := common_prefix p l /\ forall q, common_prefix q l -> length q <= length p.

(** Names that completion writes correctly. *)
Definition writable (ifs name : cstr) : Prop := forall c, In c name -> c <> NUL /\ c <> NL /\ c <> "~"%char /\ (c = SP \/ c = TAB -> In c ifs).

(** The last part of a path, with the slashes that end it. *)
Inductive last_name : cstr -> cstr -> Prop :=
| ln_only n sl : n <> [] -> ~ In "/"%char n -> Forall (eq "/"%char) sl -> last_name [] (n ++ sl)
| ln_after d n sl : n <> [] -> ~ In "/"%char n -> Forall (eq "/"%char) sl -> last_name (d ++ ["/"%char]) (n ++ sl).

(** A command with arguments before the word: after the operator [pre] ends in, the name and arguments, each with blanks after. *)
Definition blanks (s : cstr) : Prop := Forall (fun c => isspace c = true) s.
Definition argument (s : cstr) : Prop := s <> [] /\ Forall (fun c => isspace c = false /\ ~ In c (L ";|&()`") /\ c <> NUL) s.
Record call (p name : cstr) (n : nat) : Prop := Call {
  call_text : exists pre b0 b1 args, p = pre ++ b0 ++ name ++ b1 ++ flat_map (fun a => fst a ++ snd a) args /\ n = length args /\
    (pre = [] \/ exists u c, pre = u ++ [c] /\ (In c (L ";|&()`") \/ c = NUL)) /\ blanks b0 /\ blanks b1 /\ b1 <> [] /\
    Forall (fun a => argument (fst a) /\ blanks (snd a) /\ snd a <> []) args;
  call_name : name <> [] /\ Forall (fun c => isalnum c = true \/ c = "_"%char) name }.
