(** When the expansion of aliases comes to an end. *)
From Verif Require Import Base Src_model Src_spec Lex_model.
Local Open Scope nat_scope.

Definition VT : char := ascii_of_nat 11.
Definition FF : char := ascii_of_nat 12.
Definition CR : char := ascii_of_nat 13.
(** A text that may follow a word: it ends in a newline that no backslash precedes. *)
Definition ends_line (t : cstr) : Prop := exists u, t = u ++ [NL] /\ ~ exists w, u = w ++ ["\"%char].
(** The value does not end in a space character that does not end a word, in a backslash, or in
    backslash-newline. *)
Definition good_value (v : cstr) : Prop :=
  nuls_out v /\
  (forall u c, v = u ++ [c] -> ~ In c [VT; FF; CR; "\"%char]) /\
  (forall u, v <> u ++ ["\"%char; NL]).
Definition good_alias (p : cstr * cstr) : Prop := ~ In "["%char (fst p) /\ good_value (snd p).
Definition good_aliases (e : lenv) : Prop := Forall good_alias (aliases e).

(** The names of the aliases being read at the top of a stack of sources. *)
Fixpoint act (st : list src) : list cstr :=
  match st with Src (KAlias n _) _ _ _ _ :: st => n :: act st | _ => [] end.
(** No alias is read from within itself. *)
Fixpoint not_nested (st : list src) : Prop :=
  match st with
  | [] => True
  | s :: st => match kind s with KAlias n _ => ~ In n (act st) | _ => True end /\ not_nested st
  end.
(** What yylex does when its loops are not cut short. *)
Definition lexes (e : lenv) (cf : flags) (hs : list here) (i : input) (r : lres) : Prop :=
  exists B, forall rounds n, B <= rounds -> B <= n -> yylex rounds n e cf hs i = r.
(** What the input of the lexer can be: at the start of a file or a string, or after a token has been
    read (with whatever good aliases there were at that time). *)
Inductive reach : input -> Prop :=
| reach_str : forall t, nuls_out t -> reach (Input [Src KStr [] t false false] 0 0)
| reach_lines : forall ls, Forall (fun l => l <> []) ls -> reach (Input [Src (KLines ls) [] [] false false] 0 0)
| reach_words : forall ws, Forall nuls_out ws -> reach (Input [Src (KWords ws) [] [] false false] 0 0)
| reach_token : forall e cf hs i t b i', reach i -> good_aliases e -> ends_line (text_of (srcs i)) ->
    lexes e cf hs i (LTok t b i') -> reach i'.
