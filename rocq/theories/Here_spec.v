(** Here documents: lines up to the delimiter. *)
From Verif Require Import Base Src_spec Lex_model.
(** How the text is read: with the backslash-newlines removed unless the delimiter is quoted. *)
Definition seen (eval : bool) (t : cstr) : cstr := if eval then join t else t.
(** The first line of a text and what follows it; a last line without a newline. *)
Definition first_line (eval : bool) (t l rest : cstr) : Prop :=
  exists v, t = v ++ NL :: rest /\ seen eval v = l /\ seen eval (v ++ [NL]) = l ++ [NL] /\ ~ In NL l.
Definition only_line (eval : bool) (t l : cstr) : Prop := seen eval t = l /\ ~ In NL l.
(** The line without leading tabs, for <<-. *)
Fixpoint no_tabs (l : cstr) : cstr :=
  match l with c :: r => if ceq c TAB then no_tabs r else l | [] => [] end.
Definition strip (skip : bool) (l : cstr) : cstr := if skip then no_tabs l else l.
(** The body is the lines before the first that equals the delimiter; what follows that is left. *)
Inductive here_doc (h : here) : cstr -> cstr -> cstr -> Prop :=
| hd_end : forall t l rest, first_line (h_eval h) t l rest -> strip (h_skip h) l = h_eof h -> here_doc h t [] rest
| hd_eof : forall t l, only_line (h_eval h) t l -> strip (h_skip h) l = h_eof h -> here_doc h t [] []
| hd_line : forall t l t' body rest, first_line (h_eval h) t l t' -> strip (h_skip h) l <> h_eof h ->
    here_doc h t' body rest -> here_doc h t (strip (h_skip h) l ++ NL :: body) rest.
(** The text ends before a line that equals the delimiter. *)
Inductive here_open (h : here) : cstr -> Prop :=
| ho_last : forall t l, only_line (h_eval h) t l -> strip (h_skip h) l <> h_eof h -> here_open h t
| ho_line : forall t l t', first_line (h_eval h) t l t' -> strip (h_skip h) l <> h_eof h -> here_open h t' -> here_open h t.
(** Several documents, one after the other. *)
Inductive here_docs : list here -> cstr -> list cstr -> cstr -> Prop :=
| hds_nil : forall t, here_docs [] t [] t
| hds_cons : forall h hs t b bs t' rest, here_doc h t b t' -> here_docs hs t' bs rest -> here_docs (h :: hs) t (b :: bs) rest.
