(** Quoted words and what they denote. *)
From Verif Require Import Base Word_model Word_spec.

(** Characters that mean something to the shell somewhere: separators and operators, quotes and
    expansions, patterns, tilde and braces, comments. *)
Definition special (c : char) : bool :=
  mem c ([SP; TAB; NL; NUL] ++ L "|&;<>()\'""$`*?[~{}#").
(** Pieces of a word: '...', "...", \c, and a character that is not special. *)
Inductive seg := Single (t : cstr) | Double (t : cstr) | Back (c : char) | Plain (c : char).
Definition dq_special (c : char) : bool := mem c (L "\""$`").
(** How they are written, the text they mean, and when they may be used. *)
Definition seg_src (s : seg) : cstr :=
  match s with
  | Single t => "'"%char :: t ++ L "'"
  | Double t => """"%char :: flat_map (fun c => if dq_special c then ["\"%char; c] else [c]) t ++ [""""%char]
  | Back c => ["\"%char; c]
  | Plain c => [c]
  end.
Definition seg_text (s : seg) : cstr :=
  match s with Single t | Double t => t | Back c | Plain c => [c] end.
Definition seg_ok (s : seg) : Prop :=
  match s with
  | Single t => ~ In "'"%char t /\ ~ In NUL t
  | Double t => ~ In NUL t
  | Back c => c <> NL /\ c <> NUL
  | Plain c => special c = false
  end.
Definition seg_quoted (s : seg) : bool := match s with Plain _ => false | _ => true end.
Definition src_of (w : list seg) : cstr := flat_map seg_src w.
Definition text_of_segs (w : list seg) : cstr := flat_map seg_text w.

(** The text a word stands for literally: nothing in it is subject to expansion. [q]: inside quotes. *)
Inductive denotes : bool -> word -> cstr -> Prop :=
| den_nil : denotes false [] []
| den_qch : forall q c w t, denotes q w t -> denotes q (Qch c :: w) (c :: t)
| den_in : forall c w t, denotes true w t -> denotes true (Chr c :: w) (c :: t)
| den_out : forall c w t, special c = false -> denotes false w t -> denotes false (Chr c :: w) (c :: t)
| den_open : forall w t, denotes true w t -> denotes false (OQ :: w) t
| den_close : forall w t, denotes false w t -> denotes true (CQ :: w) t.

(** What ends a word. *)
Definition ends_word (rest : cstr) : Prop :=
  match rest with [] => True | c :: _ => In c ([SP; TAB; NL] ++ L "|&;<>()") end.
