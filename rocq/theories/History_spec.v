(** What the history should be: a bounded list, oldest first. *)
From Verif Require Import Base.
Local Open Scope nat_scope.

Inductive op := OSave (cmd : cstr) | OSize (n : Z) | OControl (s : option cstr) | OBackup | OReset.

(** The last [n] elements. *)
Definition lastn {A} (n : nat) (l : list A) : list A := skipn (length l - n) l.

(** [l] is the line saved for [cmd]: what stands before its last newline, all of it if it
    has none. *)
Definition line_of (cmd l : cstr) : Prop :=
  (~ In NL cmd /\ l = cmd) \/ exists r, cmd = l ++ NL :: r /\ ~ In NL r.

(** [t] is one of the nonempty colon-separated words of [s]. *)
Definition has_word (s : option cstr) (t : cstr) : Prop :=
  match s with
  | None => False
  | Some s => t <> [] /\ ~ In ":"%char t /\ exists a b, s = a ++ t ++ b
      /\ (a = [] \/ exists a', a = a' ++ [":"%char]) /\ (b = [] \/ exists b', b = ":"%char :: b')
  end.

(** State: the commands, HISTSIZE, and whether repeated lines and lines that begin with a
    space are to be skipped. *)
Record spec := Spec { cmds : list cstr; size : nat; nodup : bool; nosp : bool }.
Inductive sstep : spec -> op -> spec -> Prop :=
| SSkipSpace s r : nosp s = true -> sstep s (OSave (SP :: r)) s
| SSkipDup s cmd l c : (nosp s = true -> hd_error cmd <> Some SP) -> line_of cmd l ->
    nodup s = true -> cmds s = c ++ [l] -> sstep s (OSave cmd) s
| SSave s cmd l : (nosp s = true -> hd_error cmd <> Some SP) -> line_of cmd l ->
    (nodup s = true -> forall c, cmds s <> c ++ [l]) ->
    sstep s (OSave cmd) (Spec (lastn (size s) (cmds s ++ [l])) (size s) (nodup s) (nosp s))
| SSize s n : (0 < n)%Z ->
    sstep s (OSize n) (Spec (lastn (Z.to_nat n) (cmds s)) (Z.to_nat n) (nodup s) (nosp s))
| SSize0 s n : (n <= 0)%Z -> sstep s (OSize n) s
| SControl s str d p : (d = true <-> has_word str (L "ignoredups")) ->
    (p = true <-> has_word str (L "ignorespace")) ->
    sstep s (OControl str) (Spec (cmds s) (size s) d p)
| SBackup s : sstep s OBackup (Spec (removelast (cmds s)) (size s) (nodup s) (nosp s))
| SReset s : sstep s OReset (Spec [] (size s) (nodup s) (nosp s)).
Inductive sruns : spec -> list op -> spec -> Prop :=
| SNil s : sruns s [] s
| SCons s o s' os s'' : sstep s o s' -> sruns s' os s'' -> sruns s (o :: os) s''.

(** * Substitution *)
(** [p] occurs in [s]. *)
Definition occurs (p s : cstr) : Prop := exists a b, s = a ++ p ++ b.
(** [a] is what stands before the leftmost occurrence of [p] in [a ++ p ++ b]. *)
Definition leftmost (p a b : cstr) : Prop :=
  forall a' b', a ++ p ++ b = a' ++ p ++ b' -> length a <= length a'.
Inductive replaced (p r : cstr) : bool -> cstr -> cstr -> Prop :=
| RpLast g s : ~ occurs p s -> replaced p r g s s
| RpOne a b : leftmost p a b -> replaced p r false (a ++ p ++ b) (a ++ r ++ b)
| RpAll a b t : leftmost p a b -> replaced p r true b t -> replaced p r true (a ++ p ++ b) (a ++ r ++ t).
