(** What MAILPATH means and what checking for mail should do. *)
From Verif Require Import Base.
Local Open Scope nat_scope.

(** ** The entries of MAILPATH *)
(** the texts between colons *)
Fixpoint colons (segs : list cstr) : cstr :=
  match segs with [] => [] | [s] => s | s :: r => s ++ ":"%char :: colons r end.

Definition after_backslash (a : cstr) : Prop := exists a', a = a' ++ ["\"%char].
(** every percent sign has a backslash before it *)
Definition no_separator (s : cstr) : Prop := forall a b, s = a ++ "%"%char :: b -> after_backslash a.
(** the backslashes before percent signs dropped *)
Fixpoint plain (s : cstr) : cstr :=
  match s with
  | [] => []
  | c :: r => if ceq c "\" then match r with d :: _ => if ceq d "%" then plain r else c :: plain r | [] => [c] end
              else c :: plain r
  end.
(** a file, and the message after an unquoted % or, outside of posix mode and when
    there is no such %, after a ? *)
Inductive entry (posix : bool) (s : cstr) : cstr -> cstr -> Prop :=
| E_percent a m : s = a ++ "%"%char :: m -> no_separator a -> ~ after_backslash a -> entry posix s (plain a) m
| E_question a m : no_separator s -> posix = false -> plain s = a ++ "?"%char :: m -> ~ In "?"%char a -> entry posix s a m
| E_file : no_separator s -> (posix = true \/ ~ In "?"%char (plain s)) -> entry posix s (plain s) [].

Definition is_entry posix (s : cstr) (e : cstr * cstr) : Prop := entry posix s (fst e) (snd e).
Definition no_colon (s : cstr) : Prop := ~ In ":"%char s.
(** entries that name a file are mailboxes; an empty message stands for the
    default message *)
Definition opt_msg (m : cstr) : option cstr := match m with [] => None | _ => Some m end.
Definition has_file (e : cstr * cstr) : bool := match fst e with [] => false | _ => true end.
Definition boxes (es : list (cstr * cstr)) : list (cstr * option cstr) :=
  map (fun e => (fst e, opt_msg (snd e))) (filter has_file es).

(** a file name as it is written in MAILPATH *)
Fixpoint written (p : cstr) : cstr :=
  match p with [] => [] | c :: r => if ceq c "%" then "\"%char :: c :: written r else c :: written r end.

(** ** Mail *)
(** a regular file: its size, and the seconds of its last change and of its last reading *)
Record file := File { f_size : Z; f_changed : Z; f_read : Z }.
Definition world := cstr -> option file.
(** the last change; 0: there is no such file *)
Definition changed (w : world) (p : cstr) : Z := match w p with Some f => f_changed f | None => 0%Z end.
(** there is mail that was not there at the last look and has not been read *)
Definition new_mail (before now : world) (p : cstr) : Prop :=
  exists f, now p = Some f /\ (f_size f <> 0 /\ f_changed f <> changed before p /\ f_read f <= f_changed f)%Z.

(** Of prompts at given times (nanoseconds), those that look at the files: they
    are at least [ivl] seconds after the last that did, for which [last] is taken
    before there was one. *)
Inductive looks {A : Type} (ivl : Z) : Z -> list (Z * A) -> list (option A) -> Prop :=
| L_end last : looks ivl last [] []
| L_look last t w r l : (ivl * 1000000000 <= t - last)%Z -> looks ivl t r l -> looks ivl last ((t, w) :: r) (Some w :: l)
| L_skip last t w r l : (t - last < ivl * 1000000000)%Z -> looks ivl last r l -> looks ivl last ((t, w) :: r) (None :: l).

(** what is printed at one look about files with their messages, given the world
    at the previous look *)
Inductive announced {M : Type} (before now : world) : list (cstr * M) -> list (cstr * M) -> Prop :=
| A_end : announced before now [] []
| A_new p m l out : new_mail before now p -> announced before now l out -> announced before now ((p, m) :: l) ((p, m) :: out)
| A_old p m l out : ~ new_mail before now p -> announced before now l out -> announced before now ((p, m) :: l) out.
(** what a series of prompts prints; None: a prompt that does not look *)
Inductive prints {M : Type} (boxes : list (cstr * M)) : world -> list (option world) -> list (list (cstr * M)) -> Prop :=
| P_end w : prints boxes w [] []
| P_skip w l o : prints boxes w l o -> prints boxes w (None :: l) ([] :: o)
| P_look w w' l out o : announced w w' boxes out -> prints boxes w' l o -> prints boxes w (Some w' :: l) (out :: o).
