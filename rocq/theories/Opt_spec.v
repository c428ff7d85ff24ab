(** What option parsing should do, stated on the arguments as a list. *)
From Verif Require Import Base.
Local Open Scope nat_scope.

(** ** Option specifications: what follows the first occurrence of a letter *)
Inductive kind :=
| Plain        (* no argument *)
| Needs        (* c:  the rest of the word, or the next argument *)
| Optional     (* c;  the same, but the argument may be missing *)
| Attached     (* c,  the rest of the word, even if it is empty *)
| Number.      (* c#  the rest of the word or the next argument, if it is a number *)

Definition kind_char (d : char) : kind :=
  if ceq d ":" then Needs else if ceq d ";" then Optional else if ceq d "," then Attached
  else if ceq d "#" then Number else Plain.
Definition is_letter (c : char) : Prop := ~ In c (L "?:;,#").
Inductive declares (opts : cstr) (c : char) : kind -> Prop :=
| D_last a : is_letter c -> ~ In c a -> opts = a ++ [c] -> declares opts c Plain
| D_next a d b : is_letter c -> ~ In c a -> opts = a ++ c :: d :: b -> declares opts c (kind_char d).
Definition undeclared (opts : cstr) (c : char) : Prop := ~ is_letter c \/ ~ In c opts.

(** digits, or the word unlimited *)
Definition is_number (s : cstr) : Prop := (exists d s', s = d :: s' /\ isdigit d = true) \/ s = L "unlimited".

(** ** What one finds on the way: an option with its sign (true: given with +)
    and its argument, an unknown letter, a letter whose argument is missing *)
Inductive ev := Opt (plus : bool) (k : kind) (c : char) (arg : option cstr) | Unknown (plus : bool) (c : char) | Missing (plus : bool) (c : char).

(** [plusok]: words that start with + are options, too *)
Definition option_word (plusok : bool) (w : cstr) : Prop :=
  exists s c t, w = s :: c :: t /\ (s = "-"%char \/ plusok = true /\ s = "+"%char) /\ w <> L "--".

(** [scan opts plusok cur args evs rest mm]: with [cur] the unread letters of a
    word (and its sign) and [args] the following arguments, one finds [evs] and
    then the operands [rest]; [mm]: they were announced by --. *)
Inductive scan (opts : cstr) (plusok : bool) : option (bool * cstr) -> list cstr -> list ev -> list cstr -> bool -> Prop :=
| S_ddash args : scan opts plusok None (L "--" :: args) [] args true
| S_none : scan opts plusok None [] [] [] false
| S_operand w args : w <> L "--" -> ~ option_word plusok w -> scan opts plusok None (w :: args) [] (w :: args) false
| S_word s t args evs rest mm : option_word plusok (s :: t) ->
    scan opts plusok (Some (negb (ceq s "-"), t)) args evs rest mm -> scan opts plusok None ((s :: t) :: args) evs rest mm
| S_done b args evs rest mm : scan opts plusok None args evs rest mm -> scan opts plusok (Some (b, [])) args evs rest mm
| S_plain b c t args evs rest mm : declares opts c Plain ->
    scan opts plusok (Some (b, t)) args evs rest mm -> scan opts plusok (Some (b, c :: t)) args (Opt b Plain c None :: evs) rest mm
| S_unknown b c t args evs rest mm : undeclared opts c ->
    scan opts plusok (Some (b, t)) args evs rest mm -> scan opts plusok (Some (b, c :: t)) args (Unknown b c :: evs) rest mm
| S_rest k b c t args evs rest mm : (k = Needs \/ k = Optional) -> declares opts c k -> t <> [] ->
    scan opts plusok None args evs rest mm -> scan opts plusok (Some (b, c :: t)) args (Opt b k c (Some t) :: evs) rest mm
| S_next k b c a args evs rest mm : (k = Needs \/ k = Optional) -> declares opts c k ->
    scan opts plusok None args evs rest mm -> scan opts plusok (Some (b, [c])) (a :: args) (Opt b k c (Some a) :: evs) rest mm
| S_missing b c : declares opts c Needs -> scan opts plusok (Some (b, [c])) [] [Missing b c] [] false
| S_without b c : declares opts c Optional -> scan opts plusok (Some (b, [c])) [] [Opt b Optional c None] [] false
| S_attached b c t args evs rest mm : declares opts c Attached ->
    scan opts plusok None args evs rest mm -> scan opts plusok (Some (b, c :: t)) args (Opt b Attached c (Some t) :: evs) rest mm
| S_num_rest b c t args evs rest mm : declares opts c Number -> is_number t ->
    scan opts plusok None args evs rest mm -> scan opts plusok (Some (b, c :: t)) args (Opt b Number c (Some t) :: evs) rest mm
| S_num_next b c a args evs rest mm : declares opts c Number -> is_number a ->
    scan opts plusok None args evs rest mm -> scan opts plusok (Some (b, [c])) (a :: args) (Opt b Number c (Some a) :: evs) rest mm
| S_num_none b c t args evs rest mm : declares opts c Number -> t <> [] -> ~ is_number t ->
    scan opts plusok (Some (b, t)) args evs rest mm -> scan opts plusok (Some (b, c :: t)) args (Opt b Number c None :: evs) rest mm
| S_num_end b c args evs rest mm : declares opts c Number -> (forall a args', args = a :: args' -> ~ is_number a) ->
    scan opts plusok None args evs rest mm -> scan opts plusok (Some (b, [c])) args (Opt b Number c None :: evs) rest mm.

(** the specification starts with ':': errors are left to the caller *)
Definition silent (opts : cstr) : Prop := exists o, opts = ":"%char :: o.

(** ** Options of the shell *)
(** at most one of three options is on *)
Definition at_most_one (a b c : Z) : Prop := (a = 0 /\ b = 0 \/ a = 0 /\ c = 0 \/ b = 0 /\ c = 0)%Z.

(** The names of the options and their letters, and whether [set] may change
    them, as ksh.1 documents them (in the order of the table of the shell). *)
Definition documented : list (option String.string * option char * bool) :=
  [ (Some "allexport", Some "a"%char, true); (Some "braceexpand", None, true); (Some "bgnice", None, true);
    (None, Some "c"%char, false); (Some "csh-history", None, true); (Some "emacs", None, true);
    (Some "errexit", Some "e"%char, true); (Some "gmacs", None, true); (Some "ignoreeof", None, true);
    (Some "interactive", Some "i"%char, false); (Some "keyword", Some "k"%char, true); (Some "login", Some "l"%char, false);
    (Some "markdirs", Some "X"%char, true); (Some "monitor", Some "m"%char, true); (Some "noclobber", Some "C"%char, true);
    (Some "noexec", Some "n"%char, true); (Some "noglob", Some "f"%char, true); (Some "nohup", None, true);
    (Some "nolog", None, true); (Some "notify", Some "b"%char, true); (Some "nounset", Some "u"%char, true);
    (Some "physical", None, true); (Some "pipefail", None, true); (Some "posix", None, true);
    (Some "privileged", Some "p"%char, true); (Some "restricted", Some "r"%char, false); (Some "sh", None, true);
    (Some "stdin", Some "s"%char, false); (Some "trackall", Some "h"%char, true); (Some "verbose", Some "v"%char, true);
    (Some "vi", None, true); (Some "viraw", None, true); (Some "vi-show8", None, true); (Some "vi-tabcomplete", None, true);
    (Some "vi-esccomplete", None, true); (Some "xtrace", Some "x"%char, true); (None, None, false) ]%string.
Definition has_name (i : nat) (n : cstr) : Prop := exists s c b, nth_error documented i = Some (Some s, c, b) /\ n = L s.
Definition has_letter (i : nat) (c : char) : Prop := exists n b, nth_error documented i = Some (n, Some c, b).
(** may be changed by set *)
Definition settable (i : nat) : Prop := exists n c, nth_error documented i = Some (n, c, true).
(** may be changed on the command line: all but the internal one *)
Definition cmdline_ok (i : nat) : Prop := i < 36.

Definition editing (i : nat) : Prop := has_name i (L "vi") \/ has_name i (L "emacs") \/ has_name i (L "gmacs").

(** [i] is switched to [v]: what happens to the other options.  [inter]: the
    internal option that remembers -i is to follow *)
Definition switched (inter : bool) (fl : nat -> Z) (i : nat) (v : Z) (fl' : nat -> Z) : Prop :=
  fl' i = v /\
  (v <> 0%Z -> editing i -> forall j, editing j -> j <> i -> fl' j = 0%Z) /\
  (v <> 0%Z -> has_name i (L "posix") -> forall j, has_name j (L "braceexpand") -> fl' j = 0%Z) /\
  (inter = true -> has_name i (L "interactive") -> fl' 36 = v) /\
  (forall j, j <> i -> ~ (v <> 0%Z /\ editing i /\ editing j) ->
     ~ (v <> 0%Z /\ has_name i (L "posix") /\ has_name j (L "braceexpand")) ->
     ~ (inter = true /\ has_name i (L "interactive") /\ j = 36) -> fl' j = fl j).

(** what an event asks for; the letter of an option that may not be changed here
    asks for nothing (set -s sorts) *)
Definition sign_value (plus : bool) : Z := if plus then 0%Z else 1%Z.
Inductive asks (okset : nat -> Prop) : ev -> nat -> Z -> Prop :=
| A_name b k n i : has_name i n -> asks okset (Opt b k "o"%char (Some n)) i (sign_value b)
| A_letter b c i : has_letter i c -> okset i -> asks okset (Opt b Plain c None) i (sign_value b).

(** [obeys]: the options after the events; [okset i]: may be changed here.  A
    named option that has the value already is left alone, whatever it is. *)
Inductive obeys (inter : bool) (okset : nat -> Prop) : (nat -> Z) -> list ev -> (nat -> Z) -> Prop :=
| O_nil fl : obeys inter okset fl [] fl
| O_none fl e evs fl' : (forall i v, ~ asks okset e i v) -> obeys inter okset fl evs fl' -> obeys inter okset fl (e :: evs) fl'
| O_same fl b k n i evs fl' : has_name i n -> fl i = sign_value b -> obeys inter okset fl evs fl' ->
    obeys inter okset fl (Opt b k "o"%char (Some n) :: evs) fl'
| O_name fl b k n i fl1 evs fl' : has_name i n -> okset i -> fl i <> sign_value b -> switched inter fl i (sign_value b) fl1 ->
    obeys inter okset fl1 evs fl' -> obeys inter okset fl (Opt b k "o"%char (Some n) :: evs) fl'
| O_letter fl b c i fl1 evs fl' : has_letter i c -> okset i -> switched inter fl i (sign_value b) fl1 ->
    obeys inter okset fl1 evs fl' -> obeys inter okset fl (Opt b Plain c None :: evs) fl'.

(** an event that makes parsing fail *)
Inductive refused (okset : nat -> Prop) (fl : nat -> Z) : ev -> Prop :=
| R_unknown b c : refused okset fl (Unknown b c)
| R_missing b c : refused okset fl (Missing b c)
| R_noname b k n : (forall i, ~ has_name i n) -> refused okset fl (Opt b k "o"%char (Some n))
| R_notset b k n i : has_name i n -> ~ okset i -> fl i <> sign_value b -> refused okset fl (Opt b k "o"%char (Some n)).

(** set -A name, set +A name: the last one counts; set -s *)
Definition array_one (cur : option (bool * cstr)) (e : ev) : option (bool * cstr) :=
  match e with Opt b Needs "A" a => option_map (pair (negb b)) a | _ => cur end.
Definition sort_one (e : ev) : bool := match e with Opt _ Plain "s" _ => true | _ => false end.
Definition identifier (n : cstr) : Prop := exists c r, n = c :: r /\ (isalpha c = true \/ c = "_"%char) /\
  Forall (fun d => isalpha d = true \/ isdigit d = true \/ d = "_"%char) r.
