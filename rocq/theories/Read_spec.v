(** What read does with a line, without reference to Read_model's functions. *)
From Verif Require Import Base Read_model.
Local Open Scope nat_scope.

(** a character of the line, quoted by a backslash or not *)
Inductive tok := T (quoted : bool) (c : char).
Definition chr (t : tok) : char := let 'T _ c := t in c.
(** how the line ends *)
Inductive ending := Newline | End | Killed (code : nat).
Definition NL : char := "010"%char.
(** NUL bytes and signals that do not matter *)
Definition noise (e : rdev) : Prop := e = RByte NUL \/ e = RIntr 0.

(** [line expand esc evs toks e hs rest]: the input [evs] starts with a line of the
    characters [toks] that ends with [e], followed by [rest]; [hs]: the bytes of the line;
    [esc]: a backslash has just been read *)
Inductive line (expand : bool) : bool -> list rdev -> list tok -> ending -> cstr -> list rdev -> Prop :=
| Ln_noise esc x evs toks e hs rest : noise x -> line expand esc evs toks e hs rest -> line expand esc (x :: evs) toks e hs rest
| Ln_newline rest : line expand false (RByte NL :: rest) [] Newline [NL] rest
| Ln_end esc rest : line expand esc (REof :: rest) [] End ["255"%char] rest
| Ln_killed esc code rest : code <> 0 -> line expand esc (RIntr code :: rest) [] (Killed code) ["255"%char] rest
| Ln_backslash evs toks e hs rest : expand = true -> line expand true evs toks e hs rest ->
    line expand false (RByte "\" :: evs) toks e ("\"%char :: hs) rest
| Ln_join evs toks e hs rest : line expand false evs toks e hs rest -> line expand true (RByte NL :: evs) toks e (NL :: hs) rest
| Ln_quoted c evs toks e hs rest : c <> NL -> c <> NUL -> line expand false evs toks e hs rest ->
    line expand true (RByte c :: evs) (T true c :: toks) e (c :: hs) rest
| Ln_char c evs toks e hs rest : c <> NL -> c <> NUL -> (expand = true -> c <> "\"%char) -> line expand false evs toks e hs rest ->
    line expand false (RByte c :: evs) (T false c :: toks) e (c :: hs) rest.

Section Ifs.
Context (ifs : char -> bool).
Definition white (c : char) : Prop := In c (L " " ++ ["009"%char; "010"%char]).
(** an unquoted character of IFS; an unquoted white one; a white one, quoted or not *)
Definition delim (t : tok) : Prop := exists c, t = T false c /\ ifs c = true.
Definition wdelim (t : tok) : Prop := exists c, t = T false c /\ ifs c = true /\ white c.
Definition ifswhite (c : char) : Prop := ifs c = true /\ white c.

(** the line without the white space before the next field *)
Definition unindented (toks body : list tok) : Prop :=
  exists ws, toks = ws ++ body /\ Forall wdelim ws /\ forall t r, body = t :: r -> ~ wdelim t.

(** [values n toks vals]: what [n] variables get.  The last one gets the rest of the
    line without the white space at its end. *)
Inductive values : nat -> list tok -> list cstr -> Prop :=
| V_last toks body v tail : unindented toks body -> map chr body = v ++ tail ->
    Forall ifswhite tail -> (forall u c, v = u ++ [c] -> ~ ifswhite c) -> values 1 toks [v]
| V_end n toks body vals : unindented toks body -> Forall (fun t => ~ delim t) body ->
    values (S n) [] vals -> values (S (S n)) toks (map chr body :: vals)
| V_field n toks fld d rest vals : unindented toks (fld ++ d :: rest) -> Forall (fun t => ~ delim t) fld -> delim d ->
    values (S n) rest vals -> values (S (S n)) toks (map chr fld :: vals).
End Ifs.

(** assigning the values in order, until an assignment fails *)
Inductive assigned {St} (assign : St -> cstr -> cstr -> option St) : St -> list cstr -> list cstr -> bool -> St -> Prop :=
| As_nil st : assigned assign st [] [] true st
| As_fail st n v names vals : assign st n v = None -> assigned assign st (n :: names) (v :: vals) false st
| As_next st st1 st2 ok n v names vals : assign st n v = Some st1 -> assigned assign st1 names vals ok st2 ->
    assigned assign st (n :: names) (v :: vals) ok st2.
Definition exit_code (e : ending) : nat := match e with Newline => 0 | End => 1 | Killed code => code end.
