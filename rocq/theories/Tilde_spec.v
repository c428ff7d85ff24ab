(** What tilde expansion is to do with a word of literal characters and quoted text. *)
From Verif Require Import Base Word_model.

(** The pieces of such a word: a character that is not quoted, one quoted with \, and a text in
    quotes (with whether the character has its own mark as quoted). *)
Inductive el := U (c : char) | Q (c : char) | D (l : list (bool * char)).
(** tree.h:58-69 *)
Definition el_code (e : el) : cstr :=
  match e with
  | U c => [CHAR; c]
  | Q c => [QCHAR; c]
  | D l => [OQUOTE] ++ flat_map (fun '(b, c) => [if b : bool then QCHAR else CHAR; c]) l ++ [CQUOTE]
  end.
Definition els_code (l : list el) : cstr := flat_map el_code l.

Section Spec.
(** [asn]: the word is the value of an assignment; [dir]: the directory of a name *)
Variable asn : bool.
Variable dir : cstr -> option cstr.

Definition name_char (c : char) : Prop := c <> "/"%char /\ (asn = true -> c <> ":"%char).
(** The name goes to the end of the word, a slash or (assignments) a colon, not quoted. *)
Definition name_ends (r : list el) : Prop :=
  r = [] \/ exists r', r = U "/" :: r' \/ (asn = true /\ r = U ":" :: r').
Definition is_prefix_of (els : list el) (name : cstr) (rest : list el) : Prop :=
  els = map U name ++ rest /\ Forall name_char name /\ name_ends rest.

(** [tilded ok eq els t]: [els] expands to the text [t]; [ok]: a tilde would count here; [eq]:
    there was a = before. *)
Inductive tilded : bool -> bool -> list el -> cstr -> Prop :=
| t_end ok eq : tilded ok eq [] []
| t_home eq els name rest d t :
    is_prefix_of els name rest -> dir name = Some d ->
    tilded false eq rest t -> tilded true eq (U "~" :: els) (d ++ t)
| t_char ok eq c els t ok' eq' :
    (ok = true -> c = "~"%char -> forall name rest, is_prefix_of els name rest -> dir name = None) ->
    (ok' = true <-> (c = "="%char /\ eq = false) \/ (c = ":"%char /\ asn = true)) ->
    (eq' = true <-> eq = true \/ c = "="%char) ->
    tilded ok' eq' els t -> tilded ok eq (U c :: els) (c :: t)
| t_quoted ok eq c els t : tilded false eq els t -> tilded ok eq (Q c :: els) (c :: t)
| t_dq ok eq l els t : tilded false eq els t -> tilded ok eq (D l :: els) (map snd l ++ t).
End Spec.

(** Nothing in the word asks for file names or brace expansion. *)
Definition no_wild (glob brace : bool) (e : el) : Prop :=
  match e with
  | U c => (glob = true -> ~ In c (L "*?[")) /\ (brace = true -> c <> "{"%char)
  | _ => True
  end.
(** No null bytes *)
Definition el_ok (e : el) : Prop :=
  match e with
  | U c | Q c => c <> NUL
  | D l => Forall (fun p => snd p <> NUL) l
  end.

(** The directory of a user: what the password file said when it first knew the user. *)
Fixpoint first_known (n : cstr) (l : list (cstr * option cstr)) : option cstr :=
  match l with
  | [] => None
  | (k, Some v) :: l => if str_eqb k n then Some v else first_known n l
  | (_, None) :: l => first_known n l
  end.
