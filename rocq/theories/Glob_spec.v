(** What a pattern means.  Patterns are trees; [enc_seq] gives the bytes the
    expansion code hands to the matcher (MAGIC in front of characters with a
    pattern meaning, eval.c:636-663 and 706-717).  [lang_seq] is the set of
    strings a pattern denotes, defined by splitting strings, without any reference to
    the matcher. *)
From Verif Require Import Base.

(** a member of a bracket expression; the flag says whether the byte was
    unquoted with a pattern meaning elsewhere (so carries MAGIC) *)
Inductive bitem : Type :=
| BChar (m : bool) (c : char)
| BRange (m1 : bool) (c : char) (m2 : bool) (d : char)
| BClass (name : cstr).

Record bracket : Type := Bracket {
  b_not : bool;                (* [! *)
  b_lead : option char;        (* a leading ] or - or [ taken literally *)
  b_items : list bitem;
  b_trail : bool               (* a trailing - taken literally *)
}.

Inductive op : Type := OStar | OPlus | OOpt | OAt | OPlain | ONot.

Inductive elt : Type :=
| ELit (m : bool) (c : char)
| EAny
| EStar
| EBracket (b : bracket)
| EExt (o : op) (a : alts)
with pseq : Type := SNil | SCons (e : elt) (q : pseq)
with alts : Type := AOne (q : pseq) | ACons (q : pseq) (a : alts).

(** ** bytes *)
Definition mbyte (m : bool) (c : char) : cstr := if m then [MAGIC; c] else [c].

Definition enc_item (i : bitem) : cstr :=
  match i with
  | BChar m c => mbyte m c
  | BRange m1 c m2 d => mbyte m1 c ++ [MAGIC; "-"%char] ++ mbyte m2 d
  | BClass n => [MAGIC; "["%char; ":"%char] ++ n ++ [":"%char; MAGIC; "]"%char]
  end.
Fixpoint enc_items (l : list bitem) : cstr :=
  match l with [] => [] | i :: l' => enc_item i ++ enc_items l' end.
Definition enc_body (l : list bitem) (trail : bool) : cstr :=
  enc_items l ++ (if trail then [MAGIC; "-"%char] else []) ++ [MAGIC; "]"%char].
Definition enc_bracket (b : bracket) : cstr :=
  (if b_not b then [MAGIC; "!"%char] else []) ++
  match b_lead b with Some c => [MAGIC; c] | None => [] end ++
  enc_body (b_items b) (b_trail b).

(** the operator byte: 0x80 | character *)
Definition opbyte (o : op) : char :=
  match o with
  | OStar => "170" | OPlus => "171" | OOpt => "191" | OAt => "192" | OPlain => "160" | ONot => "161"
  end%char.

Fixpoint enc_elt (e : elt) : cstr :=
  match e with
  | ELit m c => mbyte m c
  | EAny => [MAGIC; "?"%char]
  | EStar => [MAGIC; "*"%char]
  | EBracket b => MAGIC :: "["%char :: enc_bracket b
  | EExt o a => MAGIC :: opbyte o :: enc_alts a
  end
with enc_seq (q : pseq) : cstr :=
  match q with SNil => [] | SCons e q' => enc_elt e ++ enc_seq q' end
with enc_alts (a : alts) : cstr :=
  match a with
  | AOne q => enc_seq q ++ [MAGIC; ")"%char]
  | ACons q a' => enc_seq q ++ [MAGIC; "|"%char] ++ enc_alts a'
  end.

(** ** well-formedness *)
(** characters that may carry MAGIC although they stand for themselves *)
Definition plain_magic (c : char) : bool :=
  mem c (MAGIC :: L "!-]{},").
(** the same inside brackets, where * and ? also stand for themselves *)
Definition plain_magic_b (c : char) : bool :=
  mem c (MAGIC :: L "!*?{},").

Definition ok_lit (m : bool) (c : char) : bool :=
  negb (ceq c NUL) && (if m then plain_magic c else negb (ceq c MAGIC)).
Definition ok_bchar (m : bool) (c : char) : bool :=
  negb (ceq c NUL) && (if m then plain_magic_b c else negb (ceq c MAGIC)).

(** POSIX character classes known to the shell, by their C locale definition *)
Inductive in_class : cstr -> char -> Prop :=
| cl_alpha c : (65 <= ccode c <= 90 \/ 97 <= ccode c <= 122)%Z -> in_class (L "alpha") c
| cl_digit c : (48 <= ccode c <= 57)%Z -> in_class (L "digit") c
| cl_alnum c : (48 <= ccode c <= 57 \/ 65 <= ccode c <= 90 \/ 97 <= ccode c <= 122)%Z -> in_class (L "alnum") c
| cl_upper c : (65 <= ccode c <= 90)%Z -> in_class (L "upper") c
| cl_lower c : (97 <= ccode c <= 122)%Z -> in_class (L "lower") c
| cl_space c : (ccode c = 32 \/ 9 <= ccode c <= 13)%Z -> in_class (L "space") c
| cl_cntrl c : (ccode c <= 31 \/ ccode c = 127)%Z -> in_class (L "cntrl") c
| cl_graph c : (33 <= ccode c <= 126)%Z -> in_class (L "graph") c
| cl_print c : (32 <= ccode c <= 126)%Z -> in_class (L "print") c
| cl_punct c : (33 <= ccode c <= 47 \/ 58 <= ccode c <= 64 \/ 91 <= ccode c <= 96 \/ 123 <= ccode c <= 126)%Z ->
    in_class (L "punct") c
| cl_xdigit c : (48 <= ccode c <= 57 \/ 65 <= ccode c <= 70 \/ 97 <= ccode c <= 102)%Z -> in_class (L "xdigit") c.

Definition class_names : list cstr :=
  [L "alnum"; L "alpha"; L "cntrl"; L "digit"; L "graph"; L "lower"; L "print";
   L "punct"; L "space"; L "upper"; L "xdigit"].

(** a quoted [ must not be followed by a colon (it would be read as a class) *)
Definition no_fake_class (starts_bracket : bool) (next : cstr) : bool :=
  if starts_bracket then negb (ceq (nth 0 next NUL) ":") else true.

Fixpoint ok_items (l : list bitem) (rest : cstr) : Prop :=
  match l with
  | [] => True
  | i :: l' =>
    match i with
    | BChar m c => ok_bchar m c = true /\ no_fake_class (negb m && ceq c "[") (enc_items l' ++ rest) = true
    | BRange m1 c m2 d => ok_bchar m1 c = true /\ ok_bchar m2 d = true /\ (ccode c <= ccode d)%Z
    | BClass n => In n class_names
    end /\ ok_items l' rest
  end.

(** the first member after [ does not carry MAGIC MAGIC (a literal ^G right after
    the opening bracket is misread, see the findings), and ! there would be [! *)
Definition ok_first (l : list bitem) : bool :=
  match l with
  | BChar true c :: _ | BRange true c _ _ :: _ => negb (ceq c MAGIC) && negb (ceq c "!")
  | _ => true
  end.

Definition ok_bracket (b : bracket) : Prop :=
  (b_lead b <> None \/ b_items b <> [] ) /\
  match b_lead b with
  | None => True
  | Some c => (c = "]"%char \/ c = "-"%char \/
      (c = "["%char /\ no_fake_class true (enc_body (b_items b) (b_trail b)) = true))
  end /\
  (b_not b = false -> b_lead b = None -> ok_first (b_items b) = true) /\
  ok_items (b_items b) ((if b_trail b then [MAGIC; "-"%char] else []) ++ [MAGIC; "]"%char]).

Fixpoint ok_elt (e : elt) : Prop :=
  match e with
  | ELit m c => ok_lit m c = true
  | EBracket b => ok_bracket b
  | EExt _ a => ok_alts a
  | _ => True
  end
with ok_seq (q : pseq) : Prop :=
  match q with SNil => True | SCons e q' => ok_elt e /\ ok_seq q' end
with ok_alts (a : alts) : Prop :=
  match a with AOne q => ok_seq q | ACons q a' => ok_seq q /\ ok_alts a' end.

(** ** meaning *)
Definition item_has (i : bitem) (x : char) : Prop :=
  match i with
  | BChar _ c => x = c
  | BRange _ c _ d => (ccode c <= ccode x <= ccode d)%Z
  | BClass n => in_class n x
  end.
Definition bracket_set (b : bracket) (x : char) : Prop :=
  b_lead b = Some x \/ (exists i, In i (b_items b) /\ item_has i x) \/ (b_trail b = true /\ x = "-"%char).
Definition bracket_has (b : bracket) (x : char) : Prop :=
  if b_not b then ~ bracket_set b x else bracket_set b x.

(** one or more strings of [P] in a row *)
Inductive plus (P : cstr -> Prop) : cstr -> Prop :=
| plus_one s : P s -> plus P s
| plus_more s t : P s -> plus P t -> plus P (s ++ t).

Definition apply_op (o : op) (P : cstr -> Prop) (s : cstr) : Prop :=
  match o with
  | OStar => s = [] \/ plus P s
  | OPlus => plus P s
  | OOpt => s = [] \/ P s
  | OAt | OPlain => P s
  | ONot => ~ P s
  end.

Fixpoint lang_elt (e : elt) (s : cstr) : Prop :=
  match e with
  | ELit _ c => s = [c]
  | EAny => exists c, s = [c]
  | EStar => True
  | EBracket b => exists c, s = [c] /\ bracket_has b c
  | EExt o a => apply_op o (lang_alts a) s
  end
with lang_seq (q : pseq) (s : cstr) : Prop :=
  match q with
  | SNil => s = []
  | SCons e q' => exists s1 s2, s = s1 ++ s2 /\ lang_elt e s1 /\ lang_seq q' s2
  end
with lang_alts (a : alts) (s : cstr) : Prop :=
  match a with
  | AOne q => lang_seq q s
  | ACons q a' => lang_seq q s \/ lang_alts a' s
  end.
