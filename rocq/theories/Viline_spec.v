(** What typing a line means: the keys that only insert or erase at its end. *)
From Verif Require Import Base Vi_model.
Local Open Scope Z_scope.

(** A byte that continues a UTF-8 character, unless vi-show8 is set; and the characters of identifiers. *)
Definition conts (k : cfg) (c : char) : bool := if show8 k then false else (128 <=? ccode c) && (ccode c <=? 191).
Definition idch (c : char) : bool :=
  let n := ccode c in ((48 <=? n) && (n <=? 57)) || ((65 <=? n) && (n <=? 90)) || (n =? 95) || ((97 <=? n) && (n <=? 122)).
(** One character is erased: its first byte and those that continue it. *)
Definition erased (k : cfg) (t t' : cstr) : Prop :=
  t = [] /\ t' = [] \/
  exists c w, t = t' ++ c :: w /\ Forall (fun d => conts k d = true) w /\ (conts k c = false \/ t' = []).
(** A word: no white space, and its ASCII characters are all of an identifier or all not. *)
Definition is_word (w : cstr) : Prop :=
  Forall (fun c => isspace c = false) w /\ exists b, Forall (fun c => 128 <= ccode c \/ idch c = b) w.
(** One word is erased, with the white space after it. *)
Definition werased (t t' : cstr) : Prop :=
  exists w sp, t = t' ++ w ++ sp /\ Forall (fun c => isspace c = true) sp /\ is_word w /\
    (t' = [] \/ w <> [] /\ exists p c, t' = p ++ [c] /\ ~ is_word (c :: w)).

(** A key, or a character taken as it is after ^V. *)
Inductive item := Plain (c : char) | Lit (c : char).
(** Keys with another meaning are not in this game. *)
Definition plain (k : cfg) (c : char) : Prop :=
  ~ In c [NUL; CR; NL; ESC; cX; cF] /\ (c = cI -> tabc k = false).
Definition ed1 (k : cfg) (i : item) (t t' : cstr) : Prop :=
  match i with
  | Lit c => ~ In c [NUL; "128"%char] /\ Z.of_nat (length t) < LINE - 1 /\ t' = t ++ [c]
  | Plain c => c <> cV /\
      if is_key (erase k) c || ceq c cH then erased k t t'
      else if is_key (kill k) c then t' = []
      else if is_key (werase k) c then werased t t'
      else plain k c /\
        (* ^E, ^L and ^R do nothing to the line, and a full line takes no more *)
        if ceq c cE || ceq c cL || ceq c cR || (LINE - 1 <=? Z.of_nat (length t)) then t' = t else t' = t ++ [c]
  end.
Inductive edits (k : cfg) : list item -> cstr -> cstr -> Prop :=
  | edits_nil t : edits k [] t t
  | edits_cons i l t t' u : ed1 k i t t' -> edits k l t' u -> edits k (i :: l) t u.
(** The keys of an item; a key may come from a macro. *)
Definition item_keys (m : bool) (i : item) : list event :=
  match i with Plain c => [Key c m None] | Lit c => [Key cV m None; Key c m None] end.
Definition typing (m : bool) (l : list item) : list event := flat_map (item_keys m) l.
(** A new line is read into a buffer, after whatever happened before, and ends with return. *)
Definition line (s : st) : cstr := firstn (Z.to_nat (len (es s))) (buf (es s)).
Definition not_editing (k : cfg) (c : char) : Prop :=
  is_key (erase k) c = false /\ is_key (kill k) c = false /\ is_key (werase k) c = false.
