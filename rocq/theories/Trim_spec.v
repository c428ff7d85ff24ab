(** Specification of trimming, over an arbitrary set of strings, and of the
    text a word stands for. *)
From Verif Require Import Base Trim_model.

Definition shortest_prefix (P : cstr -> Prop) (str pre rest : cstr) : Prop :=
  str = pre ++ rest /\ P pre /\
  forall pre' rest', str = pre' ++ rest' -> P pre' -> length pre <= length pre'.
Definition longest_prefix (P : cstr -> Prop) (str pre rest : cstr) : Prop :=
  str = pre ++ rest /\ P pre /\
  forall pre' rest', str = pre' ++ rest' -> P pre' -> length pre' <= length pre.
Definition shortest_suffix (P : cstr -> Prop) (str rest suf : cstr) : Prop :=
  str = rest ++ suf /\ P suf /\
  forall rest' suf', str = rest' ++ suf' -> P suf' -> length suf <= length suf'.
Definition longest_suffix (P : cstr -> Prop) (str rest suf : cstr) : Prop :=
  str = rest ++ suf /\ P suf /\
  forall rest' suf', str = rest' ++ suf' -> P suf' -> length suf' <= length suf.

Definition no_part (h : how) (P : cstr -> Prop) (str : cstr) : Prop :=
  match h with
  | ShortPre | LongPre => forall pre rest, str = pre ++ rest -> ~ P pre
  | ShortSuf | LongSuf => forall rest suf, str = rest ++ suf -> ~ P suf
  end.
Definition best_part (h : how) (P : cstr -> Prop) (str rest : cstr) : Prop :=
  match h with
  | ShortPre => exists pre, shortest_prefix P str pre rest
  | LongPre => exists pre, longest_prefix P str pre rest
  | ShortSuf => exists suf, shortest_suffix P str rest suf
  | LongSuf => exists suf, longest_suffix P str rest suf
  end.

(** what the user wrote *)
Definition tok_text (t : tok) : cstr :=
  match t with
  | TQ c | TU c => [c]
  | TOpen c => if ceq c " " then L "(" else [c; "("%char]
  | TBar => L "|"
  | TClose => L ")"
  end.
Definition tok_ok (t : tok) : bool :=
  match t with
  | TQ c | TU c => negb (is_nul c)
  | TOpen c => mem c (L "*+?@! ")
  | _ => true
  end.
