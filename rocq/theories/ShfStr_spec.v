(** Calls on an output string. *)
From Verif Require Import Base.

Inductive sop := SWrite (bs : cstr) | SPutc (c : Z) | SPutchar (c : Z).
Definition s_bytes (o : sop) : cstr :=
  match o with
  | SWrite bs => bs
  | SPutc c | SPutchar c => [ascii_of_N (Z.to_N (c mod 256))]
  end.
Definition s_arg (o : sop) : Prop := match o with SWrite _ => True | SPutc c | SPutchar c => (0 <= c < 256)%Z end.
Definition is_putc (o : sop) : bool := match o with SWrite _ => false | _ => true end.
