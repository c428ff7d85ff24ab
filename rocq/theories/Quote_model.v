(** print_value_quoted (misc.c:979-1011). *)
From Verif Require Import Base.
(** C_QUOTE (misc.c:60). *)
Definition quote_char (c : char) : bool := mem c ([SP; NL; TAB] ++ L """#$&'()*;<>?[\`|").
(** The second loop (misc.c:995-1010): [inq] is inquote. *)
Fixpoint pvq_loop (inq : bool) (s : cstr) : cstr :=
  match s with
  | [] => if inq then L "'" else []
  | c :: s =>
    if ceq c "'" then (if inq then L "'\'" else L "\'") ++ pvq_loop false s
    else (if inq then [] else L "'") ++ c :: pvq_loop true s
  end.
(** What is printed.  Output is taken as appending to a text: shf_putc of a byte 0xFF on a full
    buffer (shf.c shf_putchar) is not modelled here. *)
Definition print_value_quoted (s : cstr) : cstr :=
  if existsb quote_char s then pvq_loop false s else s.
