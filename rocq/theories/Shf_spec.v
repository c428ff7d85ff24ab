(** What a stream has to do, without buffers. *)
From Verif Require Import Base.

(** Calls on an output stream, and the bytes each is asked to write (a character that is not
    EOF is its value modulo 256). *)
Inductive oop := Write (bs : cstr) | Putc (c : Z) | Putchar (c : Z) | Flush.
Definition out_bytes (o : oop) : cstr :=
  match o with
  | Write bs => bs
  | Putc c | Putchar c => [ascii_of_N (Z.to_N (c mod 256))]
  | Flush => []
  end.
Definition char_arg (o : oop) : Prop :=                 (* an unsigned char, as the C library wants *)
  match o with Putc c | Putchar c => (0 <= c < 256)%Z | _ => True end.
Definition prefix {A} (p l : list A) : Prop := exists r, l = p ++ r.

(** The first line of a text, with its newline if it has one. *)
Fixpoint first_line (s : cstr) : cstr :=
  match s with
  | [] => []
  | c :: r => c :: (if ceq c NL then [] else first_line r)
  end.
