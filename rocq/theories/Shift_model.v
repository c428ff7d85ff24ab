(** shift (c_sh.c). *)
From Verif Require Import Base.
Local Open Scope Z_scope.

(** int n = val: the low 32 bits as a signed number. *)
Definition to_int (v : Z) : Z := (v + 2 ^ 31) mod 2 ^ 32 - 2 ^ 31.

(** The positional parameters: [argv] is l->argv[0 .. argc], so l->argc = length argv - 1;
    [None] outside the array. *)
Definition write_at (n : nat) (x : cstr) (v : list cstr) : option (list cstr) :=
  if Nat.ltb n (length v) then Some (firstn n v ++ x :: skipn (S n) v) else None.
(** c_shift (c_sh.c:34-63); [arg]: the value of its argument, if any.  Status and the new
    argv; [None]: access outside argv. *)
Definition c_shift (arg : option Z) (argv : list cstr) : option (Z * list cstr) :=
  let n := match arg with Some v => to_int v | None => 1 end in
  if n <? 0 then Some (1, argv)
  else if Z.of_nat (length argv) - 1 <? n then Some (1, argv)
  else match argv with
       | [] => None
       | a0 :: _ => match write_at (Z.to_nat n) a0 argv with          (* argv[n] = argv[0] *)
                    | Some v => Some (0, skipn (Z.to_nat n) v)         (* argv += n; argc -= n *)
                    | None => None
                    end
       end.
