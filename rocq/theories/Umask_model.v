(** umask (c_sh.c). *)
From Verif Require Import Base Num_model Printf_model.
Local Open Scope N_scope.

(** mode_t: 32 bits unsigned. *)
Definition M32 : N := 4294967295.
Definition not32 (m : N) : N := N.lxor (N.land m M32) M32.
(** umask(2): the system keeps the permission bits. *)
Definition sys_umask (m : N) : N := N.land m 511.

(** What happened: a new mask, an error with the old mask kept, or a read past the end of
    the argument. *)
Inductive ures := UOk (m : N) | UBad | UOob.

(** The numeric form (c_sh.c:111-117). *)
Definition isoct (c : char) : bool := (48 <=? code c)%nat && (code c <=? 55)%nat.
Fixpoint octal (acc : N) (s : cstr) : ures :=
  match s with
  | [] => UOk acc
  | c :: r => if isoct c then octal (N.land (acc * 8 + N.of_nat (code c - 48)) M32) r else UBad
  end.

(** The symbolic form (c_sh.c:118-184).  Positions (c_sh.c:128-142). *)
Definition who_bit (c : char) : option N :=
  if ceq c "a" then Some 73 else if ceq c "u" then Some 64
  else if ceq c "g" then Some 8 else if ceq c "o" then Some 1 else None.
Fixpoint scan_who (pos : N) (s : cstr) : N * cstr :=
  match s with
  | [] => (pos, [])
  | c :: r => match who_bit c with Some b => scan_who (N.lor pos b) r | None => (pos, s) end
  end.
(** Permissions (c_sh.c:148-166); [old] is ~umask. *)
Definition perm_bits (old : N) (c : char) : option N :=
  if ceq c "r" then Some 4 else if ceq c "w" then Some 2 else if ceq c "x" then Some 1
  else if ceq c "u" then Some (N.shiftr old 6) else if ceq c "g" then Some (N.shiftr old 3)
  else if ceq c "o" then Some old
  else if ceq c "X" then Some (if N.land old 73 =? 0 then 0 else 1)
  else if ceq c "s" then Some 0 else None.
Fixpoint scan_perms (old v : N) (s : cstr) : N * cstr :=
  match s with
  | [] => (v, [])
  | c :: r => match perm_bits old c with Some b => scan_perms old (N.lor v b) r | None => (v, s) end
  end.
Definition is_op (c : char) : bool := ceq c "=" || ceq c "+" || ceq c "-".
(** new_val = (new_val & 07) * positions and the switch (c_sh.c:167-178). *)
Definition apply_op (op : char) (pos v new : N) : N :=
  let nv := N.land v 7 * pos in
  if ceq op "-" then N.land new (not32 nv)
  else if ceq op "=" then N.lor nv (N.land new (not32 (pos * 7)))
  else N.lor new nv.
(** The while loop; [fuel] bounds the iterations ([UOob] cannot be reached by lack of it: the
    theorems give the fuel needed).  [None]: out of fuel. *)
Fixpoint symbolic (fuel : nat) (old new pos : N) (s : cstr) : option ures :=
  match fuel with
  | O => None
  | S f =>
    match s with
    | [] => Some (UOk (not32 new))
    | _ =>
      let (pos, s) := scan_who pos s in
      let pos := if pos =? 0 then 73 else pos in
      match s with
      | [] => Some UOob                        (* strchr("=+-", '\0') succeeds: cp++ *)
      | op :: r =>
        if is_op op then
          let (v, r) := scan_perms old 0 r in
          let new := apply_op op pos v new in
          match r with
          | [] => Some (UOk (not32 new))
          | c :: r' => if ceq c "," then symbolic f old new 0 r'
                       else if is_op c then symbolic f old new pos r
                       else Some UBad
          end
        else Some UBad
      end
    end
  end.
(** c_umask with an argument (c_sh.c:107-187): the mask after it, [None]: out of fuel. *)
Definition c_umask (mask : N) (arg : cstr) : option ures :=
  let set r := match r with UOk m => UOk (sys_umask m) | r => r end in
  match arg with
  | c :: _ => if isdigit c then Some (set (octal 0 arg))
              else option_map set (symbolic (S (length arg)) (not32 mask) (not32 mask) 0 arg)
  | [] => option_map set (symbolic 1 (not32 mask) (not32 mask) 0 arg)
  end.

(** Printing (c_sh.c:84-106): umask -S and umask. *)
Definition show_class (mask : N) (i : nat) : cstr :=
  nth i (L "ugo") NUL :: "="%char ::
  concat (map (fun j => if N.testbit (not32 mask) (N.of_nat (8 - (3 * i + j))) then [nth j (L "rwx") NUL] else [])
              [0; 1; 2]%nat).
Definition show_symbolic (mask : N) : cstr :=
  show_class mask 0 ++ "," %char :: show_class mask 1 ++ "," %char :: show_class mask 2.
Definition show_octal (mask : N) : res cstr := printf (L "%#3.3o") [AInt (Z.of_N mask)].
