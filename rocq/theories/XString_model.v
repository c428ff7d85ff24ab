(** Expandable strings (expand.h:36-71, misc.c:110-120) and pointer vectors (expand.h:75-110). *)
From Verif Require Import Base.
Local Open Scope nat_scope.

(** [xalloc]: the bytes allocated at beg; [xlen]: len (end is beg + len); [xtext]: the bytes
    from beg to xp. *)
Record xstr := XStr { xalloc : nat; xlen : nat; xtext : cstr }.
Definition X_EXTRA : nat := 8.
(** Xinit *)
Definition xinit (length : nat) : xstr := XStr (length + X_EXTRA) length [].
(** Xput: [None] when the byte is stored outside the allocation. *)
Definition xput (c : char) (x : xstr) : option xstr :=
  if Nat.ltb (length (xtext x)) (xalloc x) then Some (XStr (xalloc x) (xlen x) (xtext x ++ [c])) else None.
(** Xcheck_grow_ (misc.c:110-120) *)
Definition xgrow (more : nat) (x : xstr) : xstr :=
  let len := xlen x + Nat.max more (xlen x) in
  XStr (len + 8) len (xtext x).
(** XcheckN; Xcheck is XcheckN with 1. *)
Definition xcheckn (n : nat) (x : xstr) : xstr :=
  if Nat.ltb (xlen x) (length (xtext x) + n) then xgrow (length (xtext x) + n - xlen x) x else x.
(** Xclose: aresize to the text alone. *)
Definition xclose (x : xstr) : cstr := xtext x.
(** xp = Xrestpos(xs, xp, n), and moving xp back. *)
Definition xback (n : nat) (x : xstr) : xstr := XStr (xalloc x) (xlen x) (firstn n (xtext x)).

(** Sequences: a check for [n] bytes, a byte, going back to position [n]. *)
Inductive xop := XCheck (n : nat) | XPut (c : char) | XBack (n : nat).
Fixpoint xrun (os : list xop) (x : xstr) : option xstr :=
  match os with
  | [] => Some x
  | XCheck n :: os => xrun os (xcheckn n x)
  | XPut c :: os => match xput c x with Some x => xrun os x | None => None end
  | XBack n :: os => xrun os (xback n x)
  end.

(** * Pointer vectors *)
Record xptrv (A : Type) := XPtrV { vcap : nat; velts : list A }.       (* end - beg; cur - beg *)
Arguments XPtrV {A}. Arguments vcap {A}. Arguments velts {A}.
(** XPinit *)
Definition xpinit {A} (n : nat) : xptrv A := XPtrV n [].
(** XPput: [None] when stored outside. *)
Definition xpput {A} (p : A) (v : xptrv A) : option (xptrv A) :=
  let n := length (velts v) in
  let cap := if Nat.leb (vcap v) n then n * 2 else vcap v in
  if Nat.ltb n cap then Some (XPtrV cap (velts v ++ [p])) else None.
Fixpoint xprun {A} (ps : list A) (v : xptrv A) : option (xptrv A) :=
  match ps with
  | [] => Some v
  | p :: ps => match xpput p v with Some v => xprun ps v | None => None end
  end.
