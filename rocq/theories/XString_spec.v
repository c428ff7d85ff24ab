(** Who may append when, and what has been appended. *)
From Verif Require Import Base XString_model.
Local Open Scope nat_scope.

(** The text a sequence of operations leaves. *)
Fixpoint text_of (os : list xop) (t : cstr) : cstr :=
  match os with
  | [] => t
  | XCheck _ :: os => text_of os t
  | XPut c :: os => text_of os (t ++ [c])
  | XBack n :: os => text_of os (firstn n t)
  end.
(** The rule of expand.h:20-22: [room] bytes may still be put; a check for [n] allows [n] + 8 of
    them, without a check 8 at the start of a string; going back loses none. *)
Fixpoint disciplined (room : nat) (os : list xop) : Prop :=
  match os with
  | [] => True
  | XCheck n :: os => disciplined (Nat.max room (n + 8)) os
  | XPut _ :: os => match room with O => False | S r => disciplined r os end
  | XBack _ :: os => disciplined room os
  end.
