(** What umask's symbolic argument means. *)
From Verif Require Import Base.

Inductive who := U | G | O.
Inductive perm := R | W | X.
(** The permissions the mask leaves. *)
Definition allows := who -> perm -> bool.

(** A clause: whom it is about, then at least one action. *)
Inductive oper := Set_ | Add | Remove.
Inductive pchar := P (p : perm) | Copy (w : who) | BigX | Sticky.
Definition action := (oper * list pchar)%type.
Inductive wchar := All | One (w : who).
Record clause := Clause { cwho : list wchar; first : action; more : list action }.

Definition who_text (w : who) : char := match w with U => "u" | G => "g" | O => "o" end.
Definition perm_text (p : perm) : char := match p with R => "r" | W => "w" | X => "x" end.
Definition wchar_text (w : wchar) : char := match w with All => "a" | One w => who_text w end.
Definition pchar_text (p : pchar) : char :=
  match p with P p => perm_text p | Copy w => who_text w | BigX => "X" | Sticky => "s" end.
Definition oper_text (o : oper) : char := match o with Set_ => "=" | Add => "+" | Remove => "-" end.
Definition action_text (a : action) : cstr := oper_text (fst a) :: map pchar_text (snd a).
Definition clause_text (c : clause) : cstr :=
  map wchar_text (cwho c) ++ concat (map action_text (first c :: more c)).
(** Clauses separated by commas; one more comma may follow. *)
Inductive valid : cstr -> list clause -> Prop :=
| VNil : valid [] []
| VOne c : valid (clause_text c) [c]
| VMore c s cs : valid s cs -> valid (clause_text c ++ ","%char :: s) (c :: cs).
(** The same, but ending after the classes of a clause. *)
Inductive cut_short : cstr -> Prop :=
| CWho ws : ws <> [] -> cut_short (map wchar_text ws)
| CMore c s : cut_short s -> cut_short (clause_text c ++ ","%char :: s).

Definition weq (a b : who) : bool := match a, b with U, U | G, G | O, O => true | _, _ => false end.
Definition peq (a b : perm) : bool := match a, b with R, R | W, W | X, X => true | _, _ => false end.
Definition concerns (ws : list wchar) (w : who) : bool :=
  match ws with
  | [] => true
  | _ => existsb (fun c => match c with All => true | One v => weq v w end) ws
  end.
(** [old]: what was allowed before the command. *)
Definition names (old : allows) (p : pchar) (q : perm) : bool :=
  match p with
  | P p => peq p q
  | Copy w => old w q
  | BigX => peq q X && (old U X || old G X || old O X)
  | Sticky => false
  end.
Definition act (old : allows) (ws : list wchar) (cur : allows) (a : action) : allows := fun w q =>
  if concerns ws w then
    let named := existsb (fun p => names old p q) (snd a) in
    match fst a with Set_ => named | Add => cur w q || named | Remove => cur w q && negb named end
  else cur w q.
Definition clause_sem (old cur : allows) (c : clause) : allows :=
  fold_left (act old (cwho c)) (first c :: more c) cur.
Definition sem (old : allows) (cs : list clause) : allows := fold_left (clause_sem old) cs old.

(** The mask: bit 3k+j is set if permission j of class k is not allowed. *)
Definition bit (w : who) (p : perm) : N :=
  (match w with U => 6 | G => 3 | O => 0 end + match p with R => 2 | W => 1 | X => 0 end)%N.
Definition masked (m : N) : allows := fun w p => negb (N.testbit m (bit w p)).
