(** What alias and unalias do, without reference to Aliascmd_model's functions.  A table maps
    a name to its value, if it has one, and to whether it is exported. *)
From Verif Require Import Base Table_spec Quote_model.
From Coq Require Import Sorting.Sorted.
Local Open Scope Z_scope.

Definition amap := cstr -> option (option cstr * bool).
Definition has (m : amap) (n v : cstr) : Prop := exists x, m n = Some (Some v, x).
Definition valueless (m : amap) (n : cstr) : Prop := forall v, ~ has m n v.
(** [m'] is [m] but for [n] *)
Definition changes (m m' : amap) (n : cstr) (r : option (option cstr * bool)) : Prop :=
  m' n = r /\ forall k, k <> n -> m' k = m k.
Definition same (m m' : amap) : Prop := forall k, m' k = m k.

(** an argument: name=value or a name *)
Definition assigns (w n v : cstr) : Prop := w = n ++ L "=" ++ v /\ ~ In "="%char n.
Definition plain (w : cstr) : Prop := ~ In "="%char w.
(** the line of an alias: [p]: as a command; [plus]: only the name *)
Inductive line (n v : cstr) : bool -> bool -> cstr -> Prop :=
| Ln_value : line n v false false (n ++ L "=" ++ print_value_quoted v ++ ["010"%char])
| Ln_command : line n v true false (L "alias " ++ n ++ L "=" ++ print_value_quoted v ++ ["010"%char])
| Ln_name : line n v false true (n ++ ["010"%char])
| Ln_command_name : line n v true true (L "alias " ++ n ++ ["010"%char]).

(** the value and the mark of a name *)
Definition val_of (r : option (option cstr * bool)) : option cstr := match r with Some (v, _) => v | None => None end.
Definition exp_of (r : option (option cstr * bool)) : bool := match r with Some (_, x) => x | None => false end.

Section Spec.
(** where a command is found *)
Context (srch : cstr -> option cstr).
Context (p t u x plus : bool).
(** the mark after alias -x, alias +x or neither *)
Inductive marks (old : bool) : bool -> Prop :=
| Mk_keep : x = false -> marks old old
| Mk_on : x = true -> plus = false -> marks old true
| Mk_off : x = true -> plus = true -> marks old false.
Inductive does (m : amap) (w : cstr) : amap -> cstr -> bool -> Prop :=
| Do_show m' v out : t = false -> x = false -> plain w -> has m w v -> line w v p plus out -> same m m' -> does m w m' out true
| Do_missing m' : t = false -> x = false -> plain w -> valueless m w -> same m m' -> does m w m' (w ++ L " alias not found" ++ ["010"%char]) false
| Do_set m' n v e : t = false -> assigns w n v -> marks (exp_of (m n)) e -> changes m m' n (Some (Some v, e)) -> does m w m' [] true
| Do_mark m' e : t = false -> x = true -> plain w -> marks (exp_of (m w)) e -> changes m m' w (Some (val_of (m w), e)) -> does m w m' [] true
| Do_track m' e : t = true -> u = false -> plain w -> marks (exp_of (m w)) e -> changes m m' w (Some (srch w, e)) -> does m w m' [] true
| Do_enter m' e : t = true -> u = true -> plain w -> marks (exp_of (m w)) e -> changes m m' w (Some (val_of (m w), e)) -> does m w m' [] true
| Do_ignored m' n v e : t = true -> assigns w n v -> marks (exp_of (m n)) e -> changes m m' n (Some (val_of (m n), e)) -> does m w m' [] true.
Inductive does_all : amap -> list cstr -> amap -> cstr -> bool -> Prop :=
| Da_nil m m' : same m m' -> does_all m [] m' [] true
| Da_cons m w ws m1 m' out out' ok ok' : does m w m1 out ok -> does_all m1 ws m' out' ok' -> does_all m (w :: ws) m' (out ++ out') (ok && ok').
(** the list: each alias with a value (with -x, the exported ones) once, ascending *)
Inductive lines : list (cstr * cstr) -> cstr -> Prop :=
| Li_nil : lines [] []
| Li_cons n v l o out : line n v p plus o -> lines l out -> lines ((n, v) :: l) (o ++ out).
Definition lists (m : amap) (out : cstr) : Prop := exists l, lines l out /\ StronglySorted str_lt (map fst l)
  /\ forall n v, In (n, v) l <-> exists e, m n = Some (Some v, e) /\ (x = true -> e = true).
End Spec.

(** unalias: the names are removed; whether all were there *)
Definition removes (m : amap) (ns : list cstr) (m' : amap) : Prop := (forall n, In n ns -> m' n = None) /\ forall n, ~ In n ns -> m' n = m n.
(** all were there: each is there, and none is named twice *)
Definition all_there (m : amap) (ns : list cstr) : Prop := NoDup ns /\ forall n, In n ns -> m n <> None.
