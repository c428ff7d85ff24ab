(** Colon lists and candidates, independent of the model. *)
From Verif Require Import Base Search_model.

(** the elements of a colon separated list, empty ones included *)
Fixpoint colon_list (s : cstr) : list cstr :=
  match s with
  | [] => [[]]
  | c :: s' =>
    if ceq c ":" then [] :: colon_list s'
    else match colon_list s' with [] => [[c]] | x :: xs => (c :: x) :: xs end
  end.

(** a directory and a name joined with exactly one slash; the empty directory
    leaves the name alone *)
Definition one_slash (d f : cstr) : cstr :=
  match d with
  | [] => f
  | _ => if ceq (last d NUL) "/" then d ++ f else d ++ "/"%char :: f
  end.

Definition is_abs (s : cstr) : bool := match s with c :: _ => ceq c "/" | [] => false end.

(** ".", "..", "./..." and "../..." *)
Definition explicit_relative (f : cstr) : Prop :=
  f = L "." \/ f = L ".." \/ (exists t, f = L "./" ++ t) \/ (exists t, f = L "../" ++ t).

(** the directory a CDPATH element stands for *)
Definition element_dir (cwd : cstr) (e : cstr) : cstr :=
  if is_abs e then e else match e with [] => cwd | _ => one_slash cwd e end.

(** a file that qualifies *)
Definition qualifies (stat : cstr -> option fileinfo) (access : cstr -> bool -> option nat)
    (x : bool) (p : cstr) : Prop :=
  exists st, stat p = Some st /\ access p x = None /\
    (x = true -> is_reg st = true /\ any_x st = true).

Definition candidate (name d : cstr) : cstr :=
  match d with [] => name | _ => d ++ "/"%char :: name end.
