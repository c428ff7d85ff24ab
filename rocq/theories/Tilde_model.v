(** Home directories: eval.c:1217-1258 tilde, homedir.  maybe_expand_tilde and the places where
    a tilde is looked at are in Expand_model. *)
From Verif Require Import Base.

(** The variables tilde() reads (None: not set, str_val gives [null]) and the table [homedirs].
    Simplified: ktenter's entries without ISSET are left out, they are the same as none; a
    variable with the integer attribute is represented by its text. *)
Record dirs := Dirs { home : option cstr; pwd : option cstr; oldpwd : option cstr; homedirs : list (cstr * cstr) }.

Fixpoint cached (l : list (cstr * cstr)) (n : cstr) : option cstr :=
  match l with
  | [] => None
  | (k, v) :: r => if str_eqb k n then Some v else cached r n
  end.

(** eval.c:1242-1258; [pw]: the pw_dir getpwnam(name) has now, None: no such user *)
Definition homedir (d : dirs) (pw : option cstr) (name : cstr) : option cstr * dirs :=
  match cached (homedirs d) name with
  | Some v => (Some v, d)
  | None => match pw with
            | None => (None, d)
            | Some v => (Some v, Dirs (home d) (pwd d) (oldpwd d) ((name, v) :: homedirs d))
            end
  end.

(** eval.c:1217-1234 *)
Definition tilde_of (d : dirs) (pw : option cstr) (cp : cstr) : option cstr * dirs :=
  match cp with
  | [] => (home d, d)
  | c :: r =>
    if ceq c "+" && (match r with [] => true | _ => false end) then (pwd d, d)
    else if ceq c "-" && (match r with [] => true | _ => false end) then (oldpwd d, d)
    else homedir d pw cp
  end.

(** a number of calls one after another, each with what the password file says at its time *)
Fixpoint lookups (d : dirs) (l : list (cstr * option cstr)) : list (option cstr) :=
  match l with
  | [] => []
  | (n, pw) :: l => let '(r, d) := tilde_of d pw n in r :: lookups d l
  end.
