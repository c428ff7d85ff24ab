(** What a name means, as text: c_ksh.c c_whence (whence, type, command -v, command -V).

    The options are parsed by ksh_getopt (Opt_model) and are parameters here, so are the
    keywords, the aliases and the attributes of functions and tracked aliases; commands are
    found by findcom (Findcom_model). *)
From Verif Require Import Base Search_model Findcom_model Quote_model.
Local Open Scope Z_scope.

(** the name the command was called by (c_ksh.c: switch (wp[0][0])) *)
Inductive called := CCommand | CType | CWhence.

Section Whence.
Context {D : Type} (stat : D -> cstr -> option fileinfo) (access : D -> cstr -> bool -> option nat) (def_path : cstr).
(** keywords; aliases: ISSET, EXPORT, the value *)
Context (kw : cstr -> bool) (al : cstr -> option (bool * bool * cstr)).
(** functions: EXPORT, TRACE; tracked aliases: EXPORT *)
Context (fattr : cstr -> bool * bool) (texp : cstr -> bool).
Context (de : defs).
Context (by_ : called) (pflag vflag0 Vflag : bool).

Definition iam_whence : bool := match by_ with CCommand => false | _ => true end.
(** vflag as it is after the options *)
Definition vflag : bool := if iam_whence then (match by_ with CType => true | _ => false end) || vflag0 else Vflag.
(** fcflags: FC_BI | FC_PATH | FC_FUNC, with FC_DEFPATH for command -p, without FC_BI and FC_FUNC for whence -p *)
Definition fcf : fcflags :=
  if iam_whence then FC (negb pflag) (negb pflag) (negb pflag) (negb pflag) true false
  else FC true true true true true pflag.

Definition when (b : bool) (s : cstr) : cstr := if b then s else [].
(** the table entry, with what the switch looks at *)
Inductive tent := TKeyword | TAlias (exported : bool) (val : cstr) | TEntry (e : entry).
(** one turn of the loop: the text and whether ret stays 0; None: a null pointer is used *)
Definition whence_word (s : shell (D:=D)) (id : cstr) : option (cstr * bool * shell (D:=D)) :=
  let full := negb iam_whence || negb pflag in
  let tp := if full && kw id then Some TKeyword else None in
  let tp := match tp with
            | Some _ => tp
            | None => if full then match al id with Some (true, ex, v) => Some (TAlias ex v) | _ => None end else None
            end in
  let '(tp, s) := match tp with
                  | Some _ => (tp, s)
                  | None => let '(e, s) := findcom stat access def_path s de id fcf in (option_map TEntry e, s)
                  end in
  match tp with
  | None => None
  | Some TKeyword => Some (id ++ when vflag (L " is a reserved word"), true, s)
  | Some (TAlias ex v) =>
    Some (when vflag id ++ when vflag (L " is an " ++ when ex (L "exported ") ++ L "alias for ")
          ++ when (negb iam_whence && negb vflag) (L "alias " ++ id ++ L "=") ++ print_value_quoted v, true, s)
  | Some (TEntry (EFunc load)) =>
    (* the entry that findcom makes up for a file in FPATH has no attributes *)
    let '(ex, tr) := match findfunc (d_funs de) id with Some _ => fattr id | None => (false, false) end in
    Some (id ++ when vflag (L " is a" ++ when ex (L "n exported") ++ when tr (L " traced")
            ++ match load with
               | None => []
               | Some f => L " undefined" ++ match f with Some f => L " (autoload from " ++ f ++ L ")" | None => [] end
               end ++ L " function"), true, s)
  | Some (TEntry (EBi b)) => Some (id ++ when vflag (L " is a" ++ when (bi_spec b) (L " special") ++ L " shell builtin"), true, s)
  | Some (TEntry (ETalias (Some p))) =>
    Some (when vflag id ++ when vflag (L " is " ++ L "a tracked " ++ when (texp id) (L "exported ") ++ L "alias for ") ++ p, true, s)
  | Some (TEntry (EExec (Some p))) => Some (when vflag id ++ when vflag (L " is ") ++ p, true, s)
  | Some (TEntry (ETalias None)) | Some (TEntry (EExec None)) => Some (when vflag id ++ when vflag (L " not found"), false, s)
  end.
(** the loop *)
Fixpoint whence_loop (wp : list cstr) (ret : Z) (s : shell (D:=D)) : option (cstr * Z) :=
  match wp with
  | [] => Some ([], ret)
  | id :: wp =>
    if vflag || (ret =? 0) then
      match whence_word s id with
      | None => None
      | Some (t, found, s) =>
        let ret := if found then ret else 1 in
        match whence_loop wp ret s with
        | None => None
        | Some (out, rv) => Some (t ++ when (vflag || (ret =? 0)) ["010"%char] ++ out, rv)
        end
      end
    else Some ([], ret)
  end.
Definition c_whence (wp : list cstr) (s : shell (D:=D)) : option (cstr * Z) := whence_loop wp 0 s.
End Whence.
