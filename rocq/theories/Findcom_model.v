(** Finding commands: exec.c:742-764 findfunc, 838-934 findcom, 939-953 flushcom; the
    tracked aliases (c_ksh.c:852-985 alias -t and alias -r, c_ksh.c:129 cd, var.c:981-985
    and 1103-1107 PATH).

    The file system is a parameter that depends on the current directory.  The file a
    function is autoloaded from is the result of the same search.  Error numbers are not
    modelled, nor is the memory of the strings. *)
From Verif Require Import Base Search_model.
Local Open Scope nat_scope.

(** table.h:87-93 FC_* *)
Record fcflags := FC { fc_spec : bool; fc_func : bool; fc_reg : bool; fc_unreg : bool; fc_path : bool; fc_def : bool }.
(** a builtin: table.h:69-70 SPEC_BI and REG_BI *)
Record bi := Bi { bi_spec : bool; bi_reg : bool }.
(** the table entry that findcom returns.  [EFunc None]: a defined function; [EFunc (Some
    f)]: a function to be loaded, from the file [f] if there is one.  [ETalias] and [EExec]:
    without a path when not ISSET. *)
Inductive entry := EBi (b : bi) | EFunc (load : option (option cstr)) | ETalias (path : option cstr) | EExec (path : option cstr).

(** the tracked aliases: the path when ISSET *)
Definition taliases := list (cstr * option cstr).
Fixpoint tfind (t : taliases) (name : cstr) : option (option cstr) :=
  match t with [] => None | (n, p) :: t => if str_eqb n name then Some p else tfind t name end.
Fixpoint tset (t : taliases) (name : cstr) (p : option cstr) : taliases :=
  match t with
  | [] => [(name, p)]
  | (n, q) :: t => if str_eqb n name then (n, p) :: t else (n, q) :: tset t name p
  end.

Definition tdel (t : taliases) (name : cstr) : taliases := filter (fun e => negb (str_eqb (fst e) name)) t.

Section Files.
(** current directories, the file system seen from them *)
Context {D : Type} (stat : D -> cstr -> option fileinfo) (access : D -> cstr -> bool -> option nat).
(** def_path *)
Context (def_path : cstr).

(** search_path, the current directory and the tracked aliases *)
Record shell := Sh { sh_path : cstr; sh_cwd : D; sh_tal : taliases }.
(** what else matters: the builtins, the functions of the blocks ([true]: defined), FPATH
    ([None]: unset) and the trackall option *)
Record defs := Defs { d_bi : cstr -> option bi; d_funs : list (cstr -> option bool); d_fpath : option cstr; d_track : bool }.

(** exec.c:742-764, create = false *)
Fixpoint findfunc (l : list (cstr -> option bool)) (name : cstr) : option bool :=
  match l with [] => None | f :: l => match f name with Some b => Some b | None => findfunc l name end end.

Definition srch (d : D) (name path : cstr) (x : bool) : option cstr :=
  match search (stat d) (access d) name path x with Some (r, _) => r | None => None end.
(** str_val(global("FPATH")), search(name, fpath, R_OK, ..) *)
Definition fsearch (s : shell) (de : defs) (name : cstr) : option cstr :=
  match d_fpath de with None => None | Some f => srch (sh_cwd s) name f false end.

(** exec.c:888-932: the part after Search, with [tp] and [insert] *)
Definition path_part (s : shell) (de : defs) (name : cstr) (fl : fcflags) (func : bool) (insert : bool) (tp : option entry) : option entry * shell :=
  let go := match tp with None => true | Some (ETalias None) => true | _ => false end in
  if go && fc_path fl then
    (* lines 890-899: the entry, by default the static one *)
    let tracked := match tp with Some _ => true | None => insert && negb (fc_def fl) end in
    let tal := if tracked then tset (sh_tal s) name None else sh_tal s in
    let s' := Sh (sh_path s) (sh_cwd s) tal in
    match srch (sh_cwd s) name (if fc_def fl then def_path else sh_path s) true with
    | Some p =>
      if tracked then (Some (ETalias (Some p)), Sh (sh_path s) (sh_cwd s) (tset (sh_tal s) name (Some p)))
      else (Some (EExec (Some p)), s')
    | None =>
      match (if func then fsearch s de name else None) with
      | Some f => (Some (EFunc (Some (Some f))), s')
      | None => (Some (if tracked then ETalias None else EExec None), s')
      end
    end
  else (tp, s).

(** exec.c:854-876: builtins and functions *)
Definition internal (s : shell) (de : defs) (name : cstr) (fl : fcflags) : option entry :=
  let tbi := if fc_spec fl || fc_reg fl || fc_unreg fl then d_bi de name else None in
  let tp := match tbi with Some b => if fc_spec fl && bi_spec b then Some (EBi b) else None | None => None end in
  let tp := match tp with
            | Some _ => tp
            | None => if fc_func fl then
                        match findfunc (d_funs de) name with
                        | Some true => Some (EFunc None)
                        | Some false => Some (EFunc (Some (fsearch s de name)))
                        | None => None
                        end
                      else None
            end in
  let tp := match tp, tbi with None, Some b => if fc_reg fl && bi_reg b then Some (EBi b) else None | _, _ => tp end in
  let tp := match tp, tbi with None, Some b => if fc_unreg fl then Some (EBi b) else None | _, _ => tp end in
  tp.

(** exec.c:838-934 *)
Definition findcom (s : shell) (de : defs) (name : cstr) (fl : fcflags) : option entry * shell :=
  if mem "/" name then path_part s de name fl false false None                          (* 849-853 *)
  else
    let tp := internal s de name fl in
    match tp with
    | None =>
      if fc_path fl && negb (fc_def fl) then                                             (* 877-886 *)
        match tfind (sh_tal s) name with
        | Some (Some p) =>
          match access (sh_cwd s) p true with
          | None => path_part s de name fl (fc_func fl) (d_track de) (Some (ETalias (Some p)))
          | Some _ => path_part (Sh (sh_path s) (sh_cwd s) (tset (sh_tal s) name None)) de name fl (fc_func fl) (d_track de) (Some (ETalias None))
          end
        | Some None => path_part s de name fl (fc_func fl) (d_track de) (Some (ETalias None))
        | None => path_part s de name fl (fc_func fl) (d_track de) None
        end
      else path_part s de name fl (fc_func fl) (d_track de) None
    | Some _ => path_part s de name fl (fc_func fl) (d_track de) tp
    end.

(** exec.c:939-953 *)
Definition flushcom (all : bool) (t : taliases) : taliases :=
  map (fun e => let '(n, p) := e in
         (n, match p with
             | Some q => if all || negb (match q with c :: _ => ceq c "/" | [] => false end) then None else p
             | None => None
             end)) t.

(** The commands that matter: a command is looked up, PATH gets a value (var.c:981-985) or is
    unset (var.c:1103-1107), cd (c_ksh.c:105-129), alias -t name (c_ksh.c:957-973), unalias
    -t name and alias -tr (c_ksh.c:1010-1035: entries that are not DEFINED are not found) *)
Inductive op := OLookup (de : defs) (name : cstr) (fl : fcflags) | OPath (p : cstr) | OUnsetPath | OCd (d : D) | OTrack (name : cstr) | OUntrack (name : cstr) | OFlush.
Definition step (s : shell) (o : op) : shell :=
  match o with
  | OLookup de name fl => snd (findcom s de name fl)
  | OPath p => Sh p (sh_cwd s) (flushcom true (sh_tal s))
  | OUnsetPath => Sh def_path (sh_cwd s) (flushcom true (sh_tal s))
  | OCd d => Sh (sh_path s) d (flushcom false (sh_tal s))
  | OTrack name => Sh (sh_path s) (sh_cwd s) (tset (sh_tal s) name (srch (sh_cwd s) name (sh_path s) true))
  | OUntrack name => Sh (sh_path s) (sh_cwd s) (tdel (sh_tal s) name)
  | OFlush => Sh (sh_path s) (sh_cwd s) []
  end.
End Files.
Arguments Sh {D}. Arguments sh_path {D}. Arguments sh_cwd {D}. Arguments sh_tal {D}.
