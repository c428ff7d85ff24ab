(** What the commands that say what a name means say, without reference to Whence_model's
    functions. *)
From Verif Require Import Base Search_model Search_spec Findcom_model Findcom_spec Quote_model Whence_model.
Local Open Scope Z_scope.

(** what a name can mean *)
Inductive kind :=
| KKeyword | KAlias (exported : bool) (val : cstr) | KBuiltin (special : bool)
| KFunction (exported traced : bool)
| KUndefined (exported traced : bool) (from : option cstr)                         (* to be loaded *)
| KFile (p : cstr) | KTracked (exported : bool) (p : cstr) | KNone.

(** ** The text.  [v]: the long form (type, whence -v, command -V); [cmd]: command *)
Inductive autoload_text : option cstr -> cstr -> Prop :=
| At_none : autoload_text None []
| At_file f : autoload_text (Some f) (L " (autoload from " ++ f ++ L ")").
Inductive long_text (id : cstr) : kind -> cstr -> Prop :=
| Lt_keyword : long_text id KKeyword (id ++ L " is a reserved word")
| Lt_alias v : long_text id (KAlias false v) (id ++ L " is an alias for " ++ print_value_quoted v)
| Lt_alias_x v : long_text id (KAlias true v) (id ++ L " is an exported alias for " ++ print_value_quoted v)
| Lt_builtin : long_text id (KBuiltin false) (id ++ L " is a shell builtin")
| Lt_special : long_text id (KBuiltin true) (id ++ L " is a special shell builtin")
| Lt_function : long_text id (KFunction false false) (id ++ L " is a function")
| Lt_function_x : long_text id (KFunction true false) (id ++ L " is an exported function")
| Lt_function_t : long_text id (KFunction false true) (id ++ L " is a traced function")
| Lt_function_xt : long_text id (KFunction true true) (id ++ L " is an exported traced function")
| Lt_undefined x t f text from : long_text id (KFunction x t) (text ++ L " function") -> autoload_text f from ->
    long_text id (KUndefined x t f) (text ++ L " undefined" ++ from ++ L " function")
| Lt_file p : long_text id (KFile p) (id ++ L " is " ++ p)
| Lt_tracked p : long_text id (KTracked false p) (id ++ L " is a tracked alias for " ++ p)
| Lt_tracked_x p : long_text id (KTracked true p) (id ++ L " is a tracked exported alias for " ++ p)
| Lt_none : long_text id KNone (id ++ L " not found").
Inductive short_text (cmd : bool) (id : cstr) : kind -> cstr -> Prop :=
| St_keyword : short_text cmd id KKeyword id
| St_builtin s : short_text cmd id (KBuiltin s) id
| St_function x t : short_text cmd id (KFunction x t) id
| St_undefined x t f : short_text cmd id (KUndefined x t f) id
| St_alias x v : cmd = false -> short_text cmd id (KAlias x v) (print_value_quoted v)
| St_alias_cmd x v : cmd = true -> short_text cmd id (KAlias x v) (L "alias " ++ id ++ L "=" ++ print_value_quoted v)
| St_file p : short_text cmd id (KFile p) p
| St_tracked x p : short_text cmd id (KTracked x p) p.

(** ** The meaning *)
Section Means.
Context {D : Type} (stat : D -> cstr -> option fileinfo) (access : D -> cstr -> bool -> option nat) (def_path : cstr).
Context (kw : cstr -> bool) (al : cstr -> option (bool * bool * cstr)) (fattr : cstr -> bool * bool) (texp : cstr -> bool) (de : defs).
(** the current directory, PATH, the tracked aliases at the start *)
Context (d : D) (path : cstr) (tal : taliases).
(** [only]: only files (whence -p); [std]: the standard PATH (command -p) *)
Context (only std : bool).
Definition fl_of : fcflags := if only then FC false false false false true std else FC true true true true true std.
Definition right (id : cstr) (e : entry) : Prop := right_entry stat access def_path d path de id fl_of (Some e).
Definition named (id : cstr) : Prop := only = false /\ (kw id = true \/ exists x v, al id = Some (true, x, v)).
(** a file is tracked if it is looked up in PATH, and either all are or this one is already *)
Definition tracked (id : cstr) : Prop := ~ In "/"%char id /\ std = false /\ (d_track de = true \/ exists x, tfind tal id = Some x).
(** the function is one of the table *)
Definition in_table (id : cstr) : Prop := exists f b, In f (d_funs de) /\ f id = Some b.
Inductive means (id : cstr) : kind -> Prop :=
| Me_keyword : only = false -> kw id = true -> means id KKeyword
| Me_alias x v : only = false -> kw id = false -> al id = Some (true, x, v) -> means id (KAlias x v)
| Me_builtin b : ~ named id -> right id (EBi b) -> means id (KBuiltin (bi_spec b))
| Me_function x t : ~ named id -> right id (EFunc None) -> fattr id = (x, t) -> means id (KFunction x t)
| Me_undefined f x t : ~ named id -> right id (EFunc (Some f)) -> in_table id -> fattr id = (x, t) -> means id (KUndefined x t f)
| Me_fpath f : ~ named id -> right id (EFunc (Some f)) -> ~ in_table id -> means id (KUndefined false false f)
| Me_file p : ~ named id -> right id (EExec (Some p)) -> ~ tracked id -> means id (KFile p)
| Me_tracked p : ~ named id -> right id (ETalias (Some p)) -> tracked id -> means id (KTracked (texp id) p)
| Me_none : ~ named id -> right id (EExec None) -> means id KNone.

(** ** The list: the long form says something about every name; the short one stops at a
    name that means nothing *)
Inductive long_list : list cstr -> cstr -> bool -> Prop :=
| Ll_nil : long_list [] [] true
| Ll_found id ids k t out ok : means id k -> k <> KNone -> long_text id k t -> long_list ids out ok -> long_list (id :: ids) (t ++ [NL] ++ out) ok
| Ll_none id ids t out ok : means id KNone -> long_text id KNone t -> long_list ids out ok -> long_list (id :: ids) (t ++ [NL] ++ out) false.
Inductive short_list (cmd : bool) : list cstr -> cstr -> bool -> Prop :=
| Sl_nil : short_list cmd [] [] true
| Sl_found id ids k t out ok : means id k -> k <> KNone -> short_text cmd id k t -> short_list cmd ids out ok -> short_list cmd (id :: ids) (t ++ [NL] ++ out) ok
| Sl_none id ids : means id KNone -> short_list cmd (id :: ids) [] false.
End Means.
