(** What pathname expansion is to give. *)
From Verif Require Import Base Glob_spec Pathglob_model.
From Verif Require Table_spec.
From Coq Require Import Sorting.Sorted.
Local Open Scope nat_scope.

(** A component of a path: text, or a pattern.  Text is a list of characters, with a flag for those that
    are written without quotes and could be part of a pattern (they are marked with MAGIC). *)
Inductive comp := CText (t : list (bool * char)) | CPat (q : pseq).
Definition enc_comp (c : comp) : cstr :=
  match c with
  | CText t => concat (map (fun p => mbyte (fst p) (snd p)) t)
  | CPat q => enc_seq q
  end.
(** A path: each component with the number of slashes before it, not counting the one that separates it from
    the component before it. *)
Definition path := list (nat * comp).
Fixpoint enc_path (p : path) : cstr :=
  match p with
  | [] => []
  | [(n, c)] => repeat "/"%char n ++ enc_comp c
  | (n, c) :: p => repeat "/"%char n ++ enc_comp c ++ "/"%char :: enc_path p
  end.

(** Text has no pattern in it: no star or question mark, no pattern list, and no bracket that is closed. *)
Fixpoint ok_text (t : list (bool * char)) : Prop :=
  match t with
  | [] => True
  | (m, c) :: t =>
    c <> NUL /\ c <> "/"%char /\
    (if m then c <> "*"%char /\ c <> "?"%char /\ (ccode c < 128)%Z /\ (c = "["%char -> ~ In (true, "]"%char) t)
     else c <> MAGIC) /\ ok_text t
  end.
Fixpoint some_glob (q : pseq) : Prop :=
  match q with
  | SNil => False
  | SCons (ELit _ _) q => some_glob q
  | SCons _ _ => True
  end.
Definition ok_comp (c : comp) : Prop :=
  match c with
  | CText t => ok_text t
  | CPat q => ok_seq q /\ some_glob q
  end /\ ~ In "/"%char (enc_comp c).
(** Only the last component may be empty (a slash at the end). *)
Definition ok_path (p : path) : Prop :=
  p <> [] /\ Forall (fun nc => ok_comp (snd nc)) p /\
  forall p1 n c p2, p = p1 ++ (n, c) :: p2 -> enc_comp c = [] -> p2 = [].

(** The names that a component can stand for in the directory [dir]. *)
Definition starts_dot (q : pseq) : Prop := exists q', q = SCons (ELit false "."%char) q'.
Definition names (fs : fsys) (dir : cstr) (c : comp) (nm : cstr) : Prop :=
  match c with
  | CText t => nm = map snd t
  | CPat q =>
    (exists l, readdir fs (if empty dir then L "." else dir) = Some l /\ In nm l) /\
    nm <> L "." /\ nm <> L ".." /\
    (forall r, nm = "."%char :: r -> starts_dot q) /\
    lang_seq q nm
  end.
(** Going down the components from the directory [pre]. *)
Inductive walks (fs : fsys) : cstr -> path -> cstr -> Prop :=
| walk_end : forall pre, walks fs pre [] pre
| walk_step : forall pre n c p nm r,
    names fs ((if empty pre then [] else pre ++ L "/") ++ repeat "/"%char n) c nm ->
    walks fs (((if empty pre then [] else pre ++ L "/") ++ repeat "/"%char n) ++ nm) p r ->
    walks fs pre ((n, c) :: p) r.

Definition is_pat (c : comp) : Prop := match c with CPat _ => True | _ => False end.
Definition has_pat (p : path) : Prop := exists nc, In nc p /\ is_pat (snd nc).
Definition last_pat (p : path) : Prop := exists p' n q, p = p' ++ [(n, CPat q)].
(** a directory, or a symbolic link to one *)
Definition directory (fs : fsys) (s : cstr) : Prop :=
  lstat fs s = Some FDir \/ (lstat fs s = Some FLink /\ stat fs s = Some FDir).
(** Text after a pattern has to exist, and be a directory if it ends in a slash. *)
Definition exists_ (fs : fsys) (p : path) (s : cstr) : Prop :=
  has_pat p -> last_pat p \/ (lstat fs s <> None /\ forall u, s = u ++ L "/" -> directory fs s).
(** The paths that match. *)
Definition matches (fs : fsys) (p : path) (s : cstr) : Prop := walks fs [] p s /\ exists_ fs p s.
(** The same with the option markdirs: directories get a slash. *)
Definition marked (fs : fsys) (p : path) (s : cstr) : Prop :=
  exists u, matches fs p u /\ (has_pat p -> lstat fs u <> None) /\
    ((has_pat p /\ directory fs u /\ (~ exists v, u = v ++ L "/") /\ s = u ++ L "/") \/
     (~ (has_pat p /\ directory fs u /\ ~ exists v, u = v ++ L "/") /\ s = u)).

(** The text of a path as it was written, without quotes. *)
Definition text_item (i : bitem) : cstr :=
  match i with
  | BChar _ c => [c]
  | BRange _ c _ d => [c; "-"%char; d]
  | BClass n => L "[:" ++ n ++ L ":]"
  end.
Definition text_bracket (b : bracket) : cstr :=
  L "[" ++ (if b_not b then L "!" else []) ++ match b_lead b with Some c => [c] | None => [] end ++
  concat (map text_item (b_items b)) ++ (if b_trail b then L "-" else []) ++ L "]".
Definition text_op (o : op) : cstr :=
  match o with OStar => L "*(" | OPlus => L "+(" | OOpt => L "?(" | OAt => L "@(" | OPlain => L "(" | ONot => L "!(" end.
Fixpoint text_elt (e : elt) : cstr :=
  match e with
  | ELit _ c => [c]
  | EAny => L "?"
  | EStar => L "*"
  | EBracket b => text_bracket b
  | EExt o a => text_op o ++ text_alts a
  end
with text_seq (q : pseq) : cstr := match q with SNil => [] | SCons e q => text_elt e ++ text_seq q end
with text_alts (a : alts) : cstr :=
  match a with AOne q => text_seq q ++ L ")" | ACons q a => text_seq q ++ L "|" ++ text_alts a end.
Definition text_comp (c : comp) : cstr := match c with CText t => map snd t | CPat q => text_seq q end.
Fixpoint text_path (p : path) : cstr :=
  match p with
  | [] => []
  | [(n, c)] => repeat "/"%char n ++ text_comp c
  | (n, c) :: p => repeat "/"%char n ++ text_comp c ++ "/"%char :: text_path p
  end.

(** Directories list names without slashes and NULs, each once. *)
Definition ok_name (nm : cstr) : Prop := nm <> [] /\ ~ In "/"%char nm /\ ~ In NUL nm.
Definition ok_fs (fs : fsys) : Prop :=
  forall d l, readdir fs d = Some l -> NoDup l /\ Forall ok_name l.
(** Ascending in the order of strcmp, each once. *)
Definition ascending (l : list cstr) : Prop := StronglySorted Table_spec.str_lt l.
