(** Models of path.c:27-106 make_path() and exec.c:956-1024 search_access(),
    search().  A pointer into a colon list is the remaining suffix; NULL is None.
    XString growth (XcheckN) is not modelled here; see XString_model. *)
From Verif Require Import Base.

(** scan to the next ':' or the end: path.c:71-73, exec.c:1003-1004 *)
Fixpoint to_colon (s : cstr) : cstr * cstr :=
  match s with
  | [] => ([], [])
  | c :: s' => if ceq c ":" then ([], s) else let '(a, r) := to_colon s' in (c :: a, r)
  end.

(** *pend ? ++pend : NULL   (path.c:74) and  if ( *sp++ == '\0') sp = NULL
    (exec.c:1018-1019) *)
Definition after (r : cstr) : option cstr :=
  match r with [] => None | _ :: r' => Some r' end.

Definition last_char (s : cstr) : char := last s NUL.

(** copy a directory and the slash it needs: path.c:79-84 and 87-92 *)
Definition put_dir (d : cstr) : cstr :=
  if ceq (last_char d) "/" then d else d ++ ["/"%char].

(** path.c:55-62 leading "." or ".." component: CDPATH not used *)
Definition dot_file (file : cstr) : bool :=
  match file with
  | c0 :: r =>
    if ceq c0 "." then
      match r with
      | [] => true
      | c1 :: r' =>
        if ceq c1 "." then match r' with [] => true | c2 :: _ => ceq c2 "/" end
        else ceq c1 "/"
      end
    else false
  | [] => false
  end.

(** path.c:37-106; cwd = None models a NULL cwd.
    Result: the string, the return value, *phys_pathp, *cdpathp. *)
Definition make_path (cwd : option cstr) (file : cstr) (cdpath : option cstr)
    : cstr * bool * nat * option cstr :=
  match file with
  | c0 :: _ =>
    if ceq c0 "/" then (file, false, 0, None) else
    let use_cdpath := negb (dot_file file) in
    let use_cdpath := match cdpath with None => false | Some _ => use_cdpath end in
    let '(elt, next) :=
      match cdpath with
      | Some plist => if use_cdpath then let '(a, r) := to_colon plist in (a, after r) else ([], cdpath)
      | None => ([], cdpath)
      end in
    let first :=
      if negb use_cdpath || match elt with [] => true | e :: _ => negb (ceq e "/") end then
        match cwd with Some (d :: ds) => put_dir (d :: ds) | _ => [] end
      else [] in
    let second := match elt with [] => [] | _ => if use_cdpath then put_dir elt else [] end in
    (first ++ second ++ file,
     match elt with [] => false | _ => use_cdpath end,
     length first,
     if use_cdpath then next else None)
  | [] =>
    (* file = "": file[0] is the NUL, neither '/' nor '.' *)
    let use_cdpath := match cdpath with None => false | Some _ => true end in
    let '(elt, next) :=
      match cdpath with
      | Some plist => let '(a, r) := to_colon plist in (a, after r)
      | None => ([], cdpath)
      end in
    let first :=
      if negb use_cdpath || match elt with [] => true | e :: _ => negb (ceq e "/") end then
        match cwd with Some (d :: ds) => put_dir (d :: ds) | _ => [] end
      else [] in
    let second := match elt with [] => [] | _ => put_dir elt end in
    (first ++ second, match elt with [] => false | _ => true end, length first,
     if use_cdpath then next else None)
  end.

(** c_ksh.c:95-106 the caller's loop: make_path until the list is exhausted.
    None = out of fuel.  (c_cd stops early when chdir succeeds.) *)
Fixpoint make_paths (fuel : nat) (cwd : option cstr) (file : cstr) (cdpath : option cstr)
    : option (list (cstr * bool * nat)) :=
  match fuel with
  | O => None
  | S f =>
    let '(s, r, ph, next) := make_path cwd file cdpath in
    match next with
    | None => Some [(s, r, ph)]
    | Some _ => match make_paths f cwd file next with
                | Some l => Some ((s, r, ph) :: l) | None => None end
    end
  end.

(** ** searching PATH *)
(** what the calls on one path name report *)
Record fileinfo := { is_reg : bool; is_dir : bool; any_x : bool }.
Section FS.
  Variable stat : cstr -> option fileinfo.      (* stat(2) *)
  Variable access : cstr -> bool -> option nat. (* access(2): mode is X_OK; None = success, Some errno *)

  Definition EISDIR := 21.
  Definition EACCES := 13.

  (** exec.c:956-977; [x] is mode == X_OK; returns success and the new *errnop *)
  Definition search_access (path : cstr) (x : bool) (errno : nat) : bool * nat :=
    match stat path with
    | None => (false, errno)
    | Some st =>
      let '(ok, err) :=
        match access path x with
        | Some e => (false, e)
        | None => if x && (negb (is_reg st) || negb (any_x st))
                  then (false, if is_dir st then EISDIR else EACCES) else (true, 0)
        end in
      (ok, if negb (err =? 0) && (errno =? 0) then err else errno)
    end.

  (** exec.c:1001-1020; one iteration per list element; None = out of fuel *)
  Fixpoint search_loop (fuel : nat) (name sp : cstr) (x : bool) (errno : nat) : option (option cstr * nat) :=
    match fuel with
    | O => None
    | S f =>
      let '(d, r) := to_colon sp in
      let cand := match d with [] => name | _ => d ++ "/"%char :: name end in
      let '(ok, errno) := search_access cand x errno in
      if ok then Some (Some cand, errno)
      else match after r with
           | None => Some (None, errno)
           | Some sp' => search_loop f name sp' x errno
           end
    end.

  (** exec.c:982-1024 *)
  Definition search (name path : cstr) (x : bool) : option (option cstr * nat) :=
    if mem "/" name then
      let '(ok, e) := search_access name x 0 in Some (if ok then Some name else None, e)
    else search_loop (S (length path)) name path x 0.
End FS.
