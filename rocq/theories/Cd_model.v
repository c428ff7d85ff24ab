(** Model of the current directory: path.c:37-110 make_path, 180-197 set_current_wd, 199-272 get_phys_path;
    c_ksh.c:16-161 c_cd, 163-202 c_pwd; main.c:290-312.

    Directories are numbers.  What the kernel answers is a record: chdir(2) from a directory, readlink(2) of an
    absolute path, stat(2), access(2), getcwd(3).  The options are already read (ksh_getopt is in Opt_model); memory
    (XString, the 4096 bytes for a link; symlink(2) makes no longer ones) and messages are left out; flushcom is in
    Findcom_model.  PWD and OLDPWD may be read only, so that setstr fails, which is ignored (c_ksh.c:131-144). *)
From Verif Require Import Base Num_model SimplifyPath_model.

(** ** path.c:37-110 make_path *)
(** The first entry of a list with colons, and what comes after its colon (path.c:78-84). *)
Fixpoint upto_colon (p : cstr) : cstr * option cstr :=
  match p with
  | [] => ([], None)
  | c :: p => if ceq c ":" then ([], Some p) else let (e, r) := upto_colon p in (c :: e, r)
  end.
Definition empty (p : cstr) : bool := match p with [] => true | _ => false end.
Definition first_is (c : char) (p : cstr) : bool := ceq (nth 0 p NUL) c.
(** path.c:65-72: . and .. and what starts with ./ and ../ *)
Definition dotted (file : cstr) : bool :=
  first_is "." file &&
  (let c := nth 1 file NUL in
   let c := if ceq c "." then nth 2 file NUL else c in
   ceq c "/" || is_nul c).
Definition with_slash (p : cstr) : cstr := if ceq (last p NUL) "/" then p else p ++ L "/".
(** The path; where its physical part starts; whether an entry of CDPATH is in it; the rest of CDPATH. *)
Definition make_path (cwd file : cstr) (cdpath : option cstr) : cstr * nat * bool * option cstr :=
  if first_is "/" file then (file, 0, false, None)
  else
    let '(use, elem, rest) :=
      match cdpath with
      | None => (false, [], None)
      | Some p => if dotted file then (false, [], None) else let (e, r) := upto_colon p in (true, e, r)
      end in
    let pre := if (negb use || empty elem || negb (first_is "/" elem)) && negb (empty cwd) then with_slash cwd else [] in
    let el := if use && negb (empty elem) then with_slash elem else [] in
    (pre ++ el ++ file, length pre, use && negb (empty elem), rest).

(** ** path.c:199-272 get_phys_path, do_phys_path *)
Inductive lres := RLink (t : cstr) | RInval | RErr.
Record kernel := Kernel {
  k_chdir : N -> cstr -> option N;
  k_readlink : cstr -> lres;
  k_stat : N -> cstr -> option N;
  k_access : cstr -> bool;
  k_getcwd : N -> option cstr
}.
(** path.c:227-232: the components between slashes that are not empty *)
Definition flush (x : cstr) (l : list cstr) : list cstr := if empty x then l else x :: l.
Fixpoint names (x : cstr) (p : cstr) : list cstr :=
  match p with
  | [] => flush x []
  | c :: p => if ceq c "/" then flush x (names [] p) else names (x ++ [c]) p
  end.
(** path.c:236-240 *)
Fixpoint drop_slash (p : cstr) : cstr := match p with [] => [] | c :: p => if ceq c "/" then p else drop_slash p end.
Definition strip (p : cstr) : cstr := rev (drop_slash (rev p)).
(** [PNull] is NULL; [PFuel]: no more links are followed (there is no such limit in C). *)
Inductive pres := POk (p : cstr) | PNull | PFuel.
Fixpoint phys (k : kernel) (n : nat) {struct n} : cstr -> list cstr -> pres :=
  fix go (out : cstr) (l : list cstr) {struct l} : pres :=
    match l with
    | [] => POk out
    | x :: l =>
        if str_eqb x (L ".") then go out l
        else if str_eqb x (L "..") then go (strip out) l
        else
          let o := out ++ "/"%char :: x in
          match k_readlink k o with
          | RInval => go o l
          | RErr => PNull
          | RLink t =>
              match n with
              | O => PFuel
              | S n => match phys k n (if first_is "/" t then [] else out) (names [] t) with
                       | POk o => go o l
                       | r => r
                       end
              end
          end
    end.
Definition get_phys_path (k : kernel) (n : nat) (p : cstr) : pres :=
  match phys k n [] (names [] p) with
  | POk [] => POk (L "/")
  | r => r
  end.

(** ** cd and pwd *)
Record sh := Sh {
  dir : N (* where the process is *);
  wd : cstr (* current_wd *);
  pwd : option cstr; pwd_ro : bool;
  oldpwd : option cstr; oldpwd_ro : bool;
  home : option cstr;
  cdpath : option cstr
}.
Definition val (v : option cstr) : cstr := match v with Some t => t | None => [] end.
Definition empty_path (o : option cstr) : bool := match o with None => true | Some _ => false end.
(** strstr *)
Fixpoint prefix (p h : cstr) : bool :=
  match p, h with
  | [], _ => true
  | a :: p, b :: h => ceq a b && prefix p h
  | _, _ => false
  end.
(** c_ksh.c:76-98: [None] is "bad substitution" *)
Fixpoint subst_first (old new t : cstr) : option cstr :=
  if prefix old t then Some (new ++ skipn (length old) t)
  else match t with [] => None | c :: t => match subst_first old new t with Some r => Some (c :: r) | None => None end end.
(** c_ksh.c:107-117; the directory reached, the path, whether an entry of CDPATH was used *)
Fixpoint try_dirs (k : kernel) (physical : bool) (d : N) (cwd file : cstr) (f : nat) (cdp : option cstr) : res (option (N * cstr * bool)) :=
  match f with
  | O => Err
  | S f =>
      let '(t, ph, node, rest) := make_path cwd file cdp in
      do t <- (if physical then Ok t else simplify_path t) ;
      match k_chdir k d (if physical then skipn ph t else t) with
      | Some i => Ok (Some (i, t, node))
      | None => match rest with None => Ok None | Some _ => try_dirs k physical d cwd file f rest end
      end
  end.
(** c_ksh.c:122-161: the exit status, what is printed, and the state; [Err]: get_phys_path does not end *)
Definition go_to (k : kernel) (n : nat) (physical printpath : bool) (file : cstr) (s : sh) : res (nat * option cstr * sh) :=
  do r <- try_dirs k physical (dir s) (wd s) file (S (S (length (val (cdpath s))))) (Some (val (cdpath s))) ;
  match r with
  | None => Ok (1, None, s)
  | Some (i, t, node) =>
      let old := if empty (wd s) || oldpwd_ro s then oldpwd s else Some (wd s) in
      do p <- (if first_is "/" t then
                 if physical then match get_phys_path k n t with POk p => Ok (Some p) | PNull => Ok (Some t) | PFuel => Err end
                 else Ok (Some t)
               else Ok None) ;
      match p with
      | Some p =>
          Ok (0, if printpath || node then Some p else None,
              Sh i p (if pwd_ro s then pwd s else Some p) (pwd_ro s) old (oldpwd_ro s) (home s) (cdpath s))
      | None =>
          Ok (0, if printpath || node then Some t else None, Sh i [] (pwd s) (pwd_ro s) old (oldpwd_ro s) (home s) (cdpath s))
      end
  end.
(** c_ksh.c:16-161 *)
Definition c_cd (k : kernel) (n : nat) (restricted physical : bool) (args : list cstr) (s : sh) : res (nat * option cstr * sh) :=
  if restricted then Ok (1, None, s)
  else
    match args with
    | [] => match home s with None => Ok (1, None, s) | Some d => go_to k n physical false d s end
    | [a] =>
        if str_eqb a (L "-") then
          match oldpwd s with None => Ok (1, None, s) | Some d => go_to k n physical true d s end
        else go_to k n physical false a s
    | [a; b] =>
        if empty (wd s) then Ok (1, None, s)
        else match subst_first a b (wd s) with None => Ok (1, None, s) | Some d => go_to k n physical true d s end
    | _ => Ok (1, None, s)
    end.
(** c_ksh.c:163-202, without arguments; [None]: the current directory is not known *)
Definition c_pwd (k : kernel) (n : nat) (physical : bool) (s : sh) : res (option cstr) :=
  do p <- (if empty (wd s) then Ok None
           else if physical then match get_phys_path k n (wd s) with POk p => Ok (Some p) | PNull => Ok None | PFuel => Err end
           else Ok (Some (wd s))) ;
  Ok (match p with
      | Some p => if k_access k p then Some p else k_getcwd k (dir s)
      | None => k_getcwd k (dir s)
      end).
(** main.c:290-312: [d] is where the shell is started, [v] is PWD in its environment *)
Definition startup (k : kernel) (d : N) (v : option cstr) (old home cdpath : option cstr) : res sh :=
  let p := val v in
  let same := match k_stat k d p, k_stat k d (L ".") with Some i, Some j => (i =? j)%N | _, _ => false end in
  let w := if first_is "/" p && same then p else val (k_getcwd k d) in
  do w <- simplify_path w ;
  Ok (Sh d w (if negb (empty w) || negb (empty_path v) then Some w else v) false old false home cdpath).
