(** Directories, symbolic links and what paths name; what chdir(2) and the others may answer. *)
From Verif Require Import Base SimplifyPath_spec Cd_model.

Inductive node := NDir (i : N) | NLink (t : cstr) | NFile.
(** The directories are numbered; [entry d x] is what the name [x] is in [d], [up d] is its parent. *)
Record fs := Fs { root : N; entry : N -> cstr -> option node; up : N -> N }.
(** A directory has one parent, which is where its name is. *)
Definition tree (f : fs) : Prop :=
  up f (root f) = root f /\ forall d x i, plain x -> entry f d x = Some (NDir i) -> up f i = d.
Definition start (f : fs) (d : N) (p : cstr) : N := if absolute p then root f else d.
(** Walking from [d] along the components, links included, ends in the directory [i]. *)
Inductive reach (f : fs) : N -> list cstr -> N -> Prop :=
| r_end d : reach f d [] d
| r_stay d x l i : x = [] \/ x = L "." -> reach f d l i -> reach f d (x :: l) i
| r_up d l i : reach f (up f d) l i -> reach f d (L ".." :: l) i
| r_down d x e l i : plain x -> entry f d x = Some (NDir e) -> reach f e l i -> reach f d (x :: l) i
| r_link d x t e l i : plain x -> entry f d x = Some (NLink t) -> t <> [] ->
    reach f (start f d t) (components t) e -> reach f e l i -> reach f d (x :: l) i.
(** The path [p] names the directory [i] for a process in [d]. *)
Definition names_from (f : fs) (d : N) (p : cstr) (i : N) : Prop := p <> [] /\ reach f (start f d p) (components p) i.
(** ... for every process *)
Definition names_dir (f : fs) (p : cstr) (i : N) : Prop := absolute p = true /\ reach f (root f) (components p) i.
(** Directories only, from the root *)
Inductive real (f : fs) : list cstr -> N -> Prop :=
| real_root : real f [] (root f)
| real_down l d x i : real f l d -> plain x -> entry f d x = Some (NDir i) -> real f (l ++ [x]) i.
(** A path without links, . and .. *)
Definition is_physical (f : fs) (p : cstr) (i : N) : Prop := exists l, p = "/"%char :: join l /\ real f l i.

(** What the kernel says is true; it may refuse anything (permissions, limits). *)
Record honest_kernel (f : fs) (k : kernel) : Prop := {
  hk_chdir : forall d p i, k_chdir k d p = Some i -> names_from f d p i;
  hk_stat : forall d p i, k_stat k d p = Some i -> names_from f d p i;
  hk_getcwd : forall d p, k_getcwd k d = Some p -> is_physical f p d /\ nul_free p = true;
  hk_link : forall l d x t, real f l d -> plain x -> k_readlink k ("/"%char :: join (l ++ [x])) = RLink t ->
    entry f d x = Some (NLink t) /\ t <> [] /\ nul_free t = true;
  hk_notlink : forall l d x, real f l d -> plain x -> k_readlink k ("/"%char :: join (l ++ [x])) = RInval ->
    exists e, entry f d x = Some e /\ forall t, e <> NLink t
}.
(** readlink(2) does not fail for what exists. *)
Definition reads_links (f : fs) (k : kernel) : Prop :=
  forall l d x e, real f l d -> plain x -> entry f d x = Some e -> k_readlink k ("/"%char :: join (l ++ [x])) <> RErr.
(** The shell knows where it is, or knows that it does not. *)
Definition knows (f : fs) (s : sh) : Prop := wd s = [] \/ names_dir f (wd s) (dir s).

(** ** Where cd goes *)
(** The parts between colons *)
Fixpoint parts (s : cstr) : list cstr :=
  match s with
  | [] => [[]]
  | c :: s => if ceq c ":" then [] :: parts s else match parts s with x :: xs => (c :: x) :: xs | [] => [[c]] end
  end.
(** [p] in the directory [e]; nothing is the current directory *)
Definition inside (e p : cstr) : cstr :=
  match e with [] => p | _ => e ++ (if str_eqb [last e NUL] (L "/") then [] else L "/") ++ p end.
(** The paths that are tried: CDPATH is for those that do not start with /, . or .. *)
Definition tries (file cdp : cstr) : list cstr :=
  if absolute file then [file]
  else match components file with
       | x :: _ => if str_eqb x (L ".") || str_eqb x (L "..") then [file] else map (fun e => inside e file) (parts cdp)
       | [] => [file]
       end.
(** The full path, if the shell knows where it is *)
Definition full (cwd p : cstr) : cstr := if absolute p then p else inside cwd p.
(** A path is taken as it is with -P, and else simplified. *)
Definition asked (physical : bool) (cwd p : cstr) (q : cstr) : Prop :=
  if physical then q = p else SimplifyPath_model.simplify_path (full cwd p) = Num_model.Ok q.
Definition goes (k : kernel) (physical : bool) (s : sh) (p : cstr) (r : option N) : Prop :=
  exists q, asked physical (wd s) p q /\ k_chdir k (dir s) q = r.
(** The directory that the arguments mean *)
Inductive dest (s : sh) : list cstr -> cstr -> Prop :=
| d_home d : home s = Some d -> dest s [] d
| d_arg a : a <> L "-" -> dest s [a] a
| d_old d : oldpwd s = Some d -> dest s [L "-"] d
| d_subst a b x y : wd s <> [] -> wd s = x ++ a ++ y -> (forall x' y', wd s = x' ++ a ++ y' -> length x <= length x') -> dest s [a; b] (x ++ b ++ y).
(** All strings are C strings. *)
Definition nf (v : option cstr) : Prop := forall t, v = Some t -> nul_free t = true.
Definition strings (s : sh) : Prop := nul_free (wd s) = true /\ nf (pwd s) /\ nf (oldpwd s) /\ nf (home s) /\ nf (cdpath s).
(** Several cd commands: with -P or not, and the arguments *)
Fixpoint cds (k : kernel) (n : nat) (l : list (bool * list cstr)) (s : sh) : Num_model.res sh :=
  match l with
  | [] => Num_model.Ok s
  | (ph, args) :: l => match c_cd k n false ph args s with
                       | Num_model.Ok (_, _, s) => cds k n l s
                       | Num_model.Err => Num_model.Err
                       | Num_model.UB => Num_model.UB
                       end
  end.

(** ** A kernel that knows the directories *)
Fixpoint resolve (f : fs) (n : nat) {struct n} : N -> list cstr -> option N :=
  fix go (d : N) (l : list cstr) {struct l} : option N :=
    match l with
    | [] => Some d
    | x :: l =>
        if str_eqb x [] || str_eqb x (L ".") then go d l
        else if str_eqb x (L "..") then go (up f d) l
        else match entry f d x with
             | Some (NDir e) => go e l
             | Some (NLink [] ) => None
             | Some (NLink t) => match n with
                                 | O => None
                                 | S n => match resolve f n (start f d t) (components t) with Some e => go e l | None => None end
                                 end
             | _ => None
             end
    end.
Fixpoint walk (f : fs) (d : N) (l : list cstr) : option N :=
  match l with
  | [] => Some d
  | x :: l => match entry f d x with Some (NDir e) => walk f e l | _ => None end
  end.
Definition lookup (f : fs) (n : nat) (d : N) (p : cstr) : option N :=
  if str_eqb p [] then None else resolve f n (start f d p) (components p).
Definition readlink_in (f : fs) (p : cstr) : lres :=
  let c := tl (components p) in
  match walk f (root f) (removelast c) with
  | Some d => match entry f d (last c []) with
              | Some (NLink t) => if negb (str_eqb t []) && nul_free t then RLink t else RErr
              | Some _ => RInval
              | None => RErr
              end
  | None => RErr
  end.
Definition kernel_of (f : fs) (g : N -> option cstr) : kernel :=
  Kernel (lookup f 40) (readlink_in f) (lookup f 40) (fun p => match lookup f 40 (root f) p with Some _ => true | None => false end) g.
