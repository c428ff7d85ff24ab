(** Pathname expansion: eval.c:982-1145 glob, glob_str, globit; misc.c:832-845 qsortp, xstrcmp.

    The source path is cut at its slashes; that the slashes are for a while replaced by NUL is not
    modelled.  intrcheck (interrupts) and the allocation of the results are not modelled.  The file
    system does not change during one expansion: it is a record of the answers of opendir and readdir,
    lstat, and stat, for every path that can be asked. *)
From Verif Require Import Base Glob_model XString_model.
From Verif Require Table_model.
Local Open Scope nat_scope.

(** S_ISDIR, S_ISLNK, anything else *)
Inductive ftype := FDir | FLink | FOther.
Record fsys := Fs {
  readdir : cstr -> option (list cstr);   (* [None]: opendir fails *)
  lstat : cstr -> option ftype;
  stat : cstr -> option ftype }.
(** GF_EXCHECK, GF_GLOBBED, GF_MARKDIR (eval.c:1000-1003) *)
Record gflags := GF { exch : bool; globbed : bool; markdir : bool }.
(** The string built and the paths put in wp; a store outside of the string; out of fuel. *)
Inductive gres := GOk (x : xstr) (out : list cstr) | GOob | GFuel.

(** storing several bytes at xp *)
Fixpoint xputs (t : cstr) (x : xstr) : option xstr :=
  match t with
  | [] => Some x
  | c :: t => match xput c x with Some x => xputs t x | None => None end
  end.
Definition empty (t : cstr) : bool := match t with [] => true | _ => false end.
(** xp[-1] *)
Definition last_is (c : char) (t : cstr) : bool := match rev t with d :: _ => ceq d c | [] => false end.
Definition is_dir (t : option ftype) : bool := match t with Some FDir => true | _ => false end.

(** eval.c:1039-1081: the end of the source path *)
Definition at_end (fs : fsys) (ck : gflags) (x : xstr) : gres :=
  let p := xtext x in
  if exch ck || (markdir ck && globbed ck) then
    match lstat fs p with
    | None => GOk x []
    | Some t =>
      let dir := match t with FDir => true | FLink => is_dir (stat fs p) | FOther => false end in
      if exch ck && negb (empty p) && last_is "/" p && negb dir then GOk x []
      else if markdir ck && globbed ck && negb (empty p) && negb (last_is "/" p) && dir then
        match xput "/" x with
        | None => GOob
        | Some x => match xput NUL x with None => GOob | Some _ => GOk x [xtext x] end
        end
      else GOk x [p]
    end
  else GOk x [p].

(** eval.c:1085-1088: the slashes at sp *)
Fixpoint slashes (x : xstr) (sp : cstr) : option (xstr * cstr) :=
  match sp with
  | c :: r =>
    if ceq c "/" then match xput c (xcheckn 1 x) with Some x => slashes x r | None => None end
    else Some (x, sp)
  | [] => Some (x, [])
  end.
(** eval.c:1089-1097: the text up to the next slash, and what follows the slash *)
Fixpoint cut (sp : cstr) : cstr * option cstr :=
  match sp with
  | [] => ([], None)
  | c :: r => if ceq c "/" then ([], Some r) else let '(a, b) := cut r in (c :: a, b)
  end.
(** gmatch(name, sp, true) (misc.c:502-524) *)
Definition file_match (name p : cstr) : option bool :=
  do_gmatch (S (length p * S (length name) + length name)) name p 0.
(** eval.c:1123-1128 *)
Definition skipped (name p : cstr) : option bool :=
  if str_eqb name (L ".") || str_eqb name (L "..") then Some true
  else if ceq (at_ name 0) "." && negb (ceq (at_ p 0) ".") then Some true
  else match file_match name p with Some b => Some (negb b) | None => None end.

(** eval.c:1121-1138: the loop over the directory; [rec]: globit of the rest *)
Fixpoint each (rec : xstr -> gres) (p : cstr) (n : nat) (x : xstr) (names : list cstr) : gres :=
  match names with
  | [] => GOk x []
  | nm :: names =>
    match skipped nm p with
    | None => GFuel
    | Some true => each rec p n x names
    | Some false =>
      let x := xcheckn (S (length nm)) x in
      match xputs nm x with
      | None => GOob
      | Some x =>
        match xput NUL x with
        | None => GOob
        | Some _ =>
          match rec x with
          | GOk x out =>
            match each rec p n (xback n x) names with
            | GOk x out' => GOk x (out ++ out')
            | r => r
            end
          | r => r
          end
        end
      end
    end
  end.

(** eval.c:1023-1145 globit *)
Fixpoint globit (fuel : nat) (fs : fsys) (x : xstr) (sp : option cstr) (ck : gflags) : gres :=
  match fuel with
  | O => GFuel
  | S fuel =>
    match sp with
    | None => at_end fs ck x
    | Some sp =>
      match (if empty (xtext x) then Some x else xput "/" x) with        (* eval.c:1083-1084 *)
      | None => GOob
      | Some x =>
        match slashes x sp with
        | None => GOob
        | Some (x, sp) =>
          let '(p, np) := cut sp in
          if negb (has_globbing p) then
            let x := xcheckn (S (length p)) x in
            (* debunk is given xend - xp bytes: it would cut the text short, or store outside, with less
               than the length of p and a NUL *)
            if xlen x <? length (xtext x) + S (length p) then GOob
            else match xputs (debunk p) x with
            | None => GOob
            | Some x => match xput NUL x with None => GOob | Some _ => globit fuel fs x np ck end
            end
          else
            match xput NUL x with
            | None => GOob
            | Some _ =>
              match readdir fs (if empty (xtext x) then L "." else xtext x) with
              | None => GOk x []
              | Some names =>
                each (fun x => globit fuel fs x np
                        (GF (match np with Some _ => true | None => false end) true (markdir ck)))
                     p (length (xtext x)) x names
              end
            end
        end
      end
    end
  end.

(** eval.c:1008-1021 glob_str *)
Definition glob_str (fs : fsys) (markdirs : bool) (cp : cstr) : gres :=
  globit (S (S (length cp))) fs (xinit 256) (Some cp) (GF false false markdirs).

(** qsortp is qsort(3) with strcmp: any sorting function gives the same, insertion sort stands for it *)
Fixpoint ins (s : cstr) (l : list cstr) : list cstr :=
  match l with
  | [] => [s]
  | x :: l' => if Table_model.str_le s x then s :: l else x :: ins s l'
  end.
Fixpoint sorted_of (l : list cstr) : list cstr := match l with [] => [] | s :: l => ins s (sorted_of l) end.

(** eval.c:986-998 glob: the words it adds *)
Definition glob (fs : fsys) (markdirs : bool) (cp : cstr) : option (list cstr) :=
  match glob_str fs markdirs cp with
  | GOk _ [] => Some [debunk cp]
  | GOk _ l => Some (sorted_of l)
  | _ => None
  end.
