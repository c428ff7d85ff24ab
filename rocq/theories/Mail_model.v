(** Checking for mail: mail.c (all functions) and its callers var.c:1046-1055
    (setspec), 1117-1123 (unsetspec) and main.c:629.

    Simplified: a mailbox (struct mbox) is a record in a list, its path and its
    message are the texts they point at, together with the allocation (a number)
    and the offset mb_path points to.  Failing allocations are not modelled.
    The evaluation of a message (substitute, mail.c:216) is an oracle that says
    whether it assigns MAILPATH; the texts that are printed are the messages
    before their substitution, with the path that $_ has during it.  time_t is Z. *)
From Verif Require Import Base Num_model SimplifyPath_model.
Local Open Scope nat_scope.

(** what stat(2) says about a path; None: it fails *)
Record stat_ := St { s_reg : bool; s_size : Z; s_mtime : Z; s_atime : Z }.
Definition fsys := cstr -> option stat_.

(** mail.c:30-35 struct mbox; [mb_at]: the allocation of the text and the offset in it *)
Record mbox_ := Mb { mb_path : cstr; mb_msg : option cstr; mb_at : nat * nat; mb_mtime : Z }.

(** mail.c:43-46, 59 the static variables.  [live]: the saved values of MAILPATH
    that have not been freed; [next]: the number of the next allocation. *)
Record mail := Ml { mplist : list mbox_; m_path : option cstr; m_mtime : Z;
                    lastchk : Z * Z; interval : Z; first : bool; live : list nat; next : nat }.
(** zeroed static variables; first = 1 *)
Definition mail0 : mail := Ml [] None 0 (0, 0)%Z 0 true [] 0.

(** mail.c:110-113, 190-193: the time stamp of a mailbox *)
Definition stamp (fs : fsys) (p : cstr) : Z :=
  match fs p with Some s => if s_reg s then s_mtime s else 0%Z | None => 0%Z end.

(** mail.c:127 strchr(mval, ':') and the NUL stored there *)
Fixpoint cut_colon (s : cstr) : cstr * option cstr :=
  match s with
  | [] => ([], None)
  | c :: r => if ceq c ":" then ([], Some r) else let '(a, b) := cut_colon r in (c :: a, b)
  end.
(** strchr(s + p, c), as an index in s *)
Fixpoint chr_at (c : char) (s : cstr) (p : nat) : option nat :=
  match s with
  | [] => None
  | d :: r =>
    match p with
    | O => if ceq d c then Some 0 else option_map S (chr_at c r 0)
    | S q => option_map S (chr_at c r q)
    end
  end.
(** mail.c:136 memmove(mmsg - 1, mmsg, strlen(mmsg) + 1) *)
Definition squeeze (s : cstr) (i : nat) : cstr := firstn (i - 1) s ++ skipn i s.
(** mail.c:132-141: the first % that is not preceded by a backslash.
    Out of fuel: None. *)
Fixpoint percent (fuel : nat) (s : cstr) (p : nat) : option (cstr * option nat) :=
  match fuel with
  | O => None
  | S f =>
    match chr_at "%" s p with
    | None => Some (s, None)
    | Some i =>
      if (0 <? i) && ceq (nth (i - 1) s NUL) "\" then percent f (squeeze s i) i
      else Some (s, Some i)
    end
  end.
(** mail.c:142-151: path and message of one entry of MAILPATH *)
Definition entry_of (posix : bool) (seg : cstr) : option (cstr * option cstr) :=
  match percent (S (length seg)) seg 0 with
  | None => None
  | Some (s, i) =>
    match (match i with Some _ => i | None => if posix then None else chr_at "?" s 0 end) with
    | Some i => Some (firstn i s, match skipn (S i) s with [] => None | m => Some m end)
    | None => Some (s, None)
    end
  end.
(** mail.c:124-157, 178-195 the loop of mpset and mballoc; [off]: the offset of
    mval in the saved string.  Out of fuel: None. *)
Fixpoint mp_loop (fuel : nat) (posix : bool) (fs : fsys) (id off : nat) (mval : cstr) (l : list mbox_) : option (list mbox_) :=
  match fuel with
  | O => None
  | S f =>
    let '(seg, rest) := cut_colon mval in
    match entry_of posix seg with
    | None => None
    | Some (p, m) =>
      let l := match p with [] => l | _ => Mb p m (id, off) (stamp fs p) :: l end in
      match rest with
      | Some r => mp_loop f posix fs id (off + S (length seg)) r l
      | None => Some l
      end
    end
  end.

(** mail.c:160-173 munset: the path of the last mailbox is freed; a pointer that
    alloc() did not return, or that was freed before: UB *)
Definition munset (l : list mbox_) (lv : list nat) : res (list nat) :=
  match rev l with
  | [] => Ok lv
  | b :: _ => let '(id, off) := mb_at b in
              if (off =? 0) && (if in_dec Nat.eq_dec id lv then true else false) then Ok (remove Nat.eq_dec id lv) else UB
  end.
(** mail.c:115-158 mpset; None: the variable is unset (mpset(NULL)) *)
Definition mpset (posix : bool) (fs : fsys) (v : option cstr) (m : mail) : res (option mail) :=
  do lv <- munset (mplist m) (live m) ;
  match v with
  | None => Ok (Some (Ml [] (m_path m) (m_mtime m) (lastchk m) (interval m) (first m) lv (next m)))
  | Some s =>
    match mp_loop (S (length s)) posix fs (next m) 0 s [] with
    | None => Ok None
    | Some l => Ok (Some (Ml l (m_path m) (m_mtime m) (lastchk m) (interval m) (first m) (next m :: lv) (S (next m))))
    end
  end.
(** mail.c:99-114 mbset *)
Definition mbset (fs : fsys) (p : option cstr) (m : mail) : mail :=
  Ml (mplist m) p (match p with Some p => stamp fs p | None => 0%Z end)
     (lastchk m) (interval m) (first m) (live m) (next m).
(** mail.c:93-97 mcset *)
Definition mcset (z : Z) (m : mail) : mail :=
  Ml (mplist m) (m_path m) (m_mtime m) (lastchk m) z (first m) (live m) (next m).

(** mail.c:19-27 timespecsub, the seconds *)
Definition elapsed (now before : Z * Z) : Z :=
  (let s := fst now - fst before in if snd now - snd before <? 0 then s - 1 else s)%Z.

(** a printed message: the file and the text, None: the default message *)
Definition note := (cstr * option cstr)%type.
(** mail.c:76-82: is there something to say about a mailbox? *)
Definition arrived (fs : fsys) (p : cstr) (seen : Z) : bool :=
  match fs p with
  | Some s => s_reg s && negb (s_size s =? 0)%Z && negb (seen =? s_mtime s)%Z && (s_atime s <=? s_mtime s)%Z
  | None => false
  end.
(** mail.c:75-94 the loop over the mailboxes.  When the evaluation of a message
    assigns MAILPATH, the mailbox whose mb_mtime is then written and the rest of
    the list have been freed: UB. *)
Fixpoint look (sets : note -> bool) (fs : fsys) (l : list mbox_) : res (list note * list mbox_) :=
  match l with
  | [] => Ok ([], [])
  | b :: l =>
    let n := (mb_path b, mb_msg b) in
    let say := arrived fs (mb_path b) (mb_mtime b) in
    if say && sets n then UB
    else do r <- look sets fs l ;
         let '(out, l') := r in
         Ok ((if say then [n] else []) ++ out, Mb (mb_path b) (mb_msg b) (mb_at b) (stamp fs (mb_path b)) :: l')
  end.
(** mail.c:52-97 mcheck; [isset]: the global variable MAIL is set *)
Definition mcheck (sets : note -> bool) (fs : fsys) (now : Z * Z) (isset : bool) (m : mail) : res (list note * mail) :=
  match mplist m, isset with
  | [], false => Ok ([], m)
  | _, _ =>
    let last := if first m then now else lastchk m in
    if (interval m <=? elapsed now last)%Z then
      match mplist m with
      | [] =>
        match m_path m with
        | Some p =>
          Ok (if arrived fs p (m_mtime m) then [(p, None)] else [],
              Ml [] (m_path m) (stamp fs p) now (interval m) false (live m) (next m))
        | None => Ok ([], Ml [] None 0 now (interval m) false (live m) (next m))
        end
      | l =>
        do r <- look sets fs l ;
        let '(out, l') := r in
        Ok (out, Ml l' (m_path m) (m_mtime m) now (interval m) false (live m) (next m))
      end
    else Ok ([], Ml (mplist m) (m_path m) (m_mtime m) last (interval m) false (live m) (next m))
  end.

(** What happens to the mail state while the shell runs: assignments to (None:
    unset of) MAILPATH, MAIL and MAILCHECK, and the check before a prompt *)
Inductive mop :=
| OMailpath (posix : bool) (fs : fsys) (v : option cstr)
| OMail (fs : fsys) (v : option cstr)
| OInterval (z : Z)
| OCheck (fs : fsys) (now : Z * Z) (isset : bool).
(** the state and what each check printed; None: out of fuel *)
Fixpoint mrun (sets : note -> bool) (l : list mop) (m : mail) : res (option (list (list note) * mail)) :=
  match l with
  | [] => Ok (Some ([], m))
  | OMailpath px fs v :: l =>
    do r <- mpset px fs v m ; match r with None => Ok None | Some m => mrun sets l m end
  | OMail fs v :: l => mrun sets l (mbset fs v m)
  | OInterval z :: l => mrun sets l (mcset z m)
  | OCheck fs now i :: l =>
    do r <- mcheck sets fs now i m ;
    let '(out, m) := r in
    do r <- mrun sets l m ; Ok (match r with Some (o, m) => Some (out :: o, m) | None => None end)
  end.
