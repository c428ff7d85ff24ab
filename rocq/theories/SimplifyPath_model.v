(** Model of path.c:112-176 simplify_path(): in-place rewriting of the NUL
    terminated buffer, with the write cursor [cur], the read cursor [t] and the
    floor [start] as indices.  Reading or writing outside the buffer is UB; Err
    is running out of fuel. *)
From Verif Require Import Base Num_model.

(** *(buf+i) *)
Definition rd (buf : list char) (i : nat) : res char :=
  match nth_error buf i with Some c => Ok c | None => UB end.

(** *(buf+i) = c *)
Definition wr (buf : list char) (i : nat) (c : char) : res (list char) :=
  if i <? length buf then Ok (firstn i buf ++ c :: skipn (S i) buf) else UB.

Definition bind {A B} (m : res A) (f : A -> res B) : res B :=
  match m with Ok a => f a | Err => Err | UB => UB end.
Notation "'do' x <- m ; e" := (bind m (fun x => e)) (at level 200, x name, m at level 100, e at level 200).

(** path.c:138-139  while ( *t == '/') t++; *)
Fixpoint skip_slashes (fuel : nat) (buf : list char) (t : nat) : res nat :=
  match fuel with
  | O => Err
  | S f => do c <- rd buf t ; if ceq c "/" then skip_slashes f buf (S t) else Ok t
  end.

(** path.c:161-162  while (--cur > start && *cur != '/') ; *)
Fixpoint back_up (buf : list char) (start cur : nat) : res nat :=
  match cur with
  | O => UB
  | S cur' =>
    if start <? cur' then
      do c <- rd buf cur' ; if ceq c "/" then Ok cur' else back_up buf start cur'
    else Ok cur'
  end.

(** path.c:172-173  while ( *t && *t != '/') *cur++ = *t++; *)
Fixpoint copy_comp (fuel : nat) (buf : list char) (cur t : nat) : res (list char * nat * nat) :=
  match fuel with
  | O => Err
  | S f =>
    do c <- rd buf t ;
    if is_nul c || ceq c "/" then Ok (buf, cur, t)
    else do buf' <- wr buf cur c ; copy_comp f buf' (S cur) (S t)
  end.

(** !c || c == '/' *)
Definition ends_comp (c : char) : bool := is_nul c || ceq c "/".

(** path.c:167-173: an ordinary component *)
Definition ordinary (fuel : nat) (buf : list char) (very_start cur t : nat) : res (list char * nat * nat) :=
  if cur =? very_start then copy_comp fuel buf cur t
  else do buf' <- wr buf cur "/" ; copy_comp fuel buf' (S cur) t.

(** path.c:136-174 the loop *)
Fixpoint simp_loop (fuel : nat) (isrooted : bool) (very_start : nat)
    (buf : list char) (cur t start : nat) : res (list char) :=
  match fuel with
  | O => Err
  | S f =>
    do t <- skip_slashes (S (length buf)) buf t ;
    do c0 <- rd buf t ;
    if is_nul c0 then
      (* path.c:141-146 *)
      if cur =? 0 then do b <- wr buf cur "." ; wr b (S cur) NUL
      else wr buf cur NUL
    else
      let ord := do r <- ordinary (S (length buf)) buf very_start cur t ;
                 let '(b, cur', t') := r in simp_loop f isrooted very_start b cur' t' start in
      if ceq c0 "." then
        do c1 <- rd buf (t + 1) ;
        if ends_comp c1 then simp_loop f isrooted very_start buf cur (t + 1) start
        else if ceq c1 "." then
          do c2 <- rd buf (t + 2) ;
          if ends_comp c2 then
            if negb isrooted && (cur =? start) then
              (* path.c:154-159 *)
              do r <- (if cur =? very_start then Ok (buf, cur)
                       else do b <- wr buf cur "/" ; Ok (b, S cur)) ;
              let '(b, cur') := r in
              do b <- wr b cur' "." ;
              do b <- wr b (cur' + 1) "." ;
              simp_loop f isrooted very_start b (cur' + 2) (t + 2) (cur' + 2)
            else if cur =? start then simp_loop f isrooted very_start buf cur (t + 2) start
            else do cur' <- back_up buf start cur ;
                 simp_loop f isrooted very_start buf cur' (t + 2) start
          else ord
        else ord
      else ord
  end.

(** the C string held in a buffer: bytes up to the first NUL *)
Fixpoint c_string (buf : list char) : res cstr :=
  match buf with
  | [] => UB
  | c :: b => if is_nul c then Ok [] else do s <- c_string b ; Ok (c :: s)
  end.

(** path.c:112-176; the buffer holds the path and its NUL *)
Definition simplify_path (path : cstr) : res cstr :=
  match path with
  | [] => Ok []
  | c :: _ =>
    let isrooted := ceq c "/" in
    let vs := if isrooted then 1 else 0 in
    do b <- simp_loop (S (S (length path))) isrooted vs (path ++ [NUL]) vs vs vs ;
    c_string b
  end.
