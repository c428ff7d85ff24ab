(** The test builtin: c_test.c. *)
From Verif Require Import Base Num_model.
Local Open Scope Z_scope.

(** c_test.h:6-20 *)
Inductive top :=
| TO_STNZE | TO_STZER | TO_OPTION | TO_FILAXST | TO_FILEXST | TO_FILREG | TO_FILBDEV | TO_FILCDEV | TO_FILSYM | TO_FILFIFO
| TO_FILSOCK | TO_FILCDF | TO_FILID | TO_FILGID | TO_FILSETG | TO_FILSTCK | TO_FILUID | TO_FILRD | TO_FILGZ | TO_FILTT
| TO_FILSETU | TO_FILWR | TO_FILEX
| TO_STEQL | TO_STNEQ | TO_STLT | TO_STGT | TO_INTEQ | TO_INTNE | TO_INTGT | TO_INTGE | TO_INTLT | TO_INTLE
| TO_FILEQ | TO_FILNT | TO_FILOT.

(** c_test.c:51-77, 78-94 *)
Definition u_ops : list (cstr * top) :=
  [ (L "-a", TO_FILAXST); (L "-b", TO_FILBDEV); (L "-c", TO_FILCDEV); (L "-d", TO_FILID); (L "-e", TO_FILEXST); (L "-f", TO_FILREG);
    (L "-G", TO_FILGID); (L "-g", TO_FILSETG); (L "-h", TO_FILSYM); (L "-H", TO_FILCDF); (L "-k", TO_FILSTCK); (L "-L", TO_FILSYM);
    (L "-n", TO_STNZE); (L "-O", TO_FILUID); (L "-o", TO_OPTION); (L "-p", TO_FILFIFO); (L "-r", TO_FILRD); (L "-s", TO_FILGZ);
    (L "-S", TO_FILSOCK); (L "-t", TO_FILTT); (L "-u", TO_FILSETU); (L "-w", TO_FILWR); (L "-x", TO_FILEX); (L "-z", TO_STZER) ].
Definition b_ops : list (cstr * top) :=
  [ (L "=", TO_STEQL); (L "==", TO_STEQL); (L "!=", TO_STNEQ); (L "<", TO_STLT); (L ">", TO_STGT); (L "-eq", TO_INTEQ); (L "-ne", TO_INTNE);
    (L "-gt", TO_INTGT); (L "-ge", TO_INTGE); (L "-lt", TO_INTLT); (L "-le", TO_INTLE); (L "-ef", TO_FILEQ); (L "-nt", TO_FILNT); (L "-ot", TO_FILOT) ].

(** c_test.c:185-200 test_isop; comparing the second characters first changes
    nothing about the result of the strcmp that follows *)
Definition isop (tbl : list (cstr * top)) (s : cstr) : option top :=
  match s with [] => None | _ => match find (fun e => str_eqb s (fst e)) tbl with Some e => Some (snd e) | None => None end end.

(** What test asks the system.  File types and bits of st_mode are separate
    fields; st_mtim is one number. *)
Inductive ftype := FReg | FDir | FChr | FBlk | FFifo | FLnk | FSock.
Scheme Equality for ftype.
Record fstat := FS { s_type : ftype; s_suid : bool; s_sgid : bool; s_vtx : bool; s_anyx : bool; s_size : Z; s_uid : Z; s_gid : Z;
                     s_mtim : Z; s_dev : Z; s_ino : Z }.
Inductive amode := R_OK | W_OK | X_OK.
(** [w_eval]: evaluate in expr.c, None when it reports an error; assignments made
    inside the operand are not modelled here.  [w_opt]: option() and Flag(). *)
Record world := W { w_opt : cstr -> option bool; w_stat : cstr -> option fstat; w_lstat : cstr -> option fstat;
                    w_access : cstr -> amode -> bool; w_tty : Z -> bool; w_eval : cstr -> option Z; w_euid : Z; w_egid : Z }.

Section Test.
Variable w : world.
Definition st_is (s : cstr) (p : fstat -> bool) : bool := match w_stat w s with Some b => p b | None => false end.

(** c_test.c:359-382 test_eaccess *)
Definition eaccess (path : cstr) (m : amode) : bool :=
  if w_access w path m then
    match m with
    | X_OK => if w_euid w =? 0 then match w_stat w path with
                                    | None => false
                                    | Some b => if ftype_beq (s_type b) FDir then true else s_anyx b end
              else true
    | _ => true
    end
  else false.

(** strcmp on bytes *)
Fixpoint strcmp (a b : cstr) : Z :=
  match a, b with
  | [], [] => 0
  | [], _ :: _ => -1
  | _ :: _, [] => 1
  | x :: a', y :: b' => if ceq x y then strcmp a' b' else if ccode x <? ccode y then -1 else 1
  end.

(** c_test.c:202-355 test_eval with do_eval set, outside [[ ]]: value and
    TEF_ERROR.  A unary operator given a second operand does not look at it; the second
    operand of a binary one is always there. *)
Definition test_eval (op : top) (o1 o2 : cstr) : bool * bool :=
  let int (f : Z -> Z -> bool) :=
    match w_eval w o1, w_eval w o2 with Some a, Some b => (f a b, false) | _, _ => (true, true) end in
  match op with
  | TO_STNZE => (match o1 with [] => false | _ => true end, false)
  | TO_STZER => (match o1 with [] => true | _ => false end, false)
  | TO_OPTION =>
    match o1 with
    | c :: r => if ceq c "!" then (match w_opt w r with Some f => negb f | None => false end, false)
                else (match w_opt w o1 with Some f => f | None => false end, false)
    | [] => (match w_opt w o1 with Some f => f | None => false end, false)
    end
  | TO_FILRD => (eaccess o1 R_OK, false)
  | TO_FILWR => (eaccess o1 W_OK, false)
  | TO_FILEX => (eaccess o1 X_OK, false)
  | TO_FILAXST | TO_FILEXST => (st_is o1 (fun _ => true), false)
  | TO_FILREG => (st_is o1 (fun b => ftype_beq (s_type b) FReg), false)
  | TO_FILID => (st_is o1 (fun b => ftype_beq (s_type b) FDir), false)
  | TO_FILCDEV => (st_is o1 (fun b => ftype_beq (s_type b) FChr), false)
  | TO_FILBDEV => (st_is o1 (fun b => ftype_beq (s_type b) FBlk), false)
  | TO_FILFIFO => (st_is o1 (fun b => ftype_beq (s_type b) FFifo), false)
  | TO_FILSYM => (match w_lstat w o1 with Some b => ftype_beq (s_type b) FLnk | None => false end, false)
  | TO_FILSOCK => (st_is o1 (fun b => ftype_beq (s_type b) FSock), false)
  | TO_FILCDF => (false, false)
  | TO_FILSETU => (st_is o1 s_suid, false)
  | TO_FILSETG => (st_is o1 s_sgid, false)
  | TO_FILSTCK => (st_is o1 s_vtx, false)
  | TO_FILGZ => (st_is o1 (fun b => 0 <? s_size b), false)
  | TO_FILTT => match getn o1 with Some n => (w_tty w n, false) | None => (false, true) end
  | TO_FILUID => (st_is o1 (fun b => s_uid b =? w_euid w), false)
  | TO_FILGID => (st_is o1 (fun b => s_gid b =? w_egid w), false)
  | TO_STEQL => (strcmp o1 o2 =? 0, false)
  | TO_STNEQ => (negb (strcmp o1 o2 =? 0), false)
  | TO_STLT => (strcmp o1 o2 <? 0, false)
  | TO_STGT => (0 <? strcmp o1 o2, false)
  | TO_INTEQ => int Z.eqb
  | TO_INTNE => int (fun a b => negb (a =? b))
  | TO_INTGE => int (fun a b => b <=? a)
  | TO_INTGT => int (fun a b => b <? a)
  | TO_INTLE => int Z.leb
  | TO_INTLT => int Z.ltb
  | TO_FILNT => (st_is o1 (fun b1 => match w_stat w o2 with Some b2 => s_mtim b2 <? s_mtim b1 | None => true end), false)
  | TO_FILOT => (st_is o2 (fun b2 => match w_stat w o1 with Some b1 => s_mtim b1 <? s_mtim b2 | None => true end), false)
  | TO_FILEQ => (st_is o1 (fun b1 => st_is o2 (fun b2 => (s_dev b1 =? s_dev b2) && (s_ino b1 =? s_ino b2))), false)
  end.
Definition eval_if (do_eval : bool) (op : top) (o1 o2 : cstr) : bool * bool := if do_eval then test_eval op o1 o2 else (false, false).

(** Parser state: words from te->pos.wp up to te->wp_end, and TEF_ERROR.  The
    words are a list: pos.wp is compared with wp_end before every read.  [None]: out of fuel. *)
Definition accept (word : cstr) (ws : list cstr) : option (list cstr) :=
  match ws with x :: r => if str_eqb x word then Some r else None | [] => None end.

(** c_test.c:397-488 *)
Fixpoint oexpr (fuel : nat) (do_eval : bool) (ws : list cstr) {struct fuel} : option (bool * bool * list cstr) :=
  match fuel with
  | O => None
  | S n =>
    match aexpr n do_eval ws with
    | Some (res, err, ws) =>
      let do_eval := if res : bool then false else do_eval in
      if err then Some (res, err, ws)
      else match accept (L "-o") ws with
           | Some ws => match oexpr n do_eval ws with Some (r2, err, ws) => Some (r2 || res, err, ws) | None => None end
           | None => Some (res, false, ws)
           end
    | None => None
    end
  end
with aexpr (fuel : nat) (do_eval : bool) (ws : list cstr) {struct fuel} : option (bool * bool * list cstr) :=
  match fuel with
  | O => None
  | S n =>
    match nexpr n do_eval ws with
    | Some (res, err, ws) =>
      let do_eval := if res : bool then do_eval else false in
      if err then Some (res, err, ws)
      else match accept (L "-a") ws with
           | Some ws => match aexpr n do_eval ws with Some (r2, err, ws) => Some (r2 && res, err, ws) | None => None end
           | None => Some (res, false, ws)
           end
    | None => None
    end
  end
with nexpr (fuel : nat) (do_eval : bool) (ws : list cstr) {struct fuel} : option (bool * bool * list cstr) :=
  match fuel with
  | O => None
  | S n =>
    match accept (L "!") ws with
    | Some ws => match nexpr n do_eval ws with Some (r, err, ws) => Some (negb r, err, ws) | None => None end
    | None => primary n do_eval ws
    end
  end
with primary (fuel : nat) (do_eval : bool) (ws : list cstr) {struct fuel} : option (bool * bool * list cstr) :=
  match fuel with
  | O => None
  | S n =>
    match accept (L "(") ws with
    | Some ws =>
      match oexpr n do_eval ws with
      | Some (res, err, ws) =>
        if err then Some (false, true, ws)
        else match accept (L ")") ws with
             | Some ws => Some (res, false, ws)
             | None => Some (false, true, ws)
             end
      | None => None
      end
    | None =>
      let unary :=
        match ws with
        | x :: y :: r => match isop b_ops y with
                         | Some _ => None
                         | None => match isop u_ops x with Some op => Some (op, y, r) | None => None end
                         end
        | _ => None
        end in
      match unary with
      | Some (op, y, r) => let '(v, e) := eval_if do_eval op y [] in Some (v, e, r)
      | None =>
        match ws with
        | [] => Some (false, true, [])
        | x :: r =>
          match r with
          | y :: r' =>
            match isop b_ops y with
            | Some op => match r' with
                         | z :: r'' => let '(v, e) := eval_if do_eval op x z in Some (v, e, r'')
                         | [] => Some (false, true, [])
                         end
            | None => let '(v, e) := eval_if do_eval TO_STNZE x [] in Some (v, e, r)
            end
          | [] => let '(v, e) := eval_if do_eval TO_STNZE x [] in Some (v, e, r)
          end
        end
      end
    end
  end.

(** c_test.c:384-395 test_parse: the exit status *)
Definition status (res : bool) : Z := if res then 0 else 1.
Definition fuel_for (ws : list cstr) : nat := 4 * S (length ws).
Definition test_parse (ws : list cstr) : option Z :=
  match oexpr (fuel_for ws) true ws with
  | None => None
  | Some (res, err, ws) => Some (if err then 2 else match ws with [] => status res | _ => 2 end)
  end.

(** c_test.c:131-174: the loop over up to four words, [k] words left *)
Fixpoint c_test_short (ws0 ws : list cstr) (invert : bool) {struct ws} : option Z :=
  let finish (r : bool * bool) := let '(res, err) := r in Some (if err : bool then 2 else status (if invert then negb res else res)) in
  match ws with
  | [] => Some 1                                                (* TM_END *)
  | [x] => finish (test_eval TO_STNZE x [])
  | x :: ws' =>
    match (match ws' with
           | [y; z] => match isop b_ops y with Some op => Some (op, z) | None => None end
           | _ => None end) with
    | Some (op, z) => finish (test_eval op x z)
    | None => if str_eqb x (L "!") then c_test_short ws0 ws' (negb invert) else test_parse ws0
    end
  end.
(** c_test.c:107-179 c_test, without the name and the closing bracket *)
Definition c_test_args (ws : list cstr) : option Z :=
  if (length ws <=? 4)%nat then c_test_short ws ws false else test_parse ws.
(** with them: [name] is wp[0] *)
Definition c_test (name : cstr) (ws : list cstr) : option Z :=
  if str_eqb name (L "[") then
    match rev ws with
    | x :: r => if str_eqb x (L "]") then c_test_args (rev r) else Some 2
    | [] => Some 2                        (* wp[0] itself is not ] *)
    end
  else c_test_args ws.
End Test.
