(** What test expressions mean, written from the manual page and POSIX, by the
    text of the operators and without the tables or the parser of the code. *)
From Verif Require Import Base Num_model Test_model.
Local Open Scope Z_scope.

(** The order < of byte strings *)
Definition before (a b : cstr) : Prop :=
  (exists r, r <> [] /\ b = a ++ r) \/
  (exists p x y ra rb, a = p ++ x :: ra /\ b = p ++ y :: rb /\ (code x < code y)%nat).
Fixpoint beforeb (a b : cstr) : bool :=
  match a, b with
  | [], [] => false | [], _ => true | _, [] => false
  | x :: a', y :: b' => (code x <? code y)%nat || ((code x =? code y)%nat && beforeb a' b')
  end.

Section Sem.
Variable w : world.
(** A file exists when stat succeeds *)
Definition file_is (x : cstr) (p : fstat -> bool) : option bool := Some (match w_stat w x with Some b => p b | None => false end).
Definition kind (k : ftype) (x : cstr) : option bool := file_is x (fun b => if ftype_eq_dec (s_type b) k then true else false).
Definition executable (x : cstr) : bool :=
  w_access w x X_OK && (negb (w_euid w =? 0) || match w_stat w x with
    | Some b => (if ftype_eq_dec (s_type b) FDir then true else false) || s_anyx b | None => false end).
Definition option_set (x : cstr) : bool := match w_opt w x with Some true => true | _ => false end.
Definition option_unset (x : cstr) : bool := match w_opt w x with Some false => true | _ => false end.

(** Unary primaries with their meaning; None: the operand is unusable *)
Definition unaries : list (cstr * (cstr -> option bool)) :=
  [ (L "-n", fun x => Some (negb (str_eqb x []))); (L "-z", fun x => Some (str_eqb x []));
    (L "-e", fun x => file_is x (fun _ => true)); (L "-a", fun x => file_is x (fun _ => true));
    (L "-f", kind FReg); (L "-d", kind FDir); (L "-c", kind FChr); (L "-b", kind FBlk); (L "-p", kind FFifo); (L "-S", kind FSock);
    (L "-h", fun x => Some (match w_lstat w x with Some b => if ftype_eq_dec (s_type b) FLnk then true else false | None => false end));
    (L "-L", fun x => Some (match w_lstat w x with Some b => if ftype_eq_dec (s_type b) FLnk then true else false | None => false end));
    (L "-H", fun _ => Some false);
    (L "-u", fun x => file_is x s_suid); (L "-g", fun x => file_is x s_sgid); (L "-k", fun x => file_is x s_vtx);
    (L "-s", fun x => file_is x (fun b => 0 <? s_size b));
    (L "-O", fun x => file_is x (fun b => s_uid b =? w_euid w)); (L "-G", fun x => file_is x (fun b => s_gid b =? w_egid w));
    (L "-r", fun x => Some (w_access w x R_OK)); (L "-w", fun x => Some (w_access w x W_OK)); (L "-x", fun x => Some (executable x));
    (L "-t", fun x => option_map (w_tty w) (getn x));
    (L "-o", fun x => Some (match x with c :: r => if ceq c "!" then option_unset r else option_set x | [] => option_set x end)) ].

Definition ints (rel : Z -> Z -> bool) (x y : cstr) : option bool :=
  match w_eval w x, w_eval w y with Some a, Some b => Some (rel a b) | _, _ => None end.
Definition newer (x y : cstr) : bool :=
  match w_stat w x, w_stat w y with
  | Some a, Some b => s_mtim b <? s_mtim a
  | Some _, None => true
  | None, _ => false
  end.
Definition same_file (x y : cstr) : bool :=
  match w_stat w x, w_stat w y with Some a, Some b => (s_dev a =? s_dev b) && (s_ino a =? s_ino b) | _, _ => false end.

(** Binary primaries *)
Definition binaries : list (cstr * (cstr -> cstr -> option bool)) :=
  [ (L "=", fun x y => Some (str_eqb x y)); (L "==", fun x y => Some (str_eqb x y)); (L "!=", fun x y => Some (negb (str_eqb x y)));
    (L "<", fun x y => Some (beforeb x y)); (L ">", fun x y => Some (beforeb y x));
    (L "-eq", ints (fun a b => a =? b)); (L "-ne", ints (fun a b => negb (a =? b))); (L "-lt", ints (fun a b => a <? b));
    (L "-le", ints (fun a b => a <=? b)); (L "-gt", ints (fun a b => b <? a)); (L "-ge", ints (fun a b => b <=? a));
    (L "-nt", fun x y => Some (newer x y)); (L "-ot", fun x y => Some (newer y x)); (L "-ef", fun x y => Some (same_file x y)) ].

Definition the_unary (op : cstr) : option (cstr -> option bool) := option_map snd (find (fun e => str_eqb (fst e) op) unaries).
Definition the_binary (op : cstr) : option (cstr -> cstr -> option bool) := option_map snd (find (fun e => str_eqb (fst e) op) binaries).
Definition is_unary (op : cstr) : Prop := the_unary op <> None.
Definition is_binary (op : cstr) : Prop := the_binary op <> None.

(** Expressions *)
Inductive texp :=
| XOr (a b : texp) | XAnd (a b : texp) | XNot (a : texp) | XPar (a : texp)
| XUn (op x : cstr) | XBin (x op y : cstr) | XStr (x : cstr).

(** Truth, left to right, the right side only when it matters; None: an operand
    that is evaluated is unusable *)
Fixpoint truth (e : texp) : option bool :=
  match e with
  | XOr a b => match truth a with Some false => truth b | r => r end
  | XAnd a b => match truth a with Some true => truth b | r => r end
  | XNot a => option_map negb (truth a)
  | XPar a => truth a
  | XUn op x => match the_unary op with Some f => f x | None => None end
  | XBin x op y => match the_binary op with Some f => f x y | None => None end
  | XStr x => Some (negb (str_eqb x []))
  end.

(** The words of an expression *)
Fixpoint words (e : texp) : list cstr :=
  match e with
  | XOr a b => words a ++ [L "-o"] ++ words b
  | XAnd a b => words a ++ [L "-a"] ++ words b
  | XNot a => [L "!"] ++ words a
  | XPar a => [L "("] ++ words a ++ [L ")"]
  | XUn op x => [op; x]
  | XBin x op y => [x; op; y]
  | XStr x => [x]
  end.

(** Precedence: 0 expression, 1 operand of -o, 2 operand of -a *)
Fixpoint prec_ok (lvl : nat) (e : texp) : Prop :=
  match e with
  | XOr a b => lvl = 0%nat /\ prec_ok 1 a /\ prec_ok 0 b
  | XAnd a b => (lvl <= 1)%nat /\ prec_ok 2 a /\ prec_ok 1 b
  | XNot a => prec_ok 2 a
  | XPar a => prec_ok 0 a
  | _ => True
  end.

(** How words that could be read several ways are read, given the words that
    follow the expression: a word before a binary operator is its left operand; otherwise a
    unary operator takes the next word; ! and ( are operators at the start of a primary. *)
Definition not_prefix (x : cstr) : Prop := x <> L "!" /\ x <> L "(".
Fixpoint reading (e : texp) (follow : list cstr) : Prop :=
  match e with
  | XOr a b => reading a ([L "-o"] ++ words b ++ follow) /\ reading b follow
  | XAnd a b => reading a ([L "-a"] ++ words b ++ follow) /\ reading b follow
  | XNot a => reading a follow
  | XPar a => reading a ([L ")"] ++ follow)
  | XUn op x => is_unary op /\ ~ is_binary x
  | XBin x op y => is_binary op /\ not_prefix x
  | XStr x => not_prefix x /\ match follow with [] => True | y :: _ => ~ is_binary y /\ ~ is_unary x end
  end.

(** [ws] is the expression [e] *)
Definition parses (ws : list cstr) (e : texp) : Prop := ws = words e /\ prec_ok 0 e /\ reading e [].

(** Exit status of a truth value *)
Definition exit_status (v : option bool) : Z := match v with Some true => 0 | Some false => 1 | None => 2 end.

(** POSIX: the meaning by the number of arguments; outer None: unspecified *)
Definition posix1 (a : cstr) : option bool := Some (negb (str_eqb a [])).
Definition posix2 (a b : cstr) : option (option bool) :=
  if str_eqb a (L "!") then Some (option_map negb (posix1 b))
  else match the_unary a with Some f => Some (f b) | None => None end.
Definition posix3 (a b c : cstr) : option (option bool) :=
  match the_binary b with
  | Some f => Some (f a c)
  | None => if str_eqb a (L "!") then option_map (option_map negb) (posix2 b c) else None
  end.
Definition posix4 (a b c d : cstr) : option (option bool) :=
  if str_eqb a (L "!") then option_map (option_map negb) (posix3 b c d) else None.
Definition posix (ws : list cstr) : option (option bool) :=
  match ws with
  | [] => Some (Some false)
  | [a] => Some (posix1 a)
  | [a; b] => posix2 a b
  | [a; b; c] => posix3 a b c
  | [a; b; c; d] => posix4 a b c d
  | _ => None
  end.
(** the XSI rules for parentheses *)
Definition posix_paren (ws : list cstr) : option (option bool) :=
  match ws with
  | [a; b; c] => if str_eqb a (L "(") && str_eqb c (L ")") then match the_binary b with Some _ => None | None => Some (posix1 b) end else None
  | [a; b; c; d] => if str_eqb a (L "(") && str_eqb d (L ")") then posix2 b c else None
  | _ => None
  end.
End Sem.
