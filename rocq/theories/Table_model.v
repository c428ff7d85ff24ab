(** Hash tables: table.c:32-202.

    The array tp->tbls is a list of optional entries; a pointer pp into it is an
    index.  A struct tbl is a record with the fields the table code looks at and
    one payload.  tp->tbls == NULL is an empty list (then tp->size == 0).
    Memory of entries: the entries texpand() frees are returned in a list. *)
From Verif Require Import Base Num_model SimplifyPath_model.

Definition INT_MAX : Z := 2147483647.

Section Table.
Variable V : Type.

(** sh.h struct tbl: name, the flag bits DEFINED, FINUSE and ARRAY, the value *)
Record entry := Entry { e_name : cstr; e_def : bool; e_inuse : bool; e_array : bool; e_val : option V }.

Record table := Table { slots : list (option entry); nfree : Z }.
Definition size (t : table) : nat := length (slots t).

(** table.c:32-40 *)
Fixpoint hash_from (h : N) (n : cstr) : N :=
  match n with [] => h | c :: n' => hash_from ((33 * h + N_of_ascii c) mod 4294967296) n' end.
Definition hash (n : cstr) : N := hash_from 0 n.

(** h & (tp->size-1) *)
Definition home (sz : nat) (h : N) : nat := N.to_nat (N.land h (N.of_nat sz - 1)).

(** pp--, after wrapping from the first slot to one past the last *)
Definition nxt (sz i : nat) : nat := match i with O => sz - 1 | S i' => i' end.

Inductive stop := Found (i : nat) (e : entry) | Null (i : nat).

(** the probe loops of table.c:70-73, 95-102 and 119-124: stop at a NULL slot or at an
    entry with the property.  Err = out of fuel (would probe for ever), UB =
    outside the array. *)
Fixpoint probe (fuel : nat) (sl : list (option entry)) (p : entry -> bool) (i : nat) : res stop :=
  match fuel with
  | O => Err
  | S f =>
    match nth_error sl i with
    | None => UB
    | Some None => Ok (Null i)
    | Some (Some e) => if p e then Ok (Found i e) else probe f sl p (nxt (length sl) i)
    end
  end.

Definition set_slot (sl : list (option entry)) (i : nat) (o : option entry) : list (option entry) :=
  firstn i sl ++ o :: skipn (S i) sl.

(** table.c:67-80: move the defined entries over, in array order *)
Fixpoint rehash (old new : list (option entry)) (nfree : Z) (freed : list entry) (hf : cstr -> N)
    : res (list (option entry) * Z * list entry) :=
  match old with
  | [] => Ok (new, nfree, freed)
  | None :: old' => rehash old' new nfree freed hf
  | Some e :: old' =>
    if e_def e then
      do s <- probe (S (length new)) new (fun _ => false) (home (length new) (hf (e_name e))) ;
      match s with
      | Null i => rehash old' (set_slot new i (Some e)) (nfree - 1)%Z freed hf
      | Found _ _ => Err
      end
    else rehash old' new nfree (if e_inuse e then freed else e :: freed) hf
  end.

(** table.c:52-82; 7*nsize is computed in an int *)
Definition texpand (t : table) (nsize : nat) (hf : cstr -> N) : res (table * list entry) :=
  if (INT_MAX <? 7 * Z.of_nat nsize)%Z then UB
  else
    do r <- rehash (slots t) (repeat None nsize) (7 * Z.of_nat nsize / 10)%Z [] hf ;
    let '(sl, nf, freed) := r in Ok (Table sl nf, freed).

(** table.c:42-50 *)
Definition ktinit (tsize : nat) (hf : cstr -> N) : res table :=
  match tsize with
  | O => Ok (Table [] 0)
  | _ => do r <- texpand (Table [] 0) tsize hf ; Ok (fst r)
  end.

(** table.c:87-105; h = hf n as all callers pass *)
Definition ktsearch (t : table) (n : cstr) (hf : cstr -> N) : res (option (nat * entry)) :=
  match size t with
  | O => Ok None
  | _ =>
    do s <- probe (S (size t)) (slots t) (fun e => str_eqb (e_name e) n && e_def e) (home (size t) (hf n)) ;
    Ok (match s with Found i e => Some (i, e) | Null _ => None end)
  end.

(** table.c:110-150 from the label Search: [fuel] bounds the gotos *)
Fixpoint enter_from (fuel : nat) (t : table) (n : cstr) (hf : cstr -> N) : res (table * nat * entry) :=
  match fuel with
  | O => Err
  | S f =>
    do s <- probe (S (size t)) (slots t) (fun e => str_eqb (e_name e) n) (home (size t) (hf n)) ;
    match s with
    | Found i e => Ok (t, i, e)
    | Null i =>
      if (nfree t <=? 0)%Z then
        if (Z.of_nat (size t) <=? INT_MAX / 2)%Z then
          do r <- texpand t (2 * size t) hf ; enter_from f (fst r) n hf
        else Err                                  (* internal_errorf: too many vars *)
      else
        let e := Entry n false false false None in
        Ok (Table (set_slot (slots t) i (Some e)) (nfree t - 1)%Z, i, e)
    end
  end.
Definition ktenter (t : table) (n : cstr) (hf : cstr -> N) : res (table * nat * entry) :=
  match size t with
  | O => do r <- texpand t 8 hf ; enter_from 2 (fst r) n hf
  | _ => enter_from 2 t n hf
  end.

(** table.c:152-156 on the entry in slot i *)
Definition ktdelete (t : table) (i : nat) : table :=
  match nth_error (slots t) i with
  | Some (Some e) => Table (set_slot (slots t) i (Some (Entry (e_name e) false false false (e_val e)))) (nfree t)
  | _ => t
  end.

(** what callers do with an entered name: p->flag |= DEFINED and store the value
    (e.g. c_ksh.c:936-966 c_alias, exec.c:767-805 define) *)
Definition define_at (t : table) (i : nat) (v : V) : table :=
  match nth_error (slots t) i with
  | Some (Some e) => Table (set_slot (slots t) i (Some (Entry (e_name e) true (e_inuse e) (e_array e) (Some v)))) (nfree t)
  | _ => t
  end.

(** exec.c:614, 625: FINUSE set around a function call *)
Definition use_at (t : table) (i : nat) (b : bool) : table :=
  match nth_error (slots t) i with
  | Some (Some e) => Table (set_slot (slots t) i (Some (Entry (e_name e) (e_def e) b (e_array e) (e_val e)))) (nfree t)
  | _ => t
  end.
(** exec.c:781-784: define() hides the entry of a function being executed by
    emptying its name and clearing DEFINED (FDELETE is not modelled; functions never
    have ARRAY set) *)
Definition hide_at (t : table) (i : nat) : table :=
  match nth_error (slots t) i with
  | Some (Some e) => Table (set_slot (slots t) i (Some (Entry [] false (e_inuse e) false (e_val e)))) (nfree t)
  | _ => t
  end.

(** table.c:158-174 ktwalk and ktnext called until it returns NULL *)
Definition walk (t : table) : list entry :=
  flat_map (fun o => match o with Some e => if e_def e then [e] else [] | None => [] end) (slots t).

(** table.c:176-182 strcmp on names, as "less or equal" *)
Fixpoint str_le (a b : cstr) : bool :=
  match a, b with
  | [], _ => true
  | _ :: _, [] => false
  | x :: a', y :: b' => if ceq x y then str_le a' b' else (ccode x <? ccode y)%Z
  end.
(** qsortp is qsort(3): any sorting function does; insertion sort stands for it *)
Fixpoint ins (e : entry) (l : list entry) : list entry :=
  match l with
  | [] => [e]
  | x :: l' => if str_le (e_name e) (e_name x) then e :: l else x :: ins e l'
  end.
Fixpoint isort (l : list entry) : list entry := match l with [] => [] | e :: l' => ins e (isort l') end.

(** table.c:184-202 *)
Definition ktsort (t : table) : list entry :=
  isort (flat_map (fun o => match o with Some e => if e_def e || e_array e then [e] else [] | None => [] end) (slots t)).

(** ** operations on one table *)
Inductive op :=
| OpEnter (n : cstr)            (* ktenter alone *)
| OpDefine (n : cstr) (v : V)   (* ktenter, mark defined, store *)
| OpDelete (n : cstr)           (* ktsearch, then ktdelete if found *)
| OpUse (n : cstr) (b : bool)   (* ktsearch, then set or clear FINUSE if found *)
| OpHide (n : cstr).            (* ktsearch, then hide if found *)
(** the name an operation is about; names are never empty *)
Definition op_name (o : op) : cstr :=
  match o with OpEnter n | OpDefine n _ | OpDelete n | OpUse n _ | OpHide n => n end.

Definition do_op (hf : cstr -> N) (t : table) (o : op) : res table :=
  match o with
  | OpEnter n => do r <- ktenter t n hf ; Ok (fst (fst r))
  | OpDefine n v => do r <- ktenter t n hf ; Ok (define_at (fst (fst r)) (snd (fst r)) v)
  | OpDelete n => do r <- ktsearch t n hf ; Ok (match r with Some (i, _) => ktdelete t i | None => t end)
  | OpUse n b => do r <- ktsearch t n hf ; Ok (match r with Some (i, _) => use_at t i b | None => t end)
  | OpHide n => do r <- ktsearch t n hf ; Ok (match r with Some (i, _) => hide_at t i | None => t end)
  end.
Fixpoint run (hf : cstr -> N) (t : table) (ops : list op) : res table :=
  match ops with [] => Ok t | o :: ops' => do t' <- do_op hf t o ; run hf t' ops' end.
End Table.
Arguments Entry {V}. Arguments Table {V}. Arguments OpEnter {V}. Arguments OpDefine {V}. Arguments OpDelete {V}. Arguments OpUse {V}. Arguments OpHide {V}.
Arguments Found {V}. Arguments Null {V}.
