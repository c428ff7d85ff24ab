(** The commands alias and unalias (and hash -r): c_ksh.c:853-1038 c_alias, c_unalias, after
    the options.

    A table (aliases, taliases or homedirs) is the list of its entries, each name once; that
    ktenter, ktsearch, ktwalk and ktsort of table.c act so is C15.  Entries stay in the table
    when they are not DEFINED.  The values are blocks of the area APERM: a pointer is a
    number, the heap gives the text of a block that is in use; to free or to read a block
    that is not in use is undefined behaviour: None. *)
From Verif Require Import Base Table_model Pathglob_model Quote_model Whence_model.
Local Open Scope Z_scope.

(** struct tbl: the flags ISSET, ALLOC, EXPORT and DEFINED and val.s *)
Record al := Al { a_name : cstr; a_set : bool; a_alloc : bool; a_exp : bool; a_def : bool; a_val : nat }.
Record state := St { tab : list al; heap : nat -> option cstr; next : nat }.

(** the entry of a name, DEFINED or not *)
Fixpoint find (l : list al) (n : cstr) : option al :=
  match l with [] => None | e :: l => if str_eqb (a_name e) n then Some e else find l n end.
(** table.c ktsearch: the entry of a name if it is DEFINED *)
Definition ktsearch (l : list al) (n : cstr) : option al :=
  match find l n with Some e => if a_def e then Some e else None | None => None end.
(** an entry is changed in place, or added (table.c ktenter) *)
Fixpoint put (e : al) (l : list al) : list al :=
  match l with [] => [e] | x :: l => if str_eqb (a_name x) (a_name e) then e :: l else x :: put e l end.
(** table.c ktenter: the entry, a new one has no flags *)
Definition ktenter (l : list al) (n : cstr) : al :=
  match find l n with Some e => e | None => Al n false false false false 0 end.

(** alloc.c afree(ap->val.s, APERM) *)
Definition hfree (h : nat -> option cstr) (p : nat) : option (nat -> option cstr) :=
  match h p with None => None | Some _ => Some (fun q => if Nat.eqb p q then None else h q) end.
(** if (ap->flag&ALLOC) { ap->flag &= ~(ALLOC|ISSET); afree(ap->val.s, APERM); } *)
Definition release (h : nat -> option cstr) (e : al) : option ((nat -> option cstr) * al) :=
  if a_alloc e then
    match hfree h (a_val e) with
    | None => None
    | Some h => Some (h, Al (a_name e) false false (a_exp e) (a_def e) (a_val e))
    end
  else Some (h, e).

(** c_ksh.c:915-922 and 938-945: an alias is shown *)
Definition show (pflag plus : bool) (h : nat -> option cstr) (e : al) : option cstr :=
  match (if plus then Some [] else match h (a_val e) with None => None | Some v => Some (L "=" ++ print_value_quoted v) end) with
  | None => None
  | Some t => Some (when pflag (L "alias ") ++ a_name e ++ t ++ ["010"%char])
  end.

(** strchr(alias, '='): the name and the value *)
Fixpoint split_eq (w : cstr) : cstr * option cstr :=
  match w with
  | [] => ([], None)
  | c :: w => if ceq c "="%char then ([], Some w) else let '(n, v) := split_eq w in (c :: n, v)
  end.

Section Alias.
(** search(alias, search_path, X_OK, NULL) *)
Context (srch : cstr -> option cstr).
(** the options -p, -t, -U, -x; prefix == '+' *)
Context (pflag tflag Uflag xflag plus : bool).

(** c_ksh.c:927-980: one argument; what is printed, whether rv stays 0 *)
Definition alias_word (st : state) (w : cstr) : option (cstr * bool * state) :=
  let '(alias, val) := split_eq w in
  if (match val with None => true | _ => false end) && negb tflag && negb xflag then
    match ktsearch (tab st) alias with
    | Some ap =>
      if a_set ap then match show pflag plus (heap st) ap with None => None | Some t => Some (t, true, st) end
      else Some (alias ++ L " alias not found" ++ ["010"%char], false, st)
    | None => Some (alias ++ L " alias not found" ++ ["010"%char], false, st)
    end
  else
    let ap := ktenter (tab st) alias in
    let setting := match val with Some _ => negb tflag | None => tflag && negb Uflag end in
    match (if setting then
             match release (heap st) ap with
             | None => None
             | Some (h, ap) =>
               match (if tflag then srch alias else val) with
               | Some v => Some (Al (a_name ap) true true (a_exp ap) (a_def ap) (next st),
                                 (fun q => if Nat.eqb (next st) q then Some v else h q), S (next st))
               | None => Some (Al (a_name ap) false (a_alloc ap) (a_exp ap) (a_def ap) (a_val ap), h, next st)
               end
             end
           else Some (ap, heap st, next st)) with
    | None => None
    | Some (ap, h, n) =>
      let ap := Al (a_name ap) (a_set ap) (a_alloc ap) (if xflag then negb plus else a_exp ap) true (a_val ap) in
      Some ([], true, St (put ap (tab st)) h n)
    end.
(** the loop over the arguments *)
Fixpoint alias_words (st : state) (wp : list cstr) : option (cstr * Z * state) :=
  match wp with
  | [] => Some ([], 0, st)
  | w :: wp =>
    match alias_word st w with
    | None => None
    | Some (t, ok, st) =>
      match alias_words st wp with
      | None => None
      | Some (out, rv, st) => Some (t ++ out, if ok then rv else 1, st)
      end
    end
  end.
(** c_ksh.c:908-924: all are listed, in the order of ktsort (the names are sorted here and
    looked up: each is there once) *)
Fixpoint list_names (st : state) (l : list cstr) : option cstr :=
  match l with
  | [] => Some []
  | n :: l =>
    match ktsearch (tab st) n with
    | None => None
    | Some ap =>
      match (if a_set ap && (negb xflag || a_exp ap) then show pflag plus (heap st) ap else Some []) with
      | None => None
      | Some t => match list_names st l with None => None | Some out => Some (t ++ out) end
      end
    end
  end.
Definition list_all (st : state) : option cstr := list_names st (sorted_of (map a_name (filter a_def (tab st)))).
End Alias.

(** c_ksh.c:1009-1020: one argument of unalias *)
Definition forget (e : al) : al := Al (a_name e) false (a_alloc e) false false (a_val e).
Definition unalias_word (st : state) (w : cstr) : option (bool * state) :=
  match ktsearch (tab st) w with
  | None => Some (false, st)
  | Some ap =>
    match release (heap st) ap with
    | None => None
    | Some (h, ap) => Some (true, St (put (forget ap) (tab st)) h (next st))
    end
  end.
Fixpoint unalias_words (st : state) (wp : list cstr) : option (Z * state) :=
  match wp with
  | [] => Some (0, st)
  | w :: wp =>
    match unalias_word st w with
    | None => None
    | Some (ok, st) => match unalias_words st wp with None => None | Some (rv, st) => Some (if ok then rv else 1, st) end
    end
  end.
(** c_ksh.c:1022-1032: the loop of ktwalk and ktnext over the DEFINED entries; what it does
    to each is what the loop over the arguments does *)
Definition unalias_all (st : state) : option state :=
  match unalias_words st (map a_name (filter a_def (tab st))) with None => None | Some (_, st) => Some st end.
Definition c_unalias (all : bool) (wp : list cstr) (st : state) : option (Z * state) :=
  match unalias_words st wp with
  | None => None
  | Some (rv, st) => if all then match unalias_all st with None => None | Some st => Some (rv, st) end else Some (rv, st)
  end.

(** c_ksh.c:853-986 after the options.  [plus]: the last option was given with +; [mm]: --
    was seen *)
Definition is_lone (w : cstr) : option bool :=
  match w with [c] => if ceq c "+"%char then Some true else if ceq c "-"%char then Some false else None | _ => None end.
Definition c_alias (srch : cstr -> option cstr) (pflag rflag tflag Uflag xflag plus mm : bool) (wp : list cstr) (st : state) : option (cstr * Z * state) :=
  let '(plus, wp) := match wp with
                     | w :: wp' => if mm then (plus, wp) else match is_lone w with Some b => (b, wp') | None => (plus, wp) end
                     | [] => (plus, wp)
                     end in
  if rflag then
    if negb tflag || (match wp with [] => false | _ => true end) then
      Some (L "alias: -r flag can only be used with -t and without arguments" ++ ["010"%char], 1, st)
    else match c_unalias true [] st with None => None | Some (rv, st) => Some ([], rv, st) end
  else
    match wp with
    | [] => match list_all pflag xflag plus st with None => None | Some out => Some (out, 0, st) end
    | _ => alias_words srch pflag tflag Uflag xflag plus st wp
    end.
