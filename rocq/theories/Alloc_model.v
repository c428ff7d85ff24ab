(** Area memory: alloc.c:14-128.

    The heap maps the address of a live malloc(3) block to its struct link and to
    the number of bytes asked for; the bytes after the link are not modelled (their
    preservation by realloc(3) is libc's).  Addresses are numbers, NULL is None.
    What malloc/realloc return is an argument of the operation; reading or writing a
    block that is not live, and freeing one, is UB.  Every malloc and free is logged. *)
From Verif Require Import Base Num_model SimplifyPath_model.

Definition addr := N.
(** alloc.c:14-17 *)
Record node := Node { n_prev : option addr; n_next : option addr; n_size : N }.
Inductive event := EvMalloc (p : addr) (size : N) | EvFree (p : addr).
(** [head a] is ap->freelist of area [a] *)
Record heap := Heap { mem : addr -> option node; head : nat -> option addr; log : list event }.

Definition SIZE_MAX : N := 18446744073709551615.
(** sizeof(struct link), two pointers *)
Definition LINK : N := 16.

Definition setm (h : heap) (p : addr) (o : option node) : heap :=
  Heap (fun q => if (q =? p)%N then o else mem h q) (head h) (log h).
Definition seth (h : heap) (a : nat) (o : option addr) : heap :=
  Heap (mem h) (fun b => if (b =? a)%nat then o else head h b) (log h).
Definition event_ (h : heap) (e : event) : heap := Heap (mem h) (head h) (log h ++ [e]).

Definition rdn (h : heap) (p : addr) : res node := match mem h p with Some n => Ok n | None => UB end.
(** l->next = x, l->prev = x *)
Definition set_next (h : heap) (p : addr) (x : option addr) : res heap :=
  do n <- rdn h p ; Ok (setm h p (Some (Node (n_prev n) x (n_size n)))).
Definition set_prev (h : heap) (p : addr) (x : option addr) : res heap :=
  do n <- rdn h p ; Ok (setm h p (Some (Node x (n_next n) (n_size n)))).
(** free(3) *)
Definition free (h : heap) (p : addr) : res heap :=
  do n <- rdn h p ; Ok (event_ (setm h p None) (EvFree p)).

(** alloc.c:19-24 *)
Definition ainit (h : heap) (a : nat) : heap := seth h a None.

(** alloc.c:26-36 *)
Fixpoint freeall_loop (fuel : nat) (h : heap) (l : option addr) : res heap :=
  match l with
  | None => Ok h
  | Some p =>
    match fuel with
    | O => Err
    | S f => do n <- rdn h p ; do h' <- free h p ; freeall_loop f h' (n_next n)
    end
  end.
Definition afreeall (fuel : nat) (h : heap) (a : nat) : res heap :=
  do h' <- freeall_loop fuel h (head h a) ; Ok (seth h' a None).

(** alloc.c:41-60; [m] is what malloc returns.  Err = internal_errorf (does not
    return, nothing changed).  The arithmetic of the size argument is modulo 2^64. *)
Definition alloc (h : heap) (size : N) (a : nat) (m : option addr) : res (heap * addr) :=
  if (SIZE_MAX - LINK <? size)%N then Err
  else match m with
  | None => Err
  | Some l =>
    let h := event_ h (EvMalloc l ((LINK + size) mod (SIZE_MAX + 1))) in
    let h := setm h l (Some (Node None (head h a) ((LINK + size) mod (SIZE_MAX + 1)))) in
    do h <- match head h a with Some f => set_prev h f (Some l) | None => Ok h end ;
    Ok (seth h a (Some l), l)
  end.

(** alloc.c:82-109; realloc of l copies the link to the block it returns *)
Definition aresize (h : heap) (ptr : option addr) (size : N) (a : nat) (m : option addr) : res (heap * addr) :=
  match ptr with
  | None => alloc h size a m
  | Some l =>
    if (SIZE_MAX - LINK <? size)%N then Err
    else
      do n <- rdn h l ;
      match m with
      | None => Err
      | Some l2 =>
        let z := ((LINK + size) mod (SIZE_MAX + 1))%N in
        let h := event_ (event_ h (EvFree l)) (EvMalloc l2 z) in
        let h := setm (setm h l None) l2 (Some (Node (n_prev n) (n_next n) z)) in
        do h <- match n_prev n with Some q => set_next h q (Some l2) | None => Ok (seth h a (Some l2)) end ;
        do h <- match n_next n with Some q => set_prev h q (Some l2) | None => Ok h end ;
        Ok (h, l2)
      end
  end.

(** alloc.c:68 *)
Definition MUL_NO_OVERFLOW : N := 2 ^ 32.
(** alloc.c:70-80 *)
Definition areallocarray (h : heap) (ptr : option addr) (nmemb size : N) (a : nat) (m : option addr) : res (heap * addr) :=
  if (((MUL_NO_OVERFLOW <=? nmemb) || (MUL_NO_OVERFLOW <=? size)) && (0 <? nmemb) && (SIZE_MAX / nmemb <? size))%N then Err
  else aresize h ptr ((nmemb * size) mod (SIZE_MAX + 1))%N a m.

(** alloc.c:111-128 *)
Definition afree (h : heap) (ptr : option addr) (a : nat) : res heap :=
  match ptr with
  | None => Ok h
  | Some l =>
    do n <- rdn h l ;
    do h <- match n_prev n with Some q => set_next h q (n_next n) | None => Ok (seth h a (n_next n)) end ;
    do h <- match n_next n with Some q => set_prev h q (n_prev n) | None => Ok h end ;
    free h l
  end.

(** ** sequences of operations *)
Inductive op :=
| OAlloc (a : nat) (size : N) (m : option addr)
| OResize (a : nat) (p : option addr) (nmemb size : N) (m : option addr)
| OFree (a : nat) (p : option addr)
| OFreeAll (a : nat).
(** a refused allocation unwinds with the heap as it was *)
Definition kept (h : heap) (r : res (heap * addr)) : res heap :=
  match r with Ok (h', _) => Ok h' | Err => Ok h | UB => UB end.
Definition do_op (fuel : nat) (h : heap) (o : op) : res heap :=
  match o with
  | OAlloc a z m => kept h (alloc h z a m)
  | OResize a p k z m => kept h (areallocarray h p k z a m)
  | OFree a p => afree h p a
  | OFreeAll a => afreeall fuel h a
  end.
Fixpoint run (fuel : nat) (h : heap) (ops : list op) : res heap :=
  match ops with [] => Ok h | o :: ops' => do h' <- do_op fuel h o ; run fuel h' ops' end.
Definition start : heap := Heap (fun _ => None) (fun _ => None) [].
