(** What an allocator does, without links: each area owns a list of blocks
    (address, usable bytes). *)
From Verif Require Import Base Alloc_model.

Definition owned := nat -> list (addr * N).
Definition upd (s : owned) (a : nat) (l : list (addr * N)) : owned := fun b => if b =? a then l else s b.
(** largest usable size: the link must fit in a size_t as well *)
Definition fits (z : N) : bool := (z + 16 <? 2 ^ 64)%N.

Fixpoint replace (p : addr) (q : addr) (z : N) (l : list (addr * N)) : list (addr * N) :=
  match l with [] => [] | b :: r => if (fst b =? p)%N then (q, z) :: r else b :: replace p q z r end.
Fixpoint remove (p : addr) (l : list (addr * N)) : list (addr * N) :=
  match l with [] => [] | b :: r => if (fst b =? p)%N then r else b :: remove p r end.

Definition sop (s : owned) (o : op) : owned :=
  match o with
  | OAlloc a z (Some p) => if fits z then upd s a ((p, z) :: s a) else s
  | OAlloc _ _ None => s
  | OResize a None k z (Some q) => if fits (k * z) then upd s a ((q, (k * z)%N) :: s a) else s
  | OResize a (Some p) k z (Some q) => if fits (k * z) then upd s a (replace p q (k * z) (s a)) else s
  | OResize _ _ _ _ None => s
  | OFree a (Some p) => upd s a (remove p (s a))
  | OFree _ None => s
  | OFreeAll a => upd s a []
  end.
Definition srun (ops : list op) (s : owned) : owned := fold_left sop ops s.

Definition inuse (s : owned) (p : addr) : Prop := exists a, In p (map fst (s a)).
(** the contract: callers pass pointers they own; malloc returns unused memory *)
Definition legal (s : owned) (o : op) : Prop :=
  match o with
  | OAlloc _ _ (Some p) => ~ inuse s p
  | OResize _ None _ _ (Some q) => ~ inuse s q
  | OResize a (Some p) _ _ (Some q) => In p (map fst (s a)) /\ (q = p \/ ~ inuse s q)
  | OResize a (Some p) _ _ None => In p (map fst (s a))
  | OFree a (Some p) => In p (map fst (s a))
  | _ => True
  end.
Fixpoint legal_run (s : owned) (ops : list op) : Prop :=
  match ops with [] => True | o :: ops' => legal s o /\ legal_run (sop s o) ops' end.

(** the malloc/free log read as the history of one address: None = it was freed
    while not live or handed out while live; Some None = not live at the end;
    Some (Some z) = live with z bytes *)
Definition hstep (p : addr) (st : option (option N)) (e : event) : option (option N) :=
  match st, e with
  | Some None, EvMalloc q z => if (q =? p)%N then Some (Some z) else st
  | Some (Some _), EvMalloc q z => if (q =? p)%N then None else st
  | Some (Some _), EvFree q => if (q =? p)%N then Some None else st
  | Some None, EvFree q => if (q =? p)%N then None else st
  | None, _ => None
  end.
Definition history (l : list event) (p : addr) : option (option N) := fold_left (hstep p) l (Some None).
