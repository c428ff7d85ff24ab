(** What select asks and does, without reference to Select_model's functions (its types of
    results are used). *)
From Verif Require Import Base Num_spec Read_model Read_spec Columns_props Kill_spec Select_model.
From Coq Require Import Permutation.
Local Open Scope Z_scope.

(** the menu: each word once, in columns, after its number; the numbers end in the same
    column of the entries, which starts right before the longest one *)
Definition item_entry (ap : list cstr) (w : nat) (i : nat) (s : cstr) : Prop :=
  exists d x k, nth_error ap i = Some x /\ decimal d (Z.of_nat i + 1) /\ s = repeat SP k ++ d ++ L ") " ++ x /\ (k + length d = w)%nat.
Definition menu (ap : list cstr) (t : cstr) : Prop :=
  exists f items lines w, t = concat (map (fun r => r ++ [NL]) lines) /\
    Permutation (concat items) (numbers (Z.of_nat (length ap))) /\ Forall2 (shows f) items lines /\
    (forall i, (i < length ap)%nat -> item_entry ap w i (f (Z.of_nat i))) /\
    (ap <> [] -> exists d, decimal d (Z.of_nat (length ap)) /\ length d = w).

(** the answer [s] asks for the word [w]: the one with that number, or the empty one *)
Definition selects (ap : list cstr) (s w : cstr) : Prop :=
  (exists i, int_text s (Z.of_nat i + 1) /\ nth_error ap i = Some w) \/
  (forall i x, int_text s (Z.of_nat i + 1) -> nth_error ap i <> Some x) /\ w = [].

Section Select.
Context {St : Type} (ifs : St -> char -> bool) (assign : St -> cstr -> cstr -> option St) (value : St -> cstr -> cstr).
Context (ap : list cstr) (m : cstr).                               (* the words and their menu *)
(** what is written before an answer is read *)
Definition asks (again : bool) (st : St) (t : cstr) : Prop :=
  (again = true \/ value st (L "REPLY") = []) /\ t = m ++ value st (L "PS3") \/
  again = false /\ value st (L "REPLY") <> [] /\ t = value st (L "PS3").
(** a line is read and given to REPLY without the white space around it *)
Definition answer (st : St) (evs : list rdev) (e : ending) (st' : option St) (rest : list rdev) : Prop :=
  exists toks hs v, line false false evs toks e hs rest /\ values (ifs st) 1 toks [v] /\ st' = assign st (L "REPLY") v.
Inductive asked : bool -> St -> list rdev -> cstr -> ask (St:=St) -> Prop :=
| As_word again st evs t st' rest w : asks again st t -> answer st evs Newline (Some st') rest -> value st' (L "REPLY") <> [] ->
    selects ap (value st' (L "REPLY")) w -> asked again st evs t (AWord w st' rest)
| As_blank again st evs t st' rest t' r : asks again st t -> answer st evs Newline (Some st') rest -> value st' (L "REPLY") = [] ->
    asked true st' rest t' r -> asked again st evs (t ++ t') r
| As_end again st evs t e st' rest : asks again st t -> answer st evs e (Some st') rest -> e <> Newline -> asked again st evs t (ANull st')
| As_readonly again st evs t e rest : asks again st t -> answer st evs e None rest -> asked again st evs t (ANull st)
| As_wait again st evs t : asks again st t -> (forall toks e hs rest, ~ line false false evs toks e hs rest) -> asked again st evs t (AWait st).

Context (body : St -> list rdev -> bout * St * list rdev) (name : cstr).
(** select: the words that were asked for are given to the variable one after the other *)
Inductive selecting : bool -> St -> list rdev -> cstr -> sout (St:=St) -> Prop :=
| Se_wait first st evs t st' : asked first st evs t (AWait st') -> selecting first st evs t (SWait st')
| Se_end first st evs t st' : asked first st evs t (ANull st') -> selecting first st evs t (SEnd st')
| Se_readonly first st evs t w st' rest : asked first st evs t (AWord w st' rest) -> assign st' name w = None ->
    selecting first st evs t (SUnwind st')
| Se_break first st evs t w st1 rest1 st2 st3 rest3 : asked first st evs t (AWord w st1 rest1) -> assign st1 name w = Some st2 ->
    body st2 rest1 = (BBreak, st3, rest3) -> selecting first st evs t (SBreak st3 rest3)
| Se_unwind first st evs t w st1 rest1 st2 st3 rest3 : asked first st evs t (AWord w st1 rest1) -> assign st1 name w = Some st2 ->
    body st2 rest1 = (BUnwind, st3, rest3) -> selecting first st evs t (SUnwind st3)
| Se_next first st evs t w st1 rest1 st2 b st3 rest3 t' r : asked first st evs t (AWord w st1 rest1) -> assign st1 name w = Some st2 ->
    body st2 rest1 = (b, st3, rest3) -> b = BDone \/ b = BContinue -> selecting false st3 rest3 t' r ->
    selecting first st evs (t ++ t') r.
End Select.
