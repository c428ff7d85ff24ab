(** Commands of the vi editor, as they are typed. *)
From Verif Require Import Base Vi_model.
Local Open Scope Z_scope.

(** A count: nothing, or digits of which the first is not 0. *)
Inductive count : cstr -> Prop :=
| no_count : count []
| a_count d l : cbetween "1" "9" d = true -> Forall (fun c => cbetween "0" "9" c = true) l -> count (d :: l).
(** A movement; after a count 0 is a digit. *)
Inductive motion (n : cstr) : cstr -> Prop :=
| m_one c : In c (cH :: L " $%,;BEW^behlw|") -> motion n [c]
| m_0 : n = [] -> motion n (L "0")
| m_to f c : In f (L "fFtT") -> c <> ESC -> motion n [f; c].
(** The keys of a command that changes the line. *)
Inductive changing : cstr -> Prop :=
| c_one n c : count n -> In c (cN :: cP :: cI :: cF :: cX :: ESC :: L "aACDiIpPRsSxX~+-gU_*#\") -> changing (n ++ [c])
| c_r n c : count n -> c <> ESC -> changing (n ++ ["r"%char; c])
| c_line n n' o : count n -> count n' -> In o (L "cd") -> changing (n ++ [o] ++ n' ++ [o])
| c_to n n' o t : count n -> count n' -> In o (L "cd") -> motion n' t -> changing (n ++ [o] ++ n' ++ t).
(** Keys that are typed, not read from a macro; [x] is what there is to expand or complete for each of them. *)
Fixpoint typed (l : cstr) (x : list (option xans)) : list event :=
  match l with
  | [] => []
  | c :: l => Key c false (hd None x) :: typed l (tl x)
  end.
(** The keys of [l] are all read in insert (or replace) mode. *)
Fixpoint inserted (k : cfg) (l : list event) (s : st) : Prop :=
  match l with
  | [] => True
  | v :: l => (exists c m x, v = Key c m x) /\ is_ins (ins s) = true /\ (forall s', step k v s = Ok s' -> inserted k l s')
  end.
(** Movements, one after the other *)
Inductive moving : cstr -> Prop :=
| mv_none : moving []
| mv_one n t l : count n -> motion n t -> moving l -> moving (n ++ t ++ l).
(** A command is expected ... *)
Definition command_mode (s : st) : Prop := vs s = VNORMAL /\ ins s = COMMAND /\ fin s = false.
(** ... and the cursor is on a character if there is one. *)
Definition ready (s : st) : Prop :=
  command_mode s /\ 0 <= cur (es s) /\ (cur (es s) < len (es s) \/ cur (es s) = 0 /\ len (es s) = 0).
Definition text (s : st) : cstr := firstn (Z.to_nat (len (es s))) (buf (es s)).
