(** What more commands of the emacs line editor do (C66): words, case, the history, searches, comments. *)
From Verif Require Import Base Num_model Emacs_model Emacs_spec.
From Coq Require Import ZArith.

(** [n] words to the right, one after the other; [r] is what follows. *)
Inductive words_right : nat -> cstr -> cstr -> Prop :=
| wr_0 r : words_right 0 [] r
| wr_S n w v r : word_right w (v ++ r) -> words_right n v r -> words_right (S n) (w ++ v) r.

(** Upper ([u]) or lower case; only the letters of ASCII have case. *)
Definition case_of (u : bool) (c d : char) : Prop :=
  let n := nat_of_ascii c in let m := nat_of_ascii d in
  if u then (97 <= n <= 122 /\ m + 32 = n) \/ (~ 97 <= n <= 122 /\ m = n) else (65 <= n <= 90 /\ m = n + 32) \/ (~ 65 <= n <= 90 /\ m = n).
(** The first byte of a word and the others *)
Definition cased (u1 u2 : bool) (w w' : cstr) : Prop :=
  match w, w' with [], [] => True | c :: t, d :: t' => case_of u1 c d /\ Forall2 (case_of u2) t t' | _, _ => False end.
Inductive folded (u1 u2 : bool) : nat -> cstr -> cstr -> cstr -> Prop :=
| fd_0 r : folded u1 u2 0 [] [] r
| fd_S n a b b' v v' r : Forall (fun c => ~ word_byte c) a -> Forall word_byte b -> (b = [] -> v ++ r = []) ->
    match v ++ r with c :: _ => ~ word_byte c | [] => True end -> cased u1 u2 b b' -> folded u1 u2 n v v' r -> folded u1 u2 (S n) (a ++ b ++ v) (a ++ b' ++ v') r.

(** The history line of each command, counted from the oldest; source->line is the number of the next line. *)
Definition line_of (e : env) (g : func) (a : option nat) (s : ed) : option Z :=
  let last := (Z.of_nat (length (hist e)) - 1)%Z in
  let n := Z.of_nat (match a with None => 1 | Some n => n end) in
  match g with
  | F_beg_hist => Some 0%Z
  | F_end_hist => Some last
  | F_prev_com => Some (histp s - n)%Z
  | F_next_com => Some (histp s + n)%Z
  | F_goto_hist => Some (match a with None => 0 | Some n => last + Z.of_nat n - lineno e end)%Z
  | _ => None
  end.
Definition shows (e : env) (h : Z) (s s1 : ed) : Prop :=
  exists t, nth_error (hist e) (Z.to_nat h) = Some t /\ txt s1 = t /\ cur s1 = length t /\ histp s1 = h /\ kills s1 = kills s /\ mark s1 = mark s.

(** Where [c] is next: the first place after [p], and if there is none the first of all; and before [p]. *)
Definition is_at (t : cstr) (c : char) (i : nat) : Prop := nth_error t i = Some c.
Definition next_at (t : cstr) (c : char) (p q : nat) : Prop :=
  is_at t c q /\
  ((p < q /\ forall i, p < i < q -> ~ is_at t c i) \/ ((forall i, p < i -> ~ is_at t c i) /\ forall i, i < q -> ~ is_at t c i)).
Definition prev_at (t : cstr) (c : char) (p q : nat) : Prop :=
  is_at t c q /\
  ((q < p /\ forall i, q < i < p -> ~ is_at t c i) \/ (p < q /\ (forall i, i < p -> ~ is_at t c i) /\ forall i, q < i -> ~ is_at t c i)).

(** Lines, and a # before each of them or taken from each *)
Definition join (ls : list cstr) : cstr := match ls with [] => [] | l :: ls => l ++ flat_map (fun l => NL :: l) ls end.
Definition one_line (l : cstr) : Prop := ~ In NL l.
Definition unhash (l : cstr) : cstr := match l with c :: r => if ascii_dec c "#"%char then r else l | [] => [] end.

(** Words of the history are separated by blanks, tabs and quotes. *)
Definition separator (c : char) : Prop := In c [" "; "009"; """"; "'"]%char.
(** The last word and what separates it from the end *)
Definition last_of (t w : cstr) : Prop :=
  exists p v z, t = p ++ v ++ z /\ w = v ++ z /\ v <> [] /\ Forall (fun c => ~ separator c) v /\ Forall separator z /\ (p = [] \/ exists q c, p = q ++ [c] /\ separator c).
(** Word number [n] from 1 of a line that does not start with a separator; an empty word if there is none *)
Inductive word_no : nat -> cstr -> cstr -> Prop :=
| wn_1 w r : Forall (fun c => ~ separator c) w -> (r = [] \/ exists c q, r = c :: q /\ separator c) -> word_no 1 (w ++ r) w
| wn_S n v z r w : Forall (fun c => ~ separator c) v -> Forall separator z -> (z = [] -> r = []) -> match r with c :: _ => ~ separator c | [] => True end ->
    word_no (S n) r w -> word_no (S (S n)) (v ++ z ++ r) w.

(** A line matches a pattern: at its start if the pattern starts with ^, else anywhere; [n] is where the first match ends. *)
Definition matches (pat t : cstr) (n : nat) : Prop :=
  match pat with
  | "^"%char :: p => n = length p /\ is_prefix p t
  | _ => exists l r, t = l ++ pat ++ r /\ n = length (l ++ pat) /\ forall l' r', t = l' ++ pat ++ r' -> length l <= length l'
  end.
(** The newest line that matches *)
Definition newest (e : env) (pat : cstr) (h : nat) (t : cstr) (n : nat) : Prop :=
  nth_error (hist e) h = Some t /\ matches pat t n /\ forall h' t' n', nth_error (hist e) h' = Some t' -> matches pat t' n' -> h' <= h.
(** The characters that are part of the pattern: ASCII, and no binding has them alone, but ones for inserting. *)
Definition pattern_char (e : env) (c : char) : Prop :=
  0 < nat_of_ascii c < 128 /\ nat_of_ascii c <> 27 /\ forall k, In k (keys e) -> seq_of k = [c] -> fn k = F_insert.
