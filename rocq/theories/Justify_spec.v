(** Justification, as the manual describes it. *)
From Verif Require Import Base.

(** [trimmed_right s t]: t is s without its trailing white space *)
Definition trimmed_right (s t : cstr) : Prop :=
  exists w, s = t ++ w /\ forallb isspace w = true /\ (forall t' c, t = t' ++ [c] -> isspace c = false).
(** white space, then (if asked) zeros, removed from the front *)
Definition trimmed_left (zeros : bool) (s t : cstr) : Prop :=
  exists w z, s = w ++ z ++ t /\ forallb isspace w = true /\ forallb (fun c => ceq c "0") z = true /\
  (z ++ t = [] \/ exists c r, z ++ t = c :: r /\ isspace c = false) /\
  (zeros = false -> z = []) /\
  (zeros = true -> forall c r, t = c :: r -> c <> "0"%char).

(** right-justified in n columns: the last n characters of the trimmed value,
    or the value after blanks - zeros if asked for and the value begins with a digit *)
Definition right_justified (zeros : bool) (n : nat) (t out : cstr) : Prop :=
  (n <= length t /\ length out = n /\ exists cut, t = cut ++ out) \/
  (length t < n /\
   out = repeat (if zeros && match t with c :: _ => isdigit c | [] => false end then "0"%char else " "%char) (n - length t) ++ t).
(** left-justified: the first n characters, or the value and blanks *)
Definition left_justified (n : nat) (t out : cstr) : Prop :=
  (n <= length t /\ length out = n /\ exists cut, t = out ++ cut) \/
  (length t < n /\ out = t ++ repeat " "%char (n - length t)).

(** letters in upper (lower) case, everything else kept *)
Definition upcased (c : char) : char := if islower c then ascii_of_N (N_of_ascii c - 32) else c.
Definition downcased (c : char) : char := if isupper c then ascii_of_N (N_of_ascii c + 32) else c.
