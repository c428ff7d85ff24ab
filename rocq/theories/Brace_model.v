(** Brace expansion: eval.c:1261-1334 alt_expand.

    A word is a string in which the bytes with a special meaning are preceded by
    MAGIC (eval.c:636-720); OBRACE and CBRACE are { and }.  A MAGIC as the last byte
    makes the code read behind the string: [BUB].  What is done with each word that
    comes out (glob or debunk, eval.c:1293-1296) is left to the caller. *)
From Verif Require Import Base Glob_model.
Local Open Scope nat_scope.

(** eval.c:1269-1272: the first MAGIC { from exp_start on; the text before it and
    after it *)
Inductive fres := FNone | FAt (before after : cstr) | FUB.
Definition fcons (w : cstr) (r : fres) : fres := match r with FAt b a => FAt (w ++ b) a | _ => r end.
Fixpoint find_open (p : cstr) : fres :=
  match p with
  | [] => FNone
  | c :: r =>
    if ismagic c then
      match r with
      | [] => FUB
      | d :: r' => if ceq d "{" then FAt [] r' else fcons [c; d] (find_open r')
      end
    else fcons [c] (find_open r)
  end.

(** eval.c:1275-1288: the matching MAGIC }; what comes before it (with the brace) and
    after it, and whether there was a comma at the outermost level *)
Inductive cres := CNone | CAt (inside after : cstr) (comma : bool) | CUB.
Definition ccons (w : cstr) (k : bool) (r : cres) : cres := match r with CAt b a m => CAt (w ++ b) a (k || m) | _ => r end.
Fixpoint find_close (p : cstr) (count : nat) : cres :=
  match count with
  | O => CAt [] p false
  | S n =>
    match p with
    | [] => CNone
    | c :: r =>
      if ismagic c then
        match r with
        | [] => CUB
        | d :: r' =>
          if ceq d "{" then ccons [c; d] false (find_close r' (S count))
          else if ceq d "}" then ccons [c; d] false (find_close r' n)
          else ccons [c; d] (ceq d "," && (count =? 1)) (find_close r' count)
        end
      else ccons [c] false (find_close r count)
    end
  end.

(** eval.c:1307-1332: the fields of the text up to brace_end, split at the commas of
    the outermost level and at the closing brace *)
Fixpoint fields (p : cstr) (count : nat) (cur : cstr) : list cstr :=
  match p with
  | [] => []
  | c :: r =>
    if ismagic c then
      match r with
      | [] => []                                       (* not reached, see find_close *)
      | d :: r' =>
        if ceq d "{" then fields r' (S count) (cur ++ [c; d])
        else if ceq d "}" then
          if count - 1 =? 0 then cur :: fields r' (count - 1) []
          else fields r' (count - 1) (cur ++ [c; d])
        else if ceq d "," && (count =? 1) then cur :: fields r' count []
        else fields r' count (cur ++ [c; d])
      end
    else fields r count (cur ++ [c])
  end.

(** eval.c:1261-1334 alt_expand: start is [pre ++ s], exp_start is [s].  Out of fuel:
    None. *)
Inductive bres := BOk (ws : list cstr) | BUB | BFuel.
Definition bapp (a b : bres) : bres :=
  match a with BOk x => match b with BOk y => BOk (x ++ y) | _ => b end | _ => a end.
Fixpoint alt_expand (fuel : nat) (pre s : cstr) : bres :=
  match fuel with
  | O => BFuel
  | S f =>
    match find_open s with
    | FUB => BUB
    | FNone => BOk [pre ++ s]
    | FAt a body =>
      match find_close body 1 with
      | CUB => BUB
      | CNone => BOk [pre ++ s]
      | CAt inside after comma =>
        if comma then fold_right (fun field acc => bapp (alt_expand f (pre ++ a) (field ++ after)) acc) (BOk []) (fields inside 1 [])
        else alt_expand f (pre ++ a ++ [MAGIC; "{"%char] ++ inside) after
      end
    end
  end.
Definition brace_expand (w : cstr) : bres := alt_expand (S (length w)) [] w.
