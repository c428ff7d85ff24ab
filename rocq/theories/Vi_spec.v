(** Sessions of the line editor in which the defects of vi.c that are known do not show. *)
From Verif Require Import Base Vi_model.
Local Open Scope Z_scope.

(** No byte continues a UTF-8 character (with vi-show8 there are none, vi.c:2265). *)
Definition nocont (k : cfg) (b : cstr) : Prop := Forall (fun c => isu8cont k c = false) b.
(** The characters that edit in insert mode are not the one that stands for a literal one. *)
Definition okcfg (k : cfg) : Prop :=
  is_key (erase k) "^" = false /\ is_key (kill k) "^" = false /\ is_key (werase k) "^" = false.

(** What is left out, case by case. *)
Definition allowed (k : cfg) (v : event) (s : st) : Prop :=
  match v with
  | Start b h n =>
      Z.of_nat (length b) = LINE /\ nocont k b /\ Forall (nocont k) h /\
      (* no search line is given up with text in it *)
      ~ (fin s = false /\ vs s = VSEARCH /\ sl s <> 0)
  | Key c m x =>
      (* ASCII, and nothing to expand or complete *)
      ccode c < 128 /\ x = None /\
      (* in replace mode neither the line nor the word before the cursor is erased *)
      ~ (vs s = VNORMAL /\ ins s = REPLACE /\ (is_key (kill k) c = true \/ is_key (werase k) c = true)) /\
      (* no count before / and ? *)
      ~ (vs s = VARG1 /\ is_srch c = true) /\
      (* a literal NUL is not typed *)
      ~ (vs s = VLIT /\ c = NUL) /\
      (* no macro goes to replace mode *)
      ~ (m = true /\ c = "R"%char) /\
      (* no cw on an empty line *)
      ~ (len (es s) = 0 /\ (vs s = VEXTCMD \/ vs s = VARG2) /\ cmd0 (cc s) = "c"%char /\ In c (L "wW")) /\
      (* a command that is repeated is not a c on an empty line, and its text fits *)
      (c = "."%char -> vs s = VARG1 \/ vs s = VNORMAL /\ ins s = COMMAND ->
       ~ (len (es s) = 0 /\ cmd0 (lcmd s) = "c"%char) /\
       (forall s', step k v s = Ok s' -> ins s' = COMMAND))
  end.
Fixpoint allowed_run (k : cfg) (l : list event) (s : st) : Prop :=
  match l with
  | [] => True
  | v :: l => allowed k v s /\ (forall s', step k v s = Ok s' -> allowed_run k l s')
  end.
(** The cursor is in the line, and the line with one more byte in its buffer. *)
Definition in_line (e : ed) : Prop := 0 <= cur e <= len e /\ len e < LINE /\ LINE = Z.of_nat (length (buf e)).
