(** Justified and case-converted values: var.c:524-581 formatstr. *)
From Verif Require Import Base Num_model SimplifyPath_model Printf_model.
Local Open Scope Z_scope.

(** the flags of a variable that matter, and u2.field *)
Record jflags := JFlags { j_rjust : bool; j_ljust : bool; j_zerofil : bool; j_ucase : bool; j_lcase : bool; j_field : Z }.

Definition strlen (s : cstr) : Z := Z.of_nat (length s).

(** var.c:547-549: the length left once trailing space is stripped *)
Fixpoint rstrip_len (r : cstr) : Z :=           (* over the reversed string *)
  match r with c :: r' => if isspace c then rstrip_len r' else strlen r | [] => 0 end.
(** var.c:560-564 *)
Fixpoint skip_space (s : cstr) : cstr := match s with c :: s' => if isspace c then skip_space s' else s | [] => [] end.
Fixpoint skip_zero (s : cstr) : cstr := match s with c :: s' => if ceq c "0" then skip_zero s' else s | [] => [] end.

(** var.c:535-537: a field of 0 becomes the length of the value, and is stored *)
Definition field_of (f : jflags) (s : cstr) : Z := if j_field f =? 0 then strlen s else j_field f.

(** var.c:524-581.  Second component: u2.field afterwards.  nlen + 1 bytes are
    allocated; a value of INT_MAX characters is not considered. *)
Definition formatstr (f : jflags) (s : cstr) : res (cstr * Z) :=
  let just := j_rjust f || j_ljust f in
  let fld := if just then field_of f s else j_field f in
  let nlen := fld in
  do p <-
    (if just then
       if j_rjust f then
         let slen := rstrip_len (rev s) in
         let cut := fld <? slen in
         let s := if cut then skipn (Z.to_nat (slen - fld)) s else s in
         let slen := if cut then fld else slen in
         let zero := j_zerofil f && match s with c :: _ => isdigit c | [] => false end in
         snprintf (Z.to_nat (nlen + 1)) (if zero then L "%0*s%.*s" else L "%*s%.*s")
                  [AInt (fld - slen); AStr []; AInt slen; AStr s]
       else
         let s := skip_space s in
         let s := if j_zerofil f then skip_zero s else s in
         snprintf (Z.to_nat (nlen + 1)) (L "%-*.*s") [AInt fld; AInt fld; AStr s]
     else Ok s) ;
  let p := if j_ucase f then map (fun c => if islower c then toupper c else c) p
           else if j_lcase f then map (fun c => if isupper c then tolower c else c) p
           else p in
  Ok (p, fld).
