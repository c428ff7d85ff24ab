(** What commands do, as a big-step semantics written from the manual page and POSIX:
    break and continue count loops, no flags on environments; whether a failure is exempt from
    errexit is decided command by command, without a flag shared between commands. *)
From Verif Require Import Base Exec_model.
Local Open Scope Z_scope.

(** How a command ends.  [Done rv exempt]: status rv; [exempt] when the failure
    happened where errexit is ignored.  [Brk n], [Cnt n]: n loops are concerned, the innermost
    included.  [Retn]: return from the function.  [Err]: an error that abandons the commands up
    to the enclosing function or the shell.  [Quit]: the shell exits with $?. *)
Inductive oc := Done (rv : Z) (exempt : bool) | Brk (n : nat) | Cnt (n : nat) | Retn | Err | Quit.

Section Spec.
Context {S : Type} (d : disp S).
(** state, errexit, $? *)
Record sp := Sp { p_w : S; p_e : bool; p_q : Z }.
Definition with_w s w := Sp w (p_e s) (p_q s).
Definition with_e s e := Sp (p_w s) e (p_q s).
Definition with_q s q := Sp (p_w s) (p_e s) q.

(** A command ends with status [rv]: $? is set, and with errexit the shell exits if
    this is a failure that is neither ignored here nor exempt. *)
Definition settle (ign ex : bool) (rv : Z) (s : sp) : oc * sp :=
  (if negb (rv =? 0) && negb ign && negb ex && p_e s then Quit else Done rv ex, with_q s rv).
Definition fails (s : sp) : oc * sp := (if p_e s then Quit else Err, with_q s 1).

(** What becomes of a body's outcome outside a loop *)
Inductive verdict := Again (rv : Z) (ex : bool) | Leaves (o : oc).
Definition loop_verdict (o : oc) : verdict :=
  match o with
  | Done rv ex => Again rv ex
  | Brk (Datatypes.S O) => Leaves (Done 0 false)
  | Brk (Datatypes.S n) => Leaves (Brk n)
  | Cnt (Datatypes.S O) => Again 0 false
  | Cnt (Datatypes.S n) => Leaves (Cnt n)
  | o => Leaves o
  end.
Definition interrupts (o : oc) : Prop := match o with Done _ _ => False | _ => True end.
(** the end of a loop, when it is the end of a command *)
Definition ends (ign : bool) (o : oc) (s : sp) : oc * sp := match o with Done rv ex => settle ign ex rv s | o => (o, s) end.

(** exit status of a child *)
Definition exit_code (o : oc) (s : sp) : Z := (match o with Done rv _ => rv | _ => p_q s end) mod 256.
(** status of a pipeline: the last command's, or with pipefail that of the last command
    that failed *)
Definition pipe_status (pf : bool) (l : list Z) : Z := if pf then last (filter (fun v => negb (v =? 0)) l) 0 else last l 0.
(** the body of the first matching pattern *)
Inductive selects : cmd -> S -> S -> option cmd -> Prop :=
| sel_none c w : (forall p b n, c <> Arm p b n) -> selects c w w None
| sel_hit p b n w w' : d_pat d p w = (w', true) -> selects (Arm p b n) w w' (Some b)
| sel_miss p b n w w' w'' o : d_pat d p w = (w', false) -> selects n w' w'' o -> selects (Arm p b n) w w'' o.

(** [run ign lv fn c s o s']: command [c] started in [s] ends with [o] in [s'];
    [ign]: errexit is ignored here; [lv]: number of loops around, inside the current function;
    [fn]: inside a function. *)
Inductive run : bool -> nat -> bool -> cmd -> sp -> oc -> sp -> Prop :=
| r_nop ign lv fn s : run ign lv fn Nop s (Done 0 false) s
| r_arm ign lv fn p b n s : run ign lv fn (Arm p b n) s (Done 0 false) s
| r_plain ign lv fn k s w rv o s' : d_com d k (p_w s) (p_q s) = (w, RStat rv) ->
    settle ign false rv (with_w s w) = (o, s') -> run ign lv fn (Plain k) s o s'
| r_plain_err ign lv fn k s w o s' : d_com d k (p_w s) (p_q s) = (w, RErr) ->
    fails (with_w s w) = (o, s') -> run ign lv fn (Plain k) s o s'
| r_sete ign lv fn b s o s' : settle ign false 0 (with_e s b) = (o, s') -> run ign lv fn (SetE b) s o s'
| r_exit ign lv fn v s : run ign lv fn (Exit v) s Quit (match v with Some n => with_q s n | None => s end)
| r_return ign lv fn v s : run ign lv fn (Return v) s (if fn : bool then Retn else Quit) (match v with Some n => with_q s n | None => s end)
| r_break ign lv fn n s : 0 < n -> (0 < lv)%nat -> run ign lv fn (Break n) s (Brk (Nat.min (Z.to_nat n) lv)) s
| r_continue ign lv fn n s : 0 < n -> (0 < lv)%nat -> run ign lv fn (Continue n) s (Cnt (Nat.min (Z.to_nat n) lv)) s
| r_break_none ign fn n s o s' : 0 < n -> settle ign false 0 s = (o, s') -> run ign 0 fn (Break n) s o s'
| r_continue_none ign fn n s o s' : 0 < n -> settle ign false 0 s = (o, s') -> run ign 0 fn (Continue n) s o s'
| r_break_bad ign lv fn n s o s' : n <= 0 -> fails s = (o, s') -> run ign lv fn (Break n) s o s'
| r_continue_bad ign lv fn n s o s' : n <= 0 -> fails s = (o, s') -> run ign lv fn (Continue n) s o s'
| r_call_none ign lv fn f s o s' : d_fun d (p_w s) f = None -> settle ign false 127 s = (o, s') -> run ign lv fn (Call f) s o s'
| r_call ign lv fn f body s s1 s2 rv ex o s' : d_fun d (p_w s) f = Some body ->
    run ign 0 true body (with_w s (d_enter d f (p_w s))) (Done rv ex) s1 -> s2 = with_w s1 (d_leave d (p_w s) (p_w s1)) ->
    settle ign ex rv s2 = (o, s') -> run ign lv fn (Call f) s o s'
| r_call_ret ign lv fn f body s s1 s2 o s' : d_fun d (p_w s) f = Some body ->
    run ign 0 true body (with_w s (d_enter d f (p_w s))) Retn s1 -> s2 = with_w s1 (d_leave d (p_w s) (p_w s1)) ->
    settle ign false (p_q s2) s2 = (o, s') -> run ign lv fn (Call f) s o s'
(* errexit is off after an error that did not make the shell exit: exempt or not, it goes on *)
| r_call_err ign lv fn f body s s1 s2 ex o s' : d_fun d (p_w s) f = Some body ->
    run ign 0 true body (with_w s (d_enter d f (p_w s))) Err s1 -> s2 = with_w s1 (d_leave d (p_w s) (p_w s1)) ->
    settle ign ex (p_q s2) s2 = (o, s') -> run ign lv fn (Call f) s o s'
| r_call_quit ign lv fn f body s s1 : d_fun d (p_w s) f = Some body ->
    run ign 0 true body (with_w s (d_enter d f (p_w s))) Quit s1 -> run ign lv fn (Call f) s Quit (with_w s1 (d_leave d (p_w s) (p_w s1)))
| r_eval ign lv fn c s s1 rv ex o s' : run ign 0 fn c s (Done rv ex) s1 -> settle ign ex rv s1 = (o, s') -> run ign lv fn (Eval c) s o s'
| r_eval_jump ign lv fn c s o s' : run ign 0 fn c s o s' -> interrupts o -> run ign lv fn (Eval c) s o s'
| r_seq ign lv fn a b s r e s1 ob s2 o s' : run ign lv fn a s (Done r e) s1 -> run ign lv fn b s1 ob s2 ->
    ends ign ob s2 = (o, s') -> run ign lv fn (Seq a b) s o s'
| r_seq_jump ign lv fn a b s o s' : run ign lv fn a s o s' -> interrupts o -> run ign lv fn (Seq a b) s o s'
| r_and_fail ign lv fn a b s r e s1 : run true lv fn a s (Done r e) s1 -> r <> 0 -> run ign lv fn (And a b) s (Done r true) (with_q s1 r)
| r_and ign lv fn a b s e s1 ob s2 o s' : run true lv fn a s (Done 0 e) s1 -> run ign lv fn b s1 ob s2 ->
    ends ign ob s2 = (o, s') -> run ign lv fn (And a b) s o s'
| r_and_jump ign lv fn a b s o s' : run true lv fn a s o s' -> interrupts o -> run ign lv fn (And a b) s o s'
| r_or_ok ign lv fn a b s e s1 : run true lv fn a s (Done 0 e) s1 -> run ign lv fn (Or a b) s (Done 0 true) (with_q s1 0)
| r_or ign lv fn a b s r e s1 ob s2 o s' : run true lv fn a s (Done r e) s1 -> r <> 0 -> run ign lv fn b s1 ob s2 ->
    ends ign ob s2 = (o, s') -> run ign lv fn (Or a b) s o s'
| r_or_jump ign lv fn a b s o s' : run true lv fn a s o s' -> interrupts o -> run ign lv fn (Or a b) s o s'
| r_not ign lv fn a s r e s1 : run true lv fn a s (Done r e) s1 ->
    run ign lv fn (Not a) s (Done (if r =? 0 then 1 else 0) true) (with_q s1 (if r =? 0 then 1 else 0))
| r_not_jump ign lv fn a s o s' : run true lv fn a s o s' -> interrupts o -> run ign lv fn (Not a) s o s'
| r_if ign lv fn a t e s r x s1 ob s2 o s' : run true lv fn a s (Done r x) s1 -> run ign lv fn (if r =? 0 then t else e) s1 ob s2 ->
    ends ign ob s2 = (o, s') -> run ign lv fn (If a t e) s o s'
| r_if_jump ign lv fn a t e s o s' : run true lv fn a s o s' -> interrupts o -> run ign lv fn (If a t e) s o s'
| r_while ign lv fn u a b s ob s1 o s' : whiles ign lv fn u a b 0 false s ob s1 -> ends ign ob s1 = (o, s') -> run ign lv fn (While u a b) s o s'
| r_for ign lv fn k b s w ws ob s1 o s' : d_words d k (p_w s) = (w, ws) -> fors ign lv fn b ws 0 false (with_w s w) ob s1 ->
    ends ign ob s1 = (o, s') -> run ign lv fn (For k b) s o s'
| r_select ign lv fn k b s ob s1 o s' : sels ign lv fn k b s ob s1 -> ends ign ob s1 = (o, s') -> run ign lv fn (Select k b) s o s'
| r_case_none ign lv fn k arms s w o s' : selects arms (d_word d k (p_w s)) w None ->
    settle ign false 0 (with_w s w) = (o, s') -> run ign lv fn (Case k arms) s o s'
| r_case ign lv fn k arms s w body ob s1 o s' : selects arms (d_word d k (p_w s)) w (Some body) ->
    run ign lv fn body (with_w s w) ob s1 -> ends ign ob s1 = (o, s') -> run ign lv fn (Case k arms) s o s'
| r_brace ign lv fn c s ob s1 o s' : run ign lv fn c s ob s1 -> ends ign ob s1 = (o, s') -> run ign lv fn (Brace c) s o s'
| r_subshell ign lv fn c s rv s1 o s' : (forall a b, c <> Pipe a b) -> forked ign c s rv s1 -> settle ign false rv s1 = (o, s') ->
    run ign lv fn (Subshell c) s o s'
| r_subshell_pipe ign lv fn a b s ob s1 o s' : run ign lv fn (Pipe a b) s ob s1 -> ends ign ob s1 = (o, s') ->
    run ign lv fn (Subshell (Pipe a b)) s o s'
| r_pipe ign lv fn a b s l s1 o s' : piped ign (Pipe a b) s l s1 -> settle ign false (pipe_status (d_pipefail d (p_w s)) l) s1 = (o, s') ->
    run ign lv fn (Pipe a b) s o s'
| r_async ign lv fn c s o s' : settle ign false 0 (with_w s (d_async d c (p_w s))) = (o, s') -> run ign lv fn (Async c) s o s'
(** a child process; the parent only sees the exit status *)
with forked : bool -> cmd -> sp -> Z -> sp -> Prop :=
| f_child ign c s o s1 : run ign 0 false c s o s1 -> forked ign c s (exit_code o s1) (with_w s (d_join d (p_w s) (p_w s1)))
with piped : bool -> cmd -> sp -> list Z -> sp -> Prop :=
| pi_last ign c s rv s' : (forall a b, c <> Pipe a b) -> forked ign c s rv s' -> piped ign c s [rv] s'
| pi_more ign a b s rv s1 l s' : forked ign a s rv s1 -> piped ign b s1 l s' -> piped ign (Pipe a b) s (rv :: l) s'
(** loops: status and exemption so far *)
with whiles : bool -> nat -> bool -> bool -> cmd -> cmd -> Z -> bool -> sp -> oc -> sp -> Prop :=
| w_stop ign lv fn u a b rv ex s r e s1 : run true (Datatypes.S lv) fn a s (Done r e) s1 -> (r =? 0) = u -> whiles ign lv fn u a b rv ex s (Done rv ex) s1
| w_body ign lv fn u a b rv ex s r e s1 ob s2 rv' ex' o s' : run true (Datatypes.S lv) fn a s (Done r e) s1 -> (r =? 0) = negb u ->
    run ign (Datatypes.S lv) fn b s1 ob s2 -> loop_verdict ob = Again rv' ex' -> whiles ign lv fn u a b rv' ex' s2 o s' -> whiles ign lv fn u a b rv ex s o s'
| w_body_out ign lv fn u a b rv ex s r e s1 ob s' o : run true (Datatypes.S lv) fn a s (Done r e) s1 -> (r =? 0) = negb u ->
    run ign (Datatypes.S lv) fn b s1 ob s' -> loop_verdict ob = Leaves o -> whiles ign lv fn u a b rv ex s o s'
| w_cond_again ign lv fn u a b rv ex s oa s1 rv' ex' o s' : run true (Datatypes.S lv) fn a s oa s1 -> interrupts oa ->
    loop_verdict oa = Again rv' ex' -> whiles ign lv fn u a b rv' ex' s1 o s' -> whiles ign lv fn u a b rv ex s o s'
| w_cond_out ign lv fn u a b rv ex s oa s' o : run true (Datatypes.S lv) fn a s oa s' -> interrupts oa -> loop_verdict oa = Leaves o ->
    whiles ign lv fn u a b rv ex s o s'
with fors : bool -> nat -> bool -> cmd -> list nat -> Z -> bool -> sp -> oc -> sp -> Prop :=
| fo_end ign lv fn b rv ex s : fors ign lv fn b [] rv ex s (Done rv ex) s
| fo_err ign lv fn b k ks rv ex s o s' : d_set d k (p_w s) = None -> fails s = (o, s') -> fors ign lv fn b (k :: ks) rv ex s o s'
| fo_body ign lv fn b k ks rv ex s w ob s1 rv' ex' o s' : d_set d k (p_w s) = Some w -> run ign (Datatypes.S lv) fn b (with_w s w) ob s1 ->
    loop_verdict ob = Again rv' ex' -> fors ign lv fn b ks rv' ex' s1 o s' -> fors ign lv fn b (k :: ks) rv ex s o s'
| fo_out ign lv fn b k ks rv ex s w ob o s' : d_set d k (p_w s) = Some w -> run ign (Datatypes.S lv) fn b (with_w s w) ob s' ->
    loop_verdict ob = Leaves o -> fors ign lv fn b (k :: ks) rv ex s o s'
with sels : bool -> nat -> bool -> nat -> cmd -> sp -> oc -> sp -> Prop :=
| se_end ign lv fn k b s w : d_select d k (p_w s) = (w, None) -> sels ign lv fn k b s (Done 1 false) (with_w s w)
| se_err ign lv fn k b s w v o s' : d_select d k (p_w s) = (w, Some v) -> d_set d v w = None -> fails (with_w s w) = (o, s') -> sels ign lv fn k b s o s'
| se_body ign lv fn k b s w v w' ob s1 rv ex o s' : d_select d k (p_w s) = (w, Some v) -> d_set d v w = Some w' ->
    run ign (Datatypes.S lv) fn b (with_w s w') ob s1 -> loop_verdict ob = Again rv ex -> sels ign lv fn k b s1 o s' -> sels ign lv fn k b s o s'
| se_out ign lv fn k b s w v w' ob o s' : d_select d k (p_w s) = (w, Some v) -> d_set d v w = Some w' ->
    run ign (Datatypes.S lv) fn b (with_w s w') ob s' -> loop_verdict ob = Leaves o -> sels ign lv fn k b s o s'.

(** What a child leaves behind for its parent does not depend on processes in
    between. *)
Definition join_law : Prop := forall p c x, d_join d p (d_join d c x) = d_join d p x.
End Spec.

(** [calm c]: no &&, || or ! whose exemption could be the command's own *)
Fixpoint calm (cf : nat -> bool) (c : cmd) : bool :=
  match c with
  | And _ _ | Or _ _ | Not _ => false
  | Call f => cf f
  | Seq _ b => calm cf b
  | If _ t e => calm cf t && calm cf e
  | While _ _ b | For _ b | Select _ b => calm cf b
  | Case _ a => calm cf a
  | Arm _ b n => calm cf b && calm cf n
  | Brace c => calm cf c
  | _ => true
  end.
(** Commands for which the shared flag of the code does no harm: the left side of && and ||
    and the bodies of while, until and select are calm; no eval. *)
Fixpoint plain (cf : nat -> bool) (c : cmd) : bool :=
  match c with
  | Eval _ => false
  | Seq a b => plain cf a && plain cf b
  | And a b | Or a b => calm cf a && plain cf a && plain cf b
  | Not a => plain cf a
  | If a t e => plain cf a && plain cf t && plain cf e
  | While _ a b => plain cf a && calm cf b && plain cf b
  | Select _ b => calm cf b && plain cf b
  | For _ b => plain cf b
  | Case _ a => plain cf a
  | Arm _ b n => plain cf b && plain cf n
  | Brace c => plain cf c
  | Subshell c => plain cf c && match c with Nop | Arm _ _ _ => false | _ => true end
  | Pipe a b => plain cf a && plain cf b && match a with Nop | Arm _ _ _ => false | _ => true end && match b with Nop | Arm _ _ _ => false | _ => true end
  | _ => true
  end.
(** and so are the functions; those in [cf] are calm *)
Definition tame {S} (d : disp S) (cf : nat -> bool) : Prop :=
  forall w f body, d_fun d w f = Some body -> plain cf body = true /\ (cf f = true -> calm cf body = true).

(** No set -e anywhere *)
Fixpoint quiet (c : cmd) : bool :=
  match c with
  | SetE b => negb b
  | Eval c | Not c | Brace c => quiet c
  | Seq a b | And a b | Or a b | While _ a b => quiet a && quiet b
  | If a t e => quiet a && quiet t && quiet e
  | For _ b | Select _ b => quiet b
  | Case _ a => quiet a
  | Arm _ b n => quiet b && quiet n
  | Subshell c => quiet c && match c with Nop | Arm _ _ _ => false | _ => true end
  | Pipe a b => quiet a && quiet b && match a with Nop | Arm _ _ _ => false | _ => true end && match b with Nop | Arm _ _ _ => false | _ => true end
  | _ => true
  end.
