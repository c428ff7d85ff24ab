(** Execution of command trees: execute, the function call in comexec (exec.c),
    the fork and the exit status of children in exchild and j_waitj (jobs.c), unwind
    (main.c), c_brkcont, c_exitreturn and c_eval (c_sh.c).

    What simple commands do is left open: they are functions of the state [S].  Not
    modelled: redirections of compound commands, traps, signals, [[ ]], time, coprocesses,
    the options monitor and interactive. *)
From Verif Require Import Base.
Local Open Scope Z_scope.

(** struct op (tree.h:10-52), one constructor for each type used here.  Simple
    commands: [Plain], and those modelled apart. *)
Inductive cmd :=
| Nop                                            (* no tree: NULL *)
| Plain (k : nat)
| SetE (b : bool)                                (* set -e, set +e *)
| Exit (n : option Z) | Return (n : option Z)
| Break (n : Z) | Continue (n : Z)
| Call (f : nat)                                 (* function *)
| Eval (c : cmd)                                 (* eval of one complete command *)
| Seq (a b : cmd)                                (* TLIST, nested to the right *)
| And (a b : cmd) | Or (a b : cmd) | Not (c : cmd)
| If (c t e : cmd)
| While (until : bool) (c b : cmd)
| For (k : nat) (b : cmd) | Select (k : nat) (b : cmd)
| Case (k : nat) (arms : cmd) | Arm (p : nat) (body next : cmd)     (* TPAT chain *)
| Brace (c : cmd)
| Subshell (c : cmd)
| Pipe (a b : cmd)                               (* nested to the right *)
| Async (c : cmd).

Inductive cres := RStat (rv : Z) | RErr.         (* RErr: errorf() *)
(** The world of simple commands.  [d_join p c]: the state of a parent [p] after a
    child that ended in state [c]; children run one after the other. *)
Record disp (S : Type) := Disp {
  d_com : nat -> S -> Z -> S * cres;             (* simple command; the number is $? *)
  d_fun : S -> nat -> option cmd;                (* function table *)
  d_enter : nat -> S -> S; d_leave : S -> S -> S;   (* parameters of functions *)
  d_words : nat -> S -> S * list nat;            (* words of for *)
  d_set : nat -> S -> option S;                  (* loop variable; None: readonly *)
  d_select : nat -> S -> S * option nat;         (* do_selectargs *)
  d_word : nat -> S -> S; d_pat : nat -> S -> S * bool;    (* case word, pattern *)
  d_join : S -> S -> S;
  d_async : cmd -> S -> S;
  d_pipefail : S -> bool
}.
Arguments Disp {S}. Arguments d_com {S}. Arguments d_fun {S}. Arguments d_enter {S}. Arguments d_leave {S}. Arguments d_words {S}.
Arguments d_set {S}. Arguments d_select {S}. Arguments d_word {S}. Arguments d_pat {S}. Arguments d_join {S}. Arguments d_async {S}. Arguments d_pipefail {S}.

(** sh.h:88-103: the environments that matter, innermost first; the flag is
    EF_BRKCONT_PASS *)
Inductive frame := FLoop (pass : bool) | FFunc | FParse.
(** sh.h:106-114.  LEXIT and LLEAVE are [JExit]; LERROR with errexit set is turned
    into LLEAVE by unwind (main.c:673-684) *)
Inductive jmp := JBreak | JCont | JReturn | JExit | JError.
Inductive out := Ret (rv : Z) | Jump (j : jmp).
(** flags of execute: XERROK, XEXEC *)
Record xflags := Xf { x_errok : bool; x_exec : bool }.

Section Exec.
Context {S : Type} (d : disp S).
(** [s_e]: Flag(FERREXIT), [s_q]: exstat, [s_k]: genv *)
Record st := St { s_w : S; s_e : bool; s_q : Z; s_k : list frame }.
Definition set_w s w := St w (s_e s) (s_q s) (s_k s).
Definition set_e s e := St (s_w s) e (s_q s) (s_k s).
Definition set_q s q := St (s_w s) (s_e s) q (s_k s).
Definition set_k s k := St (s_w s) (s_e s) (s_q s) k.
(** quitenv: drop the innermost environment *)
Definition pop s := set_k s (tl (s_k s)).
Definition top_pass s := match s_k s with FLoop p :: _ => p | _ => false end.

(** c_sh.c:583-589: the walk of c_brkcont: stack, what is left of quit, and whether a
    loop was marked *)
Fixpoint mark (quit : Z) (k : list frame) : list frame * Z :=
  match k with
  | FLoop p :: k' => if quit - 1 =? 0 then (k, 0) else let '(k2, q) := mark (quit - 1) k' in (FLoop true :: k2, q)
  | _ => (k, quit)
  end.
(** c_sh.c:604-605: clear the flag of the outermost loop seen *)
Fixpoint unmark_last (k : list frame) : list frame :=
  match k with
  | FLoop p :: k' => match k' with FLoop _ :: _ => FLoop p :: unmark_last k' | _ => FLoop false :: k' end
  | _ => k
  end.
(** io.c:26-36 errorf then main.c:669-684 *)
Definition error_jump (s : st) : jmp := if s_e s then JExit else JError.
(** c_sh.c:560-612 c_brkcont, from the number on.  break and continue are special
    builtins: bi_errorf (io.c:61-88) unwinds *)
Definition c_brkcont (j : jmp) (n : Z) (s : st) : out * st :=
  if n <=? 0 then (Jump (error_jump s), set_q s 1)
  else let '(k, quit) := mark n (s_k s) in
       if quit =? 0 then (Jump j, set_k s k)
       else if n =? quit then (Ret 0, set_k s k)
       else (Jump j, set_k s (unmark_last k)).
(** c_sh.c:518-558 *)
Definition in_function (k : list frame) : bool := existsb (fun f => match f with FFunc => true | _ => false end) k.
Definition c_exitreturn (ret : bool) (n : option Z) (s : st) : out * st :=
  let s := match n with Some n => set_q s n | None => s end in
  (Jump (if ret && in_function (s_k s) then JReturn else JExit), s).

(** exec.c:390-401 *)
Definition tail (fl : xflags) (x : bool) (rv : Z) (s : st) : out * bool * st :=
  let s := set_q s rv in
  if x_exec fl then (Jump JExit, x, s)
  else if negb (rv =? 0) && negb (x_errok fl) && negb x && s_e s then (Jump JExit, x, s) else (Ret rv, x, s).
(** exec.c:699-704: Leave in comexec comes first *)
Definition leave (fl : xflags) (x : bool) (r : out * st) : out * bool * st :=
  let '(o, s) := r in match o with Ret rv => tail fl x rv s | Jump j => (Jump j, x, s) end.
(** what a child process runs with: jobs.c:505, 537 *)
Definition child_state (s : st) : st := set_k s [].
Definition sub_flags (fl : xflags) : xflags := Xf (x_errok fl) false.
Definition ignore : xflags := Xf true false.
Definition child_flags (fl : xflags) : xflags := Xf (x_errok fl) true.

(** exec.c:352-358 *)
Fixpoint find_arm (arms : cmd) (w : S) : S * option cmd :=
  match arms with
  | Arm p body next => let '(w, b) := d_pat d p w in if b : bool then (w, Some body) else find_arm next w
  | _ => (w, None)
  end.
(** jobs.c:1104-1125: rightmost failure *)
Fixpoint last_failure (l : list Z) (rv : Z) : Z :=
  match l with [] => rv | a :: l' => last_failure l' (if a =? 0 then rv else a) end.

(** The result of a loop before the environment of the loop is left: [true] marks a
    jump that leaves it. *)
Definition loop_end (fl : xflags) (r : option (out * bool * st)) : option (out * bool * st) :=
  match r with
  | Some (Ret rv, x, s) => Some (tail fl x rv (pop s))
  | Some (Jump j, x, s) => Some (Jump j, x, pop s)
  | None => None
  end.
(** exec.c:286-293, 327-334: what a loop does with a jump that reaches it:
    None: go on looping *)
Definition caught (j : jmp) (x : bool) (s : st) : option (out * bool * st) :=
  if top_pass s then Some (Jump j, x, s)
  else match j with JBreak => Some (Ret 0, x, s) | JCont => None | _ => Some (Jump j, x, s) end.

(** exec.c:388-401: rv is set and the switch is left *)
Definition finish (fl : xflags) (r : option (out * bool * st)) : option (out * bool * st) :=
  match r with
  | Some (Ret rv, x, s) => Some (tail fl x rv s)
  | Some (Jump j, x, s) => Some (Jump j, x, s)
  | None => None
  end.

(** exec.c:43-402 execute, with *xerrok before and after *)
Fixpoint execute (fuel : nat) (c : cmd) (fl : xflags) (x : bool) (s : st) {struct fuel} : option (out * bool * st) :=
  match fuel with
  | O => None
  | Datatypes.S n =>
    match c with
    | Nop | Arm _ _ _ => Some (Ret 0, x, s)
    | Plain k => let '(w, r) := d_com d k (s_w s) (s_q s) in
                 match r with
                 | RStat rv => Some (tail fl x rv (set_w s w))
                 | RErr => Some (Jump (error_jump s), x, set_q (set_w s w) 1)
                 end
    | SetE b => Some (tail fl x 0 (set_e s b))
    | Exit v => Some (leave fl x (c_exitreturn false v s))
    | Return v => Some (leave fl x (c_exitreturn true v s))
    | Break v => Some (leave fl x (c_brkcont JBreak v s))
    | Continue v => Some (leave fl x (c_brkcont JCont v s))
    | Call f =>                                               (* exec.c:548-654 *)
      match d_fun d (s_w s) f with
      | None => Some (tail fl x 127 s)
      | Some body =>
        match execute n body (sub_flags fl) x (set_k (set_w s (d_enter d f (s_w s))) (FFunc :: s_k s)) with
        | Some (o, x, s1) =>
          let s2 := pop (set_w s1 (d_leave d (s_w s) (s_w s1))) in
          match o with
          | Ret rv => Some (tail fl x rv (set_q s2 rv))
          | Jump JReturn | Jump JError => Some (tail fl x (s_q s2) s2)
          | Jump j => Some (Jump j, x, s2)
          end
        | None => None
        end
      end
    | Eval c =>                                               (* c_sh.c:466-472, main.c:569-612, 656 *)
      let savef := s_e s in
      match execute n c (Xf false false) false (set_k (set_e s false) (FParse :: s_k s)) with
      | Some (Ret rv, _, s1) => Some (tail fl x rv (pop (set_e (set_q s1 rv) savef)))
      | Some (Jump j, _, s1) => Some (Jump j, x, pop s1)
      | None => None
      end
    | Seq _ _ => finish fl (elist n c (sub_flags fl) x s)
    | And a b =>
      match execute n a ignore x s with
      | Some (Ret rv, x, s1) =>
        if rv =? 0 then finish fl (execute n b (sub_flags fl) x s1)
        else Some (tail (Xf true (x_exec fl)) true rv s1)
      | Some (Jump j, x, s1) => Some (Jump j, x, s1)
      | None => None
      end
    | Or a b =>
      match execute n a ignore x s with
      | Some (Ret rv, x, s1) =>
        if rv =? 0 then Some (tail (Xf true (x_exec fl)) true rv s1)
        else finish fl (execute n b (sub_flags fl) x s1)
      | Some (Jump j, x, s1) => Some (Jump j, x, s1)
      | None => None
      end
    | Not a =>
      match execute n a ignore x s with
      | Some (Ret rv, _, s1) => Some (tail (Xf true (x_exec fl)) true (if rv =? 0 then 1 else 0) s1)
      | Some (Jump j, x, s1) => Some (Jump j, x, s1)
      | None => None
      end
    | If a t e =>
      match execute n a ignore false s with
      | Some (Ret rv, _, s1) =>
        finish fl (execute n (if rv =? 0 then t else e) (sub_flags fl) x s1)
      | Some (Jump j, _, s1) => Some (Jump j, x, s1)
      | None => None
      end
    | While u a b => loop_end fl (wloop n u a b (sub_flags fl) x 0 (set_k s (FLoop false :: s_k s)))
    | For k b => let '(w, ws) := d_words d k (s_w s) in
                 loop_end fl (floop n ws b (sub_flags fl) x x 0 (set_k (set_w s w) (FLoop false :: s_k s)))
    | Select k b => loop_end fl (sloop n k b (sub_flags fl) x (set_k s (FLoop false :: s_k s)))
    | Case k arms =>
      match find_arm arms (d_word d k (s_w s)) with
      | (w, None) => Some (tail fl x 0 (set_w s w))
      | (w, Some body) => finish fl (execute n body (sub_flags fl) x (set_w s w))
      end
    | Brace c => finish fl (execute n c (sub_flags fl) x s)
    | Subshell c =>
      (* XFORK: a child unless XEXEC or a pipeline, exec.c:73-74, jobs.c:408-412 *)
      let r := if x_exec fl then execute n c fl x s
               else match c with
                    | Pipe _ _ => execute n c fl x s
                    | _ => match child n c fl s with Some (rv, s1) => Some (Ret rv, x, s1) | None => None end
                    end in
      finish fl r
    | Pipe _ _ =>                                             (* exec.c:141-166; XEXEC is cleared *)
      match pipes n c (sub_flags fl) s with
      | Some (l, s1) => Some (tail (sub_flags fl) x (if d_pipefail d (s_w s) then last_failure l 0 else last l 0) s1)
      | None => None
      end
    | Async c => Some (tail fl x 0 (set_w s (d_async d c (s_w s))))
    end
  end
(** jobs.c:500-541, 567: a child runs [c]; its exit status and the parent *)
with child (fuel : nat) (c : cmd) (fl : xflags) (s : st) {struct fuel} : option (Z * st) :=
  match fuel with
  | O => None
  | Datatypes.S n => match execute n c (child_flags fl) false (child_state s) with
           | Some (_, _, s1) => Some (s_q s1 mod 256, set_w s (d_join d (s_w s) (s_w s1)))
           | None => None
           end
  end
with pipes (fuel : nat) (c : cmd) (fl : xflags) (s : st) {struct fuel} : option (list Z * st) :=
  match fuel with
  | O => None
  | Datatypes.S n =>
    match c with
    | Pipe a b => match child n a fl s with
                  | Some (rv, s1) => match pipes n b fl s1 with Some (l, s2) => Some (rv :: l, s2) | None => None end
                  | None => None
                  end
    | _ => match child n c fl s with Some (rv, s1) => Some ([rv], s1) | None => None end
    end
  end
(** exec.c:168-174 *)
with elist (fuel : nat) (c : cmd) (fl : xflags) (x : bool) (s : st) {struct fuel} : option (out * bool * st) :=
  match fuel with
  | O => None
  | Datatypes.S n =>
    match c with
    | Seq a b => match execute n a (sub_flags fl) false s with
                 | Some (Ret _, _, s1) => elist n b fl x s1
                 | Some (Jump j, _, s1) => Some (Jump j, x, s1)
                 | None => None
                 end
    | _ => execute n c (sub_flags fl) x s
    end
  end
(** exec.c:336-339 *)
with wloop (fuel : nat) (u : bool) (a b : cmd) (fl : xflags) (x : bool) (rv : Z) (s : st) {struct fuel} : option (out * bool * st) :=
  match fuel with
  | O => None
  | Datatypes.S n =>
    match execute n a ignore false s with
    | Some (Ret r, _, s1) =>
      if Bool.eqb (r =? 0) (negb u) then
        match execute n b (sub_flags fl) x s1 with
        | Some (Ret rv, x, s2) => wloop n u a b fl x rv s2
        | Some (Jump j, x, s2) => match caught j x s2 with Some r => Some r | None => wloop n u a b fl x 0 s2 end
        | None => None
        end
      else Some (Ret rv, x, s1)
    | Some (Jump j, _, s1) => match caught j x s1 with Some r => Some r | None => wloop n u a b fl x 0 s1 end
    | None => None
    end
  end
(** exec.c:295-304 *)
with floop (fuel : nat) (ws : list nat) (b : cmd) (fl : xflags) (save x : bool) (rv : Z) (s : st) {struct fuel} : option (out * bool * st) :=
  match fuel with
  | O => None
  | Datatypes.S n =>
    match ws with
    | [] => Some (Ret rv, x, s)
    | k :: ws' =>
      match d_set d k (s_w s) with
      | None => Some (Jump (error_jump s), x, set_q s 1)
      | Some w =>
        match execute n b (sub_flags fl) save (set_w s w) with
        | Some (Ret rv, x, s2) => floop n ws' b fl save x rv s2
        | Some (Jump j, x, s2) => match caught j x s2 with Some r => Some r | None => floop n ws' b fl x x 0 s2 end
        | None => None
        end
      end
    end
  end
(** exec.c:307-315; the loop ends only when do_selectargs gives up *)
with sloop (fuel : nat) (k : nat) (b : cmd) (fl : xflags) (x : bool) (s : st) {struct fuel} : option (out * bool * st) :=
  match fuel with
  | O => None
  | Datatypes.S n =>
    match d_select d k (s_w s) with
    | (w, None) => Some (Ret 1, x, set_w s w)
    | (w, Some v) =>
      match d_set d v w with
      | None => Some (Jump (error_jump s), x, set_q (set_w s w) 1)
      | Some w =>
        match execute n b (sub_flags fl) x (set_w s w) with
        | Some (Ret _, x, s2) => sloop n k b fl x s2
        | Some (Jump j, x, s2) => match caught j x s2 with Some r => Some r | None => sloop n k b fl x s2 end
        | None => None
        end
      end
    end
  end.
End Exec.
