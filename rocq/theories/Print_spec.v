(** What print and echo should write. *)
From Verif Require Import Base Opt_spec.
Local Open Scope nat_scope.

(** ** Escapes *)
Definition BSL : char := "\"%char.
Inductive stands_for : char -> Z -> Prop :=
| F_a : stands_for "a" 7 | F_b : stands_for "b" 8 | F_f : stands_for "f" 12 | F_n : stands_for "n" 10
| F_r : stands_for "r" 13 | F_t : stands_for "t" 9 | F_v : stands_for "v" 11 | F_bs : stands_for "\" 92.
Definition octal (c : char) : Prop := In c (L "01234567").
Fixpoint octal_value (ds : cstr) (acc : Z) : Z :=
  match ds with [] => acc | d :: ds => octal_value ds (acc * 8 + (ccode d - 48))%Z end.

(** [decodes s t b]: the text [s] is written as [t]; [b]: it has a \c, which
    suppresses the newline at the end *)
Inductive decodes : cstr -> cstr -> bool -> Prop :=
| D_nil : decodes [] [] false
| D_plain c s t b : c <> BSL -> decodes s t b -> decodes (c :: s) (c :: t) b
| D_last : decodes [BSL] [BSL] false
| D_char e z c s t b : stands_for e z -> ccode c = z -> decodes s t b -> decodes (BSL :: e :: s) (c :: t) b
| D_c s t b : decodes s t b -> decodes (BSL :: "c"%char :: s) t true
| D_octal ds c s t b : Forall octal ds -> length ds <= 3 ->
    (length ds = 3 \/ forall d s', s = d :: s' -> ~ octal d) ->
    ccode c = (octal_value ds 0 mod 256)%Z -> decodes s t b -> decodes (BSL :: "0"%char :: ds ++ s) (c :: t) b
| D_other e s t b : ~ In e (L "abcfnrtv0\") -> decodes s t b -> decodes (BSL :: e :: s) (BSL :: e :: t) b.

(** the arguments with single spaces between them *)
Fixpoint spaced (l : list cstr) : cstr :=
  match l with [] => [] | [a] => a | a :: l => a ++ " "%char :: spaced l end.

(** [written ex nl args t]: the whole output; [ex]: with escapes, [nl]: with a newline *)
Definition written (ex nl : bool) (args : list cstr) (t : cstr) : Prop :=
  exists outs stop,
    (if ex then exists bs, Forall2 (fun s ob => decodes s (fst ob) (snd ob)) args (combine outs bs) /\ length bs = length outs /\
                           (stop = true <-> In true bs)
     else outs = args /\ stop = false) /\
    t = spaced outs ++ if nl && negb stop then ["010"%char] else [].

(** ** Options *)
(** what the options of print ask for: escapes, newline, history, descriptor *)
Record wish := Wish { w_ex : bool; w_nl : bool; w_hist : bool; w_fd : nat }.
Section Env.
Context (coproc_fd : option nat) (check_fd : cstr -> option nat).
(** [told evs w w']; [None]: there is an option that cannot be obeyed *)
Inductive told : list ev -> wish -> option wish -> Prop :=
| T_nil w : told [] w (Some w)
| T_n p k a evs w r : told evs (Wish (w_ex w) false (w_hist w) (w_fd w)) r -> told (Opt p k "n" a :: evs) w r
| T_r p k a evs w r : told evs (Wish false (w_nl w) (w_hist w) (w_fd w)) r -> told (Opt p k "r" a :: evs) w r
| T_e p k a evs w r : told evs (Wish true (w_nl w) (w_hist w) (w_fd w)) r -> told (Opt p k "e" a :: evs) w r
| T_s p k a evs w r : told evs (Wish (w_ex w) (w_nl w) true (w_fd w)) r -> told (Opt p k "s" a :: evs) w r
| T_p fd p k a evs w r : coproc_fd = Some fd -> told evs (Wish (w_ex w) (w_nl w) (w_hist w) fd) r -> told (Opt p k "p" a :: evs) w r
| T_nop p k a evs w : coproc_fd = None -> told (Opt p k "p" a :: evs) w None
| T_u0 p k evs w r : told evs (Wish (w_ex w) (w_nl w) (w_hist w) 0) r -> told (Opt p k "u" (Some []) :: evs) w r
| T_u fd p k a evs w r : a <> [] -> check_fd a = Some fd -> told evs (Wish (w_ex w) (w_nl w) (w_hist w) fd) r -> told (Opt p k "u" (Some a) :: evs) w r
| T_nou p k a evs w : a <> [] -> check_fd a = None -> told (Opt p k "u" (Some a) :: evs) w None
| T_bad p c evs w : told (Unknown p c :: evs) w None.
End Env.
Definition is_R (e : ev) : Prop := match e with Opt _ _ c _ => c = "R"%char | _ => False end.

(** the words that are options for echo: a dash and letters of neE, and what they ask
    for; the operands start at the first other word *)
Definition echo_option (w : cstr) : Prop := exists ls, w = "-"%char :: ls /\ ls <> [] /\ Forall (fun c => In c (L "neE")) ls.
(** the last e or E decides *)
Definition last_eE (ls : cstr) (ex : bool) : bool :=
  fold_left (fun b c => if ceq c "e" then true else if ceq c "E" then false else b) ls ex.
