(** What the special variables promise. *)
From Verif Require Import Base Num_model Num_spec Special_model.
Local Open Scope Z_scope.

(** The variable a name means: the innermost that is defined. *)
Inductive entry : block -> cstr -> var -> Prop :=
| en_here n v b : entry ((n, v) :: b) n v
| en_later n m v w b : m <> n -> entry b n v -> entry ((m, w) :: b) n v.
Inductive means : list block -> cstr -> option var -> Prop :=
| m_none n : means [] n None
| m_here n v b l : entry b n v -> defined v = true -> means (b :: l) n (Some v)
| m_outer n b l o : (forall v, entry b n v -> defined v = false) -> means l n o -> means (b :: l) n o.
(** its value as a text, None if it is not set *)
Definition shows (o : option var) (t : option cstr) : Prop :=
  match o with
  | None => t = None
  | Some v => (isset v = false /\ t = None) \/ (isset v = true /\ exists s, value v = VStr s /\ t = Some s)
  end.

(** The variables whose setting follows the value when it is set and when it is unset. *)
Definition followed : list (cstr * id) :=
  [(L "PATH", V_PATH); (L "IFS", V_IFS); (L "TMPDIR", V_TMPDIR); (L "HISTCONTROL", V_HISTCONTROL); (L "MAIL", V_MAIL); (L "MAILPATH", V_MAILPATH)].
Section Spec.
Variable usable_dir : cstr -> bool.
Variable def_path : cstr.
(** The setting the shell works with is the one for this value. *)
Definition agrees (i : id) (t : option cstr) (st : state) : Prop :=
  match i with
  | V_PATH => texts st X_path = Some (match t with Some s => s | None => def_path end)
  | V_IFS => let s := match t with Some s => s | None => [SP; TAB; NL] end in
             texts st X_ifs = Some s /\ texts st X_ifs0 = Some [hd NUL s]
  | V_TMPDIR => (forall s r, t = Some s -> s = "/"%char :: r -> usable_dir s = true -> texts st X_tmpdir = Some s) /\
                (forall d, texts st X_tmpdir = Some d -> t = Some d /\ usable_dir d = true /\ exists r, d = "/"%char :: r)
  | V_HISTCONTROL => texts st X_histcontrol = t
  | V_MAIL => texts st X_mail = t
  | V_MAILPATH => texts st X_mailpath = t
  | _ => True
  end.
(** All six settings are those for the values the variables have. *)
Definition coherent (st : state) : Prop :=
  forall n i, In (n, i) followed -> exists o t, means (blocks st) n o /\ shows o t /\ agrees i t st.

(** The operations that keep it so: not a local variable without a value (or one that cannot be given its value), not the removal of a
    variable that hides another, not the failing end of a function. *)
Definition harmless (ends : state -> Prop) (o : op) (st : state) : Prop :=
  match o with
  | Typeset n None _ => forall i, ~ In (n, i) followed
  | Typeset n (Some _) copy => copy = true -> forall i v, In (n, i) followed -> means (blocks st) n (Some v) -> rdonly v = false
  | Unset n => forall i b pre post v, In (n, i) followed -> blocks st = pre ++ b :: post -> means [b] n (Some v) -> means post n None
  | Pop => ends st
  | _ => True
  end.
End Spec.

(** time in nanoseconds *)
Definition nanos (t : Z * Z) : Z := fst t * 1000000000 + snd t.
(** The operation does not name the variable. *)
Definition apart (n : cstr) (o : op) : Prop :=
  match o with Assign m _ | Typeset m _ _ | Unset m | Readonly m | Get m => m <> n | _ => True end.
(** The variable is in the outermost block only. *)
Definition outermost (st : state) (n : cstr) (v : var) : Prop :=
  exists inner b, blocks st = inner ++ [b] /\ entry b n v /\ forall c w, In c inner -> ~ entry c n w.
(** What a shell goes through. *)
Section Runs.
Variable ev : cstr -> option Z.
Variable usable_dir : cstr -> bool.
Variable def_path : cstr.
Variable rand : Z -> Z -> Z.
Notation next := (next ev usable_dir def_path rand).
Notation step := (step ev usable_dir def_path rand).
(** a run of operations that keep the settings *)
Inductive reaches (st : state) : state -> Prop :=
| re_refl : reaches st st
| re_next st1 o st2 : reaches st st1 -> harmless (fun st => exists a st', step Pop st = Ok_ a st') o st1 -> next o st1 = Some st2 -> reaches st st2.
(** any run that does not make the variable local, readonly or unset *)
Definition steady (n : cstr) (o : op) : Prop :=
  match o with Typeset m _ _ | Unset m | Readonly m => m <> n | _ => True end.
Inductive steadily (n : cstr) (st : state) : state -> Prop :=
| sd_refl : steadily n st st
| sd_next st1 o st2 : steadily n st st1 -> steady n o -> next o st1 = Some st2 -> steadily n st st2.
(** a run of operations on other variables and readings of this one, and what was read *)
Inductive draws (n : cstr) (st : state) : list (option cstr) -> state -> Prop :=
| dr_refl : draws n st [] st
| dr_other l st1 o st2 : draws n st l st1 -> apart n o -> next o st1 = Some st2 -> draws n st l st2
| dr_read l st1 r st2 : draws n st l st1 -> step (Get n) st1 = Ok_ r st2 -> draws n st (l ++ [r]) st2.
End Runs.
(** any run at all *)
Section Any.
Variable ev : cstr -> option Z.
Variable usable_dir : cstr -> bool.
Variable def_path : cstr.
Variable rand : Z -> Z -> Z.
Inductive anyhow (st : state) : state -> Prop :=
| an_refl : anyhow st st
| an_next st1 o st2 : anyhow st st1 -> next ev usable_dir def_path rand o st1 = Some st2 -> anyhow st st2.
End Any.
