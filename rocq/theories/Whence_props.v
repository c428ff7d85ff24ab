(** C77: what whence, type and command -v say about names. *)
From Verif Require Import Base Search_model Search_spec Findcom_model Findcom_spec Findcom_proof Findcom_props Quote_model Whence_model Whence_spec Whence_proof.
Local Open Scope Z_scope.

(** A name has only one meaning. *)
Lemma named_not {D} stat access def_path kw al fattr texp de (d : D) path tal only std id k :
  means stat access def_path kw al fattr texp de d path tal only std id k -> (k = KKeyword \/ exists x v, k = KAlias x v) -> named kw al only id.
Proof.
  intros H [->|(x & v & ->)]; inversion H; subst; split; eauto.
Qed.
Theorem c77_means_unique : forall D stat access def_path kw al fattr texp de (d : D) path tal only std id k k',
  means stat access def_path kw al fattr texp de d path tal only std id k -> means stat access def_path kw al fattr texp de d path tal only std id k' -> k = k'.
Proof.
  intros D stat access def_path kw al fattr texp de d path tal only std id k k' H H'.
  assert (U : forall e e', right stat access def_path de d path only std id e -> right stat access def_path de d path only std id e' -> same_entry (Some e) (Some e')).
  { intros e e' R R'. eapply c31_unique; eassumption. }
  destruct H as [O K|x v O K A|b N R|x t N R F|f x t N R I F|f N R I|p N R T|p N R T|N R]; destruct H' as [O' K'|x' v' O' K' A'|b' N' R'|x' t' N' R' F'|f' x' t' N' R' I' F'|f' N' R' I'|p' N' R' T'|p' N' R' T'|N' R'];
    try congruence; try (exfalso; match goal with X : ~ named _ _ _ _ |- _ => apply X; split; eauto; fail end);
    pose proof (U _ _ R R') as S; cbn in S; try discriminate S; try contradiction; congruence.
Qed.
Print Assumptions c77_means_unique.

Section Thm.
Context (D : Type) (stat : D -> cstr -> option fileinfo) (access : D -> cstr -> bool -> option nat) (def_path : cstr).
Context (kw : cstr -> bool) (al : cstr -> option (bool * bool * cstr)) (fattr : cstr -> bool * bool) (texp : cstr -> bool) (de : defs).
Lemma now_start (s : shell (D:=D)) : coherent stat access s -> now stat access de (sh_cwd s) (sh_path s) (sh_tal s) s.
Proof. intros C. unfold now. sp; auto. reflexivity. Qed.
End Thm.
Lemma autoload_det f a b : autoload_text f a -> autoload_text f b -> a = b.
Proof. intros [] H; inversion H; auto. Qed.
Lemma long_text_det id k t : long_text id k t -> forall t', long_text id k t' -> t = t'.
Proof.
  induction 1; intros t' H'; inversion H'; subst; auto.
  match goal with X : long_text id _ (?u ++ _) |- _ => apply IHlong_text in X; apply app_inv_tail in X; subst end.
  match goal with X : autoload_text _ ?a, Y : autoload_text _ ?b |- _ => rewrite (autoload_det _ _ _ X Y) end. reflexivity.
Qed.
Lemma short_text_det cmd id k t t' : short_text cmd id k t -> short_text cmd id k t' -> t = t'.
Proof. intros H H'; inversion H; subst; inversion H'; subst; congruence. Qed.

(** The long form (type, whence -v, command -V): for every name one line that says what it
    means, and status 0 exactly if all mean something. *)
Theorem c77_long : forall D stat access def_path kw al fattr texp de (s : shell (D:=D)) by_ pflag vflag Vflag only std ids out rv,
  coherent stat access s ->
  by_ = CType \/ by_ = CWhence /\ vflag = true \/ by_ = CCommand /\ Vflag = true ->
  (only = true <-> by_ <> CCommand /\ pflag = true) -> (std = true <-> by_ = CCommand /\ pflag = true) ->
  c_whence stat access def_path kw al fattr texp de by_ pflag vflag Vflag ids s = Some (out, rv) <->
  exists ok, long_list stat access def_path kw al fattr texp de (sh_cwd s) (sh_path s) (sh_tal s) only std ids out ok /\ rv = if ok then 0 else 1.
Proof.
  intros D stat access def_path kw al fattr texp de s by_ pflag vflag Vflag only std ids out rv CO V HO HS.
  assert (only = iam_whence by_ && pflag) as ->. { destruct by_, pflag, only; cbn; auto; try (destruct HO as [A B]; destruct (A eq_refl); congruence); apply HO; split; auto; discriminate. }
  assert (std = negb (iam_whence by_) && pflag) as ->. { destruct by_, pflag, std; cbn; auto; try (destruct HS as [A B]; destruct (A eq_refl); congruence); apply HS; auto. }
  assert (VV : Whence_model.vflag by_ vflag Vflag = true) by (destruct V as [->|[[-> ->]|[-> ->]]]; reflexivity).
  destruct (long_ok stat access def_path kw al fattr texp de (sh_cwd s) (sh_path s) (sh_tal s) by_ pflag vflag Vflag VV ids s 0) as (out1 & ok1 & LL & E); auto using now_start.
  assert (DET : forall o k, long_list stat access def_path kw al fattr texp de (sh_cwd s) (sh_path s) (sh_tal s) (iam_whence by_ && pflag) (negb (iam_whence by_) && pflag) ids o k -> o = out1 /\ k = ok1).
  { clear - LL. induction LL as [|id ids k t out ok M NN T L IH|id ids t out ok M T L IH]; intros o q H; inversion H; subst; auto;
      match goal with X : long_list _ _ _ _ _ _ _ _ _ _ _ _ _ _ ?o ?q, M' : means _ _ _ _ _ _ _ _ _ _ _ _ _ _ ?k' |- _ => destruct (IH _ _ X) as [-> ->]; pose proof (c77_means_unique _ _ _ _ _ _ _ _ _ _ _ _ _ _ _ _ _ M M'); subst end; try congruence;
      match goal with T' : long_text _ _ ?t' |- context [?t' ++ _] => rewrite (long_text_det _ _ _ T _ T') end; auto. }
  unfold c_whence. rewrite E. split; [intros H; injection H as <- <-; eauto|]. intros (ok & L & ->). destruct (DET _ _ L) as [-> ->]. reflexivity.
Qed.
Print Assumptions c77_long.

(** The short form (whence, command -v): the name, the file or the alias; the first name
    that means nothing ends it, silently and with status 1. *)
Theorem c77_short : forall D stat access def_path kw al fattr texp de (s : shell (D:=D)) by_ pflag vflag Vflag only std cmd ids out rv,
  coherent stat access s ->
  by_ = CWhence /\ vflag = false /\ cmd = false \/ by_ = CCommand /\ Vflag = false /\ cmd = true ->
  (only = true <-> by_ <> CCommand /\ pflag = true) -> (std = true <-> by_ = CCommand /\ pflag = true) ->
  c_whence stat access def_path kw al fattr texp de by_ pflag vflag Vflag ids s = Some (out, rv) <->
  exists ok, short_list stat access def_path kw al fattr texp de (sh_cwd s) (sh_path s) (sh_tal s) only std cmd ids out ok /\ rv = if ok then 0 else 1.
Proof.
  intros D stat access def_path kw al fattr texp de s by_ pflag vflag Vflag only std cmd ids out rv CO V HO HS.
  assert (only = iam_whence by_ && pflag) as ->. { destruct by_, pflag, only; cbn; auto; try (destruct HO as [A B]; destruct (A eq_refl); congruence); apply HO; split; auto; discriminate. }
  assert (std = negb (iam_whence by_) && pflag) as ->. { destruct by_, pflag, std; cbn; auto; try (destruct HS as [A B]; destruct (A eq_refl); congruence); apply HS; auto. }
  assert (VV : Whence_model.vflag by_ vflag Vflag = false /\ cmd = negb (iam_whence by_)) by (destruct V as [(-> & -> & ->)|(-> & -> & ->)]; auto). destruct VV as [VV ->].
  destruct (short_ok stat access def_path kw al fattr texp de (sh_cwd s) (sh_path s) (sh_tal s) by_ pflag vflag Vflag VV ids s) as (out1 & ok1 & LL & E); auto using now_start.
  assert (DET : forall o k, short_list stat access def_path kw al fattr texp de (sh_cwd s) (sh_path s) (sh_tal s) (iam_whence by_ && pflag) (negb (iam_whence by_) && pflag) (negb (iam_whence by_)) ids o k -> o = out1 /\ k = ok1).
  { clear - LL. induction LL as [|id ids k t out ok M NN T L IH|id ids M]; intros o q H; inversion H; subst; auto;
      match goal with M1 : means _ _ _ _ _ _ _ _ _ _ _ _ _ id ?k1, M' : means _ _ _ _ _ _ _ _ _ _ _ _ _ id ?k2 |- _ => pose proof (c77_means_unique _ _ _ _ _ _ _ _ _ _ _ _ _ _ _ _ _ M1 M'); subst end; try congruence.
    match goal with X : short_list _ _ _ _ _ _ _ _ _ _ _ _ _ _ _ ?o ?q |- _ => destruct (IH _ _ X) as [-> ->] end.
    match goal with T' : short_text _ _ _ ?t' |- context [?t' ++ _] => rewrite (short_text_det _ _ _ _ _ T T') end; auto. }
  unfold c_whence. rewrite E. split; [intros H; injection H as <- <-; eauto|]. intros (ok & L & ->). destruct (DET _ _ L) as [-> ->]. reflexivity.
Qed.
Print Assumptions c77_short.

(** Something is always said or the status is 1: no null pointer is used, whatever the
    tables and the files are. *)
Theorem c77_safe : forall D stat access def_path kw al fattr texp de (s : shell (D:=D)) by_ pflag vflag Vflag ids,
  coherent stat access s -> exists out rv, c_whence stat access def_path kw al fattr texp de by_ pflag vflag Vflag ids s = Some (out, rv) /\ (rv = 0 \/ rv = 1).
Proof.
  intros D stat access def_path kw al fattr texp de s by_ pflag vflag Vflag ids CO.
  destruct (Whence_model.vflag by_ vflag Vflag) eqn:V.
  - destruct (long_ok stat access def_path kw al fattr texp de (sh_cwd s) (sh_path s) (sh_tal s) by_ pflag vflag Vflag V ids s 0) as (out & ok & _ & E); auto using now_start.
    exists out, (if ok then 0 else 1). split; auto. destruct ok; auto.
  - destruct (short_ok stat access def_path kw al fattr texp de (sh_cwd s) (sh_path s) (sh_tal s) by_ pflag vflag Vflag V ids s) as (out & ok & _ & E); auto using now_start.
    exists out, (if ok then 0 else 1). split; auto. destruct ok; auto.
Qed.
Print Assumptions c77_safe.

(** whence -p and command -v say where the file is that would be executed. *)
Theorem c77_file : forall D stat access def_path kw al fattr texp de (s : shell (D:=D)) id p, coherent stat access s ->
  first_in stat access (sh_cwd s) (sh_path s) id true p ->
  c_whence stat access def_path kw al fattr texp de CWhence true false false [id] s = Some (p ++ [NL], 0).
Proof.
  intros D stat access def_path kw al fattr texp de s id p CO F.
  apply (c77_short D stat access def_path kw al fattr texp de s CWhence true false false true false false [id] (p ++ [NL]) 0 CO); auto.
  - split; auto. intros _. split; [discriminate|auto].
  - split; [discriminate|intros [X _]; discriminate].
  - exists true. split; auto.
    assert (NM : ~ named kw al true id) by (intros [X _]; discriminate).
    assert (R : forall e, e = ETalias (Some p) \/ e = EExec (Some p) -> right stat access def_path de (sh_cwd s) (sh_path s) true false id e).
    { intros e HE. unfold right, fl_of. assert (X : none (special de id (FC false false false false true false)) /\ none (function de id (FC false false false false true false)) /\
        none (regular de id (FC false false false false true false)) /\ none (other de id (FC false false false false true false)) /\ file stat access def_path (sh_cwd s) (sh_path s) id (FC false false false false true false) p).
      { sp; try (intros x (_ & X & _); discriminate). split; auto. }
      destruct HE as [->| ->]; exact X. }
    assert (TD : tracked de (sh_tal s) false id \/ ~ tracked de (sh_tal s) false id).
    { unfold tracked. destruct (in_dec ascii_dec "/"%char id); [right; intros (A & _); contradiction|]. destruct (d_track de); [left; auto|]. destruct (tfind (sh_tal s) id) as [x|] eqn:TF; [left; sp; eauto|right].
      intros (_ & _ & [X|(x & X)]); discriminate. }
    change (p ++ [NL]) with (p ++ [NL] ++ []). destruct TD as [T|T].
    + eapply Sl_found with (k := KTracked (texp id) p); [eapply Me_tracked; auto|discriminate|constructor|constructor].
    + eapply Sl_found with (k := KFile p); [eapply Me_file; auto|discriminate|constructor|constructor].
Qed.
Print Assumptions c77_file.


(** Examples: a keyword, aliases, builtins, a function, one to be loaded, files, nothing. *)
Definition kw_ (n : cstr) : bool := str_eqb n (L "while").
Definition al_ (n : cstr) : option (bool * bool * cstr) := if str_eqb n (L "ll") then Some (true, true, L "ls -l") else if str_eqb n (L "old") then Some (false, true, L "x") else None.
Definition fa_ (n : cstr) : bool * bool := (str_eqb n (L "pf"), str_eqb n (L "cf")).
Definition s_ : shell (D:=bool) := Sh (L "bin:/bin") false [].
Definition w_ by_ p v V names := c_whence st_ ac_ (L "/bin") kw_ al_ fa_ (fun _ => false) de_ by_ p v V (map L names) s_.
Definition lines_ (l : list string) : cstr := flat_map (fun x => L x ++ [NL]) l.
Example c77_ex_long : w_ CType false false false ["while"; "ll"; "set"; "nope"; "pf"; "later"; "fun"; "/bin/ls"]%string =
  Some (lines_ ["while is a reserved word"; "ll is an exported alias for 'ls -l'"; "set is a special shell builtin"; "nope not found"; "pf is an exported function";
    "later is a undefined function"; "fun is a undefined (autoload from /f/fun) function"; "/bin/ls is /bin/ls"]%string, 1).
Proof. vm_compute. reflexivity. Qed.
Example c77_ex_short : w_ CCommand false false false ["while"; "ll"; "set"; "pf"]%string = Some (lines_ ["while"; "alias ll='ls -l'"; "set"; "pf"]%string, 0)
  /\ w_ CWhence false false false ["ll"; "old"; "set"]%string = Some (lines_ ["'ls -l'"]%string, 1)
  /\ w_ CWhence true false false ["ls"; "while"; "ls"]%string = Some (lines_ ["/bin/ls"]%string, 1).
Proof. vm_compute. repeat split. Qed.
Example c77_ex_coherent : coherent st_ ac_ s_.
Proof. intros name p H. discriminate H. Qed.

(** The manual says that whence prints about each name; the code stops at the first name
    that means nothing. *)
Theorem c77_each_refuted : ~ (forall D stat access def_path kw al fattr texp de (s : shell (D:=D)) ids out rv p id, coherent stat access s -> In id ids ->
  first_in stat access (sh_cwd s) (sh_path s) id true p ->
  c_whence stat access def_path kw al fattr texp de CWhence true false false ids s = Some (out, rv) -> exists a b, out = a ++ p ++ [NL] ++ b).
Proof.
  intros H. specialize (H bool st_ ac_ (L "/bin") kw_ al_ fa_ (fun _ => false) de_ s_ [L "nope"; L "ls"] [] 1 (L "/bin/ls") (L "ls") c77_ex_coherent (or_intror (or_introl eq_refl))).
  destruct H as (a & b & E).
  - apply srch_ok. vm_compute. reflexivity.
  - vm_compute. reflexivity.
  - destruct a; discriminate.
Qed.
Print Assumptions c77_each_refuted.

(** As the manual says, type, whence -v and command -V are the same. *)
Theorem c77_same : forall D stat access def_path kw al fattr texp de (s : shell (D:=D)) v v' V V' ids, coherent stat access s ->
  c_whence stat access def_path kw al fattr texp de CWhence false true V ids s = c_whence stat access def_path kw al fattr texp de CCommand false v true ids s /\
  c_whence stat access def_path kw al fattr texp de CType false v' V' ids s = c_whence stat access def_path kw al fattr texp de CCommand false v true ids s.
Proof.
  intros D stat access def_path kw al fattr texp de s v v' V V' ids CO.
  destruct (c77_safe D stat access def_path kw al fattr texp de s CCommand false v true ids CO) as (out & rv & E & _). rewrite E.
  assert (N : forall b : called, false = true <-> b <> CCommand /\ false = true) by (intros; split; [discriminate|intros [_ X]; exact X]).
  assert (N' : forall b : called, false = true <-> b = CCommand /\ false = true) by (intros; split; [discriminate|intros [_ X]; exact X]).
  apply (c77_long D stat access def_path kw al fattr texp de s CCommand false v true false false) in E; auto.
  split; apply (c77_long D stat access def_path kw al fattr texp de s) with (only := false) (std := false); auto.
Qed.
Print Assumptions c77_same.
