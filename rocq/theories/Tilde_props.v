(** C70: tilde expansion. *)
From Verif Require Import Base Glob_model Word_model Expand_model Expand_spec Expand_proof Tilde_model Tilde_spec Tilde_proof.

Section Props.
Context {E : Type}.
Variable y : sys E.
Variables (o1 o2 o3 : bool) (fl : flags) (e : E).
Notation g := (enter o1 o2 o3 fl).
(** A word outside patterns and outside ${x=word}, with tilde expansion asked for *)
Hypothesis Hpat : pat fl = false.
Hypothesis Htemp : temp fl = false.
Hypothesis Htil : dotilde fl || asn fl = true.
Hypothesis Hdir : forall n d, tilde y e n = Some d -> ~ In MAGIC d.
Variable els : list el.
Hypothesis Hok : Forall el_ok els.
Hypothesis Hwild : Forall (no_wild (glob g) (brace g)) els.

(** There is one text for each word. *)
Theorem c70_unambiguous : exists t, tilded (asn fl) (tilde y e) true false els t /\ forall t', tilded (asn fl) (tilde y e) true false els t' -> t' = t.
Proof using Hdir Hok Hpat Htemp Htil Hwild.
  destruct (sim E y g Hpat Htemp Htil e Hdir els (start E o1 o2 o3 fl e (els_code els ++ [EOS])) [] true false []) as (t & m & T & _); auto.
  - constructor; cbn; auto. constructor.
  - exists t. split; auto. intros t' T'. symmetry. eapply tilded_fun; eauto.
Qed.
(** The word is expanded to one word with that text: neither is the directory split at the
    characters of IFS, nor are its wildcards taken for wildcards. *)
Theorem c70_tilde t rest : tilded (asn fl) (tilde y e) true false els t ->
  t <> [] \/ blank fl = false \/ (exists l, In (D l) els) ->
  exists rs, expands y o1 o2 o3 fl e (els_code els ++ EOS :: rest) e rs /\ map second rs = [Some t].
Proof using Hdir Hok Hpat Htemp Htil Hwild.
  intros T X.
  destruct (sim E y g Hpat Htemp Htil e Hdir els (start E o1 o2 o3 fl e (els_code els ++ EOS :: rest)) rest true false []) as (t' & m & T' & R & (ok & eq & I) & S); auto.
  - constructor; cbn; auto. constructor.
  - rewrite (tilded_fun _ _ _ _ _ _ T _ T') in *. destruct (last_step E y g Hpat e m rest ok eq _ I) as (m' & L1 & L2 & L3 & _).
    destruct (reach_run E y _ _ R) as [n RN]. exists (outs E m'). split.
    + exists (n + 1), m'. rewrite RN. cbn [run]. now rewrite L1.
    + apply L3, S. destruct X as [X|[X|X]]; auto. left. left. cbn. now rewrite X.
Qed.
End Props.
Print Assumptions c70_unambiguous.
Print Assumptions c70_tilde.

(** The names: nothing, + and - mean the variables, whatever was looked up before; ... *)
Theorem c70_variables d pw : tilde_of d pw [] = (home d, d) /\ tilde_of d pw (L "+") = (pwd d, d) /\ tilde_of d pw (L "-") = (oldpwd d, d).
Proof. repeat split. Qed.
Print Assumptions c70_variables.
(** ... all others are users.  The directory is what the password file said when it first knew
    the user, also when it has changed since. *)
Theorem c70_users h p o l i n pw : nth_error l i = Some (n, pw) -> ~ In n [[]; L "+"; L "-"] ->
  nth_error (lookups (Dirs h p o []) l) i = Some (first_known n (firstn (S i) l)).
Proof.
  intros H N. apply (lookups_ok l (Dirs h p o []) [] ltac:(reflexivity) i n pw H).
  split; [|split]; intros ->; apply N; cbn; auto.
Qed.
Print Assumptions c70_users.

(** * Examples *)
Definition ysys (dir : cstr -> option cstr) : sys unit :=
  Sys unit (fun _ => []) (fun _ _ => None) (fun _ _ => []) (fun _ _ => false) (fun _ _ => false) (fun _ _ _ => None) (fun _ _ => None) (fun _ _ => None) (fun _ => dir) (fun _ => L " ") (fun _ => false).
Definition table (l : list (String.string * String.string)) (n : cstr) : option cstr :=
  match find (fun p => str_eqb (L (fst p)) n) l with Some (_, d) => Some (L d) | None => None end.
Definition word_flags := F true true false true false false false false false.     (* a word of a command *)
Definition asn_flags := F false false false false true false false false false.    (* an assignment *)
Definition expanded (dir : cstr -> option cstr) (fl : flags) (els : list el) : option (list (option cstr)) :=
  match run unit (ysys dir) 2000 (start unit false false true fl tt (els_code els ++ [EOS])) with
  | Done _ m => Some (map second (outs _ m)) | _ => None end.
Definition u (s : String.string) : list el := map U (L s).
Open Scope string_scope.
Definition tab := table [("", "/home/my stuff*"); ("root", "/root"); ("+", "/tmp")].
Notation "a ==> b" := (a = Some [Some (L b)]) (at level 70).

Example ex_home : expanded tab word_flags (u "~/x") ==> "/home/my stuff*/x". Proof. vm_compute. reflexivity. Qed.
Example ex_user : expanded tab word_flags (u "~root") ==> "/root". Proof. vm_compute. reflexivity. Qed.
Example ex_pwd : expanded tab word_flags (u "~+") ==> "/tmp". Proof. vm_compute. reflexivity. Qed.
Example ex_unknown : expanded tab word_flags (u "~who/x-y") ==> "~who/x-y". Proof. vm_compute. reflexivity. Qed.
Example ex_oldpwd_unset : expanded tab word_flags (u "~-") ==> "~-". Proof. vm_compute. reflexivity. Qed.
Example ex_middle : expanded tab word_flags (u "a~") ==> "a~". Proof. vm_compute. reflexivity. Qed.
Example ex_eq : expanded tab word_flags (u "dd=~root=~root:~root") ==> "dd=~root=~root:~root". Proof. vm_compute. reflexivity. Qed.
Example ex_eq1 : expanded tab word_flags (u "dd=~root/=~root") ==> "dd=/root/=~root". Proof. vm_compute. reflexivity. Qed.
Example ex_asn : expanded tab asn_flags (u "PATH=~root/bin:~root:x~root:~root") ==> "PATH=/root/bin:/root:x~root:/root". Proof. vm_compute. reflexivity. Qed.
Example ex_quoted_name : expanded tab word_flags (U "~" :: u "ro" ++ [Q "o"] ++ u "t") ==> "~root". Proof. vm_compute. reflexivity. Qed.
Example ex_quoted_tilde : expanded tab word_flags (Q "~" :: u "root") ==> "~root". Proof. vm_compute. reflexivity. Qed.
Example ex_after_quotes : expanded tab word_flags (D [] :: u "~root") ==> "~root". Proof. vm_compute. reflexivity. Qed.
Example ex_before_quotes : expanded tab word_flags (u "~root" ++ [D [(false, "/"%char)]]) ==> "~root/". Proof. vm_compute. reflexivity. Qed.
Example ex_slash_quotes : expanded tab word_flags (u "~root/" ++ [D [(false, "a"%char); (true, "b"%char)]]) ==> "/root/ab". Proof. vm_compute. reflexivity. Qed.
(** the hypotheses of the theorem for one of them *)
Example ex_tilded : tilded true tab true false (u "a=~root:~/x") (L "a=/root:/home/my stuff*/x").
Proof.
  eapply t_char with (ok' := false) (eq' := false); [discriminate|split; [discriminate|intros [[K _]|[K _]]; discriminate]|split; [discriminate|intros [K|K]; discriminate]|].
  eapply t_char with (ok' := true) (eq' := true); [discriminate|split; auto|split; auto|].
  apply (t_home true tab true _ (L "root") (u ":~/x") (L "/root") (L ":/home/my stuff*/x")); [|reflexivity|].
  { split; [reflexivity|]. split; [|right; eexists; right; split; reflexivity]. repeat constructor; discriminate. }
  eapply t_char with (ok' := true) (eq' := true); [discriminate|split; auto|split; auto|].
  apply (t_home true tab true _ [] (u "/x") (L "/home/my stuff*") (L "/x")); [|reflexivity|].
  { split; [reflexivity|]. split; [constructor|]. right. eexists. left. reflexivity. }
  eapply t_char with (ok' := false) (eq' := true); [discriminate|split; [discriminate|intros [[_ K]|[K _]]; discriminate]|split; auto|].
  eapply t_char with (ok' := false) (eq' := true); [discriminate|split; [discriminate|intros [[_ K]|[K _]]; discriminate]|split; auto|]. constructor.
Qed.
Example ex_hyps : Forall el_ok (u "a=~root:~/x") /\ Forall (no_wild true true) (u "a=~root:~/x").
Proof. split; repeat constructor; try discriminate; cbn; intuition discriminate. Qed.
Example ex_users : lookups (Dirs None (Some (L "/p")) None []) [(L "a", None); (L "+", None); (L "a", Some (L "/1")); (L "b", Some (L "/b")); (L "a", Some (L "/2")); (L "a", None); (L "", None)]
  = [None; Some (L "/p"); Some (L "/1"); Some (L "/b"); Some (L "/1"); Some (L "/1"); None].
Proof. vm_compute. reflexivity. Qed.

(** * Where it goes wrong *)
(** With HOME empty, a word ~ is no word at all (eval.c:700-701), so [c70_tilde] does not hold
    for an empty text of a command's word. *)
Theorem c70_empty_refuted : exists els, Forall el_ok els /\ tilded false (table [("", "")]) true false els [] /\
  expanded (table [("", "")]) word_flags els = Some [].
Proof.
  exists (u "~"). split; [repeat constructor; discriminate|]. split; [|vm_compute; reflexivity].
  apply (t_home false (table [("", "")]) false [] [] [] [] []); [|reflexivity|constructor]. split; [reflexivity|]. split; [constructor|]. now left.
Qed.
Print Assumptions c70_empty_refuted.
(** A byte \007 in the directory comes out twice: maybe_expand_tilde marks it with MAGIC
    (eval.c:1199-1200) without noting in fdo that there is a mark to remove. *)
Theorem c70_magic_refuted : exists els d t r, Forall el_ok els /\ tilded false (fun n => match n with [] => Some d | _ => None end) true false els t /\
  expanded (fun n => match n with [] => Some d | _ => None end) word_flags els = Some [Some r] /\ r <> t.
Proof.
  exists (u "~"), [MAGIC], [MAGIC], [MAGIC; MAGIC]. split; [repeat constructor; discriminate|]. split; [|split; [vm_compute; reflexivity|discriminate]].
  apply (t_home false _ false [] [] [] [MAGIC] []); [|reflexivity|constructor]. split; [reflexivity|]. split; [constructor|]. now left.
Qed.
Print Assumptions c70_magic_refuted.
