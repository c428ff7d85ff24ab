(** C01: pattern matching decides the pattern language. *)
From Verif Require Import Base Glob_model Glob_spec Glob_proof.

(** For every well-formed pattern tree and every string the matcher answers, and
    answers yes exactly for the strings the pattern denotes. *)
Theorem c01_gmatch_decides_language :
  forall (q : pseq) (s : cstr), ok_seq q -> 
    exists b, gmatch s (enc_seq q) = Some b /\ (b = true <-> lang_seq q s).
Proof. exact (fun q s H => gmatch_ok q s H). Qed.
Print Assumptions c01_gmatch_decides_language.

(** @(a|+([[:digit:]x-z]))[!b]*  on 12yqq and on b *)
Definition ex_pat : pseq :=
  SCons (EExt OAt (ACons (SCons (ELit false "a") SNil)
     (AOne (SCons (EExt OPlus (AOne (SCons (EBracket (Bracket false None
        [BClass (L "digit"); BRange false "x" false "z"] false)) SNil))) SNil))))
  (SCons (EBracket (Bracket true None [BChar false "b"] false)) (SCons EStar SNil)).
Example c01_example :
  ok_seq ex_pat /\ gmatch (L "12yqq") (enc_seq ex_pat) = Some true /\
  gmatch (L "1b") (enc_seq ex_pat) = Some false /\ gmatch (L "ab") (enc_seq ex_pat) = Some false.
Proof.
  split; [|vm_compute; auto]. cbn -[ccode].
  repeat split; try (right; discriminate); try (vm_compute; discriminate); repeat ((left; reflexivity) || right).
Qed.

(** A repetition with the alternatives ab and a, followed by b, needs backtracking. *)
Example c01_example_backtrack :
  let p := SCons (EExt OStar (ACons (SCons (ELit false "a") (SCons (ELit false "b") SNil)) (AOne (SCons (ELit false "a") SNil))))
             (SCons (ELit false "b") SNil) in
  ok_seq p /\ gmatch (L "aab") (enc_seq p) = Some true /\ gmatch (L "aaba") (enc_seq p) = Some false.
Proof. split; [cbn; auto|]. vm_compute. auto. Qed.

(** A matched text of a pattern without operators is the text itself. *)
Theorem c01_literal_pattern :
  forall (t s : cstr), nul_free t = true -> mem MAGIC t = false ->
    gmatch s t = Some (str_eqb t s).
Proof.
  intros t s Hn Hm. unfold gmatch.
  assert (G : has_globbing t = false).
  { change (has_globbing t) with (gs t 0 false false). clear Hn. induction t as [|c t IH]; [reflexivity|].
    cbn [mem existsb] in Hm. apply orb_false_elim in Hm. destruct Hm as [H1 H2].
    rewrite gs_raw; [apply IH, H2|]. unfold ismagic. apply ceq_false. apply ceq_false in H1. congruence. }
  rewrite G. f_equal. f_equal. clear Hn G. induction t as [|c t IH]; [reflexivity|].
  cbn [mem existsb] in Hm. apply orb_false_elim in Hm. destruct Hm as [H1 H2].
  cbn [debunk]. assert (E : ismagic c = false) by (unfold ismagic; apply ceq_false; apply ceq_false in H1; congruence).
  rewrite E. f_equal. apply IH, H2.
Qed.
Print Assumptions c01_literal_pattern.

(** The well-formedness condition is needed: an unquoted [ after a class inside a
    bracket expression, [[:alpha:][], makes the matcher compare literally. *)
Theorem c01_bracket_after_class_refuted :
  exists b s, gmatch s (MAGIC :: "["%char :: enc_bracket b) = Some false /\
    lang_elt (EBracket b) s /\ b = Bracket false None [BClass (L "alpha"); BChar true "["] false.
Proof.
  exists (Bracket false None [BClass (L "alpha"); BChar true "["] false), (L "a").
  split; [vm_compute; reflexivity|]. split; [|reflexivity].
  exists "a"%char. split; [reflexivity|]. cbn. right. left. exists (BClass (L "alpha")). split; [left; reflexivity|].
  cbn. constructor. vm_compute. intuition discriminate.
Qed.
Print Assumptions c01_bracket_after_class_refuted.

(** [:blank:] is not known: the whole bracket expression then matches nothing. *)
Theorem c01_blank_class_refuted :
  exists b, b = Bracket false None [BClass (L "blank"); BChar false "x"] false /\
    gmatch (L " ") (MAGIC :: "["%char :: enc_bracket b) = Some false /\
    gmatch (L "x") (MAGIC :: "["%char :: enc_bracket b) = Some false.
Proof. eexists. split; [reflexivity|]. vm_compute. auto. Qed.
Print Assumptions c01_blank_class_refuted.
