(** C02: trimming; C35: quoted text is literal. *)
From Verif Require Import Base Num_model Glob_model Glob_spec Glob_proof Glob_props Trim_model Trim_spec Trim_proof.

(** ${x#p} etc. for every value and every well-formed pattern: the result is the
    value without its shortest/longest matching prefix/suffix, or the value
    itself when there is none; the value's own buffer is left as it was and
    nothing is read or written outside it. *)
Theorem c02_trim :
  forall (q : pseq) (str : cstr) (h : how), ok_seq q -> nul_free str = true ->
    exists r, trimsub str (enc_seq q) h = Ok (r, str ++ [NUL]) /\
      (best_part h (lang_seq q) str r \/ (r = str /\ no_part h (lang_seq q) str)).
Proof. exact (fun q str h Hq Hs => trimsub_ok (enc_seq q) (lang_seq q) (fun s => gmatch_ok q s Hq) str h Hs). Qed.
Print Assumptions c02_trim.

(** The same for an arbitrary pattern, well-formed or not, for which the matcher
    answers: "matches" is then what the matcher says. *)
Theorem c02_trim_any_pattern :
  forall (pat : cstr) (P : cstr -> Prop) (str : cstr) (h : how),
    (forall s, exists b, gmatch s pat = Some b /\ (b = true <-> P s)) -> nul_free str = true ->
    exists r, trimsub str pat h = Ok (r, str ++ [NUL]) /\
      (best_part h P str r \/ (r = str /\ no_part h P str)).
Proof. exact (fun pat P str h HP Hs => trimsub_ok pat P HP str h Hs). Qed.
Print Assumptions c02_trim_any_pattern.

Definition star_dot : pseq := SCons EStar (SCons (ELit false ".") SNil).
Definition dot_star : pseq := SCons (ELit false ".") (SCons EStar SNil).
Example c02_example :
  ok_seq star_dot /\ ok_seq dot_star /\
  trimsub (L "a.b.c") (enc_seq star_dot) ShortPre = Ok (L "b.c", L "a.b.c" ++ [NUL]) /\
  trimsub (L "a.b.c") (enc_seq star_dot) LongPre = Ok (L "c", L "a.b.c" ++ [NUL]) /\
  trimsub (L "a.b.c") (enc_seq dot_star) ShortSuf = Ok (L "a.b", L "a.b.c" ++ [NUL]) /\
  trimsub (L "a.b.c") (enc_seq dot_star) LongSuf = Ok (L "a", L "a.b.c" ++ [NUL]) /\
  trimsub (L "abc") (enc_seq dot_star) LongSuf = Ok (L "abc", L "abc" ++ [NUL]).
Proof. repeat split; vm_compute; auto. Qed.

(** Removing the marks from a marked word gives back what was written, for
    every mixture of quoted and unquoted characters and pattern operators and
    every combination of the expansion flags. *)
Theorem c35_marks_removed_exactly :
  forall (pat brace seen : bool) (w : list tok), forallb tok_ok w = true ->
    debunk (emits pat brace seen w) = flat_map tok_text w.
Proof. exact (fun pat brace seen w H => debunk_emits pat brace w H seen). Qed.
Print Assumptions c35_marks_removed_exactly.

(** and never needs more room than the marked word (debunk works in place) *)
Theorem c35_marks_removed_in_place : forall s, length (debunk s) <= length s.
Proof. exact debunk_short. Qed.
Print Assumptions c35_marks_removed_in_place.

Example c35_marks_example :
  let w := [TU "["; TQ "*"; TQ MAGIC; TU "]"; TOpen "@"; TU "x"; TBar; TU MAGIC; TClose] in
  forallb tok_ok w = true /\ debunk (emits true true false w) = flat_map tok_text w /\
  flat_map tok_text w = L "[*" ++ [MAGIC] ++ L "]@(x|" ++ [MAGIC] ++ L ")".
Proof. vm_compute. auto. Qed.

(** A quoted text anywhere in a pattern (outside brackets) matches itself only. *)
Theorem c35_quoted_text_literal :
  forall (q1 q2 : pseq) (t s : cstr) (pat brace seen : bool),
    ok_seq q1 -> ok_seq q2 -> nul_free t = true ->
    exists b, gmatch s (enc_seq q1 ++ emits pat brace seen (map TQ t) ++ enc_seq q2) = Some b /\
      (b = true <-> exists s1 s2, s = s1 ++ t ++ s2 /\ lang_seq q1 s1 /\ lang_seq q2 s2).
Proof. exact (fun q1 q2 t s pat brace seen H1 H2 Ht => quoted_ok q1 q2 t s pat brace seen H1 H2 Ht). Qed.
Print Assumptions c35_quoted_text_literal.

(** In particular a wholly quoted word matches exactly itself. *)
Theorem c35_quoted_word_literal :
  forall (t s : cstr) (pat brace seen : bool), nul_free t = true ->
    gmatch s (emits pat brace seen (map TQ t)) = Some (str_eqb t s).
Proof.
  intros t s pat brace seen Ht.
  destruct (quoted_ok SNil SNil t s pat brace seen I I Ht) as (b & E & Hb).
  cbn [enc_seq app] in E. rewrite app_nil_r in E. rewrite E. f_equal.
  destruct (str_eqb_spec t s) as [->|Hne].
  - apply Hb. exists [], []. cbn. rewrite app_nil_r. auto.
  - destruct b; [|reflexivity]. destruct Hb as [Hb _]. destruct (Hb eq_refl) as (s1 & s2 & -> & -> & ->).
    cbn in Hne. rewrite app_nil_r in Hne. congruence.
Qed.
Print Assumptions c35_quoted_word_literal.

Example c35_quoted_example :
  gmatch (L "a*[b]") (emits true true false (map TQ (L "a*[b]"))) = Some true /\
  gmatch (L "axb") (emits true true false (map TQ (L "a*b"))) = Some false.
Proof. vm_compute. auto. Qed.

(** Inside brackets quoting is not always honoured: in ["[:alpha:"]] the quoted
    text acts as a character class, so b is matched although the set
    written is [ : a l p h followed by a literal ]. *)
Theorem c35_quoted_class_refuted :
  exists w s, w = TU "[" :: map TQ (L "[:alpha:") ++ [TU "]"; TU "]"] /\
    gmatch s (emits true false false w) = Some true /\
    let q := SCons (EBracket (Bracket false None
               (map (BChar false) (L "[:alpha:")) false)) (SCons (ELit true "]") SNil) in
    enc_seq q = emits true false false w /\ ~ lang_seq q s.
Proof.
  eexists. exists (L "b"). split; [reflexivity|]. split; [vm_compute; reflexivity|]. split; [vm_compute; reflexivity|].
  intros (s1 & s2 & E & (c & -> & Hc) & (s3 & s4 & -> & -> & ->)). discriminate.
Qed.
Print Assumptions c35_quoted_class_refuted.

(** A quoted ^G right after the opening bracket is lost: ["^G"a] does not match ^G. *)
Theorem c35_quoted_magic_in_bracket_refuted :
  gmatch [MAGIC] (emits true false false [TU "["; TQ MAGIC; TU "a"; TU "]"]) = Some false /\
  gmatch [MAGIC] (emits true false false [TU "["; TU "a"; TQ MAGIC; TU "]"]) = Some true.
Proof. vm_compute. auto. Qed.
Print Assumptions c35_quoted_magic_in_bracket_refuted.
