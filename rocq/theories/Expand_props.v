(** C32, C33: the words a word is expanded to.

    [expands y o1 o2 o3 fl e w e' rs]: expand() on [w] ends with the words [rs] for its second
    pass (eval.c:600-610), and with the environment [e']. *)
From Verif Require Import Base Num_model Glob_model Trim_model Trim_spec Word_model Expand_model Expand_spec Expand_proof Expand_fields.

Section Props.
Context {E : Type}.
Variable y : sys E.
Hypothesis Y : sys_ok y.
Variables (o1 o2 o3 : bool) (fl : flags).
Notation fl' := (enter o1 o2 o3 fl).
Notation go e w := (expands y o1 o2 o3 fl e w).
Hypothesis D : dont fl = false.

Lemma run_fun n : forall n' m a b, run E y n m = Done E a -> run E y n' m = Done E b -> a = b.
Proof.
  induction n as [|n IH]; intros [|n'] m a b; cbn [run]; try discriminate. destruct (step E y m); try congruence. apply IH.
Qed.
(** The result is unique. *)
Lemma expands_fun e w e1 r1 e2 r2 : go e w e1 r1 -> go e w e2 r2 -> e1 = e2 /\ r1 = r2.
Proof. intros (n & m & R & <- & <-) (n' & m' & R' & <- & <-). now rewrite (run_fun _ _ _ _ _ R R'). Qed.

Lemma expands_sem p e its e' rest : sem y (blank fl) false false e p = Some (its, e') -> lexed p = true ->
  go e (code p ++ EOS :: rest) e' (map (raw_of fl') (ifinish (irun (blank fl) (I (if blank fl then WS else WORD) [] []) its))).
Proof.
  intros HS W. destruct (expand_sim E y Y fl' D p e its e' rest HS W D) as (n & m & R & X & O). exists n, m. split; [exact R|]. auto.
Qed.

(** * C32: splitting into fields *)
Section Split.
Hypothesis B : blank fl = true.
(** Without the doubtful cases (Expand_spec.v), the words are the fields. *)
Theorem c32_fields p e its e' rest : sem y true false false e p = Some (its, e') -> lexed p = true -> tame Between its = true ->
  go e (code p ++ EOS :: rest) e' (map (raw_of fl') (fields None its)).
Proof. intros HS W T. rewrite <- exact_fields by auto. pose proof (expands_sem p e its e' rest) as X. rewrite B in X. auto. Qed.
(** For all words: the fields that have text are right, no character of the text is lost or
    added, and the order is kept. *)
Theorem c32_nothing_lost p e its e' rest : sem y true false false e p = Some (its, e') -> lexed p = true ->
  exists l, go e (code p ++ EOS :: rest) e' (map (raw_of fl') l) /\ filter nonempty l = filter nonempty (fields None its) /\ concat l = texts its.
Proof.
  intros HS W. exists (ifinish (irun true (I WS [] []) its)). split; [pose proof (expands_sem p e its e' rest) as X; rewrite B in X; now apply X|split].
  - rewrite (nonempty_fields _ _ None); [reflexivity|reflexivity|]. now intros [].
  - apply nothing_lost.
Qed.
(** A value is split as POSIX has it, unless all its characters are in IFS and not all are white
    space. *)
Theorem c32_value b n v e rest : scalar_name n = true -> nul_free n = true -> value y e n = Some v ->
  existsb (fun c => negb (mem c (ifs y e))) v || forallb (fun c => negb (non c (ifs y e))) v = true ->
  go e (code (Var b n Stop) ++ EOS :: rest) e (map (raw_of fl') (map (map TU) (posix_split (ifs y e) v))).
Proof.
  intros S N V X.
  assert (K : kind y e n = Some (Scalar (Some v))).
  { unfold kind. destruct (str_eqb n (L "@")) eqn:N1; [apply str_eqb_true in N1; subst; discriminate|].
    destruct (str_eqb n (L "*")) eqn:N2; [apply str_eqb_true in N2; subst; discriminate|]. now rewrite S, V. }
  assert (HS : sem y true false false e (Var b n Stop) = Some (Begin :: chars y true false e true v, e)).
  { cbn [sem]. rewrite K. cbn. rewrite andb_false_r. cbn. now rewrite app_nil_r. }
  unfold posix_split. rewrite <- (posix_value y e v X) by lia.
  assert (Z := fun its => expands_sem (Var b n Stop) e its e rest). rewrite B in Z. refine (Z _ HS _). cbn. now rewrite N.
Qed.
(** The output of a command too, but without an empty field at the beginning. *)
Theorem c32_command t o e e' rest : nul_free t = true -> command y e t = Some (e', Some o) ->
  go e (code (Com t Stop) ++ EOS :: rest) e' (map (raw_of fl') (map (map TU) (posix_fields (S (length o)) (ifs y e') (after_delim (ifs y e') (printed o))))).
Proof.
  intros N C.
  assert (HS : sem y true false false e (Com t Stop) = Some (chars y true false e' false (printed o), e')).
  { cbn [sem]. rewrite C. cbn. now rewrite app_nil_r. }
  assert (LE : (length (printed o) <= length o)%nat).
  { unfold printed. assert (A : forall (g : char -> bool) s, (length (filter g s) <= length s)%nat) by (intros g s; induction s as [|x s IH]; cbn; auto; destruct (g x); cbn; lia).
    assert (A2 : forall s, (length (drop_nl s) <= length s)%nat) by (intros s; induction s as [|x s IH]; cbn; auto; destruct (drop_nl s); [destruct (ceq x NL)|]; cbn in *; lia).
    etransitivity; [apply A2|apply A]. }
  destruct (posix_run y e' (printed o) (S (length o)) [] ltac:(lia)) as (_ & H & _). cbn [app] in H. rewrite <- H.
  assert (Z := fun its => expands_sem (Com t Stop) e its e' rest). rewrite B in Z. refine (Z _ HS _). cbn. now rewrite N.
Qed.
End Split.

(** Quoted text is never split. *)
Theorem c32_quoted l e its e' rest : sem y (blank fl) true false e l = Some (its, e') -> lexed l = true -> inner l = true ->
  go e (code (Dq l Stop) ++ EOS :: rest) e' [raw_of fl' (texts its)].
Proof.
  intros HS W IN.
  assert (HD : sem y (blank fl) false false e (Dq l Stop) = Some (Quo :: its ++ [Unq], e')).
  { cbn [sem]. rewrite HS. cbn. now rewrite app_nil_r. }
  assert (CA : forallb calm (its ++ [Unq]) = true) by (rewrite forallb_app, (inner_calm _ _ _ _ _ _ _ IN HS); reflexivity).
  assert (TE : texts (its ++ [Unq]) = texts its) by (unfold texts; rewrite flat_map_app; cbn; now rewrite app_nil_r).
  pose proof (expands_sem (Dq l Stop) e _ e' rest HD) as Z. rewrite calm_field, TE in Z by auto. apply Z. cbn. now rewrite W.
Qed.

(** Where fields are not split (assignments, redirections, here documents), there is one word with all of the text,
    or none if there is no text. *)
Theorem c32_unsplit p e its e' rest : blank fl = false -> (forall e, ifs y e <> []) -> sem y false false false e p = Some (its, e') -> lexed p = true ->
  exists rs, go e (code p ++ EOS :: rest) e' rs /\ (rs = [raw_of fl' (texts its)] \/ (rs = [] /\ texts its = [])).
Proof.
  intros B NE HS W. pose proof (expands_sem p e its e' rest) as X. rewrite B in X. specialize (X HS W). eexists. split; [exact X|].
  destruct (whole_fields its (whole_items y Y _ _ _ _ _ _ NE HS W)) as [->|[T ->]]; auto.
Qed.

(** The text of a word for the second pass, unless it is a pattern for file names or has
    braces. *)
Theorem c32_text p q d e its e' : sem y (blank fl) q d e p = Some (its, e') -> lexed p = true -> pat fl = false ->
  forall l, concat l = texts its -> Forall (fun ts => glob fl' && existsb is_glob_tok ts = false /\ brace_seen (brace fl') ts = false) l ->
  map second (map (raw_of fl') l) = map (fun ts => Some (ftext ts)) l.
Proof.
  intros HS W P l C F. pose proof (texts_ok _ (sem_tok_ok y (blank fl) Y _ _ _ _ _ _ HS W)) as K. rewrite <- C in K. apply concat_ok in K.
  clear C. induction l as [|ts l IH]; auto. inversion F as [|? ? [F1 F1'] F2]; inversion K as [|? ? K1 K2]; subst. cbn [map]. rewrite second_of by auto. f_equal. auto.
Qed.

(** * C33: "$@" and "$*" *)
Definition around (pre : cstr) (l : list cstr) (post : cstr) : list cstr :=
  match l with
  | [] => match pre ++ post with [] => [] | s => [s] end
  | [a] => [pre ++ a ++ post]
  | a :: r => (pre ++ a) :: removelast r ++ [last r [] ++ post]
  end.
Definition ok_lit (s : cstr) : bool := forallb (fun c => negb (is_nul c) && negb (ceq c "~")) s.
Definition quoted_text (s : cstr) : list item := map (fun c => Txt false (TQ c)) s.
Lemma lits_sem bl q' d e s k its e' : sem y bl true d e k = Some (its, e') -> q' = true -> sem y bl q' d e (lits s k) = Some (quoted_text s ++ its, e').
Proof. intros HS ->. induction s as [|c s IH]; cbn [lits quoted_text map app]; auto. cbn [sem]. rewrite IH. unfold sep_at. reflexivity. Qed.
Lemma lits_lexed s k : ok_lit s = true -> lexed (lits s k) = lexed k.
Proof. induction s as [|c s IH]; cbn; auto. intros H. apply andb_true_iff in H as [H1 H2]. rewrite H1. cbn. auto. Qed.
Lemma lits_qend s k q : qend q (lits s k) = qend q k.
Proof. induction s; auto. Qed.
Lemma fields_text s : forall ts r, fields (Some ts) (quoted_text s ++ r) = fields (Some (ts ++ map TQ s)) r.
Proof. induction s as [|c s IH]; intros ts r; cbn; [now rewrite app_nil_r|]. rewrite IH. cbn. now rewrite <- app_assoc. Qed.
Lemma tame_text s r : tame Text (quoted_text s ++ r) = tame Text r.
Proof. induction s; cbn; auto. Qed.
Lemma map_removelast {A B} (f : A -> B) l : map f (removelast l) = removelast (map f l).
Proof. induction l as [|a [|b l] IH]; auto. cbn [removelast map] in *. now rewrite IH. Qed.
Lemma map_last {A B} (f : A -> B) l d d' : l <> [] -> last (map f l) d' = f (last l d).
Proof. induction l as [|a [|b l] IH]; intros H; [now destruct H|reflexivity|]. cbn [last map] in *. apply IH. discriminate. Qed.

Definition at_word (pre : cstr) (b : bool) (n post : cstr) : parts := Dq (lits pre (Var b n (lits post Stop))) Stop.
Lemma word_sem bl pre b n post e v : kind y e n = Some v -> nounset y e && unset v && negb (special n) = false ->
  sem y bl false false e (at_word pre b n post) = Some (Quo :: (quoted_text pre ++ subst y bl true e v ++ quoted_text post) ++ [Unq], e).
Proof.
  intros K U. unfold at_word. cbn [sem].
  assert (P : sem y bl true false e (lits post Stop) = Some (quoted_text post, e)) by (rewrite (lits_sem _ _ _ _ post Stop [] e); auto; now rewrite app_nil_r).
  rewrite (lits_sem _ _ _ _ pre _ (subst y bl true e v ++ quoted_text post) e); auto.
  - cbn. now rewrite app_nil_r.
  - cbn [sem]. now rewrite K, U, P.
Qed.
Lemma word_lexed pre b n post : ok_lit pre = true -> ok_lit post = true -> nul_free n = true -> lexed (at_word pre b n post) = true.
Proof. intros A1 A2 N. unfold at_word. cbn [lexed]. rewrite lits_lexed by auto. cbn [lexed]. rewrite lits_lexed, N by auto. reflexivity. Qed.
Lemma around_fields pre l post r : r = [] \/ r = [Unq] ->
  let its := Quo :: (quoted_text pre ++ (match l with [] => [Null] | _ => [Begin; Args (map (map TQ) l)] end) ++ quoted_text post) ++ r in
  tame Between its = true /\ fields None its = map (map TQ) (around pre l post).
Proof.
  intros R its.
  assert (FE : forall ts, fields (Some ts) (quoted_text post ++ r) = [ts ++ map TQ post]) by (intros; rewrite fields_text; destruct R as [->| ->]; reflexivity).
  assert (TE : tame Text (quoted_text post ++ r) = true) by (rewrite tame_text; destruct R as [->| ->]; reflexivity).
  assert (TA : forall p, match p with AfterMark => False | _ => True end -> tame p (quoted_text post ++ r) = true).
  { intros p HP. destruct post as [|c s]; cbn; [destruct R as [->| ->]; reflexivity|]. cbn in TE. now destruct p. }
  subst its. rewrite <- !app_assoc. destruct l as [|a l].
  - destruct pre as [|c pre].
    + cbn [quoted_text map app]. split; [apply (TA AfterAlt); exact Logic.I|]. cbn [around app]. destruct post as [|c s].
      * destruct R as [->| ->]; reflexivity.
      * cbn [quoted_text map app fields opened] in *. change (fields (Some [TQ c]) (quoted_text s ++ r) = [map TQ (c :: s)]). rewrite fields_text. destruct R as [->| ->]; reflexivity.
    + split.
      * cbn [quoted_text map app tame]. fold (quoted_text pre). rewrite tame_text. cbn [app tame]. exact TE.
      * cbn [quoted_text map app fields opened]. fold (quoted_text pre). rewrite fields_text. cbn [app fields]. rewrite FE. cbn. now rewrite map_app.
  - cbn [app]. split.
    + destruct pre as [|c pre]; cbn [quoted_text map app tame]; [|fold (quoted_text pre); rewrite tame_text; cbn [tame]]; apply TA;
        match goal with |- match (if ?x then _ else _) with _ => _ end => now destruct x end.
    + assert (FA : forall o : option (list tok), opened o = map TQ pre -> fields o (Begin :: Args (map (map TQ) (a :: l)) :: quoted_text post ++ r) = map (map TQ) (around pre (a :: l) post)).
      { intros o OP. cbn [map fields]. rewrite OP, FE. destruct l as [|b l]; [cbn; now rewrite !map_app, app_assoc|]. cbn [around]. cbn [map]. rewrite map_app, !map_app. cbn [map].
        rewrite map_removelast, map_app. rewrite <- (map_last (map TQ) (b :: l) [] []) by discriminate. reflexivity. }
      destruct pre as [|c pre]; [exact (FA (Some []) eq_refl)|]. cbn [quoted_text map app fields opened]. fold (quoted_text pre). rewrite fields_text. exact (FA (Some (map TQ (c :: pre))) eq_refl).
Qed.
Lemma around_nul_free pre l post : nul_free pre = true -> nul_free post = true -> Forall (fun s => nul_free s = true) l -> Forall (fun s => nul_free s = true) (around pre l post).
Proof.
  intros P1 P2 F. assert (AP : forall a b, nul_free a = true -> nul_free b = true -> nul_free (a ++ b) = true) by (intros a b A1 A2; unfold nul_free in *; rewrite forallb_app; now rewrite A1, A2).
  destruct l as [|a l]; cbn [around].
  - pose proof (AP _ _ P1 P2) as Z. destruct (pre ++ post); auto.
  - inversion F as [|? ? F1 F2]; subst. destruct l as [|b l]; [constructor; auto|]. rewrite (app_removelast_last (l:=b :: l) []) in F2 by discriminate. apply Forall_app in F2 as [G1 G2]. inversion G2; subst.
    constructor; [auto|]. apply Forall_app. split; auto.
Qed.
Lemma ok_lit_nul s : ok_lit s = true -> nul_free s = true.
Proof. unfold ok_lit, nul_free. rewrite !forallb_forall. intros H x Hx. specialize (H x Hx). now apply andb_true_iff in H. Qed.
Lemma second_all l : pat fl = false -> Forall (fun s => nul_free s = true) l -> map second (map (raw_of fl') (map (map TQ) l)) = map Some l.
Proof. intros P. induction 1 as [|s l F1 F2 IH]; cbn [map]; auto. rewrite second_quoted by auto. now rewrite IH. Qed.

(** "pre${name[@]}post", and "pre$@post" in particular: one word for each, with exactly its text;
    the first one with [pre] before it, the last one with [post] after it.  IFS does not matter. *)
Theorem c33_vector pre b n post e l rest : blank fl = true -> pat fl = false -> ok_lit pre = true -> ok_lit post = true -> nul_free n = true ->
  kind y e n = Some (Vector true l) -> (nounset y e = true -> l = [] -> special n = true) ->
  exists rs, go e (code (at_word pre b n post) ++ EOS :: rest) e rs /\ map second rs = map Some (around pre l post).
Proof.
  intros B P A1 A2 N K U.
  assert (U' : nounset y e && unset (Vector true l) && negb (special n) = false).
  { destruct (nounset y e); auto. destruct l; auto. rewrite U by auto. reflexivity. }
  pose proof (word_sem true pre b n post e _ K U') as HS. pose proof (word_lexed pre b n post A1 A2 N) as W.
  assert (SB : subst y true true e (Vector true l) = match l with [] => [Null] | _ => [Begin; Args (map (map TQ) l)] end) by (now destruct l). rewrite SB in HS.
  destruct (around_fields pre l post [Unq] (or_intror eq_refl)) as [T FD]. eexists. split; [exact (c32_fields B _ _ _ _ rest HS W T)|]. rewrite FD. apply second_all; auto.
  apply around_nul_free; auto using ok_lit_nul. now apply (kind_vector y Y e n true).
Qed.
Theorem c33_at pre b post e rest : blank fl = true -> pat fl = false -> ok_lit pre = true -> ok_lit post = true ->
  exists rs, go e (code (at_word pre b (L "@") post) ++ EOS :: rest) e rs /\ map second rs = map Some (around pre (params y e) post).
Proof. intros. apply c33_vector; auto. Qed.
(** In particular "$@" by itself gives exactly the parameters. *)
Theorem c33_at_alone b e rest : blank fl = true -> pat fl = false ->
  exists rs, go e (code (Dq (Var b (L "@") Stop) Stop) ++ EOS :: rest) e rs /\ map second rs = map Some (params y e).
Proof.
  intros B P. destruct (c33_at [] b [] e rest B P eq_refl eq_refl) as (rs & G & M). exists rs. split; [exact G|]. rewrite M. f_equal.
  destruct (params y e) as [|a [|c l]]; cbn [around app]; auto; rewrite ?app_nil_r; auto. f_equal. symmetry. now apply (app_removelast_last (l:=c :: l) []).
Qed.
(** "pre$*post": one word, the parameters joined by the first character of IFS, by nothing if
    IFS is empty. *)
Definition joint (w : cstr) : cstr := match w with [] => [] | c :: _ => [c] end.
Lemma joined_text bl e l : nul_free (ifs y e) = true -> texts (joined y bl true e l) = map TQ (intersperse (joint (ifs y e)) l).
Proof.
  intros N.
  assert (CT : forall s f, texts (chars y bl true e f s) = map TQ s) by (intros s; induction s as [|c s IH]; intros f; auto; unfold texts in *; cbn in *; now rewrite IH).
  assert (BT : texts (between y bl true e) = map TQ (joint (ifs y e))).
  { unfold between. destruct (ifs y e) as [|c r]; auto. cbn [ifs0 joint]. cbn in N. apply andb_true_iff in N as [N _]. apply negb_true_iff in N. now rewrite N. }
  assert (TA : forall a b, texts (a ++ b) = texts a ++ texts b) by (intros; apply flat_map_app).
  induction l as [|s [|s2 l] IH]; auto; [cbn; now rewrite CT, app_nil_r|]. cbn [joined]. rewrite !TA, CT, BT. cbn [intersperse flat_map]. rewrite !map_app. f_equal. rewrite <- app_assoc. f_equal.
  cbn [joined] in IH. rewrite IH. cbn [intersperse]. now rewrite map_app.
Qed.
Lemma joined_calm bl e l : forallb calm (joined y bl true e l) = true.
Proof.
  apply (proj2 (forallb_forall _ _)). intros i. revert i. apply forallb_forall.
  assert (BC : forallb calm (between y bl true e) = true) by (unfold between; destruct (is_nul _); auto).
  induction l as [|s [|s2 l] IH]; auto; [apply chars_calm|]. cbn [joined]. rewrite !forallb_app, chars_calm, BC. exact IH.
Qed.
Theorem c33_star pre b post e rest : pat fl = false -> ok_lit pre = true -> ok_lit post = true ->
  exists rs, go e (code (at_word pre b (L "*") post) ++ EOS :: rest) e rs /\
    map second rs = [Some (pre ++ intersperse (joint (ifs y e)) (params y e) ++ post)].
Proof.
  intros P A1 A2.
  assert (K : kind y e (L "*") = Some (Vector false (params y e))) by reflexivity.
  assert (U : nounset y e && unset (Vector false (params y e)) && negb (special (L "*")) = false) by (now rewrite andb_false_r).
  pose proof (word_sem (blank fl) pre b (L "*") post e _ K U) as HS. pose proof (word_lexed pre b (L "*") post A1 A2 eq_refl) as W.
  assert (QC : forall s, forallb calm (quoted_text s) = true) by (intros s; induction s; auto).
  assert (SC : forallb calm (subst y (blank fl) true e (Vector false (params y e))) = true /\ texts (subst y (blank fl) true e (Vector false (params y e))) = map TQ (intersperse (joint (ifs y e)) (params y e))).
  { destruct Y as (_ & _ & _ & YI & _). destruct (params y e) as [|a l] eqn:PQ; [split; reflexivity|]. cbn [subst]. split; [apply (joined_calm (blank fl) e (a :: l))|apply (joined_text (blank fl) e (a :: l)); auto]. }
  destruct SC as [SC ST]. pose proof (expands_sem _ _ _ _ rest HS W) as G. rewrite calm_field in G by (rewrite !forallb_app, !QC, SC; reflexivity).
  assert (TA : forall a b, texts (a ++ b) = texts a ++ texts b) by (intros; apply flat_map_app).
  assert (QT : forall s, texts (quoted_text s) = map TQ s) by (intros s; induction s as [|c s IH]; auto; cbn; f_equal; exact IH).
  assert (TT : texts ((quoted_text pre ++ subst y (blank fl) true e (Vector false (params y e)) ++ quoted_text post) ++ [Unq]) = map TQ (pre ++ intersperse (joint (ifs y e)) (params y e) ++ post))
    by (rewrite !TA, !QT, ST, !map_app; cbn; now rewrite app_nil_r).
  rewrite TT in G. eexists. split; [exact G|]. cbn [map]. rewrite second_quoted; auto. 
  destruct Y as (YP & _ & _ & YI & _). specialize (YP e). specialize (YI e).
  assert (AP : forall a b, nul_free a = true -> nul_free b = true -> nul_free (a ++ b) = true) by (intros a b0 B1 B2; unfold nul_free in *; rewrite forallb_app; now rewrite B1, B2).
  apply AP; [now apply ok_lit_nul|]. apply AP; [|now apply ok_lit_nul].
  assert (JN : nul_free (joint (ifs y e)) = true) by (destruct (ifs y e) as [|c r]; auto; cbn in YI |- *; apply andb_true_iff in YI as [Z _]; now rewrite Z).
  destruct (params y e) as [|a l]; auto. inversion YP as [|? ? F1 F2]; subst. cbn [intersperse]. apply AP; auto. clear - F2 AP JN. induction F2; cbn; auto.
Qed.
End Props.
Print Assumptions c32_fields.
Print Assumptions c32_nothing_lost.
Print Assumptions c32_value.
Print Assumptions c32_command.
Print Assumptions c32_quoted.
Print Assumptions c32_unsplit.
Print Assumptions c32_text.
Print Assumptions c33_vector.
Print Assumptions c33_at.
Print Assumptions c33_at_alone.
Print Assumptions c33_star.

(** * Concrete words *)
Definition env1 := (list (cstr * cstr) * list cstr)%type.       (* variables and parameters *)
Fixpoint look (l : list (cstr * cstr)) (n : cstr) : option cstr := match l with [] => None | (a, v) :: r => if str_eqb a n then Some v else look r n end.
(** each command prints its own text, each number is 100 *)
Definition y1 (w : cstr) : sys env1 :=
  Sys env1 (fun e => snd e) (fun e n => look (fst e) n) (fun _ _ => []) (fun _ _ => false) (fun _ _ => false)
    (fun e n v => Some (((n, v) :: fst e, snd e), v)) (fun e _ => Some (e, L "100")) (fun e t => Some (e, Some t)) (fun _ _ => None) (fun _ => w) (fun _ => false).
Definition split_flags := F true true false true false false false false false.     (* DOBLANK|DOGLOB|DOTILDE *)
Definition asn_flags := F false false false false true false false false false.     (* DOASNTILDE *)
Definition words (fl : flags) (w : string) (vars : list (string * string)) (ps : list string) (p : parts) : option (list (option cstr)) :=
  match run env1 (y1 (L w)) 3000 (start env1 false false false fl (map (fun '(a, b) => (L a, L b)) vars, map L ps) (code p ++ [EOS])) with
  | Done _ m => Some (map second (outs _ m))
  | _ => None
  end.
Definition V (n : string) (k : parts) := Var false (L n) k.
Definition T (s : string) (k : parts) := lits (L s) k.
Local Open Scope string_scope.
Definition strs (l : list string) : option (list (option cstr)) := Some (map (fun s => Some (L s)) l).

Lemma y1_ok_ex : sys_ok (Sys env1 (fun e => [L "a b"; []; L "c*"]) (fun e n => look [(L "x", L " a : :b c:")] n) (fun _ _ => []) (fun _ _ => false) (fun _ _ => false)
    (fun e n v => None) (fun e _ => Some (e, L "100")) (fun e t => Some (e, Some t)) (fun _ _ => None) (fun _ => L " :") (fun _ => false)).
Proof.
  repeat split; cbn; intros; auto.
  - destruct (str_eqb _ _); [|discriminate]. now injection H as <-.
  - now injection H as <- <-.
Qed.
(** Hypotheses of c32_value and c33_at met, and what they say: *)
Example c32_value_ex : words split_flags " :" [("x", " a : :b c:")] [] (V "x" Stop) = strs ["a"; ""; "b"; "c"] /\
  posix_split (L " :") (L " a : :b c:") = [L "a"; []; L "b"; L "c"] /\
  existsb (fun c => negb (mem c (L " :"))) (L " a : :b c:") = true.
Proof. vm_compute. auto. Qed.
Example c32_fields_ex :      (* a$x"$x"${z-b $x}$( 1 2) with x="1 2" *)
  let p := T "a" (V "x" (Dq (V "x" Stop) (Opr (L "z") false "-" (T "b " (V "x" Stop)) (Com (L " 1 2") Stop)))) in
  lexed p = true /\ words split_flags " " [("x", "1 2")] [] p = strs ["a1"; "21 2b"; "1"; "2"; "1"; "2"] /\
  exists its e', sem (y1 (L " ")) true false false ([(L "x", L "1 2")], []) p = Some (its, e') /\ tame Between its = true /\ map ftext (fields None its) = map L ["a1"; "21 2b"; "1"; "2"; "1"; "2"].
Proof. vm_compute. split; [|split]; auto. eexists. eexists. split; [reflexivity|]. auto. Qed.
Example c32_command_ex : words split_flags " :" [] [] (Com (L "a : b ") Stop) = strs ["a"; "b"].
Proof. vm_compute. reflexivity. Qed.
Example c32_quoted_ex :      (* "a $x`..`$((1))*" *)
  let l := T "a " (V "x" (Com (L ":") (Ari (L "1") (T "*" Stop)))) in
  inner l = true /\ lexed l = true /\ words split_flags " :" [("x", " : ")] [] (Dq l Stop) = strs ["a  : :100*"].
Proof. vm_compute. auto. Qed.
Example c32_unsplit_ex : words asn_flags " :" [("x", " : ")] ["a"; "b"] (V "x" (V "*" (Dq (V "@" Stop) Stop))) = strs [" : a ba b"].
Proof. vm_compute. reflexivity. Qed.
Example c33_at_ex : words split_flags "b*" [] ["a b"; ""; "*"] (at_word (L "<") true (L "@") (L ">")) = strs ["<a b"; ""; "*>"] /\
  words split_flags "b*" [] ["a b"; ""; "*"] (at_word (L "<") true (L "*") (L ">")) = strs ["<a bbb*>"] /\
  words split_flags " " [] [] (at_word [] true (L "@") []) = strs [] /\
  words split_flags " " [] [] (at_word [] true (L "*") []) = strs [""].
Proof. vm_compute. auto. Qed.

(** * What does not hold *)
(** The text of two adjacent parameters is not split as one: with IFS=:, x=a: and y=b, $x$y gives
    a, an empty field and b. *)
Theorem c32_adjacent_refuted : ~ forall w a b, words split_flags w [("x", a); ("y", b)] [] (V "x" (V "y" Stop)) = Some (map Some (posix_split (L w) (L a ++ L b))).
Proof. intros H. specialize (H ":" "a:" "b"). vm_compute in H. discriminate. Qed.
(** A value of separators only: with IFS=:, ":" gives no field, ":::" two. *)
Theorem c32_only_separators_refuted : ~ forall w a, words split_flags w [("x", a)] [] (V "x" Stop) = Some (map Some (posix_split (L w) (L a))).
Proof. intros H. specialize (H ":" ":"). vm_compute in H. discriminate. Qed.
(** The output of a command is not split as a value is: an empty field at the beginning is lost. *)
Theorem c32_command_refuted : ~ forall w a, words split_flags w [] [] (Com (L a) Stop) = Some (map Some (posix_split (L w) (L a))).
Proof. intros H. specialize (H ":" ":b"). vm_compute in H. discriminate. Qed.
(** White space at the beginning of a trimmed value does not separate it: a${x#q} with x='q b' is ab. *)
Theorem c32_trimmed_refuted : ~ forall a, words split_flags " " [("x", a)] [] (T "a" (Opr (L "x") false "#" (T "q" Stop) Stop)) =
  words split_flags " " [("x", match a with String "q" b => b | _ => a end)] [] (T "a" (V "x" Stop)).
Proof. intros H. specialize (H "q b"). vm_compute in H. discriminate. Qed.
(** Empty quotes before ${x-} or $@ give no field. *)
Theorem c32_empty_quotes_refuted : ~ forall p, lexed p = true -> inner p = true -> words split_flags " " [] [] (Dq Stop p) <> strs [].
Proof. intros H. apply (H (Opr (L "x") false "-" Stop Stop)); vm_compute; reflexivity. Qed.
(** "$@$x" and "$x$@" differ if there is no parameter and x is empty. *)
Theorem c33_order_refuted : ~ forall a, words split_flags " " [("x", a)] [] (Dq (V "@" (V "x" Stop)) Stop) = words split_flags " " [("x", a)] [] (Dq (V "x" (V "@" Stop)) Stop).
Proof. intros H. specialize (H ""). vm_compute in H. discriminate. Qed.
(** If IFS is empty, x="$@" and x=$* are more than one word, of which evalstr takes the first. *)
Theorem c33_assign_refuted : ~ forall ps, exists s, words asn_flags "" [] ps (Dq (V "@" Stop) Stop) = Some [Some s].
Proof. intros H. destruct (H ["a"; "b"]) as (s & Q). vm_compute in Q. discriminate. Qed.
(** ${@:+w} with an empty first parameter gives the parameters. *)
Theorem c33_alternative_refuted : ~ forall ps, words split_flags " " [] ps (Opr (L "@") true "+" (T "w" Stop) Stop) = strs [] \/ words split_flags " " [] ps (Opr (L "@") true "+" (T "w" Stop) Stop) = strs ["w"].
Proof. intros H. destruct (H ["";"a"]) as [Q|Q]; vm_compute in Q; discriminate. Qed.
Print Assumptions c32_adjacent_refuted.
Print Assumptions c32_only_separators_refuted.
Print Assumptions c32_command_refuted.
Print Assumptions c32_trimmed_refuted.
Print Assumptions c32_empty_quotes_refuted.
Print Assumptions c33_order_refuted.
Print Assumptions c33_assign_refuted.
Print Assumptions c33_alternative_refuted.
(** set -- ""; ${*:?msg}: the message names a variable that is not there (st->var is null). *)
Theorem c32_null_variable_refuted : ~ forall ps k, 
  run env1 (y1 (L " ")) k (start env1 false false false split_flags ([], map L ps) (code (Opr (L "*") true "?" (T "msg" Stop) Stop) ++ [EOS])) <> Bad env1.
Proof. intros H. apply (H [""] 100%nat). vm_compute. reflexivity. Qed.
Print Assumptions c32_null_variable_refuted.
