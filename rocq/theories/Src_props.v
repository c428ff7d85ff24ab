(** C26: backslash-newline disappears. *)
From Verif Require Import Base Src_model Src_spec Src_proof.
Local Open Scope nat_scope.

Lemma fresh_wf : forall st, fresh st -> wf st.
Proof.
  induction 1 as [t N|ls F|ws F|n v fl st N F IH]; cbn.
  - split; [exact N|]. split; [intros []|]. tauto.
  - split; [intros []|]. split; [intros []|]. tauto.
  - split; [intros []|]. split; [intros []|]. tauto.
  - split; [exact N|]. split; [intros []|]. split; [exact I|]. right. split; [reflexivity|exact IH].
Qed.

Definition jskip (k : nat) (t : cstr) : cstr :=
  match k with 1 => match t with [] => [] | c :: r => c :: join r end | _ => join t end.
Definition hdnl (t : cstr) : Prop := match t with c :: _ => c = NL | [] => False end.
Definition jinv (f : flat) (last : option char) : Prop :=
  fskip f <= 2 /\ fign f = 0 /\ (fskip f = 1 -> ~ hdnl (ftext f)) /\ nuls_out (ftext f) /\
  match last with
  | None => True
  | Some c => if is_nul c then ftext f = [] else
              (fskip f = 0 -> c <> "\"%char) /\ (fskip f = 1 -> c = "\"%char) /\ (fskip f = 2 -> c <> NL)
  end.
Lemma unjoin_join : forall n t, length t <= n -> join (unjoin t) = join t.
Proof.
  induction n as [|n IH]; intros t H.
  - destruct t; [reflexivity|cbn in H; lia].
  - destruct t as [|c [|d t]]; try reflexivity. cbn [unjoin].
    destruct (ceq c "\") eqn:E; cbn [andb]; [|reflexivity].
    destruct (ceq d NL) eqn:E2; [|reflexivity].
    rewrite IH by (cbn [length] in H; lia). cbn [join]. now rewrite E, E2.
Qed.
Lemma unjoin_shape : forall n t, length t <= n -> match unjoin t with c :: r => c = "\"%char -> ~ hdnl r | [] => True end.
Proof.
  induction n as [|n IH]; intros t H.
  - destruct t; [exact I|cbn in H; lia].
  - destruct t as [|c [|d t]]; [exact I|intros _ []|]. cbn [unjoin].
    destruct (ceq c "\") eqn:E; cbn [andb].
    + destruct (ceq d NL) eqn:E2; [apply IH; cbn [length] in H; lia|]. intros _ X. cbn in X. subst d. discriminate.
    + intros ->. discriminate.
Qed.
Lemma unjoin_nuls : forall n t, length t <= n -> nuls_out t -> nuls_out (unjoin t).
Proof.
  induction n as [|n IH]; intros t H N.
  - destruct t; [exact N|cbn in H; lia].
  - destruct t as [|c [|d t]]; try exact N. cbn [unjoin]. destruct (ceq c "\" && ceq d NL); [|exact N].
    apply IH; [cbn [length] in H; lia|]. now rewrite !nuls_cons in N.
Qed.
Lemma fget_join : forall f last, jinv f last ->
  let '(c, f') := fget f in
  jinv f' (Some c) /\
  match jskip (fskip f) (ftext f) with
  | [] => c = NUL /\ jskip (fskip f') (ftext f') = []
  | x :: t => c = x /\ c <> NUL /\ jskip (fskip f') (ftext f') = t
  end.
Proof.
  intros [t k g] last [J1 [J2 [J3 [J4 _]]]]. cbn [fskip fign ftext] in *. subst g.
  unfold fget. cbn [fign fskip ftext]. change (0 <? 0) with false. cbn iota.
  destruct (Nat.eqb_spec k 1) as [->|Nk].
  - unfold fraw. cbn [ftext jskip fign]. destruct t as [|c r].
    + split; [|split; reflexivity]. unfold jinv. cbn. repeat split; auto; lia.
    + apply nuls_cons in J4. destruct J4 as [J4 J5]. split; [|repeat split; auto].
      unfold jinv. cbn [fskip fign ftext]. apply is_nul_false in J4. rewrite J4.
      split; [lia|]. split; [reflexivity|]. split; [discriminate|]. split; [exact J5|].
      split; [discriminate|]. split; [discriminate|]. intros _. specialize (J3 eq_refl). exact J3.
  - assert (Ek : jskip k t = join t) by (destruct k as [|[|k]]; [reflexivity|contradiction|reflexivity]).
    rewrite Ek, <- (unjoin_join (length t) t) by reflexivity.
    pose proof (unjoin_shape (length t) t (le_n _)) as Sh. pose proof (unjoin_nuls (length t) t (le_n _) J4) as Nu.
    destruct (unjoin t) as [|c r].
    + split; [|split; reflexivity]. unfold jinv. cbn. repeat split; auto; lia.
    + apply nuls_cons in Nu. destruct Nu as [N1 N2]. pose proof N1 as N3. apply is_nul_false in N1. cbn [join].
      destruct (ceq_spec c "\"%char) as [->|Nb].
      * specialize (Sh eq_refl). split.
        -- unfold jinv. cbn [fskip fign ftext]. rewrite N1. repeat split; auto; lia.
        -- cbn [fskip ftext jskip]. destruct r as [|d r]; [repeat split; auto|].
           destruct (ceq_spec d NL) as [->|]; [exfalso; apply Sh; reflexivity|]. repeat split; auto.
      * split.
        -- unfold jinv. cbn [fskip fign ftext]. rewrite N1. repeat split; auto; try lia.
        -- cbn [fskip ftext jskip]. repeat split; auto.
Qed.

Lemma real_join : forall ops i f last,
  rel f i -> jinv f last -> proper ops (match last with Some _ => true | None => false end) = true ->
  (forall c, last = Some c -> ungettable c (srcs i)) ->
  real ops i last = ideal ops (jskip (fskip f) (ftext f)) last.
Proof.
  induction ops as [|[|] ops IH]; intros i f last R J P U; [reflexivity| |].
  - cbn [real ideal]. pose proof (getsc_ok f i R) as Q. destruct (getsc i) as [c i'].
    pose proof (fget_join f last J) as G. destruct (fget f) as [c' f']. cbn [fst snd] in Q.
    destruct Q as [<- [Q1 Q2]]. destruct G as [G1 G2].
    specialize (IH i' f' (Some c') Q1 G1 P).
    rewrite IH by (intros c E; injection E as <-; exact Q2).
    destruct (jskip (fskip f) (ftext f)) as [|x t].
    + destruct G2 as [-> ->]. reflexivity.
    + destruct G2 as [-> [_ ->]]. reflexivity.
  - cbn [real ideal proper] in *. destruct last as [c|]; [|discriminate]. specialize (U c eq_refl).
    destruct f as [t k g]. destruct R as [R1 [R2 [R3 R4]]]. cbn [ftext fskip fign] in *.
    destruct (unget_ok c (srcs i) R4 U) as [U1 U2].
    set (t' := if is_nul c then t else c :: t).
    rewrite (IH (ungetsc c i) (Flat t' (pred k) g) None); [| | |exact P|discriminate].
    + f_equal. unfold t'. cbn [fskip ftext]. destruct J as [J1 [J2 [J3 [J4 J5]]]]. cbn [ftext fskip fign] in *.
      destruct (is_nul c) eqn:E; [rewrite J5; destruct k as [|[|[|k]]]; reflexivity|].
      destruct J5 as [A [B C]]. destruct k as [|[|[|k]]]; [| | |lia]; cbn [pred jskip join].
      * specialize (A eq_refl). apply ceq_false in A. now rewrite A.
      * rewrite (B eq_refl). rewrite ceq_refl. destruct t as [|d t]; [reflexivity|].
        destruct (ceq_spec d NL) as [->|]; [|reflexivity]. exfalso. apply (J3 eq_refl). reflexivity.
      * reflexivity.
    + split; [|split; [|split]].
      * cbn [srcs ungetsc ftext]. rewrite U2. unfold t'. destruct (is_nul c); now rewrite R1.
      * cbn [bskip ungetsc fskip]. now rewrite R2.
      * exact R3.
      * exact U1.
    + destruct J as [J1 [J2 [J3 [J4 J5]]]]. cbn [ftext fskip fign] in *. unfold jinv. cbn [ftext fskip fign].
      split; [lia|]. split; [exact J2|]. split.
      * intros K. unfold t'. destruct (is_nul c) eqn:E; [rewrite J5; intros []|]. cbn. apply J5. lia.
      * split; [|exact I]. unfold t'. destruct (is_nul c) eqn:E; [exact J4|].
        apply is_nul_false in E. apply nuls_cons. tauto.
Qed.
Lemma text_nuls : forall st, wf st -> nuls_out (text_of st).
Proof.
  induction st as [|[k b a fa fe] st IH]; [intros []|]. intros [N1 [N2 [K U]]]. cbn [after before kind] in *.
  assert (WT : forall ws, Forall nuls_out ws -> nuls_out (words_text ws)).
  { induction ws as [|w ws IHw]; intros F; [intros []|]. inversion F; subst. cbn [words_text].
    destruct ws; [apply nuls_app; split; [assumption|intros [X|[]]; discriminate]|].
    apply nuls_app. split; [assumption|]. apply nuls_cons. split; [discriminate|]. now apply IHw. }
  destruct k as [| |ls|ws|ws|n v|]; cbn [text_of].
  - exact N1.
  - exact N1.
  - apply nuls_app. split; [exact N1|]. apply line_nuls.
  - apply nuls_app. split; [exact N1|]. now apply WT.
  - destruct ws.
    + apply nuls_app. split; [exact N1|]. intros [X|[]]; discriminate.
    + apply nuls_app. split; [exact N1|]. apply nuls_cons. split; [discriminate|]. now apply WT.
  - destruct U as [[]|[_ W]]. apply nuls_app. split; [exact N1|]. now apply IH.
  - destruct U as [[]|[_ W]]. apply nuls_app. split; [exact N1|]. now apply IH.
Qed.

(** Reading and putting back one character, in any order, sees the text of the sources with the
    backslash-newlines removed: those in strings, lines, words and aliases, and those that begin in
    an alias and end after it. *)
Theorem c26_joined : forall ops st, fresh st -> proper ops false = true ->
  real ops (Input st 0 0) None = ideal ops (join (text_of st)) None.
Proof.
  intros ops st F P. pose proof (fresh_wf st F) as W.
  apply (real_join ops (Input st 0 0) (Flat (text_of st) 0 0) None); [|  |exact P|discriminate].
  - repeat split; assumption.
  - unfold jinv. cbn. repeat split; auto; try lia. now apply text_nuls.
Qed.
Print Assumptions c26_joined.

(** Where backslash-newline is not special (single quotes, comments, quoted here documents) it is
    the text itself. *)
Theorem c26_raw : forall ops st g, fresh st -> proper ops false = true ->
  real ops (Input st 0 (S g)) None = ideal ops (text_of st) None.
Proof.
  intros ops st g F P. pose proof (fresh_wf st F) as W.
  enough (G : forall ops i f last, rel f i -> fskip f = 0 -> fign f = S g -> nuls_out (ftext f) ->
            proper ops (match last with Some _ => true | None => false end) = true ->
            (forall c, last = Some c -> ungettable c (srcs i)) -> real ops i last = ideal ops (ftext f) last).
  { apply (G ops (Input st 0 (S g)) (Flat (text_of st) 0 (S g)) None); auto; try discriminate.
    - repeat split; assumption.
    - now apply text_nuls. }
  clear. induction ops as [|[|] ops IH]; intros i f last R K G N P U; [reflexivity| |].
  - cbn [real ideal]. pose proof (getsc_ok f i R) as Q. destruct (getsc i) as [c i'].
    unfold fget in Q. rewrite G, K in Q. change (0 <? S g) with true in Q. cbn iota in Q. unfold fraw in Q.
    destruct f as [t k gg]. cbn [ftext fskip fign] in *. subst k gg.
    destruct t as [|x t]; cbn [fst snd] in Q; destruct Q as [<- [Q1 Q2]].
    + f_equal. apply (IH i' (Flat [] 0 (S g)) (Some NUL)); auto. intros c E. injection E as <-. exact Q2.
    + apply nuls_cons in N. f_equal. apply (IH i' (Flat t 0 (S g)) (Some x)); auto; [tauto|].
      intros c E. injection E as <-. exact Q2.
  - cbn [real ideal proper] in *. destruct last as [c|]; [|discriminate]. specialize (U c eq_refl).
    destruct f as [t k gg]. destruct R as [R1 [R2 [R3 R4]]]. cbn [ftext fskip fign] in *. assert (R2' : bskip i = 0) by congruence. assert (R3' : ign i = S g) by congruence.
    destruct (unget_ok c (srcs i) R4 U) as [U1 U2].
    apply (IH (ungetsc c i) (Flat (if is_nul c then t else c :: t) 0 (S g)) None); auto; try discriminate.
    + split; [|split; [|split]].
      * cbn [srcs ungetsc ftext]. rewrite U2. destruct (is_nul c); now rewrite R1.
      * cbn [bskip ungetsc fskip]. now rewrite R2'.
      * exact R3'.
      * exact U1.
    + cbn [ftext]. destruct (is_nul c) eqn:E; [exact N|]. apply nuls_cons. apply is_nul_false in E. tauto.
Qed.
Print Assumptions c26_raw.

(** An alias ending in a backslash before a newline, an escaped backslash before a newline, and
    characters put back. *)
Example c26_ex :
  real [Read; PutBack; Read; Read; PutBack; Read; Read; Read; Read; PutBack; Read; Read; Read]
    (Input [Src (KAlias (L "x") (L "a\")) [] (L "a\") false false; Src KStr [] (NL :: L "b\\" ++ [NL]) false false] 0 0) None
  = L "aabb\\" ++ [NL; NL; NUL; NUL] /\
  fresh [Src (KAlias (L "x") (L "a\")) [] (L "a\") false false; Src KStr [] (NL :: L "b\\" ++ [NL]) false false] /\
  join (L "a\" ++ NL :: L "b\\" ++ [NL]) = L "ab\\" ++ [NL].
Proof.
  split; [vm_compute; reflexivity|]. split; [|vm_compute; reflexivity].
  constructor; [|constructor]; vm_compute; intuition discriminate.
Qed.
