(** C34: brace expansion. *)
From Verif Require Import Base Glob_model Trim_model Trim_proof Brace_model Brace_spec Brace_proof.
Local Open Scope nat_scope.

(** The expansion of a word: it terminates, stays inside the string and gives exactly
    the words of the specification, in order. *)
Theorem c34_expand : forall w, word_ok w -> exists ws, expands w ws /\ brace_expand (enc w) = BOk (map enc ws).
Proof.
  intros w O. destruct (expands_total (length w) w (Nat.le_refl _)) as (ws & E). exists ws. split; auto.
  unfold brace_expand. rewrite (alt_expand_spec _ w [] ws); auto.
Qed.
Print Assumptions c34_expand.
Theorem c34_unambiguous : forall w ws ws', expands w ws -> expands w ws' -> ws = ws'.
Proof. intros. eapply expands_det; eauto. Qed.
Print Assumptions c34_unambiguous.

(** Every string that does not end in a lone mark is such a word; so nothing else is
    ever read behind its end. *)
Theorem c34_safe : forall s, (exists vs, brace_expand s = BOk vs) \/ exists w, word_ok w /\ s = enc w ++ [MAGIC].
Proof.
  intros s. destruct (decode (length s) s (Nat.le_refl _)) as [(w & O & ->)|R]; [left|right; exact R].
  destruct (c34_expand w O) as (ws & _ & E). eauto.
Qed.
Print Assumptions c34_safe.

(** ** Words as typed *)
(** an unquoted brace or comma is special, an unquoted pattern character is special
    when patterns are, everything else stands for itself *)
Definition lit (c : char) : sym := if ismagic c then Special c else Plain c.
Definition view (pat : bool) (t : tok) : sym :=
  match t with
  | TU c => if mem c (L "{,}") || (pat && mem c (L "[!-]*?")) then Special c else lit c
  | TQ c => lit c
  | _ => Plain NUL
  end.
Definition simple (t : tok) : bool := match t with TQ _ | TU _ => true | _ => false end.
Definition byte (x : sym) : char := match x with Plain c | Special c => c end.

Lemma lit_ok c : match lit c with Plain d => d <> MAGIC | Special _ => True end.
Proof. unfold lit. destruct (ismagic c) eqn:E; auto. unfold ismagic in E. intros ->. rewrite ceq_refl in E. discriminate. Qed.
Lemma enc_lit c : enc1 (lit c) = if ismagic c then [MAGIC; c] else [c].
Proof. unfold lit. destruct (ismagic c); reflexivity. Qed.
(** the special bytes the marking makes *)
Definition plainly (x : sym) : Prop := match x with Plain c => c <> MAGIC | Special c => is_ext c = false end.
Lemma debunk_enc w : Forall plainly w -> debunk (enc w) = map byte w.
Proof.
  induction 1 as [|x w P F IH]; [reflexivity|]. rewrite enc_cons. destruct x as [c|c]; cbn [enc1 app debunk map byte plainly] in *.
  - rewrite ismagic_false by auto. now rewrite IH.
  - change (ismagic MAGIC) with true. cbn iota. rewrite P. now rewrite IH.
Qed.
Lemma view_plainly pat t : simple t = true -> plainly (view pat t).
Proof.
  assert (forall c, plainly (lit c)) as K.
  { intros c. unfold lit. destruct (ismagic c) eqn:E; cbn; [unfold ismagic in E; apply ceq_true in E; subst; reflexivity|].
    intros ->. discriminate. }
  destruct t as [c|c|c| |]; try discriminate; intros _; cbn [view]; auto.
  destruct (mem c (L "{,}") || (pat && mem c (L "[!-]*?"))) eqn:E; auto. cbn [plainly].
  apply orb_prop in E as [E|E]; [|apply andb_prop in E as [_ E]]; apply mem_In in E; cbn in E;
    repeat destruct E as [<-|E]; try reflexivity; destruct E.
Qed.
Lemma expands_syms w ws : expands w ws -> forall P : sym -> Prop, Forall P w -> Forall (Forall P) ws.
Proof.
  intros E. assert (forall n w ws, length w <= n -> expands w ws -> forall P : sym -> Prop, Forall P w -> Forall (Forall P) ws) as K.
  { clear. induction n as [|n IH]; intros w ws H E P F.
    - destruct w; [|cbn in H; lia]. inversion E; subst. repeat constructor.
    - inversion E as [|x v vs N E1|v NM EQ|a v vs NC E1 EQ|a v l lss vs A LE F2 E1 EQ]; subst.
      + repeat constructor.
      + inversion F; subst. apply Forall_map. eapply Forall_impl; [|eapply IH; eauto; cbn in H; lia]. intros u U. constructor; auto.
      + repeat constructor; auto. now inversion F. now inversion F.
      + inversion F as [|? ? P1 F1]; subst. apply Forall_app in F1 as [Fa F1]. inversion F1 as [|? ? P2 Fv]; subst.
        cbn in H. rewrite app_length in H. cbn in H.
        apply Forall_map. eapply Forall_impl; [|eapply IH; eauto; lia]. intros u U. constructor; auto. apply Forall_app; split; auto.
      + inversion F as [|? ? P1 F1]; subst. apply Forall_app in F1 as [Fa F1]. inversion F1 as [|? ? P2 Fv]; subst.
        cbn in H. rewrite app_length in H. cbn in H. assert (Forall (Forall P) vs) as Fvs by (eapply IH; eauto; lia).
        assert (forall x, In x l -> Forall P x) as Fl.
        { clear - A Fa. induction A as [a N|a w l N A IH]; intros x [<-|I]; auto; [destruct I|..].
          - now apply Forall_app in Fa.
          - apply Forall_app in Fa as [_ Fa]. inversion Fa; subst. auto. }
        assert (forall x, In x l -> length x <= n) as Ll by (intros x I; pose proof (alternatives_size _ _ _ A I); lia).
        clear A LE E. induction F2 as [|x us l lss Ex F2 IH2]; cbn; [constructor|].
        apply Forall_app. split; [|apply IH2; intros; [apply Fl|apply Ll]; now right].
        assert (Forall (Forall P) us) as Fus by (eapply IH; [apply Ll; now left|exact Ex|apply Fl; now left]).
        apply Forall_flat_map. eapply Forall_impl; [|exact Fus]. intros u U. apply Forall_map. eapply Forall_impl; [|exact Fvs].
        intros v' V. apply Forall_app. auto. }
  intros; eapply K; eauto.
Qed.

Lemma emits_view pat w : forallb simple w = true -> emits pat true true w = enc (map (view pat) w).
Proof.
  induction w as [|t w IH]; intros H; [reflexivity|]. cbn [forallb] in H. apply andb_prop in H as [H1 H2].
  cbn [map emits]. rewrite enc_cons. destruct t as [c|c|c| |]; try discriminate; cbn [emit view].
  - rewrite enc_lit, IH by auto. reflexivity.
  - destruct (mem c (L "[!-]*?")) eqn:E1.
    + assert (mem c (L "{,}") = false /\ ismagic c = false) as [-> M].
      { clear - E1. apply mem_In in E1. cbn in E1. repeat destruct E1 as [<-|E1]; try (split; reflexivity). destruct E1. }
      rewrite andb_true_r, M. cbn [orb]. rewrite IH by auto. destruct pat; [reflexivity|]. rewrite enc_lit, M. reflexivity.
    + rewrite andb_false_r, orb_false_r. destruct (mem c (L "{,}")) eqn:E2.
      * rewrite orb_true_r. cbn [andb].
        assert (ismagic c = false) as -> by (clear - E2; apply mem_In in E2; cbn in E2; repeat destruct E2 as [<-|E2]; try reflexivity; destruct E2).
        rewrite IH by auto. reflexivity.
      * rewrite enc_lit, IH by auto. reflexivity.
Qed.
(** before the first brace, commas and closing braces are not marked; it makes no
    difference *)
Definition view0 (pat : bool) (t : tok) : sym :=
  match t with TU c => if pat && mem c (L "[!-]*?") then Special c else lit c | TQ c => lit c | _ => Plain NUL end.
Definition is_open (t : tok) : bool := match t with TU c => ceq c "{" | _ => false end.
Lemma emits_view0 pat w r : forallb simple w = true -> forallb (fun t => negb (is_open t)) w = true ->
  emits pat true false (w ++ r) = enc (map (view0 pat) w) ++ emits pat true false r.
Proof.
  induction w as [|t w IH]; intros H K; [reflexivity|]. cbn [forallb] in H, K. apply andb_prop in H as [H1 H2]. apply andb_prop in K as [K1 K2].
  cbn [map app emits]. rewrite enc_cons. destruct t as [c|c|c| |]; try discriminate; cbn [emit view0].
  - rewrite enc_lit, IH by auto. now rewrite app_assoc.
  - destruct (mem c (L "[!-]*?")) eqn:E1.
    + assert (ismagic c = false) as M by (clear - E1; apply mem_In in E1; cbn in E1; repeat destruct E1 as [<-|E1]; try reflexivity; destruct E1).
      rewrite andb_true_r, M. rewrite IH by auto. destruct pat; [reflexivity|]. rewrite enc_lit, M. reflexivity.
    + rewrite andb_false_r. cbn [is_open] in K1. apply negb_true_iff in K1. rewrite K1. cbn [orb andb].
      destruct (mem c (L "{,}")); rewrite enc_lit, IH, app_assoc; auto.
Qed.
Lemma first_open w : forallb (fun t => negb (is_open t)) w = true \/
  exists t r, w = t ++ TU "{"%char :: r /\ forallb (fun t => negb (is_open t)) t = true.
Proof.
  induction w as [|x w IH]; [left; reflexivity|]. destruct (is_open x) eqn:E.
  - right. destruct x as [c|c|c| |]; try discriminate. cbn in E. apply ceq_true in E. subst. exists [], w. auto.
  - destruct IH as [F|(t & r & -> & F)]; [left; cbn; now rewrite E|right; exists (x :: t), r; cbn; now rewrite E].
Qed.
Lemma view_no_open pat w : forallb simple w = true -> forallb (fun t => negb (is_open t)) w = true -> ~ In {{ (map (view pat) w) /\ ~ In {{ (map (view0 pat) w) /\
  map byte (map (view pat) w) = map byte (map (view0 pat) w) /\ word_ok (map (view0 pat) w) /\ Forall plainly (map (view0 pat) w).
Proof.
  assert (forall c, lit c <> {{) as LN by (intros c; unfold lit; destruct (ismagic c) eqn:E; [unfold ismagic in E; apply ceq_true in E; subst; discriminate|discriminate]).
  assert (forall c, byte (lit c) = c) as LB by (intros c; unfold lit; destruct (ismagic c); reflexivity).
  assert (forall c, plainly (lit c)) as LP by (intros c; exact (view_plainly false (TQ c) eq_refl)).
  induction w as [|x w IH]; intros H K; [repeat split; auto; constructor|]. cbn [forallb] in H, K. apply andb_prop in H as [H1 H2]. apply andb_prop in K as [K1 K2].
  destruct (IH H2 K2) as (I1 & I2 & I3 & I4 & I5). cbn [map In].
  assert (view pat x <> {{ /\ view0 pat x <> {{ /\ byte (view pat x) = byte (view0 pat x) /\ plainly (view0 pat x)) as (V1 & V2 & V3 & V4).
  { destruct x as [c|c|c| |]; try discriminate; cbn [view view0]; auto.
    cbn [is_open] in K1. apply negb_true_iff, ceq_false in K1. destruct (mem c (L "{,}")) eqn:E1; cbn [orb].
    - assert (mem c (L "[!-]*?") = false) as -> by (clear - E1; apply mem_In in E1; cbn in E1; repeat destruct E1 as [<-|E1]; try reflexivity; destruct E1).
      rewrite andb_false_r. rewrite LB. repeat split; auto. congruence.
    - destruct (pat && mem c (L "[!-]*?")) eqn:E2; [|auto]. repeat split; try congruence.
      apply andb_prop in E2 as [-> E2]. pose proof (view_plainly true (TU c) eq_refl) as P. cbn [view] in P. rewrite E2, orb_true_r in P. exact P. }
  repeat split; auto.
  - intros [|]; auto.
  - intros [|]; auto.
  - congruence.
  - constructor; auto. destruct (view0 pat x); auto.
Qed.
Lemma word_ok_view pat w : forallb simple w = true -> word_ok (map (view pat) w) /\ Forall plainly (map (view pat) w).
Proof.
  intros H. assert (Forall plainly (map (view pat) w)) as F.
  { induction w as [|x w IH]; [constructor|]. cbn [forallb] in H. apply andb_prop in H as [H1 H2]. constructor; [now apply view_plainly|now apply IH]. }
  split; auto. eapply Forall_impl; [|exact F]. intros [c|c]; cbn; auto.
Qed.

(** From the characters of a word to the text of the words it expands to: the quoted
    characters, whatever they are, never act as braces or commas. *)
Theorem c34_typed : forall pat w, forallb simple w = true -> exists vs ws,
  brace_expand (emits pat true false w) = BOk vs /\ expands (map (view pat) w) ws /\ map debunk vs = map (map byte) ws.
Proof.
  intros pat w H. destruct (expands_total _ (map (view pat) w) (Nat.le_refl _)) as (ws & E).
  assert (forall us, Forall plainly us -> debunk (enc us) = map byte us) as D by apply debunk_enc.
  destruct (first_open w) as [F|(t & r & -> & F)].
  - destruct (view_no_open pat w H F) as (V1 & V2 & V3 & V4 & V5).
    exists [enc (map (view0 pat) w)], ws. split; [|split; auto].
    + replace (emits pat true false w) with (enc (map (view0 pat) w)) by (rewrite <- (app_nil_r w) at 2; rewrite emits_view0 by auto; cbn; now rewrite app_nil_r).
      unfold brace_expand. rewrite (alt_expand_spec _ (map (view0 pat) w) [] [map (view0 pat) w]); auto.
      pose proof (expands_prefix (map (view0 pat) w) [] ) as P. destruct (expands_total _ (map (view0 pat) w) (Nat.le_refl _)) as (ws0 & E0).
      destruct (P ws0 V2) as (ws' & E1 & ->); [now rewrite app_nil_r|]. inversion E1; subst. cbn in E0. now rewrite app_nil_r in E0.
    + destruct (expands_prefix (map (view pat) w) [] ws V1) as (ws' & E1 & ->); [now rewrite app_nil_r|]. inversion E1; subst.
      cbn. rewrite app_nil_r. now rewrite D, V3.
  - rewrite forallb_app in H. apply andb_prop in H as [Ht Hr]. cbn [forallb] in Hr. apply andb_prop in Hr as [_ Hr].
    destruct (view_no_open pat t Ht F) as (V1 & V2 & V3 & V4 & V5). rewrite map_app in E. cbn [map] in E.
    change (view pat (TU "{")) with {{ in E. destruct (expands_prefix _ _ ws V1 E) as (ws' & E' & ->). clear E.
    destruct (word_ok_view pat r Hr) as [O1 O2].
    assert (expands (map (view0 pat) t ++ {{ :: map (view pat) r) (map (app (map (view0 pat) t)) ws')) as E0.
    { destruct (expands_total _ (map (view0 pat) t ++ {{ :: map (view pat) r) (Nat.le_refl _)) as (ws0 & E0).
      destruct (expands_prefix _ _ _ V2 E0) as (ws2 & E2 & ->). now rewrite (c34_unambiguous _ _ _ E' E2). }
    assert (emits pat true false (t ++ TU "{"%char :: r) = enc (map (view0 pat) t ++ {{ :: map (view pat) r)) as ->.
    { rewrite emits_view0 by auto. rewrite enc_app. f_equal. change (emits pat true false (TU "{"%char :: r)) with ([MAGIC; "{"%char] ++ emits pat true true r).
      rewrite emits_view by auto. reflexivity. }
    exists (map enc (map (app (map (view0 pat) t)) ws')), (map (app (map (view pat) t)) ws'). split; [|split].
    + unfold brace_expand. rewrite (alt_expand_spec _ _ [] (map (app (map (view0 pat) t)) ws')); auto.
      apply ok_app. split; auto. constructor; auto.
    + rewrite map_app. cbn [map]. change (view pat (TU "{")) with {{. clear - E' V1. induction t as [|x t IH]; cbn [map app].
      * now rewrite map_id.
      * rewrite <- (map_map (app (map (view pat) t)) (cons (view pat x))).
        apply E_sym; [intros EQ; apply V1; now left|]. apply IH. intros I; apply V1; now right.
    + rewrite !map_map. assert (Forall (Forall plainly) ws') as FP.
      { apply (expands_syms _ _ E'). constructor; auto. reflexivity. }
      clear - FP V3 V5 D. induction FP as [|u us P FP IH]; [reflexivity|]. cbn [map]. f_equal; auto.
      rewrite D by (apply Forall_app; auto). rewrite !map_app, V3. reflexivity.
Qed.
Print Assumptions c34_typed.
Definition U (s : string) : list tok := map TU (L s).
Definition Q (s : string) : list tok := map TQ (L s).
Definition texts (b : bres) : list cstr := match b with BOk l => map debunk l | _ => [] end.
Example c34_typed_ex : texts (brace_expand (emits true true false (U "x,{a,{b,c}*,}y{1" ++ Q "," ++ U "2,3}")))
  = [L "x,ay1,2"; L "x,ay3"; L "x,b*y1,2"; L "x,b*y3"; L "x,c*y1,2"; L "x,c*y3"; L "x,y1,2"; L "x,y3"].
Proof. reflexivity. Qed.

(** ** What it means for common words *)
Lemma expands_plain w : ~ In {{ w -> expands w [w].
Proof.
  induction w as [|x w IH]; intros N; [constructor|]. apply (E_sym x w [w]); [intros ->; apply N; now left|]. apply IH. intros I; apply N; now right.
Qed.
(** One group: one word for each alternative, in order, with the text before and
    after attached. *)
Fixpoint commas (l : list word) : word := match l with [] => [] | [a] => a | a :: r => a ++ ,, :: commas r end.
Theorem c34_group : forall p l s, 2 <= length l -> word_ok (p ++ commas l ++ s) ->
  ~ In {{ p -> ~ In {{ s -> Forall (fun a => ~ In {{ a /\ ~ In }} a /\ ~ In ,, a) l ->
  brace_expand (enc (p ++ {{ :: commas l ++ }} :: s)) = BOk (map (fun a => enc (p ++ a ++ s)) l).
Proof.
  intros p l s LE O Np Ns F. apply ok_app in O as [Op O]. apply ok_app in O as [Ol Os].
  assert (forall a, ~ In {{ a /\ ~ In }} a /\ ~ In ,, a -> no_comma a) as NC.
  { induction a as [|x a IH]; intros (H1 & H2 & H3); [constructor|]. apply N_sym; try (intros ->; (apply H1 + apply H2 + apply H3); now left).
    apply IH. repeat split; intros I; (apply H1 + apply H2 + apply H3); now right. }
  assert (alternatives (commas l) l) as A.
  { clear - F LE NC. destruct l as [|a l]; [cbn in LE; lia|]. clear LE. revert a F. induction l as [|b l IH]; intros a F; inversion F; subst; [apply L_one; auto|].
    change (commas (a :: b :: l)) with (a ++ ,, :: commas (b :: l)). apply L_more; [now apply NC|now apply IH]. }
  assert (expands (p ++ {{ :: commas l ++ }} :: s) (map (fun a => p ++ a ++ s) l)) as E.
  { assert (expands ({{ :: commas l ++ }} :: s) (map (fun a => a ++ s) l)) as E.
    { replace (map (fun a => a ++ s) l) with (flat_map (fun us => flat_map (fun u => map (app u) [s]) us) (map (fun a => [a]) l)).
      - eapply E_group; eauto; [|now apply expands_plain]. clear - F. induction F as [|a l (H & _) F IH]; constructor; auto. now apply expands_plain.
      - clear. induction l as [|a l IH]; cbn; [reflexivity|]. now rewrite <- IH. }
    clear - E Np. induction p as [|x p IH]; [exact E|]. cbn [app].
    rewrite <- (map_map (fun a => p ++ a ++ s) (cons x)).
    apply E_sym; [intros ->; apply Np; now left|]. apply IH. intros I; apply Np; now right. }
  unfold brace_expand. rewrite (alt_expand_spec _ (p ++ {{ :: commas l ++ }} :: s) [] (map (fun a => p ++ a ++ s) l)); auto.
  - rewrite map_map. reflexivity.
  - apply ok_app. split; auto. constructor; auto. apply ok_app. split; auto. constructor; auto.
Qed.
Print Assumptions c34_group.
Definition P (s : string) : word := map Plain (L s).
Example c34_group_ex : brace_expand (enc (P "a" ++ {{ :: commas [P "b"; P ""; P "cc"] ++ }} :: P "d")) = BOk [L "abd"; L "ad"; L "accd"].
Proof. reflexivity. Qed.

(** A word in which no group has two alternatives is left as it is. *)
Theorem c34_unchanged : forall w, word_ok w ->
  (forall p a s l, w = p ++ {{ :: a ++ }} :: s -> alternatives a l -> 2 <= length l -> False) ->
  brace_expand (enc w) = BOk [enc w].
Proof.
  intros w O H. destruct (c34_expand w O) as (ws & E & ->). f_equal. replace ws with [w]; [reflexivity|]. clear O.
  eapply c34_unambiguous; eauto. clear ws E.
  assert (forall n w, length w <= n -> (forall p a s l, w = p ++ {{ :: a ++ }} :: s -> alternatives a l -> 2 <= length l -> False) -> expands w [w]) as K; [|eapply K; eauto].
  clear. induction n as [|n IH]; intros w Hn H; [destruct w; [constructor|cbn in Hn; lia]|].
  destruct w as [|x w]; [constructor|]. cbn in Hn. destruct (sym_cases x) as [->|D].
  2:{ apply (E_sym x w [w]); [destruct D as [->|[D _]]; [discriminate|auto]|]. apply IH; [lia|]. intros p a s l -> A. apply (H (x :: p) a s l); auto. }
  destruct (match_dec w) as [(a & b & B & ->)|N]; [|now apply E_open].
  destruct (alternatives_total a B) as (l & A & NE). destruct l as [|h [|h2 l]]; [congruence| |].
  - assert (no_comma a) as NC by (inversion A as [|? ? ? ? A']; subst; auto; inversion A').
    apply (E_single a b [b]); auto. rewrite app_length in Hn. cbn in Hn. apply IH; [lia|].
    intros p a' s l -> A' L2. apply (H ({{ :: a ++ }} :: p) a' s l); auto. cbn. now rewrite <- app_assoc.
  - exfalso. apply (H [] a b (h :: h2 :: l)); auto. cbn. lia.
Qed.
Print Assumptions c34_unchanged.
Example c34_unchanged_ex : texts (brace_expand (emits false true false (U "a{b}c}{d" ++ Q "{e,f}"))) = [L "a{b}c}{d{e,f}"]
  /\ texts (brace_expand (emits false true false (U "a{b}c{,}d}"))) = [L "a{b}cd}"; L "a{b}cd}"].
Proof. split; reflexivity. Qed.

(** A group inside a group without a comma, or behind a brace without its partner,
    is not expanded. *)
Theorem c34_inner_group_refuted :
  texts (brace_expand (emits false true false (U "{a{b,c}}"))) = [L "{a{b,c}}"] /\
  texts (brace_expand (emits false true false (U "a{{b,c}"))) = [L "a{{b,c}"].
Proof. split; reflexivity. Qed.
Print Assumptions c34_inner_group_refuted.
