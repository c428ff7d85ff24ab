(** C07-C10: arithmetic expressions. *)
From Verif Require Import Base Num_model Num_spec Num_proof Arith_model Arith_spec Arith_tok Arith_proof.
From Coq Require Import Lia ZArith.
Local Open Scope Z_scope.

(** * C07 *)
(** The text of a well-formed tree, however spaced, evaluates to what C says.
    [reads]: rd gives what variables stand for.  Partial: [sem] leaves out signed overflow, the
    operands that are not evaluated but not [skippable] (see C09), postfix operators on values
    outside 32 bits (see C10), storing INT64_MIN into a string variable, array references. *)
Theorem c07_arithmetic_partial ar rd e text st oc :
  reads ar rd -> wf e = true -> spelled ar (toks e) text -> sem rd st e = Some oc ->
  csem rd st e = Some oc /\
  exists F, forall n, (F <= n)%nat ->
    evaluate n ar text st = match oc with Good z st' => Val z st' | Bad st' => Fail st' end.
Proof. intros H1 H2 H3 H4. split; [apply sem_csem; exact H4|exact (evaluate_ok ar rd e text st oc H1 H2 H3 H4)]. Qed.
Print Assumptions c07_arithmetic_partial.

(** every tree has a well-formed spelling with the same meaning *)
Theorem c07_every_tree e : ops_ok e = true ->
  exists e', wf e' = true /\ bare e' = bare e /\ forall rd st, csem rd st e' = csem rd st e.
Proof. intros H. exists (full e). split; [apply full_wf; exact H|]. split; [apply bare_full|]. intros rd st. apply csem_full. Qed.
Print Assumptions c07_every_tree.
Theorem c07_spelling ar ts :
  Forall (fun t => match t with SVar x => identifier x = true | SLit s z => literal ar s z | SOp _ => True end) ts ->
  exists text, spelled ar ts text.
Proof. intros H. exists (spaced ts). apply spelled_spaced. exact H. Qed.
Print Assumptions c07_spelling.

(** rd for plain variables *)
Theorem c07_plain_variables ar : reads ar plain_rd.
Proof. apply plain_reads. Qed.
Print Assumptions c07_plain_variables.

Definition st0 : store := upd (upd (fun _ => Var false false false None) (L "x") (Var true false false (Some (VI 5))))
                              (L "s") (Var false false false (Some (VS (L "12")))).
(* x+s*2>>1 ? y=x-1-1 : 0 *)
Definition ex7 : expr :=
  ETern (EBin Shr (EBin Add (EVar (L "x")) (EBin Mul (EVar (L "s")) (ELit (L "2") 2))) (ELit (L "1") 1))
        (EAsn (L "y") None (EBin Sub (EBin Sub (EVar (L "x")) (ELit (L "1") 1)) (ELit (L "1") 1))) (ELit (L "0") 0).
Lemma one_digit (ar : bool) c z : isdigit c = true -> ccode c - 48 = z -> z <= INT64_MAX -> literal ar [c] z.
Proof.
  intros H <- Hz. apply (lit_num ar c [] 10); [assumption| |assumption|congruence]. apply num_dec. apply horner_denotes. split; [discriminate|].
  cbn [forallb horner]. rewrite H. split; [reflexivity|lia].
Qed.
Ltac fits_tac := cbn; repeat split; first [reflexivity | discriminate | apply one_digit; [reflexivity|reflexivity|discriminate] | exact I].
Ltac spell_tac :=
  match goal with
  | |- spelled ?ar [] ?s => apply (sp_end ar s); reflexivity
  | |- spelled ?ar (?t :: ?ts) ?s =>
      let s' := eval vm_compute in (snd (span isspace s)) in
      let w := eval vm_compute in (fst (span isspace s)) in
      let r := eval vm_compute in (skipn (length (spell t)) s') in
      refine (sp_cons ar w t ts r eq_refl _ _); [spell_tac|fits_tac]
  end.
Example ex7_text : wf ex7 = true /\ spelled true (toks ex7) (L "x+s*2>>1 ? y=x-1-1:0") /\
  exists st', sem plain_rd st0 ex7 = Some (Good 3 st') /\ v_val (st' (L "y")) = Some (VS (L "3")).
Proof.
  split; [reflexivity|]. split.
  - cbn [ex7 toks app op_of]. spell_tac.
  - eexists. split; [vm_compute; reflexivity|reflexivity].
Qed.

(** a variable whose text is an expression *)
Example ex7_indirect : stands_for true [] (upd st0 (L "v") (Var false false false (Some (VS (L "x+s"))))) (L "v") 17.
Proof.
  set (st := upd st0 (L "v") _).
  apply (sf_expr true [] st (L "v") (L "x+s") (EBin Add (EVar (L "x")) (EVar (L "s")))
           (fun y => if str_eqb y (L "v") then None else plain_rd st y) 17).
  - reflexivity.
  - reflexivity.
  - intros [].
  - reflexivity.
  - cbn [toks app op_of]. spell_tac.
  - reflexivity.
  - intros y v Hy. destruct (str_eqb y (L "v")) eqn:E; [discriminate|].
    pose proof (plain_reads true st y v Hy) as G. inversion G as [? ? H|? H Hn|? ? ? ? H Hnum Habs Hpre|? ? ? ? ? H H2 H3 H4 H5 H6 H7 H8]; subst.
    + apply sf_int. assumption.
    + apply sf_unset; [assumption|]. intros [<-|[]]. rewrite str_eqb_refl in E. discriminate.
    + eapply sf_num; eassumption.
    + exfalso. unfold plain_rd in Hy. rewrite H in Hy. destruct s as [|c s]; [discriminate|].
      assert (K : exists b w, numeral (c :: s) b w /\ Z.abs w <= INT64_MAX /\ (true = true -> match c :: s with c :: _ :: _ => c <> "0"%char | _ => True end)).
      { destruct (ceq_spec c "-") as [->|Hc].
        - destruct (dec_text s) as [u|] eqn:Ed; [|discriminate]. apply dec_text_ok in Ed. destruct Ed as (D & R & Z0 & M).
          exists 10, (- u). split; [apply num_neg; [exact M|apply num_dec; exact D]|]. split; [lia|]. intros _. destruct s; [exact I|discriminate].
        - apply dec_text_ok in Hy. destruct Hy as (D & R & Z0 & M). exists 10, v. split; [apply num_dec; exact D|]. split; [lia|auto]. }
      destruct K as (b & w & K1 & K2 & K3). rewrite (Num_proof.getint_numeral true _ _ b w K1 K2) in H2; [discriminate|].
      intros Et. specialize (K3 Et). destruct s; cbn; auto.
  - vm_compute. reflexivity.
Qed.

(** * C08 *)
Definition int64 (z : Z) : Prop := - 2 ^ 63 <= z < 2 ^ 63.
Definition divides_by (o : bop) : Prop := o = Div \/ o = Mod.
(** what the quotient and the remainder are *)
Theorem c08_quotient_remainder a b : b <> 0 ->
  a = b * quotient a b + remainder a b /\ Z.abs (remainder a b) < Z.abs b /\ (0 <= a -> 0 <= remainder a b) /\ (a <= 0 -> remainder a b <= 0).
Proof.
  intros Hb. split; [unfold remainder; lia|]. rewrite <- rem_remainder by assumption.
  split; [apply Z.rem_bound_abs; assumption|]. pose proof (Z.rem_bound_pos a b). pose proof (Z.rem_sign_nz a b).
  split; intros Ha.
  - apply Z.rem_nonneg; assumption.
  - apply Z.rem_nonpos; assumption.
Qed.
Print Assumptions c08_quotient_remainder.

(** an evaluated division: both operands 64-bit; never undefined, an error exactly for 0 *)
Theorem c08_division ar rd l o r text st a st1 b st2 :
  reads ar rd -> wf (EBin o l r) = true -> spelled ar (toks (EBin o l r)) text -> divides_by o ->
  sem rd st l = Some (Good a st1) -> sem rd st1 r = Some (Good b st2) -> int64 a -> int64 b ->
  exists F, forall n, (F <= n)%nat -> evaluate n ar text st =
    if b =? 0 then Fail st2
    else if (a =? - 2 ^ 63) && (b =? -1) then Val (match o with Div => - 2 ^ 63 | _ => 0 end) st2
    else Val (match o with Div => quotient a b | _ => remainder a b end) st2.
Proof.
  intros Hrd Hwf Hsp Ho Hl Hr Ha Hb.
  assert (Hfit : forall z, int64 z -> fits64 z = Some z).
  { intros z [H1 H2]. unfold fits64. apply Z.leb_le in H1. apply Z.ltb_lt in H2. rewrite H1, H2. reflexivity. }
  assert (Hq : b <> 0 -> (a =? - 2 ^ 63) && (b =? -1) = false -> int64 (quotient a b)).
  { intros Hb0 Hne. unfold int64 in *. change (2 ^ 63) with 9223372036854775808 in *. rewrite <- quot_quotient by assumption.
    assert (Hk : Z.abs (Z.quot a b) = Z.abs a / Z.abs b).
    { rewrite <- Z.quot_abs by assumption. apply Z.quot_div_nonneg; lia. }
    assert (Hd : Z.abs a / Z.abs b <= Z.abs a) by (apply Z.div_le_upper_bound; nia).
    destruct (Z.eq_dec a (-9223372036854775808)) as [Ea|Ea]; [|lia].
    destruct (Z.eq_dec b (-1)) as [Eb|Eb]; [subst; discriminate Hne|].
    destruct (Z.eq_dec b 1) as [E1|E1]; [subst; rewrite Z.quot_1_r; lia|].
    assert (Z.abs a / Z.abs b < 9223372036854775808) by (apply Z.div_lt_upper_bound; nia). lia. }
  assert (Hm : b <> 0 -> int64 (remainder a b)).
  { intros Hb0. unfold int64 in *. change (2 ^ 63) with 9223372036854775808 in *. rewrite <- rem_remainder by assumption.
    pose proof (Z.rem_bound_abs a b Hb0). lia. }
  assert (Hs : sem rd st (EBin o l r) = Some (if b =? 0 then Bad st2
    else Good (if (a =? - 2 ^ 63) && (b =? -1) then match o with Div => - 2 ^ 63 | _ => 0 end else match o with Div => quotient a b | _ => remainder a b end) st2)).
  { cbn [sem]. rewrite Hl. cbn [obind]. rewrite Hr. cbn [obind].
    destruct Ho as [-> | ->]; cbn [math calc_out]; destruct (b =? 0) eqn:Eb; try reflexivity; apply Z.eqb_neq in Eb;
    destruct ((a =? - 2 ^ 63) && (b =? -1)) eqn:E; try reflexivity.
    - rewrite Hfit by auto. reflexivity.
    - rewrite Hfit by auto. reflexivity. }
  pose proof (evaluate_ok ar rd (EBin o l r) text st _ Hrd Hwf Hsp Hs) as [F HF]. exists F. intros n Hn. rewrite (HF n Hn).
  destruct (b =? 0); [reflexivity|]. cbn [arith_result]. destruct (_ && _); reflexivity.
Qed.
Print Assumptions c08_division.
(** the same for the assigning operators /= and %= *)
Theorem c08_division_assign ar rd x o e text st a b st2 :
  reads ar rd -> wf (EAsn x (Some o) e) = true -> spelled ar (toks (EAsn x (Some o) e)) text -> divides_by o ->
  rd st x = Some a -> v_rdonly (st x) = false -> sem rd st e = Some (Good b st2) -> (b = 0 -> exists F, forall n, (F <= n)%nat -> evaluate n ar text st = Fail st2) /\
  (a = - 2 ^ 63 -> b = -1 -> v_integer (st2 x) = true -> exists F, forall n, (F <= n)%nat ->
     evaluate n ar text st = Val (match o with Div => - 2 ^ 63 | _ => 0 end) (put st2 x (match o with Div => - 2 ^ 63 | _ => 0 end))).
Proof.
  intros Hrd Hwf Hsp Ho Ha Hro Hb. split.
  - intros ->. apply (evaluate_ok ar rd _ text st (Bad st2) Hrd Hwf Hsp). cbn [sem]. rewrite Ha, Hro, Hb. destruct Ho as [-> | ->]; reflexivity.
  - intros -> -> Hi. apply (evaluate_ok ar rd _ text st (Good _ _) Hrd Hwf Hsp). cbn [sem]. rewrite Ha, Hro, Hb. cbn [obind].
    destruct Ho as [-> | ->]; [change (math Div (- 2 ^ 63) (-1)) with (Num (- 2 ^ 63))|change (math Mod (- 2 ^ 63) (-1)) with (Num 0)];
    cbn [calc_out obind]; unfold put_out, put_ok; rewrite Hi; reflexivity.
Qed.
Print Assumptions c08_division_assign.
Example c08_ex : evaluate 100 true (L "x=-9223372036854775807-1, x/-1, x%-1") st0 =
  Val 0 (upd st0 (L "x") (Var true false false (Some (VI (- 2 ^ 63))))) /\
  (exists st', evaluate 100 true (L "7/(x-5)") st0 = Fail st').
Proof. split; [vm_compute; reflexivity|eexists; vm_compute; reflexivity]. Qed.
(** the hypotheses of c08_division are met: 7/(x-5) *)
Example c08_ex2 : let l := ELit (L "7") 7 in let r := EPar (EBin Sub (EVar (L "x")) (ELit (L "5") 5)) in
  wf (EBin Div l r) = true /\ spelled true (toks (EBin Div l r)) (L "7/(x-5)") /\
  sem plain_rd st0 l = Some (Good 7 st0) /\ sem plain_rd st0 r = Some (Good 0 st0).
Proof. split; [reflexivity|]. split; [cbn [toks app op_of]; spell_tac|]. split; vm_compute; reflexivity. Qed.

(** * C09 *)
(** Partial: the skipped operand must be [skippable]: it must not begin with a variable that
    it assigns to, and computing it (with 0 for its variables) must not overflow. *)
Theorem c09_and_partial ar rd l r text st st1 :
  reads ar rd -> wf (EAnd l r) = true -> spelled ar (toks (EAnd l r)) text ->
  sem rd st l = Some (Good 0 st1) -> skippable rd st1 r = true ->
  exists F, forall n, (F <= n)%nat -> evaluate n ar text st = Val 0 st1.
Proof. intros H1 H2 H3 H4 H5. apply (evaluate_ok ar rd _ text st (Good 0 st1) H1 H2 H3). cbn [sem]. rewrite H4. cbn [obind]. cbn [Z.eqb]. rewrite H5. reflexivity. Qed.
Print Assumptions c09_and_partial.
Theorem c09_or_partial ar rd l r text st a st1 :
  reads ar rd -> wf (EOr l r) = true -> spelled ar (toks (EOr l r)) text ->
  sem rd st l = Some (Good a st1) -> a <> 0 -> skippable rd st1 r = true ->
  exists F, forall n, (F <= n)%nat -> evaluate n ar text st = Val 1 st1.
Proof. intros H1 H2 H3 H4 Ha H5. apply (evaluate_ok ar rd _ text st (Good 1 st1) H1 H2 H3). cbn [sem]. rewrite H4. cbn [obind]. apply Z.eqb_neq in Ha. rewrite Ha, H5. reflexivity. Qed.
Print Assumptions c09_or_partial.
Theorem c09_cond_true_partial ar rd c a b text st z st1 v st2 :
  reads ar rd -> wf (ETern c a b) = true -> spelled ar (toks (ETern c a b)) text ->
  sem rd st c = Some (Good z st1) -> z <> 0 -> sem rd st1 a = Some (Good v st2) -> skippable rd st2 b = true ->
  exists F, forall n, (F <= n)%nat -> evaluate n ar text st = Val v st2.
Proof. intros H1 H2 H3 H4 Hz H5 H6. apply (evaluate_ok ar rd _ text st (Good v st2) H1 H2 H3). cbn [sem]. rewrite H4. cbn [obind]. apply Z.eqb_neq in Hz. rewrite Hz, H5. cbn [obind]. rewrite H6. reflexivity. Qed.
Print Assumptions c09_cond_true_partial.
Theorem c09_cond_false_partial ar rd c a b text st st1 v st2 :
  reads ar rd -> wf (ETern c a b) = true -> spelled ar (toks (ETern c a b)) text ->
  sem rd st c = Some (Good 0 st1) -> skippable rd st1 a = true -> sem rd st1 b = Some (Good v st2) ->
  exists F, forall n, (F <= n)%nat -> evaluate n ar text st = Val v st2.
Proof. intros H1 H2 H3 H4 H5 H6. apply (evaluate_ok ar rd _ text st (Good v st2) H1 H2 H3). cbn [sem]. rewrite H4. cbn [obind]. cbn [Z.eqb]. rewrite H5. exact H6. Qed.
Print Assumptions c09_cond_false_partial.
(** A sufficient condition, all operators that cannot overflow allowed: an operand in
    parentheses, or one that does not assign, is skippable. *)
Fixpoint no_overflow (e : expr) : bool :=
  match e with
  | EVar _ | EPre _ _ | EPost _ _ => true
  | ELit _ z => (- 2 ^ 63 <? z) && (z <? 2 ^ 63)
  | EPar e => no_overflow e
  | EUn u e => match u with UPos | UNot => no_overflow e | _ => false end
  | EBin o l r => match o with Lt | Le | Gt | Ge | Eq | Ne | BAnd | BXor | BOr => no_overflow l && no_overflow r | _ => false end
  | EAnd l r | EOr l r | EComma l r => no_overflow l && no_overflow r
  | ETern c a b => no_overflow c && no_overflow a && no_overflow b
  | EAsn _ o e => no_overflow e && match o with None | Some (BAnd | BXor | BOr) => true | _ => false end
  end.
Lemma skip_no_overflow rd st e : no_overflow e = true -> forall lead, lead = false \/ (pure e = true /\ forall x, rd st x <> None) -> dry rd st lead e <> None.
Proof.
  induction e as [x|s z0|e IH|u e IH|i x|x i|o l IHl r IHr|l IHl r IHr|l IHl r IHr|c IHc a IHa b IHb|x o e IH|l IHl r IHr];
  intros H lead Hl; cbn [dry no_overflow pure] in *; try discriminate.
  - destruct lead; [|discriminate]. destruct Hl as [Hl|[_ Hl]]; [discriminate|apply Hl].
  - apply IH; auto.
  - assert (K : dry rd st false e <> None) by (destruct u; try discriminate H; apply IH; auto).
    destruct (dry rd st false e); [|congruence]. destruct u; try discriminate H; discriminate.
  - destruct Hl as [->|[Hl _]]; [discriminate|discriminate].
  - assert (K : dry rd st lead l <> None /\ dry rd st false r <> None).
    { assert (no_overflow l && no_overflow r = true) as G by (destruct o; auto; discriminate). apply andb_true_iff in G. destruct G as [G1 G2].
      split; [apply IHl; auto|apply IHr; auto]. destruct Hl as [Hl|[Hl Hl2]]; auto. apply andb_true_iff in Hl. right. split; [apply Hl|exact Hl2]. }
    destruct (dry rd st lead l), (dry rd st false r); try (destruct K; congruence). destruct o; try discriminate H; discriminate.
  - apply andb_true_iff in H. destruct H as [G1 G2].
    assert (K : dry rd st lead l <> None /\ dry rd st false r <> None).
    { split; [apply IHl; auto|apply IHr; auto]. destruct Hl as [Hl|[Hl Hl2]]; auto. apply andb_true_iff in Hl. right. split; [apply Hl|exact Hl2]. }
    destruct (dry rd st lead l), (dry rd st false r); try (destruct K; congruence).
  - apply andb_true_iff in H. destruct H as [G1 G2].
    assert (K : dry rd st lead l <> None /\ dry rd st false r <> None).
    { split; [apply IHl; auto|apply IHr; auto]. destruct Hl as [Hl|[Hl Hl2]]; auto. apply andb_true_iff in Hl. right. split; [apply Hl|exact Hl2]. }
    destruct (dry rd st lead l), (dry rd st false r); try (destruct K; congruence).
  - apply andb_true_iff in H. destruct H as [G1 G3]. apply andb_true_iff in G1. destruct G1 as [G1 G2].
    assert (K : dry rd st lead c <> None).
    { apply IHc; auto. destruct Hl as [Hl|[Hl Hl2]]; auto. apply andb_true_iff in Hl. destruct Hl as [Hl _]. apply andb_true_iff in Hl. right. split; [apply Hl|exact Hl2]. }
    pose proof (IHa G2 false (or_introl eq_refl)). pose proof (IHb G3 false (or_introl eq_refl)).
    destruct (dry rd st lead c), (dry rd st false a), (dry rd st false b); try congruence.
  - destruct Hl as [->|[Hl _]]; [|discriminate]. apply andb_true_iff in H. destruct H as [G1 G2].
    pose proof (IH G1 false (or_introl eq_refl)). destruct (dry rd st false e); [|congruence]. destruct o as [[]|]; try discriminate G2; discriminate.
  - apply andb_true_iff in H. destruct H as [G1 G2].
    assert (K : dry rd st lead l <> None /\ dry rd st false r <> None).
    { split; [apply IHl; auto|apply IHr; auto]. destruct Hl as [Hl|[Hl Hl2]]; auto. apply andb_true_iff in Hl. right. split; [apply Hl|exact Hl2]. }
    destruct (dry rd st lead l), (dry rd st false r); try (destruct K; congruence).
Qed.
Theorem c09_skippable rd st e : no_overflow e = true ->
  skippable rd st (EPar e) = true /\ (pure e = true -> (forall x, rd st x <> None) -> skippable rd st e = true).
Proof.
  intros H. unfold skippable. cbn [dry]. split.
  - pose proof (skip_no_overflow rd st e H false (or_introl eq_refl)). destruct (dry rd st false e); congruence.
  - intros Hp Hr. pose proof (skip_no_overflow rd st e H true (or_intror (conj Hp Hr))). destruct (dry rd st true e); congruence.
Qed.
Print Assumptions c09_skippable.
Example c09_ex : skippable plain_rd st0 (EPar (EAsn (L "x") None (ELit (L "9") 9))) = true /\
  skippable plain_rd st0 (EPre true (L "x")) = true /\
  skippable plain_rd st0 (EBin Div (ELit (L "1") 1) (ELit (L "0") 0)) = true /\
  evaluate 100 true (L "0 && (x=9), 1 || ++x, 1 ? 2 : 1/0") st0 = Val 2 st0.
Proof. repeat split; vm_compute; reflexivity. Qed.

(** Without that condition the claim fails: an operand that is not evaluated and that begins
    with the variable it assigns to changes it. *)
Theorem c09_no_side_effects_refuted : exists st, v_val (st (L "x")) = Some (VI 5) /\ forall text,
  In text [L "0 && x++"; L "1 || x++"; L "0 && x--"; L "0 ? x++ : 2"; L "1 ? 2 : x++"; L "0 ? x=6 : 2"] ->
  exists z st', evaluate 100 true text st = Val z st' /\ v_val (st' (L "x")) <> Some (VI 5).
Proof.
  exists st0. split; [reflexivity|]. intros text H.
  repeat (destruct H as [<-|H]; [eexists _, _; split; [vm_compute; reflexivity|vm_compute; discriminate]|]). destruct H.
Qed.
Print Assumptions c09_no_side_effects_refuted.

(** * C10 *)
Theorem c10_prefix ar rd x (inc : bool) text st z z' :
  reads ar rd -> spelled ar (toks (EPre inc x)) text -> rd st x = Some z -> v_rdonly (st x) = false ->
  z' = (if inc then z + 1 else z - 1) -> int64 z' -> (v_integer (st x) = true \/ z' <> - 2 ^ 63) ->
  exists F, forall n, (F <= n)%nat -> evaluate n ar text st = Val z' (put st x z').
Proof.
  intros H1 H3 H4 Hro -> Hz Hi. apply (evaluate_ok ar rd (EPre inc x) text st (Good _ _) H1 eq_refl H3). cbn [sem]. rewrite Hro, H4.
  destruct Hz as [Hz1 Hz2]. unfold fits64. apply Z.leb_le in Hz1 as Hz1'. apply Z.ltb_lt in Hz2 as Hz2'. rewrite Hz1', Hz2'. cbn [andb]. unfold put_out, put_ok.
  destruct (v_integer (st x)) eqn:Ei; [reflexivity|]. rewrite Hz2'. destruct Hi as [Hi|Hi]; [discriminate|].
  replace (- 2 ^ 63 <? _) with true; [reflexivity|]. symmetry. apply Z.ltb_lt. lia.
Qed.
Print Assumptions c10_prefix.
(** Partial: the old value must fit in a 32-bit int. *)
Theorem c10_postfix_partial ar rd x (inc : bool) text st z :
  reads ar rd -> spelled ar (toks (EPost x inc)) text -> rd st x = Some z -> v_rdonly (st x) = false ->
  - 2 ^ 31 <= z < 2 ^ 31 ->
  exists F, forall n, (F <= n)%nat -> evaluate n ar text st = Val z (put st x (if inc then z + 1 else z - 1)).
Proof.
  intros H1 H3 H4 Hro [Hz1 Hz2]. apply (evaluate_ok ar rd (EPost x inc) text st (Good _ _) H1 eq_refl H3). cbn [sem]. rewrite Hro, H4.
  apply Z.leb_le in Hz1 as Hz1'. apply Z.ltb_lt in Hz2 as Hz2'. rewrite Hz1', Hz2'. cbn [andb]. unfold put_out, put_ok.
  replace (- 2 ^ 63 <? _) with true by (symmetry; apply Z.ltb_lt; destruct inc; lia).
  replace (_ <? 2 ^ 63) with true by (symmetry; apply Z.ltb_lt; destruct inc; lia). rewrite orb_true_r. reflexivity.
Qed.
Print Assumptions c10_postfix_partial.
(** the variable reads back as the new number, and nothing else changes *)
Theorem c10_stored st x n : (forall y, y <> x -> put st x n y = st y) /\
  v_val (put st x n x) = Some (if v_integer (st x) then VI n else VS (decimal n)).
Proof.
  unfold put, upd. split.
  - intros y Hy. destruct (str_eqb y x) eqn:E; [apply str_eqb_true in E; contradiction|reflexivity].
  - rewrite str_eqb_refl. reflexivity.
Qed.
Print Assumptions c10_stored.
Theorem c10_postfix_refuted : exists st st' z, v_val (st (L "x")) = Some (VI (2 ^ 31)) /\
  evaluate 100 true (L "x++") st = Val z st' /\ z <> 2 ^ 31.
Proof.
  exists (upd st0 (L "x") (Var true false false (Some (VI (2 ^ 31))))). eexists _, _. split; [reflexivity|].
  split; [vm_compute; reflexivity|vm_compute; discriminate].
Qed.
Print Assumptions c10_postfix_refuted.
(** ++ applied to nothing increments the variable seen before it *)
Theorem c10_stale_operand_refuted : exists st st' z, v_val (st (L "y")) = Some (VI 3) /\
  evaluate 100 true (L "y * ++ +") st = Val z st' /\ v_val (st' (L "y")) = Some (VI 4).
Proof.
  exists (upd st0 (L "y") (Var true false false (Some (VI 3)))). eexists _, _. split; [reflexivity|].
  split; [vm_compute; reflexivity|vm_compute; reflexivity].
Qed.
Print Assumptions c10_stale_operand_refuted.
Example c10_ex : spelled true (toks (EPost (L "s") true)) (L " s ++") /\ plain_rd st0 (L "s") = Some 12 /\
  exists st', evaluate 100 true (L " s ++") st0 = Val 12 st' /\ v_val (st' (L "s")) = Some (VS (L "13")).
Proof. split; [cbn [toks]; spell_tac|]. split; [reflexivity|]. eexists. split; vm_compute; reflexivity. Qed.
