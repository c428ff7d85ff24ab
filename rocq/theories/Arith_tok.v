From Verif Require Import Base Num_model Num_spec Num_proof Printf_spec Printf_proof Arith_model Arith_spec.
From Coq Require Import Lia ZArith.
Local Open Scope Z_scope.

(** * Tokens *)
Lemma span_app p a b : forallb p a = true -> match b with c :: _ => p c = false | [] => True end -> span p (a ++ b) = (a, b).
Proof.
  induction a as [|c a IH]; intros Ha Hb; cbn [app].
  - destruct b as [|c b]; [reflexivity|]. cbn [span]. rewrite Hb. reflexivity.
  - cbn [forallb] in Ha. apply andb_true_iff in Ha. destruct Ha as [Hc Ha]. cbn [span]. rewrite Hc, IH by assumption. reflexivity.
Qed.
Lemma span_space w s : forallb isspace w = true -> match s with c :: _ => isspace c = false | [] => True end ->
  snd (span isspace (w ++ s)) = s.
Proof. intros H1 H2. rewrite span_app by assumption. reflexivity. Qed.

Lemma match_op_ok o text : match text with
    | c :: _ => existsb (fun o' => begins (spell_op o ++ [c]) (spell_op o')) all_ops = false
    | [] => True end -> match_op opinfo (spell_op o ++ text) = Some (o, text).
Proof.
  intros H. destruct text as [|c text].
  - destruct o; reflexivity.
  - destruct o; cbn -[ceq] in H; cbn -[ceq];
    repeat match type of H with context [ceq ?a ?b] => match a with Ascii.Ascii _ _ _ _ _ _ _ _ => match b with Ascii.Ascii _ _ _ _ _ _ _ _ => let v := eval vm_compute in (ceq a b) in change (ceq a b) with v in H end end end;
    repeat match goal with |- context [ceq ?a ?b] => match a with Ascii.Ascii _ _ _ _ _ _ _ _ => match b with Ascii.Ascii _ _ _ _ _ _ _ _ => let v := eval vm_compute in (ceq a b) in change (ceq a b) with v end end end;
    cbn [andb orb] in H; cbv iota; rewrite ?andb_false_r, ?andb_true_r in H;
    repeat match goal with
    | |- context [if ceq ?a c then _ else _] =>
      let E := fresh in destruct (ceq a c) eqn:E; [apply ceq_true in E; subst c; vm_compute in H; discriminate H|clear E]
    end; try reflexivity.
Qed.

Definition at_tok (ar na : bool) (ts : list stok) (es : estate) : Prop :=
  match ts with
  | [] => e_tok es = T_END
  | SVar x :: r => e_tok es = T_VAR /\ e_val es = Some (if na then OTmp 0 true else OVar x) /\ spelled ar r (e_txt es)
  | SLit s z :: r => e_tok es = T_LIT /\ e_val es = Some (OTmp z false) /\ spelled ar r (e_txt es)
  | SOp o :: r => e_tok es = T_op o /\ spelled ar r (e_txt es)
  end.

Lemma op_head o : exists c r, spell_op o = c :: r /\ isspace c = false /\ letter c = false /\ isdigit c = false.
Proof. destruct o; eexists _, _; repeat split; reflexivity. Qed.

Lemma letter_not_space c : letter c = true -> isspace c = false.
Proof.
  intros H. assert (G : forallb (fun c => negb (letter c) || negb (isspace c)) all_chars = true) by (vm_compute; reflexivity).
  pose proof (char_sweep _ G c) as K. cbv beta in K. rewrite H in K. cbn in K. destruct (isspace c); [discriminate|reflexivity].
Qed.
Lemma digit_not_letter c : isdigit c = true -> isspace c = false /\ letter c = false.
Proof.
  intros H. assert (G : forallb (fun c => negb (isdigit c) || (negb (isspace c) && negb (letter c))) all_chars = true) by (vm_compute; reflexivity).
  pose proof (char_sweep _ G c) as K. cbv beta in K. rewrite H in K. cbn in K. destruct (isspace c), (letter c); try discriminate; auto.
Qed.

Definition lit_char (c : char) : bool := negb (ceq c "_") && (letnum c || ceq c "#").
Lemma denotes_lit_chars b ds n : denotes b ds n -> forallb lit_char ds = true.
Proof.
  assert (G : forallb (fun c => match digit_of c with Some _ => lit_char c | None => true end) all_chars = true) by (vm_compute; reflexivity).
  assert (K : forall c d, digit_of c = Some d -> lit_char c = true).
  { intros c d H. pose proof (char_sweep _ G c) as K. cbv beta in K. rewrite H in K. exact K. }
  induction 1 as [c d H1 H2|ds n c d H IH H1 H2].
  - cbn. rewrite (K _ _ H1). reflexivity.
  - rewrite forallb_app, IH. cbn. rewrite (K _ _ H1). reflexivity.
Qed.

Lemma numeral_lit_chars s b z : numeral s b z -> (forall t, s <> "-"%char :: t) -> forallb lit_char s = true.
Proof.
  intros H Hn. destruct H as [ds n H|bs b ds n H1 H2 H3|s b n H1 H2].
  - exact (denotes_lit_chars _ _ _ H).
  - rewrite forallb_app. rewrite (denotes_lit_chars _ _ _ H1). cbn. exact (denotes_lit_chars _ _ _ H3).
  - exfalso. exact (Hn _ eq_refl).
Qed.
Lemma denotes_nonneg b ds n : 0 <= b -> denotes b ds n -> 0 <= n.
Proof.
  intros Hb. assert (K : forall c d, digit_of c = Some d -> 0 <= d).
  { intros c d. unfold digit_of.
    destruct ((48 <=? ccode c) && (ccode c <=? 57)) eqn:E1; [intros H; injection H as <-; lia|].
    destruct ((97 <=? ccode c) && (ccode c <=? 122)) eqn:E2; [intros H; injection H as <-; lia|].
    destruct ((65 <=? ccode c) && (ccode c <=? 90)) eqn:E3; [intros H; injection H as <-; lia|]. discriminate. }
  induction 1 as [c d H1 H2|ds n c d H IH H1 H2]; [eauto|]. specialize (K _ _ H1). nia.
Qed.
Lemma numeral_nonneg s b z : numeral s b z -> (forall t, s <> "-"%char :: t) -> 0 <= z.
Proof.
  intros H Hn. destruct H as [ds n H|bs b ds n H1 H2 H3|s b n H1 H2].
  - exact (denotes_nonneg 10 _ _ ltac:(lia) H).
  - refine (denotes_nonneg b _ _ _ H3). lia.
  - exfalso. exact (Hn _ eq_refl).
Qed.

Lemma literal_head ar s z : literal ar s z -> exists c t, s = c :: t /\ isdigit c = true.
Proof. destruct 1; eexists _, _; split; try reflexivity. assumption. Qed.
Lemma literal_chars ar s z : literal ar s z -> forallb lit_char s = true.
Proof.
  destruct 1 as [c s b z H1 H2 H3 H4|x ds z H1 H2 H3 H4|ds z H1 H2 H3].
  - apply (numeral_lit_chars _ _ _ H2). intros t E. injection E as -> _. discriminate H1.
  - cbn [forallb]. rewrite (denotes_lit_chars _ _ _ H3). destruct H2 as [-> | ->]; reflexivity.
  - cbn [forallb]. rewrite (denotes_lit_chars _ _ _ H2). reflexivity.
Qed.
Lemma literal_getint ar s z : literal ar s z -> exists b, getint ar false s = Ok (b, z).
Proof.
  destruct 1 as [c s b z H1 H2 H3 H4|x ds z H1 H2 H3 H4|ds z H1 H2 H3].
  - exists b. apply getint_numeral; [assumption| |].
    + assert (0 <= z); [|lia]. apply (numeral_nonneg _ _ _ H2). intros t E. injection E as -> _. discriminate H1.
    + intros Ha. destruct s as [|d s]; cbn; [exact I|]. apply H4; [assumption|discriminate].
  - exists 16. subst ar. unfold getint.
    replace (ceq x "x" || ceq x "X") with true by (destruct H2 as [-> | ->]; reflexivity).
    change (true && ceq "0" "0") with true. cbv iota.
    rewrite <- (app_nil_r ds). rewrite (getint_loop_digits 16 ds z) by (assumption || lia). reflexivity.
  - exists 8. subst ar.
    assert (Hx : exists c r, ds = c :: r /\ ceq c "x" = false /\ ceq c "X" = false).
    { pose proof (denotes_nonempty _ _ _ H2) as Hne. destruct ds as [|c r]; [congruence|]. exists c, r. split; [reflexivity|].
      assert (Hd : exists d, digit_of c = Some d /\ d < 8).
      { clear H3 Hne. remember (c :: r) as l eqn:El. revert c r El. induction H2 as [c0 d H1 H2|ds n c0 d H IH H1 H2]; intros c r El.
        - injection El as -> _. eauto.
        - destruct ds as [|c1 ds]; [exfalso; exact (denotes_nonempty _ _ _ H eq_refl)|]. injection El as -> _. eapply IH; reflexivity. }
      destruct Hd as (d & Hd & Hd8). split; apply ceq_false; intros ->; vm_compute in Hd; injection Hd as <-; lia. }
    destruct Hx as (c & r & -> & E1 & E2). unfold getint. change (true && ceq "0" "0") with true. cbv iota. rewrite E1, E2. cbv iota beta delta [orb].
    rewrite <- (app_nil_r (c :: r)). rewrite (getint_loop_digits 8 (c :: r) z) by (assumption || lia). reflexivity.
Qed.

Lemma token_ok ar ts es st : spelled ar ts (e_txt es) ->
  exists es', token ar es st = Val es' st /\ at_tok ar (match e_na es with O => false | _ => true end) ts es' /\ e_na es' = e_na es.
Proof.
  destruct es as [txt tk vl na]. cbn [e_txt e_na]. intros H. inversion H as [w Hw|w t ts' text Hw Hs Hf]; subst.
  - unfold token. cbn [e_txt e_val e_na]. replace (snd (span isspace txt)) with (@nil char).
    + eexists; split; [reflexivity|]. split; reflexivity.
    + rewrite <- (app_nil_r txt). symmetry. apply span_space; [assumption|exact I].
  - unfold token. cbn [e_txt e_val e_na]. destruct t as [x|s z|o]; cbn [fits spell] in *.
    + destruct Hf as [Hx Hf]. destruct x as [|c x]; [discriminate|]. cbn [identifier] in Hx. apply andb_true_iff in Hx. destruct Hx as [Hc Hx].
      rewrite span_space; [|assumption|cbn [app]; apply letter_not_space; exact Hc].
      cbn [app]. change (letter c) with (isalpha c || ceq c "_"). rewrite Hc.
      change (c :: x ++ text) with ((c :: x) ++ text).
      assert (Hl : forall d, letnum d = word_char d).
      { intros d. unfold letnum, letter, word_char. destruct (isalpha d), (isdigit d), (ceq d "_"); reflexivity. }
      rewrite span_app.
      * destruct text as [|d text].
        { eexists; split; [reflexivity|]. cbn. destruct na; auto. }
        { destruct Hf as [_ Hf]. apply ceq_false in Hf. rewrite Hf. eexists; split; [reflexivity|]. cbn. destruct na; auto. }
      * rewrite <- Hx. generalize (c :: x). induction l as [|d l IHl]; [reflexivity|]. cbn [forallb]. rewrite Hl, IHl. reflexivity.
      * destruct text; [exact I|]. rewrite Hl. apply Hf.
    + destruct Hf as [Hl Hf]. destruct (literal_head _ _ _ Hl) as (c & t & -> & Hc).
      destruct (digit_not_letter _ Hc) as [Hc1 Hc2].
      rewrite span_space; [|assumption|exact Hc1]. cbn [app]. rewrite Hc2, Hc. change (c :: t ++ text) with ((c :: t) ++ text).
      rewrite span_app.
      * destruct (literal_getint _ _ _ Hl) as [b Hb]. rewrite Hb. eexists; split; [reflexivity|]. cbn. auto.
      * exact (literal_chars _ _ _ Hl).
      * destruct text as [|d text]; [exact I|]. unfold letnum, letter.
        destruct (isalpha d), (isdigit d), (ceq d "_"), (ceq d "#"); try discriminate; reflexivity.
    + destruct (op_head o) as (c & r & E & H1 & H2 & H3).
      assert (Hm := match_op_ok o text Hf).
      rewrite span_space; [|assumption|rewrite E; exact H1].
      rewrite E in *. cbn [app] in *. rewrite H2, H3, Hm. eexists; split; [reflexivity|]. cbn. auto.
Qed.

(** * Eventually, with enough fuel *)
Definition ev {A} (f : nat -> A) (r : A) : Prop := exists F, forall n, (F <= n)%nat -> f n = r.
Lemma ev_const {A} (r : A) : ev (fun _ => r) r.
Proof. exists 0%nat. reflexivity. Qed.
Lemma ev_S {A} (f g : nat -> A) r : (forall n, f (S n) = g n) -> ev g r -> ev f r.
Proof. intros H [F K]. exists (S F). intros n Hn. destruct n as [|n]; [lia|]. rewrite H. apply K. lia. Qed.
Lemma ev_Sc {A} (f : nat -> A) r : (forall n, f (S n) = r) -> ev f r.
Proof. intros H. apply (ev_S f (fun _ => r) r H). apply ev_const. Qed.
Lemma ev_bnd {A B} (f : nat -> out A) (g : nat -> A -> store -> out B) a st r :
  ev f (Val a st) -> ev (fun n => g n a st) r -> ev (fun n => bnd (f n) (g n)) r.
Proof. intros [F H] [G K]. exists (Nat.max F G). intros n Hn. rewrite H by lia. cbn [bnd]. apply K. lia. Qed.
Lemma ev_fail {A B} (f : nat -> out A) (g : nat -> A -> store -> out B) st :
  ev f (Fail st) -> ev (fun n => bnd (f n) (g n)) (Fail st).
Proof. intros [F H]. exists F. intros n Hn. rewrite H by lia. reflexivity. Qed.
Lemma ev_det {A} (f : nat -> A) r s : ev f r -> ev f s -> r = s.
Proof. intros [F H] [G K]. rewrite <- (H (Nat.max F G)), <- (K (Nat.max F G)) by lia. reflexivity. Qed.
Lemma ev_eq {A} (f g : nat -> A) r : (forall n, f n = g n) -> ev g r -> ev f r.
Proof. intros H [F K]. exists F. intros n Hn. rewrite H. apply K. exact Hn. Qed.

(** * Arithmetic *)
Lemma fits64_in z : in_int64 z = match fits64 z with Some _ => true | None => false end.
Proof.
  unfold in_int64, fits64, INT64_MIN, INT64_MAX. change (- 2 ^ 63) with (-9223372036854775808). change (2 ^ 63) with 9223372036854775808.
  replace (z <=? 9223372036854775807) with (z <? 9223372036854775808)
    by (destruct (Z.leb_spec z 9223372036854775807), (Z.ltb_spec z 9223372036854775808); try reflexivity; lia).
  destruct (_ && _); reflexivity.
Qed.
Lemma fits64_some z y : fits64 z = Some y -> y = z.
Proof. unfold fits64. destruct (_ && _); congruence. Qed.
Lemma chk_fits z y st : fits64 z = Some y -> chk z st = Val y st.
Proof. intros H. unfold chk. rewrite fits64_in, H. rewrite (fits64_some _ _ H). reflexivity. Qed.

Lemma quot_quotient l r : r <> 0 -> Z.quot l r = quotient l r.
Proof.
  intros Hr. unfold quotient.
  destruct (Z.leb_spec 0 l), (Z.ltb_spec 0 r), (Z.ltb_spec l 0), (Z.ltb_spec r 0); cbn [andb orb]; try lia.
  - rewrite Z.quot_div_nonneg by lia. rewrite !Z.abs_eq by lia. reflexivity.
  - rewrite <- (Z.opp_involutive r) at 1. rewrite Z.quot_opp_r by lia. rewrite Z.quot_div_nonneg by lia. rewrite Z.abs_eq, Z.abs_neq by lia. reflexivity.
  - rewrite <- (Z.opp_involutive l) at 1. rewrite Z.quot_opp_l by lia. rewrite Z.quot_div_nonneg by lia. rewrite Z.abs_neq, Z.abs_eq by lia. reflexivity.
  - rewrite <- (Z.opp_involutive l), <- (Z.opp_involutive r) at 1. rewrite Z.quot_opp_opp by lia. rewrite Z.quot_div_nonneg by lia. rewrite !Z.abs_neq by lia. reflexivity.
Qed.
Lemma rem_remainder l r : r <> 0 -> Z.rem l r = remainder l r.
Proof. intros Hr. unfold remainder. rewrite <- quot_quotient by assumption. pose proof (Z.quot_rem' l r). lia. Qed.

Definition as_op (b : bool) (o : bop) : op := if b then asn_of (Some o) else op_of o.
Lemma c_binop_ok b o na l r st c : (b = true -> assignable o = true) ->
  math o l r = Num c -> c_binop (as_op b o) na l r st = Val c st.
Proof.
  intros Ha H.
  assert (K : forall z, num_of (fits64 z) = Num c -> chk z st = Val c st).
  { intros z Hz. destruct (fits64 z) as [y|] eqn:E; [|discriminate]. injection Hz as <-. apply chk_fits. exact E. }
  unfold c_binop. change INT64_MIN with (- 2 ^ 63).
  destruct o; destruct b; try (specialize (Ha eq_refl); discriminate Ha); cbn [as_op asn_of op_of is_div andb math] in *; auto;
  try (destruct (r =? 0) eqn:Er; [discriminate|]; cbn [andb]; apply Z.eqb_neq in Er;
       destruct ((l =? - 2 ^ 63) && (r =? -1)); [injection H as <-; reflexivity|]; apply K;
       rewrite ?quot_quotient, ?rem_remainder by assumption; exact H);
  try (destruct (Z.leb_spec 0 l), (Z.leb_spec 0 r), (Z.ltb_spec r 64), (Z.ltb_spec r 0), (Z.ltb_spec 63 r), (Z.ltb_spec l 0);
       cbn [andb orb] in *; try discriminate; try lia; rewrite Z.shiftl_mul_pow2 by lia; auto; fail);
  try (destruct (Z.leb_spec 0 r), (Z.ltb_spec r 64), (Z.ltb_spec r 0), (Z.ltb_spec 63 r);
       cbn [andb orb] in *; try discriminate; try lia; rewrite Z.shiftr_div_pow2 by lia; congruence);
  try (rewrite ?Z.gtb_ltb, ?Z.geb_leb in H; injection H as <-; reflexivity).
Qed.
Lemma c_binop_zero b o l r st : (b = true -> assignable o = true) ->
  math o l r = DivZero -> c_binop (as_op b o) 0 l r st = Fail st.
Proof.
  intros Ha H. unfold c_binop.
  assert (K : forall z, num_of (fits64 z) <> DivZero) by (intros z; destruct (fits64 z); discriminate).
  destruct o; destruct b; try (specialize (Ha eq_refl); discriminate Ha); cbn [as_op asn_of op_of is_div andb math] in *;
  try discriminate; try (exfalso; eapply K; eassumption);
  try (destruct (r =? 0) eqn:Er; [reflexivity|];
       destruct ((l =? - 2 ^ 63) && (r =? -1)); [discriminate|exfalso; eapply K; eassumption]);
  try (exfalso; destruct (_ && _); [eapply K; eassumption|discriminate]); try (exfalso; destruct (_ && _); discriminate).
Qed.
Lemma c_binop_skip b o na l r st c : (b = true -> assignable o = true) ->
  skip_math o l r = Some c -> c_binop (as_op b o) (S na) l r st = Val c st.
Proof.
  intros Ha H. unfold skip_math in H. destruct (math o l r) as [z| |] eqn:E; [| |discriminate].
  - injection H as <-. apply c_binop_ok; assumption.
  - assert (Hd : is_div (as_op b o) = true /\ r = 0).
    { assert (K : forall z, num_of (fits64 z) <> DivZero) by (intros z; destruct (fits64 z); discriminate).
      destruct o; cbn [math] in E; try discriminate E; try (exfalso; eapply K; eassumption);
      try (exfalso; destruct (_ && _); [eapply K; eassumption|discriminate]); try (exfalso; destruct (_ && _); discriminate);
      (destruct (r =? 0) eqn:Er; [apply Z.eqb_eq in Er|destruct (_ && _); [discriminate|exfalso; eapply K; eassumption]]);
      destruct b; split; auto; reflexivity. }
    destruct Hd as [Hd ->]. destruct (math o l 1) as [z| |] eqn:E1; try discriminate. injection H as <-.
    rewrite <- (c_binop_ok b o (S na) l 1 st z Ha E1). unfold c_binop. rewrite Hd. cbn [andb Z.eqb]. reflexivity.
Qed.

Lemma decimal_ok n : in_int64 n = true -> n <> INT64_MIN -> str_val_int false false 0 n = Ok (decimal n).
Proof.
  intros Hr Hm. unfold in_int64 in Hr. apply andb_true_iff in Hr. destruct Hr as [H1 H2].
  apply Z.leb_le in H1. apply Z.leb_le in H2.
  unfold str_val_int. cbn [negb andb]. apply Z.eqb_neq in Hm. rewrite Hm. apply Z.eqb_neq in Hm.
  change (0 =? 0) with true. cbv iota. change ((10 <? 2) || (36 <? 10)) with false. cbv iota. change (10 =? 10) with true. cbv iota zeta.
  unfold INT64_MIN, INT64_MAX in *.
  rewrite (put_digits_digs digits_lower false 10 ltac:(lia)) with (k := 68%nat).
  2:{ intros d Hd. assert (G : forallb (fun d => match nth_error digits_lower (Z.to_nat d) with Some c => ceq c (digch false d) | None => false end) [0;1;2;3;4;5;6;7;8;9] = true) by (vm_compute; reflexivity).
      rewrite forallb_forall in G. specialize (G d). destruct (nth_error digits_lower (Z.to_nat d)) as [c|].
      - f_equal. apply ceq_true. apply G. cbn [In]. lia.
      - exfalso. assert (false = true) by (apply G; cbn [In]; lia). discriminate. }
  2: lia.
  2:{ split; [lia|]. apply Z.le_lt_trans with 9223372036854775808; [lia|reflexivity]. }
  assert (Hk : digs 68 false 10 (Z.abs n) = numtext false 10 (Z.abs n)).
  { assert (Hgen : forall k m x, 0 <= x < 10 ^ Z.of_nat k -> (1 <= k)%nat -> (k <= m)%nat -> digs m false 10 x = digs k false 10 x).
    { induction k as [|k IH]; intros m x Hx Hk Hm'; [lia|]. destruct m as [|m]; [lia|]. cbn [digs].
      destruct (Z.ltb_spec x 10) as [Eq|Eq]; [reflexivity|].
      assert (0 <= x / 10 < 10 ^ Z.of_nat k).
      { split; [apply Z.div_pos; lia|]. apply Z.div_lt_upper_bound; [lia|]. rewrite Nat2Z.inj_succ, Z.pow_succ_r in Hx by lia. lia. }
      destruct k as [|k]; [cbn in Hx; lia|]. rewrite (IH m (x / 10)) by lia. reflexivity. }
    unfold numtext. rewrite (Hgen 64%nat 68%nat); [reflexivity| |lia|lia]. split; [lia|]. apply Z.le_lt_trans with 9223372036854775808; [lia|reflexivity]. }
  rewrite Hk. assert (Hlen : (length (numtext false 10 (Z.abs n)) <= 64)%nat).
  { unfold numtext. assert (G : forall k x, (length (digs k false 10 x) <= k)%nat).
    { induction k as [|k IH]; intros x; cbn [digs]; [cbn; lia|]. rewrite app_length. cbn [length]. destruct (x <? 10); [cbn; lia|]. specialize (IH (x / 10)). lia. }
    apply G. }
  rewrite app_nil_r. unfold decimal. destruct (Z.ltb_spec n 0) as [Hn|Hn].
  - rewrite Z.abs_neq in * by lia. cbn [put1]. destruct (68 - length (numtext false 10 (- n)))%nat eqn:Ek; [lia|]. reflexivity.
  - rewrite Z.abs_eq by lia. reflexivity.
Qed.
Lemma assign_ok st x n : put_ok st x n = true -> assign (OVar x) n st = Val tt (put st x n).
Proof.
  intros H. unfold assign, put, put_ok in *. destruct (v_integer (st x)) eqn:E; [reflexivity|]. cbn [orb] in H.
  apply andb_true_iff in H. rewrite !Z.ltb_lt in H. change (- 2 ^ 63) with (-9223372036854775808) in H. change (2 ^ 63) with 9223372036854775808 in H.
  rewrite decimal_ok; [reflexivity| |unfold INT64_MIN; lia]. unfold in_int64, INT64_MIN, INT64_MAX. apply andb_true_iff. rewrite !Z.leb_le. lia.
Qed.
