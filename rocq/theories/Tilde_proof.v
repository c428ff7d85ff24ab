(** Proofs about tilde expansion. *)
From Verif Require Import Base Glob_model Word_model Expand_model Expand_spec Expand_proof Tilde_model Tilde_spec.

(** * Marks in the text *)
Inductive enc : bool -> cstr -> cstr -> Prop :=
| e_nil : enc false [] []
| e_plain b t d c : c <> MAGIC -> enc b t d -> enc b (t ++ [c]) (d ++ [c])
| e_mark b t d c : is_ext c = false -> enc b t d -> enc true (t ++ [c]) (d ++ [MAGIC; c]).
Lemma enc_false b t d : enc b t d -> b = false -> d = t.
Proof. induction 1 as [|b t d c N X IH|b t d c N X IH]; intros B; auto; try discriminate. now rewrite IH. Qed.
Lemma enc_debunk b t d : enc b t d -> forall r, debunk (d ++ r) = t ++ debunk r.
Proof.
  induction 1 as [|b t d c N X IH|b t d c N X IH]; intros r; auto; rewrite <- !app_assoc; rewrite IH; f_equal; cbn [app debunk].
  - unfold ismagic. apply ceq_false in N. now rewrite N.
  - unfold ismagic. rewrite ceq_refl. now rewrite N.
Qed.
Lemma enc_all b t d l : enc b t d -> ~ In MAGIC l -> enc b (t ++ l) (d ++ l).
Proof.
  revert t d. induction l as [|c l IH]; intros t d X N; [now rewrite !app_nil_r|].
  replace (t ++ c :: l) with ((t ++ [c]) ++ l) by now rewrite <- app_assoc. replace (d ++ c :: l) with ((d ++ [c]) ++ l) by now rewrite <- app_assoc.
  apply IH; [|intros K; apply N; now right]. constructor; auto. intros ->. apply N. now left.
Qed.
Lemma quote_magic_none l : ~ In MAGIC l -> quote_magic l = l.
Proof.
  unfold quote_magic. induction l as [|c l IH]; intros N; cbn [flat_map]; auto. destruct (ismagic c) eqn:C.
  - apply ceq_true in C. destruct N. now left.
  - cbn. rewrite IH; auto. intros K. apply N. now right.
Qed.

(** * The name *)
Section Name.
Variable asn : bool.
Lemma name_ok els rest0 : exists name rest, tilde_name (els_code els ++ EOS :: rest0) asn = (name, els_code rest ++ EOS :: rest0) /\
  els = map U name ++ rest /\ Forall (name_char asn) name /\ (forall c r, rest = U c :: r -> ~ name_char asn c).
Proof.
  assert (K : forall l : list el, length l = length l) by auto.
  induction els as [|e els IH].
  - exists [], []. cbn. destruct rest0; cbn; repeat split; auto; discriminate.
  - destruct e as [c|c|l].
    + cbn [els_code flat_map el_code app tilde_name]. fold (els_code els). rewrite ceq_refl. cbn [andb].
      destruct (negb (ceq c "/") && (negb asn || negb (ceq c ":"))) eqn:B.
      * destruct IH as (n & r & T & E & F & R). exists (c :: n), r. rewrite T. cbn [map app]. rewrite E. repeat split; auto. constructor; auto.
        apply andb_prop in B. destruct B as [B1 B2]. split.
        -- intros ->. discriminate.
        -- intros -> ->. discriminate.
      * exists [], (U c :: els). repeat split; auto. intros c' r' [= <- <-] [N1 N2]. apply ceq_false in N1. rewrite N1 in B. cbn in B.
        destruct asn; [|discriminate]. cbn in B. specialize (N2 eq_refl). apply ceq_false in N2. now rewrite N2 in B.
    + exists [], (Q c :: els). cbn. repeat split; auto. discriminate.
    + exists [], (D l :: els). cbn [els_code flat_map el_code app tilde_name]. destruct (flat_map _ l); cbn; repeat split; auto; discriminate.
Qed.
Lemma prefix_fun : forall name els rest name' rest', els = map U name ++ rest -> Forall (name_char asn) name -> (forall c r, rest = U c :: r -> ~ name_char asn c) ->
  is_prefix_of asn els name' rest' -> name' = name /\ rest' = rest.
Proof.
  induction name as [|c name IH]; intros els rest name' rest' E F R (E' & F' & R').
  - destruct name' as [|c' name']; [split; auto; cbn in *; congruence|]. cbn in *. subst rest. inversion F' as [|? ? F1 F2]. destruct (R c' (map U name' ++ rest')); auto.
  - inversion F as [|? ? F1 F2]; subst. destruct name' as [|c' name'].
    + cbn in E'. subst rest'. destruct R' as [R'|(r & [R'|[A R']])]; [discriminate| |]; injection R' as -> R'; destruct F1 as [N1 N2]; [congruence|destruct (N2 A eq_refl)].
    + cbn in E'. injection E' as -> E'. inversion F' as [|? ? F1' F2']; subst. destruct (IH _ rest name' rest' eq_refl F2 R) as [-> ->]; [split; auto|]. auto.
Qed.
Lemma ends_of rest : (forall c r, rest = U c :: r -> ~ name_char asn c) -> name_ends asn rest <-> match rest with [] => True | U _ :: _ => True | _ => False end.
Proof.
  intros R. split.
  - intros [->|(r & [->|[_ ->]])]; auto.
  - intros K. destruct rest as [|[c|c|l] r]; try easy; [now left|]. right. exists r. specialize (R c r eq_refl). unfold name_char in R.
    destruct (ceq c "/") eqn:C; [apply ceq_true in C; subst; now left|]. apply ceq_false in C. right.
    destruct asn; [split; auto|destruct R; split; auto; discriminate]. destruct (ceq c ":") eqn:C'; [apply ceq_true in C'; now subst|]. apply ceq_false in C'. destruct R; split; auto.
Qed.
End Name.

(** * The run *)
Section Sim.
Variable E : Type.
Variable y : sys E.
Variable g : flags.
Hypothesis Hpat : pat g = false.
Hypothesis Htemp : temp g = false.
Hypothesis Htil : dotilde g || asn g = true.
Variable e : E.
Hypothesis Hdir : forall n d, tilde y e n = Some d -> ~ In MAGIC d.
Notation reach := (reach E y).

Record inv (m : st E) (w : cstr) (q ok eq : bool) (t : cstr) : Prop := {
  i_env : env E m = e; i_sp : sp E m = w; i_ty : ty E m = XBASE; i_quote : quote E m = q; i_db : doblank E m = 0%Z;
  i_f : f E m = g; i_outs : outs E m = []; i_eq : saw_eq E m = eq; i_tok : tok1 E m = ok;
  i_brace : fbrace E m = false; i_glob : fglob E m = false; i_enc : enc (fmagic E m) t (dp E m) }.
Definition solid (m : st E) : Prop := word E m = WORD \/ word E m = QUOTE.

Lemma cls c : In c (L "[!-]") -> c <> MAGIC /\ is_ext c = false /\ c <> "="%char /\ c <> ":"%char /\ c <> "~"%char.
Proof. cbn. intros H. repeat destruct H as [<-|H]; try easy; repeat split; try discriminate; auto. Qed.

Lemma put_quoted m w q ok eq t c : inv m w q ok eq t -> exists m', put E y m c true false = Next E m' /\ inv m' w q false eq (t ++ [c]) /\ solid m'.
Proof.
  intros []. unfold put. rewrite i_ty0. cbn [andb]. unfold ismagic.
  destruct (ceq c MAGIC) eqn:C; eexists; (split; [reflexivity|]); (split; [|left; reflexivity]); constructor; cbn; auto.
  - apply ceq_true in C. subst c. econstructor; eauto.
  - apply ceq_false in C. constructor; auto.
Qed.

(** an unquoted character that is not an expanding tilde *)
Lemma put_plain m w ok eq t c : inv m w false ok eq t -> no_wild (glob g) (brace g) (U c) ->
  (ok = true -> c = "~"%char -> maybe_tilde E y (set_til E m eq false true) = None) ->
  exists m' ok' eq', put E y m c false false = Next E m' /\ inv m' w false ok' eq' (t ++ [c]) /\ solid m' /\
    (ok' = true <-> (c = "="%char /\ eq = false) \/ (c = ":"%char /\ asn g = true)) /\ (eq' = true <-> eq = true \/ c = "="%char).
Proof.
  intros [] [W1 W2] T. unfold put. rewrite i_ty0. cbn [f set_til saw_eq tok1 ty fbrace fglob fmagic dp]. rewrite i_f0, Hpat, Htemp, i_eq0, i_tok0, i_brace0, i_glob0. cbn [orb].
  assert (FIN : forall m' ok' eq', inv m' w false ok' eq' t -> c <> MAGIC ->
     exists m'', Next E (set_word E (if ismagic c then set_dp E (set_fdo E m' (fbrace E m') (fglob E m') true) (dp E m' ++ [MAGIC; c]) else set_dp E m' (dp E m' ++ [c])) WORD) = Next E m'' /\ inv m'' w false ok' eq' (t ++ [c]) /\ solid m'').
  { intros m' ok' eq' [] N. unfold ismagic. pose proof N as N'. apply ceq_false in N'. rewrite N'. eexists. split; [reflexivity|]. split; [|left; reflexivity]. constructor; cbn; auto. constructor; auto. }
  assert (FINM : c = MAGIC -> forall m' ok' eq', inv m' w false ok' eq' t ->
     exists m'', Next E (set_word E (if ismagic c then set_dp E (set_fdo E m' (fbrace E m') (fglob E m') true) (dp E m' ++ [MAGIC; c]) else set_dp E m' (dp E m' ++ [c])) WORD) = Next E m'' /\ inv m'' w false ok' eq' (t ++ [c]) /\ solid m'').
  { intros -> m' ok' eq' []. eexists. split; [reflexivity|]. split; [|left; reflexivity]. constructor; cbn; auto. econstructor; eauto. }
  assert (FA : forall m' ok' eq', inv m' w false ok' eq' t ->
     exists m'', Next E (set_word E (if ismagic c then set_dp E (set_fdo E m' (fbrace E m') (fglob E m') true) (dp E m' ++ [MAGIC; c]) else set_dp E m' (dp E m' ++ [c])) WORD) = Next E m'' /\ inv m'' w false ok' eq' (t ++ [c]) /\ solid m'').
  { intros m' ok' eq' I. destruct (ceq c MAGIC) eqn:C; [apply ceq_true in C; apply (FINM C m' ok' eq'); auto|apply ceq_false in C; now apply FIN]. }
  assert (I0 : inv (set_til E m eq false ok) w false false eq t) by (constructor; cbn; auto).
  assert (PL : c <> "="%char -> c <> ":"%char -> (false = true <-> (c = "="%char /\ eq = false) \/ (c = ":"%char /\ asn g = true)) /\ (eq = true <-> eq = true \/ c = "="%char)).
  { intros N1 N2. split; split; try discriminate; intuition. }
  destruct (mem c (L "[!-]")) eqn:MA.
  { apply mem_In in MA. destruct (cls c MA) as (N1 & N2 & N3 & N4 & N5). destruct (glob g) eqn:G.
    - destruct (ceq c "[") eqn:C; [apply ceq_true in C; subst; destruct (W1 eq_refl); cbn; auto|]. cbn [andb]. unfold ismagic. cbn [set_dp set_fdo fbrace fglob fmagic dp]. apply ceq_false in N1. rewrite N1.
      eexists _, false, eq. split; [reflexivity|]. split; [|split; [left; reflexivity|apply PL; auto]].
      constructor; cbn; auto. rewrite <- app_assoc. cbn. econstructor; eauto.
    - destruct (FA _ _ _ I0) as (m'' & P & I & S). exists m'', false, eq. split; [exact P|]. split; [exact I|]. split; [exact S|apply PL; auto]. }
  destruct (mem c (L "*?")) eqn:MB.
  { apply mem_In in MB. destruct (glob g) eqn:G; [destruct (W1 eq_refl); cbn in *; intuition|].
    destruct (FA _ _ _ I0) as (m'' & P & I & S). exists m'', false, eq. split; [exact P|]. split; [exact I|]. split; [exact S|]. apply PL; intros ->; cbn in MB; intuition discriminate. }
  destruct (mem c (L "{,}")) eqn:MC.
  { apply mem_In in MC. replace (brace g && (ceq c "{" || false)) with false.
    2:{ destruct (brace g) eqn:B; auto. specialize (W2 eq_refl). apply ceq_false in W2. now rewrite W2. }
    destruct (FA _ _ _ I0) as (m'' & P & I & S). exists m'', false, eq. split; [exact P|]. split; [exact I|]. split; [exact S|]. apply PL; intros ->; cbn in MC; intuition discriminate. }
  destruct (ceq c "=") eqn:CE.
  { apply ceq_true in CE. subst c. cbn [negb andb]. destruct eq eqn:Q0; cbn [negb].
    - destruct (FA _ _ _ I0) as (m'' & P & I & S). exists m'', false, true. split; [exact P|]. split; [exact I|]. split; [exact S|]. split; split; auto; try discriminate. intros [[_ K]|[K _]]; discriminate.
    - assert (I1 : inv (set_til E m true true false) w false true true t) by (constructor; cbn; auto).
      destruct (FA _ _ _ I1) as (m'' & P & I & S). exists m'', true, true. split; [exact P|]. split; [exact I|]. split; [exact S|]. split; split; auto. }
  apply ceq_false in CE.
  destruct (ceq c ":") eqn:CC.
  { apply ceq_true in CC. subst c. cbn [negb andb]. destruct (asn g) eqn:A; cbn [andb].
    - assert (I1 : inv (set_til E m eq true false) w false true eq t) by (constructor; cbn; auto).
      destruct (FA _ _ _ I1) as (m'' & P & I & S). exists m'', true, eq. split; [exact P|]. split; [exact I|]. split; [exact S|]. split; split; auto. intros [K|K]; [auto|discriminate].
    - destruct (FA _ _ _ I0) as (m'' & P & I & S). exists m'', false, eq. split; [exact P|]. split; [exact I|]. split; [exact S|]. split; split; auto; try discriminate; intros [K|K]; auto; try discriminate; destruct K; discriminate. }
  apply ceq_false in CC.
  destruct (ceq c "~") eqn:CT.
  { apply ceq_true in CT. cbn [tok2]. rewrite Htil, ?i_ty0. cbn [andb]. destruct (FA _ _ _ I0) as (m'' & P & I & S). cbn [set_til fbrace fglob dp] in P. rewrite ?i_brace0, ?i_glob0 in P. destruct ok.
    - rewrite (T eq_refl CT). exists m'', false, eq. split; [exact P|]. split; [exact I|]. split; [exact S|apply PL; auto].
    - exists m'', false, eq. split; [exact P|]. split; [exact I|]. split; [exact S|apply PL; auto]. }
  destruct (FA _ _ _ I0) as (m'' & P & I & S). cbn [set_til fbrace fglob dp] in P. rewrite ?i_brace0, ?i_glob0 in P. exists m'', false, eq. split; [exact P|]. split; [exact I|]. split; [exact S|apply PL; auto].
Qed.

Lemma home_step m rest0 eq t els name rest d : inv m (els_code els ++ EOS :: rest0) false true eq t ->
  is_prefix_of (asn g) els name rest -> tilde y e name = Some d ->
  exists m', put E y m "~" false false = Next E m' /\ inv m' (els_code rest ++ EOS :: rest0) false false eq (t ++ d) /\ (solid m \/ d <> [] -> solid m').
Proof.
  intros [] P TD. unfold put. rewrite i_ty0.
  change (mem "~" (L "[!-]")) with false. change (mem "~" (L "*?")) with false. change (mem "~" (L "{,}")) with false. change (ceq "~" "=") with false. change (ceq "~" ":") with false. rewrite ceq_refl. cbv iota.
  cbn [set_til f ty tok2 saw_eq]. rewrite i_f0, i_ty0, i_eq0, i_tok0, Htil. cbn [andb].
  unfold maybe_tilde. cbn [set_til sp f env]. rewrite i_sp0, i_f0, i_env0.
  destruct (name_ok (asn g) els rest0) as (n & r & T & EL & F & R). rewrite T.
  destruct (prefix_fun (asn g) n els r name rest EL F R P) as [-> ->].
  assert (K : exists k w, els_code r ++ EOS :: rest0 = k :: w /\ ceq k EOS || ceq k CHAR || ceq k CSUBST = true).
  { destruct P as (_ & _ & P). apply (ends_of _ _ R) in P. destruct r as [|[c|c|l] r]; try easy; cbn; eauto. }
  destruct K as (k & w & K1 & K2). rewrite K1, K2, TD. pose proof (Hdir _ _ TD) as N. rewrite (quote_magic_none d N).
  eexists. split; [reflexivity|]. split.
  - rewrite <- K1. destruct d; constructor; cbn; auto; apply enc_all; auto.
  - unfold solid. destruct d; cbn; intuition.
Qed.

Lemma no_home m rest0 eq t els : inv m (els_code els ++ EOS :: rest0) false true eq t ->
  (exists name rest d, is_prefix_of (asn g) els name rest /\ tilde y e name = Some d) \/
  (maybe_tilde E y (set_til E m eq false true) = None /\ forall name rest, is_prefix_of (asn g) els name rest -> tilde y e name = None).
Proof.
  intros []. unfold maybe_tilde. cbn [set_til sp f env]. rewrite i_sp0, i_f0, i_env0.
  destruct (name_ok (asn g) els rest0) as (n & r & T & EL & F & R). rewrite T.
  destruct (tilde y e n) as [d|] eqn:TD.
  - assert (X : {match r with [] => True | U _ :: _ => True | _ => False end} + {~ match r with [] => True | U _ :: _ => True | _ => False end}) by (destruct r as [|[?|?|?] ?]; auto).
    destruct X as [X|X].
    + left. exists n, r, d. split; auto. split; auto. split; auto. now apply ends_of.
    + right. split.
      * destruct r as [|[c|c|l] r]; try (destruct X; exact Logic.I); reflexivity.
      * intros name rest P. destruct (prefix_fun (asn g) n els r name rest EL F R P) as [-> ->]. destruct X. destruct P as (_ & _ & P). now apply (ends_of _ _ R) in P.
  - right. split.
    + destruct (els_code r ++ EOS :: rest0) as [|k w]; auto. now destruct (ceq k EOS || ceq k CHAR || ceq k CSUBST).
    + intros name rest P. destruct (prefix_fun (asn g) n els r name rest EL F R P) as [-> ->]. auto.
Qed.

Lemma step_char m k c w q ok eq t : inv m (k :: c :: w) q ok eq t -> c <> NUL -> k = CHAR \/ k = QCHAR -> q = true \/ k = QCHAR ->
  exists m', step E y m = Next E m' /\ inv m' w q false eq (t ++ [c]) /\ solid m'.
Proof.
  intros I N K Q0. destruct (put_quoted (set_sp E (set_sp E m (c :: w)) w) w q ok eq t c) as (m' & P & I' & S); [destruct I; constructor; cbn; auto|].
  exists m'. split; auto. destruct I. apply ceq_false in N. assert (X : forall m0, char_out E y m0 c true false = put E y m0 c true false) by (intros m0; unfold char_out, is_nul; now rewrite N).
  rewrite <- P, <- X. unfold step. rewrite i_ty0, i_sp0. destruct K as [->| ->].
  - change (ceq CHAR EOS) with false. change (ceq CHAR CHAR) with true. cbv iota. cbn [set_sp quote]. rewrite i_quote0. destruct Q0 as [->|Q0]; [reflexivity|discriminate].
  - change (ceq QCHAR EOS) with false. change (ceq QCHAR CHAR) with false. change (ceq QCHAR QCHAR) with true. reflexivity.
Qed.
Lemma step_plain m c w ok eq t : inv m (CHAR :: c :: w) false ok eq t -> c <> NUL -> step E y m = put E y (set_sp E (set_sp E m (c :: w)) w) c false false.
Proof.
  intros [] N. unfold step. rewrite i_ty0, i_sp0. change (ceq CHAR EOS) with false. change (ceq CHAR CHAR) with true. cbv iota. unfold char_out, is_nul.
  apply ceq_false in N. rewrite N. cbn [set_sp quote doblank f]. rewrite i_quote0, i_db0. change (negb (0 =? 0)%Z) with false. rewrite andb_false_r. reflexivity.
Qed.

Lemma refl_false b : b = false -> b = false.
Proof. auto. Qed.
Lemma step_open m w ok eq t : inv m (OQUOTE :: w) false ok eq t -> exists m1, step E y m = Next E m1 /\ inv m1 w true false eq t /\ solid m1.
Proof.
  intros I. exists (set_quote E (no_tilde E (set_word E (set_sp E m w) (match word E m with QUOTE | WORD => WORD | _ => QUOTE end))) true). split; [|split].
  - destruct I. unfold step. rewrite i_ty0, i_sp0. rewrite (refl_false (ceq OQUOTE EOS) eq_refl). rewrite (refl_false (ceq OQUOTE CHAR) eq_refl). rewrite (refl_false (ceq OQUOTE QCHAR) eq_refl). rewrite ceq_refl. reflexivity.
  - destruct I. constructor; cbn; auto.
  - unfold solid. cbn. destruct (word E m); auto.
Qed.
Lemma step_close m w eq t : inv m (CQUOTE :: w) true false eq t -> solid m -> exists m1, step E y m = Next E m1 /\ inv m1 w false false eq t /\ solid m1.
Proof.
  intros I S. exists (set_quote E (set_sp E m w) false). split; [|split; auto].
  - destruct I. unfold step. rewrite i_ty0, i_sp0. rewrite (refl_false (ceq CQUOTE EOS) eq_refl). rewrite (refl_false (ceq CQUOTE CHAR) eq_refl). rewrite (refl_false (ceq CQUOTE QCHAR) eq_refl). rewrite (refl_false (ceq CQUOTE OQUOTE) eq_refl). rewrite ceq_refl. reflexivity.
  - destruct I. constructor; cbn; auto.
Qed.
Lemma dq_ok l : Forall (fun p => snd p <> NUL) l -> forall m w ok eq t, inv m (flat_map (fun '(b, c) => [if b : bool then QCHAR else CHAR; c]) l ++ w) true ok eq t -> solid m -> ok = false ->
  exists m', reach m m' /\ inv m' w true false eq (t ++ map snd l) /\ solid m'.
Proof.
  induction 1 as [|[b c] l N F IH]; intros m w ok eq t I S O.
  - exists m. subst. rewrite app_nil_r. split; [constructor|]. auto.
  - cbn [flat_map app] in I. destruct (step_char m _ c _ true ok eq t I N) as (m1 & S1 & I1 & K1); [destruct b; auto|auto|].
    destruct (IH m1 w false eq (t ++ [c]) I1 K1 eq_refl) as (m2 & R & I2 & K2). exists m2. split; [econstructor; eauto|]. rewrite <- app_assoc in I2. auto.
Qed.

Lemma sim els : forall m rest0 ok eq t0, inv m (els_code els ++ EOS :: rest0) false ok eq t0 -> Forall el_ok els -> Forall (no_wild (glob g) (brace g)) els ->
  exists t m', tilded (asn g) (tilde y e) ok eq els t /\ reach m m' /\ (exists ok' eq', inv m' (EOS :: rest0) false ok' eq' (t0 ++ t)) /\
    (solid m \/ t <> [] \/ (exists l, In (D l) els) -> solid m').
Proof.
  induction els as [els IH] using (induction_ltof1 _ (@length el)); unfold ltof in IH. intros m rest0 ok eq t0 I O W.
  destruct els as [|[c|c|l] els].
  - exists [], m. split; [constructor|]. split; [constructor|]. split; [exists ok, eq; now rewrite app_nil_r|]. intros [K|[K|(l & [])]]; auto. congruence.
  - inversion O as [|? ? O1 O2]; inversion W as [|? ? W1 W2]; subst. cbn [els_code flat_map el_code app] in I. fold (els_code els) in I.
    pose proof (step_plain _ _ _ _ _ _ I O1) as ST. set (m0 := set_sp E (set_sp E m (c :: els_code els ++ EOS :: rest0)) (els_code els ++ EOS :: rest0)) in *.
    assert (I0 : inv m0 (els_code els ++ EOS :: rest0) false ok eq t0) by (destruct I; constructor; cbn; auto).
    assert (S0 : solid m -> solid m0) by auto.
    assert (PLAIN : (ok = true -> c = "~"%char -> maybe_tilde E y (set_til E m0 eq false true) = None) -> (ok = true -> c = "~"%char -> forall name rest, is_prefix_of (asn g) els name rest -> tilde y e name = None) ->
      exists t m', tilded (asn g) (tilde y e) ok eq (U c :: els) t /\ reach m m' /\ (exists ok' eq', inv m' (EOS :: rest0) false ok' eq' (t0 ++ t)) /\ (solid m \/ t <> [] \/ (exists l, In (D l) (U c :: els)) -> solid m')).
    { intros T T'. destruct (put_plain m0 _ ok eq t0 c I0 W1 T) as (m1 & ok' & eq' & P & I1 & S1 & J1 & J2).
      destruct (IH els ltac:(cbn; lia) m1 rest0 ok' eq' _ I1 O2 W2) as (t & m2 & TT & R & (ok2 & eq2 & I2) & S2).
      exists (c :: t), m2. split; [econstructor; eauto|]. split; [econstructor; [rewrite ST; exact P|exact R]|]. split; [exists ok2, eq2; now rewrite <- app_assoc in I2|]. auto. }
    destruct ok; [destruct (ceq c "~") eqn:C|apply PLAIN; discriminate]; [|apply ceq_false in C; apply PLAIN; congruence].
    apply ceq_true in C. subst c. destruct (no_home _ _ _ _ _ I0) as [(name & rest & d & P & TD)|[A B]]; [|apply PLAIN; auto].
    destruct (home_step _ _ _ _ _ _ _ _ I0 P TD) as (m1 & P1 & I1 & S1).
    assert (EL : els = map U name ++ rest) by apply P.
    destruct (IH rest) with (m := m1) (rest0 := rest0) (ok := false) (eq := eq) (t0 := t0 ++ d) as (t & m2 & TT & R & (ok2 & eq2 & I2) & S2); auto.
    { rewrite EL. cbn. rewrite app_length. lia. }
    { rewrite EL in O2. apply Forall_app in O2. apply O2. }
    { rewrite EL in W2. apply Forall_app in W2. apply W2. }
    exists (d ++ t), m2. split; [econstructor; eauto|]. split; [econstructor; [rewrite ST; exact P1|exact R]|]. split; [exists ok2, eq2; now rewrite <- app_assoc in I2|].
    intros K. apply S2. destruct K as [K|[K|(l & K)]].
    + left. apply S1. auto.
    + destruct d; [right; left; auto|]. left. apply S1. right. discriminate.
    + right. right. exists l. destruct K as [K|K]; [discriminate|]. rewrite EL in K. apply in_app_iff in K. destruct K as [K|K]; auto. apply in_map_iff in K. destruct K as (? & K & _). discriminate.
  - inversion O as [|? ? O1 O2]; inversion W as [|? ? W1 W2]; subst. cbn [els_code flat_map el_code app] in I. fold (els_code els) in I.
    destruct (step_char m QCHAR c _ false ok eq t0 I O1) as (m1 & P & I1 & S1); auto.
    destruct (IH els ltac:(cbn; lia) m1 rest0 false eq _ I1 O2 W2) as (t & m2 & TT & R & (ok2 & eq2 & I2) & S2).
    exists (c :: t), m2. split; [constructor; auto|]. split; [econstructor; eauto|]. split; [exists ok2, eq2; now rewrite <- app_assoc in I2|]. auto.
  - inversion O as [|? ? O1 O2]; inversion W as [|? ? W1 W2]; subst. cbn [els_code flat_map el_code] in I. fold (els_code els) in I. rewrite <- !app_assoc in I. cbn [app] in I.
    set (w1 := flat_map _ l ++ CQUOTE :: els_code els ++ EOS :: rest0) in I.
    assert (exists m1, step E y m = Next E m1 /\ inv m1 w1 true false eq t0 /\ solid m1) as (m1 & P1 & I1 & S1).
    { clear - I. clearbody w1. exact (step_open _ _ _ _ _ I). }
    destruct (dq_ok l O1 m1 (CQUOTE :: els_code els ++ EOS :: rest0) false eq t0 I1 S1 eq_refl) as (m2 & R2 & I2 & S2).
    assert (exists m3, step E y m2 = Next E m3 /\ inv m3 (els_code els ++ EOS :: rest0) false false eq (t0 ++ map snd l) /\ solid m3) as (m3 & P3 & I3 & S3).
    { exact (step_close _ _ _ _ I2 S2). }
    destruct (IH els ltac:(cbn; lia) m3 rest0 false eq _ I3 O2 W2) as (t & m4 & TT & R & (ok2 & eq2 & I4) & S4).
    exists (map snd l ++ t), m4. split; [constructor; auto|]. split.
    { econstructor; [exact P1|]. eapply reach_trans; [exact R2|]. econstructor; [exact P3|exact R]. }
    split; [exists ok2, eq2; now rewrite <- app_assoc in I4|]. auto.
Qed.

Lemma last_step m rest0 ok eq t : inv m (EOS :: rest0) false ok eq t ->
  exists m', step E y m = Done E m' /\ env E m' = e /\ (solid m -> map second (outs E m') = [Some t]) /\ (~ solid m -> word E m = WS -> outs E m' = []).
Proof.
  intros []. unfold step. rewrite i_ty0, i_sp0, ceq_refl. unfold char_out. cbn [is_nul orb]. change (is_nul NUL) with true. cbn [orb]. unfold split_at. change (is_nul NUL) with true. cbn [negb andb].
  eexists. split; [reflexivity|]. cbn [word set_sp]. split; [|split].
  - destruct (word E m); cbn; auto.
  - unfold solid. assert (X : second (Raw false false (fmagic E m) (pat g) (markd g) (dp E m)) = Some t).
    { unfold second. cbn. rewrite Hpat. cbn. destruct (fmagic E m) eqn:M; cbn; f_equal.
      - pose proof (enc_debunk _ _ _ i_enc0 []) as X. now rewrite !app_nil_r in X.
      - apply (enc_false _ _ _ i_enc0 eq_refl). }
    intros [K|K]; rewrite K; cbn; rewrite i_outs0, i_f0, i_brace0, i_glob0; cbn [app map]; now rewrite X.
  - intros _ K. rewrite K. cbn. auto.
Qed.
End Sim.

(** * One result *)
Lemma tilded_fun asn dir ok eq els t : tilded asn dir ok eq els t -> forall t', tilded asn dir ok eq els t' -> t = t'.
Proof.
  assert (PF : forall els n1 r1 n2 r2, is_prefix_of asn els n1 r1 -> is_prefix_of asn els n2 r2 -> n1 = n2 /\ r1 = r2).
  { intros els0 n1 r1 n2 r2 (A1 & A2 & A3) B. destruct (prefix_fun asn n1 els0 r1 n2 r2) as [-> ->]; auto.
    intros c r -> [K1 K2]. destruct A3 as [A3|(r' & [A3|[A A3]])]; try discriminate; injection A3 as -> A3; [now apply K1|now apply K2]. }
  assert (BE : forall a b P, (a = true <-> P) -> (b = true <-> P) -> a = b) by (intros a b P H1 H2; destruct a, b; auto; exfalso; assert (true = true) by auto; intuition discriminate).
  induction 1 as [ok eq|eq els name rest d t P TD T IH|ok eq c els t ok' eq' N O Q0 T IH|ok eq c els t T IH|ok eq l els t T IH]; intros t' T'.
  - inversion T'; auto.
  - inversion T' as [|? ? name' rest' d' t2 P' TD' T2|? ? ? ? ? ? ? N' O' Q' T2| |]; subst.
    + destruct (PF _ _ _ _ _ P P') as [-> ->]. rewrite TD in TD'. injection TD' as ->. f_equal. auto.
    + rewrite (N' eq_refl eq_refl _ _ P) in TD. discriminate.
  - inversion T' as [|? ? name' rest' d' t2 P' TD' T2|? ? ? ? ? ? ? N' O' Q' T2| |]; subst.
    + rewrite (N eq_refl eq_refl _ _ P') in TD'. discriminate.
    + rewrite (BE _ _ _ O' O), (BE _ _ _ Q' Q0) in T2. f_equal. auto.
  - inversion T'; subst. f_equal. auto.
  - inversion T'; subst. f_equal. auto.
Qed.

(** * Looking up *)
Definition user (n : cstr) : Prop := n <> [] /\ n <> L "+" /\ n <> L "-".
Lemma tilde_user d pw n : user n -> tilde_of d pw n = homedir d pw n.
Proof.
  intros (N1 & N2 & N3). destruct n as [|c r]; [congruence|]. cbn [tilde_of].
  destruct (ceq c "+") eqn:C; [apply ceq_true in C; subst; destruct r; [now destruct N2|]|]; cbn [andb].
  - change (ceq "+" "-") with false. reflexivity.
  - destruct (ceq c "-") eqn:C'; [apply ceq_true in C'; subst; destruct r; [now destruct N3|]|]; reflexivity.
Qed.
Lemma first_app n a b : first_known n (a ++ b) = match first_known n a with Some v => Some v | None => first_known n b end.
Proof. induction a as [|[k [v|]] a IH]; cbn; auto. now destruct (str_eqb k n). Qed.
Lemma lookups_ok : forall l d pre, (forall n, user n -> cached (homedirs d) n = first_known n pre) ->
  forall i n pw, nth_error l i = Some (n, pw) -> user n -> nth_error (lookups d l) i = Some (first_known n (pre ++ firstn (S i) l)).
Proof.
  induction l as [|[k pk] l IH]; intros d pre C i n pw H U; [destruct i; discriminate|].
  assert (D : exists r d', tilde_of d pk k = (r, d') /\ (user k -> r = first_known k (pre ++ [(k, pk)])) /\ forall n, user n -> cached (homedirs d') n = first_known n (pre ++ [(k, pk)])).
  { assert (UD : user k \/ ~ user k).
    { unfold user. destruct (list_eq_dec ascii_dec k []), (list_eq_dec ascii_dec k (L "+")), (list_eq_dec ascii_dec k (L "-")); tauto. }
    destruct UD as [UK|UK].
    - rewrite tilde_user by auto. unfold homedir. rewrite (C _ UK). destruct (first_known k pre) as [v|] eqn:F.
      + eexists _, _. split; [reflexivity|]. split; [intros _; now rewrite first_app, F|]. intros n0 U0. rewrite (C _ U0), first_app. destruct (first_known n0 pre) eqn:F0; auto.
        destruct pk; cbn; auto. destruct (str_eqb_spec k n0); auto. subst. congruence.
      + destruct pk as [v|]; eexists _, _; (split; [reflexivity|]); (split; [intros _; rewrite first_app, F; cbn; now rewrite ?str_eqb_refl|]); intros n0 U0; rewrite first_app; cbn.
        * destruct (str_eqb_spec k n0); [subst; now rewrite F|]. rewrite (C _ U0). now destruct (first_known n0 pre).
        * rewrite (C _ U0). now destruct (first_known n0 pre).
    - exists (fst (tilde_of d pk k)), d. split; [|split; [tauto|]].
      + destruct k as [|c r]; [reflexivity|]. cbn [tilde_of]. destruct (ceq c "+" && _) eqn:A; [reflexivity|]. destruct (ceq c "-" && _) eqn:B; [reflexivity|].
        destruct UK. split; [discriminate|]. split; intros X; injection X as -> ->; discriminate.
      + intros n0 U0. rewrite (C _ U0), first_app. destruct (first_known n0 pre); auto. destruct pk; cbn; auto. destruct (str_eqb_spec k n0); auto. now subst. }
  destruct D as (r & d' & T & R & C'). cbn [lookups]. rewrite T. destruct i as [|i].
  - cbn in *. injection H as -> ->. f_equal. auto.
  - cbn [nth_error]. cbn in H. rewrite (IH d' _ C' i n pw H U). f_equal. now rewrite <- app_assoc.
Qed.
