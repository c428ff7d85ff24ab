(** C25: the body of a here document. *)
From Verif Require Import Base Word_model Word_spec Src_model Src_spec Src_proof Src_props Lex_model Lex_sim Lex_spec Lex_props Here_spec.
Local Open Scope nat_scope.

(** * A line in the input *)
Definition tail (e : option cstr) : cstr := match e with Some t => NL :: t | None => [] end.
Definition endc (e : option cstr) : char := match e with Some _ => NL | None => NUL end.
Inductive at_line (g : nat) (e : option cstr) : flat -> cstr -> Prop :=
| al_raw : forall l k, 0 < g -> ~ In NL l -> nuls_out l -> (k = 0 \/ e = None) -> at_line g e (Flat (l ++ tail e) k g) l
| al_join : forall v k l, g = 0 -> ~ In NL l -> nuls_out v -> jskip k v = l ->
    (e <> None -> jskip k (v ++ [NL]) = l ++ [NL] /\ (k = 1 -> v <> [])) -> at_line g e (Flat (v ++ tail e) k g) l.
Definition ended (g : nat) (e : option cstr) (f : flat) : Prop :=
  match e with Some t => f = Flat t 0 g | None => exists k, f = Flat [] k g end.

Lemma al_get_cons : forall g e f c l, at_line g e f (c :: l) -> 
  exists f', fget f = (c, f') /\ at_line g e f' l /\ at_line g e (funget c f') (c :: l) /\ c <> NL /\ c <> NUL /\ length (ftext f') < length (ftext f).
Proof.
  intros g e f c l H. inversion H as [l' k G N Nu K|v k l' G N Nu J X]; subst.
  - exists (Flat (l ++ tail e) k g). 
    assert (A : c <> NL) by (intros ->; apply N; now left). apply nuls_cons in Nu. destruct Nu as [B Nu].
    assert (N' : ~ In NL l) by (intros Y; apply N; now right).
    split; [|split; [|split; [|split; [exact A|split; [exact B|cbn; lia]]]]].
    + unfold fget. cbn [fign ftext fskip app]. destruct (Nat.ltb_spec 0 g); [reflexivity|lia].
    + now constructor.
    + unfold funget. cbn [ftext fskip fign]. rewrite is_nul_no by exact B.
      change (c :: l ++ tail e) with ((c :: l) ++ tail e). constructor; auto.
      * now apply nuls_cons.
      * destruct K as [->|]; auto.
  - assert (A : c <> NL) by (intros ->; apply N; now left). 
    assert (N' : ~ In NL l) by (intros Y; apply N; now right).
    destruct (Nat.eqb_spec k 1) as [->|Nk].
    + destruct v as [|d v]; [discriminate|]. cbn [jskip] in J. injection J as -> J.
      apply nuls_cons in Nu. destruct Nu as [B Nu].
      exists (Flat (v ++ tail e) 2 0). split; [reflexivity|]. split; [|split; [|split; [exact A|split; [exact B|cbn; lia]]]].
      * constructor; auto. intros Y. destruct (X Y) as [X1 X2]. cbn [jskip app] in X1. injection X1 as X1. split; [exact X1|discriminate].
      * unfold funget. cbn [ftext fskip fign pred]. rewrite is_nul_no by exact B.
        change (c :: v ++ tail e) with ((c :: v) ++ tail e). constructor; auto.
        -- now apply nuls_cons.
        -- cbn. now rewrite J.
    + assert (Ek : forall t, jskip k t = join t) by (intros t; destruct k as [|[|k]]; [reflexivity|contradiction|reflexivity]).
      rewrite Ek in J. 
      assert (X' : e <> None -> join (v ++ [NL]) = (c :: l) ++ [NL]) by (intros Y; destruct (X Y) as [X1 _]; now rewrite Ek in X1).
      clear X. unfold fget. cbn [fign fskip ftext]. change (0 <? 0) with false. cbn iota.
      destruct (Nat.eqb_spec k 1) as [E|_]; [contradiction|].
      assert (Q : exists v', unjoin (v ++ tail e) = c :: v' ++ tail e /\ nuls_out (c :: v') /\ length v' < length v /\
          jskip (if ceq c "\" then 1 else 0) v' = l /\ join (c :: v') = c :: l /\
          (e <> None -> jskip (if ceq c "\" then 1 else 0) (v' ++ [NL]) = l ++ [NL] /\ ((if ceq c "\" then 1 else 0) = 1 -> v' <> []) /\ join (c :: v' ++ [NL]) = c :: l ++ [NL])).
      { clear H Ek Nk k. remember (length v) as m eqn:Em. assert (Hm : length v <= m) by lia. clear Em. revert v J Nu X' Hm.
        induction m as [|m IH]; intros v J Nu X' Hm.
        - destruct v; [discriminate|cbn in Hm; lia].
        - destruct v as [|b v]; [discriminate|]. cbn [length] in Hm. cbn [join app] in J, X'.
          destruct (ceq_spec b "\"%char) as [->|Nb].
          + destruct v as [|d v].
            * injection J as <- <-. destruct e as [e|].
              -- exfalso. assert (Y : Some e <> None) by discriminate. specialize (X' Y). cbn in X'. discriminate.
              -- exists []. repeat split; auto; try lia; try (intros Y; contradiction).
            * cbn [app] in X'. destruct (ceq_spec d NL) as [->|Nd].
              -- destruct (IH v J) as [v' V].
                 ++ now rewrite !nuls_cons in Nu.
                 ++ exact X'.
                 ++ cbn in Hm; lia.
                 ++ exists v'. cbn [app unjoin]. change (ceq "\" "\" && ceq NL NL) with true. cbn iota.
                    destruct V as [V1 [V2 [V3 V4]]]. split; [exact V1|]. split; [exact V2|]. split; [lia|exact V4].
              -- injection J as <- J. exists (d :: v). cbn [app unjoin]. apply ceq_false in Nd. rewrite Nd. 
                 change (ceq "\" "\") with true. cbn [andb]. cbn iota. split; [reflexivity|]. split; [exact Nu|]. split; [lia|].
                 split; [exact J|]. split; [cbn [join]; rewrite Nd; change (ceq "\" "\") with true; cbn iota; now rewrite J|]. intros Y. specialize (X' Y). cbn [app] in X'. injection X' as X'.
                 split; [exact X'|]. split; [discriminate|]. cbn [join]. rewrite Nd. change (ceq "\" "\") with true. cbn iota. now rewrite X'.
          + injection J as <- J. exists v. apply ceq_false in Nb.
            assert (U : unjoin ((b :: v) ++ tail e) = (b :: v) ++ tail e).
            { cbn [app unjoin]. rewrite Nb. cbn [andb]. now destruct (v ++ tail e). }
            rewrite U, Nb. cbn [join]. rewrite Nb, J. split; [reflexivity|]. split; [exact Nu|]. split; [lia|]. split; [exact J|]. split; [reflexivity|].
            intros Y. specialize (X' Y). cbn [app] in X'. injection X' as X'. rewrite X'. split; [exact X'|]. split; [discriminate|reflexivity]. }
      destruct Q as [v' [Q1 [Q2 [Q3 [Q4 [Q5 Q6]]]]]]. rewrite Q1. eexists. split; [reflexivity|].
      pose proof Q2 as Q2'. apply nuls_cons in Q2. destruct Q2 as [B Q2].
      split; [|split; [|split; [exact A|split; [exact B|cbn [ftext]; rewrite !app_length; lia]]]].
      * constructor; auto. intros Y. destruct (Q6 Y) as [Y1 [Y2 Y3]]. auto.
      * unfold funget. cbn [ftext fskip fign]. rewrite is_nul_no by exact B.
        assert (Z : pred (if ceq c "\" then 1 else 0) = 0) by (destruct (ceq c "\"); reflexivity). rewrite Z.
        change (c :: v' ++ tail e) with ((c :: v') ++ tail e). constructor; auto.
        intros Y. destruct (Q6 Y) as [Y1 [Y2 Y3]]. split; [exact Y3|discriminate].
Qed.
Lemma al_get_nil : forall g e f, at_line g e f [] ->
  exists f', fget f = (endc e, f') /\ ended g e f' /\ at_line g e (funget (endc e) f') [].
Proof.
  intros g e f H. inversion H as [l' k G N Nu K|v k l' G N Nu J X]; subst.
  - cbn [app]. destruct e as [t|]; cbn [tail endc ended].
    + destruct K as [->|]; [|discriminate]. exists (Flat t 0 g). unfold fget. cbn [fign ftext fskip].
      destruct (Nat.ltb_spec 0 g); [|lia]. split; [reflexivity|]. split; [reflexivity|].
      unfold funget. cbn [ftext fskip fign pred]. change (is_nul NL) with false.
      apply (al_raw g (Some t) [] 0); auto.
    + exists (Flat [] k g). unfold fget. cbn [fign ftext fskip].
      destruct (Nat.ltb_spec 0 g); [|lia]. split; [reflexivity|]. split.
      * now exists k.
      * unfold funget. cbn [ftext fskip fign is_nul]. apply (al_raw g None []); auto.
  - destruct e as [t|]; cbn [tail endc ended].
    + destruct (X ltac:(discriminate)) as [X1 X2]. clear X.
      assert (Nk : k <> 1).
      { intros ->. specialize (X2 eq_refl). destruct v; [contradiction|discriminate]. }
      assert (Ek : forall t, jskip k t = join t) by (intros t0; destruct k as [|[|k]]; [reflexivity|contradiction|reflexivity]).
      rewrite Ek in J, X1. 
      assert (U : unjoin (v ++ NL :: t) = NL :: t).
      { clear H Ek Nk X2 k. remember (length v) as m eqn:Em. assert (Hm : length v <= m) by lia. clear Em. revert v J Nu X1 Hm.
        induction m as [|m IH]; intros v J Nu X1 Hm.
        - destruct v; [|cbn in Hm; lia]. cbn [app unjoin]. now destruct t.
        - destruct v as [|b v]; [cbn [app unjoin]; now destruct t|]. cbn [join] in J. destruct (ceq_spec b "\"%char) as [->|]; [|discriminate].
          destruct v as [|d v]; [discriminate|]. destruct (ceq_spec d NL) as [->|]; [|discriminate]. cbn [app unjoin].
          change (ceq "\" "\" && ceq NL NL) with true. cbn iota. apply IH; auto; [now rewrite !nuls_cons in Nu|cbn in Hm; lia]. }
      exists (Flat t 0 0). unfold fget. cbn [fign ftext fskip]. change (0 <? 0) with false. cbn iota.
      destruct (Nat.eqb_spec k 1) as [E|_]; [contradiction|]. rewrite U. split; [reflexivity|]. split; [reflexivity|].
      unfold funget. cbn [ftext fskip fign pred]. change (is_nul NL) with false. 
      apply (al_join 0 (Some t) [] 0); auto. intros _. split; [reflexivity|discriminate].
    + rewrite app_nil_r in *. destruct (Nat.eqb_spec k 1) as [->|Nk].
      * destruct v as [|d v]; [|discriminate]. exists (Flat [] 2 0). split; [reflexivity|]. split; [now exists 2|].
        apply (al_join 0 None [] 1); auto; try (intros Y; contradiction).
      * assert (Ek : forall t, jskip k t = join t) by (intros t; destruct k as [|[|k]]; [reflexivity|contradiction|reflexivity]).
        rewrite Ek in J. 
        assert (U : unjoin v = []).
        { clear H Ek X. remember (length v) as m eqn:Em. assert (Hm : length v <= m) by lia. clear Em. revert v J Nu Hm.
          induction m as [|m IH]; intros v J Nu Hm.
          - destruct v; [reflexivity|cbn in Hm; lia].
          - destruct v as [|b v]; [reflexivity|]. cbn [join] in J. destruct (ceq_spec b "\"%char) as [->|]; [|discriminate].
            destruct v as [|d v]; [discriminate|]. destruct (ceq_spec d NL) as [->|]; [|discriminate]. cbn [unjoin].
            change (ceq "\" "\" && ceq NL NL) with true. cbn iota. apply IH; auto; [now rewrite !nuls_cons in Nu|cbn in Hm; lia]. }
        exists (Flat [] 0 0). unfold fget. cbn [fign ftext fskip]. change (0 <? 0) with false. cbn iota.
        destruct (Nat.eqb_spec k 1) as [E|_]; [contradiction|]. rewrite U. split; [reflexivity|]. split; [now exists 0|].
        apply (al_join 0 None [] 0); auto; try (intros Y; contradiction).
Qed.

Lemma no_tabs_fix : forall l, match l with c :: _ => c <> TAB | [] => True end -> no_tabs l = l.
Proof. intros [|c l] H; [reflexivity|]. cbn. now rewrite ceq_no. Qed.

(** * The beginning of a line *)
Lemma here_match_tabs : forall l g e f n eofp acc la, at_line g e f l -> length (ftext f) < n ->
  exists f' l' n' la', at_line g e f' l' /\ l' = no_tabs l /\ length (ftext f') < n' /\ length (ftext f') <= length (ftext f) /\
    frun (here_match n true eofp acc) f la = frun (here_match n' true eofp acc) f' la'.
Proof.
  induction l as [|c l IH]; intros g e f n eofp acc la H Hn.
  - exists f, [], n, la. auto.
  - destruct (ceq_spec c TAB) as [->|Nt].
    + destruct n as [|n]; [lia|]. destruct (al_get_cons _ _ _ _ _ H) as [f' [G1 [G2 [G3 [G4 [G5 G6]]]]]].
      destruct (IH g e f' n eofp acc (Some TAB) G2 ltac:(lia)) as [f2 [l2 [n2 [la2 [A [B [C [D E]]]]]]]].
      exists f2, l2, n2, la2. split; [exact A|]. split; [exact B|]. split; [exact C|]. split; [lia|].
      rewrite <- E. cbn [here_match]. unfold get. cbn [bind frun]. rewrite G1. change (is_nul TAB) with false. change (ceq TAB TAB) with true. reflexivity.
    + exists f, (c :: l), n, la. repeat split; auto. symmetry. now apply no_tabs_fix.
Qed.
Lemma here_match_line : forall l g e f n skip eofp acc la, at_line g e f l -> length (ftext f) < n -> ~ In NL eofp ->
  (skip = true -> match l with c :: _ => c <> TAB | [] => True end) ->
  exists m s c f' eofp',
    frun (here_match n skip eofp acc) f la = Some (inl (eofp', c, acc ++ m), f', Some c) /\
    l = m ++ s /\ eofp = m ++ eofp' /\ length (ftext (funget c f')) <= length (ftext f) /\
    match s with
    | [] => c = endc e /\ ended g e f' /\ at_line g e (funget c f') []
    | d :: s' => c = d /\ c <> NL /\ c <> NUL /\ hd_error eofp' <> Some c /\ at_line g e (funget c f') s
    end.
Proof.
  induction l as [|x l IH]; intros g e f n skip eofp acc la H Hn N Sk; (destruct n as [|n]; [lia|]).
  - destruct (al_get_nil _ _ _ H) as [f' [G1 [G2 G3]]]. exists [], [], (endc e), f', eofp. rewrite app_nil_r.
    assert (LE : length (ftext (funget (endc e) f')) <= length (ftext f)).
    { destruct e as [t|]; cbn [ended] in G2.
      - subst f'. cbn. inversion H; subst; cbn [ftext tail]; rewrite ?app_length; cbn [length]; lia.
      - destruct G2 as [k ->]. cbn. lia. }
    split; [|split; [reflexivity|split; [reflexivity|split; [exact LE|split; [reflexivity|split; assumption]]]]].
    cbn [here_match]. unfold get. cbn [bind frun]. rewrite G1. destruct e as [t|]; cbn [endc]; [|reflexivity].
    change (is_nul NL) with false. change (ceq NL TAB) with false. rewrite andb_false_r.
    destruct eofp as [|y eofp]; [reflexivity|].
    rewrite ceq_no by (intros <-; apply N; now left). reflexivity.
  - destruct (al_get_cons _ _ _ _ _ H) as [f' [G1 [G2 [G3 [G4 [G5 G6]]]]]].
    cbn [here_match]. unfold get. cbn [bind frun]. rewrite G1. rewrite is_nul_no by assumption.
    assert (LE : length (ftext (funget x f')) <= length (ftext f)).
    { unfold funget. cbn [ftext]. rewrite is_nul_no by assumption. cbn [length]. lia. }
    assert (X : skip && ceq x TAB = false).
    { destruct skip; [|reflexivity]. cbn. apply ceq_no. apply Sk. reflexivity. }
    rewrite X. destruct eofp as [|y eofp].
    + exists [], (x :: l), x, f', []. rewrite app_nil_r. repeat split; auto; discriminate.
    + destruct (ceq_spec x y) as [->|Nxy].
      * destruct (IH g e f' n false eofp (acc ++ [y]) (Some y) G2 ltac:(lia)) as [m [s [c [f2 [eofp' [A [B [C [D E]]]]]]]]].
        -- intros Y. apply N. now right.
        -- discriminate.
        -- exists (y :: m), s, c, f2, eofp'. rewrite <- app_assoc in A. cbn [app] in A |- *. rewrite <- B, <- C.
           repeat split; auto. lia.
      * exists [], (x :: l), x, f', (y :: eofp). rewrite app_nil_r. repeat split; auto. cbn. congruence.
Qed.
Lemma here_line_ok : forall s g t f n eof acc la, at_line g (Some t) f s -> length (ftext f) < n ->
  exists la', frun (here_line n eof acc) f la = Some (inl (acc ++ s ++ [NL]), Flat t 0 g, la').
Proof.
  induction s as [|x s IH]; intros g t f n eof acc la H Hn; (destruct n as [|n]; [lia|]).
  - destruct (al_get_nil _ _ _ H) as [f' [G1 [G2 G3]]]. cbn [ended endc] in *. subst f'.
    cbn [here_line]. unfold get. cbn [bind frun]. rewrite G1. change (ceq NL NL) with true. cbn. eexists. reflexivity.
  - destruct (al_get_cons _ _ _ _ _ H) as [f' [G1 [G2 [G3 [G4 [G5 G6]]]]]].
    cbn [here_line]. unfold get. cbn [bind frun]. rewrite G1, ceq_no, is_nul_no by assumption.
    destruct (IH g t f' n eof (acc ++ [x]) (Some x) G2 ltac:(lia)) as [la' E]. exists la'. rewrite E. now rewrite <- app_assoc.
Qed.
Lemma here_line_eof : forall s g f n eof acc la, at_line g None f s -> length (ftext f) < n ->
  exists f' la', frun (here_line n eof acc) f la = Some (inr (HereUnclosed eof), f', la').
Proof.
  induction s as [|x s IH]; intros g f n eof acc la H Hn; (destruct n as [|n]; [lia|]).
  - destruct (al_get_nil _ _ _ H) as [f' [G1 [G2 G3]]]. cbn [endc] in *.
    cbn [here_line]. unfold get. cbn [bind frun]. rewrite G1. cbn. eexists _, _. reflexivity.
  - destruct (al_get_cons _ _ _ _ _ H) as [f' [G1 [G2 [G3 [G4 [G5 G6]]]]]].
    cbn [here_line]. unfold get. cbn [bind frun]. rewrite G1, ceq_no, is_nul_no by assumption.
    apply (IH g f' n eof (acc ++ [x]) (Some x) G2). lia.
Qed.

(** * The loop *)
Lemma here_iter : forall l g e f n h acc la, at_line g e f l -> length (ftext f) < S n -> ~ In NL (h_eof h) ->
  let s := strip (h_skip h) l in
  (s = h_eof h -> exists f' la', frun (here_loop (S n) h acc) f la = Some (inl acc, f', la') /\ ended g e f') /\
  (s <> h_eof h -> forall t, e = Some t -> exists la', 
     frun (here_loop (S n) h acc) f la = frun (here_loop n h (acc ++ s ++ [NL])) (Flat t 0 g) la') /\
  (s <> h_eof h -> e = None -> exists f' la', frun (here_loop (S n) h acc) f la = Some (inr (HereUnclosed (h_eof h)), f', la')).
Proof.
  intros l g e f n h acc la H Hn N s. cbn [here_loop]. rewrite frun_bind.
  assert (M : exists m s1 c f' eofp', 
    frun (here_match (S n) (h_skip h) (h_eof h) acc) f la = Some (inl (eofp', c, acc ++ m), f', Some c) /\
    s = m ++ s1 /\ h_eof h = m ++ eofp' /\ length (ftext (funget c f')) <= length (ftext f) /\
    match s1 with
    | [] => c = endc e /\ ended g e f' /\ at_line g e (funget c f') []
    | d :: s' => c = d /\ c <> NL /\ c <> NUL /\ hd_error eofp' <> Some c /\ at_line g e (funget c f') s1
    end).
  { unfold s, strip. destruct (h_skip h) eqn:Sk.
    - destruct (here_match_tabs l g e f (S n) (h_eof h) acc la H Hn) as [f1 [l1 [n1 [la1 [A [-> [C [D E]]]]]]]]. rewrite E.
      destruct (here_match_line (no_tabs l) g e f1 n1 true (h_eof h) acc la1 A C N) as [m [s1 [c [f' [eofp' [P1 [P2 [P3 [P4 P5]]]]]]]]].
      + intros _. clear. induction l as [|c l IH]; [exact I|]. cbn. destruct (ceq_spec c TAB); assumption.
      + exists m, s1, c, f', eofp'. repeat split; auto. lia.
    - apply here_match_line; auto. discriminate. }
  destruct M as [m [s1 [c [f' [eofp' [P1 [P2 [P3 [P4 P5]]]]]]]]]. rewrite P1.
  assert (AL : at_line g e (funget c f') s1) by (destruct s1; apply P5).
  assert (NE : s <> h_eof h -> forall (k : prog cstr) , 
     match eofp' with [] => if is_nul c || ceq c NL then Ret acc else Unget c k | _ => Unget c k end = Unget c k).
  { intros Y k. destruct eofp' as [|y z]; [|reflexivity]. destruct s1 as [|d s'].
    - exfalso. apply Y. now rewrite P2, P3.
    - destruct P5 as [_ [A [B _]]]. rewrite is_nul_no, ceq_no by assumption. reflexivity. }
  assert (Cs : s = h_eof h <-> s1 = [] /\ eofp' = []).
  { split.
    - intros Y. rewrite P2, P3 in Y. apply app_inv_head in Y. subst eofp'. destruct s1 as [|d s']; [auto|]. destruct P5 as [-> [_ [_ [P5 _]]]]. now contradiction P5.
    - intros [-> ->]. now rewrite P2, P3. }
  split; [|split].
  - intros Y. apply Cs in Y. destruct Y as [-> ->]. destruct P5 as [-> [P5 P6]].
    exists f', (Some (endc e)). split; [|exact P5]. destruct e; reflexivity.
  - intros Y t ->. rewrite (NE Y). cbn [frun]. rewrite ceq_refl, frun_bind.
    destruct (here_line_ok s1 g t (funget c f') (S n) (h_eof h) (acc ++ m) None AL ltac:(lia)) as [la' ->].
    exists la'. rewrite P2. now rewrite <- !app_assoc.
  - intros Y ->. rewrite (NE Y). cbn [frun]. rewrite ceq_refl, frun_bind.
    destruct (here_line_eof s1 g (funget c f') (S n) (h_eof h) (acc ++ m) None AL ltac:(lia)) as [f2 [la' ->]].
    now exists f2, la'.
Qed.

Definition fresh_at (f : flat) : Prop := fskip f = 0 \/ ftext f = [].
Definition gof (h : here) : nat := if h_eval h then 0 else 1.
Lemma first_at : forall h t k l rest, first_line (h_eval h) t l rest -> nuls_out t -> fresh_at (Flat t k (gof h)) ->
  at_line (gof h) (Some rest) (Flat t k (gof h)) l.
Proof.
  intros h t k l rest [v [-> [A [B C]]]] N F.
  assert (K : k = 0). { destruct F as [F|F]; [exact F|]. cbn in F. now destruct v. }
  subst k. apply nuls_app in N. destruct N as [N _]. unfold gof, seen in *. destruct (h_eval h).
  - change (NL :: rest) with (tail (Some rest)). apply al_join; auto. intros _. split; [exact B|discriminate].
  - subst v. change (NL :: rest) with (tail (Some rest)). apply al_raw; auto.
Qed.
Lemma only_at : forall h t k l, only_line (h_eval h) t l -> nuls_out t -> fresh_at (Flat t k (gof h)) ->
  at_line (gof h) None (Flat t k (gof h)) l.
Proof.
  intros h t k l [A C] N F. rewrite <- (app_nil_r t). change [] with (tail None). unfold gof, seen in *. destruct (h_eval h).
  - apply al_join; auto.
    + destruct F as [F|F]; cbn in F; subst; [reflexivity|]. destruct k as [|[|k]]; reflexivity.
    + intros X. contradiction.
  - subst t. apply al_raw; auto.
Qed.
Lemma ended_fresh : forall g t f, ended g (Some t) f -> f = Flat t 0 g.
Proof. intros g t f H. exact H. Qed.
Lemma rest_nuls : forall ev t l rest, first_line ev t l rest -> nuls_out t -> nuls_out rest /\ length rest < length t.
Proof.
  intros ev t l rest [v [-> _]] N. apply nuls_app in N. destruct N as [_ N]. apply nuls_cons in N. split; [apply N|].
  rewrite app_length. cbn. lia.
Qed.
Lemma here_loop_ok : forall h t body rest, here_doc h t body rest -> ~ In NL (h_eof h) -> nuls_out t ->
  forall n k acc la, length t < n -> fresh_at (Flat t k (gof h)) ->
  exists k' la', frun (here_loop n h acc) (Flat t k (gof h)) la = Some (inl (acc ++ body), Flat rest k' (gof h), la') /\
    (k' = 0 \/ rest = []) /\ nuls_out rest.
Proof.
  intros h t body rest D N. induction D as [t l rest F S|t l F S|t l t' body rest F S D IH]; intros Nu n k acc la Hn Fr.
  - destruct n as [|n]; [lia|]. pose proof (first_at h t k l rest F Nu Fr) as AL.
    destruct (here_iter l _ _ _ n h acc la AL Hn N) as [I1 _]. destruct (I1 S) as [f' [la' [A B]]]. cbn [ended] in B. subst f'.
    exists 0, la'. rewrite app_nil_r. split; [exact A|]. split; [now left|]. now apply (rest_nuls _ _ _ _ F).
  - destruct n as [|n]; [lia|]. pose proof (only_at h t k l F Nu Fr) as AL.
    destruct (here_iter l _ _ _ n h acc la AL Hn N) as [I1 _]. destruct (I1 S) as [f' [la' [A B]]]. destruct B as [k' ->].
    exists k', la'. rewrite app_nil_r. split; [exact A|]. split; [now right|intros []].
  - destruct n as [|n]; [lia|]. pose proof (first_at h t k l t' F Nu Fr) as AL.
    destruct (here_iter l _ _ _ n h acc la AL Hn N) as [_ [I2 _]]. destruct (I2 S t' eq_refl) as [la' A]. rewrite A.
    destruct (rest_nuls _ _ _ _ F Nu) as [Nu' L].
    destruct (IH Nu' n 0 (acc ++ strip (h_skip h) l ++ [NL]) la') as [k2 [la2 [B C]]]; [lia|now left|].
    exists k2, la2. split; [|exact C]. rewrite B. rewrite <- !app_assoc. reflexivity.
Qed.
Lemma here_loop_open : forall h t, here_open h t -> ~ In NL (h_eof h) -> nuls_out t ->
  forall n k acc la, length t < n -> fresh_at (Flat t k (gof h)) ->
  exists f' la', frun (here_loop n h acc) (Flat t k (gof h)) la = Some (inr (HereUnclosed (h_eof h)), f', la').
Proof.
  intros h t D N. induction D as [t l F S|t l t' F S D IH]; intros Nu n k acc la Hn Fr; (destruct n as [|n]; [lia|]).
  - pose proof (only_at h t k l F Nu Fr) as AL.
    destruct (here_iter l _ _ _ n h acc la AL Hn N) as [_ [_ I3]]. now apply I3.
  - pose proof (first_at h t k l t' F Nu Fr) as AL.
    destruct (here_iter l _ _ _ n h acc la AL Hn N) as [_ [I2 _]]. destruct (I2 S t' eq_refl) as [la' A]. rewrite A.
    destruct (rest_nuls _ _ _ _ F Nu) as [Nu' L]. apply IH; [exact Nu'|lia|now left].
Qed.


Lemma readhere_ok : forall h t body rest n k la, here_doc h t body rest -> ~ In NL (h_eof h) -> nuls_out t ->
  length t < n -> fresh_at (Flat t k 0) ->
  exists k' la', frun (readhere n h) (Flat t k 0) la = Some (inl body, Flat rest k' 0, la') /\ fresh_at (Flat rest k' 0) /\ nuls_out rest.
Proof.
  intros h t body rest n k la D N Nu Hn F. unfold readhere.
  destruct (here_loop_ok h t body rest D N Nu n k [] la Hn F) as [k' [la' [A [B C]]]]. exists k', la'. unfold gof in A.
  split; [|split; [exact B|exact C]]. destruct (h_eval h); [exact A|]. cbn [frun ftext fskip fign]. rewrite frun_bind, A. reflexivity.
Qed.
Lemma readhere_open : forall h t n k la, here_open h t -> ~ In NL (h_eof h) -> nuls_out t ->
  length t < n -> fresh_at (Flat t k 0) ->
  exists f' la', frun (readhere n h) (Flat t k 0) la = Some (inr (HereUnclosed (h_eof h)), f', la').
Proof.
  intros h t n k la D N Nu Hn F. unfold readhere.
  destruct (here_loop_open h t D N Nu n k [] la Hn F) as [f' [la' A]]. exists f', la'. unfold gof in A.
  destruct (h_eval h); [exact A|]. cbn [frun ftext fskip fign]. rewrite frun_bind, A. reflexivity.
Qed.
Lemma doc_shorter : forall h t body rest, here_doc h t body rest -> length rest <= length t.
Proof.
  intros h t body rest D. induction D as [t l rest F S|t l F S|t l t' body rest F S D IH]; [destruct F as [v [-> _]]|cbn; lia|destruct F as [v [-> _]]];
    rewrite app_length; cbn; lia.
Qed.
Lemma gethere_ok : forall hs t bodies rest, here_docs hs t bodies rest -> (forall h, In h hs -> ~ In NL (h_eof h)) -> 
  forall n k la, nuls_out t -> length t < n -> fresh_at (Flat t k 0) ->
  exists k' la', frun (gethere n hs) (Flat t k 0) la = Some (inl bodies, Flat rest k' 0, la') /\ fresh_at (Flat rest k' 0) /\ nuls_out rest.
Proof.
  intros hs t bodies rest D. induction D as [t|h hs t b bs t' rest D Ds IH]; intros N n k la Nu Hn F.
  - exists k, la. auto.
  - cbn [gethere]. rewrite frun_bind. destruct (readhere_ok h t b t' n k la D (N h (or_introl eq_refl)) Nu Hn F) as [k1 [la1 [A [B C]]]].
    rewrite A, frun_bind. pose proof (doc_shorter h t b t' D).
    destruct (IH (fun h I => N h (or_intror I)) n k1 la1 C ltac:(lia) B) as [k2 [la2 [A2 [B2 C2]]]]. rewrite A2.
    exists k2, la2. auto.
Qed.
Lemma gethere_open : forall hs t bodies t' h hs', here_docs hs t bodies t' -> here_open h t' -> 
  (forall x, In x (hs ++ [h]) -> ~ In NL (h_eof x)) -> 
  forall n k la, nuls_out t -> length t < n -> fresh_at (Flat t k 0) ->
  exists f' la', frun (gethere n (hs ++ h :: hs')) (Flat t k 0) la = Some (inr (HereUnclosed (h_eof h)), f', la').
Proof.
  intros hs t bodies t' h hs' D O. induction D as [t|h0 hs t b bs t' rest D Ds IH]; intros N n k la Nu Hn F.
  - cbn [app gethere]. rewrite frun_bind. destruct (readhere_open h t n k la O (N h (or_introl eq_refl)) Nu Hn F) as [f' [la' ->]]. now exists f', la'.
  - cbn [app gethere]. rewrite frun_bind. destruct (readhere_ok h0 t b t' n k la D (N h0 (or_introl eq_refl)) Nu Hn F) as [k1 [la1 [A [B C]]]].
    rewrite A, frun_bind. pose proof (doc_shorter h0 t b t' D).
    destruct (IH O (fun x I => N x (or_intror I)) n k1 la1 C ltac:(lia) B) as [f2 [la2 A2]]. rewrite A2.
    exists f2, la2. reflexivity.
Qed.

(** * The newline token *)
Lemma lex_newline : forall blanks t n cf, Forall (fun c => c = SP \/ c = TAB) blanks -> 
  oneword cf = false -> letexpr cf = false -> length (blanks ++ NL :: t) < n ->
  (forall la, frun (lex_start n cf) (Flat (blanks ++ NL :: t) 0 0) la = Some (inl tt, Flat (NL :: t) 0 0, None)) /\
  (forall sh, frun (lex_word n sh cf) (Flat (NL :: t) 0 0) None = Some (inl None, Flat t 0 0, Some NL)) /\
  (forall sh, frun (lex_word n sh (with_alias cf)) (Flat (NL :: t) 0 0) None = Some (inl None, Flat t 0 0, Some NL)).
Proof.
  intros blanks t n cf Fb O1 O2 H.
  assert (Q : forall sh cf0, oneword cf0 = false -> letexpr cf0 = false -> frun (lex_word n sh cf0) (Flat (NL :: t) 0 0) None = Some (inl None, Flat t 0 0, Some NL)).
  { intros sh cf0 P1 P2. unfold lex_word. rewrite P1, P2. cbn [negb andb]. rewrite frun_bind.
    destruct n as [|n]; [lia|]. rewrite loop_S, fget_plain by discriminate.
    change (is_nul NL) with false. change (lex1 NL) with true. destruct (heredelim cf0); reflexivity. }
  split; [|split; intros sh; apply Q; assumption].
  intros la. unfold lex_start. rewrite O1, O2. cbn [orb]. unfold start_word. rewrite frun_bind.
  rewrite app_length in H. cbn [length] in H.
  destruct (skip_blanks_ok blanks n (NL :: t) 0 la Fb) as [l1 [E1 E2]]; try discriminate; [lia|split; [discriminate|intros X; discriminate]|split; discriminate|].
  rewrite E1. subst l1. reflexivity.
Qed.

(** At the newline after a command with here documents, their bodies are exactly the lines before
    the first line that equals the delimiter, and reading goes on after that line.  Delimiters
    contain no newline; see below. *)
Theorem c25_bodies_partial : forall e cf hs st blanks t bodies rest n rounds k g,
  fresh st -> text_of st = blanks ++ NL :: t -> Forall (fun c => c = SP \/ c = TAB) blanks ->
  here_docs hs t bodies rest -> (forall h, In h hs -> ~ In NL (h_eof h)) ->
  oneword cf = false -> letexpr cf = false -> contin cf = false ->
  length (text_of st) < n -> 0 < rounds ->
  exists i, yylex rounds n e cf hs (Input st k g) = LTok (CTok NL) bodies i /\ text_of (srcs i) = rest.
Proof.
  intros e cf hs st blanks t bodies rest n rounds k g F T Fb D N O1 O2 O3 H R.
  destruct rounds as [|rounds]; [lia|]. cbn [yylex].
  pose proof (fresh_related st k g F) as R0. rewrite T in R0, H.
  destruct (lex_newline blanks t n cf Fb O1 O2 H) as [L1 [L2 L3]].
  destruct (sim _ _ _ _ _ _ _ R0 (L1 None)) as [i1 [S1 R1]]. cbn [srcs] in S1 |- *. rewrite S1.
  apply related_clear in R1.
  set (b := top_flag i1 && (negb (posix e) || cmdword cf)).
  assert (L4 : frun (lex_word n (fsh e) (if b then with_alias cf else cf)) (Flat (NL :: t) 0 0) None = Some (inl None, Flat t 0 0, Some NL)) by (destruct b; auto).
  destruct (sim _ _ _ _ _ _ _ R1 L4) as [i2 [S2 R2]]. rewrite S2.
  assert (Nu : nuls_out t).
  { pose proof (text_nuls st (fresh_wf st F)) as Nu. rewrite T in Nu. apply nuls_app in Nu. destruct Nu as [_ Nu]. now apply nuls_cons in Nu. }
  destruct (gethere_ok hs t bodies rest D N n 0 (Some NL) Nu) as [k' [la' [A _]]]; [rewrite app_length in H; cbn in H; lia|now left|].
  destruct (sim _ _ _ _ _ _ _ R2 A) as [i3 [S3 R3]]. rewrite S3.
  assert (C : contin (if b then with_alias cf else cf) = false) by (destruct b; exact O3). rewrite C.
  exists i3. split; [reflexivity|]. destruct R3 as [[R3 _] _]. exact R3.
Qed.
Print Assumptions c25_bodies_partial.
(** If the input ends before the line that ends one of them, that is an error naming it. *)
Theorem c25_unclosed_partial : forall e cf hs h hs' st blanks t bodies t' n rounds k g,
  fresh st -> text_of st = blanks ++ NL :: t -> Forall (fun c => c = SP \/ c = TAB) blanks ->
  here_docs hs t bodies t' -> here_open h t' -> (forall x, In x (hs ++ [h]) -> ~ In NL (h_eof x)) ->
  oneword cf = false -> letexpr cf = false ->
  length (text_of st) < n -> 0 < rounds ->
  yylex rounds n e cf (hs ++ h :: hs') (Input st k g) = LErr (HereUnclosed (h_eof h)).
Proof.
  intros e cf hs h hs' st blanks t bodies t' n rounds k g F T Fb D O N O1 O2 H R.
  destruct rounds as [|rounds]; [lia|]. cbn [yylex].
  pose proof (fresh_related st k g F) as R0. rewrite T in R0, H.
  destruct (lex_newline blanks t n cf Fb O1 O2 H) as [L1 [L2 L3]].
  destruct (sim _ _ _ _ _ _ _ R0 (L1 None)) as [i1 [S1 R1]]. cbn [srcs] in S1 |- *. rewrite S1.
  apply related_clear in R1.
  set (b := top_flag i1 && (negb (posix e) || cmdword cf)).
  assert (L4 : frun (lex_word n (fsh e) (if b then with_alias cf else cf)) (Flat (NL :: t) 0 0) None = Some (inl None, Flat t 0 0, Some NL)) by (destruct b; auto).
  destruct (sim _ _ _ _ _ _ _ R1 L4) as [i2 [S2 R2]]. rewrite S2.
  assert (Nu : nuls_out t).
  { pose proof (text_nuls st (fresh_wf st F)) as Nu. rewrite T in Nu. apply nuls_app in Nu. destruct Nu as [_ Nu]. now apply nuls_cons in Nu. }
  destruct (gethere_open hs t bodies t' h hs' D O N n 0 (Some NL) Nu) as [f' [la' A]]; [rewrite app_length in H; cbn in H; lia|now left|].
  destruct (sim _ _ _ _ _ _ _ R2 A) as [i3 [S3 R3]]. now rewrite S3.
Qed.
Print Assumptions c25_unclosed_partial.

(** Every text has one or the other. *)
Lemma line_cases : forall ev t, exists l, (exists rest, first_line ev t l rest) \/ only_line ev t l.
Proof.
  intros [|] t.
  - remember (length t) as m eqn:E. assert (H : length t <= m) by lia. clear E. revert t H.
    induction m as [|m IH]; intros t H.
    { destruct t; [|cbn in H; lia]. exists []. right. split; [reflexivity|intros []]. }
    destruct t as [|c t]; [exists []; right; split; [reflexivity|intros []]|]. cbn in H.
    destruct (ceq_spec c NL) as [->|Nc].
    { exists []. left. exists t, []. repeat split. intros []. }
    destruct (ceq_spec c "\"%char) as [->|Nb].
    + destruct t as [|d t]; [exists (L "\"); right; split; [reflexivity|]; intros [X|[]]; discriminate|]. cbn in H.
      destruct (IH t ltac:(lia)) as [l P]. destruct (ceq_spec d NL) as [->|Nd].
      * exists l. destruct P as [[rest [v [-> [A [B C]]]]]|[A B]].
        -- left. exists rest, ("\"%char :: NL :: v). repeat split; assumption.
        -- right. split; assumption.
      * exists ("\"%char :: d :: l). apply ceq_false in Nd.
        assert (J : forall u, join ("\"%char :: d :: u) = "\"%char :: d :: join u) by (intros u; cbn [join]; now rewrite Nd).
        assert (NI : ~ In NL l -> ~ In NL ("\"%char :: d :: l)).
        { intros X [Y|[Y|Y]]; [discriminate|subst d; discriminate|contradiction]. }
        destruct P as [[rest [v [-> [A [B C]]]]]|[A B]].
        -- left. exists rest, ("\"%char :: d :: v). unfold seen in *. cbn [app]. rewrite !J, A, B. repeat split. now apply NI.
        -- right. unfold only_line, seen in *. rewrite J, A. split; [reflexivity|now apply NI].
    + destruct (IH t ltac:(lia)) as [l P]. exists (c :: l). apply ceq_false in Nb.
      assert (J : forall u, join (c :: u) = c :: join u) by (intros u; cbn [join]; now rewrite Nb).
      assert (NI : ~ In NL l -> ~ In NL (c :: l)) by (intros X [Y|Y]; [now subst|contradiction]).
      destruct P as [[rest [v [-> [A [B C]]]]]|[A B]].
      * left. exists rest, (c :: v). unfold seen in *. cbn [app]. rewrite !J, A, B. repeat split. now apply NI.
      * right. unfold only_line, seen in *. rewrite J, A. split; [reflexivity|now apply NI].
  - induction t as [|c t [l P]]; [exists []; right; split; [reflexivity|intros []]|].
    destruct (ceq_spec c NL) as [->|Nc].
    { exists []. left. exists t, []. repeat split. intros []. }
    exists (c :: l). assert (NI : ~ In NL l -> ~ In NL (c :: l)) by (intros X [Y|Y]; [now subst|contradiction]).
    destruct P as [[rest [v [-> [A [B C]]]]]|[A B]].
    + left. exists rest, (c :: v). cbn in A, B. subst v. repeat split. now apply NI.
    + right. cbn in A. subst t. split; [reflexivity|now apply NI].
Qed.
Theorem c25_cases : forall h t, (exists body rest, here_doc h t body rest) \/ here_open h t.
Proof.
  intros h t. remember (length t) as m eqn:E. assert (H : length t <= m) by lia. clear E. revert t H.
  induction m as [m IH] using lt_wf_ind. intros t H.
  destruct (line_cases (h_eval h) t) as [l [[rest F]|F]]; destruct (list_eq_dec ascii_dec (strip (h_skip h) l) (h_eof h)) as [Q|Q].
  - left. exists [], rest. now apply (hd_end h t l).
  - assert (L : length rest < length t) by (destruct F as [v [-> _]]; rewrite app_length; cbn; lia).
    destruct (IH (length rest) ltac:(lia) rest (le_n _)) as [[body [r D]]|O].
    + left. eexists _, r. now apply (hd_line h t l rest body r).
    + right. now apply (ho_line h t l rest).
  - left. exists [], []. now apply (hd_eof h t l).
  - right. now apply (ho_last h t l).
Qed.
Print Assumptions c25_cases.

(** A delimiter with a newline in it (from <<'a NL b') ends the document although no line is equal to it. *)
Theorem c25_newline_refuted : exists h t,
  here_open h t /\
  match yylex 1 50 (LEnv false false [] []) noflags [h] (Input [Src KStr [] (NL :: t) false false] 0 0) with
  | LTok (CTok c) [[]] i => ceq c NL && str_eqb (text_of (srcs i)) []
  | _ => false
  end = true.
Proof.
  exists (Here (L "a" ++ NL :: L "b") false false), (L "a" ++ NL :: L "b" ++ [NL]). split; [|vm_compute; reflexivity].
  apply (ho_line _ _ (L "a") (L "b" ++ [NL])); [exists (L "a"); repeat split; intros [X|[]]; discriminate|discriminate|].
  apply (ho_line _ _ (L "b") []); [exists (L "b"); repeat split; intros [X|[]]; discriminate|discriminate|].
  apply (ho_last _ _ []); [split; [reflexivity|intros []]|discriminate].
Qed.
Print Assumptions c25_newline_refuted.

Lemma hd_line' : forall h t l t' b body rest, first_line (h_eval h) t l t' -> strip (h_skip h) l <> h_eof h ->
  b = strip (h_skip h) l ++ NL :: body -> here_doc h t' body rest -> here_doc h t b rest.
Proof. intros. subst b. now apply (hd_line h t l t'). Qed.
(** Two documents: <<-EO with a joined line and a line that only starts like the delimiter, and <<\X. *)
Example c25_ex :
  let t := TAB :: TAB :: L "a" ++ NL :: L "EOF" ++ NL :: L "b\" ++ NL :: L "c" ++ NL :: TAB :: L "E\" ++ NL :: L "O" ++ NL :: L "d\" ++ NL :: L "X" in
  let hs := [Here (L "EO") true true; Here (L "X") false false] in
  here_docs hs t [L "a" ++ NL :: L "EOF" ++ NL :: L "bc" ++ [NL]; L "d\" ++ [NL]] [] /\
  match yylex 1 50 (LEnv false false [] []) noflags hs (Input [Src KStr [] (NL :: t) false false] 0 0) with
  | LTok (CTok c) [b1; b2] i => str_eqb b1 (L "a" ++ NL :: L "EOF" ++ NL :: L "bc" ++ [NL]) && str_eqb b2 (L "d\" ++ [NL])
  | _ => false
  end = true.
Proof.
  cbv zeta. split; [|vm_compute; reflexivity].
  eapply hds_cons; [|eapply hds_cons; [|apply hds_nil]].
  - eapply (hd_line' _ _ (TAB :: TAB :: L "a")); [exists (TAB :: TAB :: L "a"); repeat split; cbn; intuition discriminate|discriminate|reflexivity|].
    eapply (hd_line' _ _ (L "EOF")); [exists (L "EOF"); repeat split; cbn; intuition discriminate|discriminate|reflexivity|].
    eapply (hd_line' _ _ (L "bc")); [exists (L "b\" ++ NL :: L "c"); repeat split; cbn; intuition discriminate|discriminate|reflexivity|].
    eapply (hd_end _ _ (TAB :: L "EO")); [exists (TAB :: L "E\" ++ NL :: L "O"); repeat split; cbn; intuition discriminate|reflexivity].
  - eapply (hd_line' _ _ (L "d\")); [exists (L "d\"); repeat split; cbn; intuition discriminate|discriminate|reflexivity|].
    apply (hd_eof _ _ (L "X")); [split; [reflexivity|cbn; intuition discriminate]|reflexivity].
Qed.
