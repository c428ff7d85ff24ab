(** Variables: the environment that makenv builds. *)
From Verif Require Import Base Num_model SimplifyPath_model Printf_model Justify_model Arith_model Var_model Var_spec Var_proof Var_inv Var_typed.
Local Open Scope Z_scope.

Definition t_ok (n : cstr) (t : tbl) : Prop := typed_t n t /\ exported_form t /\ (on t ISSET = true -> on t DEFINED = true).
Definition block_ok (b : block) : Prop := NoDup (map fst b) /\ forall n e, look b n = Some e -> t_ok n (e_base e).
Definition goes (p : cstr * ent) : bool := on (e_base (snd p)) ISSET && on (e_base (snd p)) EXPORT.
Definition gone (b : block) : list cstr := map fst (filter goes b).

Lemma unexport_entry b n m : look (unexport b n) m = match look b m with
  | Some e => Some (if str_eqb n m && on (e_base e) DEFINED then Ent (set_flag (e_base e) (N.ldiff (t_flag (e_base e)) EXPORT)) (e_elems e) else e) | None => None end.
Proof.
  unfold unexport, ktsearch. destruct (look b n) as [e|] eqn:E.
  - destruct (on (e_base e) DEFINED) eqn:D.
    + rewrite look_store. destruct (str_eqb_spec n m) as [<-|Hn]; cbn [andb]; [rewrite E, D; reflexivity|]. destruct (look b m); reflexivity.
    + destruct (str_eqb_spec n m) as [<-|Hn]; cbn [andb]; [rewrite E, D; reflexivity|destruct (look b m); reflexivity].
  - destruct (str_eqb_spec n m) as [<-|Hn]; cbn [andb]; [rewrite E; reflexivity|destruct (look b m); reflexivity].
Qed.
Lemma unexport_ok b n : block_ok b -> block_ok (unexport b n).
Proof.
  intros [A B]. split.
  - unfold unexport. destruct (ktsearch b n); [|assumption]. apply fst_store. assumption.
  - intros m e. rewrite unexport_entry. destruct (look b m) as [x|] eqn:E; [|discriminate]. specialize (B _ _ E). intros [= <-].
    destruct (_ && _); [|assumption]. cbn [e_base]. destruct B as (B1 & B2 & B3). split; [|split].
    + apply typed_flag; auto; fl; rewrite ?andb_true_r; reflexivity.
    + intros _ X. exfalso. revert X. fl. rewrite ?andb_false_r. discriminate.
    + fl. rewrite ?andb_true_r. exact B3.
Qed.
Definition strip (ns : list cstr) (b : block) : block := fold_left unexport ns b.
Lemma strip_ok ns : forall b, block_ok b -> block_ok (strip ns b).
Proof. induction ns; intros b H; cbn; auto using unexport_ok. Qed.
Lemma strip_entry ns m : forall b, block_ok b -> match look (strip ns b) m with
  | Some e => exists x, look b m = Some x /\ (if existsb (fun n => str_eqb n m) ns then on (e_base x) ISSET = true -> on (e_base e) EXPORT = false else e = x) /\ on (e_base e) ISSET = on (e_base x) ISSET
  | None => look b m = None end.
Proof.
  induction ns as [|n ns IH]; intros b Hb; cbn [strip fold_left existsb].
  - destruct (look b m) as [e|]; [|reflexivity]. exists e. auto.
  - specialize (IH _ (unexport_ok b n Hb)). fold (strip ns (unexport b n)). destruct (look (strip ns (unexport b n)) m) as [e|].
    + destruct IH as (x & X1 & X2 & X3). rewrite unexport_entry in X1. destruct (look b m) as [y|] eqn:E; [|discriminate]. injection X1 as X1.
      exists y. split; [reflexivity|].
      assert (on (e_base x) ISSET = on (e_base y) ISSET) as Q. { rewrite <- X1. destruct (_ && _); [|reflexivity]. cbn [e_base]. fl. rewrite ?andb_true_r. reflexivity. }
      split; [|congruence]. destruct (str_eqb n m) eqn:En; cbn [orb andb] in *.
      * intros Hs. destruct (existsb _ ns) eqn:Ex; [apply X2; congruence|]. subst e.
        destruct Hb as [_ Hb]. destruct (Hb _ _ E) as (_ & _ & D). rewrite (D Hs) in X1. subst x. cbn [e_base]. fl. rewrite ?andb_false_r. reflexivity.
      * subst x. exact X2.
    + rewrite unexport_entry in IH. destruct (look b m); [discriminate|reflexivity].
Qed.
Lemma strip_binding ns st n : Forall block_ok st -> env_binding (map (strip ns) st) n = if existsb (fun m => str_eqb m n) ns then None else env_binding st n.
Proof.
  induction st as [|b st IH]; intros H; cbn [map env_binding]; [destruct (existsb _ ns); reflexivity|].
  inversion H as [|? ? H1 H2]; subst. specialize (IH H2). pose proof (strip_entry ns n b H1) as S.
  destruct (look (strip ns b) n) as [e|]; [|rewrite S; exact IH]. destruct S as (x & Hx & S & I). rewrite Hx.
  destruct (existsb (fun m => str_eqb m n) ns).
  - destruct (on (e_base e) ISSET) eqn:Is; cbn [andb]; [|exact IH]. rewrite S by congruence. exact IH.
  - subst x. destruct (_ && _); [reflexivity|exact IH].
Qed.

Lemma setstr_string_env n t s t' : on t EXPORT = true -> setstr_string n t s = Ok t' ->
  exists s', t_val t' = VStr (n ++ "="%char :: s') /\ (on t (N.lor UCASEV_AL (N.lor LCASEV (N.lor LJUST RJUST))) = false -> s' = s).
Proof.
  intros HE. unfold setstr_string. set (t1 := set_type _ 0).
  assert (on t1 EXPORT = true) as E1. { unfold t1. fl. unfold on in HE. rewrite HE. reflexivity. }
  assert (on t1 (N.lor UCASEV_AL (N.lor LCASEV (N.lor LJUST RJUST))) = on t (N.lor UCASEV_AL (N.lor LCASEV (N.lor LJUST RJUST)))) as E2.
  { unfold t1, on. cbn [set_type set_flag t_flag]. rewrite !any_lor_r, !any_ldiff by auto with bits. cbn. rewrite ?andb_true_r. reflexivity. }
  clearbody t1. rewrite <- E2. destruct (on t1 (N.lor UCASEV_AL _)) eqn:Fm.
  - destruct (formatstr (jf t1) s) as [[s' w]| |]; cbn [bind]; try discriminate. intros [= <-]. cbn [set_field]. unfold on in *. cbn [t_flag set_field]. rewrite E1.
    exists s'. split; [reflexivity|discriminate].
  - cbn [bind]. intros [= <-]. unfold on in *. cbn [t_flag set_field]. rewrite E1. exists s. split; [reflexivity|auto].
Qed.
Lemma env_block_spec : forall b done o l b' o', NoDup (map fst b) -> (forall n e, In (n, e) b -> t_ok n (e_base e)) -> env_block b done o = Ok (l, b', o') ->
  o' = map (strip (gone b)) o /\ Forall2 (fun p x => env_string (fst p) (e_base (snd p)) x) (filter goes b) l.
Proof.
  induction b as [|[n e] b IH]; intros done o l b' o' Hn Hk; cbn [env_block].
  - intros [= <- _ <-]. split; [symmetry; erewrite map_ext; [apply map_id|]; reflexivity|constructor].
  - inversion Hn as [|? ? N1 N2]; subst. assert (forall m x, In (m, x) b -> t_ok m (e_base x)) as Hk' by (intros; apply Hk; right; assumption).
    destruct (Hk n e (or_introl eq_refl)) as (T1 & T2 & T3). unfold gone. cbn [filter]. destruct (goes (n, e)) eqn:G; unfold goes in G; cbn [snd] in G; rewrite G.
    + apply andb_true_iff in G. destruct G as [Is Ex].
      assert (forall x d, env_string n (e_base e) x -> bind (env_block b d (map (fun b => unexport b n) o)) (fun p => let '(l, b'', o) := p in Ok (x :: l, b'', o)) = Ok (l, b', o') ->
        o' = map (strip (map fst ((n, e) :: filter goes b))) o /\ Forall2 (fun p x => env_string (fst p) (e_base (snd p)) x) ((n, e) :: filter goes b) l) as K.
      { intros x d Hx H. destruct (env_block b d _) as [[[l1 b1] o1]| |] eqn:E; cbn [bind] in H; try discriminate. injection H as <- <- <-.
        destruct (IH _ _ _ _ _ N2 Hk' E) as [I1 I2]. split; [|constructor; assumption]. rewrite I1, map_map. reflexivity. }
      destruct (on (e_base e) INTEGER) eqn:Int.
      * destruct (str_val (e_base e)) as [[s w]| |] eqn:SV; cbn [bind]; try discriminate.
        destruct (setstr_string n _ s) as [t'| |] eqn:SS; cbn [bind]; try discriminate.
        apply setstr_string_env in SS; [|fl; unfold on in Ex; rewrite Ex; reflexivity]. destruct SS as (s' & -> & Hs').
        apply K. exists s'. split; [reflexivity|]. rewrite Int. cbn [andb]. intros J. unfold text. rewrite SV. f_equal. symmetry. apply Hs'.
        revert J. unfold on. cbn [set_flag set_field t_flag]. rewrite !any_lor_r, !any_ldiff by auto with bits. cbn. rewrite ?andb_true_r. auto.
      * specialize (T1 Is). rewrite Int in T1. destruct T1 as (s & [[V1 V2]|[V1 V2]]); [exfalso; apply (T2 Is Ex Int); assumption|]. rewrite V1.
        apply K. exists s. split; [reflexivity|]. intros _. unfold text, str_val. rewrite Is, Int, V1, V2. cbn [negb].
        assert ((0 <=? strlen n + 1) && (strlen n + 1 <=? strlen (n ++ "="%char :: s)) = true) as ->.
        { unfold strlen. rewrite app_length. cbn [length]. apply andb_true_iff. lia. }
        rewrite skipn_export. reflexivity.
    + intros H. destruct (IH _ _ _ _ _ N2 Hk' H) as [I1 I2]. split; assumption.
Qed.
Lemma In_look b n (e : ent) : NoDup (map fst b) -> In (n, e) b -> look b n = Some e.
Proof.
  induction b as [|[m x] b IH]; cbn [map fst]; intros Hn; [intros []|]. inversion Hn as [|? ? N1 N2]; subst. cbn [look In]. intros [[= -> ->]|H].
  - rewrite str_eqb_refl. reflexivity.
  - destruct (str_eqb_spec m n) as [->|]; [|auto]. exfalso. apply N1. apply in_map_iff. exists (n, e). auto.
Qed.
Lemma look_In b n (e : ent) : look b n = Some e -> In (n, e) b.
Proof. induction b as [|[m x] b IH]; cbn [look]; [discriminate|]. destruct (str_eqb_spec m n) as [->|]; [intros [= ->]; left; reflexivity|right; auto]. Qed.
Lemma NoDup_gone b : NoDup (map fst b) -> NoDup (gone b).
Proof.
  unfold gone. induction b as [|[m x] b IH]; cbn [map fst filter]; intros Hn; [constructor|]. inversion Hn as [|? ? N1 N2]; subst.
  destruct (goes (m, x)); [|auto]. cbn [map fst]. constructor; [|auto]. intros H. apply N1. apply in_map_iff in H. destruct H as (p & E & H). apply filter_In in H.
  apply in_map_iff. exists p. tauto.
Qed.
Lemma gone_binding (b : block) n : NoDup (map fst b) -> In n (gone b) <-> exists e, look b n = Some e /\ goes (n, e) = true.
Proof.
  intros Hn. unfold gone. rewrite in_map_iff. split.
  - intros ([m e] & <- & H). apply filter_In in H. destruct H as [H1 H2]. exists e. split; [apply In_look; assumption|assumption].
  - intros (e & H1 & H2). exists (n, e). split; [reflexivity|]. apply filter_In. split; [apply look_In; assumption|assumption].
Qed.
Lemma existsb_In ns n : existsb (fun m => str_eqb m n) ns = true <-> In n ns.
Proof. rewrite existsb_exists. split; [intros (x & H & E); apply str_eqb_true in E; subst; assumption|intros H; exists n; rewrite str_eqb_refl; auto]. Qed.

Lemma nodup_app {A} (a b : list A) : NoDup a -> NoDup b -> (forall x, In x a -> ~ In x b) -> NoDup (a ++ b).
Proof.
  induction a as [|x a IH]; cbn; intros H1 H2 H; [assumption|]. inversion H1; subst. constructor.
  - rewrite in_app_iff. intros [X|X]; [contradiction|]. eapply H; eauto.
  - apply IH; auto.
Qed.
Lemma makenv_spec : forall f st l st', (length st <= f)%nat -> Forall block_ok st -> makenv_ f st = Ok (l, st') ->
  exists names, NoDup names /\ (forall n, In n names <-> env_binding st n <> None) /\
    Forall2 (fun n x => exists t, env_binding st n = Some t /\ env_string n t x) names l.
Proof.
  induction f as [|f IH]; intros st l st' Hf Hst; cbn [makenv_].
  - destruct st; [|cbn in Hf; lia]. intros [= <- _]. exists []. split; [constructor|]. split; [|constructor]. intros n. cbn. intuition.
  - destruct st as [|b st]; [intros [= <- _]; exists []; split; [constructor|]; split; [|constructor]; intros n; cbn; intuition|].
    inversion Hst as [|? ? [HB1 HB2] HS]; subst. destruct (env_block b [] st) as [[[l1 b1] o1]| |] eqn:E; cbn [bind]; try discriminate.
    destruct (env_block_spec _ _ _ _ _ _ HB1 (fun n e H => HB2 n e (In_look _ _ _ HB1 H)) E) as [-> F1].
    destruct (makenv_ f (map (strip (gone b)) st)) as [[l2 s2]| |] eqn:M; cbn [bind]; try discriminate. intros [= <- _].
    assert (length (map (strip (gone b)) st) <= f)%nat as Hl by (rewrite map_length; cbn in Hf; lia).
    destruct (IH _ _ _ Hl (proj2 (Forall_map _ _ _) (Forall_impl _ (strip_ok (gone b)) HS)) M) as (names & N1 & N2 & N3).
    exists (gone b ++ names). cbn [env_binding].
    assert (forall n, In n (gone b) -> exists e, look b n = Some e /\ goes (n, e) = true) as G1 by (intros n; apply (gone_binding b); assumption).
    assert (forall n, In n names -> ~ In n (gone b) /\ env_binding (map (strip (gone b)) st) n = env_binding st n) as G2.
    { intros n H. apply N2 in H. rewrite strip_binding in * by assumption. destruct (existsb _ _) eqn:X; [congruence|]. split; [|reflexivity]. intros Y. apply existsb_In in Y. congruence. }
    assert (forall n, ~ In n (gone b) -> forall e, look b n = Some e -> on (e_base e) ISSET && on (e_base e) EXPORT = false) as G3.
    { intros n H e He. destruct (_ && _) eqn:X; [|reflexivity]. exfalso. apply H. apply (gone_binding b); [assumption|]. exists e. auto. }
    split; [|split].
    + apply nodup_app; [apply NoDup_gone; assumption|assumption|]. intros n X Y. apply (G2 _ Y). exact X.
    + intros n. rewrite in_app_iff. split.
      * intros [H|H].
        -- destruct (G1 _ H) as (e & He & Hg). rewrite He. unfold goes in Hg. cbn [snd] in Hg. rewrite Hg. discriminate.
        -- destruct (G2 _ H) as [X Y]. apply N2 in H. rewrite Y in H. destruct (look b n) as [e|] eqn:Lk; [|assumption]. rewrite (G3 _ X _ Lk). assumption.
      * intros H. destruct (in_dec (list_eq_dec Ascii.ascii_dec) n (gone b)) as [X|X]; [left; exact X|right]. apply N2. rewrite strip_binding by assumption.
        destruct (existsb _ _) eqn:Ex; [apply existsb_In in Ex; contradiction|]. destruct (look b n) as [e|] eqn:Lk; [|assumption]. rewrite (G3 _ X _ Lk) in H. assumption.
    + apply Forall2_app.
      * unfold gone. clear - F1 HB1. assert (forall p, In p (filter goes b) -> look b (fst p) = Some (snd p) /\ goes p = true) as Q.
        { intros [n e] H. apply filter_In in H. split; [apply In_look; tauto|tauto]. }
        induction F1 as [|p x lp lx Hx F1 IH]; cbn [map]; constructor.
        -- destruct (Q p (or_introl eq_refl)) as [Q1 Q2]. rewrite Q1. unfold goes in Q2. rewrite Q2. eauto.
        -- apply IH. intros q Hq. apply Q. right. exact Hq.
      * clear - N3 G2 G3. induction N3 as [|n x lp lx Hx F IH]; constructor.
        -- destruct (G2 n (or_introl eq_refl)) as [X Y]. rewrite Y in Hx. destruct (look b n) as [e|] eqn:Lk; [|assumption]. rewrite (G3 _ X _ Lk). assumption.
        -- apply IH. intros q Hq. apply G2. right. exact Hq.
Qed.
Lemma typed_blocks st : typed st -> Forall block_ok st.
Proof.
  intros (A & B & C). apply Forall_forall. intros b Hb. apply In_nth_error in Hb. destruct Hb as (k & Hk). split; [eapply B; eauto|].
  intros n e He. assert (entry st k n = Some e) as E by (unfold entry; rewrite Hk; exact He). destruct (C k n e E) as (C1 & C2 & C3). split; [|split; assumption]. apply (C1 0). reflexivity.
Qed.
