(** A word that can be an alias is read without looking further than one character. *)
From Verif Require Import Base Word_model Src_model Src_spec Src_proof Lex_model Lex_sim Alias_spec Alias_pot Alias_wp.
Local Open Scope nat_scope.

(** What holds of every answer. *)
Fixpoint post {A} (P : A -> Prop) (p : prog A) : Prop :=
  match p with
  | Ret a => P a
  | Get k => forall c, post P (k c)
  | Unget _ p | Reread _ p | Ign _ p => post P p
  | Err _ => True
  end.
Lemma post_bind : forall {A B} (p : prog A) (f : A -> prog B) P, post (fun a => post P (f a)) p -> post P (bind p f).
Proof. intros A B p f P. induction p; cbn [bind post]; auto. Qed.
Lemma post_run : forall {A} (p : prog A) P i a i', post P p -> run p i = (inl a, i') -> P a.
Proof.
  intros A p P. induction p as [a|k IH|c p IH|t p IH|u p IH|e]; intros i x i' H R; cbn [run post] in *; eauto.
  - injection R as <- _. exact H.
  - destruct (getsc i) as [c i1]. eauto.
  - discriminate.
Qed.
Lemma post_mono : forall {A} (p : prog A) (P Q : A -> Prop), (forall a, P a -> Q a) -> post P p -> post Q p.
Proof. intros A p P Q H. induction p; cbn [post]; auto. Qed.
Lemma post_true : forall {A} (p : prog A) (P : A -> Prop), (forall a, P a) -> post P p.
Proof. intros A p P H. induction p; cbn [post]; auto. Qed.

Definition startok (k : nat) (s : lst) : Prop := match s with SASPAREN _ st => k <= st | _ => True end.
(** States are pushed and the word grows. *)
Definition ext (stk : list lst) (out : cstr) (r : round) : Prop :=
  exists ss x, r = Cont (ss ++ stk) (out ++ x) /\ Forall (startok (length out)) ss.
Ltac ites_p := repeat match goal with |- post _ (if ?b then _ else _) => destruct b end.
Lemma ext_0 : forall stk out, ext stk out (Cont stk out).
Proof. intros. exists [], []. rewrite app_nil_r. split; [reflexivity|constructor]. Qed.
Lemma ext_x : forall stk out x, ext stk out (Cont stk (out ++ x)).
Proof. intros. exists [], x. split; [reflexivity|constructor]. Qed.
Lemma ext_s : forall stk out x s, startok (length out) s -> ext stk out (Cont (s :: stk) (out ++ x)).
Proof. intros. exists [s], x. split; [reflexivity|]. constructor; [assumption|constructor]. Qed.
Ltac ex := cbn [post]; first [apply ext_0|apply ext_x|apply ext_s; first [exact I|cbn; lia]|
  rewrite <- ?app_assoc; first [apply ext_x|apply ext_s; first [exact I|cbn; lia]]].
Lemma post_subst : forall n cf c stk out, post (ext stk out) (subst n cf c stk out).
Proof.
  intros n cf c stk out. unfold subst, cont. destruct (ceq c "\").
  { cbn [bind get post]. intros c2. cbv zeta. ites_p; ex. }
  destruct (ceq c "$"); [|ites_p; ex].
  cbn [bind get post]. intros c2. destruct (ceq c2 "(").
  - cbn [bind get post]. intros c3. ites_p; ex.
  - destruct (ceq c2 "{").
    + apply post_bind. apply post_true. intros v. cbv zeta. cbn [bind get post]. intros c3. apply post_bind.
      destruct (ceq c3 ":"); [cbn [bind get post]; intros c4|cbn [post]].
      * ites_p; cbn [post]; try ex. destruct (in_dq (top stk)); ex.
      * ites_p; cbn [post]; try ex. destruct (in_dq (top stk)); ex.
    + destruct (letter c2).
      * apply post_bind. apply post_true. intros v. ex.
      * ites_p; ex.
Qed.
Lemma post_sbase2 : forall n cf c stk out, post (ext stk out) (sbase2 n cf c stk out).
Proof.
  intros n cf c stk out. unfold sbase2, cont. destruct (ceq c "\").
  { cbn [bind get post]. intros c2. ites_p; ex. }
  destruct (ceq c "'"); [ites_p; ex|]. destruct (ceq c """"); [ex|]. apply post_subst.
Qed.
Lemma post_sbase1 : forall n cf c stk out, post (ext stk out) (sbase1 n cf c stk out).
Proof.
  intros n cf c stk out. unfold sbase1, cont. destruct (mem c (L "*@+?!")); [|apply post_sbase2].
  cbn [bind get post]. intros c2. destruct (ceq c2 "("); [ex|]. apply post_sbase2.
Qed.

(** * Words that are no names of good aliases *)
Definition quoted (stk : list lst) (out : cstr) : Prop :=
  exists a r, out = chars a ++ r /\ (In "["%char a \/ exists k r', r = k :: r' /\ k <> CHAR) /\
              Forall (startok (length (chars a))) stk.
Definition quotedr (r : round) : Prop := match r with Cont s o | Stop _ s o => quoted s o end.
Lemma q_more : forall stk out x, quoted stk out -> quoted stk (out ++ x).
Proof.
  intros stk out x [a [r [-> [H1 H2]]]]. exists a, (r ++ x). split; [now rewrite app_assoc|]. split; [|exact H2].
  destruct H1 as [H1|[k [r' [-> H1]]]]; [now left|]. right. exists k, (r' ++ x). split; [reflexivity|exact H1].
Qed.
Lemma startok_le : forall k k' s, k <= k' -> startok k' s -> startok k s.
Proof. intros k k' [] L H; cbn in *; auto; lia. Qed.
Lemma q_push : forall stk out ss, quoted stk out -> Forall (startok (length out)) ss -> quoted (ss ++ stk) out.
Proof.
  intros stk out ss [a [r [-> [H1 H2]]]] F. exists a, r. split; [reflexivity|]. split; [exact H1|].
  apply Forall_app. split; [|exact H2]. eapply Forall_impl; [|exact F]. intros s. apply startok_le. rewrite app_length. lia.
Qed.
Lemma q_ext : forall stk out r, quoted stk out -> ext stk out r -> quotedr r.
Proof.
  intros stk out r Q [ss [x [-> F]]]. cbn [quotedr]. apply q_more. now apply q_push.
Qed.
Lemma q_tl : forall s stk out, quoted (s :: stk) out -> quoted stk out.
Proof. intros s stk out [a [r [H0 [H1 H2]]]]. inversion H2; subst. exists a, r. auto. Qed.
Lemma q_hd : forall s s' stk out, quoted (s :: stk) out -> (forall k, startok k s -> startok k s') -> quoted (s' :: stk) out.
Proof. intros s s' stk out [a [r [H0 [H1 H2]]]] F. inversion H2; subst. exists a, r. split; [auto|]. split; [auto|]. constructor; auto. Qed.
Lemma q_new : forall t k r stk, k <> CHAR -> Forall (startok (length (chars t))) stk -> quoted stk (chars t ++ k :: r).
Proof. intros t k r stk H F. exists t, (k :: r). split; [reflexivity|]. split; [|exact F]. right. now exists k, r. Qed.

Ltac qs := cbn [post quotedr]; first [assumption|eapply q_tl; eassumption|apply q_more; qs|
  eapply q_hd; [eassumption|intros ? ?; first [exact I|assumption]]|
  match goal with |- quoted (?s :: ?stk) ?out => apply (q_push stk out [s]); [qs|constructor; [exact I|constructor]] end].
Lemma post_step : forall n cf c stk out, quoted stk out -> post quotedr (step n cf c stk out).
Proof.
  intros n cf c stk out Q. unfold step, close_brace, cont. destruct stk as [|s rest]; [exact Q|].
  assert (B1 : forall st, quoted st out -> post quotedr (sbase1 n cf c st out)).
  { intros st H. eapply post_mono; [|apply post_sbase1]. intros r. now apply q_ext. }
  assert (B2 : forall st, quoted st out -> post quotedr (sbase2 n cf c st out)).
  { intros st H. eapply post_mono; [|apply post_sbase2]. intros r. now apply q_ext. }
  assert (BS : forall st, quoted st out -> post quotedr (subst n cf c st out)).
  { intros st H. eapply post_mono; [|apply post_subst]. intros r. now apply q_ext. }
  destruct s; cbv zeta.
  - destruct (ceq c "[" && varasn cf); [|now apply B1]. destruct (is_wdvarname out); [|qs].
    apply post_bind. apply post_true. intros [[] tmp]; cbn [post]; qs.
  - now apply BS.
  - destruct (ceq c ")").
    + destruct (Nat.ltb 0 nparen); [apply B2; qs|]. cbn [bind get post]. intros c2. destruct (ceq c2 ")"); [qs|]. cbn [post]. now apply B2.
    + destruct (ceq c "("); apply B2; qs.
  - destruct (ceq c "'"); [|qs]. destruct (top rest); qs.
  - destruct (ceq c """"); [qs|now apply BS].
  - destruct (ceq c "}"); [qs|now apply B1].
  - destruct csstate as [|[|[|[|]]]]; ites_p; try qs; cbn [post]; ites_p; qs.
  - destruct (ceq c "`"); [qs|]. destruct (ceq c "\"); [|qs]. cbn [bind get post]. intros c2. ites_p; qs.
  - destruct (ceq c "("); [qs|]. destruct (ceq c ")"); [|qs]. destruct (Nat.eqb (pred nparen) 1); [|qs].
    cbn [bind get post]. intros c2. destruct (ceq c2 ")"); [qs|]. cbn [post quotedr].
    destruct Q as [a [r [-> [H1 H2]]]]. inversion H2; subst. cbn [startok] in H3.
    exists a, (skipn 0 (firstn (start - length (chars a)) r) ++ COMSUB :: "("%char :: skipn (S start) (chars a ++ r) ++ [c]).
    split; [|split].
    + rewrite firstn_app, firstn_all2 by lia. cbn [skipn]. now rewrite <- app_assoc.
    + destruct H1 as [H1|[k [r' [-> H1]]]]; [now left|right]. cbn [skipn].
      destruct (start - length (chars a)) as [|d]; cbn [firstn app].
      * eexists _, _. split; [reflexivity|discriminate].
      * eexists _, _. split; [reflexivity|exact H1].
    + constructor; [exact I|exact H4].
  - ites_p; try qs. cbn [bind get post]. intros c2. ites_p; qs.
  - ites_p; try qs. cbn [bind get post]. intros c2. ites_p; qs.
  - ites_p; try qs. now apply B1.
  - ites_p; try qs. now apply B1.
  - ites_p; try qs. now apply B2.
Qed.
Lemma post_loop : forall n cf stk out, quoted stk out -> post (fun r => quoted (snd (fst r)) (snd r)) (loop n cf stk out).
Proof.
  induction n as [|n IH]; intros cf stk out Q; [exact I|]. cbn [loop bind get post]. intros c.
  destruct (is_nul c || base_like (top stk) && lex1 c); [exact Q|]. apply post_bind.
  eapply post_mono; [|apply post_step; exact Q]. intros [stk2 out2|c2 stk2 out2] Q2; cbn [quotedr] in Q2; [now apply IH|exact Q2].
Qed.
Lemma unquoted_S : forall n k c w, unquoted (S n) (k :: c :: w) = if ceq k CHAR then option_map (cons c) (unquoted n w) else None.
Proof. reflexivity. Qed.
Lemma unquoted_0 : forall k c w, unquoted 0 (k :: c :: w) = None.
Proof. reflexivity. Qed.
Lemma unquoted_chars : forall a n w id, unquoted n (chars a ++ w) = Some id -> exists id', id = a ++ id' /\ exists n', unquoted n' w = Some id'.
Proof.
  induction a as [|c a IH]; intros n w id H; [exists id; split; [reflexivity|now exists n]|].
  change (chars (c :: a) ++ w) with (CHAR :: c :: (chars a ++ w)) in H. destruct n as [|n]; [rewrite unquoted_0 in H; discriminate|]. rewrite unquoted_S in H.
  change (ceq CHAR CHAR) with true in H. cbn iota in H.
  destruct (unquoted n (chars a ++ w)) as [id0|] eqn:E; [|discriminate]. injection H as <-.
  destruct (IH _ _ _ E) as [id' [-> H]]. exists id'. split; [reflexivity|exact H].
Qed.
Lemma quoted_ident : forall stk out, quoted stk out -> ident_of out = [] \/ In "["%char (ident_of out).
Proof.
  intros stk out [a [r [-> [H _]]]]. unfold ident_of. destruct (unquoted 63 (chars a ++ r)) as [id|] eqn:E; [|now left].
  destruct (unquoted_chars _ _ _ _ E) as [id' [-> [n' E']]]. destruct H as [H|[k [r' [-> H]]]].
  - right. apply in_or_app. now left.
  - exfalso. destruct r' as [|d r']; [destruct n'; discriminate|]. destruct n' as [|n']; [rewrite unquoted_0 in E'; discriminate|]. rewrite unquoted_S in E'.
    assert (X : ceq k CHAR = false) by now apply ceq_false. rewrite X in E'. discriminate.
Qed.

(** ONEWORD: the lowest state stays. *)
Definition bottom (stk : list lst) : Prop := exists x, stk = x ++ [SWORD].
Definition bottomr (r : round) : Prop := match r with Cont s _ | Stop _ s _ => bottom s end.
Lemma bot_cons : forall s stk, bottom stk -> bottom (s :: stk).
Proof. intros s stk [x ->]. now exists (s :: x). Qed.
Lemma bot_app : forall ss stk, bottom stk -> bottom (ss ++ stk).
Proof. intros ss stk [x ->]. exists (ss ++ x). now rewrite app_assoc. Qed.
Lemma bot_ext : forall stk out r, bottom stk -> ext stk out r -> bottomr r.
Proof. intros stk out r B [ss [x [-> _]]]. cbn [bottomr]. now apply bot_app. Qed.
Ltac bq := cbn [post bottomr]; first [assumption|apply bot_cons; bq].
Lemma bot_step : forall n cf c stk out, bottom stk -> post bottomr (step n cf c stk out).
Proof.
  intros n cf c stk out Q. unfold step, close_brace, cont. destruct stk as [|s rest]; [exact Q|].
  assert (B1 : forall st, bottom st -> post bottomr (sbase1 n cf c st out)).
  { intros st H. eapply post_mono; [|apply post_sbase1]. intros r. now apply bot_ext. }
  assert (B2 : forall st, bottom st -> post bottomr (sbase2 n cf c st out)).
  { intros st H. eapply post_mono; [|apply post_sbase2]. intros r. now apply bot_ext. }
  assert (BS : forall st, bottom st -> post bottomr (subst n cf c st out)).
  { intros st H. eapply post_mono; [|apply post_subst]. intros r. now apply bot_ext. }
  assert (T : s = SWORD \/ bottom rest).
  { destruct Q as [[|y x] E]; cbn [app] in E; injection E as -> ->; [now left|right; now exists x]. }
  destruct T as [->|T]; [now apply BS|].
  destruct s; cbv zeta.
  - destruct (ceq c "[" && varasn cf); [|now apply B1]. destruct (is_wdvarname out); [|bq].
    apply post_bind. apply post_true. intros [[] tmp]; cbn [post]; bq.
  - now apply BS.
  - destruct (ceq c ")").
    + destruct (Nat.ltb 0 nparen); [apply B2; bq|]. cbn [bind get post]. intros c2. destruct (ceq c2 ")"); [bq|]. cbn [post]. now apply B2.
    + destruct (ceq c "("); apply B2; bq.
  - destruct (ceq c "'"); [|bq]. destruct (top rest); bq.
  - destruct (ceq c """"); [bq|now apply BS].
  - destruct (ceq c "}"); [bq|now apply B1].
  - destruct csstate as [|[|[|[|]]]]; ites_p; try bq; cbn [post]; ites_p; bq.
  - destruct (ceq c "`"); [bq|]. destruct (ceq c "\"); [|bq]. cbn [bind get post]. intros c2. ites_p; bq.
  - destruct (ceq c "("); [bq|]. destruct (ceq c ")"); [|bq]. destruct (Nat.eqb (pred nparen) 1); [|bq].
    cbn [bind get post]. intros c2. destruct (ceq c2 ")"); bq.
  - ites_p; try bq. cbn [bind get post]. intros c2. ites_p; bq.
  - ites_p; try bq. cbn [bind get post]. intros c2. ites_p; bq.
  - ites_p; try bq. now apply B1.
  - ites_p; try bq. now apply B1.
  - ites_p; try bq. now apply B2.
Qed.
Lemma bot_loop : forall n cf stk out, bottom stk -> post (fun r => bottom (snd (fst r))) (loop n cf stk out).
Proof.
  induction n as [|n IH]; intros cf stk out Q; [exact I|]. cbn [loop bind get post]. intros c.
  destruct (is_nul c || base_like (top stk) && lex1 c); [exact Q|]. apply post_bind.
  eapply post_mono; [|apply bot_step; exact Q]. intros [stk2 out2|c2 stk2 out2] Q2; cbn [bottomr] in Q2; [now apply IH|exact Q2].
Qed.

(** * Plain words *)
Lemma chars_snoc : forall t c, chars (t ++ [c]) = chars t ++ [CHAR; c].
Proof. intros t c. unfold chars. rewrite flat_map_app. reflexivity. Qed.
Definition plain (c : char) (s : lst) (t : cstr) (p : prog round) : Prop :=
  let r := Ret (Cont [s] (chars (t ++ [c]))) in
  p = r \/ post quotedr p \/
  (c <> bs /\ exists k, p = Get k /\ forall c2, post quotedr (k c2) \/ k c2 = Unget c2 r) \/
  (c = bs /\ exists k, p = Get k /\ forall c2, is_nul c2 = false -> post quotedr (k c2)).
Lemma base_ok : forall s k, base_like s = true -> Forall (startok k) [s].
Proof. intros s k H. constructor; [|constructor]. destruct s; try discriminate; exact I. Qed.
Ltac qn := cbn [post quotedr]; rewrite <- ?app_assoc; cbn [app];
  apply q_new; [discriminate|first [now apply base_ok|constructor; [cbn; lia|now apply base_ok]]].
Lemma subst_plain : forall n cf c s t, base_like s = true -> c <> bs -> plain c s t (subst n cf c [s] (chars t)).
Proof.
  intros n cf c s t B Nb. unfold subst, cont.
  assert (X : ceq c "\" = false) by now apply ceq_false. rewrite X.
  destruct (ceq_spec c "$"%char) as [->|_].
  - right. right. left. split; [exact Nb|]. eexists. cbn [get bind]. split; [reflexivity|]. intros c2. rewrite chars_snoc.
    destruct (ceq c2 "("); [left|].
    { cbn [post bind]. intros c3. ites_p; qn. }
    destruct (ceq c2 "{"); [left|].
    { apply post_bind. apply post_true. intros v. cbv zeta. cbn [bind get post]. intros c3. apply post_bind.
      assert (Bt : in_dq (top [s]) = false) by (destruct s; try discriminate; reflexivity). rewrite Bt.
      destruct (ceq c3 ":"); [cbn [bind get post]; intros c4|cbn [post]]; ites_p; qn. }
    destruct (letter c2); [left|].
    { apply post_bind. apply post_true. intros v. qn. }
    destruct (var1 c2 || isdigit c2); [left; qn|]. right. reflexivity.
  - destruct (ceq c "`"); [right; left; qn|]. left. now rewrite chars_snoc.
Qed.
Lemma sbase2_plain : forall n cf c s t, base_like s = true -> plain c s t (sbase2 n cf c [s] (chars t)).
Proof.
  intros n cf c s t B. unfold sbase2, cont. destruct (ceq_spec c "\"%char) as [->|Nb].
  { right. right. right. split; [reflexivity|]. cbn [get bind]. eexists. split; [reflexivity|]. intros c2 N. cbv beta. rewrite N. qn. }
  destruct (ceq_spec c "'"%char) as [->|_].
  { destruct (heredoc cf || _); [left; now rewrite chars_snoc|right; left; qn]. }
  destruct (ceq c """"); [right; left; qn|]. now apply subst_plain.
Qed.
Lemma star_plain : forall n cf c s t, In c (L "*@+?!") -> sbase2 n cf c [s] (chars t) = Ret (Cont [s] (chars (t ++ [c]))).
Proof.
  intros n cf c s t H. rewrite chars_snoc. cbn in H. destruct H as [<-|[<-|[<-|[<-|[<-|[]]]]]]; reflexivity.
Qed.
Lemma step_plain : forall n cf c s t, base_like s = true -> plain c s t (step n cf c [s] (chars t)).
Proof.
  intros n cf c s t B. destruct s; try discriminate B; cbn [step].
  - destruct (ceq_spec c "["%char) as [->|Nb].
    + cbn [andb]. destruct (varasn cf).
      * destruct (is_wdvarname (chars t)); [|left; unfold cont; now rewrite chars_snoc].
        right. left. apply post_bind. apply post_true.
        assert (Q : forall x, quoted [SBASE] ((chars t ++ [CHAR; "["%char]) ++ x)).
        { intros x. apply q_more. exists (t ++ ["["%char]), []. rewrite chars_snoc, app_nil_r. split; [reflexivity|].
          split; [left; apply in_or_app; right; now left|]. now apply base_ok. }
        intros [[] tmp]; cbn [post quotedr cont].
        -- change (chars t ++ [CHAR; "["%char] ++ chars tmp) with (chars t ++ ([CHAR; "["%char] ++ chars tmp)). rewrite app_assoc. apply Q.
        -- specialize (Q []). now rewrite app_nil_r in Q.
      * unfold sbase1. change (mem "[" (L "*@+?!")) with false. cbn iota. now apply sbase2_plain.
    + cbn [andb]. unfold sbase1. destruct (mem c (L "*@+?!")) eqn:M; [|now apply sbase2_plain].
      assert (I : In c (L "*@+?!")) by now apply mem_In.
      right. right. left. split; [intros ->; discriminate|]. cbn [get bind]. eexists. split; [reflexivity|]. intros c2. cbv beta.
      destruct (ceq c2 "("); [left; qn|right]. now rewrite star_plain.
  - unfold cont. destruct (ceq_spec c "\"%char) as [->|Nb].
    { right. right. right. split; [reflexivity|]. cbn [get bind]. eexists. split; [reflexivity|]. intros c2 N. cbv beta. rewrite N. qn. }
    destruct (ceq c "'"); [right; left; qn|].
    destruct (ceq c """"); [right; left; cbn [post quotedr]; apply q_new; [discriminate|constructor; [exact I|constructor]]|].
    left. now rewrite chars_snoc.
Qed.
