(** C17, C18: test and [. *)
From Verif Require Import Base Num_model Test_model Test_spec Test_proof.
Local Open Scope Z_scope.

(** C18.  Every run ends with status 0, 1 or 2. *)
Theorem c18_status : forall w name ws, exists s, c_test w name ws = Some s /\ (s = 0 \/ s = 1 \/ s = 2).
Proof.
  intros w name ws.
  assert (Short : forall ws0 ws inv, exists s, c_test_short w ws0 ws inv = Some s /\ (s = 0 \/ s = 1 \/ s = 2)).
  { intros ws0.
    intros ws2. induction ws2 as [|x r IHr]; intros inv; [cbn; eauto|].
    assert (Fin : forall p : bool * bool, exists s, (let '(res, err) := p in Some (if err : bool then 2 else status (if inv then negb res else res))) = Some s /\ (s = 0 \/ s = 1 \/ s = 2)).
    { intros [v e]. eexists. split; [reflexivity|]. destruct e; [auto|]. destruct inv, v; cbn; auto. }
    cbn [c_test_short]. destruct r as [|y r]; [apply Fin|].
    destruct (match r with [z] => _ | _ => _ end) as [[op z]|]; [apply Fin|].
    destruct (str_eqb x (L "!")); [apply IHr|]. apply test_parse_total. }
  assert (Args : forall ws, exists s, c_test_args w ws = Some s /\ (s = 0 \/ s = 1 \/ s = 2)).
  { intros l. unfold c_test_args. destruct (length l <=? 4)%nat; [apply Short|apply test_parse_total]. }
  unfold c_test. destruct (str_eqb name (L "[")); [|apply Args].
  destruct (rev ws) as [|x r]; [eauto|]. destruct (str_eqb x (L "]")); [apply Args|eauto].
Qed.
Print Assumptions c18_status.

(** With more than four words: a list that is an expression has its truth value as
    status, ... *)
Theorem c18_expression : forall w ws e, (4 < length ws)%nat -> parses w ws e ->
  c_test w (L "test") ws = Some (exit_status (truth w e)).
Proof.
  intros w ws e Hl H. unfold c_test. cbn [str_eqb]. unfold c_test_args.
  replace (length ws <=? 4)%nat with false by (symmetry; apply Nat.leb_gt; lia). apply test_parse_complete, H.
Qed.
Print Assumptions c18_expression.

(** ... and status 0 or 1 means that the list is an expression that is true or false:
    a syntax error is never reported as either. *)
Theorem c18_errors : forall w ws s, (4 < length ws)%nat -> c_test w (L "test") ws = Some s -> s <> 2 ->
  exists e, parses w ws e /\ truth w e = Some (s =? 0) /\ forall e', parses w ws e' -> truth w e' = truth w e.
Proof.
  intros w ws s Hl H Hs. change (c_test_args w ws = Some s) in H. unfold c_test_args in H.
  replace (length ws <=? 4)%nat with false in H by (symmetry; apply Nat.leb_gt; lia).
  destruct (test_parse_sound w ws s H Hs) as (e & P & E). exists e. split; [exact P|]. split.
  - subst s. destruct (truth w e) as [[|]|]; [reflexivity|reflexivity|]. exfalso. apply Hs. reflexivity.
  - intros e' P'. apply test_parse_complete in P'. rewrite H in P'. subst s. injection P'.
    destruct (truth w e) as [[|]|], (truth w e') as [[|]|]; cbn; intros; try congruence; exfalso; apply Hs; reflexivity.
Qed.
Print Assumptions c18_errors.

(** [ ... ] is test ..., and needs its closing bracket *)
Theorem c18_bracket : forall w ws,
  c_test w (L "[") (ws ++ [L "]"]) = c_test w (L "test") ws /\
  ((forall l, ws <> l ++ [L "]"]) -> c_test w (L "[") ws = Some 2).
Proof.
  intros w ws. split.
  - unfold c_test. rewrite rev_app_distr. cbn. rewrite rev_involutive. reflexivity.
  - intros H. unfold c_test. cbn [str_eqb]. change (str_eqb (L "[") (L "[")) with true. cbn iota.
    destruct (rev ws) as [|x r] eqn:E; [reflexivity|].
    destruct (str_eqb_spec x (L "]")) as [->|N]; [|reflexivity].
    exfalso. apply (H (rev r)). rewrite <- (rev_involutive ws), E. reflexivity.
Qed.
Print Assumptions c18_bracket.

(** The order used by < and > *)
Theorem c18_string_order : forall w x y,
  c_test w (L "test") [x; L "<"; y] = Some 0 <-> before x y.
Proof.
  intros w x y. unfold c_test. change (str_eqb (L "test") (L "[")) with false. cbn iota. unfold c_test_args. cbn [length Nat.leb c_test_short].
  change (isop b_ops (L "<")) with (Some TO_STLT). cbn iota. cbn [test_eval]. rewrite strcmp_lt, <- beforeb_ok.
  destruct (beforeb x y); cbn; split; congruence.
Qed.
Print Assumptions c18_string_order.

(** C17.  The rules by number of arguments, except for a unary operator whose operand
    is spelled like a binary one. *)
Definition confusable (w : world) (ws : list cstr) : Prop :=
  exists pre a b, ws = pre ++ [a; b] /\ (forall x, In x pre -> x = L "!") /\ is_unary w a /\ is_binary w b.

Lemma not_conf w pre a b : (forall x, In x pre -> x = L "!") -> ~ confusable w (pre ++ [a; b]) -> is_unary w a -> isop b_ops b = None.
Proof.
  intros Hp N U. destruct (isop b_ops b) eqn:E; [|reflexivity]. exfalso. apply N. exists pre, a, b. repeat split; auto.
  apply is_binary_isop. congruence.
Qed.
Lemma short_un w ws0 x y inv : isop u_ops x <> None -> c_test_short w ws0 [x; y] inv = test_parse w ws0.
Proof. intros H. cbn [c_test_short]. destruct (str_eqb_spec x (L "!")) as [->|N]; [exfalso; apply H; reflexivity|reflexivity]. Qed.
Fixpoint nots (n : nat) (e : texp) : texp := match n with O => e | S n => XNot (nots n e) end.
Lemma parse_nots w n a b : is_unary w a -> ~ is_binary w b -> parses w (repeat (L "!") n ++ [a; b]) (nots n (XUn a b)).
Proof.
  intros U B. unfold parses. induction n as [|n (IH1 & IH2 & IH3)]; cbn [nots repeat app words]; [repeat split; auto|].
  split; [cbn [app]; f_equal; exact IH1|]. split; [|exact IH3]. cbn [prec_ok]. clear - n. induction n; cbn; auto.
Qed.

Theorem c17_posix_partial : forall w ws v, posix w ws = Some v -> ~ confusable w ws ->
  c_test w (L "test") ws = Some (exit_status v).
Proof.
  intros w ws v H N. unfold c_test. change (str_eqb (L "test") (L "[")) with false. cbn iota. unfold c_test_args.
  assert (Len : (length ws <=? 4)%nat = true) by (destruct ws as [|? [|? [|? [|? [|? ?]]]]]; try discriminate; reflexivity).
  rewrite Len. clear Len.
  (* the pieces *)
  assert (F1 : forall ws0 a inv, c_test_short w ws0 [a] inv = Some (exit_status (if inv : bool then option_map negb (posix1 a) else posix1 a))).
  { intros ws0 a inv. cbn. destruct a, inv; reflexivity. }
  assert (U2 : forall n a b f, the_unary w a = Some f -> ~ confusable w (repeat (L "!") n ++ [a; b]) ->
            test_parse w (repeat (L "!") n ++ [a; b]) = Some (exit_status (truth w (nots n (XUn a b))))).
  { intros n a b f Hf Nc. apply test_parse_complete, parse_nots; [unfold is_unary; congruence|]. intros B. apply Nc.
    exists (repeat (L "!") n), a, b. split; [reflexivity|]. split; [intros x Hx; eapply repeat_spec; exact Hx|]. split; [unfold is_unary; congruence|exact B]. }
  assert (D2 : forall n a b v inv, posix2 w a b = Some v -> inv = Nat.odd n -> ~ confusable w (repeat (L "!") n ++ [a; b]) ->
            c_test_short w (repeat (L "!") n ++ [a; b]) [a; b] inv = Some (exit_status (if inv : bool then option_map negb v else v))).
  { intros n a b u inv Hu Hi Nc. unfold posix2 in Hu. destruct (str_eqb_spec a (L "!")) as [->|Na].
    - injection Hu as <-.
      match goal with |- c_test_short w ?W _ _ = _ => change (c_test_short w W [L "!"; b] inv) with (c_test_short w W [b] (negb inv)) end.
      rewrite F1. destruct b, inv; reflexivity.
    - destruct (the_unary w a) as [f|] eqn:Ef; [|discriminate]. injection Hu as <-.
      rewrite short_un; [|apply (is_unary_isop w); unfold is_unary; congruence]. rewrite (U2 n a b f Ef Nc).
      subst inv. f_equal. f_equal. clear - Ef. induction n as [|n IH]; [cbn; rewrite Ef; reflexivity|].
      rewrite Nat.odd_succ. change (truth w (nots (S n) (XUn a b))) with (option_map negb (truth w (nots n (XUn a b)))). rewrite IH.
      rewrite <- Nat.negb_odd. destruct (Nat.odd n); cbn; destruct (f b) as [[|]|]; reflexivity. }
  assert (D3 : forall n a b c v inv, posix3 w a b c = Some v -> inv = Nat.odd n -> ~ confusable w (repeat (L "!") n ++ [a; b; c]) ->
            c_test_short w (repeat (L "!") n ++ [a; b; c]) [a; b; c] inv = Some (exit_status (if inv : bool then option_map negb v else v))).
  { intros n a b c u inv Hu Hi Nc. unfold posix3 in Hu. cbn [c_test_short].
    destruct (isop b_ops b) as [op|] eqn:Eb.
    - destruct (binop_some w _ _ Eb) as (f & Hf & Ha). rewrite Hf in Hu. injection Hu as <-. specialize (Ha a c). unfold agrees in Ha.
      destruct (test_eval w op a c) as [r e]. destruct (f a c) as [k|]; cbn in Ha; [injection Ha as -> ->|subst e]; destruct inv; try destruct k; reflexivity.
    - rewrite (binop_none w _ Eb) in Hu. destruct (str_eqb_spec a (L "!")) as [->|Na]; [|discriminate].
      destruct (posix2 w b c) as [u'|] eqn:E2; [|discriminate]. injection Hu as <-.
      assert (E : repeat (L "!") n ++ [L "!"; b; c] = repeat (L "!") (S n) ++ [b; c]).
      { change [L "!"; b; c] with ([L "!"] ++ [b; c]). rewrite app_assoc, <- (repeat_cons n). reflexivity. }
      rewrite E in *. change (c_test_short w (repeat (L "!") (S n) ++ [b; c]) [b; c] (negb inv) = Some (exit_status (if inv then option_map negb (option_map negb u') else option_map negb u'))).
      rewrite (D2 (S n) b c u' (negb inv) E2); [|rewrite Nat.odd_succ, <- Nat.negb_odd; congruence|exact Nc].
      destruct inv; cbn; destruct u' as [[|]|]; reflexivity. }
  destruct ws as [|a [|b [|c [|d [|? ?]]]]]; cbn [posix] in H.
  - injection H as <-. reflexivity.
  - injection H as <-. apply (F1 _ _ false).
  - apply (D2 0%nat a b v false H eq_refl N).
  - apply (D3 0%nat a b c v false H eq_refl N).
  - unfold posix4 in H. destruct (str_eqb_spec a (L "!")) as [->|Na]; [|discriminate].
    destruct (posix3 w b c d) as [u|] eqn:E3; [|discriminate]. injection H as <-.
    change (c_test_short w [L "!"; b; c; d] [L "!"; b; c; d] false) with (c_test_short w (repeat (L "!") 1 ++ [b; c; d]) [b; c; d] true).
    apply (D3 1%nat b c d u true E3 eq_refl N).
  - discriminate.
Qed.
Print Assumptions c17_posix_partial.

(** The XSI rules for parentheses *)
Definition starts_primary (w : world) (x : cstr) : Prop := x = L "!" \/ x = L "(" \/ is_unary w x.
Definition paren_clash (w : world) (ws : list cstr) : Prop :=
  match ws with
  | [_; b; _] => starts_primary w b
  | [_; b; c; _] => (b = L "!" /\ (starts_primary w c \/ is_binary w c)) \/ (is_unary w b /\ is_binary w c) \/ is_binary w b
  | _ => False
  end.
Theorem c17_parentheses_partial : forall w ws v, posix_paren w ws = Some v -> ~ paren_clash w ws ->
  c_test w (L "test") ws = Some (exit_status v).
Proof.
  intros w ws v H N. unfold c_test. change (str_eqb (L "test") (L "[")) with false. cbn iota.
  unfold c_test_args. unfold posix_paren in H.
  assert (R : ~ is_binary w (L ")") /\ ~ is_unary w (L ")")) by (split; intros X; apply X; vm_compute; reflexivity).
  destruct ws as [|a [|b [|c [|d [|? ?]]]]]; try discriminate.
  - destruct (str_eqb_spec a (L "(")) as [->|]; [|discriminate]. destruct (str_eqb_spec c (L ")")) as [->|]; [|discriminate]. cbn [andb] in H.
    destruct (the_binary w b) as [f|] eqn:Eb; [discriminate|]. injection H as <-.
    cbn [length Nat.leb c_test_short].
    destruct (isop b_ops b) eqn:Eo; [exfalso; assert (X : is_binary w b) by (apply is_binary_isop; congruence); apply X, Eb|].
    change (str_eqb (L "(") (L "!")) with false. cbn iota.
    rewrite (test_parse_complete w _ (XPar (XStr b))); [reflexivity|]. cbn in N. unfold starts_primary in N.
    repeat split; cbn; try tauto; intros ->; tauto.
  - destruct (str_eqb_spec a (L "(")) as [->|]; [|discriminate]. destruct (str_eqb_spec d (L ")")) as [->|]; [|discriminate]. cbn [andb] in H.
    cbn [length Nat.leb c_test_short]. change (str_eqb (L "(") (L "!")) with false. cbn iota.
    unfold posix2 in H. cbn in N. destruct (str_eqb_spec b (L "!")) as [->|Nb].
    + injection H as <-. rewrite (test_parse_complete w _ (XPar (XNot (XStr c)))); [reflexivity|]. unfold starts_primary in N.
      repeat split; cbn; try tauto; intros ->; tauto.
    + destruct (the_unary w b) as [f|] eqn:Ef; [|discriminate]. injection H as <-.
      assert (U : is_unary w b) by (unfold is_unary; congruence).
      rewrite (test_parse_complete w _ (XPar (XUn b c))); [cbn; rewrite Ef; reflexivity|]. repeat split; cbn; tauto.
Qed.
Print Assumptions c17_parentheses_partial.

(** a world in which nothing exists *)
Definition no_world : world := W (fun _ => None) (fun _ => None) (fun _ => None) (fun _ _ => false) (fun _ => false) getn 1 1.

(** The excluded cases do fail. *)
Theorem c17_posix_refuted : exists w ws v, posix w ws = Some v /\ c_test w (L "test") ws <> Some (exit_status v).
Proof. exists no_world, [L "-n"; L "="], (Some true). split; vm_compute; congruence. Qed.
Print Assumptions c17_posix_refuted.
Theorem c17_parentheses_refuted : exists w ws v, posix_paren w ws = Some v /\ c_test w (L "test") ws <> Some (exit_status v).
Proof. exists no_world, [L "("; L "-n"; L ")"], (Some true). split; vm_compute; congruence. Qed.
Print Assumptions c17_parentheses_refuted.

Example c17_ex1 : posix no_world [L "!"; L "("; L "="; L ")"] = Some (Some true) /\
  ~ confusable no_world [L "!"; L "("; L "="; L ")"] /\ c_test no_world (L "test") [L "!"; L "("; L "="; L ")"] = Some 0.
Proof.
  split; [reflexivity|]. split; [|reflexivity]. intros (pre & a & b & E & _ & U & _).
  assert (a = L "=" /\ b = L ")") as [-> ->].
  { destruct pre as [|? [|? [|? [|? [|? ?]]]]]; cbn in E; inversion E; auto; destruct pre; discriminate. }
  apply U. vm_compute. reflexivity.
Qed.
Example c17_ex2 : posix no_world [L "!"; L "!"; L "-z"; L "="] = Some (Some false) /\ c_test no_world (L "test") [L "!"; L "!"; L "-z"; L "="] = Some 2.
Proof. split; vm_compute; reflexivity. Qed.
Example c17_ex3 : posix_paren no_world [L "("; L "!"; L ""; L ")"] = Some (Some true) /\ c_test no_world (L "test") [L "("; L "!"; L ""; L ")"] = Some 0.
Proof. split; vm_compute; reflexivity. Qed.
Example c18_ex1 : let e := XOr (XStr []) (XAnd (XNot (XBin (L "3") (L "-lt") (L "2"))) (XPar (XOr (XUn (L "-z") (L "x")) (XStr (L "y"))))) in
  parses no_world (words e) e /\ (4 < length (words e))%nat /\ truth no_world e = Some true /\ c_test no_world (L "test") (words e) = Some 0.
Proof.
  cbv zeta. split; [|split; [vm_compute; lia|split; vm_compute; reflexivity]]. split; [reflexivity|]. split; [cbn; repeat split; lia|].
  cbn [reading words app]. unfold not_prefix.
  repeat split; first [apply is_binary_isop; vm_compute; discriminate|apply is_unary_isop; vm_compute; discriminate
    |intros X; apply is_binary_isop in X; apply X; reflexivity|intros X; apply is_unary_isop in X; apply X; reflexivity|discriminate].
Qed.
Example c18_ex2 : c_test no_world (L "[") [L "a"; L "="; L "a"; L "-o"; L "("; L "]"] = Some 2.
Proof. vm_compute. reflexivity. Qed.
