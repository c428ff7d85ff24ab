(** test: the operator tables, the parser, the short forms. *)
From Verif Require Import Base Num_model Test_model Test_spec.
Local Open Scope Z_scope.

Lemma strcmp_eq a : forall b, (strcmp a b =? 0) = str_eqb a b.
Proof.
  induction a as [|x a IH]; intros [|y b]; cbn [strcmp].
  - reflexivity.
  - destruct (str_eqb_spec [] (y :: b)); [discriminate|reflexivity].
  - destruct (str_eqb_spec (x :: a) []); [discriminate|reflexivity].
  - destruct (ceq_spec x y) as [->|N].
    + rewrite IH. destruct (str_eqb_spec a b) as [->|Nb]; [rewrite str_eqb_refl; reflexivity|].
      destruct (str_eqb_spec (y :: a) (y :: b)); congruence.
    + destruct (str_eqb_spec (x :: a) (y :: b)); [congruence|]. destruct (ccode x <? ccode y); reflexivity.
Qed.
Lemma ccode_code c : ccode c = Z.of_nat (code c).
Proof. unfold ccode, code, nat_of_ascii. lia. Qed.
Lemma code_inj x y : code x = code y -> x = y.
Proof. unfold code. intros H. rewrite <- (ascii_nat_embedding x), <- (ascii_nat_embedding y), H. reflexivity. Qed.
Lemma strcmp_lt a : forall b, (strcmp a b <? 0) = beforeb a b.
Proof.
  induction a as [|x a IH]; intros [|y b]; cbn [strcmp beforeb]; try reflexivity.
  destruct (ceq_spec x y) as [->|N].
  - rewrite IH, Nat.ltb_irrefl, Nat.eqb_refl. reflexivity.
  - assert (E : (code x =? code y)%nat = false) by (apply Nat.eqb_neq; intros H; apply N, code_inj, H).
    rewrite E, !ccode_code. destruct (Nat.ltb_spec (code x) (code y)); destruct (Z.ltb_spec (Z.of_nat (code x)) (Z.of_nat (code y))); try lia; reflexivity.
Qed.
Lemma strcmp_gt a : forall b, (0 <? strcmp a b) = beforeb b a.
Proof.
  induction a as [|x a IH]; intros [|y b]; cbn [strcmp beforeb]; try reflexivity.
  destruct (ceq_spec x y) as [->|N].
  - rewrite IH, Nat.ltb_irrefl, Nat.eqb_refl. reflexivity.
  - assert (E : (code y =? code x)%nat = false) by (apply Nat.eqb_neq; intros H; apply N; symmetry; apply code_inj, H).
    assert (code x <> code y) by (intros H; apply N, code_inj, H).
    rewrite E, !ccode_code. destruct (Nat.ltb_spec (code y) (code x)); destruct (Z.ltb_spec (Z.of_nat (code x)) (Z.of_nat (code y))); try lia; reflexivity.
Qed.
Lemma beforeb_ok a : forall b, beforeb a b = true <-> before a b.
Proof.
  induction a as [|x a IH]; intros [|y b]; cbn [beforeb].
  - split; [discriminate|]. intros [(r & Hr & E)|(p & x & y & ra & rb & E & _)]; [destruct r; [congruence|discriminate]|destruct p; discriminate].
  - split; [|reflexivity]. intros _. left. exists (y :: b). split; [discriminate|reflexivity].
  - split; [discriminate|]. intros [(r & Hr & E)|(p & x' & y' & ra & rb & _ & E & _)]; [discriminate|destruct p; discriminate].
  - rewrite orb_true_iff, andb_true_iff, Nat.ltb_lt, Nat.eqb_eq, IH. split.
    + intros [H|[H [(r & Hr & ->)|(p & x' & y' & ra & rb & -> & -> & H1)]]].
      * right. exists [], x, y, a, b. auto.
      * left. exists r. apply code_inj in H. subst. auto.
      * right. apply code_inj in H. subst. exists (y :: p), x', y', ra, rb. auto.
    + intros [(r & Hr & E)|(p & x' & y' & ra & rb & E1 & E2 & H)].
      * inversion E; subst. right. split; [reflexivity|]. left. exists r. auto.
      * destruct p as [|z p]; cbn in E1, E2; inversion E1; inversion E2; subst; [left; exact H|].
        right. split; [congruence|]. right. exists p, x', y', ra, rb. auto.
Qed.

Lemma beq_dec a b : ftype_beq a b = (if ftype_eq_dec a b then true else false).
Proof. destruct a, b; reflexivity. Qed.

Section P.
Variable w : world.
(** an evaluation result against the meaning *)
Definition agrees (r : bool * bool) (v : option bool) : Prop :=
  match v with Some b => r = (b, false) | None => snd r = true end.

Lemma isop_in tbl s o : isop tbl s = Some o -> In (s, o) tbl.
Proof.
  unfold isop. destruct s as [|c s]; [discriminate|].
  destruct (find _ tbl) as [e|] eqn:E; [|discriminate]. intros [= <-]. apply find_some in E. destruct E as [H1 H2].
  apply str_eqb_true in H2. rewrite H2. destruct e; exact H1.
Qed.
Lemma assoc_in {A} (l : list (cstr * A)) s f : option_map snd (find (fun e => str_eqb (fst e) s) l) = Some f -> In (s, f) l.
Proof.
  destruct (find _ l) as [e|] eqn:E; [|discriminate]. intros [= <-]. apply find_some in E. destruct E as [H1 H2].
  apply str_eqb_true in H2. rewrite <- H2. destruct e; exact H1.
Qed.

Lemma assoc_hit {A} (l : list (cstr * A)) s f : option_map snd (find (fun e => str_eqb (fst e) s) ((s, f) :: l)) = Some f.
Proof. cbn [find fst]. rewrite str_eqb_refl. reflexivity. Qed.
Lemma assoc_miss {A} (l : list (cstr * A)) s k f : str_eqb k s = false ->
  option_map snd (find (fun e => str_eqb (fst e) s) ((k, f) :: l)) = option_map snd (find (fun e => str_eqb (fst e) s) l).
Proof. intros H. cbn [find fst]. rewrite H. reflexivity. Qed.
Ltac lookup := unfold the_unary, the_binary, unaries, binaries; repeat (rewrite assoc_miss by (vm_compute; reflexivity)); apply assoc_hit.
Ltac each H := unfold unaries, binaries, u_ops, b_ops in H; cbn [In] in H; repeat (destruct H as [H|H]; [injection H as <- <-|]); try contradiction H.

Lemma unop_some s o : isop u_ops s = Some o -> exists f, the_unary w s = Some f /\ forall x y, agrees (test_eval w o x y) (f x).
Proof.
  intros H. apply isop_in in H.
  each H; (eexists; split; [lookup|]); intros x y; cbn [test_eval agrees option_map fst snd]; unfold kind, file_is, st_is, eaccess, executable, option_set, option_unset; cbn [agrees snd].
  all: try (destruct x; reflexivity).
  all: try (destruct (w_stat w x) as [b|]; cbn iota; try rewrite beq_dec; reflexivity).
  all: try (destruct (w_lstat w x) as [b|]; cbn iota; try rewrite beq_dec; reflexivity).
  - destruct x as [|c r]; cbn; [destruct (w_opt w []) as [[]|]; reflexivity|]. change (c =? "!")%char with (ceq c "!").
    destruct (ceq c "!"); [destruct (w_opt w r) as [[]|]|destruct (w_opt w (c :: r)) as [[]|]]; reflexivity.
  - destruct (w_access w x R_OK); reflexivity.
  - destruct (getn x); reflexivity.
  - destruct (w_access w x W_OK); reflexivity.
  - destruct (w_access w x X_OK); [|reflexivity]. destruct (w_euid w =? 0); [|reflexivity].
    destruct (w_stat w x) as [b|]; [|reflexivity]. rewrite beq_dec. destruct (ftype_eq_dec (s_type b) FDir); reflexivity.
Qed.
Lemma unop_none s : isop u_ops s = None -> the_unary w s = None.
Proof.
  intros H. destruct (the_unary w s) as [f|] eqn:E; [|reflexivity]. apply assoc_in in E. exfalso.
  unfold unaries in E. cbn [In] in E. repeat (destruct E as [E|E]; [injection E as <- _; vm_compute in H; discriminate H|]). exact E.
Qed.
Lemma binop_some s o : isop b_ops s = Some o -> exists f, the_binary w s = Some f /\ forall x y, agrees (test_eval w o x y) (f x y).
Proof.
  intros H. apply isop_in in H.
  each H; (eexists; split; [lookup|]); intros x y; cbn [test_eval agrees option_map fst snd]; unfold newer, same_file, ints, st_is; cbn [agrees snd].
  all: try (rewrite strcmp_eq; reflexivity).
  all: try (rewrite strcmp_lt; reflexivity).
  all: try (rewrite strcmp_gt; reflexivity).
  all: try (destruct (w_eval w x), (w_eval w y); reflexivity).
  all: destruct (w_stat w x), (w_stat w y); reflexivity.
Qed.
Lemma binop_none s : isop b_ops s = None -> the_binary w s = None.
Proof.
  intros H. destruct (the_binary w s) as [f|] eqn:E; [|reflexivity]. apply assoc_in in E. exfalso.
  unfold binaries in E. cbn [In] in E. repeat (destruct E as [E|E]; [injection E as <- _; vm_compute in H; discriminate H|]). exact E.
Qed.
Lemma is_unary_isop s : is_unary w s <-> isop u_ops s <> None.
Proof.
  unfold is_unary. destruct (isop u_ops s) as [o|] eqn:E.
  - destruct (unop_some _ _ E) as (f & -> & _). split; congruence.
  - rewrite (unop_none _ E). tauto.
Qed.
Lemma is_binary_isop s : is_binary w s <-> isop b_ops s <> None.
Proof.
  unfold is_binary. destruct (isop b_ops s) as [o|] eqn:E.
  - destruct (binop_some _ _ E) as (f & -> & _). split; congruence.
  - rewrite (binop_none _ E). tauto.
Qed.
Lemma accept_some word ws r : accept word ws = Some r <-> ws = word :: r.
Proof.
  unfold accept. destruct ws as [|x ws]; [split; discriminate|].
  destruct (str_eqb_spec x word) as [->|N]; split; congruence.
Qed.
Lemma accept_none word ws : accept word ws = None <-> forall r, ws <> word :: r.
Proof.
  split.
  - intros H r E. apply (accept_some word ws r) in E. congruence.
  - intros H. destruct (accept word ws) eqn:E; [|reflexivity]. apply accept_some in E. congruence.
Qed.
Lemma accept_hit word r : accept word (word :: r) = Some r.
Proof. apply accept_some. reflexivity. Qed.

Lemma stnze_agrees x y : agrees (test_eval w TO_STNZE x y) (Some (negb (str_eqb x []))).
Proof. destruct x; reflexivity. Qed.

(** one step of the parser *)
Lemma oexpr_S n de ws : oexpr w (S n) de ws =
  match aexpr w n de ws with
  | Some (res, err, ws) =>
    if err then Some (res, err, ws)
    else match accept (L "-o") ws with
         | Some ws => match oexpr w n (if res then false else de) ws with Some (r2, err, ws) => Some (r2 || res, err, ws) | None => None end
         | None => Some (res, false, ws)
         end
  | None => None
  end.
Proof. reflexivity. Qed.
Lemma aexpr_S n de ws : aexpr w (S n) de ws =
  match nexpr w n de ws with
  | Some (res, err, ws) =>
    if err then Some (res, err, ws)
    else match accept (L "-a") ws with
         | Some ws => match aexpr w n (if res then de else false) ws with Some (r2, err, ws) => Some (r2 && res, err, ws) | None => None end
         | None => Some (res, false, ws)
         end
  | None => None
  end.
Proof. reflexivity. Qed.
Lemma nexpr_S n de ws : nexpr w (S n) de ws =
  match accept (L "!") ws with
  | Some ws => match nexpr w n de ws with Some (r, err, ws) => Some (negb r, err, ws) | None => None end
  | None => primary w n de ws
  end.
Proof. reflexivity. Qed.
(** the primaries that are not parenthesised *)
Definition simple (de : bool) (ws : list cstr) : bool * bool * list cstr :=
  match ws with
  | [] => (false, true, [])
  | [x] => (eval_if w de TO_STNZE x [], [])
  | x :: y :: r =>
    match isop b_ops y with
    | Some op => match r with z :: r'' => (eval_if w de op x z, r'') | [] => (false, true, []) end
    | None => match isop u_ops x with
              | Some op => (eval_if w de op y [], r)
              | None => (eval_if w de TO_STNZE x [], y :: r)
              end
    end
  end.
Lemma primary_S n de ws : primary w (S n) de ws =
  match accept (L "(") ws with
  | Some ws =>
    match oexpr w n de ws with
    | Some (res, err, ws) =>
      if err then Some (false, true, ws)
      else match accept (L ")") ws with Some ws => Some (res, false, ws) | None => Some (false, true, ws) end
    | None => None
    end
  | None => Some (simple de ws)
  end.
Proof.
  cbn [primary]. destruct (accept (L "(") ws); [reflexivity|].
  destruct ws as [|x [|y r]]; cbn [simple]; try reflexivity.
  - destruct (eval_if w de TO_STNZE x []); reflexivity.
  - destruct (isop b_ops y) as [op|].
    + destruct r as [|z r]; [reflexivity|]. destruct (eval_if w de op x z); reflexivity.
    + destruct (isop u_ops x) as [op|].
      * destruct (eval_if w de op y []); reflexivity.
      * destruct (eval_if w de TO_STNZE x []); reflexivity.
Qed.

(** the fuel suffices and words are consumed *)
Lemma simple_len de ws : let '(r, rest) := simple de ws in (length rest <= length ws)%nat /\ (snd r = false -> (length rest < length ws)%nat).
Proof.
  destruct ws as [|x [|y r]]; cbn [simple]; [cbn; split; [lia|discriminate]|cbn; split; lia|].
  destruct (isop b_ops y); [destruct r as [|z r]; cbn; split; try lia; discriminate|].
  destruct (isop u_ops x); cbn; split; lia.
Qed.
Definition good (ws : list cstr) (r : option (bool * bool * list cstr)) : Prop :=
  exists v e rest, r = Some (v, e, rest) /\ (length rest <= length ws)%nat /\ (e = false -> (length rest < length ws)%nat).
Lemma enough : forall n de ws,
  (((4 * length ws + 4 <= n)%nat -> good ws (oexpr w n de ws)) /\ ((4 * length ws + 3 <= n)%nat -> good ws (aexpr w n de ws))) /\
  (((4 * length ws + 2 <= n)%nat -> good ws (nexpr w n de ws)) /\ ((4 * length ws + 1 <= n)%nat -> good ws (primary w n de ws))).
Proof.
  induction n as [|n IH]; intros de ws; [split; split; intros; lia|]. split; split; intros Hn.
  - rewrite oexpr_S. destruct (proj2 (proj1 (IH de ws)) ltac:(lia)) as (v & e & rest & -> & H1 & H2).
    destruct e; [exists v, true, rest; auto|]. specialize (H2 eq_refl).
    destruct (accept (L "-o") rest) as [r|] eqn:E; [|exists v, false, rest; auto].
    apply accept_some in E. subst rest. cbn [length] in *.
    destruct (proj1 (proj1 (IH (if v then false else de) r)) ltac:(lia)) as (v' & e' & rest' & -> & H1' & H2').
    eexists _, _, _. split; [reflexivity|]. split; [lia|]. intros _. lia.
  - rewrite aexpr_S. destruct (proj1 (proj2 (IH de ws)) ltac:(lia)) as (v & e & rest & -> & H1 & H2).
    destruct e; [exists v, true, rest; auto|]. specialize (H2 eq_refl).
    destruct (accept (L "-a") rest) as [r|] eqn:E; [|exists v, false, rest; auto].
    apply accept_some in E. subst rest. cbn [length] in *.
    destruct (proj2 (proj1 (IH (if v then de else false) r)) ltac:(lia)) as (v' & e' & rest' & -> & H1' & H2').
    eexists _, _, _. split; [reflexivity|]. split; [lia|]. intros _. lia.
  - rewrite nexpr_S. destruct (accept (L "!") ws) as [r|] eqn:E; [|apply (IH de ws); lia].
    apply accept_some in E. subst ws. cbn [length] in *.
    destruct (proj1 (proj2 (IH de r)) ltac:(lia)) as (v' & e' & rest' & -> & H1' & H2').
    eexists _, _, _. split; [reflexivity|]. split; [cbn [length]; lia|]. intros. cbn [length]. lia.
  - rewrite primary_S. destruct (accept (L "(") ws) as [r|] eqn:E.
    + apply accept_some in E. subst ws. cbn [length] in *.
      destruct (proj1 (proj1 (IH de r)) ltac:(lia)) as (v' & e' & rest' & -> & H1' & H2').
      destruct e'; [eexists _, _, _; split; [reflexivity|]; split; [cbn [length]; lia|discriminate]|]. specialize (H2' eq_refl).
      destruct (accept (L ")") rest') as [r2|] eqn:E2; [|eexists _, _, _; split; [reflexivity|]; split; [cbn [length]; lia|discriminate]].
      apply accept_some in E2. subst rest'. cbn [length] in *.
      eexists _, _, _. split; [reflexivity|]. split; [cbn [length]; lia|]. intros _. cbn [length]. lia.
    + pose proof (simple_len de ws) as H. destruct (simple de ws) as [[v e] rest].
      exists v, e, rest. destruct H as [Ha Hb]. split; [reflexivity|]. split; [exact Ha|]. cbn in Hb. intros ->. auto.
Qed.

(** what is read is an expression *)
Definition read (lvl : nat) (de : bool) (ws : list cstr) (v : bool) (rest : list cstr) : Prop :=
  exists e, ws = words e ++ rest /\ prec_ok lvl e /\ reading w e rest /\ (de = true -> truth w e = Some v).

Lemma eval_no_error de op x y f : agrees (test_eval w op x y) f -> forall v, eval_if w de op x y = (v, false) -> de = true -> f = Some v.
Proof.
  intros A v E ->. cbn in E. rewrite E in A. destruct f as [b|]; cbn in A; [injection A as ->; reflexivity|discriminate].
Qed.
Lemma simple_read de ws v rest : accept (L "(") ws = None -> accept (L "!") ws = None ->
  simple de ws = (v, false, rest) -> read 2 de ws v rest.
Proof.
  intros Np Nn E. rewrite accept_none in Np, Nn.
  assert (Hp : forall x r, ws = x :: r -> not_prefix x).
  { intros x r ->. split; intros ->; [eapply Nn|eapply Np]; reflexivity. }
  destruct ws as [|x [|y r]]; cbn [simple] in E; [discriminate| |].
  - injection E as E <-. exists (XStr x). split; [reflexivity|]. split; [exact I|]. split; [split; [eapply Hp; reflexivity|exact I]|].
    apply (eval_no_error _ _ _ _ _ (stnze_agrees x []) _ E).
  - destruct (isop b_ops y) as [op|] eqn:Eb.
    + destruct r as [|z r]; [discriminate|]. injection E as E <-. destruct (binop_some _ _ Eb) as (f & Hf & Ha).
      exists (XBin x y z). split; [reflexivity|]. split; [exact I|]. split.
      * split; [apply is_binary_isop; congruence|eapply Hp; reflexivity].
      * cbn [truth]. rewrite Hf. apply (eval_no_error _ _ _ _ _ (Ha x z) _ E).
    + assert (Nb : ~ is_binary w y) by (intros H; apply is_binary_isop in H; congruence).
      destruct (isop u_ops x) as [op|] eqn:Eu.
      * injection E as E <-. destruct (unop_some _ _ Eu) as (f & Hf & Ha).
        exists (XUn x y). split; [reflexivity|]. split; [exact I|]. split.
        { split; [apply is_unary_isop; congruence|exact Nb]. }
        cbn [truth]. rewrite Hf. apply (eval_no_error _ _ _ _ _ (Ha y []) _ E).
      * injection E as E <-. exists (XStr x). split; [reflexivity|]. split; [exact I|]. split.
        { split; [eapply Hp; reflexivity|]. split; [exact Nb|]. intros H. apply is_unary_isop in H. congruence. }
        apply (eval_no_error _ _ _ _ _ (stnze_agrees x []) _ E).
Qed.
Lemma prec_down e : forall a b, (a <= b)%nat -> prec_ok b e -> prec_ok a e.
Proof. destruct e; cbn; intros a b H P; try exact P; destruct P as [P1 P2]; (split; [lia|exact P2]). Qed.

Lemma sound : forall n de ws v rest,
  (oexpr w n de ws = Some (v, false, rest) -> read 0 de ws v rest) /\
  (aexpr w n de ws = Some (v, false, rest) -> read 1 de ws v rest) /\
  (nexpr w n de ws = Some (v, false, rest) -> read 2 de ws v rest) /\
  (accept (L "!") ws = None -> primary w n de ws = Some (v, false, rest) -> read 2 de ws v rest).
Proof.
  induction n as [|n IH]; intros de ws v rest; [repeat split; intros; discriminate|]. split; [|split; [|split]].
  - rewrite oexpr_S. destruct (aexpr w n de ws) as [[[v1 [|]] r1]|] eqn:E1; try discriminate.
    apply IH in E1. destruct E1 as (e1 & -> & P1 & R1 & T1).
    destruct (accept (L "-o") r1) as [r2|] eqn:Ea.
    + apply accept_some in Ea. subst r1.
      destruct (oexpr w n (if v1 then false else de) r2) as [[[v2 e2'] r3]|] eqn:E2; [|discriminate].
      intros [= Hv He Hr]. rewrite He, Hr in E2. apply IH in E2. destruct E2 as (e2 & -> & P2 & R2 & T2).
      exists (XOr e1 e2). split; [cbn [words]; rewrite <- !app_assoc; reflexivity|]. split; [cbn; auto|].
      split; [split; [exact R1|exact R2]|]. intros ->. cbn [truth]. rewrite (T1 eq_refl). subst v.
      destruct v1; [rewrite orb_true_r; reflexivity|]. rewrite (T2 eq_refl), orb_false_r. reflexivity.
    + intros [= -> ->]. exists e1. split; [reflexivity|]. split; [eapply prec_down; [|exact P1]; lia|]. split; [exact R1|exact T1].
  - rewrite aexpr_S. destruct (nexpr w n de ws) as [[[v1 [|]] r1]|] eqn:E1; try discriminate.
    apply IH in E1. destruct E1 as (e1 & -> & P1 & R1 & T1).
    destruct (accept (L "-a") r1) as [r2|] eqn:Ea.
    + apply accept_some in Ea. subst r1.
      destruct (aexpr w n (if v1 then de else false) r2) as [[[v2 e2'] r3]|] eqn:E2; [|discriminate].
      intros [= Hv He Hr]. rewrite He, Hr in E2. apply IH in E2. destruct E2 as (e2 & -> & P2 & R2 & T2).
      exists (XAnd e1 e2). split; [cbn [words]; rewrite <- !app_assoc; reflexivity|]. split; [cbn; auto|].
      split; [split; [exact R1|exact R2]|]. intros ->. cbn [truth]. rewrite (T1 eq_refl). subst v.
      destruct v1; [|rewrite andb_false_r; reflexivity]. rewrite (T2 eq_refl), andb_true_r. reflexivity.
    + intros [= -> ->]. exists e1. split; [reflexivity|]. split; [eapply prec_down; [|exact P1]; lia|]. split; [exact R1|exact T1].
  - rewrite nexpr_S. destruct (accept (L "!") ws) as [r|] eqn:Ea; [|apply IH; exact Ea].
    apply accept_some in Ea. subst ws. destruct (nexpr w n de r) as [[[v1 e1'] r1]|] eqn:E1; [|discriminate].
    intros [= Hv He Hr]. rewrite He, Hr in E1. apply IH in E1. destruct E1 as (e1 & -> & P1 & R1 & T1).
    exists (XNot e1). split; [reflexivity|]. split; [exact P1|]. split; [exact R1|].
    intros Hd. cbn [truth]. rewrite (T1 Hd). subst v. reflexivity.
  - intros Nn. rewrite primary_S. destruct (accept (L "(") ws) as [r|] eqn:Ea.
    + apply accept_some in Ea. subst ws. destruct (oexpr w n de r) as [[[v1 [|]] r1]|] eqn:E1; try discriminate.
      apply IH in E1. destruct E1 as (e1 & -> & P1 & R1 & T1).
      destruct (accept (L ")") r1) as [r2|] eqn:Ec; [|discriminate]. apply accept_some in Ec. subst r1. intros [= -> ->].
      exists (XPar e1). split; [cbn [words]; cbn; rewrite <- !app_assoc; reflexivity|]. split; [exact P1|]. split; [exact R1|exact T1].
    + intros [= E]. apply simple_read; auto.
Qed.

(** an expression is read as such *)
Definition stops (word : String.string) (rest : list cstr) : Prop := forall r, rest <> L word :: r.
(** outcome of reading [e] before [rest] *)
Definition outcome (de : bool) (e : texp) (rest : list cstr) (r : option (bool * bool * list cstr)) : Prop :=
  if de then match truth w e with
             | Some b => r = Some (b, false, rest)
             | None => exists v r', r = Some (v, true, r')
             end
  else exists v, r = Some (v, false, rest).
Lemma outcome_eval de op x y f rest e : agrees (test_eval w op x y) f -> truth w e = f -> outcome de e rest (Some (eval_if w de op x y, rest)).
Proof.
  intros A T. unfold outcome. destruct de; cbn [eval_if]; [|exists false; reflexivity].
  rewrite T. destruct f as [b|]; cbn in A; [rewrite A; reflexivity|].
  destruct (test_eval w op x y) as [v er]. cbn in A. subst. eauto.
Qed.
Lemma head_prefix e rest : exists x r, words e ++ rest = x :: r.
Proof. induction e in rest |- *; cbn; eauto; rewrite <- app_assoc; apply IHe1. Qed.

Lemma complete : forall e,
  (forall n de rest, (4 * length (words e ++ rest) + 4 <= n)%nat -> prec_ok 0 e -> reading w e rest -> stops "-a" rest -> stops "-o" rest -> outcome de e rest (oexpr w n de (words e ++ rest))) /\
  (forall n de rest, (4 * length (words e ++ rest) + 3 <= n)%nat -> prec_ok 1 e -> reading w e rest -> stops "-a" rest -> outcome de e rest (aexpr w n de (words e ++ rest))) /\
  (forall n de rest, (4 * length (words e ++ rest) + 2 <= n)%nat -> prec_ok 2 e -> reading w e rest -> outcome de e rest (nexpr w n de (words e ++ rest))).
Proof.
  (* the levels above follow from the lower ones for expressions that are not -o / -a *)
  assert (upA : forall e, (forall n de rest, (4 * length (words e ++ rest) + 2 <= n)%nat -> prec_ok 2 e -> reading w e rest -> outcome de e rest (nexpr w n de (words e ++ rest))) ->
     prec_ok 2 e -> forall n de rest, (4 * length (words e ++ rest) + 3 <= n)%nat -> reading w e rest -> stops "-a" rest -> outcome de e rest (aexpr w n de (words e ++ rest))).
  { intros e H P n de rest Hn R St. destruct n as [|n]; [lia|]. rewrite aexpr_S.
    specialize (H n de rest ltac:(lia) P R). unfold outcome in *. apply accept_none in St.
    destruct de; [destruct (truth w e) as [b|]|]; [rewrite H, St; reflexivity|destruct H as (v & r' & ->); eauto|destruct H as (v & ->); rewrite St; eauto]. }
  assert (upO : forall e, (forall n de rest, (4 * length (words e ++ rest) + 3 <= n)%nat -> prec_ok 1 e -> reading w e rest -> stops "-a" rest -> outcome de e rest (aexpr w n de (words e ++ rest))) ->
     prec_ok 1 e -> forall n de rest, (4 * length (words e ++ rest) + 4 <= n)%nat -> reading w e rest -> stops "-a" rest -> stops "-o" rest -> outcome de e rest (oexpr w n de (words e ++ rest))).
  { intros e H P n de rest Hn R Sa So. destruct n as [|n]; [lia|]. rewrite oexpr_S.
    specialize (H n de rest ltac:(lia) P R Sa). unfold outcome in *. apply accept_none in So.
    destruct de; [destruct (truth w e) as [b|]|]; [rewrite H, So; reflexivity|destruct H as (v & r' & ->); eauto|destruct H as (v & ->); rewrite So; eauto]. }
  assert (low : forall e, prec_ok 2 e -> (forall n de rest, (4 * length (words e ++ rest) + 2 <= n)%nat -> prec_ok 2 e -> reading w e rest -> outcome de e rest (nexpr w n de (words e ++ rest))) ->
    (forall n de rest, (4 * length (words e ++ rest) + 4 <= n)%nat -> prec_ok 0 e -> reading w e rest -> stops "-a" rest -> stops "-o" rest -> outcome de e rest (oexpr w n de (words e ++ rest))) /\
    (forall n de rest, (4 * length (words e ++ rest) + 3 <= n)%nat -> prec_ok 1 e -> reading w e rest -> stops "-a" rest -> outcome de e rest (aexpr w n de (words e ++ rest))) /\
    (forall n de rest, (4 * length (words e ++ rest) + 2 <= n)%nat -> prec_ok 2 e -> reading w e rest -> outcome de e rest (nexpr w n de (words e ++ rest)))).
  { intros e P H. split; [|split]; [| |exact H].
    - intros n de rest Hn _ R Sa So. apply upO; auto. eapply prec_down; [|exact P]; lia.
    - intros n de rest Hn _ R Sa. apply upA; auto. }
  assert (prim : forall e, (forall n de rest, (4 * length (words e ++ rest) + 1 <= n)%nat -> prec_ok 2 e -> reading w e rest -> outcome de e rest (primary w n de (words e ++ rest))) ->
    (forall rest, reading w e rest -> stops "!" (words e ++ rest)) ->
    (forall n de rest, (4 * length (words e ++ rest) + 2 <= n)%nat -> prec_ok 2 e -> reading w e rest -> outcome de e rest (nexpr w n de (words e ++ rest)))).
  { intros e H Sn n de rest Hn P R. destruct n as [|n]; [lia|]. rewrite nexpr_S.
    rewrite (proj2 (accept_none _ _) (Sn rest R)). apply H; auto; lia. }
  induction e as [a IHa b IHb|a IHa b IHb|a IHa|a IHa|op x|x op y|x].
  - (* -o *)
    split; [|split]; [|intros ? ? ? _ [P _]; discriminate P|intros ? ? ? _ [P _]; discriminate P].
    intros n de rest Hn (_ & Pa & Pb) [Ra Rb] Sa So. destruct n as [|n]; [lia|].
    assert (E : words (XOr a b) ++ rest = words a ++ L "-o" :: words b ++ rest) by (cbn; rewrite <- !app_assoc; reflexivity).
    rewrite E in Hn |- *. rewrite oexpr_S.
    assert (Ha := proj1 (proj2 IHa) n de (L "-o" :: words b ++ rest) ltac:(lia) Pa Ra ltac:(intros r; discriminate)).
    unfold outcome in *. rewrite !app_length in Hn. cbn [length] in Hn. rewrite !app_length in Hn.
    assert (Hb := fun de => proj1 IHb n de rest ltac:(rewrite app_length; lia) Pb Rb Sa So).
    destruct de.
    + cbn [truth]. destruct (truth w a) as [[|]|].
      * rewrite Ha, accept_hit. destruct (Hb false) as (v & ->). rewrite orb_true_r. reflexivity.
      * rewrite Ha, accept_hit. specialize (Hb true). cbn in Hb. destruct (truth w b) as [vb|].
        { rewrite Hb, orb_false_r. reflexivity. } { destruct Hb as (v & r' & ->). eauto. }
      * destruct Ha as (v & r' & ->). eauto.
    + destruct Ha as (v & ->). rewrite accept_hit. destruct (Hb false) as (v' & Hb'). destruct v; rewrite Hb'; eauto.
  - (* -a *)
    assert (HA : forall n de rest, (4 * length (words (XAnd a b) ++ rest) + 3 <= n)%nat -> prec_ok 1 (XAnd a b) -> reading w (XAnd a b) rest -> stops "-a" rest ->
       outcome de (XAnd a b) rest (aexpr w n de (words (XAnd a b) ++ rest))).
    { intros n de rest Hn (_ & Pa & Pb) [Ra Rb] Sa. destruct n as [|n]; [lia|].
      assert (E : words (XAnd a b) ++ rest = words a ++ L "-a" :: words b ++ rest) by (cbn; rewrite <- !app_assoc; reflexivity).
      rewrite E in Hn |- *. rewrite aexpr_S.
      assert (Ha := proj2 (proj2 IHa) n de (L "-a" :: words b ++ rest) ltac:(lia) Pa Ra).
      unfold outcome in *. rewrite !app_length in Hn. cbn [length] in Hn. rewrite !app_length in Hn.
      assert (Hb := fun de => proj1 (proj2 IHb) n de rest ltac:(rewrite app_length; lia) Pb Rb Sa).
      destruct de.
      + cbn [truth]. destruct (truth w a) as [[|]|].
        * rewrite Ha, accept_hit. specialize (Hb true). cbn in Hb. destruct (truth w b) as [vb|].
          { rewrite Hb, andb_true_r. reflexivity. } { destruct Hb as (v & r' & ->). eauto. }
        * rewrite Ha, accept_hit. destruct (Hb false) as (v & ->). rewrite andb_false_r. reflexivity.
        * destruct Ha as (v & r' & ->). eauto.
      + destruct Ha as (v & ->). rewrite accept_hit. destruct (Hb false) as (v' & Hb'). destruct v; rewrite Hb'; eauto. }
    split; [|split]; [|exact HA|intros ? ? ? _ [P _]; lia].
    intros n de rest Hn (_ & P) R Sa So. apply upO; auto. split; [lia|exact P].
  - (* ! *)
    assert (HN : forall n de rest, (4 * length (words (XNot a) ++ rest) + 2 <= n)%nat -> prec_ok 2 (XNot a) -> reading w (XNot a) rest -> outcome de (XNot a) rest (nexpr w n de (words (XNot a) ++ rest))).
    { intros n de rest Hn P R. destruct n as [|n]; [lia|]. change (words (XNot a) ++ rest) with (L "!" :: words a ++ rest) in *. cbn [length] in Hn.
      rewrite nexpr_S, accept_hit. assert (Ha := proj2 (proj2 IHa) n de rest ltac:(lia) P R). unfold outcome in *.
      destruct de; [cbn [truth]; destruct (truth w a) as [v|]; [rewrite Ha; reflexivity|destruct Ha as (v & r' & ->); cbn; eauto]|destruct Ha as (v & ->); eauto]. }
    split; [|split]; [| |exact HN]; intros n de rest Hn P R; [intros Sa So; apply upO|intros Sa; apply upA]; auto.
  - (* ( ) *)
    assert (HP : forall n de rest, (4 * length (words (XPar a) ++ rest) + 2 <= n)%nat -> prec_ok 2 (XPar a) -> reading w (XPar a) rest -> outcome de (XPar a) rest (nexpr w n de (words (XPar a) ++ rest))).
    { apply prim; [|intros rest _ r; discriminate]. intros n de rest Hn P R. destruct n as [|n]; [lia|].
      assert (E : words (XPar a) ++ rest = L "(" :: words a ++ L ")" :: rest) by (cbn; rewrite <- app_assoc; reflexivity).
      rewrite E in Hn |- *. cbn [length] in Hn. rewrite primary_S, accept_hit.
      assert (Ha := proj1 IHa n de (L ")" :: rest) ltac:(lia) P R ltac:(intros r; discriminate) ltac:(intros r; discriminate)). unfold outcome in *.
      destruct de; [cbn [truth]; destruct (truth w a) as [v|]; [rewrite Ha, accept_hit; reflexivity|destruct Ha as (v & r' & ->); eauto]|destruct Ha as (v & ->); rewrite accept_hit; eauto]. }
    split; [|split]; [| |exact HP]; intros n de rest Hn P R; [intros Sa So; apply upO|intros Sa; apply upA]; auto.
  - (* unary *)
    apply low; [exact I|]. apply prim.
    + intros n de rest Hn _ [Hu Nb]. destruct n as [|n]; [lia|]. cbn [words app]. rewrite primary_S.
      apply is_unary_isop in Hu. destruct (isop u_ops op) as [o|] eqn:Eu; [|congruence].
      assert (accept (L "(") (op :: x :: rest) = None) as ->.
      { apply accept_none. intros r E. injection E as -> _. vm_compute in Eu. discriminate. }
      unfold simple. destruct (isop b_ops x) eqn:Eb; [exfalso; apply Nb, is_binary_isop; congruence|]. rewrite Eu.
      destruct (unop_some _ _ Eu) as (f & Hf & Ha). eapply outcome_eval; [apply Ha|]. cbn. rewrite Hf. reflexivity.
    + intros rest [Hu _] r E. injection E as -> _. apply is_unary_isop in Hu. apply Hu. reflexivity.
  - (* binary *)
    apply low; [exact I|]. apply prim.
    + intros n de rest Hn _ [Hb [_ Np]]. destruct n as [|n]; [lia|]. cbn [words app]. rewrite primary_S.
      apply is_binary_isop in Hb. destruct (isop b_ops op) as [o|] eqn:Eb; [|congruence].
      assert (accept (L "(") (x :: op :: y :: rest) = None) as -> by (apply accept_none; intros r E; apply Np; congruence).
      unfold simple. rewrite Eb. destruct (binop_some _ _ Eb) as (f & Hf & Ha). eapply outcome_eval; [apply Ha|]. cbn. rewrite Hf. reflexivity.
    + intros rest [_ [Nn _]] r E. apply Nn. injection E as E _. exact E.
  - (* string *)
    apply low; [exact I|]. apply prim.
    + intros n de rest Hn _ [[_ Np] F]. destruct n as [|n]; [lia|]. cbn [words app]. rewrite primary_S.
      assert (accept (L "(") (x :: rest) = None) as -> by (apply accept_none; intros r E; apply Np; congruence).
      unfold simple. destruct rest as [|y r]; [apply (outcome_eval _ _ _ _ _ _ _ (stnze_agrees x [])); reflexivity|].
      destruct F as [F1 F2]. destruct (isop b_ops y) eqn:Eb; [exfalso; apply F1, is_binary_isop; congruence|].
      destruct (isop u_ops x) eqn:Eu; [exfalso; apply F2, is_unary_isop; congruence|].
      apply (outcome_eval _ _ _ _ _ _ _ (stnze_agrees x [])). reflexivity.
    + intros rest [[Nn _] _] r E. apply Nn. injection E as E _. exact E.
Qed.

Lemma test_parse_total ws : exists s, test_parse w ws = Some s /\ (s = 0 \/ s = 1 \/ s = 2).
Proof.
  unfold test_parse, fuel_for. destruct (proj1 (proj1 (enough (4 * S (length ws)) true ws)) ltac:(lia)) as (v & e & rest & -> & _).
  destruct e; [eauto|]. destruct rest; [|eauto]. destruct v; cbn; eauto.
Qed.
Lemma test_parse_complete ws e : parses w ws e -> test_parse w ws = Some (exit_status (truth w e)).
Proof.
  intros (-> & P & R). unfold test_parse, fuel_for.
  assert (H := proj1 (complete e) (4 * S (length (words e)))%nat true []). rewrite app_nil_r in H.
  specialize (H ltac:(lia) P R ltac:(intros r; discriminate) ltac:(intros r; discriminate)). unfold outcome in H.
  destruct (truth w e) as [[|]|]; [rewrite H; reflexivity|rewrite H; reflexivity|]. destruct H as (v & r' & ->). reflexivity.
Qed.
Lemma test_parse_sound ws s : test_parse w ws = Some s -> s <> 2 -> exists e, parses w ws e /\ s = exit_status (truth w e).
Proof.
  unfold test_parse. destruct (oexpr w (fuel_for ws) true ws) as [[[v [|]] rest]|] eqn:E; try discriminate; [congruence|].
  destruct rest; [|congruence]. intros [= <-] _. apply sound in E. destruct E as (e & -> & P & R & T). exists e.
  rewrite app_nil_r. split; [split; [reflexivity|split; assumption]|]. rewrite (T eq_refl). destruct v; reflexivity.
Qed.
End P.
