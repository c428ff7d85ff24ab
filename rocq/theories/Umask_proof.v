(** Proofs about umask. *)
From Verif Require Import Base Num_model Printf_model Umask_model Umask_spec.
Local Open Scope N_scope.

Lemma existsb_map {A B} (f : B -> bool) (g : A -> B) l : existsb f (map g l) = existsb (fun x => f (g x)) l.
Proof. induction l as [|x l IH]; cbn; [reflexivity|rewrite IH; reflexivity]. Qed.

(** * Bits *)
Lemma bit_lt w p : bit w p < 9.
Proof. destruct w, p; cbn; lia. Qed.
Lemma M32_bit i : i < 32 -> N.testbit M32 i = true.
Proof.
  intros H. change M32 with (N.ones 32). apply N.ones_spec_low. exact H.
Qed.
Lemma not32_bit m i : i < 32 -> N.testbit (not32 m) i = negb (N.testbit m i).
Proof.
  intros H. unfold not32. rewrite N.lxor_spec, N.land_spec, (M32_bit i H), andb_true_r. destruct (N.testbit m i); reflexivity.
Qed.
(** [m]'s bits are [a]. *)
Definition rep (m : N) (a : allows) : Prop := forall w p, N.testbit m (bit w p) = a w p.
Lemma rep_not32 m : rep (not32 m) (masked m).
Proof. intros w p. apply not32_bit. pose proof (bit_lt w p). lia. Qed.

(** The positions: one bit in each class's lowest place. *)
Definition posrep (pos : N) (f : who -> bool) : Prop :=
  N.land pos 73 = pos /\ forall w, N.testbit pos (bit w X) = f w.
Lemma pos_cases pos : N.land pos 73 = pos -> In pos [0; 1; 8; 9; 64; 65; 72; 73].
Proof.
  intros H. assert (L : pos < 74).
  { rewrite <- H. apply N.lt_le_trans with (2 ^ 7); [|lia] || idtac.
    assert (N.land pos 73 <= 73).
    { apply N.ldiff_le. apply N.bits_inj. intros i. rewrite N.ldiff_spec, N.land_spec, N.bits_0.
      destruct (N.testbit pos i), (N.testbit 73 i); reflexivity. }
    lia. }
  assert (K : forallb (fun p => negb (N.land p 73 =? p) || existsb (N.eqb p) [0; 1; 8; 9; 64; 65; 72; 73])
                (map N.of_nat (seq 0 74)) = true) by (vm_compute; reflexivity).
  rewrite forallb_forall in K. specialize (K pos).
  assert (IN : In pos (map N.of_nat (seq 0 74))).
  { apply in_map_iff. exists (N.to_nat pos). split; [apply N2Nat.id|]. apply in_seq. lia. }
  specialize (K IN). rewrite H, N.eqb_refl in K. cbn [negb orb] in K. apply existsb_exists in K. destruct K as [x [Hx E]].
  apply N.eqb_eq in E. subst. exact Hx.
Qed.
Lemma low_cases v : In (N.land v 7) [0; 1; 2; 3; 4; 5; 6; 7].
Proof.
  assert (H : N.land v 7 < 8).
  { change 7 with (N.ones 3). rewrite N.land_ones. apply N.mod_lt. discriminate. }
  destruct (N.land v 7) as [|[[[q|q|]|[q|q|]|]|[[q|q|]|[q|q|]|]|]]; cbn; try lia; auto 10.
Qed.
Lemma mul_bits v pos w p : N.land pos 73 = pos ->
  N.testbit (N.land v 7 * pos) (bit w p) = N.testbit pos (bit w X) && N.testbit v (bit O p).
Proof.
  intros H. apply pos_cases in H. pose proof (low_cases v) as L.
  assert (E : N.testbit v (bit O p) = N.testbit (N.land v 7) (bit O p)).
  { rewrite N.land_spec. destruct p; cbn; rewrite andb_true_r; reflexivity. }
  rewrite E. cbn [In] in H, L.
  repeat (destruct H as [<-|H]; [repeat (destruct L as [<-|L]; [destruct w, p; reflexivity|]); destruct L|]). destruct H.
Qed.
Lemma pos7_bits pos w p : N.land pos 73 = pos -> N.testbit (pos * 7) (bit w p) = N.testbit pos (bit w X).
Proof.
  intros H. apply pos_cases in H. cbn [In] in H.
  repeat (destruct H as [<-|H]; [destruct w, p; reflexivity|]). destruct H.
Qed.

Lemma apply_op_rep o pos v new f cur nm : posrep pos f -> rep new cur ->
  (forall p, N.testbit v (bit O p) = nm p) ->
  rep (apply_op (oper_text o) pos v new) (fun w q =>
    if f w then match o with Set_ => nm q | Add => cur w q || nm q | Remove => cur w q && negb (nm q) end else cur w q).
Proof.
  intros [P1 P2] Rn V w q. unfold apply_op. pose proof (bit_lt w q) as LT.
  destruct o; cbn [oper_text ceq]; cbv beta;
    [change (ceq "=" "-") with false; change (ceq "=" "=") with true
    |change (ceq "+" "-") with false; change (ceq "+" "=") with false
    |change (ceq "-" "-") with true]; cbn iota.
  - rewrite N.lor_spec, N.land_spec, not32_bit by lia. rewrite mul_bits, pos7_bits, P2, V, Rn by exact P1. destruct (f w), (nm q), (cur w q); reflexivity.
  - rewrite N.lor_spec, mul_bits, P2, V, Rn by exact P1. destruct (f w), (nm q), (cur w q); reflexivity.
  - rewrite N.land_spec, not32_bit by lia. rewrite mul_bits, P2, V, Rn by exact P1. destruct (f w), (nm q), (cur w q); reflexivity.
Qed.

(** * Scanning *)
Definition wbit (w : wchar) : N := match w with All => 73 | One U => 64 | One G => 8 | One O => 1 end.
Lemma who_bit_text w : who_bit (wchar_text w) = Some (wbit w).
Proof. destruct w as [|[]]; reflexivity. Qed.
Lemma who_bit_inv c b : who_bit c = Some b -> exists w, c = wchar_text w /\ b = wbit w.
Proof.
  unfold who_bit. destruct (ceq_spec c "a"%char) as [->|]; [intros E; injection E as <-; exists All; auto|].
  destruct (ceq_spec c "u"%char) as [->|]; [intros E; injection E as <-; exists (One U); auto|].
  destruct (ceq_spec c "g"%char) as [->|]; [intros E; injection E as <-; exists (One G); auto|].
  destruct (ceq_spec c "o"%char) as [->|]; [intros E; injection E as <-; exists (One O); auto|]. discriminate.
Qed.
Lemma scan_who_inv s : forall pos pos' r, scan_who pos s = (pos', r) ->
  exists ws, s = map wchar_text ws ++ r /\ pos' = fold_left N.lor (map wbit ws) pos.
Proof.
  induction s as [|c s IH]; intros pos pos' r E; cbn in E.
  - injection E as <- <-. exists []. auto.
  - destruct (who_bit c) as [b|] eqn:W.
    + destruct (IH _ _ _ E) as [ws [-> ->]]. apply who_bit_inv in W. destruct W as [w [-> ->]]. exists (w :: ws). auto.
    + injection E as <- <-. exists []. auto.
Qed.
Lemma scan_who_text ws : forall pos r, match r with c :: _ => who_bit c = None | [] => True end ->
  scan_who pos (map wchar_text ws ++ r) = (fold_left N.lor (map wbit ws) pos, r).
Proof.
  induction ws as [|w ws IH]; intros pos r H; cbn [map app scan_who fold_left].
  - destruct r as [|c r]; [reflexivity|]. cbn. rewrite H. reflexivity.
  - rewrite who_bit_text. apply IH. exact H.
Qed.

Definition pbit (old : N) (p : pchar) : N :=
  match p with
  | P R => 4 | P W => 2 | P X => 1
  | Copy U => N.shiftr old 6 | Copy G => N.shiftr old 3 | Copy O => old
  | BigX => if N.land old 73 =? 0 then 0 else 1 | Sticky => 0
  end.
Lemma perm_bits_text old p : perm_bits old (pchar_text p) = Some (pbit old p).
Proof. destruct p as [[]|[]| |]; reflexivity. Qed.
Lemma perm_bits_inv old c b : perm_bits old c = Some b -> exists p, c = pchar_text p /\ b = pbit old p.
Proof.
  unfold perm_bits.
  destruct (ceq_spec c "r"%char) as [->|]; [intros E; injection E as <-; exists (P R); auto|].
  destruct (ceq_spec c "w"%char) as [->|]; [intros E; injection E as <-; exists (P W); auto|].
  destruct (ceq_spec c "x"%char) as [->|]; [intros E; injection E as <-; exists (P X); auto|].
  destruct (ceq_spec c "u"%char) as [->|]; [intros E; injection E as <-; exists (Copy U); auto|].
  destruct (ceq_spec c "g"%char) as [->|]; [intros E; injection E as <-; exists (Copy G); auto|].
  destruct (ceq_spec c "o"%char) as [->|]; [intros E; injection E as <-; exists (Copy O); auto|].
  destruct (ceq_spec c "X"%char) as [->|]; [intros E; injection E as <-; exists BigX; auto|].
  destruct (ceq_spec c "s"%char) as [->|]; [intros E; injection E as <-; exists Sticky; auto|]. discriminate.
Qed.
Lemma scan_perms_inv old s : forall v v' r, scan_perms old v s = (v', r) -> exists ps, s = map pchar_text ps ++ r.
Proof.
  induction s as [|c s IH]; intros v v' r E; cbn in E.
  - injection E as <- <-. exists []. auto.
  - destruct (perm_bits old c) as [b|] eqn:W.
    + destruct (IH _ _ _ E) as [ps ->]. apply perm_bits_inv in W. destruct W as [p [-> _]]. exists (p :: ps). auto.
    + injection E as <- <-. exists []. auto.
Qed.
Lemma scan_perms_text old ps : forall v r, match r with c :: _ => perm_bits old c = None | [] => True end ->
  scan_perms old v (map pchar_text ps ++ r) = (fold_left N.lor (map (pbit old) ps) v, r).
Proof.
  induction ps as [|w ps IH]; intros v r H; cbn [map app scan_perms fold_left].
  - destruct r as [|c r]; [reflexivity|]. cbn. rewrite H. reflexivity.
  - rewrite perm_bits_text. apply IH. exact H.
Qed.
Lemma is_op_inv c : is_op c = true -> exists o, c = oper_text o.
Proof.
  unfold is_op. destruct (ceq_spec c "="%char) as [->|]; [exists Set_; reflexivity|].
  destruct (ceq_spec c "+"%char) as [->|]; [exists Add; reflexivity|].
  destruct (ceq_spec c "-"%char) as [->|]; [exists Remove; reflexivity|]. discriminate.
Qed.
Lemma is_op_text o : is_op (oper_text o) = true /\ who_bit (oper_text o) = None
  /\ (forall old, perm_bits old (oper_text o) = None) /\ ceq (oper_text o) "," = false.
Proof. destruct o; cbn; auto. Qed.

(** What the scanned numbers stand for. *)
Lemma fold_lor_bits l : forall a i, N.testbit (fold_left N.lor l a) i = N.testbit a i || existsb (fun b => N.testbit b i) l.
Proof.
  induction l as [|x l IH]; intros a i; cbn [fold_left existsb]; [rewrite orb_false_r; reflexivity|].
  rewrite IH, N.lor_spec, orb_assoc. reflexivity.
Qed.
Lemma named_bits old a ps p : rep old a ->
  N.testbit (fold_left N.lor (map (pbit old) ps) 0) (bit O p) = existsb (fun c => names a c p) ps.
Proof.
  intros H. rewrite fold_lor_bits, N.bits_0. cbn [orb]. rewrite existsb_map.
  assert (E : forall c, N.testbit (pbit old c) (bit O p) = names a c p).
  { intros [q|w| |]; cbn [pbit names].
    - destruct q, p; reflexivity.
    - destruct w; rewrite ?N.shiftr_spec' ; rewrite <- H; destruct p; reflexivity.
    - assert (Z : (N.land old 73 =? 0) = negb (a U X || a G X || a O X)).
      { rewrite <- !H. destruct (N.eqb_spec (N.land old 73) 0) as [E|E].
        - assert (B : forall i, N.testbit 73 i = true -> N.testbit old i = false).
          { intros i T. apply (f_equal (fun x => N.testbit x i)) in E. rewrite N.land_spec, N.bits_0, T, andb_true_r in E. exact E. }
          change (bit U X) with 6. change (bit G X) with 3. change (bit O X) with 0. rewrite (B 6), (B 3), (B 0) by reflexivity. reflexivity.
        - destruct (N.testbit old (bit U X)) eqn:B6, (N.testbit old (bit G X)) eqn:B3, (N.testbit old (bit O X)) eqn:B0; try reflexivity.
          exfalso. apply E. apply N.bits_inj. intros i. rewrite N.land_spec, N.bits_0.
          destruct (N.testbit 73 i) eqn:T; [|apply andb_false_r]. rewrite andb_true_r.
          destruct (N.lt_ge_cases i 7) as [LT|GE].
          + assert (I : In i [0; 1; 2; 3; 4; 5; 6]).
            { destruct i as [|[[q|q|]|[q|q|]|]]; cbn; try lia; destruct q; cbn; try lia; auto 10. }
            cbn [In] in I. change (bit U X) with 6 in B6. change (bit G X) with 3 in B3. change (bit O X) with 0 in B0.
            repeat (destruct I as [<-|I]; [first [assumption|discriminate T]|]). destruct I.
          + rewrite N.bits_above_log2 in T; [discriminate|]. change (N.log2 73) with 6. lia. }
      rewrite Z. destruct (a U X || a G X || a O X); destruct p; reflexivity.
    - apply N.bits_0. }
  induction ps as [|c ps IH]; [reflexivity|]. cbn [existsb]. rewrite E, IH. reflexivity.
Qed.
Lemma who_pos ws : let p := fold_left N.lor (map wbit ws) 0 in
  posrep (if p =? 0 then 73 else p) (concerns ws) /\ (ws <> [] -> p <> 0).
Proof.
  intros p.
  assert (B : forall w, N.testbit p (bit w X) = existsb (fun c => match c with All => true | One v => weq v w end) ws).
  { intros w. subst p. rewrite fold_lor_bits, N.bits_0, existsb_map. cbn [orb]. induction ws as [|c ws IH]; [reflexivity|].
    cbn [existsb]. rewrite IH. f_equal. destruct c as [|[]], w; reflexivity. }
  assert (S73 : N.land p 73 = p).
  { subst p. clear. assert (K : forall l a, N.land a 73 = a -> N.land (fold_left N.lor (map wbit l) a) 73 = fold_left N.lor (map wbit l) a).
    { induction l as [|c l IH]; intros a E; [exact E|]. cbn [map fold_left]. apply IH. rewrite N.land_lor_distr_l, E. f_equal. destruct c as [|[]]; reflexivity. }
    apply K. reflexivity. }
  destruct ws as [|c ws].
  - cbn in p. subst p. cbn. split; [|congruence]. split; [reflexivity|]. intros []; reflexivity.
  - assert (NZ : p <> 0).
    { intros E. assert (exists w, N.testbit p (bit w X) = true) as [w T].
      { destruct c as [|v]; [exists U; rewrite B; reflexivity|]. exists v. rewrite B. cbn. destruct v; reflexivity. }
      rewrite E, N.bits_0 in T. discriminate. }
    split; [|intros _; exact NZ]. destruct (N.eqb_spec p 0) as [E|_]; [contradiction|]. split; [exact S73|]. intros w. rewrite B. reflexivity.
Qed.

(** * One action *)
Lemma sym_action f old new pos ws a tail :
  match tail with c :: _ => perm_bits old c = None | [] => True end ->
  symbolic (S f) old new pos (map wchar_text ws ++ action_text a ++ tail) =
  let p := fold_left N.lor (map wbit ws) pos in
  let p := if p =? 0 then 73 else p in
  let new := apply_op (oper_text (fst a)) p (fold_left N.lor (map (pbit old) (snd a)) 0) new in
  match tail with
  | [] => Some (UOk (not32 new))
  | c :: r' => if ceq c "," then symbolic f old new 0 r' else if is_op c then symbolic f old new p tail else Some UBad
  end.
Proof.
  intros T. destruct a as [o ps]. destruct (is_op_text o) as [O1 [O2 [O3 O4]]]. cbn [action_text fst snd].
  unfold action_text. cbn [fst snd symbolic].
  destruct (map wchar_text ws ++ (oper_text o :: map pchar_text ps) ++ tail) as [|c0 s0] eqn:Es; [destruct ws; discriminate|].
  rewrite <- Es. clear Es c0 s0. rewrite scan_who_text by exact O2. cbn [app]. rewrite O1, scan_perms_text by exact T. reflexivity.
Qed.

(** Whole texts. *)
Lemma action_step old new a cur pos f ws : rep old a -> rep new cur -> posrep pos (concerns ws) ->
  rep (apply_op (oper_text (fst f)) pos (fold_left N.lor (map (pbit old) (snd f)) 0) new) (act a ws cur f).
Proof.
  intros Ro Rn Hp w q. destruct f as [o ps]. cbn [fst snd].
  rewrite (apply_op_rep o pos _ new (concerns ws) cur (fun q => existsb (fun p => names a p q) ps) Hp Rn).
  - reflexivity.
  - intros p. apply named_bits, Ro.
Qed.
Lemma head_op y acts tail (A : Type) (n : A) (f : cstr -> A) (g b : A) :
  match concat (map action_text (y :: acts)) ++ tail with
  | [] => n
  | c :: r => if ceq c "," then f r else if is_op c then g else b
  end = g.
Proof. cbn [map concat]. unfold action_text at 1. cbn [app]. destruct (is_op_text (fst y)) as [-> [_ [_ ->]]]. reflexivity. Qed.
(** The end of a clause, from its second action on. *)
Lemma sym_more old a ws pos : rep old a -> posrep pos (concerns ws) -> pos <> 0 ->
  forall acts f new cur tail, rep new cur -> (length acts <= f)%nat ->
  (tail = [] \/ exists r, tail = ","%char :: r) -> acts <> [] ->
  exists new', rep new' (fold_left (act a ws) acts cur) /\
    symbolic f old new pos (concat (map action_text acts) ++ tail) =
    match tail with [] => Some (UOk (not32 new')) | _ :: r => symbolic (f - length acts) old new' 0 r end.
Proof.
  intros Ro Hp NZ. induction acts as [|x acts IH]; intros f new cur tail Rn Lf T NE; [congruence|].
  destruct f as [|f]; [cbn in Lf; lia|]. cbn [map concat length fold_left]. rewrite <- app_assoc.
  set (new1 := apply_op (oper_text (fst x)) pos (fold_left N.lor (map (pbit old) (snd x)) 0) new).
  assert (R1 : rep new1 (act a ws cur x)) by (apply action_step; assumption).
  assert (SA : forall tl, match tl with c :: _ => perm_bits old c = None | [] => True end ->
    symbolic (S f) old new pos (action_text x ++ tl) = match tl with
      | [] => Some (UOk (not32 new1))
      | c :: r' => if ceq c "," then symbolic f old new1 0 r' else if is_op c then symbolic f old new1 pos tl else Some UBad end).
  { intros tl Htl. pose proof (sym_action f old new pos [] x tl Htl) as Q. cbn [map app fold_left] in Q. rewrite Q. cbv zeta.
    destruct (N.eqb_spec pos 0) as [E|_]; [contradiction|]. reflexivity. }
  destruct acts as [|y acts].
  - cbn [map concat app fold_left]. exists new1. split; [exact R1|]. rewrite SA; [|destruct T as [->|[r ->]]; [exact I|reflexivity]].
    destruct T as [->|[r ->]]; [reflexivity|]. change (ceq "," ",") with true. cbn [length]. replace (S f - 1)%nat with f by lia. reflexivity.
  - destruct (is_op_text (fst y)) as [O1 [O2 [O3 O4]]].
    destruct (IH f new1 (act a ws cur x) tail R1 ltac:(cbn [length] in *; lia) T ltac:(discriminate)) as [new' [R' E']].
    exists new'. split; [exact R'|]. rewrite SA; [|cbn; apply O3]. rewrite head_op. exact E'.
Qed.
Lemma sym_clause old a c f new cur tail : rep old a -> rep new cur -> (length (first c :: more c) <= f)%nat ->
  (tail = [] \/ exists r, tail = ","%char :: r) ->
  exists new', rep new' (clause_sem a cur c) /\
    symbolic f old new 0 (clause_text c ++ tail) =
    match tail with [] => Some (UOk (not32 new')) | _ :: r => symbolic (f - length (first c :: more c)) old new' 0 r end.
Proof.
  intros Ro Rn Lf T. destruct c as [ws x acts]. cbn [first more cwho] in *. unfold clause_text, clause_sem. cbn [first more cwho].
  destruct f as [|f]; [cbn in Lf; lia|]. cbn [map concat fold_left length] in *. rewrite <- !app_assoc.
  destruct (who_pos ws) as [Hp NZ0]. set (p0 := fold_left N.lor (map wbit ws) 0) in *. set (pos := if p0 =? 0 then 73 else p0) in *.
  assert (NZ : pos <> 0) by (subst pos; destruct (N.eqb_spec p0 0); [discriminate|assumption]).
  set (new1 := apply_op (oper_text (fst x)) pos (fold_left N.lor (map (pbit old) (snd x)) 0) new).
  assert (R1 : rep new1 (act a ws cur x)) by (apply action_step; assumption).
  destruct acts as [|y acts].
  - cbn [map concat app]. rewrite sym_action; [|destruct T as [->|[r ->]]; [exact I|reflexivity]]. cbv zeta. fold p0. fold pos. fold new1.
    exists new1. split; [exact R1|]. destruct T as [->|[r ->]]; [reflexivity|]. change (ceq "," ",") with true. cbn [length].
    replace (S f - 1)%nat with f by lia. reflexivity.
  - destruct (is_op_text (fst y)) as [O1 [O2 [O3 O4]]].
    destruct (sym_more old a ws pos Ro Hp NZ (y :: acts) f new1 _ tail R1 ltac:(cbn [length] in *; lia) T ltac:(discriminate)) as [new' [R' E']].
    exists new'. split; [exact R'|]. rewrite sym_action; [|cbn; apply O3]. cbv zeta. fold p0. fold pos. fold new1.
    rewrite head_op. exact E'.
Qed.
Lemma clause_text_len c : (length (first c :: more c) <= length (clause_text c))%nat.
Proof.
  unfold clause_text. rewrite app_length. assert (K : forall l, (length l <= length (concat (map action_text l)))%nat).
  { induction l as [|x l IH]; [cbn; lia|]. cbn [map concat]. rewrite app_length. unfold action_text at 1. cbn [length]. lia. }
  pose proof (K (first c :: more c)). lia.
Qed.
Lemma sym_valid old a s cs : rep old a -> valid s cs -> forall f new cur, rep new cur -> (length s < f)%nat ->
  exists new', rep new' (fold_left (clause_sem a) cs cur) /\ symbolic f old new 0 s = Some (UOk (not32 new')).
Proof.
  intros Ro V. induction V as [|c|c s cs V IH]; intros f new cur Rn Lf.
  - destruct f as [|f]; [lia|]. exists new. split; [exact Rn|reflexivity].
  - pose proof (clause_text_len c). destruct (sym_clause old a c f new cur [] Ro Rn ltac:(lia) ltac:(auto)) as [new' [R' E']].
    rewrite app_nil_r in E'. exists new'. split; [exact R'|exact E'].
  - pose proof (clause_text_len c). rewrite app_length in Lf. cbn [length] in Lf.
    destruct (sym_clause old a c f new cur (","%char :: s) Ro Rn ltac:(lia) ltac:(eauto)) as [new1 [R1 E1]].
    destruct (IH (f - length (first c :: more c))%nat new1 _ R1 ltac:(lia)) as [new' [R' E']].
    exists new'. split; [exact R'|]. rewrite E1. exact E'.
Qed.
Lemma sym_cut old s : cut_short s -> forall f new, (length s < f)%nat -> symbolic f old new 0 s = Some UOob.
Proof.
  intros V. induction V as [ws NE|c s V IH]; intros f new Lf.
  - destruct f as [|f]; [lia|]. cbn [symbolic]. destruct (map wchar_text ws) as [|c0 s0] eqn:E; [destruct ws; [congruence|discriminate]|].
    rewrite <- E. clear E. pose proof (scan_who_text ws 0 [] I) as Q. rewrite app_nil_r in Q. rewrite Q. reflexivity.
  - pose proof (clause_text_len c). rewrite app_length in Lf. cbn [length] in Lf.
    destruct (sym_clause old (fun w p => N.testbit old (bit w p)) c f new (fun w p => N.testbit new (bit w p)) (","%char :: s)
      ltac:(intros w p; reflexivity) ltac:(intros w p; reflexivity) ltac:(lia) ltac:(eauto)) as [new1 [R1 E1]].
    rewrite E1. apply IH. lia.
Qed.

(** * The converse *)
Definition Q0 (s : cstr) (r : ures) : Prop :=
  match r with UOk _ => exists cs, valid s cs | UOob => cut_short s | UBad => True end.
Definition Q1 (s : cstr) (r : ures) : Prop :=
  match r with
  | UOk _ => exists x acts tail, s = concat (map action_text (x :: acts)) ++ tail
       /\ (tail = [] \/ exists r cs, tail = ","%char :: r /\ valid r cs)
  | UOob => exists x acts r, s = concat (map action_text (x :: acts)) ++ ","%char :: r /\ cut_short r
  | UBad => True
  end.
Lemma Q1_cons x s r : Q1 s r -> Q1 (action_text x ++ s) r.
Proof.
  destruct r; cbn [Q1]; auto.
  - intros [y [acts [tail [-> T]]]]. exists x, (y :: acts), tail. split; [|exact T]. cbn [map concat]. rewrite <- !app_assoc. reflexivity.
  - intros [y [acts [tail [-> T]]]]. exists x, (y :: acts), tail. split; [|exact T]. cbn [map concat]. rewrite <- !app_assoc. reflexivity.
Qed.
Lemma Q1_Q0 ws s r : Q1 s r -> Q0 (map wchar_text ws ++ s) r.
Proof.
  destruct r; cbn [Q0 Q1]; auto.
  - intros [y [acts [tail [-> T]]]]. set (c := Clause ws y acts).
    assert (E : map wchar_text ws ++ concat (map action_text (y :: acts)) ++ tail = clause_text c ++ tail)
      by (unfold clause_text; cbn [cwho first more]; rewrite <- app_assoc; reflexivity).
    rewrite E. destruct T as [->|[r [cs [-> V]]]].
    + exists [c]. rewrite app_nil_r. constructor.
    + exists (c :: cs). constructor. exact V.
  - intros [y [acts [tail [-> T]]]]. set (c := Clause ws y acts).
    assert (E : map wchar_text ws ++ concat (map action_text (y :: acts)) ++ ","%char :: tail = clause_text c ++ ","%char :: tail)
      by (unfold clause_text; cbn [cwho first more]; rewrite <- app_assoc; reflexivity).
    rewrite E. constructor. exact T.
Qed.
Lemma sym_sound f : forall old new pos s r, symbolic f old new pos s = Some r ->
  (pos = 0 -> Q0 s r) /\ (match s with c :: _ => is_op c = true | [] => False end -> Q1 s r).
Proof.
  induction f as [|f IH]; intros old new pos s r E; [discriminate|]. cbn [symbolic] in E.
  destruct s as [|c0 s0] eqn:Es.
  { injection E as <-. split; [|intros []]. intros _. cbn. exists []. constructor. }
  rewrite <- Es in *. assert (NEs : s <> []) by (rewrite Es; discriminate).
  destruct (scan_who pos s) as [pos1 s1] eqn:SW. pose proof (scan_who_inv _ _ _ _ SW) as [ws [E1 E2]].
  set (pos2 := if pos1 =? 0 then 73 else pos1) in *.
  assert (WN : match s with c :: _ => is_op c = true | [] => False end -> ws = []).
  { rewrite E1. destruct ws as [|w ws]; [reflexivity|]. cbn. destruct w as [|[]]; discriminate. }
  destruct s1 as [|op s2].
  { injection E as <-. rewrite app_nil_r in E1. split.
    - intros _. cbn. rewrite E1. constructor. intros X. rewrite X in E1. cbn in E1. contradiction.
    - intros H. assert (WN1 : ws = []) by (apply WN; rewrite Es; exact H). clear WN; rename WN1 into WN. rewrite WN in E1. cbn in E1. contradiction. }
  assert (MAIN : Q1 (op :: s2) r).
  { destruct (is_op op) eqn:IO; [|injection E as <-; exact I].
    destruct (is_op_inv _ IO) as [o ->]. destruct (scan_perms old 0 s2) as [v s3] eqn:SP.
    destruct (scan_perms_inv _ _ _ _ _ SP) as [ps ->].
    change (oper_text o :: map pchar_text ps ++ s3) with (action_text (o, ps) ++ s3).
    destruct s3 as [|c s3].
    - injection E as <-. cbn. exists (o, ps), [], []. cbn. split; [rewrite !app_nil_r; reflexivity|auto].
    - destruct (ceq_spec c ","%char) as [->|NC].
      + destruct (IH _ _ _ _ _ E) as [H _]. specialize (H eq_refl). destruct r; cbn [Q0 Q1] in *; [|exact I|].
        * destruct H as [cs V]. exists (o, ps), [], (","%char :: s3). cbn [map concat]. rewrite app_nil_r. split; [reflexivity|]. right. eauto.
        * exists (o, ps), [], s3. cbn [map concat]. rewrite app_nil_r. split; [reflexivity|exact H].
      + destruct (is_op c) eqn:IC; [|injection E as <-; exact I].
        destruct (IH _ _ _ _ _ E) as [_ H]. apply Q1_cons. apply H. exact IC. }
  split.
  - intros _. rewrite E1. apply Q1_Q0. exact MAIN.
  - intros H. assert (WN1 : ws = []) by (apply WN; rewrite Es; exact H). clear WN; rename WN1 into WN. subst ws. cbn in E1. rewrite E1. exact MAIN.
Qed.
Lemma sym_fuel f : forall old new pos s, (length s < f)%nat -> symbolic f old new pos s <> None.
Proof.
  induction f as [|f IH]; intros old new pos s Lf; [lia|]. cbn [symbolic]. destruct s as [|c0 s0] eqn:Es; [discriminate|].
  rewrite <- Es in *. clear Es.
  destruct (scan_who pos s) as [pos1 s1] eqn:SW. pose proof (scan_who_inv _ _ _ _ SW) as [ws [E1 E2]].
  destruct s1 as [|op s2]; [discriminate|]. destruct (is_op op); [|discriminate].
  destruct (scan_perms old 0 s2) as [v s3] eqn:SP. destruct (scan_perms_inv _ _ _ _ _ SP) as [ps ->].
  destruct s3 as [|c s3]; [discriminate|]. rewrite E1 in Lf. rewrite app_length in Lf. cbn [length] in Lf. rewrite app_length in Lf. cbn [length] in Lf.
  destruct (ceq c ","); [apply IH; lia|]. destruct (is_op c); [apply IH; cbn [length]; lia|discriminate].
Qed.
