(** C47: umask. *)
From Verif Require Import Base Num_model Printf_model Umask_model Umask_spec Umask_proof.
Local Open Scope N_scope.

Lemma sys_bit m w p : N.testbit (sys_umask m) (bit w p) = N.testbit m (bit w p).
Proof. unfold sys_umask. rewrite N.land_spec. destruct w, p; cbn; rewrite andb_true_r; reflexivity. Qed.
Lemma sys_lt m : sys_umask m < 512.
Proof. unfold sys_umask. change 511 with (N.ones 9). rewrite N.land_ones. apply N.mod_lt. discriminate. Qed.
Lemma masked_rep n m a : rep n a -> m = sys_umask (not32 n) -> forall w p, masked m w p = a w p.
Proof.
  intros H -> w p. unfold masked. rewrite sys_bit, not32_bit by (pose proof (bit_lt w p); lia).
  rewrite negb_involutive. apply H.
Qed.
Lemma not_digit_valid s cs : valid s cs -> match s with c :: _ => isdigit c = false | [] => True end.
Proof.
  assert (K : forall c r, match clause_text c ++ r with c :: _ => isdigit c = false | [] => True end).
  { intros [ws [o ps] acts] r. unfold clause_text. cbn [cwho first]. destruct ws as [|[|[]] ws]; cbn; try reflexivity. destruct o; reflexivity. }
  intros V. destruct V as [|c|c s cs V]; [exact I| |apply K]. rewrite <- (app_nil_r (clause_text c)). apply K.
Qed.

(** Every well-formed symbolic argument sets the mask that its clauses describe: exactly the
    named permissions of the named classes change, and u, g, o and X speak of the old mask. *)
Theorem c47_symbolic : forall mask s cs, valid s cs ->
  exists m, c_umask mask s = Some (UOk m) /\ m < 512 /\ forall w p, masked m w p = sem (masked mask) cs w p.
Proof.
  intros mask s cs V. pose proof (not_digit_valid s cs V) as ND.
  destruct (sym_valid (not32 mask) (masked mask) s cs (rep_not32 mask) V (S (length s)) (not32 mask) (masked mask) (rep_not32 mask) ltac:(lia)) as [n [Rn E]].
  exists (sys_umask (not32 n)). split.
  - unfold c_umask. destruct s as [|c r]; [cbn [length] in E; rewrite E; reflexivity|]. rewrite ND, E. reflexivity.
  - split; [apply sys_lt|]. apply (masked_rep n); [exact Rn|reflexivity].
Qed.
Print Assumptions c47_symbolic.

(** Any other argument is refused, the mask unchanged, with one exception. *)
Theorem c47_refused : forall mask s, match s with c :: _ => isdigit c = false | [] => True end ->
  ((exists m, c_umask mask s = Some (UOk m)) <-> exists cs, valid s cs)
  /\ (c_umask mask s = Some UOob <-> cut_short s)
  /\ ((~ exists cs, valid s cs) -> ~ cut_short s -> c_umask mask s = Some UBad).
Proof.
  intros mask s ND.
  assert (E : c_umask mask s = option_map (fun r => match r with UOk m => UOk (sys_umask m) | r => r end)
      (symbolic (S (length s)) (not32 mask) (not32 mask) 0 s)).
  { unfold c_umask. destruct s as [|c r]; [reflexivity|]. rewrite ND. reflexivity. }
  pose proof (sym_fuel (S (length s)) (not32 mask) (not32 mask) 0 s ltac:(lia)) as NF.
  destruct (symbolic (S (length s)) (not32 mask) (not32 mask) 0 s) as [r|] eqn:S1; [|congruence].
  destruct (sym_sound _ _ _ _ _ _ S1) as [Q _]. specialize (Q eq_refl).
  assert (VO : (exists cs, valid s cs) -> exists m, r = UOk m).
  { intros [cs V]. destruct (sym_valid _ _ s cs (rep_not32 mask) V (S (length s)) (not32 mask) (masked mask) (rep_not32 mask) ltac:(lia)) as [n [_ E']].
    rewrite S1 in E'. injection E' as ->. eauto. }
  assert (CO : cut_short s -> r = UOob).
  { intros C. pose proof (sym_cut (not32 mask) s C (S (length s)) (not32 mask) ltac:(lia)) as E'. rewrite S1 in E'. injection E' as ->. reflexivity. }
  rewrite E. cbn [option_map]. split; [|split].
  - split; [|intros V; destruct (VO V) as [m ->]; eauto]. intros [m X]. destruct r; try discriminate. exact Q.
  - split; [|intros C; rewrite (CO C); reflexivity]. intros X. destruct r; try discriminate. exact Q.
  - intros NV NC. destruct r; [destruct (NV Q)|reflexivity|destruct (NC Q)].
Qed.
Print Assumptions c47_refused.

(** umask u (classes and nothing else) makes the loop step over the end of the argument. *)
Theorem c47_oob_refuted : c_umask 18 (L "u") = Some UOob /\ c_umask 18 (L "u=rwx,g") = Some UOob.
Proof. vm_compute. auto. Qed.
Print Assumptions c47_oob_refuted.

Example c47_ex : valid (L "u=rwx,g+w-x,o=u,") [Clause [One U] (Set_, [P R; P W; P X]) [];
    Clause [One G] (Add, [P W]) [(Remove, [P X])]; Clause [One O] (Set_, [Copy U]) []]
  /\ c_umask 18 (L "u=rwx,g+w-x,o=u,") = Some (UOk 8) /\ c_umask 18 (L "a=rwx") = Some (UOk 0)
  /\ c_umask 18 (L "u=q") = Some UBad /\ c_umask 63 (L "o=g,+X") = Some (UOk 54).
Proof.
  split.
  - apply (VMore (Clause [One U] (Set_, [P R; P W; P X]) []) (L "g+w-x,o=u,")).
    apply (VMore (Clause [One G] (Add, [P W]) [(Remove, [P X])]) (L "o=u,")).
    apply (VMore (Clause [One O] (Set_, [Copy U]) []) []). constructor.
  - vm_compute. auto.
Qed.

(** The numeric form. *)
Definition octval (s : cstr) : Z := fold_left (fun a c => a * 8 + (Z.of_nat (code c) - 48))%Z s 0%Z.
Lemma octal_ok s : forall acc, forallb isoct s = true -> acc <= M32 ->
  (fold_left (fun a c => a * 8 + (Z.of_nat (code c) - 48)) s (Z.of_N acc) < 2 ^ 32)%Z ->
  octal acc s = UOk (Z.to_N (fold_left (fun a c => a * 8 + (Z.of_nat (code c) - 48)) s (Z.of_N acc)))%Z.
Proof.
  induction s as [|c s IH]; intros acc F LE LT; cbn [octal fold_left] in *; [rewrite N2Z.id; reflexivity|].
  cbn [forallb] in F. apply andb_prop in F. destruct F as [F1 F2]. rewrite F1.
  unfold isoct in F1. apply andb_prop in F1. destruct F1 as [A B]. apply Nat.leb_le in A, B.
  assert (MONO : forall l a, forallb isoct l = true -> (0 <= a)%Z -> (a <= fold_left (fun a c => a * 8 + (Z.of_nat (code c) - 48)) l a)%Z).
  { induction l as [|x l IHl]; intros a Fl Ha; cbn [fold_left]; [lia|]. cbn [forallb] in Fl. apply andb_prop in Fl. destruct Fl as [Fx Fl].
    unfold isoct in Fx. apply andb_prop in Fx. destruct Fx as [Ax Bx]. apply Nat.leb_le in Ax, Bx. specialize (IHl (a * 8 + (Z.of_nat (code x) - 48))%Z Fl). lia. }
  pose proof (MONO s (Z.of_N acc * 8 + (Z.of_nat (code c) - 48))%Z F2 ltac:(lia)) as MM.
  assert (SM : acc * 8 + N.of_nat (code c - 48) < 2 ^ 32) by lia.
  assert (EQ : N.land (acc * 8 + N.of_nat (code c - 48)) M32 = acc * 8 + N.of_nat (code c - 48)).
  { change M32 with (N.ones 32). rewrite N.land_ones. apply N.mod_small. exact SM. }
  rewrite EQ. assert (ZE : Z.of_N (acc * 8 + N.of_nat (code c - 48)) = (Z.of_N acc * 8 + (Z.of_nat (code c) - 48))%Z) by lia.
  rewrite IH; [rewrite ZE; reflexivity|exact F2|unfold M32; lia|rewrite ZE; exact LT].
Qed.
Theorem c47_numeric_partial : forall mask s, match s with c :: _ => isdigit c = true | [] => False end ->
  (forallb isoct s = true -> (octval s < 2 ^ 32)%Z -> c_umask mask s = Some (UOk (sys_umask (Z.to_N (octval s)))))
  /\ (forallb isoct s = false -> c_umask mask s = Some UBad).
Proof.
  intros mask s D. unfold c_umask. destruct s as [|c s]; [destruct D|]. rewrite D. split.
  - intros F LT. rewrite (octal_ok (c :: s) 0 F); [reflexivity|unfold M32; lia|exact LT].
  - intros F. assert (K : forall l a, forallb isoct l = false -> octal a l = UBad).
    { induction l as [|x l IH]; intros a Fl; [discriminate|]. cbn in *. destruct (isoct x); [apply IH; exact Fl|reflexivity]. }
    rewrite K by exact F. reflexivity.
Qed.
Print Assumptions c47_numeric_partial.
(** Only the low 32 bits of a long number count: 40000000022 is taken for 022. *)
Theorem c47_numeric_refuted : c_umask 0 (L "40000000022") = Some (UOk 18) /\ (octval (L "40000000022") = 2 ^ 32 + 18)%Z
  /\ c_umask 0 (L "1777") = Some (UOk 511).
Proof. vm_compute. auto. Qed.
Print Assumptions c47_numeric_refuted.
Example c47_ex_numeric : c_umask 0 (L "027") = Some (UOk 23) /\ c_umask 0 (L "028") = Some UBad /\ c_umask 5 (L "9") = Some UBad.
Proof. vm_compute. auto. Qed.

(** umask -S and umask print what umask reads back as the same mask, and mean it. *)
Lemma all_masks (P : N -> bool) : forallb P (map N.of_nat (seq 0 512)) = true -> forall m, m < 512 -> P m = true.
Proof.
  intros H m Hm. rewrite forallb_forall in H. apply H. apply in_map_iff. exists (N.to_nat m). split; [apply N2Nat.id|].
  apply in_seq. lia.
Qed.
Definition ures_eqb (a : option ures) (m : N) : bool := match a with Some (UOk n) => n =? m | _ => false end.
Theorem c47_round_trip : forall mask other, mask < 512 ->
  c_umask other (show_symbolic mask) = Some (UOk mask)
  /\ exists t, show_octal mask = Ok t /\ c_umask other t = Some (UOk mask).
Proof.
  intros mask other Hm.
  split.
  - set (pp := fun i j => if N.testbit (not32 mask) (N.of_nat (8 - (3 * i + j))) then [nth j [R; W; X] R] else []).
    set (ps := fun i => map P (concat (map (pp i) [0; 1; 2]%nat))).
    set (cs := [Clause [One U] (Set_, ps 0%nat) []; Clause [One G] (Set_, ps 1%nat) []; Clause [One O] (Set_, ps 2%nat) []]).
    assert (TX : forall i w, (i < 3)%nat -> nth i (L "ugo") NUL = who_text w -> show_class mask i = clause_text (Clause [One w] (Set_, ps i) [])).
    { intros i w Hi E. unfold show_class, clause_text, action_text. cbn [cwho first more map concat fst snd app oper_text wchar_text].
      rewrite E, app_nil_r. do 2 f_equal. unfold ps, pp. cbn [map concat].
      destruct (N.testbit _ _), (N.testbit _ _), (N.testbit _ _); reflexivity. }
    assert (V : valid (show_symbolic mask) cs).
    { unfold show_symbolic. rewrite (TX 0%nat U), (TX 1%nat G), (TX 2%nat O) by (try reflexivity; lia). repeat constructor. }
    destruct (c47_symbolic other _ _ V) as [m [E [Lm Hs]]]. rewrite E. do 2 f_equal.
    assert (SEM : forall w p, sem (masked other) cs w p = masked mask w p).
    { intros w p. unfold sem, cs, clause_sem, act. cbn [fold_left cwho first more concerns existsb fst snd].
      unfold masked, ps, pp.
      assert (NB : forall i j, (3 * i + j <= 8)%nat -> N.testbit (not32 mask) (N.of_nat (8 - (3 * i + j))) = negb (N.testbit mask (N.of_nat (8 - (3 * i + j))))).
      { intros i j _. apply not32_bit. lia. }
      cbn [map concat]. rewrite !NB by lia.
      destruct w, p; cbn -[N.testbit N.of_nat not32];
        repeat match goal with |- context [N.testbit mask (N.of_nat ?k)] => let v := eval cbv in (N.of_nat k) in change (N.of_nat k) with v end;
        repeat match goal with |- context [N.testbit mask ?k] => destruct (N.testbit mask k) end; reflexivity. }
    apply N.bits_inj. intros i. destruct (N.lt_ge_cases i 9) as [LT|GE].
    + assert (exists w p, i = bit w p) as [w [p ->]].
      { assert (I : In i [0; 1; 2; 3; 4; 5; 6; 7; 8]) by (destruct i as [|[[[q|q|]|[q|q|]|]|[[q|q|]|[q|q|]|]|]]; cbn; try lia; auto 12).
        cbn [In] in I. destruct I as [<-|[<-|[<-|[<-|[<-|[<-|[<-|[<-|[<-|[]]]]]]]]]];
          [exists O, X|exists O, W|exists O, R|exists G, X|exists G, W|exists G, R|exists U, X|exists U, W|exists U, R]; reflexivity. }
      specialize (Hs w p). rewrite SEM in Hs. unfold masked in Hs. destruct (N.testbit m (bit w p)), (N.testbit mask (bit w p)); auto.
    + assert (HB : forall x, x < 512 -> N.testbit x i = false).
      { intros x Hx. destruct (N.eq_dec x 0) as [->|NZ]; [apply N.bits_0|]. apply N.bits_above_log2.
        apply N.lt_le_trans with 9; [|exact GE]. apply N.log2_lt_pow2; [lia|exact Hx]. }
      rewrite !HB by assumption. reflexivity.
  - assert (K : forallb (fun m => match show_octal m with Ok t => (match t with c :: _ => isdigit c | [] => false end) && ures_eqb (c_umask 0 t) m | _ => false end)
                  (map N.of_nat (seq 0 512)) = true) by (vm_compute; reflexivity).
    pose proof (all_masks _ K mask Hm) as Q. cbv beta in Q. clear K. revert Q. generalize (show_octal mask). intros [t| |] Q; [|discriminate Q|discriminate Q]. exists t. split; [reflexivity|].
    apply andb_prop in Q. destruct Q as [Q1 Q2]. assert (EO : c_umask other t = c_umask 0 t).
    { unfold c_umask. destruct t; [discriminate|]. rewrite Q1. reflexivity. }
    rewrite EO. unfold ures_eqb in Q2. destruct (c_umask 0 t) as [[n| |]|]; try discriminate. apply N.eqb_eq in Q2. subst. reflexivity.
Qed.
Print Assumptions c47_round_trip.
Example c47_ex_show : show_symbolic 18 = L "u=rwx,g=rx,o=rx" /\ show_octal 18 = Ok (L "022") /\ show_octal 511 = Ok (L "0777").
Proof. vm_compute. auto. Qed.
