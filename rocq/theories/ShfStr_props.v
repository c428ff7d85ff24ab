(** C50: output to strings. *)
From Verif Require Import Base Shf_model Shf_spec Shf_proof ShfStr_model ShfStr_spec.
From Coq Require Import Lia.
Local Open Scope nat_scope.

Definition s_call (o : sop) (s : sfile) : sres :=
  match o with SWrite bs => s_write bs s | SPutc c => s_putc c s | SPutchar c => s_putchar c s end.
Fixpoint s_calls (os : list sop) (s : sfile) : list bool * option sfile :=       (* None: out of bounds *)
  match os with
  | [] => ([], Some s)
  | o :: os => match s_call o s with
               | SRet v s => let (vs, r) := s_calls os s in (v :: vs, r)
               | SOob => ([], None)
               end
  end.

(** The byte kept for the null is always there. *)
Definition sinv (s : sfile) : Prop :=
  (Z.of_nat (length (stext s)) + sleft s + 1 = Z.of_nat (ssize s))%Z /\ (0 <= sleft s)%Z /\
  salloc s = ssize s /\ serror s = false.

Lemma s_store_ok : forall c s, sinv s -> (0 < sleft s)%Z ->
  exists s', s_store c s = SRet true s' /\ sinv s' /\ stext s' = stext s ++ [c] /\ sdyn s' = sdyn s.
Proof.
  intros c s (A & B & C & D) P. unfold s_store.
  destruct (Nat.ltb_spec (length (stext s)) (salloc s)); [|lia].
  eexists. split; [reflexivity|]. split; [|auto]. unfold sinv; cbn. rewrite app_length; cbn. lia.
Qed.

Lemma s_putchar_ok : forall c s, sinv s -> (0 <= c < 256)%Z ->
  if sdyn s || (0 <? sleft s)%Z
  then exists s', s_putchar c s = SRet true s' /\ sinv s' /\ stext s' = stext s ++ [to_byte c] /\ sdyn s' = sdyn s
  else s_putchar c s = SRet false s.
Proof.
  intros c s I C. pose proof I as (I1 & I2 & I3 & I4). unfold s_putchar.
  replace (c =? -1)%Z with false by (symmetry; apply Z.eqb_neq; lia).
  destruct (Z.eqb_spec (sleft s) 0) as [Z|NZ].
  - unfold s_grow. rewrite I4. destruct (sdyn s) eqn:D; cbn [negb orb].
    + set (s1 := SFile _ _ _ _ _ _). destruct (s_store_ok (to_byte c) s1) as (s' & A & B & E & F).
      * unfold sinv, s1; cbn. lia.
      * cbn. lia.
      * exists s'. auto.
    + destruct (Z.ltb_spec 0 (sleft s)); [lia|reflexivity].
  - replace (sdyn s || (0 <? sleft s)%Z) with true
      by (destruct (Z.ltb_spec 0 (sleft s)); [now rewrite Bool.orb_true_r|lia]).
    apply s_store_ok; [exact I|lia].
Qed.
Lemma s_putc_ok : forall c s, sinv s -> (0 <= c < 256)%Z ->
  if sdyn s || (0 <? sleft s)%Z
  then exists s', s_putc c s = SRet true s' /\ sinv s' /\ stext s' = stext s ++ [to_byte c] /\ sdyn s' = sdyn s
  else s_putc c s = SRet false s.
Proof.
  intros c s I C. unfold s_putc. destruct (Z.eqb_spec (sleft s) 0) as [Z|NZ]; [now apply s_putchar_ok|].
  pose proof I as (I1 & I2 & I3 & I4).
  replace (sdyn s || (0 <? sleft s)%Z) with true
    by (destruct (Z.ltb_spec 0 (sleft s)); [now rewrite Bool.orb_true_r|lia]).
  apply s_store_ok; [exact I|lia].
Qed.

Lemma s_close_ok : forall s, sinv s -> s_close s = CStr (stext s).
Proof.
  intros s (A & B & C & D). unfold s_close, s_putc. cbn [sleft].
  destruct (Z.eqb_spec (sleft s + 1) 0); [lia|]. unfold s_store. cbn [stext salloc].
  destruct (Nat.ltb_spec (length (stext s)) (salloc s)); [reflexivity|lia].
Qed.

(** A growing string: characters, any number, any initial size: all of them are kept, and the
    closed string is them. *)
Theorem c50_growing_putc : forall n os, 0 < n -> Forall s_arg os -> forallb is_putc os = true ->
  exists s, s_calls os (sopen n true) = (map (fun _ => true) os, Some s) /\
    s_close s = CStr (flat_map s_bytes os).
Proof.
  intros n os N F P.
  assert (G : forall os s, sinv s -> sdyn s = true -> Forall s_arg os -> forallb is_putc os = true ->
    exists s', s_calls os s = (map (fun _ => true) os, Some s') /\ sinv s' /\ stext s' = stext s ++ flat_map s_bytes os).
  { clear. induction os as [|o os IH]; intros s I D F P.
    - exists s. rewrite app_nil_r. auto.
    - inversion F; subst. cbn [forallb] in P. apply andb_prop in P as [P1 P2].
      assert (X : exists s', s_call o s = SRet true s' /\ sinv s' /\ stext s' = stext s ++ s_bytes o /\ sdyn s' = true).
      { destruct o as [bs|c|c]; [discriminate| |]; cbn [s_call s_bytes]; rewrite <- ascii_of_mod.
        - pose proof (s_putc_ok c s I H1) as X. rewrite D in X. exact X.
        - pose proof (s_putchar_ok c s I H1) as X. rewrite D in X. exact X. }
      destruct X as (s1 & X1 & X2 & X3 & X4). cbn [s_calls]. rewrite X1.
      destruct (IH s1 X2 X4 H2 P2) as (s2 & Y1 & Y2 & Y3). rewrite Y1. exists s2.
      split; [reflexivity|]. split; [exact Y2|]. rewrite Y3, X3. cbn [flat_map]. now rewrite app_assoc. }
  destruct (G os (sopen n true)) as (s & A & B & C); [unfold sinv, sopen; cbn; lia|reflexivity|exact F|exact P|].
  exists s. split; [exact A|]. rewrite (s_close_ok s B), C. reflexivity.
Qed.
Print Assumptions c50_growing_putc.

(** A fixed buffer of [n] bytes (shf_snprintf): any calls: nothing is stored outside, and the
    string is the beginning of what was written, everything if it fits in [n] - 1. *)
Lemma s_write_fixed : forall bs s, sinv s -> sdyn s = false ->
  exists v s', s_write bs s = SRet v s' /\ sinv s' /\ sdyn s' = false /\
    (exists m, stext s' = stext s ++ firstn m bs /\
      (v = true -> m = length bs) /\ (v = false -> m < length bs /\ m <= Z.to_nat (sleft s) /\ (stext s <> [] -> sleft s' = 0%Z))) /\
    ssize s' = ssize s.
Proof.
  intros bs s I D. pose proof I as (I1 & I2 & I3 & I4). unfold s_write.
  assert (R : forall bs s, sinv s -> sdyn s = false -> s_write_rest bs s =
     SRet (match bs with [] => true | _ => false end) s).
  { clear. intros bs s (A & B & C & D) E. unfold s_write_rest, s_grow. rewrite D, E. destruct bs; reflexivity. }
  destruct (negb (sleft s =? 0)%Z && (negb (Nat.eqb (length (stext s)) 0) || (Z.of_nat (length bs) <? sleft s)%Z)) eqn:B.
  - apply andb_prop in B as [B1 B2]. apply Bool.negb_true_iff, Z.eqb_neq in B1.
    set (n := Z.min (sleft s) (Z.of_nat (length bs))).
    destruct (Z.ltb_spec n 0); [lia|]. unfold s_copy. rewrite firstn_length.
    destruct (Nat.leb_spec (length (stext s) + Nat.min (Z.to_nat n) (length bs)) (salloc s)); [|lia].
    set (s1 := SFile _ _ _ _ _ _).
    assert (J : sinv s1) by (unfold sinv, s1; cbn; rewrite app_length, firstn_length; lia).
    rewrite (R _ s1 J D). eexists _, s1. split; [reflexivity|]. split; [exact J|]. split; [exact D|].
    split; [|reflexivity]. exists (Z.to_nat n). split; [reflexivity|].
    destruct (skipn (Z.to_nat n) bs) eqn:S.
    + split; [intros _|discriminate].
      apply (f_equal (@length _)) in S. rewrite skipn_length in S. cbn in S. lia.
    + apply (f_equal (@length _)) in S. rewrite skipn_length in S. cbn in S.
      split; [discriminate|intros _]. split; [lia|]. split; [lia|]. intros _. cbn. lia.
  - rewrite (R _ s I D). eexists _, s. split; [reflexivity|]. split; [exact I|]. split; [exact D|].
    split; [|reflexivity]. exists 0. split; [now rewrite app_nil_r|]. destruct bs.
    + split; [reflexivity|discriminate].
    + split; [discriminate|intros _]. cbn. split; [lia|]. split; [lia|]. intros NE.
      apply Bool.andb_false_iff in B as [B|B].
      * apply Bool.negb_false_iff, Z.eqb_eq in B. exact B.
      * apply Bool.orb_false_iff in B as [B _]. destruct (stext s); [congruence|discriminate].
Qed.

Theorem c50_fixed : forall n os, 0 < n -> Forall s_arg os ->
  exists vs s t, s_calls os (sopen n false) = (vs, Some s) /\ length vs = length os /\
    s_close s = CStr t /\ length t < n /\
    ((forall v, In v vs -> v = true) -> t = flat_map s_bytes os) /\
    (forallb is_putc os = true -> t = firstn (n - 1) (flat_map s_bytes os)).
Proof.
  intros n os N F.
  assert (G : forall os s, sinv s -> sdyn s = false -> Forall s_arg os ->
    exists vs s', s_calls os s = (vs, Some s') /\ length vs = length os /\ sinv s' /\ ssize s' = ssize s /\
      ((forall v, In v vs -> v = true) -> stext s' = stext s ++ flat_map s_bytes os) /\
      (forallb is_putc os = true -> stext s' = stext s ++ firstn (Z.to_nat (sleft s)) (flat_map s_bytes os))).
  { clear. induction os as [|o os IH]; intros s I D F.
    - exists [], s. cbn. rewrite firstn_nil, app_nil_r.
      split; [reflexivity|]. split; [reflexivity|]. split; [exact I|]. auto.
    - inversion F; subst. cbn [s_calls].
      assert (X : exists v s1, s_call o s = SRet v s1 /\ sinv s1 /\ sdyn s1 = false /\ ssize s1 = ssize s /\
         (v = true -> stext s1 = stext s ++ s_bytes o) /\
         (is_putc o = true -> stext s1 = stext s ++ firstn (Z.to_nat (sleft s)) (s_bytes o))).
      { assert (Y : forall c f, (0 <= c < 256)%Z ->
          (if sdyn s || (0 <? sleft s)%Z
           then exists s', f c s = SRet true s' /\ sinv s' /\ stext s' = stext s ++ [to_byte c] /\ sdyn s' = sdyn s
           else f c s = SRet false s) ->
          (forall v s1, f c s = SRet v s1 -> ssize s1 = ssize s) ->
          exists v s1, f c s = SRet v s1 /\ sinv s1 /\ sdyn s1 = false /\ ssize s1 = ssize s /\
          (v = true -> stext s1 = stext s ++ [to_byte c]) /\
          (true = true -> stext s1 = stext s ++ firstn (Z.to_nat (sleft s)) [to_byte c])).
        { intros c f C Y Q. rewrite D in Y. cbn [orb] in Y. destruct (Z.ltb_spec 0 (sleft s)).
          - destruct Y as (s1 & Y1 & Y2 & Y3 & Y4). exists true, s1. split; [exact Y1|]. split; [exact Y2|].
            split; [exact Y4|]. split; [eapply Q; eassumption|]. split; [auto|]. intros _. rewrite Y3.
            destruct (Z.to_nat (sleft s)) eqn:W; [lia|]. now rewrite firstn_cons, firstn_nil.
          - exists false, s. split; [exact Y|]. split; [exact I|]. split; [exact D|]. split; [reflexivity|].
            split; [discriminate|]. intros _. destruct I as (_ & I2 & _). replace (sleft s) with 0%Z by lia.
            cbn. now rewrite app_nil_r. }
        assert (SS : forall c v s1, s_store c s = SRet v s1 -> ssize s1 = ssize s).
        { intros c v s1. unfold s_store. destruct (_ <? _); intros [= <- <-]; reflexivity. }
        assert (SP : forall c v s1, s_putchar c s = SRet v s1 -> ssize s1 = ssize s).
        { intros c v s1. unfold s_putchar, s_grow. rewrite D. destruct (c =? -1)%Z; [intros [= <- <-]; reflexivity|].
          destruct (sleft s =? 0)%Z; [|apply SS]. destruct (serror s); intros [= <- <-]; reflexivity. }
        destruct o as [bs|c|c]; cbn [s_call s_bytes is_putc].
        - destruct (s_write_fixed bs s I D) as (v & s1 & W1 & W2 & W3 & (m & W4 & W5 & W6) & W7).
          exists v, s1. repeat (split; [assumption|]). split; [|discriminate].
          intros ->. rewrite W4, (W5 eq_refl), firstn_all. reflexivity.
        - rewrite <- ascii_of_mod. apply Y; [exact H1|now apply s_putc_ok|].
          intros v s1. unfold s_putc. destruct (sleft s =? 0)%Z; [apply SP|apply SS].
        - rewrite <- ascii_of_mod. apply Y; [exact H1|now apply s_putchar_ok|]. apply SP. }
      destruct X as (v & s1 & X1 & X2 & X3 & X4 & X5 & X6). rewrite X1.
      destruct (IH s1 X2 X3 H2) as (vs & s2 & Y1 & Y2 & Y3 & Y4 & Y5 & Y6). rewrite Y1.
      exists (v :: vs), s2. split; [reflexivity|]. split; [cbn; congruence|]. split; [exact Y3|]. split; [congruence|].
      cbn [flat_map]. split.
      + intros V. rewrite Y5, X5 by (try (intros; apply V; now right); apply V; now left). now rewrite app_assoc.
      + cbn [forallb]. intros P. apply andb_prop in P as [P1 P2]. rewrite (Y6 P2).
        specialize (X6 P1). pose proof (f_equal (@length _) X6) as LX. rewrite app_length in LX.
        assert (SL : Z.to_nat (sleft s1) = Z.to_nat (sleft s) - length (firstn (Z.to_nat (sleft s)) (s_bytes o))).
        { destruct X2 as (A1 & A2 & _), I as (B1 & B2 & _). lia. }
        rewrite SL, X6, <- app_assoc. f_equal. rewrite firstn_app. f_equal. f_equal.
        rewrite firstn_length. destruct o as [bs|c|c]; [discriminate| |]; cbn [s_bytes length]; lia. }
  destruct (G os (sopen n false)) as (vs & s & A & B & C & D & E & H);
    [unfold sinv, sopen; cbn; lia|reflexivity|exact F|].
  exists vs, s, (stext s). split; [exact A|]. split; [exact B|]. split; [now apply s_close_ok|].
  split; [destruct C as (C1 & C2 & _); cbn in D; lia|].
  split; [exact E|]. intros P. rewrite (H P). cbn [sopen stext sleft app]. f_equal. lia.
Qed.
Print Assumptions c50_fixed.

(** A growing string with writes: safe, and complete, as long as every write is shorter than
    the buffer was at first (twice the size is enough then).  Without that: see below. *)
Lemma s_write_small : forall bs s, sinv s -> sdyn s = true -> length bs < ssize s ->
  exists s', s_write bs s = SRet true s' /\ sinv s' /\ sdyn s' = true /\ stext s' = stext s ++ bs /\ ssize s <= ssize s'.
Proof.
  intros bs s I D L. pose proof I as (I1 & I2 & I3 & I4).
  assert (R : forall bs s, sinv s -> sdyn s = true -> length bs < ssize s ->
    (stext s = [] \/ sleft s = 0%Z) ->
    exists s', s_write_rest bs s = SRet true s' /\ sinv s' /\ sdyn s' = true /\ stext s' = stext s ++ bs /\ ssize s <= ssize s').
  { clear. intros bs s (A & B & C & D) E L Q. unfold s_write_rest. destruct bs as [|b bs0].
    - exists s. rewrite app_nil_r. unfold sinv. auto 10.
    - set (bs := b :: bs0) in *. unfold s_grow. rewrite D, E. cbn [negb]. set (s1 := SFile _ _ _ _ _ _).
      change (ssize s1) with (2 * ssize s).
      destruct (Nat.ltb_spec (2 * ssize s) (length bs)); [lia|]. unfold s_copy.
      change (stext s1) with (stext s). change (salloc s1) with (2 * ssize s).
      destruct (Nat.leb_spec (length (stext s) + length bs) (2 * ssize s)); [|lia].
      eexists. split; [reflexivity|]. split.
      + unfold sinv; cbn [stext sleft ssize salloc serror s1]. rewrite app_length. split; [lia|]. split; [lia|]. auto.
      + split; [reflexivity|]. split; [reflexivity|]. cbn [ssize s1]. lia. }
  unfold s_write.
  destruct (Z.eqb_spec (sleft s) 0) as [Z|NZ]; cbn [negb andb]; [apply R; auto|].
  destruct (negb (length (stext s) =? 0) || (Z.of_nat (length bs) <? sleft s)%Z)%nat eqn:B.
  - set (n := Z.min (sleft s) (Z.of_nat (length bs))).
    destruct (Z.ltb_spec n 0); [lia|]. unfold s_copy. rewrite firstn_length.
    destruct (Nat.leb_spec (length (stext s) + Nat.min (Z.to_nat n) (length bs)) (salloc s)); [|lia].
    set (s1 := SFile _ _ _ _ _ _).
    assert (J : sinv s1) by (unfold sinv, s1; cbn; rewrite app_length, firstn_length; lia).
    destruct (skipn (Z.to_nat n) bs) as [|b r] eqn:S.
    + cbn [s_write_rest]. exists s1. split; [reflexivity|]. split; [exact J|]. split; [exact D|]. split; [|cbn; lia].
      cbn. rewrite <- (firstn_skipn (Z.to_nat n) bs) at 2. rewrite S, app_nil_r. reflexivity.
    + destruct (R (b :: r) s1 J D) as (s' & A1 & A2 & A3 & A4 & A5).
      * apply (f_equal (@length _)) in S. rewrite skipn_length in S. unfold s1; cbn [ssize]. lia.
      * right. apply (f_equal (@length _)) in S. rewrite skipn_length in S. cbn in S. unfold s1; cbn [sleft]. lia.
      * exists s'. split; [exact A1|]. split; [exact A2|]. split; [exact A3|]. split; [|exact A5].
        rewrite A4. cbn [stext s1]. rewrite <- S, <- app_assoc, firstn_skipn. reflexivity.
  - apply Bool.orb_false_iff in B as [B _]. apply R; auto. left.
    destruct (stext s); [reflexivity|discriminate].
Qed.
Theorem c50_growing_write_partial : forall n os, 0 < n -> Forall s_arg os ->
  Forall (fun o => match o with SWrite bs => length bs < n | _ => True end) os ->
  exists s, s_calls os (sopen n true) = (map (fun _ => true) os, Some s) /\
    s_close s = CStr (flat_map s_bytes os).
Proof.
  intros n os N F P.
  assert (G : forall os s, sinv s -> sdyn s = true -> n <= ssize s -> Forall s_arg os ->
    Forall (fun o => match o with SWrite bs => length bs < n | _ => True end) os ->
    exists s', s_calls os s = (map (fun _ => true) os, Some s') /\ sinv s' /\ stext s' = stext s ++ flat_map s_bytes os).
  { clear. induction os as [|o os IH]; intros s I D LE F P.
    - exists s. rewrite app_nil_r. auto.
    - inversion F; subst. inversion P; subst.
      assert (X : exists s', s_call o s = SRet true s' /\ sinv s' /\ stext s' = stext s ++ s_bytes o /\ sdyn s' = true /\ n <= ssize s').
      { assert (SZ : forall s1 v, s_call o s = SRet v s1 -> is_putc o = true -> ssize s <= ssize s1).
        { assert (Q : forall c s0 v s1, s_store c s0 = SRet v s1 -> ssize s1 = ssize s0).
          { intros c s0 v s1. unfold s_store. destruct (_ <? _); intros [= <- <-]; reflexivity. }
          assert (W : forall c v s1, s_putchar c s = SRet v s1 -> ssize s <= ssize s1).
          { intros c v s1. unfold s_putchar, s_grow. destruct (c =? -1)%Z; [intros [= <- <-]; lia|].
            destruct (sleft s =? 0)%Z; [|intros X; apply Q in X; lia].
            destruct (serror s); [intros [= <- <-]; lia|]. rewrite D. cbn [negb]. intros X. apply Q in X.
            cbn [ssize] in X. lia. }
          intros s1 v. destruct o as [bs|c|c]; cbn [s_call is_putc]; [discriminate| |].
          - intros X _. unfold s_putc in X. destruct (sleft s =? 0)%Z; [eapply W; exact X|]. apply Q in X. lia.
          - intros X _. eapply W; exact X. }
        destruct o as [bs|c|c]; cbn [s_call s_bytes is_putc] in *; rewrite <- ?ascii_of_mod.
        - destruct (s_write_small bs s I D ltac:(lia)) as (s' & A1 & A2 & A3 & A4 & A5). exists s'.
          repeat (split; [assumption|]). lia.
        - pose proof (s_putc_ok c s I H1) as X. rewrite D in X. destruct X as (s' & A1 & A2 & A3 & A4).
          exists s'. specialize (SZ _ _ A1 eq_refl). repeat (split; [assumption|]). lia.
        - pose proof (s_putchar_ok c s I H1) as X. rewrite D in X. destruct X as (s' & A1 & A2 & A3 & A4).
          exists s'. specialize (SZ _ _ A1 eq_refl). repeat (split; [assumption|]). lia. }
      destruct X as (s1 & X1 & X2 & X3 & X4 & X5). cbn [s_calls]. rewrite X1.
      destruct (IH s1 X2 X4 X5 H2 H4) as (s2 & Y1 & Y2 & Y3). rewrite Y1. exists s2.
      split; [reflexivity|]. split; [exact Y2|]. rewrite Y3, X3. cbn [flat_map]. now rewrite app_assoc. }
  destruct (G os (sopen n true)) as (s & A & B & C); [unfold sinv, sopen; cbn; lia|reflexivity|cbn; lia|exact F|exact P|].
  exists s. split; [exact A|]. rewrite (s_close_ok s B), C. reflexivity.
Qed.
Print Assumptions c50_growing_write_partial.

(** A longer write goes wrong: with one byte in a buffer of 64 (the default), 130 more bytes are
    stored outside it; a first write of 129 bytes or more fails and its text is lost; after a
    first write of 128 the next character is stored outside. *)
Theorem c50_write_overflow_refuted :
  fst (s_calls [SPutc 97; SWrite (repeat "x"%char 130)] (sopen 64 true)) = [true] /\
  snd (s_calls [SPutc 97; SWrite (repeat "x"%char 130)] (sopen 64 true)) = None.
Proof. vm_compute. auto. Qed.
Print Assumptions c50_write_overflow_refuted.
Theorem c50_write_lost_refuted : exists s,
  s_calls [SWrite (repeat "x"%char 129)] (sopen 64 true) = ([false], Some s) /\ s_close s = CStr [].
Proof. eexists. split; vm_compute; reflexivity. Qed.
Print Assumptions c50_write_lost_refuted.
Theorem c50_putc_after_refuted : exists s,
  s_calls [SWrite (repeat "x"%char 128)] (sopen 64 true) = ([true], Some s) /\
  (exists vs, s_calls [SWrite (repeat "x"%char 128); SPutc 121] (sopen 64 true) = (vs, None)).
Proof. eexists. split; [vm_compute; reflexivity|]. eexists. vm_compute. reflexivity. Qed.
Print Assumptions c50_putc_after_refuted.

Example c50_case : exists s,
  s_calls [SPutc 97; SWrite (L "bc"); SPutchar 100; SPutc 101; SWrite (L "fgh")] (sopen 4 true) =
    ([true; true; true; true; true], Some s) /\ s_close s = CStr (L "abcdefgh") /\ ssize s = 16.
Proof. eexists. split; [vm_compute; reflexivity|]. split; reflexivity. Qed.
Example c50_case_fixed : exists s,
  s_calls [SPutc 97; SWrite (L "bc"); SPutchar 100; SPutc 101] (sopen 4 false) =
    ([true; true; false; false], Some s) /\ s_close s = CStr (L "abc").
Proof. eexists. split; [vm_compute; reflexivity|]. reflexivity. Qed.
