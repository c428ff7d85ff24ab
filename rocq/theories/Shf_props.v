(** C39 (output streams) and C40 (input streams). *)
From Verif Require Import Base Shf_model Shf_spec Shf_proof.
From Coq Require Import Lia.
Local Open Scope nat_scope.

(** * C39 *)
(** Any sequence of calls on a new stream, whatever write(2) answers.  No store is outside the
    buffer.  As long as every call succeeds, what has been sent followed by what is still in
    the buffer is what the calls were given, and a flush leaves nothing in the buffer.  At all
    times what has been sent is a beginning of that. *)
Theorem c39_exactly_once_partial : forall n unbuf intr os ws,
  unbuf = true \/ 0 < n -> Forall char_arg os ->
  let (vs, r) := calls os (fdopen_w n unbuf intr) (OKern [] ws) in
  match r with
  | ORet _ s k =>
    length vs = length os /\
    prefix (sent k) (flat_map out_bytes os) /\
    ((forall v, In v vs -> v = true) ->
       sent k ++ ob s = flat_map out_bytes os /\
       (forall os', os = os' ++ [Flush] -> sent k = flat_map out_bytes os))
  | OBlock k => prefix (sent k) (flat_map out_bytes os)
  | OOob => False
  end.
Proof.
  intros n u i os ws H F.
  pose proof (calls_ok os (fdopen_w n u i) (OKern [] ws) (oinv_open n u i H) eq_refl F) as C.
  destruct (calls os (fdopen_w n u i) (OKern [] ws)) as [vs [v s k|k|]].
  - destruct C as (L & I & [(A & B & D & D' & G)|(A & B & os1 & o & os2 & p & P1 & P2 & P3 & P4)]);
      cbn [sent ob fdopen_w app] in *; unfold out_all in *.
    + split; [exact L|]. split; [exists (ob s); now rewrite D|]. intros _. split; [exact D|].
      intros os' E. rewrite (G os' E), app_nil_r in D. exact D.
    + split; [exact L|]. split.
      * destruct P3 as [q Q]. exists (ob s ++ q ++ flat_map out_bytes os2).
        rewrite app_assoc, P4. subst os. rewrite flat_map_app. cbn [flat_map]. rewrite Q, <- !app_assoc. reflexivity.
      * intros V. exfalso. specialize (V false). rewrite P2 in V.
        assert (false = true) by (apply V, in_or_app; right; now left). discriminate.
  - cbn in C. tauto.
  - exact C.
Qed.
Print Assumptions c39_exactly_once_partial.

(** Failures are reported, and only real ones: if write(2) never fails no call fails; if a call
    fails, the calls before it have delivered everything they got, a beginning of its own
    bytes is accepted, and no later call that has anything to write (or flushes) succeeds or
    sends anything. *)
Theorem c39_errors_reported : forall n unbuf intr os ws vs v s k,
  unbuf = true \/ 0 < n -> Forall char_arg os ->
  calls os (fdopen_w n unbuf intr) (OKern [] ws) = (vs, ORet v s k) ->
  (~ In WErr ws -> (intr = true -> ~ In WIntr ws) -> forall v, In v vs -> v = true) /\
  (forall i, nth_error vs i = Some false ->
     exists j o p, j <= i /\ nth_error os j = Some o /\
       (forall l, l < j -> nth_error vs l = Some true) /\ nth_error vs j = Some false /\
       (forall l o', j < l -> nth_error os l = Some o' -> nth_error vs l = Some true -> o' = Write []) /\
       prefix p (out_bytes o) /\ sent k ++ ob s = flat_map out_bytes (firstn j os) ++ p).
Proof.
  intros n u i os ws vs v s k H F E.
  pose proof (calls_ok os (fdopen_w n u i) (OKern [] ws) (oinv_open n u i H) eq_refl F) as C.
  rewrite E in C.
  destruct C as (L & I & [(A & B & D & D' & G)|(A & B & os1 & o & os2 & p & P1 & P2 & P3 & P4)]);
    cbn [sent ob fdopen_w app ointr wans] in *; unfold out_all in *.
  - rewrite Forall_forall in B. split; [intros _ _; exact B|].
    intros j N. apply nth_error_In in N. apply B in N. discriminate.
  - split; [intros X Y; destruct B as [B|[B B']]; [contradiction|now specialize (Y B)]|].
    assert (M : length (map (fun _ : oop => true) os1) = length os1) by apply map_length.
    intros j N. exists (length os1), o, p.
    assert (LT : forall l, l < length os1 -> nth_error vs l = Some true).
    { intros l Hl. rewrite P2, nth_error_app1 by lia. rewrite nth_error_map.
      destruct (nth_error os1 l) eqn:Q; [reflexivity|]. apply nth_error_None in Q. lia. }
    split.
    { destruct (Nat.le_gt_cases (length os1) j); [assumption|]. rewrite LT in N by assumption. discriminate. }
    split; [subst os; rewrite nth_error_app2, Nat.sub_diag by lia; reflexivity|].
    split; [exact LT|].
    split; [rewrite P2, nth_error_app2, M, Nat.sub_diag by lia; reflexivity|].
    split.
    { intros l o' Hl O V. subst os. rewrite nth_error_app2 in O by lia.
      rewrite P2, nth_error_app2 in V by lia. rewrite M in V.
      destruct (l - length os1) as [|q] eqn:Q; [lia|]. cbn in O, V. rewrite nth_error_map, O in V. cbn in V.
      destruct o' as [[|]| | |]; try discriminate. reflexivity. }
    split; [exact P3|]. subst os. rewrite firstn_app, firstn_all, Nat.sub_diag. cbn [firstn]. rewrite app_nil_r. exact P4.
Qed.
Print Assumptions c39_errors_reported.

(** After an error, clearing it and flushing sends what was left in the buffer, once. *)
Theorem c39_retry : forall n unbuf intr os ws vs v s k,
  unbuf = true \/ 0 < n -> Forall char_arg os ->
  calls os (fdopen_w n unbuf intr) (OKern [] ws) = (vs, ORet v s k) ->
  match flush (clearerr s) k with
  | ORet true s' k' => sent k' = sent k ++ ob s /\ ob s' = []
  | ORet false s' k' => sent k' ++ ob s' = sent k ++ ob s
  | OBlock k' => prefix (sent k') (sent k ++ ob s)
  | OOob => False
  end.
Proof.
  intros n u i os ws vs v s k H F E.
  pose proof (calls_ok os (fdopen_w n u i) (OKern [] ws) (oinv_open n u i H) eq_refl F) as C.
  rewrite E in C. destruct C as (L & I & _).
  assert (I' : oinv (clearerr s)).
  { destruct I as (I1 & I2 & I3 & I4 & I5 & I6). unfold clearerr, oinv; cbn. intuition discriminate. }
  destruct (flush_ok (clearerr s) k I') as [P Q].
  destruct (flush (clearerr s) k) as [[] s' k'|k'|]; cbn in P |- *.
  - destruct P as (_ & P & _). rewrite (Q _ _ eq_refl), !app_nil_r in P. split; [exact P|]. eapply Q; reflexivity.
  - destruct P as (_ & _ & _ & _ & _ & (p & [r Pr] & P) & _). destruct p; [|discriminate]. now rewrite app_nil_r in P.
  - destruct P as [P _]. now rewrite app_nil_r in P.
  - exact P.
Qed.
Print Assumptions c39_retry.

(** A byte 0xFF passed as a (signed) char is not written when the buffer is full, and no error
    is recorded: shf_vfprintf (shf.c:964-996) does so and does not look at the result. *)
Theorem c39_byte_ff_refuted :
  exists n c vs s k, to_byte c = ascii_of_nat 255 /\
    calls [Putc 97; Putc c; Putc 98; Flush] (fdopen_w n false false) (OKern [] (repeat (WN 9) 9)) = (vs, ORet true s k) /\
    oerror s = false /\ sent k = L "ab" /\
    (exists vs' s' k',
      calls [Putc 97; Putc c; Putc 98; Flush] (fdopen_w (S n) false false) (OKern [] (repeat (WN 9) 9)) = (vs', ORet true s' k') /\
      sent k' = ["a"; ascii_of_nat 255; "b"]%char).
Proof.
  exists 1, (-1)%Z. eexists _, _, _. split; [reflexivity|]. split; [vm_compute; reflexivity|].
  split; [reflexivity|]. split; [reflexivity|].
  eexists _, _, _. split; [vm_compute; reflexivity|]. reflexivity.
Qed.
Print Assumptions c39_byte_ff_refuted.

Example c39_case :
  (* a two byte buffer, partial writes and an interruption *)
  calls [Write (L "abc"); Putc 100; Write []; Flush] (fdopen_w 2 false false)
        (OKern [] [WN 1; WIntr; WN 0; WN 5; WN 1; WN 1])
  = ([true; true; true; true], ORet true (OFile [] 2 2 false true false false) (OKern (L "abcd") [])).
Proof. vm_compute. reflexivity. Qed.
Example c39_case_error :
  (* the second write fails half way; the rest stays for another flush *)
  exists s k, calls [Write (L "ab"); Write (L "cd"); Flush; Write (L "e")] (fdopen_w 3 false false)
                    (OKern [] [WN 1; WErr; WN 9]) = ([true; false; false; false], ORet true s k) /\
    sent k = L "a" /\ ob s = L "bc" /\
    (exists s' k', flush (clearerr s) k = ORet true s' k' /\ sent k' = L "abc").
Proof. eexists _, _. split; [vm_compute; reflexivity|]. split; [reflexivity|]. split; [reflexivity|].
  eexists _, _. split; vm_compute; reflexivity. Qed.

(** * C40 *)
(** What is still to come, for states reached by reading. *)
Inductive reached : ifile -> ikern -> cstr -> Prop :=
| r_open : forall n intr src ws, 0 < n -> reached (fdopen_r n intr) (IKern src ws) src
| r_getc : forall s k t c s' k', reached s k (c :: t) -> getchar s k = IChar c s' k' -> reached s' k' t
| r_eof : forall s k t s' k', reached s k t -> getchar s k = IEof s' k' -> ierror s' = false -> reached s' k' t
| r_ungetc : forall s k t c s', reached s k t -> (0 <= c < 256)%Z -> ungetc c s = Some (true, s') ->
    reached s' k (ascii_of_N (Z.to_N (c mod 256)) :: t)
| r_line : forall s k t b l s' k', reached s k (l ++ t) -> getse b s k = TText l s' k' -> reached s' k' t
| r_read : forall s k t n l s' k', reached s k (l ++ t) -> read n s k = TText l s' k' -> ierror s' = false ->
    reached s' k' t.

Lemma ungetc_inv : forall c s k s', iinv s k -> ierror s = false -> ungetc c s = Some (true, s') ->
  iinv s' k /\ irest s' k = to_byte c :: irest s k /\ ierror s' = false.
Proof.
  intros c s k s' (Z & LE & EO) E H. unfold ungetc in H. rewrite E in H.
  destruct (false || (c =? -1)%Z || (ipos s =? 0) && negb (length (idata s) =? 0)) eqn:B; [discriminate|].
  apply Bool.orb_false_iff in B as [B1 B2].
  destruct (Nat.eqb_spec (ipos s) 0) as [P|P]; cbn [andb] in B2.
  - apply Bool.negb_false_iff, Nat.eqb_eq in B2. destruct (idata s) eqn:D; [|discriminate].
    destruct (isize s) eqn:S; [lia|]. injection H as <-.
    split; [unfold iinv; cbn; split; [lia|]; split; [lia|discriminate]|]. unfold irest; cbn. rewrite D. auto.
  - destruct (ipos s); [lia|]. injection H as <-.
    split; [unfold iinv; cbn; split; [lia|]; split; [lia|discriminate]|]. unfold irest; cbn. auto.
Qed.

Lemma reached_inv : forall s k t, reached s k t -> iinv s k /\ ierror s = false /\ irest s k = t.
Proof.
  induction 1.
  - split; [unfold iinv; cbn; split; [lia|]; split; [lia|discriminate]|]. split; reflexivity.
  - destruct IHreached as (I & E & R). pose proof (getchar_ok s k I E) as G. rewrite H0 in G.
    destruct G as (A & B & C & _). split; [exact A|]. split; [exact C|]. congruence.
  - destruct IHreached as (I & E & R). pose proof (getchar_ok s k I E) as G. rewrite H0 in G.
    destruct G as (A & B & C & _). split; [exact A|]. split; [assumption|congruence].
  - destruct IHreached as (I & E & R). destruct (ungetc_inv c s k s' I E H1) as (A & B & C).
    split; [exact A|]. split; [exact C|]. rewrite B, R, ascii_of_mod. reflexivity.
  - destruct IHreached as (I & E & R). destruct b as [|b]; [discriminate|].
    pose proof (getse_ok b s k I E) as G. rewrite H0 in G. unfold getse_post in G. cbv zeta in G.
    destruct G as (A1 & A2 & A3 & A4 & A5 & _). split; [exact A4|]. split; [exact A5|].
    cbn [app] in A1. rewrite <- A1 in A3. rewrite A3, R. now rewrite skipn_app, skipn_all, Nat.sub_diag.
  - destruct IHreached as (I & E & R). pose proof (read_ok n s k I E) as G. rewrite H0 in G. cbn in G.
    destruct G as (m & A1 & A2 & A3 & A4 & A5 & A6). split; [exact A5|]. split; [exact H1|].
    rewrite R in *. rewrite A4. apply (app_inv_head l). rewrite A2 at 1. rewrite firstn_skipn. reflexivity.
Qed.

(** One line: at most [b] bytes up to and with the newline, whatever read(2) answers (if it
    fails, the call fails; a NUL byte among them is an error; nothing at the end only). *)
Theorem c40_line : forall s k t b, reached s k t ->
  match getse (S b) s k with
  | TText l s' k' =>
    l = firstn b (first_line t) /\ t <> [] /\ ~ In NUL l /\ reached s' k' (skipn (length l) t)
  | TNone s' k' => t = [] \/ ierror s' = true /\ (In RErr (rans k) \/ iintr s = true /\ In RIntr (rans k))
  | TNul => In NUL (firstn b (first_line t))
  | TBlock => True
  | TFuel => False
  end.
Proof.
  intros s k t b H. pose proof (reached_inv s k t H) as (I & E & R).
  pose proof (getse_ok b s k I E) as G. unfold getse_post in G. cbv zeta in G. rewrite R in G.
  assert (HN : forall x, has_nul x = true <-> In NUL x).
  { intros x. unfold has_nul. rewrite existsb_exists. split.
    - intros (c & C1 & C2). unfold is_nul in C2. apply ceq_true in C2. now subst.
    - intros X. exists NUL. split; [exact X|reflexivity]. }
  destruct (getse (S b) s k) as [l s' k'|s' k'| | |] eqn:Q.
  - destruct G as (A1 & A2 & A3 & A4 & A5 & A6 & A7 & A8 & A9). cbn in A1. rewrite <- A1 in *.
    split; [reflexivity|]. split; [now apply A9|]. split; [rewrite <- HN, A2; discriminate|].
    eapply r_line; [|exact Q].
    assert (t = l ++ skipn (length l) t) as <-; [|exact H].
    destruct (first_line_prefix t) as [r Rr].
    apply app_skip with (x := skipn b (first_line t) ++ r). rewrite A1. now rewrite app_assoc, firstn_skipn.
  - destruct G as (_ & _ & _ & _ & [(_ & G & _)|G]); [now left|now right].
  - now apply HN.
  - exact Logic.I.
  - exact G.
Qed.
Print Assumptions c40_line.

(** Line after line with no failing read and no NUL byte: the lines are those of the text (cut
    into pieces of at most [b]), and concatenated with what is left they give the text. *)
Theorem c40_lines : forall m b n intr text ws,
  0 < n -> ~ In NUL text -> ~ In RErr ws -> (intr = true -> ~ In RIntr ws) ->
  let (ts, r) := lines m b (fdopen_r n intr) (IKern text ws) in
  match r with
  | TNone s' k' => ts = spec_lines m b text /\ exists rest, reached s' k' rest /\ concat ts ++ rest = text
  | TBlock => prefix ts (spec_lines m b text)
  | _ => False
  end.
Proof.
  intros m b n i text ws N Z E1 E2.
  pose proof (lines_ok m b (fdopen_r n i) (IKern text ws)) as H.
  assert (I : iinv (fdopen_r n i) (IKern text ws)) by (unfold iinv; cbn; split; [lia|]; split; [lia|discriminate]).
  specialize (H I eq_refl). unfold irest in H at 1. cbn [iintr rans fdopen_r idata src app] in H.
  assert (HN : has_nul text = false).
  { unfold has_nul. destruct (existsb is_nul text) eqn:X; [|reflexivity].
    apply existsb_exists in X as (c & C1 & C2). unfold is_nul in C2. apply ceq_true in C2. now subst. }
  specialize (H (fun X => match X with or_introl A => E1 A | or_intror (conj A B) => E2 A B end) HN).
  assert (RE : forall m s k t, reached s k t ->
     match snd (lines m b s k) with TNone s' k' => ierror s' = false -> exists t', reached s' k' t' | _ => True end).
  { clear. induction m as [|m IH]; intros s k t R; [cbn; intros; now exists t|]. cbn [lines].
    pose proof (c40_line s k t b R) as G. destruct (getse (S b) s k) as [l s' k'|s' k'| | |] eqn:Q; cbn; auto.
    - destruct G as (_ & _ & _ & G). specialize (IH s' k' _ G). destruct (lines m b s' k'). exact IH.
    - intros E. destruct G as [->|[G _]]; [|congruence].
      pose proof (reached_inv _ _ _ R) as (I & E0 & R0).
      destruct (fillbuf s k) as [[[ok s1] k1]|] eqn:FB.
      + unfold irest in R0. apply app_eq_nil in R0 as [D S0].
        assert (X : exists s2 k2, getchar s k = IEof s2 k2 /\ s2 = s' /\ k2 = k').
        { unfold getchar. unfold getse in Q. cbn [getse_loop] in Q. rewrite D, FB in *.
          pose proof (fillbuf_ok s k I D) as P. rewrite FB in P. destruct P as (_ & P & _).
          destruct ok.
          - unfold irest in P. rewrite D, S0 in P. apply app_eq_nil in P as [P _]. rewrite P in Q |- *.
            injection Q as <- <-. eauto.
          - injection Q as <- <-. eauto. }
        destruct X as (s2 & k2 & X & -> & ->). exists []. eapply r_eof; eassumption.
      + unfold irest in R0. apply app_eq_nil in R0 as [D S0]. unfold getse in Q. cbn [getse_loop] in Q.
        rewrite D, FB in Q. discriminate. }
  specialize (RE m (fdopen_r n i) (IKern text ws) text (r_open n i text ws N)).
  destruct (lines m b (fdopen_r n i) (IKern text ws)) as [ts [x s' k'|s' k'| | |]] eqn:Q; auto.
  destruct H as [H1 H2]. unfold irest in H1, H2 at 2. cbn [idata src fdopen_r app] in H1, H2. split; [exact H1|]. cbn in RE.
  destruct (ierror s') eqn:ES; [|destruct (RE eq_refl) as [t' T]; exists t'; split; [exact T|]; apply reached_inv in T; destruct T as (_ & _ & T); congruence].
  exfalso. revert Q ES. clear - I E1 E2 N. intros Q ES.
  assert (G : forall m s k ts, iinv s k -> ierror s = false -> ~ bad_read (iintr s) (rans k) ->
     lines m b s k = (ts, TNone s' k') -> False).
  { clear - ES. induction m as [|m IH]; intros s k ts I E B Q; [injection Q as _ -> ->; congruence|].
    cbn [lines] in Q. pose proof (getse_ok b s k I E) as G. unfold getse_post in G. cbv zeta in G.
    destruct (getse (S b) s k) as [l s1 k1|s1 k1| | |]; try discriminate.
    - destruct G as (A1 & A2 & A3 & A4 & A5 & A6 & A7 & A8 & A9).
      destruct (lines m b s1 k1) as [us r] eqn:QQ. injection Q as <- ->.
      apply (IH s1 k1 us A4 A5); [|exact QQ]. rewrite A6. intros X. apply B. eapply bad_read_incl; eassumption.
    - injection Q as _ -> ->. destruct G as (_ & _ & _ & _ & [(_ & _ & _ & G)|[_ G]]); [congruence|contradiction]. }
  eapply G; [exact I|reflexivity| |exact Q].
  intros [A|[A B]]; [exact (E1 A)|exact (E2 A B)].
Qed.
Print Assumptions c40_lines.

(** The lines do not depend on the sizes of the reads, nor on the size of the buffer. *)
Theorem c40_chunking : forall m b n1 n2 i1 i2 text ws1 ws2 ts1 ts2 s1 k1 s2 k2,
  0 < n1 -> 0 < n2 -> ~ In NUL text ->
  ~ In RErr ws1 -> (i1 = true -> ~ In RIntr ws1) -> ~ In RErr ws2 -> (i2 = true -> ~ In RIntr ws2) ->
  lines m b (fdopen_r n1 i1) (IKern text ws1) = (ts1, TNone s1 k1) ->
  lines m b (fdopen_r n2 i2) (IKern text ws2) = (ts2, TNone s2 k2) ->
  ts1 = ts2.
Proof.
  intros m b n1 n2 i1 i2 text ws1 ws2 ts1 ts2 s1 k1 s2 k2 N1 N2 Z A1 A2 B1 B2 L1 L2.
  pose proof (c40_lines m b n1 i1 text ws1 N1 Z A1 A2) as H1. rewrite L1 in H1.
  pose proof (c40_lines m b n2 i2 text ws2 N2 Z B1 B2) as H2. rewrite L2 in H2.
  destruct H1 as [-> _], H2 as [-> _]. reflexivity.
Qed.
Print Assumptions c40_chunking.

(** Every line given is whole, unless it fills the buffer or the text ends without a newline. *)
Theorem c40_line_shape : forall b t l, l = firstn b (first_line t) ->
  (length l < b -> skipn (length l) t <> [] -> exists l0, l = l0 ++ [NL] /\ ~ In NL l0) /\
  length l <= b /\ t = l ++ skipn (length l) t.
Proof.
  intros b t l ->. split; [|split].
  - intros LT NE. assert (firstn b (first_line t) = first_line t) as F.
    { apply firstn_all2. rewrite firstn_length in LT. lia. }
    rewrite F in *. clear F LT. induction t as [|c t IH]; [now cbn in NE|].
    cbn in NE |- *. destruct (ceq_spec c NL) as [->|N].
    + exists []. split; [reflexivity|auto].
    + destruct (IH NE) as (l0 & -> & H). exists (c :: l0). split; [reflexivity|].
      intros [X|X]; [congruence|auto].
  - rewrite firstn_length. lia.
  - destruct (first_line_prefix t) as [r R].
    apply app_skip with (x := skipn b (first_line t) ++ r). now rewrite app_assoc, firstn_skipn.
Qed.
Print Assumptions c40_line_shape.

(** shf_read gives the next [n] bytes, fewer only at the end of the file or if a read fails. *)
Theorem c40_read : forall s k t n, reached s k t ->
  match read n s k with
  | TText l s' k' =>
    exists m, m <= n /\ l = firstn m t /\ ~ In NUL l /\
      (ierror s' = false /\ reached s' k' (skipn m t) /\ (m = n \/ skipn m t = []) \/
       ierror s' = true /\ (In RErr (rans k) \/ iintr s = true /\ In RIntr (rans k)) /\ l <> [])
  | TNone s' k' => ierror s' = true /\ (In RErr (rans k) \/ iintr s = true /\ In RIntr (rans k))
  | TNul => In NUL (firstn n t)
  | TBlock => True
  | TFuel => False
  end.
Proof.
  intros s k t n H. pose proof (reached_inv s k t H) as (I & E & R).
  pose proof (read_ok n s k I E) as G. unfold read_post in G. rewrite R in G.
  assert (HN : forall x, has_nul x = true <-> In NUL x).
  { intros x. unfold has_nul. rewrite existsb_exists. split.
    - intros (c & C1 & C2). unfold is_nul in C2. apply ceq_true in C2. now subst.
    - intros X. exists NUL. split; [exact X|reflexivity]. }
  destruct (read n s k) as [l s' k'|s' k'| | |] eqn:Q.
  - destruct G as (m & A1 & A2 & A3 & A4 & A5 & A6). exists m. cbn in A2. rewrite <- A2 in *.
    split; [exact A1|]. split; [reflexivity|]. split; [rewrite <- HN, A3; discriminate|].
    destruct A6 as [[A6 A7]|A6]; [left|now right].
    split; [exact A6|]. rewrite A4 in A7. split; [|exact A7].
    eapply r_read; [|exact Q|exact A6]. rewrite A2, firstn_skipn. exact H.
  - destruct G as (_ & A & B & _). auto.
  - now apply HN.
  - exact Logic.I.
  - exact G.
Qed.
Print Assumptions c40_read.

(** Byte by byte, and a byte put back is read again. *)
Theorem c40_getc : forall s k t, reached s k t ->
  match getchar s k with
  | IChar c s' k' => exists t', t = c :: t' /\ reached s' k' t' /\
      (forall d, (0 <= d < 256)%Z -> exists s2, ungetc d s' = Some (true, s2) /\
         reached s2 k' (ascii_of_N (Z.to_N (d mod 256)) :: t') /\
         exists s3, getchar s2 k' = IChar (ascii_of_N (Z.to_N (d mod 256))) s3 k' /\ reached s3 k' t')
  | IEof s' k' => t = [] /\ reached s' k' [] \/
                  ierror s' = true /\ (In RErr (rans k) \/ iintr s = true /\ In RIntr (rans k))
  | IBlock => True
  end.
Proof.
  intros s k t H. pose proof (reached_inv s k t H) as (I & E & R).
  pose proof (getchar_ok s k I E) as G. destruct (getchar s k) as [c s' k'|s' k'|] eqn:Q; [| |exact Logic.I].
  - destruct G as (A1 & A2 & A3 & A4 & _). exists (irest s' k'). rewrite R in A2. split; [exact A2|].
    assert (RE : reached s' k' (irest s' k')) by (eapply r_getc; [rewrite <- A2; exact H|exact Q]).
    split; [exact RE|].
    intros d D. destruct (ungetc_ok d s' k' A1 A3 D (or_introl A4)) as (s2 & U1 & U2 & U3 & U4 & _).
    exists s2. split; [exact U1|].
    assert (R2 : reached s2 k' (ascii_of_N (Z.to_N (d mod 256)) :: irest s' k')) by (eapply r_ungetc; eassumption).
    split; [exact R2|].
    assert (G2 : exists s3, getchar s2 k' = IChar (to_byte d) s3 k').
    { assert (D2 : exists x, idata s2 = to_byte d :: x).
      { unfold ungetc in U1. rewrite A3 in U1. cbn [orb] in U1.
        destruct ((d =? -1)%Z || (ipos s' =? 0) && negb (length (idata s') =? 0)); [discriminate|].
        destruct (if ipos s' =? 0 then isize s' else ipos s'); [discriminate|]. injection U1 as <-. cbn. eauto. }
      destruct D2 as [x D2]. unfold getchar. rewrite D2. eauto. }
    destruct G2 as [s3 G2]. rewrite ascii_of_mod in G2. exists s3. split; [exact G2|]. eapply r_getc; eassumption.
  - destruct G as (A1 & A2 & A3 & [[A4 A5]|A4]); [left|now right].
    rewrite R in A4. subst t. rewrite A4 in H. split; [exact A4|]. eapply r_eof; eassumption.
Qed.
Print Assumptions c40_getc.

(** Two lines and a rest, one to three bytes at a time, and with interruptions. *)
Example c40_case :
  let text := L "ab" ++ [NL] ++ L "cdef" ++ [NL] ++ L "g" in
  fst (lines 9 10 (fdopen_r 3 false) (IKern text [RN 1; RIntr; RN 2; RN 3; RN 0; RN 7; RN 1; RN 1]))
  = [L "ab" ++ [NL]; L "cdef" ++ [NL]; L "g"] /\
  fst (lines 9 3 (fdopen_r 512 true) (IKern text [RN 100; RN 5]))
  = [L "ab" ++ [NL]; L "cde"; L "f" ++ [NL]; L "g"].
Proof. vm_compute. split; reflexivity. Qed.
Example c40_case_nul :
  getse 10 (fdopen_r 5 false) (IKern (L "ab" ++ [NUL; NL]) [RN 2; RN 5]) = TNul.
Proof. vm_compute. reflexivity. Qed.
