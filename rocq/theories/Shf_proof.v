(** Proofs about buffered files. *)
From Verif Require Import Base Shf_model Shf_spec.
From Coq Require Import Lia.
Local Open Scope nat_scope.

Lemma prefix_app : forall (A : Type) (p l r : list A), prefix p l -> prefix p (l ++ r).
Proof. intros A p l r [x ->]. exists (x ++ r). now rewrite app_assoc. Qed.
Lemma prefix_app_l : forall (A : Type) (a p l : list A), prefix p l -> prefix (a ++ p) (a ++ l).
Proof. intros A a p l [x ->]. exists x. now rewrite app_assoc. Qed.
Lemma prefix_refl : forall (A : Type) (l : list A), prefix l l.
Proof. intros A l. exists []. now rewrite app_nil_r. Qed.
Lemma prefix_self : forall (A : Type) (p r : list A), prefix p (p ++ r).
Proof. intros A p r. now exists r. Qed.
Lemma prefix_trans : forall (A : Type) (a b c : list A), prefix a b -> prefix b c -> prefix a c.
Proof. intros A a b c [x ->] [y ->]. exists (x ++ y). now rewrite app_assoc. Qed.

(** * Output *)
Definition bad_ans (intr : bool) (ws : list wres) : Prop :=
  In WErr ws \/ intr = true /\ In WIntr ws.
Lemma bad_incl : forall intr a b, incl a b -> bad_ans intr a -> bad_ans intr b.
Proof. intros intr a b H [A|[A B]]; [left|right; split]; auto. Qed.

Lemma write_loop_ok : forall intr ws out todo,
  match write_loop intr out ws todo with
  | LDone k => sent k = out ++ todo /\ incl (wans k) ws
  | LFail k rest => incl (wans k) ws /\ length rest <= length todo /\ bad_ans intr ws /\
      exists d, sent k = out ++ d /\ d ++ rest = todo
  | LBlock k => prefix (sent k) (out ++ todo) /\ wans k = []
  end.
Proof.
  intros intr. induction ws as [|w ws IH]; intros out todo.
  - destruct todo as [|c t]; cbn.
    + rewrite app_nil_r. split; [reflexivity|apply incl_refl].
    + split; [apply prefix_self|reflexivity].
  - destruct todo as [|c t]; [cbn; rewrite app_nil_r; split; [reflexivity|apply incl_refl]|].
    cbn [write_loop].
    assert (T : incl ws (w :: ws)) by (apply incl_tl, incl_refl).
    assert (FAIL : forall rest, bad_ans intr (w :: ws) -> rest = c :: t ->
       incl ws (w :: ws) /\ length rest <= length (c :: t) /\ bad_ans intr (w :: ws) /\
       (exists d, out = out ++ d /\ d ++ rest = c :: t)).
    { intros rest B ->. split; [exact T|]. split; [lia|]. split; [exact B|].
      exists []. rewrite app_nil_r. auto. }
    destruct w as [n| |].
    + specialize (IH (out ++ firstn n (c :: t)) (skipn n (c :: t))).
      destruct (write_loop intr (out ++ firstn n (c :: t)) ws (skipn n (c :: t))) as [k|k rest|k].
      * destruct IH as [-> I]. rewrite <- app_assoc, firstn_skipn. split; [reflexivity|].
        eapply incl_tran; eassumption.
      * destruct IH as (I & B & F & d & D1 & D2).
        split; [eapply incl_tran; eassumption|].
        split; [rewrite skipn_length in B; lia|].
        split; [eapply bad_incl; eassumption|].
        exists (firstn n (c :: t) ++ d). rewrite D1, <- !app_assoc, D2, firstn_skipn. auto.
      * rewrite <- app_assoc, firstn_skipn in IH. exact IH.
    + destruct intr; [apply FAIL; [right; cbn; tauto|reflexivity]|].
      specialize (IH out (c :: t)). destruct (write_loop false out ws (c :: t)) as [k|k rest|k]; try exact IH.
      * destruct IH as [A I]. split; [exact A|eapply incl_tran; eassumption].
      * destruct IH as (I & B & F & D).
        split; [eapply incl_tran; eassumption|]. split; [exact B|].
        split; [eapply bad_incl; eassumption|exact D].
    + apply FAIL; [left; cbn; tauto|reflexivity].
Qed.

(** Buffer invariant. *)
Definition oinv (s : ofile) : Prop :=
  length (ob s) + oleft s <= osize s /\ (ounbuf s = true -> osize s = 0) /\
  (ounbuf s = false -> 0 < osize s) /\ (owriting s = false -> ob s = []) /\
  (oerror s = true -> oleft s = 0) /\ (oleft s <> 0 -> owriting s = true).

(** Effect of writing [bs] on what was sent and what is in the buffer. *)
Definition post (bs : cstr) (s : ofile) (k : okern) (r : ores) : Prop :=
  match r with
  | ORet true s' k' =>
    oinv s' /\ sent k' ++ ob s' = sent k ++ ob s ++ bs /\ oerror s' = oerror s /\
    ointr s' = ointr s /\ incl (wans k') (wans k) /\ prefix (sent k) (sent k')
  | ORet false s' k' =>
    oinv s' /\ oerror s' = true /\ ointr s' = ointr s /\ incl (wans k') (wans k) /\
    prefix (sent k) (sent k') /\
    (exists p, prefix p bs /\ sent k' ++ ob s' = sent k ++ ob s ++ p) /\
    (if oerror s then s' = s /\ k' = k else bad_ans (ointr s) (wans k))
  | OBlock k' => prefix (sent k') (sent k ++ ob s ++ bs) /\ wans k' = []
  | OOob => False
  end.

Lemma oinv_open : forall n u i, u = true \/ 0 < n -> oinv (fdopen_w n u i).
Proof. intros n u i H. unfold oinv, fdopen_w; cbn. destruct u; cbn; intuition (try discriminate; try lia). Qed.

Lemma post_self_err : forall bs s k, oinv s -> oerror s = true -> post bs s k (ORet false s k).
Proof.
  intros bs s k I E. cbn. rewrite E.
  repeat (split; [first [assumption|reflexivity|apply incl_refl|apply prefix_refl]|]).
  split; [|auto]. exists []. split; [exists bs; reflexivity|now rewrite app_nil_r].
Qed.

Lemma emptybuf_ok : forall s k, oinv s ->
  post [] s k (emptybuf s k) /\
  (forall s' k', emptybuf s k = ORet true s' k' ->
     ob s' = [] /\ oleft s' = osize s' /\ osize s' = osize s /\ ounbuf s' = ounbuf s /\
     owriting s' = true /\ oerror s = false).
Proof.
  intros s k I. unfold emptybuf. destruct (oerror s) eqn:E.
  { split; [apply post_self_err; assumption|discriminate]. }
  pose proof I as (I1 & I2 & I3 & I4 & I5 & I6).
  destruct (owriting s) eqn:W.
  - pose proof (write_loop_ok (ointr s) (wans k) (sent k) (ob s)) as H.
    destruct (write_loop (ointr s) (sent k) (wans k) (ob s)) as [k'|k' rest|k'].
    + destruct H as [A B]. split.
      * cbn. split; [unfold oinv; cbn; intuition (try lia; discriminate)|].
        rewrite !app_nil_r. split; [exact A|]. split; [congruence|]. split; [reflexivity|]. split; [exact B|].
        rewrite A. apply prefix_self.
      * intros s' k2 [= <- <-]. cbn. repeat split; assumption.
    + destruct H as (B & LE & F & d & D1 & D2). split; [|discriminate].
      cbn. split; [unfold oinv; cbn; intuition (try lia; discriminate)|].
      split; [reflexivity|]. split; [reflexivity|]. split; [exact B|].
      split; [rewrite D1; apply prefix_self|].
      split; [|rewrite E; exact F].
      exists []. split; [exists []; reflexivity|]. rewrite D1, app_nil_r, <- app_assoc, D2. reflexivity.
    + split; [|discriminate]. cbn. rewrite app_nil_r. exact H.
  - split.
    + cbn. rewrite (I4 eq_refl). split; [unfold oinv; cbn; intuition (try lia; discriminate)|].
      split; [reflexivity|]. split; [congruence|]. split; [reflexivity|]. split; [apply incl_refl|apply prefix_refl].
    + intros s' k2 [= <- <-]. cbn. repeat split; assumption.
Qed.

Lemma flush_ok : forall s k, oinv s ->
  post [] s k (flush s k) /\ (forall s' k', flush s k = ORet true s' k' -> ob s' = []).
Proof.
  intros s k I. unfold flush. destruct (oerror s) eqn:E.
  { split; [apply post_self_err; assumption|discriminate]. }
  destruct (owriting s) eqn:W.
  - destruct (emptybuf_ok s k I) as [A B]. split; [exact A|]. intros s' k' R. apply B in R. tauto.
  - pose proof I as (_ & _ & _ & I4 & _ & _). split.
    + cbn. split; [exact I|]. rewrite (I4 W). split; [now rewrite ?app_nil_r|]. split; [reflexivity|]. split; [reflexivity|].
      split; [apply incl_refl|apply prefix_refl].
    + intros s' k' [= <- <-]. auto.
Qed.

Lemma store_ok : forall c s k, oinv s -> oleft s <> 0 -> post [c] s k (store c s k).
Proof.
  intros c s k I N. pose proof I as (I1 & I2 & I3 & I4 & I5 & I6). unfold store.
  destruct (Nat.ltb_spec (length (ob s)) (osize s)); [|lia].
  cbn. split.
  - unfold oinv; cbn. rewrite app_length; cbn. split; [lia|]. split; [auto|]. split; [auto|].
    split; [|split; [|intros; auto]].
    + intros W. rewrite (I6 N) in W. discriminate.
    + intros E. apply I5 in E. lia.
  - split; [now rewrite app_assoc|]. split; [reflexivity|]. split; [reflexivity|].
    split; [apply incl_refl|apply prefix_refl].
Qed.

(** Composition: first nothing, then [bs]. *)
Lemma post_seq : forall a b s k s1 k1 r, post a s k (ORet true s1 k1) -> oerror s = false ->
  post b s1 k1 r -> post (a ++ b) s k r.
Proof.
  intros a b s k s1 k1 r (A1 & A2 & A3 & A4 & A5 & A6) E P.
  destruct r as [[] s2 k2|k2|]; cbn in *.
  - destruct P as (B1 & B2 & B3 & B4 & B5 & B6).
    split; [exact B1|]. split; [rewrite B2, app_assoc, A2, <- !app_assoc; reflexivity|].
    split; [congruence|]. split; [congruence|]. split; [eapply incl_tran; eassumption|eapply prefix_trans; eassumption].
  - destruct P as (B1 & B2 & B3 & B4 & B5 & (p & Bp & Bq) & B7).
    split; [exact B1|]. split; [exact B2|]. split; [congruence|]. split; [eapply incl_tran; eassumption|].
    split; [eapply prefix_trans; eassumption|]. split.
    + exists (a ++ p). split; [now apply prefix_app_l|]. rewrite Bq, app_assoc, A2, <- !app_assoc; reflexivity.
    + rewrite A3, E in B7. rewrite E. rewrite A4 in B7. eapply bad_incl; eassumption.
  - destruct P as [B1 B2]. split; [|exact B2].
    rewrite app_assoc, A2, <- !app_assoc in B1. exact B1.
  - exact P.
Qed.

Lemma ascii_of_mod : forall c, to_byte c = ascii_of_N (Z.to_N (c mod 256)).
Proof.
  intros c. unfold to_byte, ascii_of_nat. f_equal. rewrite Z_nat_N. reflexivity.
Qed.

Lemma putchar_ok : forall c s k, oinv s -> c <> (-1)%Z -> post [to_byte c] s k (putchar c s k).
Proof.
  intros c s k I NE. unfold putchar.
  replace (c =? -1)%Z with false by (symmetry; now apply Z.eqb_neq).
  destruct (ounbuf s) eqn:U.
  - destruct (oerror s) eqn:E; [apply post_self_err; assumption|].
    pose proof I as (I1 & I2 & I3 & I4 & I5 & I6).
    assert (OB : ob s = []).
    { destruct (ob s) eqn:B; [reflexivity|]. cbn in I1. rewrite (I2 U) in I1. lia. }
    pose proof (write_loop_ok (ointr s) (wans k) (sent k) [to_byte c]) as H.
    destruct (write_loop (ointr s) (sent k) (wans k) [to_byte c]) as [k'|k' rest|k'].
    + destruct H as [A B]. cbn. rewrite OB. split; [exact I|]. split; [rewrite A; now rewrite app_nil_r|].
      split; [reflexivity|]. split; [reflexivity|]. split; [exact B|]. rewrite A. apply prefix_self.
    + destruct H as (B & LE & F & d & D1 & D2). cbn. split.
      { unfold oinv; cbn. rewrite (I2 U) in *. intuition (try lia; congruence). }
      split; [reflexivity|]. split; [reflexivity|]. split; [exact B|].
      split; [rewrite D1; apply prefix_self|].
      split; [|rewrite E; exact F].
      exists d. split; [now exists rest|]. rewrite D1, OB, app_nil_r. reflexivity.
    + cbn. rewrite OB. exact H.
  - destruct (Nat.eqb_spec (oleft s) 0) as [Z|NZ].
    + destruct (emptybuf_ok s k I) as [A B].
      destruct (emptybuf s k) as [[] s1 k1|k1|] eqn:R.
      * destruct (B _ _ eq_refl) as (B1 & B2 & B3 & B4 & B5 & B6).
        change [to_byte c] with ([] ++ [to_byte c]).
        eapply post_seq; [exact A|exact B6|]. apply store_ok; [apply A|].
        destruct I as (_ & _ & I3 & _). specialize (I3 U). lia.
      * cbn in A |- *. destruct A as (A1 & A2 & A3 & A4 & A5 & (p & Ap & Aq) & A7).
        repeat (split; [assumption|]). split; [|exact A7].
        exists p. split; [|exact Aq]. destruct Ap as [r Er]. destruct p; [|discriminate]. now exists [to_byte c].
      * cbn in A |- *. destruct A as [A1 A2]. split; [|exact A2]. rewrite app_assoc. apply prefix_app.
        rewrite app_nil_r in A1. exact A1.
      * destruct A.
    + now apply store_ok.
Qed.

Lemma putc_ok : forall c s k, oinv s -> c <> (-1)%Z \/ oleft s <> 0 -> post [to_byte c] s k (putc c s k).
Proof.
  intros c s k I H. unfold putc. destruct (Nat.eqb_spec (oleft s) 0) as [Z|NZ].
  - apply putchar_ok; [exact I|]. destruct H; [assumption|lia].
  - now apply store_ok.
Qed.

Lemma copy_ok : forall bs s k, oinv s -> owriting s = true -> length bs <= oleft s ->
  exists s', copy bs s = Some s' /\ post bs s k (ORet true s' k) /\ osize s' = osize s.
Proof.
  intros bs s k I W H. pose proof I as (I1 & I2 & I3 & I4 & I5 & I6). unfold copy.
  destruct (Nat.leb_spec (length (ob s) + length bs) (osize s)); [|lia].
  eexists. split; [reflexivity|]. split; [|reflexivity].
  cbn. split.
  - unfold oinv; cbn. rewrite app_length, W. intuition (try lia; try discriminate).
  - split; [now rewrite app_assoc|]. split; [reflexivity|]. split; [reflexivity|].
    split; [apply incl_refl|apply prefix_refl].
Qed.

Lemma direct_bounds : forall n m, direct n m <= n /\ (m = 0 -> direct n m = n) /\ (0 < m -> n - direct n m < m).
Proof.
  intros n m. unfold direct. destruct (Nat.eqb_spec m 0).
  - split; [lia|]. split; lia.
  - pose proof (Nat.mod_upper_bound n m ltac:(lia)). pose proof (Nat.mod_le n m ltac:(lia)).
    split; [lia|]. split; lia.
Qed.

Lemma write_rest_ok : forall bs s k, oinv s -> post bs s k (write_rest bs s k).
Proof.
  intros bs s k I. unfold write_rest. destruct bs as [|b bs0].
  { cbn. split; [exact I|]. rewrite app_nil_r. split; [reflexivity|]. split; [reflexivity|]. split; [reflexivity|].
    split; [apply incl_refl|apply prefix_refl]. }
  set (bs := b :: bs0).
  destruct (emptybuf_ok s k I) as [A B].
  destruct (emptybuf s k) as [[] s1 k1|k1|] eqn:R.
  - destruct (B _ _ eq_refl) as (B1 & B2 & B3 & B4 & B5 & B6).
    change bs with ([] ++ bs) at 1. eapply post_seq; [exact A|exact B6|].
    destruct A as (I' & _ & E1 & _).
    pose proof (direct_bounds (length bs) (osize s1)) as (D1 & D2 & D3).
    destruct (Nat.ltb_spec (osize s1) (length bs)).
    + set (n := direct (length bs) (osize s1)) in *.
      pose proof (write_loop_ok (ointr s1) (wans k1) (sent k1) (firstn n bs)) as H0.
      destruct (write_loop (ointr s1) (sent k1) (wans k1) (firstn n bs)) as [k2|k2 rest|k2].
      * destruct H0 as [W1 W2].
        destruct (copy_ok (skipn n bs) s1 k2 I' B5) as (s2 & C1 & C2 & C3).
        { rewrite skipn_length, B2. destruct (Nat.eq_dec (osize s1) 0); [rewrite (D2 e); lia|].
          specialize (D3 ltac:(lia)). lia. }
        rewrite C1. cbn in C2 |- *. destruct C2 as (C2 & C4 & C5 & C6 & C7 & C8).
        split; [exact C2|]. split.
        { rewrite C4, W1, B1. cbn. rewrite <- app_assoc, firstn_skipn. reflexivity. }
        split; [exact C5|]. split; [exact C6|]. split; [exact W2|]. rewrite W1. apply prefix_self.
      * destruct H0 as (W1 & W2 & W3 & d & W4 & W5). cbn. rewrite B1.
        split; [destruct I' as (Ia & Ib & Ic & Id & Ie & If); unfold oinv; cbn; rewrite B5, B4 in *; intuition (try lia; try congruence)|].
        split; [reflexivity|]. split; [reflexivity|]. split; [exact W1|]. split; [rewrite W4; apply prefix_self|].
        split.
        -- exists d. split; [|rewrite W4, app_nil_r; reflexivity].
           exists (rest ++ skipn n bs). rewrite app_assoc, W5, firstn_skipn. reflexivity.
        -- rewrite E1, B6. exact W3.
      * cbn. destruct H0 as [W1 W2]. split; [|exact W2]. rewrite B1. cbn.
        eapply prefix_trans; [exact W1|]. apply prefix_app_l. exists (skipn n bs). now rewrite firstn_skipn.
    + destruct (copy_ok bs s1 k1 I' B5) as (s2 & C1 & C2 & C3); [rewrite B2; lia|].
      rewrite C1. exact C2.
  - cbn in A |- *. destruct A as (A1 & A2 & A3 & A4 & A5 & (p & Ap & Aq) & A7).
    repeat (split; [assumption|]). split; [|exact A7].
    exists p. split; [|exact Aq]. destruct Ap as [r Er]. destruct p; [|discriminate]. now exists bs.
  - cbn in A |- *. destruct A as [A1 A2]. split; [|exact A2]. rewrite app_assoc. apply prefix_app.
    rewrite app_nil_r in A1. exact A1.
  - destruct A.
Qed.

Lemma write_ok : forall bs s k, oinv s -> post bs s k (write bs s k).
Proof.
  intros bs s k I. unfold write.
  destruct (Nat.eqb_spec (oleft s) 0); [cbn [negb andb]; now apply write_rest_ok|].
  cbn [negb]. rewrite Bool.andb_true_l.
  destruct (negb (length (ob s) =? 0) || (length bs <? oleft s))%nat eqn:B; [|now apply write_rest_ok].
  pose proof I as (I1 & I2 & I3 & I4 & I5 & I6).
  set (m := Nat.min (oleft s) (length bs)).
  destruct (copy_ok (firstn m bs) s k I (I6 n)) as (s1 & C1 & C2 & C3).
  { rewrite firstn_length. subst m. lia. }
  rewrite C1. rewrite <- (firstn_skipn m bs) at 1. eapply post_seq; [exact C2| |].
  - destruct (oerror s); [|reflexivity]. specialize (I5 eq_refl). lia.
  - apply write_rest_ok. apply C2.
Qed.

(** Sequences of calls. *)
Definition call (o : oop) (s : ofile) (k : okern) : ores :=
  match o with
  | Write bs => write bs s k
  | Putc c => putc c s k
  | Putchar c => putchar c s k
  | Flush => flush s k
  end.
(** The values returned so far, then how it ends. *)
Fixpoint calls (os : list oop) (s : ofile) (k : okern) : list bool * ores :=
  match os with
  | [] => ([], ORet true s k)
  | o :: os =>
    match call o s k with
    | ORet v s k => let (vs, r) := calls os s k in (v :: vs, r)
    | r => ([], r)
    end
  end.
Lemma call_ok : forall o s k, oinv s -> char_arg o ->
  post (out_bytes o) s k (call o s k) /\
  (forall s' k', call o s k = ORet true s' k' -> o = Flush -> ob s' = []).
Proof.
  intros o s k I C. destruct o as [bs|c|c|]; cbn [call out_bytes].
  - split; [now apply write_ok|discriminate].
  - cbn in C. rewrite <- ascii_of_mod. split; [apply putc_ok; [assumption|left; lia]|discriminate].
  - cbn in C. rewrite <- ascii_of_mod. split; [apply putchar_ok; [assumption|lia]|discriminate].
  - destruct (flush_ok s k I) as [A B]. split; [exact A|]. intros s' k' H _. eapply B; eassumption.
Qed.

Lemma call_error : forall o s k, oinv s -> oerror s = true -> char_arg o ->
  call o s k = ORet (match o with Write [] => true | _ => false end) s k.
Proof.
  intros o s k I E C. pose proof I as (_ & _ & _ & _ & I5 & _). specialize (I5 E).
  assert (EB : emptybuf s k = ORet false s k) by (unfold emptybuf; now rewrite E).
  assert (PC : forall c, c <> (-1)%Z -> putchar c s k = ORet false s k).
  { intros c H. unfold putchar. replace (c =? -1)%Z with false by (symmetry; now apply Z.eqb_neq).
    rewrite E, I5, EB. cbn. destruct (ounbuf s); reflexivity. }
  destruct o as [bs|c|c|]; cbn [call] in *; cbn [char_arg] in C.
  - unfold write. rewrite I5. cbn [Nat.eqb negb andb]. unfold write_rest. destruct bs; [reflexivity|].
    rewrite EB. reflexivity.
  - unfold putc. rewrite I5. cbn [Nat.eqb]. apply PC. lia.
  - apply PC. lia.
  - unfold flush. now rewrite E.
Qed.

Lemma calls_error : forall os s k, oinv s -> oerror s = true -> Forall char_arg os ->
  calls os s k = (map (fun o => match o with Write [] => true | _ => false end) os, ORet true s k).
Proof.
  induction os as [|o os IH]; intros s k I E F; [reflexivity|].
  inversion F; subst. cbn [calls]. rewrite (call_error o s k I E H1).
  rewrite (IH s k I E H2). reflexivity.
Qed.

Definition out_all (os : list oop) : cstr := flat_map out_bytes os.

Lemma calls_ok : forall os s k, oinv s -> oerror s = false -> Forall char_arg os ->
  let (vs, r) := calls os s k in
  match r with
  | OOob => False
  | OBlock k' => prefix (sent k') (sent k ++ ob s ++ out_all os) /\ wans k' = [] /\ Forall (fun v => v = true) vs
  | ORet _ s' k' =>
    length vs = length os /\ oinv s' /\
    ((oerror s' = false /\ Forall (fun v => v = true) vs /\ sent k' ++ ob s' = sent k ++ ob s ++ out_all os /\
      prefix (sent k) (sent k') /\
      (forall os', os = os' ++ [Flush] -> ob s' = []))
     \/
     (oerror s' = true /\ bad_ans (ointr s) (wans k) /\
      exists os1 o os2 p, os = os1 ++ o :: os2 /\
        vs = map (fun _ => true) os1 ++ false :: map (fun o => match o with Write [] => true | _ => false end) os2 /\
        prefix p (out_bytes o) /\ sent k' ++ ob s' = sent k ++ ob s ++ out_all os1 ++ p))
  end.
Proof.
  induction os as [|o os IH]; intros s k I E F.
  - cbn. split; [reflexivity|]. split; [exact I|]. left. rewrite app_nil_r.
    split; [exact E|]. split; [constructor|]. split; [reflexivity|]. split; [apply prefix_refl|].
    intros os' H. destruct os'; discriminate.
  - inversion F as [|? ? C F']; subst. cbn [calls].
    destruct (call_ok o s k I C) as [P FL].
    destruct (call o s k) as [[] s1 k1|k1|] eqn:R.
    + destruct P as (P1 & P2 & P3 & P4 & P5 & P6).
      specialize (IH s1 k1 P1 ltac:(congruence) F').
      destruct (calls os s1 k1) as [vs [v s2 k2|k2|]] eqn:Q.
      * destruct IH as (L & J & [(A & B & D & D' & G)|(A & B & os1 & o' & os2 & p & H1 & H2 & H3 & H4)]).
        -- split; [cbn; congruence|]. split; [exact J|]. left. split; [exact A|]. split; [now constructor|].
           split; [|split].
           ++ rewrite D, app_assoc, P2. unfold out_all; cbn [flat_map]. now rewrite <- !app_assoc.
           ++ eapply prefix_trans; eassumption.
           ++ intros os' H. destruct os' as [|x os'].
              ** injection H as -> ->. cbn in Q. injection Q as _ _ <- _. eapply FL; reflexivity.
              ** injection H as -> ->. eapply G; reflexivity.
        -- split; [cbn; congruence|]. split; [exact J|]. right. split; [exact A|].
           split; [rewrite P4 in B; eapply bad_incl; eassumption|].
           exists (o :: os1), o', os2, p. subst os vs. split; [reflexivity|]. split; [reflexivity|].
           split; [exact H3|]. rewrite H4, app_assoc, P2. unfold out_all; cbn [flat_map]. now rewrite <- !app_assoc.
      * destruct IH as (A & B & D). split; [|split; [exact B|now constructor]].
        rewrite app_assoc, P2 in A. unfold out_all in *; cbn [flat_map]. now rewrite <- !app_assoc in *.
      * exact IH.
    + destruct P as (P1 & P2 & P3 & P4 & P5 & (p & Pp & Pq) & P7).
      rewrite (calls_error os s1 k1 P1 P2 F').
      split; [cbn; now rewrite map_length|]. split; [exact P1|]. right. split; [exact P2|].
      rewrite E in P7. split; [exact P7|].
      exists [], o, os, p. split; [reflexivity|]. split; [reflexivity|]. split; [exact Pp|exact Pq].
    + destruct P as [A B]. split; [|split; [exact B|constructor]].
      unfold out_all; cbn [flat_map]. rewrite !app_assoc in *. now apply prefix_app.
    + exact P.
Qed.

(** * Input *)
(** Everything still to be read. *)
Definition irest (s : ifile) (k : ikern) : cstr := idata s ++ src k.
Definition iinv (s : ifile) (k : ikern) : Prop :=
  0 < isize s /\ length (idata s) + ipos s <= isize s /\ (ieof s = true -> idata s = [] /\ src k = []).
Definition bad_read (intr : bool) (ws : list rres) : Prop :=
  In RErr ws \/ intr = true /\ In RIntr ws.
Lemma bad_read_incl : forall i a b, incl a b -> bad_read i a -> bad_read i b.
Proof. intros i a b H [A|[A B]]; [left|right; split]; auto. Qed.

Lemma fill_loop_ok : forall s ws sr, 0 < isize s -> idata s = [] ->
  match fill_loop s sr ws with
  | None => True
  | Some (ok, s', k') =>
    incl (rans k') ws /\ isize s' = isize s /\ iintr s' = iintr s /\ ipos s' = 0 /\
    idata s' ++ src k' = sr /\ length (idata s') <= isize s' /\
    if ok then ierror s' = ierror s /\ (idata s' = [] <-> sr = []) /\
               (ieof s' = true -> ieof s = true \/ sr = [])
    else ierror s' = true /\ idata s' = [] /\ ieof s' = ieof s /\ bad_read (iintr s) ws
  end.
Proof.
  intros s ws. induction ws as [|w ws IH]; intros sr Z D; [exact Logic.I|].
  cbn [fill_loop].
  assert (T : incl ws (w :: ws)) by (apply incl_tl, incl_refl).
  destruct w as [n| |].
  - destruct sr as [|c r].
    + cbn. repeat (split; [first [exact T|reflexivity|lia]|]). auto.
    + set (m := Nat.min (Nat.max 1 n) (isize s)). cbn [rans isize iintr ipos idata src ierror ieof].
      split; [exact T|]. split; [reflexivity|]. split; [reflexivity|]. split; [reflexivity|].
      split; [apply firstn_skipn|]. split; [rewrite firstn_length; lia|].
      split; [reflexivity|]. split; [|auto].
      assert (m <> 0) by lia. destruct m; [lia|]. cbn. split; discriminate.
  - destruct (iintr s) eqn:E.
    + cbn. repeat (split; [first [exact T|reflexivity|lia]|]). right; cbn; auto.
    + specialize (IH sr Z D). destruct (fill_loop s sr ws) as [[[ok s'] k']|]; [|exact Logic.I].
      destruct IH as (A1 & A2 & A3 & A4 & A5 & A6 & A7).
      split; [eapply incl_tran; eassumption|]. repeat (split; [congruence||assumption|]).
      destruct ok; [exact A7|]. destruct A7 as (B1 & B2 & B3 & B4).
      repeat (split; [assumption|]). eapply bad_read_incl; eassumption.
  - cbn. repeat (split; [first [exact T|reflexivity|lia]|]). left; cbn; auto.
Qed.

(** Filling an empty buffer: nothing is lost. *)
Lemma fillbuf_ok : forall s k, iinv s k -> idata s = [] ->
  match fillbuf s k with
  | None => True
  | Some (ok, s', k') =>
    iinv s' k' /\ irest s' k' = irest s k /\ incl (rans k') (rans k) /\ iintr s' = iintr s /\ isize s' = isize s /\
    if ok then ierror s' = false /\ ierror s = false /\ (idata s' = [] <-> irest s k = [])
    else idata s' = [] /\
         (ierror s = false -> ierror s' = true \/ ieof s = true /\ irest s k = []) /\
         (ierror s = false -> ierror s' = true -> bad_read (iintr s) (rans k))
  end.
Proof.
  intros s k (Z & LE & EO) D. unfold fillbuf.
  destruct (ieof s || ierror s) eqn:B.
  - split; [now split|]. repeat (split; [first [reflexivity|apply incl_refl]|]). split; [exact D|].
    split; [|congruence].
    intros E. right. rewrite E, Bool.orb_false_r in B. split; [exact B|]. unfold irest. destruct (EO B) as [_ ->]. now rewrite D.
  - apply Bool.orb_false_iff in B as [B1 B2].
    pose proof (fill_loop_ok s (rans k) (src k) Z D) as H.
    destruct (fill_loop s (src k) (rans k)) as [[[ok s'] k']|]; [|exact Logic.I].
    destruct H as (A1 & A2 & A3 & A4 & A5 & A6 & A7).
    unfold irest. rewrite D, A5. cbn [app].
    split.
    { unfold iinv. rewrite A4. split; [lia|]. split; [lia|]. intros E.
      destruct ok.
      - destruct A7 as (_ & _ & A8). destruct (A8 E) as [X|X]; [congruence|]. rewrite X in A5.
        now apply app_eq_nil in A5.
      - destruct A7 as (_ & _ & A8 & _). congruence. }
    repeat (split; [first [reflexivity|assumption|congruence]|]).
    destruct ok.
    + destruct A7 as (A8 & A9 & _). repeat (split; [congruence|]). exact A9.
    + destruct A7 as (A8 & A9 & A10 & A11). split; [exact A9|]. split; auto.
Qed.

Lemma take_ok : forall n s k, iinv s k -> n <= length (idata s) ->
  let (t, s') := take n s in
  t = firstn n (irest s k) /\ irest s' k = skipn n (irest s k) /\ iinv s' k /\
  ierror s' = ierror s /\ iintr s' = iintr s /\ isize s' = isize s /\ length t = n /\
  idata s' = skipn n (idata s).
Proof.
  intros n s k (Z & LE & EO) H. unfold take, irest; cbn.
  rewrite firstn_app, skipn_app. replace (n - length (idata s)) with 0 by lia. cbn. rewrite app_nil_r.
  split; [reflexivity|]. split; [reflexivity|].
  split; [unfold iinv; cbn; rewrite skipn_length; split; [lia|]; split; [lia|]; intros E; destruct (EO E) as [-> ->]; destruct n; auto|].
  repeat (split; [reflexivity|]). split; [rewrite firstn_length; lia|reflexivity].
Qed.

Lemma skipn_add : forall (A : Type) a b (l : list A), skipn a (skipn b l) = skipn (b + a) l.
Proof.
  intros A a b. induction b as [|b IH]; intros l; [reflexivity|].
  destruct l as [|x l]; [now rewrite !skipn_nil|]. cbn [Nat.add skipn]. apply IH.
Qed.
Lemma find_nl_some : forall d m r, find_nl d = Some m ->
  1 <= m <= length d /\ first_line (d ++ r) = firstn m (d ++ r).
Proof.
  induction d as [|c d IH]; intros m r H; [discriminate|]. cbn in H |- *.
  destruct (ceq c NL) eqn:C.
  - injection H as <-. cbn. split; [lia|reflexivity].
  - destruct (find_nl d) as [m'|] eqn:F; [|discriminate]. injection H as <-.
    destruct (IH m' r eq_refl) as [A B]. cbn. rewrite B. split; [lia|reflexivity].
Qed.
Lemma find_nl_none : forall d r, find_nl d = None -> first_line (d ++ r) = d ++ first_line r.
Proof.
  induction d as [|c d IH]; intros r H; [reflexivity|]. cbn in H |- *.
  destruct (ceq c NL) eqn:C; [discriminate|].
  destruct (find_nl d); [discriminate|]. now rewrite IH.
Qed.
Lemma first_line_prefix : forall s, exists r, s = first_line s ++ r.
Proof.
  induction s as [|c s [r IH]]; [now exists []|]. cbn. destruct (ceq c NL).
  - exists s. reflexivity.
  - exists r. cbn. now rewrite <- IH.
Qed.
Lemma has_nul_app : forall a b, has_nul (a ++ b) = has_nul a || has_nul b.
Proof. intros. unfold has_nul. apply existsb_app. Qed.

Definition getse_post (n : nat) (acc : cstr) (s : ifile) (k : ikern) (r : tres) : Prop :=
  let line := firstn n (first_line (irest s k)) in
  match r with
  | TText t s' k' =>
    t = acc ++ line /\ has_nul line = false /\ irest s' k' = skipn (length line) (irest s k) /\
    iinv s' k' /\ ierror s' = false /\ iintr s' = iintr s /\ isize s' = isize s /\ incl (rans k') (rans k) /\
    (acc = [] -> irest s k <> [])
  | TNone s' k' =>
    iinv s' k' /\ iintr s' = iintr s /\ isize s' = isize s /\ incl (rans k') (rans k) /\
    (acc = [] /\ irest s k = [] /\ irest s' k' = [] /\ ierror s' = false \/ ierror s' = true /\ bad_read (iintr s) (rans k))
  | TNul => has_nul line = true
  | TBlock => True
  | TFuel => False
  end.

Lemma getse_loop_ok : forall fuel n acc s k, iinv s k -> ierror s = false -> n < fuel ->
  (acc <> [] -> ieof s = false) ->
  getse_post n acc s k (getse_loop fuel n acc s k).
Proof.
  induction fuel as [|f IH]; intros n acc s k I E LT AC; [lia|].
  (* with data in the buffer *)
  assert (GO : forall s k, iinv s k -> ierror s = false -> idata s <> [] ->
    getse_post n acc s k
     (let e := find_nl (idata s) in
      let m := match e with Some m => m | None => length (idata s) end in
      let m := Nat.min m n in
      let (t, s) := take m s in
      if has_nul t then TNul
      else match e with
           | Some _ => TText (acc ++ t) s k
           | None => if Nat.eqb (n - m) 0 then TText (acc ++ t) s k
                     else getse_loop f (n - m) (acc ++ t) s k
           end)).
  { clear s k I E AC. intros s k I E D. cbv zeta.
    set (m0 := match find_nl (idata s) with Some m => m | None => length (idata s) end).
    set (m := Nat.min m0 n).
    assert (NE : irest s k <> []) by (unfold irest; destruct (idata s); [congruence|discriminate]).
    assert (EO : ieof s = false).
    { destruct (ieof s) eqn:X; [|reflexivity]. destruct I as (_ & _ & I3). destruct (I3 X). congruence. }
    assert (M0 : 1 <= m0 <= length (idata s)).
    { subst m0. destruct (find_nl (idata s)) as [x|] eqn:F.
      - now apply find_nl_some with (r := []) in F.
      - destruct (idata s); [congruence|]. cbn. lia. }
    pose proof (take_ok m s k I ltac:(lia)) as T.
    destruct (take m s) as [t s1] eqn:TE. destruct T as (T1 & T2 & T3 & T4 & T5 & T6 & T7 & T8).
    assert (FL : find_nl (idata s) <> None \/ n - m = 0 -> firstn n (first_line (irest s k)) = t).
    { intros C. subst t. unfold irest in *. destruct (find_nl (idata s)) as [x|] eqn:F.
      - apply find_nl_some with (r := src k) in F. destruct F as [F1 F2]. rewrite F2, firstn_firstn.
        f_equal. subst m m0. lia.
      - destruct C as [C|C]; [congruence|]. rewrite (find_nl_none _ _ F).
        subst m0. assert (m = n) by lia. rewrite H. rewrite !firstn_app.
        replace (n - length (idata s)) with 0 by lia. reflexivity. }
    assert (EI1 : ieof s1 = false).
    { unfold take in TE. injection TE as _ <-. exact EO. }
    destruct (has_nul t) eqn:HN.
    - unfold getse_post. cbv zeta.
      destruct (find_nl (idata s)) as [x|] eqn:F.
      + rewrite FL; [exact HN|left; discriminate].
      + destruct (Nat.eq_dec (n - m) 0) as [Q|Q]; [rewrite FL; [exact HN|now right]|].
        unfold irest in *. rewrite (find_nl_none _ _ F).
        assert (m = length (idata s)) by (subst m m0; lia).
        rewrite firstn_app, firstn_all2 by lia. rewrite has_nul_app.
        rewrite T1, H, firstn_app, firstn_all, Nat.sub_diag in HN. cbn in HN. rewrite app_nil_r in HN.
        now rewrite HN.
    - assert (DONE : find_nl (idata s) <> None \/ n - m = 0 -> getse_post n acc s k (TText (acc ++ t) s1 k)).
      { intros C. unfold getse_post. cbv zeta. rewrite (FL C), T7.
        split; [reflexivity|]. split; [exact HN|]. split; [exact T2|]. split; [exact T3|].
        split; [congruence|]. split; [exact T5|]. split; [exact T6|]. split; [apply incl_refl|]. intros _; exact NE. }
      destruct (find_nl (idata s)) as [x|] eqn:F; [apply DONE; left; discriminate|].
      destruct (Nat.eqb_spec (n - m) 0) as [Q|Q]; [apply DONE; now right|].
      assert (M : m = length (idata s)) by (subst m m0; lia).
      specialize (IH (n - m) (acc ++ t) s1 k T3 ltac:(congruence) ltac:(lia) (fun _ => EI1)).
      assert (TD : t = idata s).
      { rewrite T1, M. unfold irest. rewrite firstn_app, firstn_all, Nat.sub_diag. cbn. now rewrite app_nil_r. }
      assert (R1 : irest s1 k = src k).
      { rewrite T2, M. unfold irest. rewrite skipn_app, skipn_all, Nat.sub_diag. reflexivity. }
      assert (LINE : firstn n (first_line (irest s k)) = t ++ firstn (n - m) (first_line (irest s1 k))).
      { rewrite R1. unfold irest. rewrite (find_nl_none _ _ F), TD, firstn_app, firstn_all2 by lia.
        now rewrite M. }
      unfold getse_post in IH |- *. cbv zeta in IH |- *.
      destruct (getse_loop f (n - m) (acc ++ t) s1 k) as [u s2 k2|s2 k2| | |].
      + destruct IH as (A1 & A2 & A3 & A4 & A5 & A6 & A7 & A8 & A9).
        rewrite LINE. split; [rewrite A1; now rewrite app_assoc|].
        split; [rewrite has_nul_app, HN; exact A2|].
        split; [rewrite A3, app_length, T7, <- skipn_add, <- T2; reflexivity|].
        repeat (split; [first [assumption|congruence]|]). intros _; exact NE.
      + destruct IH as (A1 & A2 & A3 & A4 & A5). repeat (split; [first [assumption|congruence]|]).
        destruct A5 as [(A5 & _)|[A5 A6]].
        * exfalso. apply (f_equal (@length _)) in A5. rewrite app_length, T7 in A5. cbn in A5. lia.
        * right. split; [exact A5|]. now rewrite <- T5.
      + rewrite LINE, has_nul_app, IH. apply Bool.orb_true_r.
      + exact Logic.I.
      + exact IH. }
  cbn [getse_loop]. destruct (idata s) as [|c d] eqn:D.
  - pose proof (fillbuf_ok s k I D) as H. destruct (fillbuf s k) as [[[ok s1] k1]|]; [|exact Logic.I].
    destruct H as (A1 & A2 & A3 & A4 & A5 & A6). destruct ok.
    + destruct A6 as (B1 & B2 & B3). destruct (idata s1) as [|c1 d1] eqn:D1.
      * assert (R : irest s k = []) by now apply B3. destruct acc as [|a acc].
        -- unfold getse_post. repeat (split; [assumption|]). left.
           split; [reflexivity|]. split; [exact R|]. split; [congruence|exact B1].
        -- unfold getse_post. cbv zeta. rewrite R. cbn [first_line]. rewrite firstn_nil. cbn [length skipn].
           split; [now rewrite app_nil_r|]. split; [reflexivity|]. split; [congruence|].
           repeat (split; [assumption|]). discriminate.
      * rewrite <- D1. assert (D1' : idata s1 <> []) by congruence.
        specialize (GO s1 k1 A1 B1 D1').
        assert (TR : forall r, getse_post n acc s1 k1 r -> getse_post n acc s k r).
        { unfold getse_post. cbv zeta. rewrite A2. intros [u s2 k2|s2 k2| | |]; auto.
          - intros (Q1 & Q2 & Q3 & Q4 & Q5 & Q6 & Q7 & Q8 & Q9).
            split; [exact Q1|]. split; [exact Q2|]. split; [exact Q3|]. split; [exact Q4|]. split; [exact Q5|].
            split; [congruence|]. split; [congruence|]. split; [eapply incl_tran; eassumption|exact Q9].
          - intros (Q1 & Q2 & Q3 & Q4 & Q5).
            split; [exact Q1|]. split; [congruence|]. split; [congruence|]. split; [eapply incl_tran; eassumption|].
            destruct Q5 as [Q5|[Q5 Q6]]; [left; exact Q5|right; split; [exact Q5|]].
            rewrite A4 in Q6. eapply bad_read_incl; eassumption. }
        apply TR. exact GO.
    + destruct A6 as (B1 & B2 & B3). unfold getse_post.
      repeat (split; [assumption|]).
      destruct (ierror s1) eqn:E1; [right; split; auto|].
      left. destruct (B2 E) as [X|[X0 X]]; [discriminate|].
      split.
      * destruct acc; [reflexivity|]. rewrite AC in X0; discriminate.
      * split; [exact X|]. split; [congruence|reflexivity].
  - rewrite <- D. apply GO; [exact I|exact E|congruence].
Qed.

Lemma getse_ok : forall b s k, iinv s k -> ierror s = false ->
  getse_post b [] s k (getse (S b) s k).
Proof. intros b s k I E. unfold getse. apply getse_loop_ok; [exact I|exact E|lia|congruence]. Qed.

Definition read_post (n : nat) (acc : cstr) (s : ifile) (k : ikern) (r : tres) : Prop :=
  match r with
  | TText t s' k' =>
    exists m, m <= n /\ t = acc ++ firstn m (irest s k) /\ has_nul (firstn m (irest s k)) = false /\
      irest s' k' = skipn m (irest s k) /\ iinv s' k' /\
      (ierror s' = false /\ (m = n \/ irest s' k' = []) \/
       ierror s' = true /\ bad_read (iintr s) (rans k) /\ t <> [])
  | TNone s' k' => acc = [] /\ ierror s' = true /\ bad_read (iintr s) (rans k) /\
                   irest s' k' = irest s k /\ iinv s' k'
  | TNul => has_nul (firstn n (irest s k)) = true
  | TBlock => True
  | TFuel => False
  end.

Lemma firstn_add : forall (A : Type) a b (l : list A), firstn (a + b) l = firstn a l ++ firstn b (skipn a l).
Proof.
  intros A a b. induction a as [|a IH]; intros l; [reflexivity|].
  destruct l as [|x l]; [now rewrite !firstn_nil|]. cbn. now rewrite IH.
Qed.

Lemma read_loop_ok : forall fuel n acc s k, iinv s k -> ierror s = false -> n < fuel ->
  read_post n acc s k (read_loop fuel n acc s k).
Proof.
  induction fuel as [|f IH]; intros n acc s k I E LT; [lia|].
  assert (GO : forall s k, iinv s k -> ierror s = false -> idata s <> [] -> n <> 0 ->
    read_post n acc s k
      (let m := Nat.min (length (idata s)) n in
       let (t, s) := take m s in
       if has_nul t then TNul else read_loop f (n - m) (acc ++ t) s k)).
  { clear s k I E. intros s k I E D NZ. cbv zeta. set (m := Nat.min (length (idata s)) n).
    assert (1 <= m) by (subst m; destruct (idata s); [congruence|cbn [length]; lia]).
    pose proof (take_ok m s k I ltac:(lia)) as T.
    destruct (take m s) as [t s1]. destruct T as (T1 & T2 & T3 & T4 & T5 & T6 & T7 & T8).
    assert (NM : n = m + (n - m)) by lia.
    destruct (has_nul t) eqn:HN.
    - cbn. rewrite NM, firstn_add, has_nul_app, <- T1, HN. reflexivity.
    - specialize (IH (n - m) (acc ++ t) s1 k T3 ltac:(congruence) ltac:(lia)).
      destruct (read_loop f (n - m) (acc ++ t) s1 k) as [u s2 k2|s2 k2| | |]; cbn in IH |- *.
      + destruct IH as (q & Q1 & Q2 & Q3 & Q4 & Q5 & Q6). exists (m + q).
        rewrite firstn_add, <- T1, <- T2, has_nul_app, HN, <- skipn_add, <- T2.
        split; [lia|]. split; [rewrite Q2; now rewrite app_assoc|]. split; [exact Q3|]. split; [exact Q4|].
        split; [exact Q5|]. rewrite <- T5. destruct Q6 as [[Q6 Q7]|Q6]; [left; split; [exact Q6|]|now right].
        destruct Q7; [left; lia|now right].
      + destruct IH as (Q1 & _). exfalso. apply (f_equal (@length _)) in Q1. rewrite app_length, T7 in Q1. cbn in Q1. lia.
      + rewrite NM, firstn_add, has_nul_app, <- T2, IH. apply Bool.orb_true_r.
      + exact Logic.I.
      + exact IH. }
  assert (STOP : forall s1 k1, iinv s1 k1 -> irest s1 k1 = irest s k ->
     (ierror s1 = false /\ (n = 0 \/ irest s k = []) \/ ierror s1 = true /\ bad_read (iintr s) (rans k)) ->
     read_post n acc s k (match acc with [] => if ierror s1 then TNone s1 k1 else TText [] s1 k1 | _ => TText acc s1 k1 end)).
  { intros s1 k1 I1 R1 C. destruct acc as [|a acc].
    - destruct C as [[C1 C2]|[C1 C2]]; rewrite C1; cbn; [|auto].
      exists 0. cbn. split; [lia|]. split; [reflexivity|]. split; [reflexivity|]. split; [exact R1|]. split; [exact I1|].
      left. split; [exact C1|]. rewrite R1. destruct C2; auto.
    - cbn. exists 0. cbn. rewrite app_nil_r.
      split; [lia|]. split; [reflexivity|]. split; [reflexivity|]. split; [exact R1|]. split; [exact I1|].
      destruct C as [[C1 C2]|[C1 C2]].
      + left. split; [exact C1|]. rewrite R1. destruct C2; auto.
      + right. split; [exact C1|]. split; [exact C2|discriminate]. }
  cbn [read_loop]. destruct n as [|n0]; [apply STOP; auto|]. set (n := S n0) in *.
  destruct (idata s) as [|c d] eqn:D.
  - pose proof (fillbuf_ok s k I D) as H. destruct (fillbuf s k) as [[[ok s1] k1]|]; [|exact Logic.I].
    destruct H as (A1 & A2 & A3 & A4 & A5 & A6). destruct ok.
    + destruct A6 as (B1 & B2 & B3). destruct (idata s1) as [|c1 d1] eqn:D1.
      * apply STOP; [exact A1|exact A2|]. left. split; [exact B1|]. right. now apply B3.
      * rewrite <- D1. assert (D1' : idata s1 <> []) by congruence.
        specialize (GO s1 k1 A1 B1 D1' ltac:(discriminate)). unfold read_post in GO |- *. rewrite A2 in GO.
        match goal with |- match ?X with _ => _ end => destruct X as [u s2 k2|s2 k2| | |] end; try exact GO.
        -- destruct GO as (m & Q1 & Q2 & Q3 & Q4 & Q5 & Q6). exists m. repeat (split; [assumption|]).
           destruct Q6 as [Q6|(Q6 & Q7 & Q8)]; [now left|right]. split; [exact Q6|]. split; [|exact Q8].
           rewrite A4 in Q7. eapply bad_read_incl; eassumption.
        -- destruct GO as (Q1 & Q2 & Q3 & Q4 & Q5). split; [exact Q1|]. split; [exact Q2|]. split; [|auto].
           rewrite A4 in Q3. eapply bad_read_incl; eassumption.
    + destruct A6 as (B1 & B2 & B3). apply STOP; [exact A1|exact A2|].
      destruct (ierror s1) eqn:E1; [right; auto|left]. split; [reflexivity|].
      destruct (B2 E) as [X|[_ X]]; [discriminate|now right].
  - rewrite <- D. apply GO; [exact I|exact E|congruence|discriminate].
Qed.
Lemma read_ok : forall n s k, iinv s k -> ierror s = false -> read_post n [] s k (read n s k).
Proof. intros. apply read_loop_ok; [assumption|assumption|lia]. Qed.

Lemma getchar_ok : forall s k, iinv s k -> ierror s = false ->
  match getchar s k with
  | IChar c s' k' => iinv s' k' /\ irest s k = c :: irest s' k' /\ ierror s' = false /\ 0 < ipos s' /\
      incl (rans k') (rans k) /\ iintr s' = iintr s
  | IEof s' k' => iinv s' k' /\ irest s' k' = irest s k /\ idata s' = [] /\
      (irest s k = [] /\ ierror s' = false \/ ierror s' = true /\ bad_read (iintr s) (rans k))
  | IBlock => True
  end.
Proof.
  intros s k I E. unfold getchar.
  assert (GO : forall s1 k1, iinv s1 k1 -> ierror s1 = false -> idata s1 <> [] ->
    match match idata s1 with c :: _ => IChar c (snd (take 1 s1)) k1 | [] => IEof s1 k1 end with
    | IChar c s' k' => iinv s' k' /\ irest s1 k1 = c :: irest s' k' /\ ierror s' = false /\ 0 < ipos s' /\
        rans k' = rans k1 /\ iintr s' = iintr s1
    | _ => False
    end).
  { intros s1 k1 I1 E1 D. destruct (idata s1) as [|c d] eqn:D1; [congruence|].
    pose proof (take_ok 1 s1 k1 I1) as T. rewrite D1 in T. cbn [length] in T. specialize (T ltac:(lia)).
    unfold take, irest in *. cbn in T |- *. rewrite D1 in *. destruct T as (T1 & T2 & T3 & _).
    cbn in *. split; [exact T3|]. split; [reflexivity|]. split; [exact E1|]. split; [lia|auto]. }
  destruct (idata s) as [|c d] eqn:D.
  - pose proof (fillbuf_ok s k I D) as H. destruct (fillbuf s k) as [[[ok s1] k1]|]; [|exact Logic.I].
    destruct H as (A1 & A2 & A3 & A4 & A5 & A6). destruct ok.
    + destruct A6 as (B1 & B2 & B3). destruct (idata s1) as [|c1 d1] eqn:D1.
      * split; [exact A1|]. split; [exact A2|]. split; [exact D1|]. left. split; [now apply B3|exact B1].
      * specialize (GO s1 k1 A1 B1). rewrite D1 in GO. specialize (GO ltac:(discriminate)).
        cbv beta iota in GO |- *. rewrite A2, A4 in GO. destruct GO as (Q1 & Q2 & Q3 & Q4 & Q5 & Q6).
        repeat (split; [first [assumption]|]). exact Q6.
    + destruct A6 as (B1 & B2 & B3). split; [exact A1|]. split; [exact A2|]. split; [exact B1|].
      destruct (ierror s1) eqn:E1; [right; auto|left]. split; [|reflexivity].
      destruct (B2 E) as [X|[_ X]]; [discriminate|exact X].
  - specialize (GO s k I E). rewrite D in GO. specialize (GO ltac:(discriminate)). cbv beta iota in GO |- *.
    destruct GO as (Q1 & Q2 & Q3 & Q4 & Q5 & Q6). repeat (split; [first [assumption]|]).
    split; [apply incl_refl|exact Q6].
Qed.

Lemma ungetc_ok : forall c s k, iinv s k -> ierror s = false -> (0 <= c < 256)%Z ->
  (0 < ipos s \/ idata s = []) ->
  exists s', ungetc c s = Some (true, s') /\ iinv s' k /\ irest s' k = to_byte c :: irest s k /\
             ierror s' = false /\ iintr s' = iintr s /\ isize s' = isize s.
Proof.
  intros c s k (Z & LE & EO) E C H. unfold ungetc. rewrite E.
  replace (c =? -1)%Z with false by (symmetry; apply Z.eqb_neq; lia). cbn [orb].
  destruct (Nat.eqb_spec (ipos s) 0) as [P|P]; cbn [andb].
  - destruct H as [H|H]; [lia|]. rewrite H. cbn [length Nat.eqb negb].
    destruct (isize s) as [|p] eqn:S; [lia|]. eexists. split; [reflexivity|].
    split; [unfold iinv; cbn; split; [lia|]; split; [lia|discriminate]|].
    split; [unfold irest; cbn; now rewrite H|auto].
  - destruct (ipos s) as [|p]; [lia|]. eexists. split; [reflexivity|].
    split; [unfold iinv; cbn; split; [lia|]; split; [lia|discriminate]|].
    split; [reflexivity|auto].
Qed.

(** A line after another, with room for [b] bytes each. *)
Fixpoint lines (n b : nat) (s : ifile) (k : ikern) : list cstr * tres :=
  match n with
  | O => ([], TNone s k)
  | S n =>
    match getse (S b) s k with
    | TText t s k => let (ts, r) := lines n b s k in (t :: ts, r)
    | r => ([], r)
    end
  end.
(** The lines of a text cut into pieces of at most [b]. *)
Fixpoint spec_lines (n b : nat) (text : cstr) : list cstr :=
  match n, text with
  | S n, _ :: _ =>
    let l := firstn b (first_line text) in
    l :: spec_lines n b (skipn (length l) text)
  | _, _ => []
  end.
Lemma app_skip : forall (A : Type) (t l x : list A), t = l ++ x -> t = l ++ skipn (length l) t.
Proof. intros A t l x ->. now rewrite skipn_app, skipn_all, Nat.sub_diag. Qed.
Lemma lines_ok : forall n b s k, iinv s k -> ierror s = false ->
  ~ bad_read (iintr s) (rans k) -> has_nul (irest s k) = false ->
  let (ts, r) := lines n b s k in
  match r with
  | TNone s' k' => ts = spec_lines n b (irest s k) /\ concat ts ++ irest s' k' = irest s k
  | TBlock => prefix ts (spec_lines n b (irest s k))
  | _ => False
  end.
Proof.
  induction n as [|n IH]; intros b s k I E NB HN; [now split|].
  cbn [lines]. pose proof (getse_ok b s k I E) as G. unfold getse_post in G. cbv zeta in G.
  set (l := firstn b (first_line (irest s k))) in *.
  assert (LP : irest s k = l ++ skipn (length l) (irest s k)).
  { destruct (first_line_prefix (irest s k)) as [r R].
    apply app_skip with (x := skipn b (first_line (irest s k)) ++ r).
    subst l. now rewrite app_assoc, firstn_skipn. }
  destruct (getse (S b) s k) as [t s1 k1|s1 k1| | |].
  - destruct G as (A1 & A2 & A3 & A4 & A5 & A6 & A7 & A8 & A9). cbn in A1. subst t.
    specialize (IH b s1 k1 A4 A5). rewrite A6, A3 in IH.
    specialize (IH (fun X => NB (bad_read_incl _ _ _ A8 X))).
    rewrite LP, has_nul_app, A2 in HN. specialize (IH HN).
    assert (SP : spec_lines (S n) b (irest s k) = l :: spec_lines n b (skipn (length l) (irest s k))).
    { cbn [spec_lines]. specialize (A9 eq_refl). subst l. destruct (irest s k); [congruence|reflexivity]. }
    rewrite SP. destruct (lines n b s1 k1) as [ts [t s2 k2|s2 k2| | |]]; try exact IH.
    + destruct IH as [-> IH2]. split; [reflexivity|]. cbn [concat]. rewrite <- app_assoc, IH2. now rewrite <- LP.
    + destruct IH as [x ->]. now exists x.
  - destruct G as (A1 & A2 & A3 & A4 & [(A5 & A6 & A7 & A8)|[A5 A6]]); [|contradiction].
    rewrite A6, A7. split; reflexivity.
  - rewrite LP, has_nul_app, G in HN. discriminate.
  - exists (spec_lines (S n) b (irest s k)). reflexivity.
  - exact G.
Qed.
