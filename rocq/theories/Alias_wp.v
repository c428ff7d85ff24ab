(** What the lexer's loops do to the amount of text left. *)
From Verif Require Import Base Word_model Src_model Src_spec Src_proof Lex_model Lex_sim Alias_spec Alias_pot.
Local Open Scope nat_scope.

(** [m] bounds the text left, [rr]: text has been pushed to be read again, [l]: the character that
    may be put back and the bound to go back to. *)
Definition after_get (c : char) (m : nat) : nat := if is_nul c then 0 else pred m.
Definition goal (A : Type) := A -> nat -> bool -> option (char * nat) -> Prop.
Fixpoint wp {A} (p : prog A) (m : nat) (rr : bool) (l : option (char * nat))
    (Q : A -> nat -> bool -> option (char * nat) -> Prop) : Prop :=
  match p with
  | Ret a => Q a m rr l
  | Get k => forall c, (is_nul c = false -> 1 <= m) -> wp (k c) (after_get c m) rr (Some (c, m)) Q
  | Unget c p => exists mp, l = Some (c, mp) /\ wp p mp rr None Q
  | Reread t p => no_nuls t = true /\ (last_bs t = false \/ m = 0) /\ wp p (m + length t) true None Q
  | Ign _ p => wp p m rr l Q
  | Err OutOfFuel => False
  | Err _ => True
  end.
Lemma wp_bind : forall {A B} (p : prog A) (f : A -> prog B) m rr l Q,
  wp p m rr l (fun a m rr l => wp (f a) m rr l Q) -> wp (bind p f) m rr l Q.
Proof.
  intros A B p f. induction p as [a|k IH|c p IH|t p IH|u p IH|e]; intros m rr l Q H; cbn [bind wp] in *.
  - exact H.
  - intros c Hc. apply IH. now apply H.
  - destruct H as [mp [H1 H2]]. exists mp. split; [exact H1|]. now apply IH.
  - destruct H as [H1 [H2 H3]]. split; [exact H1|]. split; [exact H2|]. now apply IH.
  - now apply IH.
  - exact H.
Qed.
Lemma wp_mono : forall {A} (p : prog A) m rr l (Q Q' : A -> nat -> bool -> option (char * nat) -> Prop),
  (forall a m rr l, Q a m rr l -> Q' a m rr l) -> wp p m rr l Q -> wp p m rr l Q'.
Proof.
  intros A p. induction p as [a|k IH|c p IH|t p IH|u p IH|e]; intros m rr l Q Q' HQ H; cbn [wp] in *.
  - now apply HQ.
  - intros c Hc. apply (IH c _ _ _ Q); [exact HQ|]. now apply H.
  - destruct H as [mp [H1 H2]]. exists mp. split; [exact H1|]. now apply (IH _ _ _ Q).
  - destruct H as [H1 [H2 H3]]. split; [exact H1|]. split; [exact H2|]. now apply (IH _ _ _ Q).
  - now apply (IH _ _ _ Q).
  - exact H.
Qed.

(** * It is right about running on the sources *)
Definition suf (a b : cstr) : Prop := exists u, b = u ++ a.
Lemma suf_refl : forall a, suf a a.
Proof. intros a. now exists []. Qed.
Lemma suf_trans : forall a b c, suf a b -> suf b c -> suf a c.
Proof. intros a b c [u ->] [v ->]. exists (v ++ u). now rewrite app_assoc. Qed.
Lemma suf_cons : forall c a b, suf (c :: a) b -> suf a b.
Proof. intros c a b [u ->]. exists (u ++ [c]). now rewrite <- app_assoc. Qed.
Lemma unjoin_suf : forall t, suf (unjoin t) t.
Proof.
  assert (H : forall n t, length t <= n -> suf (unjoin t) t).
  { induction n as [|n IH]; intros t L; destruct t as [|c [|d r]]; cbn [length] in L; try lia; try apply suf_refl.
    cbn [unjoin]. destruct (ceq c "\" && ceq d NL); [|apply suf_refl].
    apply (suf_trans _ r); [apply IH; lia|]. now exists [c; d]. }
  intros t. now apply (H (length t)).
Qed.
Lemma words_nuls : forall ws, Forall nuls_out ws -> nuls_out (words_text ws).
Proof.
  induction ws as [|w ws IH]; intros H; [intros []|]. inversion H; subst. specialize (IH H3). cbn [words_text].
  destruct ws; apply nuls_app; (split; [assumption|]); apply nuls_cons; (split; [discriminate|]); [intros []|exact IH].
Qed.
Lemma text_nuls : forall st, wf st -> nuls_out (text_of st).
Proof.
  induction st as [|[k b a fa fe] st IH]; intros W; [contradiction|].
  destruct W as [N1 [N2 [K U]]]. cbn [after before kind] in *.
  destruct k as [| |ls|ws|ws|n v|]; cbn [text_of]; try assumption.
  - apply nuls_app. split; [assumption|apply line_nuls].
  - apply nuls_app. split; [assumption|now apply words_nuls].
  - destruct ws; apply nuls_app; (split; [assumption|]); apply nuls_cons; (split; [discriminate|]); [intros []|now apply words_nuls].
  - apply nuls_app. split; [assumption|]. destruct U as [U|[_ U]]; [contradiction|auto].
  - apply nuls_app. split; [assumption|]. destruct U as [U|[_ U]]; [contradiction|auto].
Qed.
(** One character of the text. *)
Lemma getsc_text : forall i c i', wf (srcs i) -> getsc i = (c, i') ->
  wf (srcs i') /\ ungettable c (srcs i') /\
  (if is_nul c then text_of (srcs i') = [] else suf (c :: text_of (srcs i')) (text_of (srcs i))).
Proof.
  intros i c i' W H.
  pose proof (getsc_ok (Flat (text_of (srcs i)) (bskip i) (ign i)) i) as Q. rewrite H in Q.
  destruct Q as [Q1 [[Q2 [_ [_ Q3]]] Q4]]; [repeat split; assumption|].
  split; [exact Q3|]. split; [exact Q4|]. pose proof (text_nuls _ W) as N.
  rewrite Q2. clear Q2. subst c. unfold fget, fraw. cbn [ftext fskip fign].
  assert (R : forall k, if is_nul (fst (match text_of (srcs i) with [] => (NUL, Flat [] k (ign i)) | c :: r => (c, Flat r k (ign i)) end))
    then ftext (snd (match text_of (srcs i) with [] => (NUL, Flat [] k (ign i)) | c :: r => (c, Flat r k (ign i)) end)) = []
    else suf (fst (match text_of (srcs i) with [] => (NUL, Flat [] k (ign i)) | c :: r => (c, Flat r k (ign i)) end) ::
       ftext (snd (match text_of (srcs i) with [] => (NUL, Flat [] k (ign i)) | c :: r => (c, Flat r k (ign i)) end))) (text_of (srcs i))).
  { intros k. destruct (text_of (srcs i)) as [|x t]; [reflexivity|]. cbn [fst snd ftext].
    apply nuls_cons in N. destruct N as [N _]. apply is_nul_false in N. rewrite N. apply suf_refl. }
  destruct (Nat.ltb 0 (ign i)); [apply R|]. destruct (Nat.eqb (bskip i) 1); [apply R|].
  pose proof (unjoin_suf (text_of (srcs i))) as S. destruct (unjoin (text_of (srcs i))) as [|x t]; [reflexivity|]. cbn [fst snd ftext].
  assert (Nx : is_nul x = false).
  { apply is_nul_false. intros ->. destruct S as [u S]. apply N. rewrite S. apply in_or_app. right. now left. }
  rewrite Nx. exact S.
Qed.

Section Sound.
Variable wt : list cstr -> nat.
Hypothesis wt_pos : forall A, 1 <= wt A.
Hypothesis wt_anti : forall A B, incl A B -> wt B <= wt A.

Definition here_ok (T0 : cstr) (m : nat) (rr : bool) (st : list src) : Prop :=
  wf st /\ (wfa st /\ not_nested st) /\ length (text_of st) <= m /\ (rr = false -> phi wt st <= m /\ suf (text_of st) T0).
Definition state_ok (T0 : cstr) (m : nat) (rr : bool) (l : option (char * nat)) (i : input) : Prop :=
  here_ok T0 m rr (srcs i) /\
  (forall c mp, l = Some (c, mp) -> here_ok T0 mp rr (unget_srcs c (srcs i))).

Theorem wp_sound : forall {A} (p : prog A) T0 m rr l Q i,
  wp p m rr l Q -> state_ok T0 m rr l i ->
  match run p i with
  | (inl a, i') => exists m' rr' l', Q a m' rr' l' /\ state_ok T0 m' rr' l' i'
  | (inr e, _) => e <> OutOfFuel
  end.
Proof.
  intros A p T0. induction p as [a|k IH|c p IH|t p IH|u p IH|e]; intros m rr l Q i H S; cbn [run].
  - exists m, rr, l. split; assumption.
  - destruct (getsc i) as [c i'] eqn:E. destruct S as [[W [[Wa Nn] [Lt S]]] _].
    destruct (getsc_text i c i' W E) as [W' [U X]].
    pose proof (getsc_wfa wt wt_pos wt_anti i c i' W Wa E) as Wa'. pose proof (getsc_nn i c i' W Wa Nn E) as Nn'. pose proof (unget_nn c _ Nn') as Nu.
    apply (IH c (after_get c m) rr (Some (c, m)) Q i').
    + cbn [wp] in H. apply H. intros N. rewrite N in X. destruct X as [u X]. rewrite X in Lt. rewrite app_length in Lt. cbn [length] in Lt. lia.
    + destruct (unget_ok c (srcs i') W' U) as [V1 V2]. unfold after_get.
      destruct (is_nul c) eqn:N.
      * apply is_nul_true in N. subst c. split.
        -- split; [exact W'|]. split; [split; [exact Wa'|exact Nn']|]. rewrite X. split; [cbn; lia|]. intros R. rewrite (phi_text wt _ X). split; [lia|].
           exists T0. now rewrite app_nil_r.
        -- intros c mp Y. injection Y as <- <-. split; [exact V1|].
           split; [split; [exact (proj1 (unget_phi wt wt_pos wt_anti NUL _ Wa'))|exact Nu]|]. rewrite V2, X. cbn [length].
           split; [lia|]. intros R. rewrite (phi_text wt _ (eq_trans V2 X)). split; [lia|].
           exists T0. now rewrite app_nil_r.
      * apply is_nul_false in N. destruct (getsc_gets wt wt_pos wt_anti i c i' W Wa E N) as [_ [G1 [G2 [G3 _]]]]. split.
        -- split; [exact W'|]. split; [split; [exact Wa'|exact Nn']|]. split.
           ++ destruct X as [u X]. rewrite X in Lt. rewrite app_length in Lt. cbn [length] in Lt. lia.
           ++ intros R. destruct (S R) as [S1 S2]. split; [lia|]. apply suf_cons in X. now apply (suf_trans _ _ _ X).
        -- intros c0 mp Y. injection Y as <- <-. split; [exact V1|]. split; [split; [exact G2|exact Nu]|]. rewrite V2. split.
           ++ destruct X as [u X]. rewrite X in Lt. rewrite app_length in Lt. lia.
           ++ intros R. destruct (S R) as [S1 S2]. split; [lia|]. now apply (suf_trans _ _ _ X).
  - cbn [wp] in H. destruct H as [mp [-> H]]. destruct S as [_ S]. specialize (S c mp eq_refl).
    apply (IH mp rr None Q (ungetsc c i) H). split; [exact S|]. intros; discriminate.
  - cbn [wp] in H. destruct H as [H1 [H2 H3]]. destruct S as [[W [[Wa Nn] [Lt S]]] _].
    apply (IH (m + length t) true None Q (push_src (Src KReread [] t false false) i) H3). split; [|intros; discriminate].
    cbn [push_src srcs].
    assert (Nt : nuls_out t).
    { unfold no_nuls in H1. apply Bool.negb_true_iff in H1. intros X.
      assert (Y : existsb is_nul t = true) by (apply existsb_exists; exists NUL; split; [exact X|reflexivity]). congruence. }
    split; [|split; [|split; [|discriminate]]].
    + split; [exact Nt|]. split; [intros []|]. split; [exact I|]. right. split; [|exact W].
      cbn. intros [u Hu]. right. cbn in Hu. subst t. destruct H2 as [H2|H2].
      * unfold last_bs in H2. rewrite rev_app_distr in H2. discriminate.
      * subst m. destruct (text_of (srcs i)); [reflexivity|cbn [length] in Lt; lia].
    + split; [exact Wa|]. split; [exact I|exact Nn].
    + cbn [text_of]. rewrite app_length. lia.
  - cbn [wp] in H. apply (IH m rr l Q (Input (srcs i) (bskip i) (if u then Datatypes.S (ign i) else pred (ign i))) H). exact S.
  - cbn [wp] in H. destruct e; congruence || contradiction.
Qed.
End Sound.

(** * The loops of the lexer *)
Lemma ag_le : forall c m, after_get c m <= m.
Proof. intros c m. unfold after_get. destruct (is_nul c); lia. Qed.
Lemma ag_lt : forall c m, is_nul c = false -> 1 <= m -> after_get c m < m.
Proof. intros c m H L. unfold after_get. rewrite H. lia. Qed.
Ltac ag := repeat match goal with
  | H : is_nul ?c = false -> 1 <= ?m |- _ =>
    let X := fresh "Ag" in
    assert (X : after_get c m <= m /\ (is_nul c = false -> after_get c m < m /\ 1 <= m))
      by (split; [apply ag_le|intros N; split; [apply ag_lt; auto|auto]]); clear H; revert X
  end; intros.
Lemma no_nuls_snoc : forall t c, no_nuls t = true -> is_nul c = false -> no_nuls (t ++ [c]) = true.
Proof.
  intros t c H N. unfold no_nuls in *. rewrite existsb_app. cbn [existsb]. rewrite N, !Bool.orb_false_r. exact H.
Qed.

Lemma wp_arraysub : forall n d acc m rr l (Q : goal (bool * cstr)), m < n -> no_nuls acc = true ->
  (forall ok tmp m' l', m' <= m ->
     (ok = false -> no_nuls tmp = true /\ (last_bs tmp = false \/ m' = 0) /\ m' + length tmp <= m + length acc) ->
     Q (ok, tmp) m' rr l') ->
  wp (arraysub n d acc) m rr l Q.
Proof.
  induction n as [|n IH]; intros d acc m rr l Q L N HQ; [lia|].
  cbn [arraysub bind get wp]. intros c Hc. cbv zeta.
  set (d' := if ceq c "[" then S d else if ceq c "]" then pred d else d). clearbody d'.
  pose proof (ag_le c m) as LE.
  destruct (Nat.eqb d' 0).
  { cbn [wp]. apply HQ; [exact LE|discriminate]. }
  destruct (is_nul c) eqn:En.
  { cbn [wp]. apply HQ; [exact LE|]. intros _. split; [exact N|]. unfold after_get. rewrite En. split; [now right|lia]. }
  pose proof (ag_lt c m En (Hc eq_refl)) as LT. assert (Em : after_get c m = pred m) by (unfold after_get; now rewrite En).
  destruct (ceq_spec c NL) as [->|Nn].
  { cbn [wp]. apply HQ; [exact LE|]. intros _. split; [apply no_nuls_snoc; auto|]. split.
    - left. unfold last_bs. rewrite rev_app_distr. reflexivity.
    - rewrite Em, app_length. cbn [length]. specialize (Hc eq_refl). lia. }
  apply IH; [lia|apply no_nuls_snoc; auto|]. intros ok tmp m' l' L' H'. apply HQ; [lia|].
  intros E. destruct (H' E) as [H1 [H2 H3]]. split; [exact H1|]. split; [exact H2|].
  rewrite app_length in H3. cbn [length] in H3. specialize (Hc eq_refl). lia.
Qed.

Lemma letter_nul : forall c, letter c = true -> is_nul c = false.
Proof. intros c H. apply is_nul_false. intros ->. discriminate. Qed.
Lemma wp_get_brace_var : forall n s acc m rr l (Q : goal (cstr)), m < n ->
  (forall v m' l', m' <= m -> Q v m' rr l') ->
  wp (get_brace_var n s acc) m rr l Q.
Proof.
  induction n as [|n IH]; intros s acc m rr l Q L HQ; [lia|].
  cbn [get_brace_var bind get wp]. intros c Hc. cbv zeta.
  assert (FIN : forall a, wp (Unget c (Ret (a ++ [NUL]))) (after_get c m) rr (Some (c, m)) Q).
  { intros a. cbn [wp]. exists m. split; [reflexivity|]. apply HQ. lia. }
  assert (GO : forall s a, is_nul c = false -> wp (get_brace_var n s a) (after_get c m) rr (Some (c, m)) Q).
  { intros s0 a En. pose proof (ag_lt c m En (Hc En)). apply IH; [lia|]. intros v m' l' L'. apply HQ. lia. }
  assert (BV : bv_first c <> PS_END -> is_nul c = false).
  { intros B. apply is_nul_false. intros ->. apply B. reflexivity. }
  destruct s.
  - destruct (ceq_spec c "#"%char) as [->|_]; [apply GO; reflexivity|].
    destruct (bv_first c) eqn:E; try (apply GO; apply BV; discriminate). apply FIN.
  - destruct (bv_first c) eqn:E; try (apply GO; apply BV; discriminate). apply FIN.
  - destruct (letnum c) eqn:El.
    { apply GO. apply is_nul_false. intros ->. discriminate. }
    destruct (ceq_spec c "["%char) as [->|_]; [|apply FIN].
    pose proof (ag_lt "[" m eq_refl (Hc eq_refl)) as LT.
    apply wp_bind. apply wp_arraysub; [lia|reflexivity|]. intros ok tmp m' l' L' _.
    destruct ok; [|exact I]. cbn [bind wp]. intros c2 _. exists m'. split; [reflexivity|]. apply HQ. lia.
  - destruct (isdigit c) eqn:El; [|apply FIN]. apply GO. apply is_nul_false. intros ->. discriminate.
  - apply FIN.
  - apply FIN.
Qed.
Lemma wp_dollar_name : forall n c acc m rr l (Q : goal (cstr)), m < n ->
  (forall v m' l', m' <= m -> Q v m' rr l') ->
  wp (dollar_name n c acc) m rr l Q.
Proof.
  induction n as [|n IH]; intros c acc m rr l Q L HQ; [lia|].
  cbn [dollar_name bind get wp]. intros c2 Hc. destruct (letnum c2) eqn:El.
  - assert (En : is_nul c2 = false) by (apply is_nul_false; intros ->; discriminate).
    pose proof (ag_lt c2 m En (Hc En)). apply IH; [lia|]. intros v m' l' L'. apply HQ. lia.
  - cbn [wp]. exists m. split; [reflexivity|]. apply HQ. lia.
Qed.

(** One round of the loop. *)
Definition out_of (r : round) : cstr := match r with Cont _ o | Stop _ _ o => o end.
Definition rnd (m : nat) (rr : bool) (out : cstr) (r : round) (m' : nat) (rr' : bool) : Prop :=
  m' <= m /\ (rr' = rr \/ out_of r <> []) /\ (out <> [] -> out_of r <> []) /\
  match r with Stop c stk _ => c = NUL /\ (exists np rest, stk = SLETPAREN np :: rest) | Cont _ _ => True end.
Lemma app_ne : forall (a b : cstr), b <> [] -> a ++ b <> [].
Proof. intros a b H E. apply app_eq_nil in E. tauto. Qed.
Lemma app_nel : forall (a b : cstr), a <> [] -> a ++ b <> [].
Proof. intros a b H E. apply app_eq_nil in E. tauto. Qed.

Ltac ret_rnd := cbn [wp]; match goal with HQ : forall r m' rr' l', rnd _ _ _ r m' rr' -> _ |- _ => apply HQ end;
  unfold rnd; cbn [out_of]; split; [pose proof ag_le; lia || (repeat match goal with |- context [after_get ?c ?m] => pose proof (ag_le c m); generalize dependent (after_get c m) end; lia)|];
  split; [now left|]; split; [first [intros; assumption|intros; apply app_ne; discriminate]|first [exact I|idtac]].
Ltac ites := repeat match goal with |- wp (if ?b then _ else _) _ _ _ _ => destruct b eqn:? end.
Ltac geta c := cbn [bind get wp]; intros c ?; cbv zeta.
Ltac ung := cbn [wp]; eexists; split; [reflexivity|].

Lemma wp_subst : forall n cf c stk out m rr l (Q : goal (round)), m < n ->
  (forall r m' rr' l', rnd m rr out r m' rr' -> Q r m' rr' l') ->
  wp (subst n cf c stk out) m rr l Q.
Proof.
  intros n cf c stk out m rr l Q L HQ. unfold subst, cont.
  destruct (ceq c "\").
  { geta c2. ites; ret_rnd. }
  destruct (ceq c "$").
  { geta c2. destruct (ceq c2 "(").
    - geta c3. ites; [ret_rnd|]. ung. ret_rnd.
    - destruct (ceq_spec c2 "{"%char) as [->|_].
      + apply wp_bind. apply wp_get_brace_var; [pose proof (ag_le "{" m); lia|]. intros v m' l' L'. pose proof (ag_le "{" m) as LE.
        geta c3. apply wp_bind.
        destruct (ceq c3 ":"); [geta c4|cbn [wp]].
        * ites; ung; (apply HQ; unfold rnd; cbn [out_of]; split; [pose proof (ag_le c3 m'); lia|]; split; [now left|];
            split; [intros; now repeat apply app_nel|exact I]).
        * ites; ung; (apply HQ; unfold rnd; cbn [out_of]; split; [lia|]; split; [now left|];
            split; [intros; now repeat apply app_nel|exact I]).
      + destruct (letter c2) eqn:El.
        * pose proof (ag_lt c2 m (letter_nul _ El) (H (letter_nul _ El))).
          apply wp_bind. apply wp_dollar_name; [lia|]. intros v m' l' L'. cbn [wp]. apply HQ.
          unfold rnd; cbn [out_of]; split; [lia|]; split; [now left|]; split; [intros; apply app_nel; assumption|exact I].
        * ites; [ret_rnd|]. ung. ret_rnd. }
  ites; ret_rnd.
Qed.
Lemma rnd_le : forall m m0 rr out r m' rr', m <= m0 -> rnd m rr out r m' rr' -> rnd m0 rr out r m' rr'.
Proof. intros m m0 rr out r m' rr' L [H1 H2]. split; [lia|exact H2]. Qed.
Lemma wp_sbase2 : forall n cf c stk out m rr l (Q : goal (round)), m < n ->
  (forall r m' rr' l', rnd m rr out r m' rr' -> Q r m' rr' l') ->
  wp (sbase2 n cf c stk out) m rr l Q.
Proof.
  intros n cf c stk out m rr l Q L HQ. unfold sbase2, cont.
  destruct (ceq c "\"); [geta c2; ites; ret_rnd|].
  destruct (ceq c "'"); [ites; ret_rnd|]. destruct (ceq c """"); [ret_rnd|].
  apply wp_subst; assumption.
Qed.
Lemma wp_sbase1 : forall n cf c stk out m rr l (Q : goal (round)), m < n ->
  (forall r m' rr' l', rnd m rr out r m' rr' -> Q r m' rr' l') ->
  wp (sbase1 n cf c stk out) m rr l Q.
Proof.
  intros n cf c stk out m rr l Q L HQ. unfold sbase1, cont.
  destruct (mem c (Base.L "*@+?!")); [|apply wp_sbase2; assumption].
  geta c2. destruct (ceq c2 "("); [ret_rnd|]. ung. apply wp_sbase2; assumption.
Qed.
Lemma wp_step : forall n cf c stk out m rr l (Q : goal (round)), m < n ->
  (forall r m' rr' l', rnd m rr out r m' rr' -> Q r m' rr' l') ->
  wp (step n cf c stk out) m rr l Q.
Proof.
  intros n cf c stk out m rr l Q L HQ. unfold step, close_brace, cont.
  destruct stk as [|s rest]; [ret_rnd|].
  destruct s; cbv zeta.
  - destruct (ceq c "[" && varasn cf); [|apply wp_sbase1; assumption].
    destruct (is_wdvarname out); [|ret_rnd].
    apply wp_bind. apply wp_arraysub; [exact L|reflexivity|]. intros ok tmp m' l' L' H'.
    destruct ok; [cbn [wp]; apply HQ|].
    + unfold rnd; cbn [out_of]. split; [exact L'|]. split; [now left|]. split; [intros; now apply app_nel|exact I].
    + destruct (H' eq_refl) as [H1 [H2 H3]]. cbn [wp]. split; [exact H1|]. split; [exact H2|]. apply HQ.
      unfold rnd; cbn [out_of]. cbn [length] in H3. split; [lia|]. split; [right; apply app_ne; discriminate|]. split; [intros; apply app_ne; discriminate|exact I].
  - apply wp_subst; assumption.
  - destruct (ceq c ")").
    + destruct (Nat.ltb 0 nparen); [apply wp_sbase2; assumption|].
      geta c2. destruct (ceq c2 ")").
      * ret_rnd. split; [reflexivity|]. eexists _, _. reflexivity.
      * ung. apply wp_sbase2; assumption.
    + ites; apply wp_sbase2; assumption.
  - destruct (ceq c "'"); [|ret_rnd]. destruct (top rest); ret_rnd.
  - ites; [ret_rnd|]. apply wp_subst; assumption.
  - ites; [ret_rnd|]. apply wp_sbase1; assumption.
  - destruct csstate as [|[|[|[|]]]]; ites; try ret_rnd; cbn [wp]; ites; ret_rnd.
  - destruct (ceq c "`"); [ret_rnd|]. destruct (ceq c "\"); [|ret_rnd]. geta c2. ites; ret_rnd.
  - destruct (ceq c "("); [ret_rnd|]. destruct (ceq c ")"); [|ret_rnd].
    destruct (Nat.eqb (pred nparen) 1); [|ret_rnd]. geta c2. destruct (ceq c2 ")"); [ret_rnd|]. ung.
    apply HQ. unfold rnd; cbn [out_of]. split; [lia|]. split; [now left|]. split; [intros; apply app_ne; discriminate|exact I].
  - ites; try ret_rnd. geta c2. ites; ret_rnd.
  - ites; try ret_rnd. geta c2. ites; ret_rnd.
  - ites; try ret_rnd. apply wp_sbase1; assumption.
  - ites; try ret_rnd. apply wp_sbase1; assumption.
  - ites; try ret_rnd. apply wp_sbase2; assumption.
Qed.

(** The whole loop. *)
Definition looped (m : nat) (c : char) (stk : list lst) (m' : nat) (l' : option (char * nat)) : Prop :=
  m' <= m /\
  ((exists mp, l' = Some (c, mp) /\ mp <= m /\ (is_nul c = false -> m' < mp)) \/
   (c = NUL /\ exists np rest, stk = SLETPAREN np :: rest)).
Lemma wp_loop : forall n cf stk out m rr l (Q : goal (char * list lst * cstr)), m < n -> (rr = true -> out <> []) ->
  (forall c stk' out' m' rr' l', (rr' = true -> out' <> []) -> looped m c stk' m' l' -> Q (c, stk', out') m' rr' l') ->
  wp (loop n cf stk out) m rr l Q.
Proof.
  induction n as [|n IH]; intros cf stk out m rr l Q L R HQ; [lia|].
  cbn [loop bind get wp]. intros c Hc. pose proof (ag_le c m) as LE.
  destruct (is_nul c || base_like (top stk) && lex1 c) eqn:E.
  - cbn [wp]. apply HQ; [exact R|]. split; [exact LE|]. left. exists m. split; [reflexivity|]. split; [lia|].
    intros En. apply ag_lt; auto.
  - apply Bool.orb_false_iff in E. destruct E as [En _]. pose proof (ag_lt c m En (Hc En)) as LT.
    apply wp_bind. apply wp_step; [lia|]. intros r m' rr' l' [R1 [R2 [R3 R4]]].
    destruct r as [stk2 out2|c2 stk2 out2]; cbn [out_of] in *.
    + apply IH; [lia| |].
      * intros ->. destruct R2 as [<-|R2]; auto.
      * intros c3 stk3 out3 m3 rr3 l3 R5 [K1 K3]. apply HQ; [exact R5|].
        split; [lia|].
        destruct K3 as [[mp [K3 [K4 K5]]]|K3]; [left|now right]. exists mp. split; [exact K3|]. split; [lia|exact K5].
    + cbn [wp]. destruct R4 as [-> R4]. apply HQ.
      * intros ->. destruct R2 as [<-|R2]; auto.
      * split; [lia|]. now right.
Qed.

Lemma wp_redir : forall c u m rr l (Q : goal token), (forall t m' l', m' <= m -> Q t m' rr l') -> wp (redir c u) m rr l Q.
Proof.
  intros c u m rr l Q HQ. unfold redir. geta c2. pose proof (ag_le c2 m) as L1.
  destruct (ceq c c2).
  - destruct (ceq c ">"); [apply HQ; lia|]. geta c3. pose proof (ag_le c3 (after_get c2 m)) as L2.
    ites; [apply HQ; lia|]. ung. apply HQ. lia.
  - ites; try (apply HQ; lia). ung. apply HQ. lia.
Qed.
Lemma wp_operator : forall sh c m rr l (Q : goal token), (forall t m' l', m' <= m -> Q t m' rr l') -> wp (operator sh c) m rr l Q.
Proof.
  intros sh c m rr l Q HQ. unfold operator.
  destruct (ceq c "|" || ceq c "&" || ceq c ";").
  - geta c2. pose proof (ag_le c2 m) as L1. ites; try (apply HQ; lia). ung. apply HQ. lia.
  - destruct (ceq c "(" && negb sh); [|apply HQ; lia]. geta c2. pose proof (ag_le c2 m) as L1.
    ites; try (apply HQ; lia). ung. apply HQ. lia.
Qed.
Lemma wp_finish : forall n sh c stk out m m0 rr l (Q : goal (option token)), looped m c stk m0 l ->
  (forall t m' l', match t with Some _ => m' <= m | None => m' < m /\ out = [] end -> Q t m' rr l') ->
  wp (finish n sh c stk out) m0 rr l Q.
Proof.
  intros n sh c stk out m m0 rr l Q [H1 H2] HQ. unfold finish.
  destruct stk as [|s [|s2 stk]]; try exact I.
  assert (TOK : forall p : prog token, (forall Q' : goal token, (forall t m' l', m' <= m0 -> Q' t m' rr l') -> wp p m0 rr l Q') ->
    wp (t <- p ;; Ret (Some t)) m0 rr l Q).
  { intros p Hp. apply wp_bind. apply Hp. intros t m' l' L'. cbn [wp]. apply HQ. lia. }
  assert (WD : wp (match s with
                | SWORD | SLETPAREN _ => Ret (Some (LWORD (out ++ [EOS]) []))
                | _ => Unget c (Ret (Some (LWORD (out ++ [EOS]) (ident_of out))))
                end) m0 rr l Q).
  { destruct H2 as [[mp [-> [H2 H3]]]|[-> [np [rest H2]]]].
    - destruct s; try (cbn [wp]; exists mp; split; [reflexivity|]; apply HQ; exact H2); cbn [wp]; apply HQ; exact H1.
    - injection H2 as -> _. cbn [wp]. apply HQ. exact H1. }
  cbv zeta. destruct (base_like s) eqn:B; [|exact WD].
  destruct out as [|k [|d [|]]]; try exact WD.
  - destruct (ceq c "<" || ceq c ">"); [apply TOK; intros; now apply wp_redir|].
    destruct (ceq_spec c NL) as [->|_]; [|apply TOK; intros; now apply wp_operator].
    cbn [wp]. apply HQ. split; [|reflexivity].
    destruct H2 as [[mp [-> [H2 H3]]]|[X _]]; [specialize (H3 eq_refl); lia|discriminate].
  - destruct ((ceq c "<" || ceq c ">") && ceq k CHAR && isdigit d); [apply TOK; intros; now apply wp_redir|exact WD].
Qed.
Lemma wp_lex_word : forall n sh cf m l (Q : goal (option token)), m < n ->
  (forall t m' rr' l', match t with Some _ => m' <= m | None => m' < m /\ rr' = false end -> Q t m' rr' l') ->
  wp (lex_word n sh cf) m false l Q.
Proof.
  intros n sh cf m l Q L HQ. unfold lex_word. apply wp_bind. apply wp_loop; [exact L|discriminate|].
  intros c stk out m' rr' l' R LP. apply (wp_finish n sh c stk out m m' rr' l'); [exact LP|].
  intros t m2 l2 H. apply HQ. destruct t; [exact H|]. destruct H as [H1 ->]. split; [exact H1|].
  destruct rr'; [|reflexivity]. specialize (R eq_refl). contradiction.
Qed.

Lemma wp_skip_blanks : forall n m rr l (Q : goal char), m < n ->
  (forall c m' mp, mp <= m -> m' <= mp -> Q c m' rr (Some (c, mp))) -> wp (skip_blanks n) m rr l Q.
Proof.
  induction n as [|n IH]; intros m rr l Q L HQ; [lia|]. cbn [skip_blanks]. geta c. pose proof (ag_le c m) as LE.
  destruct (ceq c SP || ceq c TAB) eqn:E; [|cbn [wp]; apply HQ; lia].
  assert (N : is_nul c = false).
  { apply is_nul_false. intros ->. discriminate. }
  pose proof (ag_lt c m N (H N)). apply IH; [lia|]. intros c2 m' mp L1 L2. apply HQ; lia.
Qed.
Lemma wp_skip_comment : forall n m rr l (Q : goal char), m < n ->
  (forall c m' mp, mp <= m -> m' <= mp -> Q c m' rr (Some (c, mp))) -> wp (skip_comment n) m rr l Q.
Proof.
  induction n as [|n IH]; intros m rr l Q L HQ; [lia|]. cbn [skip_comment]. geta c. pose proof (ag_le c m) as LE.
  destruct (is_nul c || ceq c NL) eqn:E; [cbn [wp]; apply HQ; lia|].
  apply Bool.orb_false_iff in E. destruct E as [N _].
  pose proof (ag_lt c m N (H N)). apply IH; [lia|]. intros c2 m' mp L1 L2. apply HQ; lia.
Qed.
Lemma wp_lex_start : forall n cf m rr l (Q : goal unit), m < n ->
  (forall m' l', m' <= m -> Q tt m' rr l') -> wp (lex_start n cf) m rr l Q.
Proof.
  intros n cf m rr l Q L HQ. unfold lex_start. destruct (oneword cf || letexpr cf); [apply HQ; lia|].
  unfold start_word. apply wp_bind. apply wp_skip_blanks; [exact L|]. intros c m' mp L1 L2.
  destruct (ceq_spec c "#"%char) as [->|_].
  - cbn [wp]. apply wp_bind. apply wp_skip_comment; [lia|]. intros c2 m2 mp2 L3 L4. cbn [wp].
    exists mp2. split; [reflexivity|]. apply HQ. lia.
  - ung. apply HQ. lia.
Qed.

Lemma wp_here_match : forall n skip eofp acc m rr l (Q : goal (cstr * char * cstr)), m < n ->
  (forall e c a m' mp, mp <= m -> m' <= mp -> Q (e, c, a) m' rr (Some (c, mp))) -> wp (here_match n skip eofp acc) m rr l Q.
Proof.
  induction n as [|n IH]; intros skip eofp acc m rr l Q L HQ; [lia|]. cbn [here_match]. geta c. pose proof (ag_le c m) as LE.
  destruct (is_nul c) eqn:N; [cbn [wp]; apply HQ; lia|]. pose proof (ag_lt c m N (H eq_refl)) as LT.
  assert (GO : forall s e a, wp (here_match n s e a) (after_get c m) rr (Some (c, m)) Q).
  { intros s e a. apply IH; [lia|]. intros e2 c2 a2 m' mp L1 L2. apply HQ; lia. }
  destruct (skip && ceq c TAB); [apply GO|]. destruct eofp as [|e eofp]; [cbn [wp]; apply HQ; lia|].
  destruct (ceq c e); [apply GO|]. cbn [wp]. apply HQ; lia.
Qed.
Lemma wp_here_line : forall n eof acc m rr l (Q : goal cstr), m < n ->
  (forall a m' l', m' < m -> Q a m' rr l') -> wp (here_line n eof acc) m rr l Q.
Proof.
  induction n as [|n IH]; intros eof acc m rr l Q L HQ; [lia|]. cbn [here_line]. geta c. 
  destruct (ceq_spec c NL) as [->|_].
  - cbn [wp]. apply HQ. apply ag_lt; auto.
  - destruct (is_nul c) eqn:N; [exact I|]. pose proof (ag_lt c m N (H eq_refl)). apply IH; [lia|].
    intros a m' l' L'. apply HQ. lia.
Qed.
Lemma wp_here_loop : forall n h acc m rr l (Q : goal cstr), m < n ->
  (forall a m' l', m' <= m -> Q a m' rr l') -> wp (here_loop n h acc) m rr l Q.
Proof.
  induction n as [|n IH]; intros h acc m rr l Q L HQ; [lia|]. cbn [here_loop].
  apply wp_bind. apply wp_here_match; [exact L|]. intros e c a m' mp L1 L2.
  assert (LN : wp (Unget c (acc'' <- here_line (S n) (h_eof h) a;; here_loop n h acc'')) m' rr (Some (c, mp)) Q).
  { ung. apply wp_bind. apply wp_here_line; [lia|]. intros a2 m2 l2 L3. apply IH; [lia|]. intros a3 m3 l3 L4. apply HQ. lia. }
  destruct e; [|exact LN]. destruct (is_nul c || ceq c NL); [|exact LN]. cbn [wp]. apply HQ. lia.
Qed.
Lemma wp_gethere : forall n hs m rr l (Q : goal (list cstr)), m < n ->
  (forall a m' l', m' <= m -> Q a m' rr l') -> wp (gethere n hs) m rr l Q.
Proof.
  intros n hs. induction hs as [|h hs IH]; intros m rr l Q L HQ; cbn [gethere]; [apply HQ; lia|].
  apply wp_bind. unfold readhere.
  assert (K : forall t m' l', m' <= m -> wp (ts <- gethere n hs;; Ret (t :: ts)) m' rr l' Q).
  { intros t m' l' L'. apply wp_bind. apply IH; [lia|]. intros ts m2 l2 L2. cbn [wp]. apply HQ. lia. }
  destruct (h_eval h).
  - apply wp_here_loop; [exact L|]. exact K.
  - cbn [wp]. apply wp_bind. apply wp_here_loop; [exact L|]. intros a m' l' L'. cbn [wp]. now apply K.
Qed.
