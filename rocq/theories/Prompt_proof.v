(** Proofs about prompts. *)
From Verif Require Import Base Prompt_model Prompt_spec.
Local Open Scope nat_scope.

(** ** Reading *)
Lemma octal_ok c : octal c = true <-> octal_digit c.
Proof.
  split.
  - destruct c as [[] [] [] [] [] [] [] []]; intros H; try discriminate H; cbn; tauto.
  - cbn. intuition (subst; reflexivity).
Qed.
Lemma until_spec c s : exists r, s = until c s ++ r /\ ~ In c (until c s) /\ (r = [] \/ exists r', r = c :: r').
Proof.
  induction s as [|d s [r [E [N R]]]]; [exists []; repeat split; auto|]. cbn [until]. destruct (ceq c d) eqn:X.
  - apply ceq_true in X. subst d. exists (c :: s). repeat split; [auto|right; now exists s].
  - exists r. split; [cbn; now rewrite <- E|]. split; [|exact R]. intros [<-|I]; [now rewrite ceq_refl in X|contradiction].
Qed.
Lemma until_app c h r : ~ In c h -> r = [] \/ (exists r', r = c :: r') -> until c (h ++ r) = h.
Proof.
  intros N R. induction h as [|d h IH]; cbn [app until].
  - destruct R as [->|[r' ->]]; [reflexivity|]. cbn. now rewrite ceq_refl.
  - destruct (ceq c d) eqn:X; [apply ceq_true in X; subst; exfalso; apply N; now left|]. f_equal. apply IH. intros I. apply N. now right.
Qed.
Lemma after_app c h r : ~ In c h -> after c (h ++ c :: r) = Some r.
Proof.
  induction h as [|d h IH]; intros N; cbn [app after]; [now rewrite ceq_refl|].
  destruct (ceq c d) eqn:X; [apply ceq_true in X; subst; exfalso; apply N; now left|]. apply IH. intros I. apply N. now right.
Qed.
Lemma after_some c : forall s r, after c s = Some r -> exists h, s = h ++ c :: r /\ ~ In c h.
Proof.
  induction s as [|d s IH]; intros r H; [discriminate|]. cbn [after] in H. destruct (ceq c d) eqn:X.
  - apply ceq_true in X. subst d. injection H as ->. exists []. split; [reflexivity|auto].
  - destruct (IH r H) as [h [-> N]]. exists (d :: h). split; [reflexivity|]. intros [<-|I]; [now rewrite ceq_refl in X|contradiction].
Qed.
Lemma cut_ok : forall p s r, cut p s = Some r <-> s = p ++ r.
Proof.
  induction p as [|c p IH]; intros s r; cbn [cut app]; [split; [intros X; injection X; auto|intros ->; auto]|].
  destruct s as [|d s]; [split; discriminate|]. destruct (ceq c d) eqn:X.
  - apply ceq_true in X. subst d. rewrite IH. split; [intros ->; auto|intros Y; now injection Y].
  - split; [discriminate|]. intros Y. injection Y as -> _. now rewrite ceq_refl in X.
Qed.
Lemma cwd_ok e d : shown_dir (home e) (pwd e) d -> cwd e = d.
Proof.
  unfold cwd. intros H. remember (pwd e) as p. destruct H as [|N|r N|p N1 N2].
  - reflexivity.
  - destruct (str_eqb_spec (home e) (L "/")) as [X|_]; [contradiction|]. now rewrite str_eqb_refl.
  - destruct (str_eqb_spec (home e ++ L "/" ++ r) (L "/")) as [X|_]; [contradiction|].
    destruct (str_eqb_spec (home e ++ L "/" ++ r) (home e)) as [X|_].
    { exfalso. apply (f_equal (@length char)) in X. rewrite !app_length in X. cbn in X. lia. }
    rewrite (proj2 (cut_ok _ _ _) eq_refl). reflexivity.
  - destruct (str_eqb_spec p (L "/")) as [X|_]; [reflexivity|]. destruct (str_eqb_spec p (home e)) as [X|_]; [contradiction|].
    destruct (cut (home e) p) as [[|c r]|] eqn:C; try reflexivity. destruct (ceq c "/") eqn:X; [|reflexivity].
    apply ceq_true in X. subst c. apply cut_ok in C. exfalso. now apply (N2 r).
Qed.
Lemma cwd_total home p : exists d, shown_dir home p d.
Proof.
  destruct (str_eqb_spec p (L "/")) as [->|N]; [exists (L "/"); constructor|].
  destruct (str_eqb_spec p home) as [->|N1]; [exists (L "~"); now constructor|].
  destruct (cut home p) as [[|c r]|] eqn:C.
  - apply cut_ok in C. rewrite app_nil_r in C. contradiction.
  - apply cut_ok in C. destruct (ceq c "/") eqn:X.
    + apply ceq_true in X. subst c. exists (L "~/" ++ r). rewrite C. constructor. now rewrite <- (C : p = home ++ L "/" ++ r).
    + exists p. constructor; [exact N1|]. intros r' E. rewrite C in E. apply app_inv_head in E. injection E as -> _. discriminate X.
  - exists p. constructor; [exact N1|]. intros r' E. apply cut_ok in E. congruence.
Qed.

(** ** One piece at a time *)
Definition tail_ok (sh : bool) (c : char) (s : cstr) : Prop :=
  (sh = false -> ~ (exists a b r, octal_digit c /\ octal_digit a /\ octal_digit b /\ s = a :: b :: r)) /\
  (sh = false -> c = "D"%char -> s <> [] /\ ~ (exists f r, s = L "{" ++ f ++ L "}" ++ r)).
Lemma expand_sh e c s : psh e = true -> c <> "h"%char -> c <> "p"%char -> expand e c s = Some (["\"%char; c], s).
Proof. intros H N1 N2. unfold expand. apply ceq_false in N1, N2. now rewrite H, N1, N2. Qed.
Lemma expand_d e s : psh e = false -> tail_ok false "D" s -> expand e "D" s = Some (L "\D", s).
Proof.
  intros H [_ T]. destruct (T eq_refl eq_refl) as [N X]. unfold expand. rewrite H. cbn [andb]. destruct s as [|d f]; [contradiction|].
  destruct (after "}" f) as [r|] eqn:A; [|reflexivity]. destruct (ceq d "{") eqn:D; [|reflexivity]. exfalso. apply X.
  apply ceq_true in D. subst d. apply after_some in A. destruct A as [h [-> _]]. now exists h, r.
Qed.
Lemma expand_other e c s : psh e = false -> ~ In c letters -> tail_ok false c s -> expand e c s = Some (["\"%char; c], s).
Proof.
  intros H N [T _]. unfold expand. rewrite H. cbn [andb].
  assert (G : (if octal c then match s with
          | x :: y :: r' => if octal x && octal y then let n := ((code c * 64 + code x * 8 + code y) mod 256)%N in Some (if (n =? 0)%N then [] else [ascii_of_N n], r')
              else Some (["\"%char; c], s)
          | _ => Some (["\"%char; c], s) end else Some (["\"%char; c], s)) = Some (["\"%char; c], s)).
  { destruct (octal c) eqn:O; [|reflexivity]. destruct s as [|x [|y r]]; try reflexivity. destruct (octal x && octal y) eqn:Q; [|reflexivity].
    apply andb_prop in Q. destruct Q as [Q1 Q2]. exfalso. apply (T eq_refl). exists x, y, r. rewrite <- !octal_ok. auto. }
  destruct c as [[] [] [] [] [] [] [] []]; first [exact G|exfalso; apply N; cbn; tauto].
Qed.
Lemma expand_esc e c t s : means e (Esc c) t -> tail_ok (psh e) c s -> expand e c s = Some (t, s).
Proof.
  intros M T. inversion M as [| | | | | |c' SH N1 N2|h r E N R|R|R|c' t' SH X]; subst.
  - now apply expand_sh.
  - unfold expand. rewrite Bool.andb_false_r. rewrite E, until_app by auto. reflexivity.
  - unfold expand. rewrite Bool.andb_false_r, R. reflexivity.
  - unfold expand. rewrite Bool.andb_false_r, R. reflexivity.
  - rewrite SH in T. destruct X; try (unfold expand; rewrite SH; reflexivity).
    + unfold expand. rewrite SH. cbn [andb negb orb]. now rewrite H.
    + unfold expand. rewrite SH. cbn [andb]. rewrite H. change (L " ") with [SP]. cbn [app]. rewrite after_app by auto. change (b ++ SP :: c ++ r) with (b ++ SP :: (c ++ r)).
      rewrite after_app by auto. now rewrite until_app.
    + unfold expand. rewrite SH. cbn [andb]. now rewrite (cwd_ok e d).
    + unfold expand. rewrite SH. cbn [andb]. destruct (str_eqb_spec (pwd e) (home e)); [reflexivity|contradiction].
    + unfold expand. rewrite SH. cbn [andb]. destruct (str_eqb_spec (pwd e) (home e)); [contradiction|reflexivity].
    + now apply expand_d.
    + now apply expand_other.
Qed.
Lemma expand_oct e a b c t s : psh e = false -> octal_digit a -> octal_digit b -> octal_digit c -> means e (Oct a b c) t ->
  expand e a (b :: c :: s) = Some (t, s).
Proof.
  intros H A B C M. unfold expand. rewrite H. cbn [andb].
  assert (G : (if octal a then if octal b && octal c then let n := ((code a * 64 + code b * 8 + code c) mod 256)%N in Some (if (n =? 0)%N then [] else [ascii_of_N n], s)
              else Some (["\"%char; a], b :: c :: s) else Some (["\"%char; a], b :: c :: s)) = Some (t, s)).
  { rewrite (proj2 (octal_ok a) A), (proj2 (octal_ok b) B), (proj2 (octal_ok c) C). cbn [andb]. cbv zeta. unfold code.
    inversion M as [| | |x y z n E N|x y z E| | | | | |]; subst.
    - set (n := (_ mod 256)%N) in *. destruct (N.eqb_spec n 0); [contradiction|reflexivity].
    - rewrite E. reflexivity. }
  cbn in A. repeat (destruct A as [<-|A]; [exact G|]). contradiction.
Qed.
Lemma expand_date e f s : psh e = false -> ~ In "}"%char f -> expand e "D" (L "{" ++ f ++ L "}" ++ s) = Some (date e f, s).
Proof.
  intros H N. unfold expand. rewrite H. cbn [andb]. change (L "{" ++ f ++ L "}" ++ s) with ("{"%char :: (f ++ "}"%char :: s)). cbn match.
  rewrite after_app, until_app by eauto. reflexivity.
Qed.

(** What a piece does to the state. *)
Definition upd (e : penv) (delim : option char) (p : piece) (t s : cstr) (st : pst) : pst :=
  match p with
  | Ch c => let (d, st) := delimit delim c s st in put_char c d st
  | Bang => put_char "!" false st
  | Num => put_text t false st
  | Esc c => put_text t false (effect e c s st)
  | Oct _ _ _ | Date _ => put_text t false st
  end.
Definition fine (delim : option char) : Prop := delim <> Some "\"%char /\ delim <> Some "!"%char.
Lemma delimit_back delim r st : fine delim -> delimit delim "\" r st = (false, st).
Proof.
  intros [N1 _]. unfold delimit. destruct delim as [d|].
  - assert (X : ceq "\" d = false) by (apply ceq_false; intros <-; now apply N1). rewrite X. destruct (ind st); reflexivity.
  - destruct (ind st); reflexivity.
Qed.
Lemma delimit_bang delim r st : fine delim -> delimit delim "!" r st = (false, st).
Proof.
  intros [_ N1]. unfold delimit. destruct delim as [d|].
  - assert (X : ceq "!" d = false) by (apply ceq_false; intros <-; now apply N1). rewrite X. destruct (ind st); reflexivity.
  - destruct (ind st); reflexivity.
Qed.
Lemma octal_effect e a s st : octal_digit a -> effect e a s st = st.
Proof. intros A. unfold effect. destruct (psh e); [reflexivity|]. cbn in A. intuition (subst; reflexivity). Qed.
(** The induction: every piece acts on the state. *)
Fixpoint acts (e : penv) (delim : option char) (st : pst) (l : list (piece * cstr * cstr)) : pst :=
  match l with [] => st | (p, t, s) :: l => acts e delim (upd e delim p t s st) l end.
Inductive parsed (sh : bool) (e : penv) : list (piece * cstr * cstr) -> cstr -> Prop :=
| pd_nil : parsed sh e [] []
| pd_last : parsed sh e [] (L "\")
| pd_cons p t s s0 l : parsed sh e l s -> reads sh (p :: map (fun x => fst (fst x)) l) s0 ->
    (exists pre, s0 = pre ++ s /\ 0 < length pre) -> means e p t ->
    (forall f delim st, fine delim -> go (S f) e delim st s0 = go f e delim (upd e delim p t s st) s) -> parsed sh e ((p, t, s) :: l) s0.
Lemma parse_ok e l s : reads (psh e) l s -> forall ts, Forall2 (means e) l ts ->
  exists L, parsed (psh e) e L s /\ map (fun x => fst (fst x)) L = l /\ map (fun x => snd (fst x)) L = ts.
Proof.
  induction 1 as [| |c l s N1 N2 R IH|l s R IH|l s N R IH|l s a b c SH A B C R IH|l s f SH N R IH|l s c T1 T2 R IH]; intros ts F.
  - inversion F; subst. exists []. repeat split. constructor.
  - inversion F; subst. exists []. repeat split. constructor.
  - inversion F as [|x t l0 ts' M F']; subst. destruct (IH ts' F') as [L0 [P [<- <-]]]. exists ((Ch c, t, s) :: L0). split; [|split; reflexivity].
    eapply pd_cons; [exact P|now constructor|exists [c]; split; [reflexivity|cbn; lia]|exact M|].
    intros fu delim st D. cbn [go upd]. apply ceq_false in N1, N2. destruct (delimit delim c s st) as [d st']. now rewrite N1, N2.
  - inversion F as [|x t l0 ts' M F']; subst. destruct (IH ts' F') as [L0 [P [<- <-]]]. exists ((Bang, t, s) :: L0). split; [|split; reflexivity].
    eapply pd_cons; [exact P|now constructor|exists (L "!!"); split; [reflexivity|cbn; lia]|exact M|].
    intros fu delim st D. change (L "!!" ++ s) with ("!"%char :: "!"%char :: s). cbn [go upd]. now rewrite delimit_bang.
  - inversion F as [|x t l0 ts' M F']; subst. destruct (IH ts' F') as [L0 [P [<- <-]]]. exists ((Num, t, s) :: L0). split; [|split; reflexivity].
    eapply pd_cons; [exact P|now constructor|exists (L "!"); split; [reflexivity|cbn; lia]|exact M|].
    intros fu delim st D. cbn [go upd]. rewrite delimit_bang by exact D. change (ceq "!" "\") with false. change (negb (ceq "!" "!")) with false. cbn match.
    inversion M; subst. destruct s as [|x s]; [reflexivity|]. destruct (ceq x "!") eqn:X; [|reflexivity]. apply ceq_true in X. subst. exfalso. now apply (N s).
  - inversion F as [|x t l0 ts' M F']; subst. destruct (IH ts' F') as [L0 [P [<- <-]]]. exists ((Oct a b c, t, s) :: L0). split; [|split; reflexivity].
    eapply pd_cons; [exact P|now constructor|exists (["\"%char; a; b; c]); split; [reflexivity|cbn; lia]|exact M|].
    intros fu delim st D. cbn [app go upd]. rewrite delimit_back by exact D. change (ceq "\" "\") with true. cbn match.
    now rewrite (expand_oct e a b c t s), octal_effect.
  - inversion F as [|x t l0 ts' M F']; subst. destruct (IH ts' F') as [L0 [P [<- <-]]]. exists ((Date f, t, s) :: L0). split; [|split; reflexivity].
    eapply pd_cons; [exact P|now constructor|exists (L "\D{" ++ f ++ L "}"); split; [now rewrite <- !app_assoc|cbn; lia]|exact M|].
    intros fu delim st D. change (L "\D{" ++ f ++ L "}" ++ s) with ("\"%char :: "D"%char :: (L "{" ++ f ++ L "}" ++ s)). cbn [go upd].
    rewrite delimit_back by exact D. change (ceq "\" "\") with true. cbn match. rewrite expand_date by auto. inversion M; subst. unfold effect. now rewrite SH.
  - inversion F as [|x t l0 ts' M F']; subst. destruct (IH ts' F') as [L0 [P [<- <-]]]. exists ((Esc c, t, s) :: L0). split; [|split; reflexivity].
    eapply pd_cons; [exact P|now constructor|exists (["\"%char; c]); split; [reflexivity|cbn; lia]|exact M|].
    intros fu delim st D. cbn [go upd]. rewrite delimit_back by exact D. change (ceq "\" "\") with true. cbn match.
    rewrite (expand_esc e c t s); auto. now split.
Qed.
Lemma go_last f e delim st : fine delim -> go (S f) e delim st (L "\") = Some st.
Proof. intros D. change (L "\") with ["\"%char]. cbn [go]. now rewrite delimit_back. Qed.
Lemma go_acts sh e L s : parsed sh e L s -> forall f delim st, fine delim -> length s <= f -> go f e delim st s = Some (acts e delim st L).
Proof.
  induction 1 as [| |p t s s0 l P IH R [pre [E Lp]] M G]; intros f delim st D H.
  - destruct f; reflexivity.
  - destruct f as [|f]; [cbn in H; lia|]. now apply go_last.
  - subst s0. rewrite app_length in H. destruct f as [|f]; [lia|]. rewrite G by exact D. cbn [acts]. apply IH; [exact D|lia].
Qed.
Lemma dopprompt_plain sh e L s n : parsed sh e L s -> (forall c r, s <> c :: "013"%char :: r) ->
  dopprompt e s n = Some (acts e None (PSt 0 false true n [] s) L).
Proof.
  intros P N. assert (G : go (length s) e None (PSt 0 false true n [] s) s = Some (acts e None (PSt 0 false true n [] s) L)).
  { apply (go_acts sh); [exact P|split; discriminate|lia]. }
  unfold dopprompt. destruct s as [|c [|x r]]; try exact G. destruct (ceq x CR) eqn:X; [|exact G]. apply ceq_true in X. subst x. exfalso. now apply (N c r).
Qed.
Lemma dopprompt_delim sh e L d s n : parsed sh e L s -> fine (Some d) ->
  dopprompt e (d :: "013"%char :: s) n = Some (acts e (Some d) (PSt 0 false true n [] (d :: "013"%char :: s)) L).
Proof.
  intros P D. unfold dopprompt. change (ceq "013" CR) with true. cbn match. apply (go_acts sh); [exact P|exact D|cbn [length]; lia].
Qed.

(** ** Printing *)
Definition texts (l : list (piece * cstr * cstr)) : cstr := concat (map (fun x => snd (fst x)) l).
Lemma upd_out e delim p t s st : trunc st = 0 -> means e p t -> out (upd e delim p t s st) = out st ++ t /\ trunc (upd e delim p t s st) = 0.
Proof.
  intros T M. destruct p; cbn [upd].
  - assert (D : forall x, delimit delim c s st = x -> out (snd x) = out st /\ trunc (snd x) = 0).
    { intros x <-. unfold delimit. destruct (ind st && _); [auto|]. destruct (ceq c NL || ceq c CR); [auto|]. destruct (ceq c TAB); [auto|]. destruct delim as [d|]; [destruct (ceq c d); auto|auto]. }
    destruct (delimit delim c s st) as [d st'] eqn:E. destruct (D _ eq_refl) as [D1 D2]. cbn [snd] in *. inversion M; subst. unfold put_char. rewrite D2. cbn [Nat.ltb Nat.leb].
    rewrite Bool.andb_false_r. cbn. now rewrite D1.
  - inversion M; subst. unfold put_char. rewrite T. cbn [Nat.ltb Nat.leb]. rewrite Bool.andb_false_r. cbn. auto.
  - unfold put_text. rewrite T. cbn. auto.
  - assert (D : out (effect e c s st) = out st /\ trunc (effect e c s st) = 0).
    { unfold effect. destruct (psh e); [auto|]. destruct (ceq c "n" || ceq c "r"); [auto|]. destruct (ceq c "["); [auto|]. destruct (ceq c "]"); auto. }
    destruct D as [D1 D2]. unfold put_text. rewrite D2. cbn. now rewrite D1.
  - unfold put_text. rewrite T. cbn. auto.
  - unfold put_text. rewrite T. cbn. auto.
Qed.
Lemma acts_out sh e L s delim : parsed sh e L s -> forall st, trunc st = 0 -> out (acts e delim st L) = out st ++ texts L.
Proof.
  induction 1 as [| |p t s s0 l P IH R E M G]; intros st T; try (cbn; now rewrite app_nil_r).
  cbn [acts texts map concat fst snd]. destruct (upd_out e delim p t s st T M) as [A B]. rewrite IH by exact B. rewrite A. unfold texts. now rewrite <- app_assoc.
Qed.

(** ** Every prompt can be read *)
Lemma octal_dec c : octal_digit c \/ ~ octal_digit c.
Proof. destruct (octal c) eqn:E; [left; now apply octal_ok|right; intros H; apply octal_ok in H; congruence]. Qed.
Lemma reads_total sh : forall n s, length s <= n -> (exists l, reads sh l s) \/ (sh = false /\ exists u, s = u ++ L "\D").
Proof.
  induction n as [|n IH]; intros s H; [destruct s; [left; exists []; constructor|cbn in H; lia]|].
  assert (ADD : forall pre s', s = pre ++ s' -> 0 < length pre -> (forall l, reads sh l s' -> exists l', reads sh l' s) ->
    (exists l, reads sh l s) \/ (sh = false /\ exists u, s = u ++ L "\D")).
  { intros pre s' E Lp K. subst s. rewrite app_length in H. destruct (IH s') as [[l R]|[X [u ->]]]; [lia|left; now apply (K l)|right].
    split; [exact X|]. exists (pre ++ u). now rewrite app_assoc. }
  destruct s as [|c s]; [left; exists []; constructor|].
  destruct (ceq c "\") eqn:B.
  { apply ceq_true in B. subst c. destruct s as [|c s]; [left; exists []; constructor|].
    assert (ESC : tail_ok sh c s -> (exists l, reads sh l ("\"%char :: c :: s)) \/ (sh = false /\ exists u, "\"%char :: c :: s = u ++ L "\D")).
    { intros [T1 T2]. apply (ADD ["\"%char; c] s); [reflexivity|cbn; lia|]. intros l R. exists (Esc c :: l). now constructor. }
    destruct sh; [apply ESC; split; discriminate|].
    assert (DD : c = "D"%char \/ c <> "D"%char) by (destruct (ceq_spec c "D"); auto).
    destruct DD as [->|ND].
    - destruct s as [|d f]; [right; split; [reflexivity|now exists []]|].
      destruct (ceq_spec d "{") as [->|Nd].
      + destruct (after "}" f) as [r|] eqn:A.
        * apply after_some in A. destruct A as [h [-> Nh]]. apply (ADD (L "\D{" ++ h ++ L "}") r); [now rewrite <- !app_assoc|cbn; lia|].
          intros l R. exists (Date h :: l). now apply (rd_date false l r h).
        * apply ESC. split; [intros _ [a [b [r [O _]]]]; cbn in O; intuition discriminate|]. intros _ _. split; [discriminate|].
          intros [f' [r E]]. injection E as ->. assert (X : exists r', after "}" (f' ++ L "}" ++ r) = Some r').
          { clear. induction f' as [|x f' [r' I]]; cbn [app after]; [eexists; reflexivity|]. destruct (ceq "}" x); eauto. }
          destruct X as [r' X]. change (f' ++ "}"%char :: r) with (f' ++ L "}" ++ r) in A. rewrite A in X. discriminate X.
      + apply ESC. split; [intros _ [a [b [r [O _]]]]; cbn in O; intuition discriminate|]. intros _ _. split; [discriminate|].
        intros [f' [r E]]. injection E as -> _. contradiction.
    - assert (OO : (exists a b r, octal_digit c /\ octal_digit a /\ octal_digit b /\ s = a :: b :: r) \/ ~ (exists a b r, octal_digit c /\ octal_digit a /\ octal_digit b /\ s = a :: b :: r)).
      { destruct (octal_dec c) as [C|C]; [|right; intros [a [b [r [X _]]]]; contradiction].
        destruct s as [|a [|b r]]; [right; intros [a' [b' [r' [_ [_ [_ X]]]]]]; discriminate..|].
        destruct (octal_dec a) as [A|A]; [|right; intros [a' [b' [r' [_ [X [_ E]]]]]]; injection E as -> -> ->; contradiction].
        destruct (octal_dec b) as [B|B]; [|right; intros [a' [b' [r' [_ [_ [X E]]]]]]; injection E as -> -> ->; contradiction].
        left. now exists a, b, r. }
      destruct OO as [[a [b [r [C [A [B ->]]]]]]|NO].
      + apply (ADD ["\"%char; c; a; b] r); [reflexivity|cbn; lia|]. intros l R. exists (Oct c a b :: l). now apply (rd_oct false l r c a b).
      + apply ESC. split; [auto|]. intros _ X. contradiction. }
  destruct (ceq c "!") eqn:B2.
  { apply ceq_true in B2. subst c. destruct s as [|x r]; [left; exists [Num]; apply rd_num; [discriminate|constructor]|].
    destruct (ceq_spec x "!") as [->|N].
    - apply (ADD (L "!!") r); [reflexivity|cbn; lia|]. intros l R. exists (Bang :: l). now apply (rd_bang sh l r).
    - apply (ADD (L "!") (x :: r)); [reflexivity|cbn; lia|]. intros l R. exists (Num :: l). apply rd_num; [|exact R]. intros r' E. injection E as -> _. contradiction. }
  apply ceq_false in B, B2. apply (ADD [c] s); [reflexivity|cbn; lia|]. intros l R. exists (Ch c :: l). now constructor.
Qed.
Definition known (e : penv) : Prop := tty e <> None /\ exists a b c, version e = a ++ L " " ++ b ++ L " " ++ c /\ ~ In SP a /\ ~ In SP b.
Lemma letters_dec c : {In c letters} + {~ In c letters}.
Proof. apply in_dec. apply ascii_dec. Qed.
Lemma means_total e p : known e -> exists t, means e p t.
Proof.
  intros [T [va [vb [vc [V [NA NB]]]]]]. destruct p as [c| | |c|a b c|f].
  - eexists. constructor.
  - eexists. constructor.
  - eexists. constructor.
  - destruct (ceq_spec c "h") as [->|Nh].
    { destruct (until_spec "." (host e)) as [r [E [N R]]]. exists (until "." (host e)). now apply (m_host e _ r). }
    destruct (ceq_spec c "p") as [->|Np].
    { destruct (root e) eqn:R; eexists; [now apply m_root|now apply m_user]. }
    destruct (psh e) eqn:SH; [eexists; now apply m_sh|].
    destruct (letters_dec c) as [I|NI]; [|eexists; apply m_esc; [exact SH|now constructor]].
    cbn in I. repeat (destruct I as [<-|I]; [try contradiction; first
      [ eexists; apply m_esc; [exact SH|solve [constructor]]
      | destruct (tty e) as [t|] eqn:E; [|contradiction]; exists (base e t); apply m_esc; [exact SH|exact (e_tty e t E)]
      | destruct (until_spec SP vc) as [r [E [N R]]]; exists (until SP vc); apply m_esc; [exact SH|]; apply (e_version e va vb _ r); auto; now rewrite V, E at 1
      | destruct (cwd_total (home e) (pwd e)) as [d D]; exists d; apply m_esc; [exact SH|now constructor]
      | destruct (str_eqb_spec (pwd e) (home e)); eexists; apply m_esc; [exact SH|now constructor|exact SH|now constructor] ]|]).
    contradiction.
  - set (n := (((N_of_ascii a - 48) * 64 + (N_of_ascii b - 48) * 8 + (N_of_ascii c - 48)) mod 256)%N). destruct (N.eq_dec n 0) as [Z|Z].
    + exists []. now apply m_nul.
    + exists [ascii_of_N n]. now apply (m_oct e a b c n).
  - eexists. constructor.
Qed.
Lemma means_all e l : known e -> exists ts, Forall2 (means e) l ts.
Proof.
  intros K. induction l as [|p l [ts F]]; [exists []; constructor|]. destruct (means_total e p K) as [t M]. exists (t :: ts). now constructor.
Qed.

(** ** The width *)
Definition pairs (l : list (piece * cstr * cstr)) : list (piece * cstr) := map fst l.
Lemma counts_eq st : counts false st = cnt st && negb (ind st).
Proof. unfold counts. cbn. now rewrite Bool.andb_true_r. Qed.
Lemma text_tot t st : trunc st = 0 -> put_text t false st = PSt (tot st + (if cnt st && negb (ind st) then length t else 0)) (ind st) (cnt st) 0 (out st ++ t) (sp st).
Proof. intros T. unfold put_text. rewrite T. cbn [Nat.ltb Nat.leb andb skipn]. rewrite counts_eq. f_equal. destruct (cnt st && negb (ind st)); lia. Qed.
Lemma char_tot c st : trunc st = 0 -> put_char c false st = PSt (tot st + (if cnt st && negb (ind st) then 1 else 0)) (ind st) (cnt st) 0 (out st ++ [c]) (sp st).
Proof. intros T. unfold put_char. rewrite T. cbn [Nat.ltb Nat.leb]. rewrite Bool.andb_false_r, counts_eq. f_equal. destruct (cnt st && negb (ind st)); lia. Qed.
Definition ordinary (sh : bool) (p : piece) : Prop := p <> Ch TAB /\ ~ new_line sh p.
Lemma acts_tot sh e L s delim : parsed sh e L s -> Forall (fun x => ordinary (psh e) (fst (fst x))) L -> forall st, trunc st = 0 ->
  tot (acts e delim st L) = tot st + visible (psh e) delim (cnt st) (ind st) (pairs L).
Proof.
  induction 1 as [| |p t s s0 l P IH R E M G]; intros F st T; try (cbn; lia).
  inversion F as [|x y [O1 O2] F']; subst. cbn [fst snd] in *. specialize (IH F'). cbn [acts pairs map fst].
  destruct (upd_out e delim p t s st T M) as [_ T']. rewrite IH by exact T'. unfold pairs. clear IH T'.
  destruct p as [c| | |c|a b c|f]; cbn [upd visible].
  - assert (N1 : ceq c TAB = false) by (apply ceq_false; intros ->; now apply O1).
    assert (N2 : ceq c NL = false) by (apply ceq_false; intros ->; apply O2; now left).
    assert (N3 : ceq c CR = false) by (apply ceq_false; intros ->; apply O2; right; now left).
    unfold delimit. rewrite N1, N2, N3. cbn [orb]. inversion M; subst. cbn [length].
    set (is_d := match delim with Some d => ceq c d | None => false end). destruct is_d.
    + rewrite Bool.andb_false_r. unfold put_char. cbn [trunc cnt ind tot out sp]. rewrite T. cbn [Nat.ltb Nat.leb]. rewrite Bool.andb_false_r.
      unfold counts. cbn [cnt ind tot]. rewrite Bool.andb_false_r. cbn [tot cnt ind]. lia.
    + rewrite Bool.andb_true_r. destruct (ind st) eqn:I0; rewrite char_tot by exact T; cbn [tot cnt ind]; rewrite I0; lia.
  - inversion M; subst. rewrite char_tot by exact T. cbn [tot cnt ind]. change (length (L "!")) with 1. lia.
  - rewrite text_tot by exact T. cbn [tot cnt ind]. lia.
  - unfold effect. destruct (psh e) eqn:SH.
    + cbn [negb andb]. rewrite text_tot by exact T. cbn [tot cnt ind]. lia.
    + cbn [negb andb]. destruct (ceq c "n" || ceq c "r") eqn:NR.
      { exfalso. apply O2. right; right. split; [reflexivity|]. apply Bool.orb_true_iff in NR. destruct NR as [X|X]; apply ceq_true in X; subst; auto. }
      destruct (ceq c "[") eqn:B1.
      { apply ceq_true in B1. subst c. rewrite text_tot by exact T. cbn [tot cnt ind andb]. lia. }
      destruct (ceq c "]") eqn:B2.
      { apply ceq_true in B2. subst c. assert (t = []) as ->.
        { inversion M as [| | | | | |c' Q N1 N2| | | |c' t' Q X]; subst; [congruence|]. inversion X; subst; [reflexivity|]. exfalso. apply H. cbn. tauto. }
        rewrite text_tot by exact T. cbn [tot cnt ind andb length]. destruct (negb (ind st)); lia. }
      rewrite text_tot by exact T. cbn [tot cnt ind]. lia.
  - rewrite text_tot by exact T. cbn [tot cnt ind]. lia.
  - rewrite text_tot by exact T. cbn [tot cnt ind]. lia.
Qed.
(** Without delimiters. *)
Ltac nl_no := split; [auto|split; [auto|split; [auto|split; [first [contradiction|let X := fresh in let Y := fresh in intros [X|[X|[Y [X|X]]]]; congruence]|auto]]]].
Lemma upd_state e p t s st : trunc st = 0 -> means e p t -> ind st = false ->
  ind (upd e None p t s st) = false /\ trunc (upd e None p t s st) = 0 /\ cnt (upd e None p t s st) = counted (psh e) (cnt st) [p] /\
  (new_line (psh e) p -> sp (upd e None p t s st) = s /\ tot (upd e None p t s st) = if cnt st then 1 else 0) /\
  (~ new_line (psh e) p -> sp (upd e None p t s st) = sp st).
Proof.
  intros T M I. destruct (upd_out e None p t s st T M) as [_ T']. assert (G : forall A B C D : Prop, A -> B -> C -> D -> A /\ B /\ C /\ D) by auto.
  destruct p as [c| | |c|a b c|f]; cbn [upd counted] in *.
  - unfold delimit in *. rewrite I in *. cbn [andb] in *. destruct (ceq c NL || ceq c CR) eqn:E.
    + rewrite char_tot by (cbn; exact T). cbn [ind trunc cnt sp tot]. rewrite ?I. cbn [negb]. rewrite Bool.andb_true_r. repeat split; auto.
      intros N. exfalso. apply N. apply Bool.orb_true_iff in E. destruct E as [X|X]; apply ceq_true in X; subst; [now left|right; now left].
    + assert (NN : ~ new_line (psh e) (Ch c)).
      { intros [X|[X|[_ [X|X]]]]; try discriminate; injection X as ->; discriminate E. }
      destruct (ceq c TAB); rewrite char_tot by (cbn; exact T); cbn [ind trunc cnt sp tot]; nl_no.
  - rewrite char_tot by exact T. cbn [ind trunc cnt sp tot]. nl_no.
  - rewrite text_tot by exact T. cbn [ind trunc cnt sp tot]. nl_no.
  - unfold effect in *. destruct (psh e) eqn:SH.
    + rewrite text_tot by exact T. cbn [ind trunc cnt sp tot negb andb]. nl_no.
    + cbn [negb andb]. destruct (ceq c "n" || ceq c "r") eqn:NR.
      * assert (LT : length t = 1 /\ ceq c "[" = false /\ ceq c "]" = false).
        { apply Bool.orb_true_iff in NR. assert (C : c = "n"%char \/ c = "r"%char) by (destruct NR as [X|X]; apply ceq_true in X; auto).
          inversion M as [| | | | | |c' Q N1 N2|h r E N R|R|R|c' t' Q X]; subst; try congruence; try (destruct C; discriminate).
          destruct C as [-> | ->]; inversion X; subst; repeat split; try reflexivity; exfalso; apply H; cbn; tauto. }
        destruct LT as [LT [-> ->]]. rewrite text_tot by exact T. cbn [ind trunc cnt sp tot]. rewrite I, LT. cbn [negb]. rewrite Bool.andb_true_r. repeat split; auto.
        intros N. exfalso. apply N. right; right. split; [reflexivity|]. apply Bool.orb_true_iff in NR. destruct NR as [X|X]; apply ceq_true in X; subst; auto.
      * assert (NN : ~ new_line false (Esc c)).
        { intros [X|[X|[_ [X|X]]]]; try discriminate; injection X as ->; discriminate NR. }
        destruct (ceq c "["); [|destruct (ceq c "]")]; rewrite text_tot by (cbn; exact T); cbn [ind trunc cnt sp tot]; nl_no.
  - rewrite text_tot by exact T. cbn [ind trunc cnt sp tot]. nl_no.
  - rewrite text_tot by exact T. cbn [ind trunc cnt sp tot]. nl_no.
Qed.
Lemma acts_lines sh e l1 : forall L s, parsed sh e L s -> forall L1 p t s' L2, L = L1 ++ (p, t, s') :: L2 -> map (fun x => fst (fst x)) L1 = l1 -> new_line (psh e) p ->
  Forall (fun x => ordinary (psh e) (fst (fst x))) L2 -> forall st, trunc st = 0 -> ind st = false ->
  let c := counted (psh e) (cnt st) l1 in
  tot (acts e None st L) = (if c then 1 else 0) + visible (psh e) None c false (pairs L2) /\ sp (acts e None st L) = s' /\ parsed sh e L2 s'.
Proof.
  intros L s P. revert l1. induction P as [| |p0 t0 s1 s0 l P IH R E M G]; intros l1 L1 p t s' L2 EL E1 NL F st T I; try (destruct L1; discriminate).
  destruct L1 as [|x L1].
  - cbn [app] in EL. injection EL as -> -> -> ->. cbn [map] in E1. subst l1. cbn [acts counted].
    destruct (upd_state e p t s' st T M I) as [I' [T' [C' [N1 _]]]]. destruct (N1 NL) as [Sp Tt].
    split; [|split; [|exact P]].
    + rewrite (acts_tot sh e L2 s' None P F) by exact T'. rewrite Tt, I'. f_equal. rewrite C'. destruct NL as [->|[->|[SH [->| ->]]]]; cbn [counted]; try rewrite SH; reflexivity.
    + clear - P F T' I' Sp. revert F. assert (K : forall st, trunc st = 0 -> ind st = false -> sp st = s' -> Forall (fun x => ordinary (psh e) (fst (fst x))) L2 -> sp (acts e None st L2) = s').
      { clear - P. remember s' as s2 in P. clear Heqs2. induction P as [| |p t s s0 l P IH R E M G]; intros st T I S F; try exact S. cbn [acts]. inversion F as [|x y [_ O] F']; subst.
        destruct (upd_state e p t s st T M I) as [I' [T' [_ [_ N]]]]. apply IH; auto. }
      intros F. now apply K.
  - cbn [app] in EL. injection EL as <- ->. cbn [acts map fst] in *. subst l1.
    destruct (upd_state e p0 t0 s1 st T M I) as [I' [T' [C' _]]].
    destruct (IH _ L1 p t s' L2 eq_refl eq_refl NL F (upd e None p0 t0 s1 st) T' I') as [A [B C]]. rewrite C' in A.
    split; [|now split]. rewrite A. assert (CC : counted (psh e) (counted (psh e) (cnt st) [p0]) (map (fun x => fst (fst x)) L1) = counted (psh e) (cnt st) (p0 :: map (fun x => fst (fst x)) L1)) by (destruct p0; reflexivity).
    now rewrite CC.
Qed.
Lemma acts_sp sh e L s : parsed sh e L s -> forall st, trunc st = 0 -> ind st = false ->
  sp (acts e None st L) = sp st \/ exists L1 p t L2, L = L1 ++ (p, t, sp (acts e None st L)) :: L2 /\ new_line (psh e) p /\ means e p t /\ parsed sh e L2 (sp (acts e None st L)).
Proof.
  induction 1 as [| |p t s s0 l P IH R E M G]; intros st T I; try (left; reflexivity). cbn [acts].
  destruct (upd_state e p t s st T M I) as [I' [T' [_ [N1 N2]]]]. destruct (IH _ T' I') as [X|[L1 [p' [t' [L2 [X [N [M' P']]]]]]]].
  - assert (D : new_line (psh e) p \/ ~ new_line (psh e) p).
    { unfold new_line. destruct p as [c| | |c|a b c|f]; try (right; intros [Y|[Y|[_ [Y|Y]]]]; discriminate).
      - destruct (ceq_spec c NL) as [->|A]; [left; auto|]. destruct (ceq_spec c "013") as [->|B]; [left; auto|].
        right. intros [Y|[Y|[_ [Y|Y]]]]; congruence.
      - destruct (psh e); [right; intros [Y|[Y|[Y _]]]; discriminate|]. destruct (ceq_spec c "n") as [->|A]; [left; auto|].
        destruct (ceq_spec c "r") as [->|B]; [left; auto|]. right. intros [Y|[Y|[_ [Y|Y]]]]; congruence. }
    destruct D as [D|D].
    + right. destruct (N1 D) as [Y _]. rewrite X, Y. exists [], p, t, l. repeat split; auto.
    + left. rewrite X. now apply N2.
  - right. exists ((p, t, s) :: L1), p', t', L2. split; [cbn [app]; now rewrite <- X|]. auto.
Qed.
Lemma texts_app a b : texts (a ++ b) = texts a ++ texts b.
Proof. unfold texts. now rewrite map_app, concat_app. Qed.
Lemma new_line_text e p t : new_line (psh e) p -> means e p t -> t = [NL] \/ t = ["013"%char].
Proof.
  intros [->|[->|[SH [->| ->]]]] M.
  - inversion M; auto.
  - inversion M; auto.
  - inversion M as [| | | | | |c' Q N1 N2| | | |c' t' Q X]; subst; [congruence|]. inversion X; subst; [now left|exfalso; apply H; cbn; tauto].
  - inversion M as [| | | | | |c' Q N1 N2| | | |c' t' Q X]; subst; [congruence|]. inversion X; subst; [now right|exfalso; apply H; cbn; tauto].
Qed.

(** ** Cutting off *)
Lemma put_char_cut c d st : cnt st = true -> out (put_char c d st) = out st ++ skipn (trunc st) [c] /\ trunc (put_char c d st) = trunc st - 1 /\ cnt (put_char c d st) = true.
Proof.
  intros C. unfold put_char. rewrite C. cbn [andb]. destruct (trunc st) as [|n]; cbn.
  - auto.
  - rewrite skipn_nil, app_nil_r. auto.
Qed.
Lemma put_text_cut v d st : cnt st = true -> out (put_text v d st) = out st ++ skipn (trunc st) v /\ trunc (put_text v d st) = trunc st - length v /\ cnt (put_text v d st) = true.
Proof.
  intros C. unfold put_text. destruct (Nat.ltb_spec 0 (trunc st)) as [A|A]; cbn [andb].
  - destruct (Nat.leb_spec (length v) (trunc st)) as [B|B]; cbn [out trunc cnt].
    + rewrite skipn_all2 by exact B. rewrite app_nil_r. auto.
    + repeat split; auto. lia.
  - cbn [out trunc cnt]. repeat split; auto. lia.
Qed.
Lemma acts_cut sh e L s delim : parsed sh e L s -> (psh e = false -> ~ In (Esc "[") (map (fun x => fst (fst x)) L)) -> forall st, cnt st = true ->
  out (acts e delim st L) = out st ++ skipn (trunc st) (texts L).
Proof.
  induction 1 as [| |p t s s0 l P IH R E M G]; intros N st C; try (cbn; now rewrite skipn_nil, app_nil_r).
  cbn [acts map fst] in *. assert (U : out (upd e delim p t s st) = out st ++ skipn (trunc st) t /\ trunc (upd e delim p t s st) = trunc st - length t /\ cnt (upd e delim p t s st) = true).
  { destruct p as [c| | |c|a b c|f]; cbn [upd].
    - assert (D : forall x, delimit delim c s st = x -> out (snd x) = out st /\ trunc (snd x) = trunc st /\ cnt (snd x) = true).
      { intros x <-. unfold delimit. destruct (ind st && _); [auto|]. destruct (ceq c NL || ceq c CR); [auto|]. destruct (ceq c TAB); [auto|]. destruct delim as [d|]; [destruct (ceq c d); auto|auto]. }
      destruct (delimit delim c s st) as [d st'] eqn:Ed. destruct (D _ eq_refl) as [D1 [D2 D3]]. cbn [snd] in *. inversion M; subst. destruct (put_char_cut c d st' D3) as [A [B K]].
      rewrite A, B, D1, D2. cbn [length]. auto.
    - inversion M; subst. now apply put_char_cut.
    - now apply put_text_cut.
    - assert (D : out (effect e c s st) = out st /\ trunc (effect e c s st) = trunc st /\ cnt (effect e c s st) = true).
      { unfold effect. destruct (psh e) eqn:SH; [auto|]. destruct (ceq c "n" || ceq c "r"); [auto|]. destruct (ceq c "[") eqn:B; [|destruct (ceq c "]"); auto].
        exfalso. apply ceq_true in B. subst. apply (N eq_refl). now left. }
      destruct D as [D1 [D2 D3]]. destruct (put_text_cut t false _ D3) as [A [B K]]. rewrite A, B, D1, D2. auto.
    - now apply put_text_cut.
    - now apply put_text_cut. }
  destruct U as [A [B K]]. rewrite IH; [|intros SH X; apply (N SH); now right|exact K]. rewrite A, B. unfold texts at 2. cbn [map concat fst snd]. fold (texts l).
  now rewrite <- app_assoc, <- skipn_app.
Qed.
