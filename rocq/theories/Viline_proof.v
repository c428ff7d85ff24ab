(** Typing a line. *)
From Verif Require Import Base Vi_model Vi_spec Viline_spec.
Local Open Scope Z_scope.

Section P.
Variable k : cfg.

Record T (s : st) (t : cstr) : Prop := MkT {
  t_vs : vs s = VNORMAL; t_ins : ins s = INSERT; t_fin : fin s = false;
  t_buf : exists r, buf (es s) = t ++ r; t_size : Z.of_nat (length (buf (es s))) = LINE;
  t_len : len (es s) = Z.of_nat (length t); t_cur : cur (es s) = Z.of_nat (length t);
  t_lt : Z.of_nat (length t) < LINE; t_ib : Z.of_nat (length (ib s)) = LINE; t_il : 0 <= il s <= Z.of_nat (length t) }.

Lemma move0 d i s j : move d i s j 0 = Ok d. Proof. reflexivity. Qed.
Lemma rd_app p c r : rd (p ++ c :: r) (Z.of_nat (length p)) = Ok c.
Proof.
  unfold rd. replace (_ <? 0) with false by lia. rewrite Nat2Z.id, nth_error_app2 by lia.
  replace (length p - length p)%nat with O by lia. reflexivity.
Qed.
Lemma wr_app p c d r : wr (p ++ c :: r) (Z.of_nat (length p)) d = Ok (p ++ d :: r).
Proof.
  unfold wr. rewrite app_length. cbn [length]. replace (_ || _) with false by lia. f_equal. unfold splice. rewrite Nat2Z.id.
  rewrite firstn_app, Nat.sub_diag, firstn_all. cbn [firstn length app]. rewrite app_nil_r. f_equal. cbn. f_equal.
  rewrite skipn_app, skipn_all2 by lia. replace (length p + 1 - length p)%nat with 1%nat by lia. reflexivity.
Qed.
Lemma wr_len b i c : 0 <= i < Z.of_nat (length b) -> exists b', wr b i c = Ok b' /\ length b' = length b.
Proof.
  intros H. unfold wr. replace (_ || _) with false by lia. eexists. split; [reflexivity|].
  unfold splice. rewrite !app_length, firstn_length, skipn_length. cbn. lia.
Qed.
Lemma room s t : T s t -> exists x r, buf (es s) = t ++ x :: r.
Proof.
  intros []. destruct t_buf0 as [r E]. destruct r as [|x r]; [|eauto]. rewrite E, app_length in t_size0. cbn in *. lia.
Qed.
(** ** A character *)
Lemma char_T c s t : T s t -> Z.of_nat (length t) < LINE - 1 -> exists s', ins_char c s = Ok (0, s') /\ T s' (t ++ [c]).
Proof.
  intros H Hl. destruct (room s t H) as (x & r & Eb). destruct H. unfold ins_char. rewrite t_len0, t_cur0. replace (_ <=? _) with false by lia.
  destruct (wr_len (ib s) (il s) c) as (b' & E' & L'); [lia|]. rewrite E'. cbn [bind]. cbn [ins set_ib set_il]. rewrite t_ins0. cbn [is_insm is_repl andb].
  replace (Z.of_nat (length t) - Z.of_nat (length t)) with 0 by lia. rewrite move0. cbn [bind]. rewrite Eb, wr_app. cbn [bind].
  eexists. split; [reflexivity|]. constructor; cbn; rewrite ?app_length; cbn [length]; auto; try lia.
  - exists r. rewrite <- app_assoc. reflexivity.
  - rewrite Eb, app_length in t_size0. rewrite ?app_length in *. cbn [length] in *. lia.
Qed.
Lemma full_T c s t : T s t -> LINE - 1 <= Z.of_nat (length t) -> ins_char c s = Ok (-1, s).
Proof. intros [] H. unfold ins_char. rewrite t_len0. replace (_ <=? _) with true by lia. reflexivity. Qed.
(** ** Erasing *)
Lemma cut_T s t p w : T s t -> t = p ++ w ->
  T (set_xp XNONE (set_es (Ed (buf (es s)) (Z.of_nat (length p)) (Z.of_nat (length p))) (less_il (Z.of_nat (length w)) s))) p.
Proof.
  intros H E. destruct H. subst t. rewrite app_length in *. unfold less_il. constructor; cbn; auto; try lia.
  - destruct t_buf0 as [r ->]. exists (w ++ r). rewrite app_assoc. reflexivity.
  - destruct (Z.ltb_spec (il s) (Z.of_nat (length w))); lia.
Qed.
Lemma isu8cont_conts c : isu8cont k c = conts k c.
Proof.
  unfold isu8cont, conts. destruct (show8 k); cbn [negb andb]; auto. f_equal. destruct (Z.ltb_spec (ccode c) 192), (Z.leb_spec (ccode c) 191); auto; lia.
Qed.
Lemma letnum_idch c : letnum c = idch c.
Proof. pose proof (char_sweep (fun c => Bool.eqb (letnum c) (idch c)) eq_refl c) as H. cbv beta in H. now apply Bool.eqb_prop in H. Qed.
Lemma tback_T r : forall f p c w, (length p < f)%nat -> Forall (fun d => conts k d = true) w ->
  exists p' c' w', p ++ c :: w = p' ++ c' :: w' /\ Forall (fun d => conts k d = true) w' /\ (conts k c' = false \/ p' = []) /\
    tback_loop k f ((p ++ c :: w) ++ r) (Z.of_nat (length p)) = Ok (Z.of_nat (length p')).
Proof.
  induction f; intros p c w Hf Hw; [lia|]. cbn [tback_loop]. destruct (Z.ltb_spec 0 (Z.of_nat (length p))).
  - rewrite <- app_assoc. cbn [app]. rewrite rd_app. cbn [bind]. rewrite isu8cont_conts. destruct (conts k c) eqn:Ec.
    + destruct (exists_last (l := p)) as (q & d & E); [intros ->; cbn in *; lia|]. subst p.
      destruct (IHf q d (c :: w)) as (p' & c' & w' & E1 & E2 & E3 & E4); [rewrite app_length in *; cbn in *; lia|constructor; auto|].
      exists p', c', w'. rewrite <- app_assoc. cbn [app]. split; auto. split; auto. split; auto.
      rewrite app_length in *. cbn [length] in *. replace (Z.of_nat (length q + 1) - 1) with (Z.of_nat (length q)) by lia.
      rewrite <- app_assoc in E4. cbn [app] in E4. rewrite <- app_assoc. exact E4.
    + exists p, c, w. repeat split; auto.
  - destruct p; cbn in *; [|lia]. exists [], c, w. repeat split; auto.
Qed.
Lemma erase_T s t : T s t -> exists s' t', ins_erase k s = Ok (0, s') /\ T s' t' /\ erased k t t'.
Proof.
  intros H. pose proof (t_buf _ _ H) as [r Er]. unfold ins_erase. rewrite (t_ins _ _ H). cbn [is_repl is_insm andb].
  destruct (list_eq_dec ascii_dec t []) as [->|Ht].
  - rewrite (t_cur _ _ H). cbn. exists s, []. split; auto. split; auto. left. auto.
  - destruct (exists_last Ht) as (p & c & E). subst t. rewrite (t_cur _ _ H), (t_len _ _ H), Er.
    replace (_ =? 0) with false by (rewrite app_length; cbn; lia).
    destruct (tback_T r (S (length p)) p c []) as (p' & c' & w' & E1 & E2 & E3 & E4); [lia|constructor|].
    unfold tback. replace (Z.of_nat (length (p ++ [c])) - 1) with (Z.of_nat (length p)) by (rewrite app_length; cbn; lia).
    rewrite Nat2Z.id, E4. cbn [bind]. replace (Z.of_nat (length (p ++ [c])) - Z.of_nat (length (p ++ [c]))) with 0 by lia. rewrite move0. cbn [bind].
    eexists. exists p'. split; [reflexivity|]. split.
    + pose proof (cut_T s (p ++ [c]) p' (c' :: w') H E1) as G. rewrite Er in G. rewrite E1 in *. rewrite app_length in *. 
      replace (Z.of_nat (length p' + length (c' :: w')) - Z.of_nat (length p')) with (Z.of_nat (length (c' :: w'))) by lia.
      replace (Z.of_nat (length p' + length (c' :: w')) - Z.of_nat (length (c' :: w'))) with (Z.of_nat (length p')) by lia. exact G.
    + right. exists c', w'. auto.
Qed.
Lemma kill_T s t : T s t -> exists s', ins_kill s = Ok (0, s') /\ T s' [].
Proof.
  intros H. unfold ins_kill. rewrite (t_cur _ _ H), (t_len _ _ H). destruct (Z.eqb_spec (Z.of_nat (length t)) 0).
  - destruct t; [|cbn in *; lia]. eexists. split; [reflexivity|]. destruct H. constructor; auto.
  - rewrite Z.sub_diag, move0. cbn [bind]. eexists. split; [reflexivity|]. destruct H. constructor; cbn; auto; try lia. exists (buf (es s)); auto.
Qed.
(** *** A word *)
Definition wstate (want : option bool) (w : cstr) : Prop :=
  w <> [] /\ Forall (fun c => isspace c = false) w /\
  match want with
  | None => Forall (fun c => 128 <= ccode c) w
  | Some b => Forall (fun c => 128 <= ccode c \/ idch c = b) w /\ Exists (fun c => ccode c < 128 /\ idch c = b) w
  end.
Lemma wstate_word want w : wstate want w -> is_word w.
Proof.
  intros (_ & A & B). split; auto. destruct want as [b|]; [exists b; apply B|]. exists true. eapply Forall_impl; [|exact B]. cbn. auto.
Qed.
Lemma word_in rest : forall f p w want, (length p < f)%nat -> wstate want w ->
  exists p' w', p = p' ++ w' /\ backw_in f (p ++ w ++ rest) (Z.of_nat (length p)) false want = Ok (Z.of_nat (length p')) /\
    is_word (w' ++ w) /\ (p' = [] \/ exists q c, p' = q ++ [c] /\ ~ is_word (c :: w' ++ w)).
Proof.
  induction f; intros p w want Hf Hw; [lia|]. cbn [backw_in]. destruct (Z.leb_spec (Z.of_nat (length p)) 0).
  - destruct p; [|cbn in *; lia]. exists [], []. cbn. split; auto. split; auto. split; auto. eapply wstate_word; eauto.
  - destruct (exists_last (l := p)) as (q & d & E); [intros ->; cbn in *; lia|]. subst p.
    rewrite app_length in *. cbn [length] in *. replace (Z.of_nat (length q + 1) - 1) with (Z.of_nat (length q)) by lia.
    rewrite <- app_assoc. cbn [app]. rewrite rd_app. cbn [bind].
    assert (Stop : ~ is_word (d :: w) ->
      exists p' w', q ++ [d] = p' ++ w' /\ @Ok Z (Z.of_nat (length q + 1)) = Ok (Z.of_nat (length p')) /\
        is_word (w' ++ w) /\ (p' = [] \/ exists q c, p' = q ++ [c] /\ ~ is_word (c :: w' ++ w))).
    { intros N. exists (q ++ [d]), []. rewrite app_nil_r, app_length. cbn. split; auto. split; auto. split; [eapply wstate_word; eauto|].
      right. exists q, d. auto. }
    assert (Go : forall want', wstate want' (d :: w) ->
      exists p' w', q ++ [d] = p' ++ w' /\ backw_in f (q ++ d :: w ++ rest) (Z.of_nat (length q)) false want' = Ok (Z.of_nat (length p')) /\
        is_word (w' ++ w) /\ (p' = [] \/ exists q c, p' = q ++ [c] /\ ~ is_word (c :: w' ++ w))).
    { intros want' Hw'. destruct (IHf q (d :: w) want') as (p' & w' & E1 & E2 & E3 & E4); [lia|auto|].
      exists p', (w' ++ [d]). subst q. rewrite <- !app_assoc in *. cbn [app] in *. auto. }
    destruct Hw as (W1 & W2 & W3).
    destruct (isspace d) eqn:Es.
    { apply Stop. intros [X _]. inversion X; congruence. }
    unfold hi8. destruct (Z.leb_spec 128 (ccode d)).
    { apply Go. split; [discriminate|]. split; [constructor; auto|]. destruct want as [b|]; [|constructor; auto].
      split; [constructor; [auto|apply W3]|apply Exists_cons_tl, W3]. }
    destruct want as [b|].
    + rewrite letnum_idch. destruct (Bool.eqb_spec b (idch d)) as [Eb|Nb].
      * apply Go. split; [discriminate|]. split; [constructor; auto|]. split; [constructor; [right; auto|apply W3]|apply Exists_cons_tl, W3].
      * apply Stop. intros [_ [b' X]]. inversion X as [|? ? X1 X2]; subst. destruct W3 as [_ W4].
        apply Exists_exists in W4 as (c & Ic & C1 & C2). rewrite Forall_forall in X2. specialize (X2 c Ic). destruct X1; [lia|]. destruct X2; [lia|]. congruence.
    + rewrite letnum_idch. apply Go. split; [discriminate|]. split; [constructor; auto|]. split; [constructor; auto|apply Exists_cons_hd; auto].
      eapply Forall_impl; [|exact W3]. cbn. auto.
Qed.
Lemma word_sp rest : forall f p sp, (length p < f)%nat -> Forall (fun c => isspace c = true) sp ->
  exists p', backw_in f (p ++ sp ++ rest) (Z.of_nat (length p)) true None = Ok (Z.of_nat (length p')) /\
    exists w', p ++ sp = p' ++ w' /\ werased (p ++ sp) p'.
Proof.
  induction f; intros p sp Hf Hs; [lia|]. cbn [backw_in]. destruct (Z.leb_spec (Z.of_nat (length p)) 0).
  - destruct p; [|cbn in *; lia]. exists []. split; [reflexivity|]. exists sp. split; auto. exists [], sp. repeat split; auto.
    exists true. constructor.
  - destruct (exists_last (l := p)) as (q & d & E); [intros ->; cbn in *; lia|]. subst p.
    rewrite app_length in *. cbn [length] in *. replace (Z.of_nat (length q + 1) - 1) with (Z.of_nat (length q)) by lia.
    rewrite <- !app_assoc. cbn [app]. rewrite rd_app. cbn [bind].
    assert (Go : forall want', wstate want' [d] ->
      exists p', backw_in f (q ++ d :: sp ++ rest) (Z.of_nat (length q)) false want' = Ok (Z.of_nat (length p')) /\
        exists w', q ++ d :: sp = p' ++ w' /\ werased (q ++ d :: sp) p').
    { intros want' Hw'. destruct (word_in (sp ++ rest) f q [d] want') as (p' & w' & E1 & E2 & E3 & E4); [lia|auto|].
      exists p'. split; [exact E2|]. exists (w' ++ d :: sp). subst q. rewrite <- app_assoc. split; auto.
      exists (w' ++ [d]), sp. rewrite <- !app_assoc. cbn [app]. split; auto. split; auto. split; auto.
      destruct E4 as [->|(q & c & -> & N)]; [auto|]. right. split; [destruct w'; discriminate|]. exists q, c. auto. }
    destruct (isspace d) eqn:Es.
    + destruct (IHf q (d :: sp)) as (p' & E1 & w' & E2 & E3); [lia|constructor; auto|]. cbn [app] in *. eauto.
    + unfold hi8. destruct (Z.leb_spec 128 (ccode d)).
      * apply Go. split; [discriminate|]. split; constructor; auto.
      * rewrite letnum_idch. apply Go. split; [discriminate|]. split; [constructor; auto|]. split; [constructor; auto|apply Exists_cons_hd; auto].
Qed.
Lemma werase_T s t : T s t -> exists s' t', ins_werase s = Ok (0, s') /\ T s' t' /\ werased t t'.
Proof.
  intros H. pose proof (t_buf _ _ H) as [r Er]. unfold ins_werase. rewrite (t_cur _ _ H), (t_len _ _ H).
  destruct (Z.eqb_spec (Z.of_nat (length t)) 0).
  - destruct t; [|cbn in *; lia]. eexists. exists []. split; [reflexivity|]. split; [destruct H; constructor; auto|].
    exists [], []. repeat split; auto. exists true. constructor.
  - rewrite Er. destruct (word_sp r (S (length t)) t []) as (p' & E1 & w' & E2 & E3); [lia|constructor|].
    cbn [app] in E1. rewrite app_nil_r in *.
    assert (B : backword (t ++ r) (Z.of_nat (length t)) 1 = Ok (Z.of_nat (length p'))).
    { unfold backword. rewrite Nat2Z.id. cbn [backw_out]. replace (_ || _) with false by lia. rewrite Nat2Z.id, E1. cbn [bind].
      destruct (length t) eqn:El; [lia|]. cbn [backw_out]. cbn. rewrite orb_true_r. reflexivity. }
    rewrite B. cbn [bind]. rewrite Z.sub_diag, move0. cbn [bind]. eexists. exists p'. split; [reflexivity|]. split; auto.
    pose proof (cut_T s t p' w' H E2) as G. rewrite Er in G.
    assert (EL : length t = (length p' + length w')%nat) by (rewrite E2, app_length; reflexivity).
    replace (Z.of_nat (length t) - Z.of_nat (length p')) with (Z.of_nat (length w')) by lia.
    replace (Z.of_nat (length t) - Z.of_nat (length w')) with (Z.of_nat (length p')) by lia. exact G.
Qed.

(** ** The meaning is unique *)
Lemma app_cut {A} (p p' w w' : list A) : p ++ w = p' ++ w' -> (length w <= length w')%nat -> exists x, p = p' ++ x /\ w' = x ++ w.
Proof.
  revert p'. induction p as [|a p IH]; intros p' E L.
  - cbn in E. destruct p'; [exists []; auto|]. subst w. cbn in L. rewrite app_length in L. lia.
  - destruct p' as [|b p'].
    + exists (a :: p). split; auto.
    + cbn in E. injection E as -> E. destruct (IH p' E L) as (x & -> & ->). exists x. auto.
Qed.
Lemma erased_1 t a b : erased k t a -> erased k t b -> a = b.
Proof.
  assert (G : forall a c w b c' w', a ++ c :: w = b ++ c' :: w' -> Forall (fun d => conts k d = true) w' -> (conts k c = false \/ a = []) ->
    (length w <= length w')%nat -> a = b).
  { clear. intros a c w b c' w' E Hw Hc L. change (c :: w) with ([c] ++ w) in E. change (c' :: w') with ([c'] ++ w') in E. rewrite !app_assoc in E.
    destruct (app_cut _ _ _ _ E L) as (x & E1 & E2). destruct (list_eq_dec ascii_dec x []) as [->|N].
    - rewrite app_nil_r in E1. apply app_inj_tail in E1. tauto.
    - destruct (exists_last N) as (y & d & ->). rewrite app_assoc in E1. apply app_inj_tail in E1 as [E1 ->].
      subst w'. rewrite <- app_assoc in Hw. apply Forall_app in Hw as [_ Hw]. inversion Hw; subst.
      destruct Hc as [Hc|Hc]; [congruence|]. destruct b; discriminate. }
  intros [[-> ->]|(c & w & -> & Hw & Hc)] [[E ->]|(c' & w' & E & Hw' & Hc')]; auto; try (destruct a; discriminate); try (destruct b; discriminate).
  destruct (Nat.le_ge_cases (length w) (length w')).
  - eapply G; eauto.
  - symmetry. eapply G; eauto.
Qed.
Lemma word_suffix x w : is_word (x ++ w) -> is_word w.
Proof. intros [A [b B]]. apply Forall_app in A as [_ A]. apply Forall_app in B as [_ B]. split; eauto. Qed.
Lemma werased_1 t a b : werased t a -> werased t b -> a = b.
Proof.
  assert (S : forall p w sp p' w' sp', p ++ w ++ sp = p' ++ w' ++ sp' -> Forall (fun c => isspace c = true) sp' ->
    is_word w -> w <> [] -> (length sp <= length sp')%nat -> sp = sp').
  { clear. intros p w sp p' w' sp' E Hs [Hw _] N L. rewrite !app_assoc in E. destruct (app_cut _ _ _ _ E L) as (x & E1 & ->).
    destruct (list_eq_dec ascii_dec x []) as [->|Nx]; auto. exfalso.
    destruct (exists_last Nx) as (y & d & ->). destruct (exists_last N) as (v & e & ->). rewrite !app_assoc in E1. apply app_inj_tail in E1 as [_ ->].
    apply Forall_app in Hw as [_ Hw]. inversion Hw; subst. rewrite <- app_assoc in Hs. apply Forall_app in Hs as [_ Hs]. inversion Hs; subst. congruence. }
  assert (G : forall p w p' w', p ++ w = p' ++ w' -> is_word w' -> (p = [] \/ w <> [] /\ exists q c, p = q ++ [c] /\ ~ is_word (c :: w)) ->
    (length w <= length w')%nat -> p = p').
  { clear. intros p w p' w' E Hw Hp L. destruct (app_cut _ _ _ _ E L) as (x & -> & ->).
    destruct (list_eq_dec ascii_dec x []) as [->|Nx]; [rewrite app_nil_r; auto|]. exfalso.
    destruct (exists_last Nx) as (y & d & ->). destruct Hp as [Hp|(_ & q & c & Hq & N)].
    - rewrite app_assoc in Hp. destruct (p' ++ y); discriminate.
    - rewrite app_assoc in Hq. apply app_inj_tail in Hq as [_ ->]. apply N. rewrite <- app_assoc in Hw. apply word_suffix in Hw. exact Hw. }
  intros (w & sp & E1 & A1 & B1 & C1) (w' & sp' & E2 & A2 & B2 & C2). rewrite E1 in E2.
  assert (Sp : forall p v z p' v' z', p ++ v ++ z = p' ++ v' ++ z' -> Forall (fun c => isspace c = true) z -> v = [] -> p = [] -> is_word v' ->
     v' = []).
  { clear. intros p v z p' v' z' E Hz -> -> [Hv _]. cbn in E. destruct v' as [|c v']; auto. subst z.
    apply Forall_app in Hz as [_ Hz]. inversion Hz; inversion Hv; congruence. }
  destruct (list_eq_dec ascii_dec w []) as [Ew|Nw].
  - assert (a = []) by (destruct C1 as [|[]]; auto; contradiction).
    assert (w' = []) by (eapply Sp; eauto). destruct C2 as [->|[]]; auto; contradiction.
  - destruct (list_eq_dec ascii_dec w' []) as [Ew'|Nw'].
    + assert (b = []) by (destruct C2 as [|[]]; auto; contradiction). exfalso. apply Nw. symmetry in E2. eapply Sp; eauto.
    + assert (sp = sp').
      { destruct (Nat.le_ge_cases (length sp) (length sp')); [eapply S; eauto|symmetry; symmetry in E2; eapply S; eauto]. }
      subst sp'. rewrite !app_assoc in E2. apply app_inv_tail in E2.
      destruct (Nat.le_ge_cases (length w) (length w')); [eapply G; eauto|symmetry; symmetry in E2; eapply G; eauto].
Qed.
(** ** Keys *)
Lemma sil_T s t : T s t -> T (if fi s && true then set_sil 0 s else s) t.
Proof. intros []. destruct (_ && _); constructor; auto. Qed.
Lemma plain_step m c t t' s : T s t -> ed1 k (Plain c) t t' -> exists s', step k (Key c m None) s = Ok s' /\ T s' t'.
Proof.
  intros H [HV E].
  assert (G : exists z s', vi_insert k c None s = Ok (z, s') /\ (z = 0 \/ z = -1) /\ T s' t').
  { unfold vi_insert. destruct (_ || ceq c cH).
    { destruct (erase_T s t H) as (s' & u & E1 & E2 & E3). rewrite E1. exists 0, s'. rewrite (erased_1 _ _ _ E E3). auto. }
    destruct (is_key (kill k) c).
    { destruct (kill_T s t H) as (s' & E1 & E2). subst t'. exists 0, s'. auto. }
    destruct (is_key (werase k) c).
    { destruct (werase_T s t H) as (s' & u & E1 & E2 & E3). rewrite E1. exists 0, s'. rewrite (werased_1 _ _ _ E E3). auto. }
    destruct E as [[P1 P2] E]. cbn [In] in P1.
    replace (ceq c ESC) with false by (symmetry; apply not_true_is_false; intros X; apply ceq_true in X; intuition congruence).
    cbn [negb]. set (s1 := if _ && true then _ else _). pose proof (sil_T s t H) as H1. fold s1 in H1. clearbody s1.
    replace (is_nul c) with false by (symmetry; apply not_true_is_false; intros X; apply ceq_true in X; intuition congruence).
    replace (ceq c CR) with false by (symmetry; apply not_true_is_false; intros X; apply ceq_true in X; intuition congruence).
    replace (ceq c NL) with false by (symmetry; apply not_true_is_false; intros X; apply ceq_true in X; intuition congruence).
    replace (ceq c cX) with false by (symmetry; apply not_true_is_false; intros X; apply ceq_true in X; intuition congruence).
    replace (ceq c cF) with false by (symmetry; apply not_true_is_false; intros X; apply ceq_true in X; intuition congruence).
    cbn [orb]. replace (ceq c cI && tabc k) with false.
    2: { symmetry. apply not_true_is_false. intros X. apply andb_prop in X as [X Y]. apply ceq_true in X. rewrite (P2 X) in Y. discriminate. }
    destruct (ceq c cE || ceq c cL || ceq c cR); cbn [orb] in E.
    { subst t'. exists 0, s1. auto. }
    destruct (Z.leb_spec (LINE - 1) (Z.of_nat (length t))).
    - subst t'. exists (-1), s1. split; [apply (full_T _ _ t); auto|auto].
    - subst t'. destruct (char_T c s1 t H1) as (s' & E1 & E2); [lia|]. exists 0, s'. auto. }
  destruct G as (z & s' & E1 & Hz & H').
  assert (E2 : hook1 k c None s = brk s').
  { unfold hook1. rewrite (t_vs _ _ H), (t_ins _ _ H). cbn [is_ins]. replace (ceq c cV) with false.
    2: { symmetry. apply not_true_is_false. intros X. apply ceq_true in X. auto. }
    rewrite E1. cbn [bind]. destruct Hz as [-> | ->]; reflexivity. }
  exists s'. split; auto. cbn [step]. rewrite (t_fin _ _ H). unfold vi_hook. rewrite E2. cbn [brk bind]. unfold hook2. rewrite (t_vs _ _ H'). reflexivity.
Qed.
Lemma lit_step m c t t' s : okcfg k -> T s t -> ed1 k (Lit c) t t' -> exists s', run k [Key cV m None; Key c m None] s = Ok s' /\ T s' t'.
Proof.
  intros (K1 & K2 & K3) H (N & L & ->).
  assert (G : exists s1, step k (Key cV m None) s = Ok (set_vs VLIT (setcur (cur (es s1) - 1) s1)) /\ T s1 (t ++ ["^"%char])).
  { pose proof (sil_T s t H) as H1. destruct (char_T "^"%char _ t H1 L) as (s1 & E1 & E2). exists s1. split; auto.
    assert (E3 : vi_insert k "^" None s = Ok (0, s1)).
    { unfold vi_insert. rewrite K1, K2, K3. destruct (tabc k); exact E1. }
    cbn [step]. rewrite (t_fin _ _ H). unfold vi_hook, hook1. rewrite (t_vs _ _ H), (t_ins _ _ H). cbn [is_ins].
    replace (ceq cV cV) with true by reflexivity. cbv zeta iota. rewrite E3. reflexivity. }
  destruct G as (s1 & E1 & H1). cbn [run]. rewrite E1. cbn [bind]. destruct (t_buf _ _ H1) as [r Er].
  rewrite <- app_assoc in Er. cbn [app] in Er.
  assert (C1 : cur (es s1) - 1 = Z.of_nat (length t)) by (rewrite (t_cur _ _ H1), app_length; cbn; lia).
  assert (Hb : is_bad c = false).
  { assert (Q : forall c, implb (is_bad c) (ceq c NUL || ceq c "128") = true) by (apply char_sweep; vm_compute; reflexivity).
    specialize (Q c). destruct (is_bad c); auto. cbn [implb] in Q. exfalso. apply N. apply orb_prop in Q as [Q|Q]; apply ceq_true in Q; subst; cbn; auto. }
  eexists. split.
  - cbn [step]. change (fin (set_vs VLIT (setcur (cur (es s1) - 1) s1))) with (fin s1). rewrite (t_fin _ _ H1).
    unfold vi_hook, hook1. cbn [vs set_vs]. unfold setcur. cbn [es set_vs set_es cur set_cur buf len]. rewrite Hb, C1, Er, wr_app. cbn [bind brk]. reflexivity.
  - destruct H1. rewrite app_length in *. cbn [length] in *. constructor; cbn; rewrite ?app_length; cbn [length]; auto; try lia.
    + exists r. rewrite <- app_assoc. reflexivity.
    + rewrite Er, app_length in t_size0. cbn [length] in t_size0. lia.
Qed.
Lemma run_app a : forall b s, run k (a ++ b) s = let! s := run k a s in run k b s.
Proof. induction a as [|v a IH]; intros b s; cbn [app run bind]; auto. destruct (step k v s); cbn [bind]; auto. Qed.
Lemma typing_T m l t u : okcfg k -> edits k l t u -> forall s, T s t -> exists s', run k (typing m l) s = Ok s' /\ T s' u.
Proof.
  intros K. induction 1 as [t|i l t t' u E _ IH]; intros s H; [exists s; auto|].
  unfold typing. cbn [flat_map]. fold (typing m l). rewrite run_app.
  assert (G : exists s1, run k (item_keys m i) s = Ok s1 /\ T s1 t').
  { destruct i as [c|c]; [|apply (lit_step m c t); auto].
    destruct (plain_step m c t t' s H E) as (s1 & E1 & H1). exists s1. cbn [item_keys run]. rewrite E1. auto. }
  destruct G as (s1 & -> & H1). cbn [bind]. apply IH; auto.
Qed.
Lemma enter_T c m s t : T s t -> c = CR \/ c = NL -> not_editing k c -> exists s', step k (Key c m None) s = Ok s' /\ fin s' = true /\ line s' = t.
Proof.
  intros H Hc (N1 & N2 & N3).
  assert (E : vi_insert k c None s = Ok (1, if fi s && true then set_sil 0 s else s)).
  { unfold vi_insert. rewrite N1, N2, N3. destruct Hc as [-> | ->]; reflexivity. }
  eexists. split.
  - cbn [step]. rewrite (t_fin _ _ H). unfold vi_hook, hook1. rewrite (t_vs _ _ H), (t_ins _ _ H). cbn [is_ins].
    replace (ceq c cV) with false by (destruct Hc as [-> | ->]; reflexivity). rewrite E. cbn [bind Z.eqb Pos.eqb ret]. reflexivity.
  - split; [reflexivity|]. unfold line.
    change (firstn (Z.to_nat (len (es (if fi s && true then set_sil 0 s else s)))) (buf (es (if fi s && true then set_sil 0 s else s))) = t).
    destruct (sil_T s t H). rewrite t_len0, Nat2Z.id. destruct t_buf0 as [r ->]. rewrite firstn_app, Nat.sub_diag, firstn_all. cbn. apply app_nil_r.
Qed.
Lemma start_T b h n s : Z.of_nat (length b) = LINE -> Z.of_nat (length (ib s)) = LINE -> T (vi_reset b h n s) [].
Proof. intros A B. constructor; cbn; auto; try lia; [exists b; auto|reflexivity]. Qed.
End P.
