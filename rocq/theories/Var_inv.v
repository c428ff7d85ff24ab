(** Variables: the invariants behind C11, C12 and C14. *)
From Verif Require Import Base Num_model SimplifyPath_model Printf_model Justify_model Arith_model Var_model Var_spec Var_proof.
Local Open Scope Z_scope.

(** ** Well-formed tables *)
Lemma wf_put st k n e : wf st -> wf_ent n e -> wf (put st k n e).
Proof.
  intros [Hn Hw] He. split.
  - intros H. apply Hn. apply length_zero_iff_nil. rewrite <- (length_put st k n e), H. reflexivity.
  - intros j m x. rewrite entry_put. destruct (Nat.eqb_spec j k) as [->|]; cbn [andb]; [|apply Hw].
    destruct (str_eqb_spec n m) as [->|]; cbn [andb]; [|apply Hw]. destruct (_ <? _)%nat; [congruence|apply Hw].
Qed.
Lemma wf_fresh n : wf_ent n fresh.
Proof. split; [exact I|]. intros [H|H]; [discriminate|cbn in H; congruence]. Qed.
Lemma wf_entry st k n e : wf st -> entry st k n = Some e -> wf_ent n e.
Proof. intros [_ H]. apply H. Qed.
Lemma wf_arraysearch n e v : wf_ent n e -> subok (Some v) n -> wf_ent n (arraysearch e v).
Proof.
  intros [A B] [Hv Hn]. split; [|auto]. unfold arraysearch. cbn [e_elems]. destruct (Z.eqb_spec v 0); [assumption|].
  apply as_ins_increasing; [lia|assumption].
Qed.
Lemma wf_put_t n e i t t' : wf_ent n e -> get_t e i = Some t -> t_index t' = t_index t -> (on t' ARRAY = true -> on t ARRAY = true) -> wf_ent n (put_t e i t').
Proof.
  intros [A B] Hg Hi Ha. unfold get_t, put_t in *. destruct (Z.eqb_spec i 0) as [->|Hne]; split; cbn [e_elems e_base].
  - assumption.
  - injection Hg as <-. intros [H|H]; auto.
  - apply put_elem_increasing; [|assumption]. rewrite Hi. eapply find_elem_index; eauto.
  - intros [H|H]; [auto|]. apply B. right. intros X. apply H. rewrite X. reflexivity.
Qed.
Lemma wf_write st k n e i t t' : wf st -> entry st k n = Some e -> get_t e i = Some t -> wrel t t' -> wf (put st k n (put_t e i t')).
Proof.
  intros Hw He Hg (A & B & C). apply wf_put; [assumption|]. eapply wf_put_t; eauto using wf_entry; congruence.
Qed.
Lemma wf_define n e i : wf_ent n e -> wf_ent n (match get_t e i with Some t => put_t e i (define_t t) | None => e end).
Proof.
  intros H. destruct (get_t e i) eqn:G; [|assumption]. eapply wf_put_t; eauto. fl. auto.
Qed.
Lemma wf_look st k n st' : wf st -> looked st k n st' -> wf st'.
Proof.
  intros Hw H. destruct H as [k n e Hl He|k n e v Hl He Hb|k n e v Hk Hne Hb Hu He]; [assumption| |].
  - apply wf_put; [assumption|]. apply wf_arraysearch; eauto using wf_entry.
  - assert (wf_ent n e) as He'.
    { subst e. destruct (entry st k n) eqn:E; [eauto using wf_entry|apply wf_fresh]. }
    apply wf_put; [assumption|]. destruct v as [v|].
    + cbn beta. apply wf_define, wf_arraysearch; auto.
    + destruct He' as [A B]. split; [exact A|]. cbn [e_base e_elems]. fl. exact B.
Qed.
Lemma wf_local st n copy sub r st' : wf st -> subok sub n -> local_at st n copy sub = (r, st') -> wf st'.
Proof.
  intros Hw Hs. unfold local_at. destruct n as [|c n']; [intros [= <- <-]; assumption|]. destruct st as [|b st]; [intros [= <- <-]; assumption|].
  destruct (letter c); [|intros [= <- <-]; assumption]. set (n := c :: n') in *.
  set (e1 := if copy && _ then _ else ktenter b n).
  assert (wf_ent n e1) as H1.
  { assert (wf_ent n (ktenter b n)) as H0.
    { unfold ktenter. destruct (look b n) as [e|] eqn:E; [|apply wf_fresh]. apply (wf_entry _ O n e Hw). exact E. }
    unfold e1. destruct (copy && _); [|assumption]. destruct (outer (b :: st) n) as [q|]; [|assumption].
    destruct H0 as [A B]. split; [exact A|]. cbn [e_base e_elems copy_attr]. unfold on, copy_attr. cbn [t_flag].
    rewrite any_lor, any_land by auto with bits. change (any COPIED ARRAY) with false. rewrite andb_false_r, orb_false_r. exact B. }
  clearbody e1. intros [= <- <-]. apply wf_put; [assumption|]. destruct sub as [v|].
  - apply wf_define, wf_arraysearch; auto.
  - apply wf_define. assumption.
Qed.
Lemma unset_put st k n i b : exists e', unset st (RVar k n i) b = put st k n e' \/ unset st (RVar k n i) b = st.
Proof.
  unfold unset. destruct (deref st (RVar k n i)) as [t|] eqn:D; [|exists fresh; auto].
  destruct (deref_some _ _ _ D) as (k' & n' & i' & e & [= <- <- <-] & He & Hg & HA).
  destruct (_ && _); [eauto|]. rewrite HA. eauto.
Qed.
Lemma wf_unset st k n i b : wf st -> wf (unset st (RVar k n i) b).
Proof.
  intros Hw. unfold unset. destruct (deref st (RVar k n i)) as [t|] eqn:D; [|assumption].
  destruct (deref_some _ _ _ D) as (k' & n' & i' & e & [= <- <- <-] & He & Hg & HA).
  set (f := N.land (t_flag t) _).
  assert (any f ARRAY = true -> on t ARRAY = true) as Hf.
  { unfold f, on. rewrite any_land by auto with bits. intros X. apply andb_true_iff in X. apply X. }
  destruct (on t ARRAY && negb b) eqn:E.
  - apply wf_put; [assumption|]. split; [exact I|]. cbn [e_base e_elems]. intros [H|H]; [|congruence].
    apply andb_true_iff in E. destruct E as [E _]. apply (wf_entry _ _ _ _ Hw He). unfold get_t in Hg. destruct (i =? 0); [left; congruence|].
    right. intros X. rewrite X in Hg. discriminate.
  - rewrite HA. apply wf_put; [assumption|]. eapply wf_put_t; eauto using wf_entry.
Qed.
Lemma wf_mark st k n e i t set : wf st -> entry st k n = Some e -> get_t e i = Some t -> N.ldiff set EXPORT = 0%N ->
  wf (put st k n (put_t e i (set_flag t (N.lor (t_flag t) set)))).
Proof.
  intros Hw He Hg Hs. eapply wf_write; eauto. apply wrel_flag; fl.
  - rewrite (any_ldiff0 set EXPORT ARRAY) by (auto with bits; reflexivity). apply orb_false_r.
  - rewrite (any_ldiff0 set EXPORT DEFINED) by (auto with bits; reflexivity). apply orb_false_r.
Qed.

Section S.
Variable ev : vars -> cstr -> list asn * evres.
Variable fuel : nat.

Lemma wf_export st k n e s : wf st -> entry st k n = Some e -> wf (put st k n (put_t e 0 (export n (e_base e) s))).
Proof. intros Hw He. eapply (wf_write _ _ _ _ 0 (e_base e)); eauto. apply wrel_export. Qed.
Lemma wf_step st o : wf st -> okop o = true -> okO wf (step ev fuel st o).
Proof.
  intros Hw Hok.
  assert (o <> NewBlock -> o <> PopBlock -> okO wf (step ev fuel st o)) as H.
  { intros Hn Hp. apply (walk_step ev fuel wf (fun _ _ => True) (fun _ _ => True)) with (Un := fun _ => True); auto.
    - eauto using wf_look.
    - eauto using wf_write.
    - eauto using wf_mark.
    - eauto using wf_export.
    - eauto using wf_local.
    - eauto using wf_unset.
    - intros. apply wf_put; [eauto using wf_unset|]. apply wf_arraysearch; [eauto using wf_entry, wf_unset|split; [lia|assumption]].
    - intros. apply wf_put; [assumption|]. apply wf_arraysearch; eauto using wf_entry.
    - intros. eapply wf_write; eauto. apply wrel_field. }
  destruct o; try (apply H; discriminate).
  - cbn. split; [discriminate|]. intros [|k] n e; [discriminate|]. apply Hw.
  - cbn. destruct Hw as [Hn Hw]. destruct st as [|b [|b' st]]; cbn [popblock]; [congruence|split; [discriminate|exact Hw]|].
    split; [discriminate|]. intros k n e X. apply (Hw (S k) n e X).
Qed.

End S.

(** ** Values *)
Lemma formatstr_refield f s p w : formatstr f s = Ok (p, w) ->
  formatstr (JFlags (j_rjust f) (j_ljust f) (j_zerofil f) (j_ucase f) (j_lcase f) w) s = Ok (p, w).
Proof.
  intros H. assert (w = if j_rjust f || j_ljust f then field_of f s else j_field f) as Hw.
  { unfold formatstr in H. destruct (if j_rjust f || j_ljust f then if j_rjust f then _ else _ else _) as [q| |] eqn:E; cbn [bind] in H; congruence. }
  rewrite <- H. unfold formatstr. cbn [j_rjust j_ljust j_zerofil j_ucase j_lcase j_field].
  destruct (j_rjust f || j_ljust f) eqn:J.
  - assert (field_of (JFlags (j_rjust f) (j_ljust f) (j_zerofil f) (j_ucase f) (j_lcase f) w) s = field_of f s) as ->; [|reflexivity].
    unfold field_of in *. cbn [j_field]. subst w. destruct (Z.eqb_spec (j_field f) 0) as [E|E].
    + destruct (Z.eqb_spec (strlen s) 0); reflexivity.
    + destruct (Z.eqb_spec (j_field f) 0); [congruence|reflexivity].
  - subst w. reflexivity.
Qed.
Lemma text_field t s w : str_val t = Ok (s, w) -> text (set_field t w) = text t.
Proof.
  intros H. unfold text. rewrite H. unfold str_val in *. unfold on in *. cbn [set_field t_flag t_type t_val t_index t_field] in *.
  destruct (any (t_flag t) ISSET); cbn [negb] in *; [|congruence].
  destruct (any (t_flag t) INTEGER); cbn [negb] in *.
  - destruct (t_val t); try discriminate. destruct (str_val_int _ _ _ z) as [x| |]; cbn [bind] in *; try discriminate.
    destruct (any (t_flag t) (N.lor RJUST LJUST)); [|congruence]. apply formatstr_refield in H.
    unfold jf in *. cbn [j_rjust j_ljust j_zerofil j_ucase j_lcase] in H. unfold on in *. cbn [set_field t_flag t_field]. rewrite H. reflexivity.
  - destruct (t_val t); try discriminate. destruct (_ && _); [|discriminate]. congruence.
Qed.
(** the bits that str_val looks at *)
Definition SV : N := N.lor ISSET (N.lor INTEGER (N.lor UCASEV_AL (N.lor INT_U (N.lor RJUST (N.lor LJUST (N.lor ZEROFIL LCASEV)))))).
Lemma str_val_flag t f i : N.land f SV = N.land (t_flag t) SV -> str_val (Tbl f (t_type t) (t_val t) i (t_field t)) = str_val t.
Proof.
  intros H. assert (forall m, N.land SV m = m -> any f m = any (t_flag t) m) as Hm.
  { intros m E. unfold any. rewrite <- E, !N.land_assoc, H. reflexivity. }
  unfold str_val, on, jf, on. cbn [t_flag t_type t_val t_field].
  rewrite (Hm ISSET), (Hm INTEGER), (Hm UCASEV_AL), (Hm INT_U), (Hm (N.lor RJUST LJUST)), (Hm RJUST), (Hm LJUST), (Hm ZEROFIL), (Hm LCASEV) by reflexivity.
  reflexivity.
Qed.
Lemma text_flag t f i : N.land f SV = N.land (t_flag t) SV -> text (Tbl f (t_type t) (t_val t) i (t_field t)) = text t.
Proof. intros H. unfold text. rewrite str_val_flag by assumption. reflexivity. Qed.
Lemma SV_lor f m : N.land m SV = 0%N -> N.land (N.lor f m) SV = N.land f SV.
Proof. intros H. rewrite N.land_lor_distr_l, H. apply N.lor_0_r. Qed.
Lemma SV_isset f t : N.land f SV = N.land (t_flag t) SV -> any f ISSET = on t ISSET.
Proof. intros H. unfold on, any. change ISSET with (N.land SV ISSET) at 1 2. rewrite !N.land_assoc, H. reflexivity. Qed.

Lemma valof_put e i t t' : get_t e i = Some t -> t_index t' = t_index t -> on t' ISSET = on t ISSET ->
  (on t ISSET = true -> text t' = text t) -> forall j, valof (put_t e i t') j = valof e j.
Proof.
  intros Hg Hi Hs Ht j. unfold valof. rewrite (get_put_t _ _ _ _ _ Hg Hi). destruct (Z.eqb_spec i j) as [->|]; [|reflexivity].
  rewrite Hg, Hs. destruct (on t ISSET) eqn:E; [rewrite Ht by reflexivity|]; reflexivity.
Qed.
Lemma valof_arraysearch e v j : increasing 0 (e_elems e) -> valof (arraysearch e v) j = valof e j.
Proof.
  intros H. unfold valof, get_t, arraysearch. cbn [e_base e_elems]. destruct (Z.eqb_spec j 0) as [->|Hj].
  - assert (on (set_index (set_flag (e_base e) (N.lor (t_flag (e_base e)) (N.lor ARRAY DEFINED))) 0) ISSET = on (e_base e) ISSET) as -> by (fl; reflexivity).
    destruct (on (e_base e) ISSET); [|reflexivity]. f_equal. unfold set_index, set_flag. cbn [t_flag t_type t_val t_index t_field]. apply text_flag. apply SV_lor. reflexivity.
  - destruct (v =? 0); [reflexivity|]. rewrite (find_as_ins _ _ _ 0) by assumption. destruct (Z.eqb_spec v j) as [->|]; [|reflexivity].
    destruct (find_elem (e_elems e) j) as [c|].
    + destruct (on c ISSET) eqn:E; [rewrite E; reflexivity|].
      assert (on (as_new (set_index (set_flag (e_base e) (N.lor (t_flag (e_base e)) (N.lor ARRAY DEFINED))) 0) j (t_val c)) ISSET = false) as ->; [|reflexivity].
      unfold as_new, as_flag. fl. reflexivity.
    + assert (on (as_new (set_index (set_flag (e_base e) (N.lor (t_flag (e_base e)) (N.lor ARRAY DEFINED))) 0) j VNone) ISSET = false) as ->; [|reflexivity].
      unfold as_new, as_flag. fl. reflexivity.
Qed.

(** ** Read-only variables *)
Lemma readonly_elem e i t : readonly e -> get_t e i = Some t -> on t RDONLY = true.
Proof.
  intros (_ & B & C). unfold get_t. destruct (i =? 0); [congruence|]. intros H. rewrite Forall_forall in C. apply C.
  clear - H. induction (e_elems e) as [|x l IH]; cbn in *; [discriminate|]. destruct (t_index x =? i); [left; congruence|right; auto].
Qed.
Lemma readonly_arraysearch e v : readonly e -> readonly (arraysearch e v).
Proof.
  intros (A & B & C). unfold readonly, arraysearch. cbn [e_base e_elems]. unfold on in *. cbn [t_flag set_flag set_index].
  rewrite !any_lor, A, B. split; [reflexivity|]. split; [reflexivity|]. destruct (v =? 0); [assumption|].
  set (vp := set_index _ 0). assert (on vp RDONLY = true) as Hv. { unfold vp, on. cbn [t_flag set_flag set_index]. rewrite any_lor, B. reflexivity. }
  clearbody vp. assert (forall o, on (as_new vp v o) RDONLY = true) as Hnew.
  { intros o. unfold as_new, as_flag. fl. exact Hv. }
  induction C as [|c l Hc Hl IH]; cbn [as_ins]; [repeat constructor; apply Hnew|].
  destruct (t_index c <? v); [constructor; auto|]. destruct (t_index c =? v); [|repeat constructor; auto; apply Hnew].
  constructor; [|assumption]. destruct (on c ISSET); [exact Hc|apply Hnew].
Qed.
Lemma readonly_put e i t t' : readonly e -> get_t e i = Some t -> on t' RDONLY = true -> (on t DEFINED = true -> on t' DEFINED = true) -> readonly (put_t e i t').
Proof.
  intros (A & B & C) Hg Hr Hd. unfold get_t, put_t in *. destruct (i =? 0).
  - injection Hg as <-. repeat split; cbn; auto.
  - repeat split; cbn; auto. clear Hg. induction C as [|c l Hc Hl IH]; cbn; [constructor|]. destruct (t_index c =? i); constructor; auto.
Qed.

Lemma skipn_export n s : skipn (Z.to_nat (strlen n + 1)) (n ++ "="%char :: s) = s.
Proof.
  unfold strlen. replace (Z.to_nat (Z.of_nat (length n) + 1)) with (S (length n)) by lia.
  induction n as [|c n IH]; cbn [length app skipn]; [reflexivity|assumption].
Qed.
Lemma text_export n t s : on t ISSET = true -> on t INTEGER = false -> text (export n t s) = Ok s.
Proof.
  intros A B. unfold text, str_val, export, on in *. cbn [t_flag t_type t_val t_field]. rewrite !any_lor, A, B.
  change (any ALLOC INTEGER) with false. cbn [orb negb].
  assert ((0 <=? strlen n + 1) && (strlen n + 1 <=? strlen (n ++ "="%char :: s)) = true) as ->.
  { unfold strlen. rewrite app_length. cbn [length]. lia. }
  rewrite skipn_export. reflexivity.
Qed.

Lemma valof_define e i : forall j, valof (match get_t e i with Some t => put_t e i (define_t t) | None => e end) j = valof e j.
Proof.
  intros j. destruct (get_t e i) as [t|] eqn:G; [|reflexivity]. apply (valof_put _ _ _ _ G); [reflexivity|fl; reflexivity|].
  intros _. unfold define_t, set_flag. apply text_flag. apply SV_lor. reflexivity.
Qed.
Lemma readonly_define e i : readonly e -> readonly (match get_t e i with Some t => put_t e i (define_t t) | None => e end).
Proof.
  intros H. destruct (get_t e i) as [t|] eqn:G; [|assumption]. eapply readonly_put; eauto; fl; [eapply readonly_elem; eauto|auto].
Qed.

Section RO.
Variables (k0 : nat) (n0 : cstr) (e0 : ent) (len0 : nat).
Definition inst (st : vars) : Prop := wf st /\ length st = len0 /\
  exists e, entry st k0 n0 = Some e /\ readonly e /\ forall i, valof e i = valof e0 i.
Definition elsewhere (k : nat) (n : cstr) : Prop := (k, n) <> (k0, n0).

Lemma inst_other st k n e : inst st -> elsewhere k n -> wf (put st k n e) -> inst (put st k n e).
Proof.
  intros (A & B & x & C & D & E) Hn Hw. split; [assumption|]. rewrite length_put. split; [assumption|]. exists x.
  rewrite entry_put_other by (intros X; apply Hn; congruence). auto.
Qed.
Lemma inst_same st e : inst st -> (forall x, entry st k0 n0 = Some x -> readonly x -> readonly e /\ forall i, valof e i = valof x i) ->
  wf (put st k0 n0 e) -> inst (put st k0 n0 e).
Proof.
  intros (A & B & x & C & D & E) H Hw. split; [assumption|]. rewrite length_put. split; [assumption|]. exists e.
  rewrite entry_put_same by (eapply entry_some; eauto). destruct (H _ C D) as [R V]. split; [reflexivity|]. split; [assumption|].
  intros i. rewrite V. apply E.
Qed.
Lemma here_dec (k : nat) (n : cstr) : elsewhere k n \/ (k = k0 /\ n = n0).
Proof.
  unfold elsewhere. destruct (Nat.eq_dec k k0), (list_eq_dec ascii_dec n n0); subst; auto; left; congruence.
Qed.
Lemma inst_W st k n i : inst st -> rd_only st (RVar k n i) = false -> elsewhere k n.
Proof.
  intros (A & B & x & C & D & E) H [= -> ->]. unfold rd_only, deref in H. rewrite C in H.
  destruct (get_t x i) eqn:G; [|discriminate]. rewrite (readonly_elem _ _ _ D G) in H. discriminate.
Qed.
Lemma inst_array st k n e v : inst st -> subok (Some v) n -> entry st k n = Some e -> inst (put st k n (arraysearch e v)).
Proof.
  intros HI Hs He. assert (wf (put st k n (arraysearch e v))) as Hw.
  { apply wf_put; [apply HI|]. apply wf_arraysearch; [|assumption]. eapply wf_entry; eauto. apply HI. }
  destruct (here_dec k n) as [|[-> ->]]; [apply inst_other; auto|]. apply inst_same; auto. intros x Hx Hr.
  assert (x = e) as -> by congruence. split; [apply readonly_arraysearch; assumption|]. intros i. apply valof_arraysearch.
  apply (wf_entry _ _ _ _ (proj1 HI) He).
Qed.
Lemma inst_look st k n st' : inst st -> looked st k n st' -> inst st'.
Proof.
  intros HI H. pose proof (wf_look _ _ _ _ (proj1 HI) H) as Hw.
  destruct H as [k n e Hl He|k n e v Hl He Hb|k n e v Hk Hne Hb Hu He]; [assumption|eapply inst_array; eauto|].
  apply inst_other; auto. intros [= -> ->]. destruct HI as (_ & _ & x & C & (D & _) & _). rewrite (Hu _ _ C) in D. discriminate.
Qed.
Lemma inst_put_t st k n e i t t' : inst st -> entry st k n = Some e -> get_t e i = Some t -> wrel t t' ->
  (on t RDONLY = true -> on t' RDONLY = true) -> on t' ISSET = on t ISSET -> (on t ISSET = true -> text t' = text t) ->
  inst (put st k n (put_t e i t')).
Proof.
  intros HI He Hg Hw Hr Hs Ht. assert (wf (put st k n (put_t e i t'))) by (eapply wf_write; eauto; apply HI).
  destruct (here_dec k n) as [|[-> ->]]; [apply inst_other; auto|]. apply inst_same; auto. intros x Hx Hro.
  assert (x = e) as -> by congruence. destruct Hw as (W1 & W2 & W3). split.
  - apply (readonly_put _ _ _ _ Hro Hg); [apply Hr; eapply readonly_elem; eauto|congruence].
  - apply (valof_put _ _ _ _ Hg); auto.
Qed.
Lemma ldiff_EXPORT_SV set : N.ldiff set EXPORT = 0%N -> N.land set SV = 0%N.
Proof.
  intros H. apply N.bits_inj_0. intros i. rewrite N.land_spec.
  assert (N.testbit (N.ldiff set EXPORT) i = false) as X by (rewrite H; apply N.bits_0). rewrite N.ldiff_spec in X.
  destruct (N.testbit set i); [|reflexivity]. cbn [andb] in *. apply negb_false_iff in X.
  assert (N.testbit (N.land EXPORT SV) i = false) as Y by apply N.bits_0. rewrite N.land_spec, X in Y. exact Y.
Qed.
Lemma inst_mark st k n e i t set : inst st -> entry st k n = Some e -> get_t e i = Some t -> N.ldiff set EXPORT = 0%N ->
  inst (put st k n (put_t e i (set_flag t (N.lor (t_flag t) set)))).
Proof.
  intros HI He Hg Hs. pose proof (ldiff_EXPORT_SV _ Hs) as HSV. eapply inst_put_t; eauto.
  - apply wrel_flag; fl; rewrite (any_ldiff0 set EXPORT) by (auto with bits; reflexivity); apply orb_false_r.
  - fl. intros ->. reflexivity.
  - apply SV_isset. apply SV_lor. assumption.
  - intros _. unfold set_flag. apply text_flag. apply SV_lor. assumption.
Qed.
Lemma inst_export st k n e s : inst st -> entry st k n = Some e -> on (e_base e) EXPORT = true -> on (e_base e) INTEGER = false ->
  t_type (e_base e) = 0 -> (if on (e_base e) ISSET then t_val (e_base e) = VStr s else s = []) ->
  inst (put st k n (put_t e 0 (export n (e_base e) s))).
Proof.
  intros HI He Hx Hi Ht Hs. eapply (inst_put_t _ _ _ _ 0 (e_base e)); eauto.
  - apply wrel_export.
  - unfold export. fl. auto.
  - unfold export. fl. reflexivity.
  - intros X. rewrite X in Hs. rewrite text_export by assumption. unfold text, str_val. rewrite X, Hi, Hs, Ht. cbn [negb].
    assert ((0 <=? 0) && (0 <=? strlen s) = true) as -> by (unfold strlen; lia). reflexivity.
Qed.
Lemma inst_field st k n e i t s w : inst st -> entry st k n = Some e -> get_t e i = Some t -> str_val t = Ok (s, w) ->
  inst (put st k n (put_t e i (set_field t w))).
Proof.
  intros HI He Hg Hs. eapply inst_put_t; eauto; [apply wrel_field|]. intros _. eapply text_field; eauto.
Qed.
Lemma inst_local st n copy sub r st' : inst st -> subok sub n -> local_at st n copy sub = (r, st') -> inst st'.
Proof.
  intros HI Hs HL. pose proof (wf_local _ _ _ _ _ _ (proj1 HI) Hs HL) as Hw. revert HL. unfold local_at.
  destruct n as [|c n']; [intros [= <- <-]; assumption|]. destruct st as [|b st]; [intros [= <- <-]; assumption|].
  destruct (letter c); [|intros [= <- <-]; assumption]. set (n := c :: n') in *.
  intros [= <- <-]. destruct (here_dec O n) as [|[E1 E2]]; [apply inst_other; auto|]. rewrite E1, E2 in *. apply inst_same; auto.
  intros x Hx Hr. assert (ktenter b n0 = x) as ->. { unfold ktenter. rewrite <- E1 in Hx. unfold entry in Hx. cbn in Hx. rewrite Hx. reflexivity. }
  assert (on (e_base x) DEFINED = true) as -> by apply Hr. rewrite andb_false_r.
  assert (increasing 0 (e_elems x)) as Hinc. { apply (wf_entry _ _ _ _ (proj1 HI) Hx). }
  destruct sub as [v|].
  - split; [apply readonly_define, readonly_arraysearch; assumption|]. intros i. rewrite valof_define. apply valof_arraysearch. assumption.
  - split; [apply readonly_define; assumption|]. intros i. apply valof_define.
Qed.
Lemma inst_unset st k n i b : inst st -> elsewhere k n -> inst (unset st (RVar k n i) b).
Proof.
  intros HI Hn. pose proof (wf_unset st k n i b (proj1 HI)) as Hw. destruct (unset_put st k n i b) as (e' & [E|E]); rewrite E in *; [|assumption].
  apply inst_other; auto.
Qed.
Variable ev : vars -> cstr -> list asn * evres.
Variable fuel : nat.
Lemma inst_step st o : inst st -> okop o = true -> o <> NewBlock -> o <> PopBlock -> okO inst (step ev fuel st o).
Proof.
  intros HI Hok Hn Hp. apply (walk_step ev fuel inst elsewhere (fun _ _ => True)) with (Un := fun _ => True); auto.
  - intros s H. apply H.
  - eauto using inst_look.
  - eauto using inst_W.
  - intros. apply inst_other; auto. eapply wf_write; eauto. apply H.
  - eauto using inst_mark.
  - eauto using inst_export.
  - eauto using inst_local.
  - eauto using inst_unset.
  - intros. apply inst_other; [apply inst_unset; auto|assumption|]. apply wf_put; [apply wf_unset, H|].
    apply wf_arraysearch; [eapply wf_entry; eauto; apply wf_unset, H|split; [lia|assumption]].
  - intros. apply inst_array; auto.
  - eauto using inst_field.
Qed.
End RO.

(** ** Shadowing: n0 is defined at k0, the outer blocks are not touched *)
Section SH.
Variables (k0 : nat) (n0 : cstr) (len0 : nat) (out0 : nat -> option ent).
Definition shad (st : vars) : Prop := wf st /\ length st = len0 /\
  (exists e, entry st k0 n0 = Some e /\ on (e_base e) DEFINED = true) /\ forall k, (k0 < k)%nat -> entry st k n0 = out0 k.
Definition inside (k : nat) (n : cstr) : Prop := n = n0 -> (k <= k0)%nat.
Lemma shad_V st k n : shad st -> resolved st k n -> inside k n.
Proof.
  intros (_ & _ & (e & He & Hd) & _) [_ Hr] ->. destruct (Nat.le_gt_cases k k0) as [|H]; [assumption|].
  specialize (Hr _ H _ He). congruence.
Qed.
Lemma shad_put st k n e x : shad st -> inside k n -> wf (put st k n e) -> entry st k n = Some x ->
  (on (e_base x) DEFINED = true -> on (e_base e) DEFINED = true) -> shad (put st k n e).
Proof.
  intros (A & B & (y & He & Hd) & C) Hi Hw Hx HD. split; [assumption|]. rewrite length_put. split; [assumption|]. split.
  - destruct (here_dec k0 n0 k n) as [H|[-> ->]].
    + exists y. rewrite entry_put_other by (intros X; apply H; congruence). auto.
    + exists e. rewrite entry_put_same by (eapply entry_some; eauto). split; [reflexivity|]. apply HD. congruence.
  - intros j Hj. rewrite entry_put_other; [auto|]. intros [= X Y]. specialize (Hi (eq_sym Y)). lia.
Qed.
Lemma shad_put_t st k n e i t t' : shad st -> inside k n -> entry st k n = Some e -> get_t e i = Some t -> wrel t t' -> shad (put st k n (put_t e i t')).
Proof.
  intros HS Hi He Hg Hw. eapply shad_put; eauto; [eapply wf_write; eauto; apply HS|]. destruct Hw as (W1 & W2 & W3).
  unfold put_t, get_t in *. destruct (i =? 0); cbn; [congruence|auto].
Qed.
Lemma shad_array st k n e v : shad st -> inside k n -> subok (Some v) n -> entry st k n = Some e -> shad (put st k n (arraysearch e v)).
Proof.
  intros HS Hi Hs He. eapply shad_put; eauto.
  - apply wf_put; [apply HS|]. apply wf_arraysearch; [|assumption]. eapply wf_entry; eauto. apply HS.
  - intros _. apply arraysearch_defined.
Qed.
Lemma shad_look st k n st' : shad st -> looked st k n st' -> shad st'.
Proof.
  intros HI H. pose proof (wf_look _ _ _ _ (proj1 HI) H) as Hw.
  destruct H as [k n e Hl He|k n e v Hl He Hb|k n e v Hk Hne Hb Hu He]; [assumption| |].
  - apply shad_array; auto. eapply shad_V; [eassumption|apply Hl].
  - assert (n <> n0) as Hn. { intros ->. destruct HI as (_ & _ & (x & Hx & Hd) & _). rewrite (Hu _ _ Hx) in Hd. discriminate. }
    destruct HI as (A & B & (y & Hy & Hd) & C). split; [assumption|]. rewrite length_put. split; [assumption|]. split.
    + exists y. rewrite entry_put_other by congruence. auto.
    + intros j Hj. rewrite entry_put_other by congruence. auto.
Qed.
Lemma shad_local st n copy sub r st' : shad st -> subok sub n -> local_at st n copy sub = (r, st') -> shad st'.
Proof.
  intros HI Hs HL. pose proof (wf_local _ _ _ _ _ _ (proj1 HI) Hs HL) as Hw. pose proof (local_at_located _ _ _ _ _ _ HL) as HX. revert HL. unfold local_at.
  destruct n as [|c n']; [intros [= <- <-]; assumption|]. destruct st as [|b st]; [intros [= <- <-]; assumption|].
  destruct (letter c); [|intros [= <- <-]; assumption]. set (n := c :: n') in *.
  intros [= <- <-]. set (e' := match get_t _ _ with Some _ => _ | None => _ end) in *. clearbody e'.
  destruct HI as (A & B & (y & Hy & Hd) & C). split; [assumption|]. rewrite length_put. split; [assumption|]. split.
  - destruct (here_dec k0 n0 O n) as [H|[E1 E2]].
    + exists y. rewrite entry_put_other by (intros X; apply H; congruence). auto.
    + rewrite <- E1, <- E2. destruct HX as (_ & _ & (_ & x) & _). exact x.
  - intros j Hj. rewrite entry_put_other by (intros [= X Y]; lia). auto.
Qed.
Lemma shad_unset_other st k n e : shad st -> n <> n0 -> wf (put st k n e) -> shad (put st k n e).
Proof.
  intros (A & B & (y & Hy & Hd) & C) Hn Hw. split; [assumption|]. rewrite length_put. split; [assumption|]. split.
  - exists y. rewrite entry_put_other by congruence. auto.
  - intros j Hj. rewrite entry_put_other by congruence. auto.
Qed.
Variable ev : vars -> cstr -> list asn * evres.
Variable fuel : nat.
Lemma shad_step st o : shad st -> okop o = true -> o <> NewBlock -> o <> PopBlock -> (forall m, unsets o m -> m <> n0) -> okO shad (step ev fuel st o).
Proof.
  intros HI Hok Hn Hp HU. apply (walk_step ev fuel shad inside inside) with (Un := fun m => m <> n0); auto.
  - intros s H. apply H.
  - eauto using shad_look.
  - eauto using shad_V.
  - intros s k n i H R _. eapply shad_V; eauto.
  - eauto using shad_put_t.
  - intros s k n e i t set H V He Hg Hs. apply (shad_put_t _ _ _ _ _ t); auto. apply wrel_flag; fl.
    + rewrite (any_ldiff0 set EXPORT ARRAY) by (auto with bits; reflexivity). apply orb_false_r.
    + rewrite (any_ldiff0 set EXPORT DEFINED) by (auto with bits; reflexivity). apply orb_false_r.
  - intros. apply (shad_put_t _ _ _ _ 0 (e_base e)); auto. apply wrel_export.
  - eauto using shad_local.
  - intros s k n i b H HW Hne. destruct (unset_put s k n i b) as (e' & [E|E]); pose proof (wf_unset s k n i b (proj1 H)) as Hw; rewrite E in *; [|assumption].
    apply shad_unset_other; auto.
  - intros s k n e H HW Hb He. pose proof (wf_unset s k n 0 false (proj1 H)) as Hw.
    assert (wf (put (unset s (RVar k n 0) false) k n (arraysearch e 0))) as Hw2.
    { apply wf_put; [assumption|]. apply wf_arraysearch; [eapply wf_entry; eauto|split; [lia|assumption]]. }
    destruct (unset_put s k n 0 false) as (e' & [E|E]); rewrite E in *; [|apply shad_array; auto; split; [lia|assumption]].
    destruct H as (A & B & (y & Hy & Hd) & C).
    split; [assumption|]. rewrite !length_put. split; [assumption|]. split.
    + destruct (here_dec k0 n0 k n) as [X|[-> ->]].
      * exists y. rewrite !entry_put_other by (intros Y; apply X; congruence). auto.
      * exists (arraysearch e 0). rewrite entry_put_same by (rewrite ?length_put; eapply entry_some; eauto). split; [reflexivity|apply arraysearch_defined].
    + intros j Hj. rewrite !entry_put_other; [auto| |]; intros [= X Y]; specialize (HW (eq_sym Y)); lia.
  - eauto using shad_array.
  - intros. eapply shad_put_t; eauto. apply wrel_field.
Qed.
End SH.
