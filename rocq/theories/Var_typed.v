(** Variables: the union val is not misread, and the environment of a command. *)
From Verif Require Import Base Num_model SimplifyPath_model Printf_model Justify_model Arith_model Var_model Var_spec Var_proof Var_inv.
Local Open Scope Z_scope.

(** Typed up to exceptions: [ex] elements, [nb] variables whose exported form is not made yet. *)
Definition typedX (ex : nat -> cstr -> Z -> Prop) (nb : nat -> cstr -> Prop) (st : vars) : Prop :=
  wf st /\ (forall k b, nth_error st k = Some b -> NoDup (map fst b)) /\
  forall k n e, entry st k n = Some e ->
    (forall i t, get_t e i = Some t -> ex k n i \/ typed_t n t) /\ (nb k n \/ exported_form (e_base e)) /\
    (on (e_base e) ISSET = true -> on (e_base e) DEFINED = true).
Definition none3 : nat -> cstr -> Z -> Prop := fun _ _ _ => False.
Definition none2 : nat -> cstr -> Prop := fun _ _ => False.
Lemma typed_X st : typed st <-> typedX none3 none2 st.
Proof.
  unfold typed, typedX, none3, none2. split; intros (A & B & C); (split; [assumption|split; [assumption|]]); intros k n e H; destruct (C k n e H) as (D & E & F).
  - split; [intros; right; eauto|split; auto].
  - split; [|split; auto].
    + intros i t X. destruct (D i t X); [contradiction|assumption].
    + destruct E; [contradiction|assumption].
Qed.
Lemma typedX_mono (ex ex' : nat -> cstr -> Z -> Prop) (nb nb' : nat -> cstr -> Prop) st : typedX ex nb st ->
  (forall k n i, ex k n i -> ex' k n i) -> (forall k n, nb k n -> nb' k n) -> typedX ex' nb' st.
Proof.
  intros (A & B & C) H1 H2. split; [assumption|]. split; [assumption|]. intros k n e He. destruct (C k n e He) as (D & E & F).
  split; [|split; [|assumption]]; [|destruct E; auto]. intros i t X. destruct (D i t X); auto.
Qed.

Lemma fst_store (b : block) n e : NoDup (map fst b) -> NoDup (map fst (store_ b n e)) /\ (forall m, In m (map fst (store_ b n e)) <-> m = n \/ In m (map fst b)).
Proof.
  induction b as [|[m x] b IH]; cbn [store_ map fst].
  - intros _. split; [repeat constructor; cbn; tauto|]. intros m. cbn. intuition.
  - intros H. inversion H as [|? ? H1 H2]; subst. destruct (IH H2) as [I1 I2]. destruct (str_eqb_spec m n) as [->|Hn]; cbn [map fst].
    + split; [assumption|]. intros y. cbn. intuition.
    + split; [constructor; [|assumption]; rewrite I2; intuition|]. intros y. cbn. rewrite I2. intuition.
Qed.
Lemma put_nodup (st : vars) k n e : (forall k b, nth_error st k = Some b -> NoDup (map fst b)) ->
  forall j b, nth_error (put st k n e) j = Some b -> NoDup (map fst b).
Proof.
  intros H j b. unfold put. destruct (nth_error st k) as [c|] eqn:E; [|apply H]. rewrite nth_setnth, E.
  destruct (j =? k)%nat; [|apply H]. intros [= <-]. apply fst_store. eapply H; eauto.
Qed.

Section X.
Variable ex : nat -> cstr -> Z -> Prop.
Variable nb : nat -> cstr -> Prop.
Notation J := (typedX ex nb).

Lemma X_put st k n e : J st -> wf (put st k n e) -> (forall i t, get_t e i = Some t -> ex k n i \/ typed_t n t) ->
  (nb k n \/ exported_form (e_base e)) -> (on (e_base e) ISSET = true -> on (e_base e) DEFINED = true) -> J (put st k n e).
Proof.
  intros (A & B & C) Hw H1 H2 H3. split; [assumption|]. split; [apply put_nodup; assumption|]. intros j m x.
  rewrite entry_put. destruct (Nat.eqb_spec j k) as [->|]; cbn [andb]; [|apply C]. destruct (str_eqb_spec n m) as [->|]; cbn [andb]; [|apply C].
  destruct (_ <? _)%nat; [|apply C]. intros [= <-]. auto.
Qed.
Lemma X_ent st k n e : J st -> entry st k n = Some e ->
  wf_ent n e /\ (forall i t, get_t e i = Some t -> ex k n i \/ typed_t n t) /\ (nb k n \/ exported_form (e_base e)) /\
  (on (e_base e) ISSET = true -> on (e_base e) DEFINED = true).
Proof. intros (A & B & C) H. split; [eapply wf_entry; eauto|]. apply C. assumption. Qed.
(** entries as ktenter gives them *)
Definition ent_ok k n e : Prop := wf_ent n e /\ (forall i t, get_t e i = Some t -> ex k n i \/ typed_t n t) /\ (nb k n \/ exported_form (e_base e)) /\
  (on (e_base e) ISSET = true -> on (e_base e) DEFINED = true).
Lemma fresh_ok k n : ent_ok k n fresh.
Proof.
  split; [apply wf_fresh|]. split; [|split].
  - intros i t. unfold get_t. cbn. destruct (i =? 0); [|discriminate]. intros [= <-]. right. intros X. discriminate.
  - right. intros X. discriminate.
  - discriminate.
Qed.
Lemma typed_flag n t f i w : any f ISSET = on t ISSET -> any f INTEGER = on t INTEGER -> typed_t n t -> typed_t n (Tbl f (t_type t) (t_val t) i w).
Proof. unfold typed_t, on. cbn [t_flag t_type t_val]. intros -> ->. auto. Qed.
Lemma unset_typed n t : on t ISSET = false -> typed_t n t. Proof. intros H X. congruence. Qed.
Lemma arraysearch_ok k n e v : ent_ok k n e -> subok (Some v) n -> ent_ok k n (arraysearch e v).
Proof.
  intros (A & B & C & D) Hs. split; [apply wf_arraysearch; assumption|]. destruct A as [A _]. unfold arraysearch. cbn [e_base e_elems].
  set (vp := set_index _ 0). assert (t_type vp = t_type (e_base e) /\ t_val vp = t_val (e_base e) /\ on vp ISSET = on (e_base e) ISSET /\ on vp INTEGER = on (e_base e) INTEGER /\
    on vp EXPORT = on (e_base e) EXPORT /\ on vp DEFINED = true) as (V1 & V2 & V3 & V4 & V5 & V6).
  { unfold vp. repeat split; fl; reflexivity. }
  clearbody vp. split; [|split].
  - intros i t. unfold get_t. cbn [e_base e_elems]. destruct (i =? 0) eqn:E.
    + intros [= <-]. destruct (B 0 (e_base e) eq_refl) as [X|X]; [left; apply Z.eqb_eq in E; subst; exact X|right].
      unfold typed_t in *. rewrite V1, V2, V3, V4. exact X.
    + destruct (v =? 0); [intros H; apply B; unfold get_t; rewrite E; exact H|].
      rewrite (find_as_ins _ _ _ 0) by assumption. destruct (v =? i) eqn:F; [|intros H; apply B; unfold get_t; rewrite E; exact H].
      destruct (find_elem (e_elems e) i) as [c|] eqn:G; [destruct (on c ISSET)|]; intros [= <-].
      * apply B. unfold get_t. rewrite E. exact G.
      * right. apply unset_typed. unfold as_new, as_flag. fl. reflexivity.
      * right. apply unset_typed. unfold as_new, as_flag. fl. reflexivity.
  - destruct C as [C|C]; [left; assumption|right]. unfold exported_form in *. rewrite V1, V3, V4, V5. exact C.
  - auto.
Qed.
Lemma put_t_ok k n e i t t' : ent_ok k n e -> get_t e i = Some t -> wrel t t' -> (ex k n i \/ typed_t n t') ->
  (i = 0 -> nb k n \/ exported_form t') -> (i = 0 -> on t' ISSET = true -> on t' DEFINED = true) -> ent_ok k n (put_t e i t').
Proof.
  intros (A & B & C & D) Hg (W1 & W2 & W3) Ht Hx Hd. split; [eapply wf_put_t; eauto; congruence|]. split; [|split].
  - intros j x. rewrite (get_put_t _ _ _ _ _ Hg W1). destruct (Z.eqb_spec i j) as [->|]; [intros [= <-]; assumption|apply B].
  - unfold put_t. destruct (Z.eqb_spec i 0); cbn [e_base]; auto.
  - unfold put_t. destruct (Z.eqb_spec i 0); cbn [e_base]; auto.
Qed.
Lemma define_ok k n e i : ent_ok k n e -> on (e_base e) DEFINED = true -> ent_ok k n (match get_t e i with Some t => put_t e i (set_flag t (N.lor (t_flag t) DEFINED)) | None => e end).
Proof.
  intros H Hd. destruct (get_t e i) as [t|] eqn:G; [|assumption]. pose proof H as (A & B & C & D).
  destruct (Z.eqb_spec i 0) as [->|Hi].
  - unfold get_t in G. cbn in G. injection G as <-. apply (put_t_ok k n e 0 (e_base e)); auto.
    + apply wrel_flag; fl; [reflexivity|]. unfold on in Hd. rewrite Hd. reflexivity.
    + destruct (B 0 (e_base e) eq_refl) as [X|X]; [left; exact X|right]. apply typed_flag; auto; fl; reflexivity.
    + intros _. destruct C as [C|C]; [left; exact C|right]. unfold exported_form in *. fl. exact C.
    + intros _ _. fl. reflexivity.
  - unfold put_t. destruct (Z.eqb_spec i 0); [contradiction|]. split; [|split; [|split]]; cbn [e_base]; auto.
    + pose proof (wf_define n e i A) as X. rewrite G in X. unfold put_t in X. destruct (Z.eqb_spec i 0); [contradiction|exact X].
    + intros j x. unfold get_t in *. cbn [e_base e_elems]. destruct (Z.eqb_spec j 0) as [->|Hj]; [apply (B 0)|].
      destruct (Z.eqb_spec i 0); [contradiction|]. pose proof (find_elem_index _ _ _ G) as GI.
      rewrite find_elem_put by exact GI. destruct (Z.eqb_spec i j) as [->|].
      * rewrite G. intros [= <-]. destruct (B j t) as [X|X]; [unfold get_t; destruct (Z.eqb_spec j 0); [contradiction|exact G]|left; exact X|right].
        apply typed_flag; auto; fl; reflexivity.
      * intros X. apply B. unfold get_t. destruct (Z.eqb_spec j 0); [contradiction|exact X].
Qed.
Lemma define0_ok k n e : ent_ok k n e -> ent_ok k n (Ent (define_t (e_base e)) (e_elems e)).
Proof.
  intros (A & B & C & D). split; [exact (wf_define n e 0 A)|]. split; [|split].
  - intros i t. unfold get_t. cbn [e_base e_elems]. destruct (i =? 0) eqn:E; [|intros X; apply B; unfold get_t; rewrite E; exact X].
    intros [= <-]. apply Z.eqb_eq in E. subst. destruct (B 0 (e_base e) eq_refl) as [X|X]; [left; exact X|right]. apply typed_flag; auto; fl; reflexivity.
  - destruct C as [C|C]; [left; exact C|right]. unfold exported_form in *. cbn [e_base]. fl. exact C.
  - intros _. cbn [e_base]. fl. reflexivity.
Qed.
Lemma X_putent st k n e : J st -> ent_ok k n e -> J (put st k n e).
Proof. intros HJ (A & B & C & D). apply X_put; auto. apply wf_put; [apply HJ|assumption]. Qed.
Lemma X_look st k n st' : J st -> looked st k n st' -> J st'.
Proof.
  intros HJ H. destruct H as [k n e Hl He|k n e v Hl He Hb|k n e v Hk Hne Hb Hu He]; [assumption| |].
  - apply X_putent; [assumption|]. apply arraysearch_ok; [apply (X_ent _ _ _ _ HJ He)|assumption].
  - apply X_putent; [assumption|]. assert (ent_ok k n e) as He'.
    { subst e. destruct (entry st k n) eqn:E; [apply (X_ent _ _ _ _ HJ E)|apply fresh_ok]. }
    destruct v as [v|]; [|apply define0_ok; assumption]. apply define_ok; [apply arraysearch_ok; assumption|apply arraysearch_defined].
Qed.
Lemma X_local st n copy sub r st' : J st -> subok sub n -> local_at st n copy sub = (r, st') -> J st'.
Proof.
  intros HJ Hs. unfold local_at. destruct n as [|c n']; [intros [= <- <-]; assumption|]. destruct st as [|b st]; [intros [= <- <-]; assumption|].
  destruct (letter c); [|intros [= <- <-]; assumption]. set (n := c :: n') in *.
  set (e1 := if copy && _ then _ else ktenter b n). intros [= <- <-].
  assert (ent_ok O n (ktenter b n)) as H0.
  { unfold ktenter. destruct (look b n) as [e|] eqn:E; [|apply fresh_ok]. apply (X_ent (b :: st) O n e HJ). exact E. }
  assert (ent_ok O n e1 /\ (on (e_base (ktenter b n)) ISSET = true -> e1 = ktenter b n)) as [H1 H2].
  { unfold e1. destruct (copy && negb (on (e_base (ktenter b n)) DEFINED)) eqn:E; [|auto]. apply andb_true_iff in E. destruct E as [_ E]. apply negb_true_iff in E.
    destruct H0 as (A & B & C & D). assert (on (e_base (ktenter b n)) ISSET = false) as Is.
    { destruct (on (e_base (ktenter b n)) ISSET); [rewrite D in E by reflexivity; discriminate|reflexivity]. }
    destruct (outer (b :: st) n) as [q|]; [|split; [split; [assumption|]|]; auto].
    assert (on (copy_attr (e_base (ktenter b n)) (e_base q)) ISSET = false) as Is2.
    { unfold copy_attr, on in *. cbn [t_flag]. rewrite any_lor, Is, any_land by auto with bits. change (any COPIED ISSET) with false. apply andb_false_r. }
    split; [|congruence]. split; [|split; [|split]].
    - destruct A as [A1 A2]. split; [exact A1|]. cbn [e_base e_elems copy_attr]. unfold on, copy_attr. cbn [t_flag].
      rewrite any_lor, any_land by auto with bits. change (any COPIED ARRAY) with false. rewrite andb_false_r, orb_false_r. exact A2.
    - intros i t. unfold get_t. cbn [e_base e_elems]. destruct (i =? 0) eqn:Ei; [|intros X; apply B; unfold get_t; rewrite Ei; exact X].
      intros [= <-]. right. apply unset_typed. exact Is2.
    - right. intros X. cbn [e_base] in X. congruence.
    - cbn [e_base]. congruence. }
  apply X_putent; [assumption|]. clearbody e1. destruct sub as [v|].
  - apply define_ok; [apply arraysearch_ok; assumption|apply arraysearch_defined].
  - exact (define0_ok _ _ _ H1).
Qed.

(** ** Writing *)
Lemma setint_v_facts t z b : t_val (setint_v t z b) = VInt z /\ on (setint_v t z b) INTEGER = true /\ on (setint_v t z b) ISSET = true.
Proof.
  unfold setint_v. set (t1 := if negb (on t INTEGER) && on t ALLOC then _ else t). destruct (t_type (set_val t1 (VInt z)) =? 0); (split; [reflexivity|]); split; fl; reflexivity.
Qed.
Lemma setint_v_ok n t z b : typed_t n (setint_v t z b) /\ exported_form (setint_v t z b).
Proof.
  destruct (setint_v_facts t z b) as (V & I1 & I2). split.
  - intros _. rewrite I1. eauto.
  - intros _ _ X. congruence.
Qed.
Lemma setstr_string_ok n t s t' : on t INTEGER = false -> setstr_string n t s = Ok t' -> typed_t n t' /\ exported_form t'.
Proof.
  intros HI. unfold setstr_string. set (t1 := set_type _ 0).
  destruct (if on t1 _ then _ else _) as [[s' w]| |]; cbn [bind]; try discriminate.
  set (t2 := set_field t1 w). assert (t_type t2 = 0) as T2 by reflexivity. assert (on t2 INTEGER = false) as J2. { unfold t2, t1. fl. unfold on in HI. rewrite HI. reflexivity. }
  clearbody t2. intros [= <-]. destruct (on t2 EXPORT) eqn:E.
  - split.
    + intros _. assert (on (set_flag (export n t2 s') (N.lor (t_flag (export n t2 s')) ISSET)) INTEGER = false) as ->.
      { unfold export. fl. unfold on in J2. rewrite J2. reflexivity. }
      exists s'. right. auto.
    + intros _ _ _. cbn. unfold strlen. lia.
  - split.
    + intros _. assert (on (set_flag (set_val (set_flag t2 (N.lor (t_flag t2) ALLOC)) (VStr s')) (N.lor (t_flag (set_val (set_flag t2 (N.lor (t_flag t2) ALLOC)) (VStr s'))) ISSET)) INTEGER = false) as ->.
      { fl. unfold on in J2. rewrite J2. reflexivity. }
      exists s'. left. auto.
    + intros _ X. exfalso. revert X. fl. unfold on in E. rewrite E. discriminate.
Qed.
Lemma X_write st k n i t t' : J st -> deref st (RVar k n i) = Some t -> wrel t t' -> typed_t n t' -> exported_form t' ->
  (i = 0 -> on t' ISSET = true -> on t' DEFINED = true) -> J (assign_t st (RVar k n i) t').
Proof.
  intros HJ Hd Hw Ht Hx Hdef. destruct (deref_some _ _ _ Hd) as (k' & n' & i' & e & [= <- <- <-] & He & Hg & ->). apply X_putent; [assumption|].
  eapply put_t_ok; eauto. apply (X_ent _ _ _ _ HJ He).
Qed.
(** DEFINED of the base stays *)
Definition defd (st : vars) (r : ref) : Prop := match r with RTemp => True | RVar k n _ => exists e, entry st k n = Some e /\ on (e_base e) DEFINED = true end.
Lemma defd_base st k n i t t' : defd st (RVar k n i) -> deref st (RVar k n i) = Some t -> wrel t t' -> i = 0 -> on t' DEFINED = true.
Proof.
  intros (e & He & Hd) HD (W1 & W2 & W3) ->. cbn [deref] in HD. rewrite He in HD. unfold get_t in HD. cbn in HD. congruence.
Qed.
Lemma located_defd st k n i : located st k n -> defd st (RVar k n i).
Proof. intros [_ H]. exact H. Qed.
Lemma defd_assign st r r' t t' : defd st r -> deref st r' = Some t -> wrel t t' -> defd (assign_t st r' t') r.
Proof.
  intros H Hd (W1 & W2 & W3). destruct r as [|k n i]; [exact I|]. destruct H as (e & He & Hde).
  destruct (deref_some _ _ _ Hd) as (k' & n' & i' & e' & -> & He' & Hg & ->). cbn [defd].
  destruct (here_dec k n k' n') as [X|[-> ->]].
  - exists e. rewrite entry_put_other by (intros Y; apply X; congruence). auto.
  - exists (put_t e' i' t'). rewrite entry_put_same by (eapply entry_some; eauto). split; [reflexivity|].
    assert (e' = e) as -> by congruence. unfold put_t, get_t in *. destruct (i' =? 0); cbn [e_base]; [|assumption]. congruence.
Qed.
Lemma defd_look st k n st' r : looked st k n st' -> defd st r -> defd st' r.
Proof.
  intros H Hd. destruct r as [|k1 n1 i1]; [exact I|]. destruct Hd as (e1 & He1 & Hd1).
  destruct H as [k n e Hl He|k n e v Hl He Hb|k n e v Hk Hne Hb Hu He]; [cbn; eauto| |]; cbn [defd].
  - destruct (here_dec k1 n1 k n) as [X|[-> ->]].
    + exists e1. rewrite entry_put_other by (intros Y; apply X; congruence). auto.
    + eexists. rewrite entry_put_same by (eapply entry_some; eauto). split; [reflexivity|apply arraysearch_defined].
  - exists e1. rewrite entry_put_other; [auto|]. intros [= -> ->]. rewrite (Hu _ _ He1) in Hd1. discriminate.
Qed.

Variable ev : vars -> cstr -> list asn * evres.
Variable fuel : nat.
Variable Rs : ref -> Prop.
Definition JR st := J st /\ forall r, Rs r -> defd st r.
Lemma X_setint_asn st a : JR st -> okO JR (arith_asn st a).
Proof.
  intros [HJ HR]. unfold arith_asn. destruct (is_name (a_name a)) eqn:Hn; cbn [negb]; [|split; assumption].
  destruct ((a_idx a <? 0) || (INT_MAX <? a_idx a)) eqn:Hx; [split; assumption|].
  assert (subok (if a_idx a =? 0 then None else Some (a_idx a)) (a_name a)) as HSU.
  { destruct (a_idx a =? 0); cbn; [auto|]. split; [|apply is_name_no_bracket; assumption]. apply orb_false_iff in Hx. lia. }
  destruct (global_at st (a_name a) _) as [r st'] eqn:G.
  pose proof (global_at_looked _ _ _ _ _ (proj1 (proj1 HJ)) HSU G) as HL.
  assert (JR st' /\ match r with RTemp => True | RVar k n i => located st' k n end) as [HJ' HLo].
  { destruct r as [|k n i]; [subst; split; [split; assumption|exact I]|]. destruct HL as (-> & HL & _). split; [split; [eapply X_look; eauto|intros r Hr; eapply defd_look; eauto]|].
    apply (looked_located _ _ _ _ HL). }
  destruct (rd_only st' r) eqn:Rd; [exact HJ'|]. destruct (deref st' r) as [t|] eqn:D; [|exact HJ'].
  destruct r as [|k n i]; [discriminate|]. clear HL.
  destruct (on t INTEGER) eqn:Int.
  - cbn [okO]. destruct (setint_v_ok n t (a_z a) (a_base a)) as [T1 T2]. split.
    + eapply X_write; eauto; [apply HJ'|apply wrel_setint_v|]. intros Hi _. eapply defd_base; eauto; [apply located_defd; eassumption|apply wrel_setint_v].
    + intros r Hr. eapply defd_assign; eauto; [apply HJ'; assumption|apply wrel_setint_v].
  - unfold setint. rewrite D, Int. cbn [negb]. destruct (str_val_int false false 0 (a_z a)) as [s| |]; cbn [bnd okO]; auto.
    unfold rd_only in Rd. rewrite D in Rd. rewrite Rd. cbn [ref_name]. destruct (setstr_string n t s) as [t'| |] eqn:E; cbn [bnd okO]; auto.
    destruct (setstr_string_ok _ _ _ _ Int E) as [T1 T2].
    assert (wrel t (set_flag t' (N.lor (t_flag t') ISSET))) as Hw. { eapply wrel_trans; [eapply wrel_setstr; eauto|]. apply wrel_flag; fl; reflexivity. }
    assert (on t' ISSET = true) as Is.
    { clear - E. unfold setstr_string in E. destruct (if on _ _ then _ else _) as [[s' w]| |]; cbn [bind] in E; try discriminate. injection E as <-. fl. reflexivity. }
    assert (on (set_flag t' (N.lor (t_flag t') ISSET)) ISSET = on t' ISSET /\ on (set_flag t' (N.lor (t_flag t') ISSET)) INTEGER = on t' INTEGER /\
      on (set_flag t' (N.lor (t_flag t') ISSET)) EXPORT = on t' EXPORT) as (Q1 & Q2 & Q3).
    { unfold on in Is. repeat split; fl; rewrite ?Is; reflexivity. }
    split.
    + eapply X_write; eauto; [apply HJ'| | |].
      * unfold typed_t in *. rewrite Q1, Q2. exact T1.
      * unfold exported_form in *. rewrite Q1, Q2, Q3. exact T2.
      * intros Hi _. eapply defd_base; eauto. apply located_defd; eassumption.
    + intros r Hr. eapply defd_assign; eauto. apply HJ'. assumption.
Qed.
Lemma X_arith_asns l : forall st, JR st -> okO JR (arith_asns st l).
Proof.
  induction l as [|a l IH]; intros st HJ; cbn [arith_asns]; [exact HJ|].
  apply okO_bnd; [apply X_setint_asn; auto|]. intros [] st1 H1; [auto|exact H1].
Qed.
Lemma X_evaluate st s : JR st -> okO JR (evaluate ev st s).
Proof.
  intros HJ. unfold evaluate. destruct (ev st s) as [l r]. apply okO_bnd; [apply X_arith_asns; auto|].
  intros [] st1 H1; [|exact H1]. destruct r; exact H1.
Qed.
Lemma X_subscript st s : JR st -> okO JR (subscript ev st s).
Proof.
  intros HJ. unfold subscript. destruct s as [s|]; [|exact HJ]. apply okO_bnd; [apply X_evaluate; auto|].
  intros [[z b]|] st1 H1; [|exact H1]. destruct (_ || _); exact H1.
Qed.
Lemma X_global_at st n sub r st' : JR st -> subok sub n -> global_at st n sub = (r, st') -> JR st' /\ at_ref n st' r.
Proof.
  intros [HJ HR] HSU G. pose proof (global_at_looked _ _ _ _ _ (proj1 (proj1 HJ)) HSU G) as HL.
  destruct r as [|k m i]; [subst; split; [split; assumption|exact I]|]. destruct HL as (-> & HL & _).
  split; [split; [eapply X_look; eauto|intros r Hr; eapply defd_look; eauto]|]. split; [reflexivity|]. apply (looked_located _ _ _ _ HL).
Qed.
Lemma X_global st n : JR st -> okR JR (fst (split_ref n)) (global ev st n).
Proof.
  intros HJ. unfold global. destruct (split_ref n) as [nm sub] eqn:Sp. cbn [fst]. pose proof (X_subscript st sub HJ) as H.
  destruct (subscript ev st sub) as [i st1|st1| |] eqn:SU; cbn [bnd]; auto.
  destruct (global_at st1 nm i) as [r st2] eqn:G. cbn. eapply X_global_at; eauto. eapply subscript_bracket; eauto.
Qed.
Lemma defd_local st n copy sub r st' q : local_at st n copy sub = (r, st') -> defd st q -> defd st' q.
Proof.
  intros H Hq. pose proof (local_at_located _ _ _ _ _ _ H) as X. destruct q as [|k m i]; [exact I|]. destruct Hq as (e & He & Hd).
  destruct r as [|k' n' i']; [subst; cbn; eauto|]. destruct X as (-> & -> & [_ X] & X2). cbn [defd].
  destruct (here_dec 0 n k m) as [Y|[-> ->]]; [|exact X].
  exists e. split; [|assumption]. rewrite <- He. clear - H Y. unfold local_at in H. destruct n as [|c n']; [injection H as _ <-; reflexivity|].
  destruct st as [|b st]; [injection H as _ <-; reflexivity|]. destruct (letter c); [|injection H as _ <-; reflexivity].
  injection H as _ <-. apply entry_put_other. exact Y.
Qed.
Lemma X_local_ st n copy : JR st -> okR JR (fst (split_ref n)) (local ev st n copy).
Proof.
  intros HJ. unfold local. destruct (split_ref n) as [nm sub] eqn:Sp. cbn [fst]. pose proof (X_subscript st sub HJ) as H.
  destruct (subscript ev st sub) as [i st1|st1| |] eqn:SU; cbn [bnd]; auto.
  destruct (local_at st1 nm copy i) as [r st2] eqn:G. cbn [okR okO]. destruct H as [H HR].
  split; [split; [eapply X_local; [exact H|eapply subscript_bracket; eauto|exact G]|intros q Hq; eapply defd_local; eauto]|].
  pose proof (local_at_located _ _ _ _ _ _ G) as X. destruct r; cbn; [auto|]. destruct X as (-> & -> & X & _). auto.
Qed.

(** a reference to a typed value *)
Definition sound (st : vars) (r : ref) : Prop :=
  match r with RTemp => False | RVar k n i => exists t, deref st r = Some t /\ typed_t n t /\ exported_form t end.
Lemma deref_assign st r t t' : deref st r = Some t -> wrel t t' -> deref (assign_t st r t') r = Some t'.
Proof.
  intros H (W1 & _). destruct (deref_some _ _ _ H) as (k & n & i & e & -> & He & Hg & ->). cbn [deref].
  rewrite entry_put_same by (eapply entry_some; eauto). rewrite (get_put_t _ _ _ _ _ Hg W1), Z.eqb_refl. reflexivity.
Qed.
Lemma X_wr st r t t' : JR st -> defd st r -> deref st r = Some t -> wrel t t' -> (forall n, typed_t n t' \/ ref_name r <> n) -> exported_form t' -> JR (assign_t st r t').
Proof.
  intros [HJ HR] Hd D W T X. split; [|intros q Hq; eapply defd_assign; eauto].
  destruct r as [|k n i]; [discriminate|]. destruct (T n) as [T'|T']; [|cbn in T'; congruence].
  eapply X_write; eauto. intros Hi _. eapply defd_base; eauto.
Qed.
Lemma X_setstr st r s u ign : JR st -> defd st r -> (forall q, q = r -> Rs q) ->
  match setstr ev st r s u ign with Val true st' => JR st' /\ sound st' r | Val false st' => JR st' /\ (ign = true -> exists t, deref st r = Some t /\ on t INTEGER = true) | Fail st' => JR st' | _ => True end.
Proof.
  intros HJ Hd HRs. unfold setstr. destruct (rd_only st r && negb ign) eqn:R.
  { apply andb_true_iff in R. destruct R as [_ R]. destruct ign; [discriminate|]. destruct u; [exact HJ|]. split; [exact HJ|discriminate]. }
  destruct (deref st r) as [t|] eqn:D; [|exact I]. destruct (on t INTEGER) eqn:Int; cbn [negb].
  - pose proof (X_evaluate st s HJ) as E. destruct (evaluate ev st s) as [[[z b]|] st1|st1| |]; cbn [bnd okO] in *; auto.
    + destruct (deref st1 r) as [t1|] eqn:D1; [|exact I]. destruct r as [|k n i]; [discriminate|]. destruct (setint_v_ok n t1 z b) as [T1 T2]. split.
      * eapply X_wr; eauto; [apply E; apply HRs; reflexivity|apply wrel_setint_v|]. intros m. left. apply (setint_v_ok m t1 z b).
      * cbn [sound]. exists (setint_v t1 z b). split; [eapply deref_assign; eauto; apply wrel_setint_v|auto].
    + destruct u; [exact E|]. split; [exact E|]. eauto.
  - destruct r as [|k n i]; [discriminate|]. cbn [ref_name]. destruct (setstr_string n t s) as [t'| |] eqn:E; auto.
    destruct (setstr_string_ok _ _ _ _ Int E) as [T1 T2]. pose proof (wrel_setstr _ _ _ _ E) as W. split.
    + eapply X_wr; eauto. intros m. destruct (str_eqb_spec n m) as [->|]; [left; assumption|right; assumption].
    + cbn [sound]. exists t'. split; [eapply deref_assign; eauto|auto].
Qed.
End X.

Lemma X_clear (ex ex' : nat -> cstr -> Z -> Prop) nb st k n i : typedX ex nb st -> sound st (RVar k n i) ->
  (forall k' n' i', ex k' n' i' -> (k' = k /\ n' = n /\ i' = i) \/ ex' k' n' i') -> typedX ex' nb st.
Proof.
  intros (A & B & C) (t & Hd & Ht & _) Hx. split; [assumption|]. split; [assumption|]. intros k' n' e He. destruct (C k' n' e He) as (D & E & F).
  split; [|split; assumption]. intros i' t' Hg. destruct (D i' t' Hg) as [X|X]; [|auto]. destruct (Hx _ _ _ X) as [(-> & -> & ->)|Y]; [|auto].
  right. cbn [deref] in Hd. rewrite He in Hd. rewrite Hg in Hd. injection Hd as ->. assumption.
Qed.
Lemma X_clear2 (ex : nat -> cstr -> Z -> Prop) (nb nb' : nat -> cstr -> Prop) st k n t : typedX ex nb st -> deref st (RVar k n 0) = Some t -> exported_form t ->
  (forall k' n', nb k' n' -> (k' = k /\ n' = n) \/ nb' k' n') -> typedX ex nb' st.
Proof.
  intros (A & B & C) Hd Ht Hx. split; [assumption|]. split; [assumption|]. intros k' n' e He. destruct (C k' n' e He) as (D & E & F).
  split; [assumption|]. split; [|assumption]. destruct E as [E|E]; [|auto]. destruct (Hx _ _ E) as [(-> & ->)|]; [|auto].
  right. cbn [deref] in Hd. rewrite He in Hd. injection Hd as <-. exact Ht.
Qed.

(** ** typeset *)
Lemma retype_flag t set clr f b tg fk m : bit m -> any ALLOC m = false -> on (retype t set clr f b tg fk) m = (on t m || any set m) && negb (any clr m).
Proof.
  intros Hm Ha. unfold retype.
  set (t1 := if fk then _ else t). assert (on t1 m = on t m) as E1. { unfold t1. destruct fk; [|reflexivity]. unfold on. cbn [set_flag t_flag]. rewrite any_ldiff, Ha by assumption. cbn. apply andb_true_r. }
  set (t2 := if negb (on t1 INTEGER) && any set INTEGER then _ else t1). assert (on t2 m = on t m) as E2.
  { rewrite <- E1. unfold t2. destruct (_ && _); [|reflexivity]. unfold on. cbn [set_flag set_type t_flag]. rewrite any_ldiff, Ha by assumption. cbn. apply andb_true_r. }
  set (t3 := set_flag t2 _). assert (on t3 m = (on t m || any set m) && negb (any clr m)) as E3.
  { unfold t3, on. cbn [set_flag t_flag]. rewrite any_ldiff, any_lor by assumption. unfold on in E2. rewrite E2. reflexivity. }
  set (t4 := if any set INTEGER && (0 <? b) && negb tg then set_type t3 b else t3). assert (on t4 m = on t3 m) as E4 by (unfold t4; destruct (_ && _ && _); reflexivity).
  rewrite <- E3, <- E4. destruct (any set (N.lor LJUST _)); reflexivity.
Qed.
Lemma retype_val t set clr f b tg fk : t_val (retype t set clr f b tg fk) = t_val t.
Proof.
  unfold retype. destruct (any set (N.lor LJUST _)); cbn [set_field t_val]; destruct (any set INTEGER && (0 <? b) && negb tg); cbn [set_type t_val]; cbn [set_flag t_val];
    destruct fk; cbn [set_flag t_val]; destruct (_ && _); reflexivity.
Qed.
Lemma retype_type t set clr f b tg fk : any set INTEGER = false -> t_type (retype t set clr f b tg fk) = t_type t.
Proof.
  intros H. unfold retype. rewrite H, andb_false_r. cbn [andb]. destruct (any set (N.lor LJUST _)); destruct fk; reflexivity.
Qed.
Lemma retype_typed n t set clr f b tg : maskok set -> any set ISSET = false -> any clr ISSET = false ->
  fake_assign t set clr tg = false -> tg = false -> typed_t n t -> typed_t n (retype t set clr f b tg false).
Proof.
  intros Hs I1 I2 F -> T. unfold fake_assign in F. unfold typed_t. rewrite !retype_flag by (auto with bits; reflexivity). rewrite I1, I2, orb_false_r, andb_true_r.
  intros Is. rewrite Is in F. cbn [andb negb] in F. apply orb_false_iff in F. destruct F as [F F3]. apply orb_false_iff in F. destruct F as [F1 F2].
  specialize (T Is). rewrite retype_val. destruct (on t INTEGER) eqn:Int; cbn [andb orb negb] in *.
  - rewrite F2. cbn. exact T.
  - rewrite F3. cbn. rewrite retype_type by assumption. exact T.
Qed.

Section T.
Variable ev : vars -> cstr -> list asn * evres.
Variable fuel : nat.
Variables (k : nat) (n : cstr) (set clr : N) (f b : Z) (tg : option Z).
Variable Rs : ref -> Prop.
Hypothesis Hs : maskok set.
Hypothesis Hc : maskok clr.
Hypothesis Hs2 : any set ISSET = false.
Hypothesis Hc2 : any clr ISSET = false.
Definition exT : nat -> cstr -> Z -> Prop := fun k' n' i' => k' = k /\ n' = n /\ tg = Some i'.
Definition nbT : nat -> cstr -> Prop := fun k' n' => k' = k /\ n' = n.
Definition RT : ref -> Prop := fun r => Rs r \/ exists i, r = RVar k n i.
Notation JT := (JR exT nbT RT).

Lemma JR_mono (ex ex' : nat -> cstr -> Z -> Prop) (nb nb' : nat -> cstr -> Prop) R st : JR ex nb R st ->
  (forall k n i, ex k n i -> ex' k n i) -> (forall k n, nb k n -> nb' k n) -> JR ex' nb' R st.
Proof. intros [A B] H1 H2. split; [eapply typedX_mono; eauto|assumption]. Qed.
Lemma RT_self i : RT (RVar k n i). Proof. right. eauto. Qed.

Lemma T_elem st i : JT st ->
  match typeset_elem ev st k n i set clr f b (match tg with Some j => i =? j | None => false end) with Val _ st' => JT st' | _ => True end.
Proof.
  intros HJ. unfold typeset_elem. destruct (deref st (RVar k n i)) as [t|] eqn:D; [|exact I].
  set (tgt := match tg with Some j => i =? j | None => false end).
  set (ex' := fun k' n' i' => exT k' n' i' \/ (k' = k /\ n' = n /\ i' = i)).
  assert (forall w fk, JR ex' nbT RT (assign_t st (RVar k n i) (retype (set_field t w) set clr f b tgt fk))) as HW.
  { intros w fk. assert (wrel t (retype (set_field t w) set clr f b tgt fk)) as W by (eapply wrel_trans; [apply (wrel_field t w)|apply wrel_retype; auto]).
    destruct HJ as [HJ HR]. split; [|intros q Hq; eapply defd_assign; eauto].
    destruct (deref_some _ _ _ D) as (k' & n' & i' & e & [= <- <- <-] & He & Hg & ->).
    assert (typedX ex' nbT st) as HJ' by (eapply typedX_mono; [exact HJ| |auto]; unfold ex'; auto).
    apply X_putent; [assumption|]. eapply put_t_ok; eauto.
    - apply (X_ent _ _ _ _ _ _ HJ' He).
    - left. unfold ex'. auto.
    - intros _. left. split; reflexivity.
    - intros Hi _. eapply (defd_base st k n i); eauto. apply HR. apply RT_self. }
  assert (forall st', JR ex' nbT RT st' -> sound st' (RVar k n i) -> JT st') as HC.
  { intros st' [A B] C. split; [|assumption]. eapply X_clear; eauto. intros k' n' i' [X|X]; auto. }
  destruct (fake_assign t set clr tgt) eqn:F.
  - destruct (str_val t) as [[s w]| |]; try exact I.
    set (st1 := assign_t st (RVar k n i) _). assert (JR ex' nbT RT st1) as H1 by apply HW.
    pose proof (X_setstr ex' nbT ev RT st1 (RVar k n i) s false (negb (on t RDONLY) && any set RDONLY) H1) as X.
    specialize (X (proj2 H1 _ (RT_self i))). specialize (X (fun q (E : q = _) => eq_ind_r RT (RT_self i) E)).
    destruct (setstr ev st1 _ s false _) as [[] st2|st2| |]; cbn [bnd]; auto.
    + destruct X as [X1 X2]. auto.
    + destruct X as [X _]. destruct (deref st2 (RVar k n i)) as [t2|] eqn:D2; [|exact I].
      assert (on (zap t2) ISSET = false) as Z.
      { unfold zap. destruct (on t2 INTEGER); fl; reflexivity. }
      assert (exported_form (zap t2)) as ZE by (intros Y; congruence).
      apply HC.
      * eapply X_wr; eauto; [apply X; apply RT_self|apply wrel_zap|]. intros m. left. apply unset_typed. exact Z.
      * cbn [sound]. exists (zap t2). split; [eapply deref_assign; eauto; apply wrel_zap|]. split; [apply unset_typed; exact Z|exact ZE].
  - destruct tgt eqn:Etg.
    + eapply JR_mono; [apply HW| |auto]. intros k' n' i' [X|(-> & -> & ->)]; [exact X|]. unfold exT. unfold tgt in Etg. destruct tg as [j|]; [|discriminate].
      apply Z.eqb_eq in Etg. subst. auto.
    + assert (typed_t n (retype (set_field t (t_field t)) set clr f b false false)) as Ty.
      { apply retype_typed; auto. assert (set_field t (t_field t) = t) as -> by (destruct t; reflexivity).
        destruct (deref_some _ _ _ D) as (k' & n' & i' & e & [= <- <- <-] & He & Hg & _). destruct HJ as [(_ & _ & HJ) _]. destruct (HJ _ _ _ He) as (T & _).
        destruct (T i t Hg) as [(_ & _ & Y)|Y]; [|exact Y]. unfold tgt in Etg. rewrite Y, Z.eqb_refl in Etg. discriminate. }
      specialize (HW (t_field t) false). destruct HW as [HW HW2]. split; [|assumption].
      assert (deref (assign_t st (RVar k n i) (retype (set_field t (t_field t)) set clr f b false false)) (RVar k n i) = Some (retype (set_field t (t_field t)) set clr f b false false)) as DD.
      { eapply deref_assign; eauto. eapply wrel_trans; [apply (wrel_field t (t_field t))|apply wrel_retype; auto]. }
      destruct HW as (A & B & C). split; [assumption|]. split; [assumption|]. intros k' n' e He. destruct (C k' n' e He) as (C1 & C2 & C3). split; [|auto].
      intros i' t' Hg. destruct (C1 i' t' Hg) as [[X|(-> & -> & ->)]|X]; auto. right. cbn [deref] in DD. rewrite He in DD. rewrite Hg in DD. injection DD as ->. assumption.
Qed.
Lemma T_loop : forall fl st i ok, JT st -> match typeset_loop ev fl st k n i set clr f b tg ok with Val _ st' => JT st' | _ => True end.
Proof.
  induction fl as [|fl IH]; intros st i ok HJ; cbn [typeset_loop]; [exact I|]. pose proof (T_elem st i HJ) as E.
  destruct (typeset_elem _ _ _ _ _ _ _ _ _ _) as [o st1|st1| |]; cbn [bnd]; auto.
  destruct (entry st1 k n) as [e|]; [|exact I]. destruct (next_idx (e_elems e) i); [apply IH; assumption|exact E].
Qed.
Lemma T_end (ex : nat -> cstr -> Z -> Prop) (nb : nat -> cstr -> Prop) st i v : JR ex nb RT st ->
  (forall k' n' i', ex k' n' i' -> k' = k /\ n' = n /\ i' = i /\ v <> None) -> (forall k' n', nb k' n' -> k' = k /\ n' = n) ->
  match typeset_end ev st (RVar k n i) k n v b with Val _ st' => JR none3 none2 RT st' | Fail st' => JR ex nb RT st' | _ => True end.
Proof.
  intros HJ Hx Hn. unfold typeset_end.
  assert (match (match v with
       | None => Val tt st
       | Some v => match deref st (RVar k n i) with None => Bad | Some t =>
           if on t INTEGER then bnd (setstr ev st (RVar k n i) v true true) (fun _ st => if 0 <? b then match deref st (RVar k n i) with Some t => Val tt (assign_t st (RVar k n i) (set_type t b)) | None => Bad end else Val tt st)
           else bnd (setstr ev st (RVar k n i) v false true) (fun _ st => Val tt st) end
       end) with Val _ st' => JR none3 nb RT st' | Fail st' => JR ex nb RT st' | _ => True end) as X.
  { destruct v as [v|].
    2: { eapply JR_mono; [exact HJ| |auto]. intros k' n' i' Y. destruct (Hx _ _ _ Y) as (_ & _ & _ & Q). congruence. }
    assert (forall st', JR ex nb RT st' -> sound st' (RVar k n i) -> JR none3 nb RT st') as HC.
    { intros st' [A B] C. split; [|assumption]. eapply X_clear; eauto. intros k' n' i' Y. destruct (Hx _ _ _ Y) as (-> & -> & -> & _). auto. }
    destruct (deref st (RVar k n i)) as [t|] eqn:D; [|exact I].
    assert (forall u, match setstr ev st (RVar k n i) v u true with Val true st' => JR ex nb RT st' /\ sound st' (RVar k n i) | Val false st' => JR ex nb RT st' /\ (true = true -> exists t, deref st (RVar k n i) = Some t /\ on t INTEGER = true) | Fail st' => JR ex nb RT st' | _ => True end) as SS.
    { intros u. apply X_setstr; auto; [apply HJ; apply RT_self|]. intros q ->. apply RT_self. }
    destruct (on t INTEGER) eqn:Int.
    - specialize (SS true). destruct (setstr ev st (RVar k n i) v true true) as [[] st1|st1| |] eqn:ES; cbn [bnd]; auto.
      2: { exfalso. revert ES. unfold setstr. cbn [negb andb]. rewrite andb_false_r, D, Int. cbn [negb]. destruct (evaluate ev st v) as [[[z b']|] st2|st2| |]; cbn [bnd]; try discriminate.
           destruct (deref st2 _); discriminate. }
      destruct SS as [S1 S2]. destruct (0 <? b); [|apply HC; assumption]. cbn [sound] in S2. destruct S2 as (t1 & D1 & Ty & Ex). rewrite D1.
      assert (on t1 INTEGER = true) as I1.
      { revert ES. unfold setstr. cbn [negb andb]. rewrite andb_false_r, D, Int. cbn [negb]. destruct (evaluate ev st v) as [[[z b']|] st2|st2| |]; cbn [bnd]; try discriminate.
        destruct (deref st2 (RVar k n i)) as [t2|] eqn:D2; [|discriminate]. intros Q. assert (st1 = assign_t st2 (RVar k n i) (setint_v t2 z b')) as -> by congruence. rewrite (deref_assign _ _ _ _ D2 (wrel_setint_v t2 z b')) in D1. assert (t1 = setint_v t2 z b') as -> by congruence. apply setint_v_facts. }
      assert (forall m, typed_t m t1 -> typed_t m (set_type t1 b)) as Tt.
      { intros m. unfold typed_t, on. cbn [set_type t_flag t_val t_type]. unfold on in I1. rewrite I1. auto. }
      assert (exported_form (set_type t1 b)) as Te. { intros _ _ Y. unfold on in *. cbn [set_type t_flag] in Y. congruence. }
      apply HC.
      + eapply X_wr; eauto; [apply S1; apply RT_self|apply wrel_type|]. intros m. destruct (str_eqb_spec n m) as [<-|]; [left; auto|right; assumption].
      + cbn [sound]. exists (set_type t1 b). split; [eapply deref_assign; eauto; apply wrel_type|auto].
    - specialize (SS false). destruct (setstr ev st (RVar k n i) v false true) as [[] st1|st1| |]; cbn [bnd]; auto.
      + destruct SS. auto.
      + destruct SS as [_ SS]. destruct (SS eq_refl) as (t' & Q & Y). assert (t' = t) as -> by congruence. congruence. }
  destruct (match v with None => _ | Some _ => _ end) as [[] st1|st1| |]; cbn [bnd]; auto. clear HJ Hx st.
  destruct (deref st1 (RVar k n 0)) as [t|] eqn:D; [|exact I].
  assert (forall st' t', JR none3 nb RT st' -> deref st' (RVar k n 0) = Some t' -> exported_form t' -> JR none3 none2 RT st') as HC.
  { intros st' t' [A B] C E. split; [|assumption]. eapply X_clear2; eauto. }
  destruct (on t EXPORT && negb (on t INTEGER) && (t_type t =? 0)) eqn:C.
  - apply andb_true_iff in C. destruct C as [C C3]. apply andb_true_iff in C. destruct C as [C1 C2]. apply negb_true_iff in C2.
    assert (forall s, (forall m, typed_t m (export n t s) \/ n <> m) -> JR none3 none2 RT (assign_t st1 (RVar k n 0) (export n t s))) as HE.
    { intros s Ty. assert (exported_form (export n t s)) as E by (intros _ _ _; cbn; unfold strlen; lia).
      eapply HC; [| |exact E].
      - eapply X_wr; eauto; [apply X; apply RT_self|apply wrel_export].
      - eapply deref_assign; eauto. apply wrel_export. }
    destruct (on t ISSET) eqn:Is.
    + destruct (t_val t) as [|s|]; try exact I. apply HE. intros m. destruct (str_eqb_spec n m) as [<-|]; [left|right; assumption].
      intros _. assert (on (export n t s) INTEGER = false) as -> by (unfold on, export in *; cbn [t_flag]; rewrite any_lor, C2; reflexivity). exists s. right. auto.
    + apply HE. intros m. left. apply unset_typed. unfold on, export in *. cbn [t_flag]. rewrite any_lor, Is. reflexivity.
  - eapply HC; eauto. intros E1 E2 E3 E4. rewrite E2, E3, E4 in C. discriminate.
Qed.
End T.

Section P.
Variable ev : vars -> cstr -> list asn * evres.
Variable fuel : nat.
Notation JN := (JR none3 none2).
(** the state after a command that succeeds or that gives no attributes *)
Definition okT {A} (Rs : ref -> Prop) (fails : bool) (o : out A) : Prop :=
  match o with Val _ st => JN Rs st | Fail st => fails = false -> JN Rs st | _ => True end.
Lemma okT_ok {A} Rs fails (o : out A) : okO (JN Rs) o -> okT Rs fails o.
Proof. destruct o; cbn; auto. Qed.
Lemma JR_sub (Rs Rs' : ref -> Prop) st : JN Rs st -> (forall r, Rs' r -> Rs r \/ defd st r) -> JN Rs' st.
Proof. intros [A B] H. split; [assumption|]. intros r Hr. destruct (H r Hr); auto. Qed.

Lemma P_typeset_var Rs st vp tvar val set clr f b : JN Rs st -> (exists c r, tvar = c :: r /\ letter c = true) ->
  at_ref (fst (split_ref tvar)) st vp -> maskok set -> maskok clr -> any set ISSET = false -> any clr ISSET = false ->
  okT Rs (negb (N.lor set clr =? 0)%N) (typeset_var ev fuel st vp tvar val set clr f b).
Proof.
  intros HJ Hl HR Hs Hc Hs2 Hc2. unfold typeset_var. destruct (deref st vp) as [t|] eqn:D; [|cbn; auto].
  destruct vp as [|k n i]; [discriminate|]. destruct HR as [-> HL]. set (n := fst (split_ref tvar)) in *.
  assert (exists j, (if on t ARRAY then global ev st (arrayname tvar) else Val (RVar k n i) st) = Val (RVar k n j) st) as (j & ->).
  { destruct (on t ARRAY) eqn:A; [|eauto]. exists 0. eapply base_of; eauto. apply HJ. }
  cbn [bnd]. destruct (rd_only st (RVar k n j) && _) eqn:R; [cbn; auto|].
  assert (JN (RT k n Rs) st) as HJ'.
  { eapply JR_sub; [exact HJ|]. intros r [X|(i' & ->)]; [auto|]. right. apply located_defd. exact HL. }
  assert (forall st', JN (RT k n Rs) st' -> JN Rs st') as HB by (intros st' H; eapply JR_sub; [exact H|]; intros r X; left; left; exact X).
  destruct (N.lor set clr =? 0)%N eqn:Z; cbn [bnd negb].
  - assert (match typeset_end ev st (RVar k n i) k n val b with Val _ st' => JN (RT k n Rs) st' | Fail st' => JN (RT k n Rs) st' | _ => True end) as E.
    { apply (T_end ev k n set clr); auto; intros; contradiction. }
    destruct (typeset_end ev st (RVar k n i) k n val b) as [a st1|st1| |] eqn:TE; cbn [okT]; auto.
  - set (tg := match val with Some _ => Some i | None => None end).
    assert (JR (exT k n tg) (nbT k n) (RT k n Rs) st) as H1 by (eapply JR_mono; [exact HJ'| |]; intros; contradiction).
    pose proof (T_loop ev k n set clr f b tg Rs Hs Hc Hs2 Hc2 fuel st 0 true H1) as E.
    replace (match val with Some _ => _ | None => None end) with tg by (destruct val; reflexivity).
    destruct (typeset_loop _ _ _ _ _ _ _ _ _ _ _ _) as [ok st1|st1| |]; cbn [bnd okT]; auto; [|discriminate].
    destruct ok; [|discriminate].
    assert (match typeset_end ev st1 (RVar k n i) k n val b with Val _ st' => JN (RT k n Rs) st' | Fail st' => JR (exT k n tg) (nbT k n) (RT k n Rs) st' | _ => True end) as F.
    { apply (T_end ev k n set clr); auto. intros k' n' i' (-> & -> & X). unfold tg in X. destruct val; [|discriminate]. injection X as ->. repeat split. discriminate. }
    destruct (typeset_end _ _ _ _ _ _ _) as [a st2|st2| |]; cbn [okT]; auto. discriminate.
Qed.
Lemma any_ldiff_false m x y : bit y -> any m y = false -> any (N.ldiff m x) y = false.
Proof. intros H E. rewrite any_ldiff, E by assumption. reflexivity. Qed.
Lemma P_typeset Rs st var set clr f b : JN Rs st -> maskok set -> maskok clr -> any set ISSET = false -> any clr ISSET = false ->
  okT Rs (negb (N.lor set clr =? 0)%N) (typeset ev fuel st var set clr f b).
Proof.
  intros HJ Hs Hc Hs2 Hc2. unfold typeset. destruct (typeset_name var set) as [[tvar val]|] eqn:T; [|cbn; auto].
  pose proof (typeset_name_letter _ _ _ _ T) as Hl.
  assert (okR (JN Rs) (fst (split_ref tvar)) (if any set LOCAL then local ev st tvar (any set LOCAL_COPY) else global ev st tvar)) as H.
  { destruct (any set LOCAL); [apply X_local_|apply X_global]; assumption. }
  destruct (if any set LOCAL then _ else _) as [vp st1|st1| |]; cbn [bnd okT]; auto. destruct H as [H1 H2].
  pose proof (P_typeset_var Rs st1 vp tvar val (N.ldiff set (N.lor LOCAL LOCAL_COPY)) clr f b H1 Hl H2 (maskok_ldiff _ _ Hs) Hc (any_ldiff_false _ _ _ b_ISSET Hs2) Hc2) as X.
  destruct (typeset_var _ _ _ _ _ _ _ _ _ _) as [a st2|st2| |]; cbn [okT] in *; auto.
  intros Y. apply X. apply negb_false_iff in Y. apply N.eqb_eq in Y. apply N.lor_eq_0_iff in Y. destruct Y as [-> ->]. reflexivity.
Qed.

Lemma P_unset Rs st k n i ar : JN Rs st -> (forall r, ~ Rs r) -> JN Rs (unset st (RVar k n i) ar).
Proof.
  intros [HJ _] HR. split; [|intros r Hr; exfalso; eapply HR; eauto]. unfold unset.
  destruct (deref st (RVar k n i)) as [t|] eqn:D; [|exact HJ].
  destruct (deref_some _ _ _ D) as (k' & n' & i' & e & [= <- <- <-] & He & Hg & HA).
  pose proof (X_ent _ _ _ _ _ _ HJ He) as OK. destruct OK as (A & B & C & E).
  set (t' := set_flag t _). assert (on t' ISSET = false) as Is.
  { unfold t', on. cbn [set_flag t_flag]. rewrite any_land by auto with bits. destruct ar; apply andb_false_r. }
  assert (t_index t' = t_index t) as Ix by reflexivity.
  assert (on t' ARRAY = true -> on t ARRAY = true) as Ar.
  { unfold t', on. cbn [set_flag t_flag]. rewrite any_land by auto with bits. intros X. apply andb_true_iff in X. apply X. }
  clearbody t'. destruct (on t ARRAY && negb ar) eqn:Q.
  - apply andb_true_iff in Q. destruct Q as [Q1 Q2]. apply X_putent; [assumption|]. split; [|split; [|split]].
    + split; [exact I|]. cbn [e_base e_elems]. intros [X|X]; [|congruence]. destruct A as [A1 A2]. apply A2.
      unfold get_t in Hg. destruct (Z.eqb_spec i 0) as [->|Hi]; [injection Hg as <-; auto|]. right. intros Y. rewrite Y in Hg. discriminate.
    + intros j x. unfold get_t. cbn [e_base e_elems find_elem]. destruct (j =? 0); [|discriminate]. intros [= <-]. right. apply unset_typed. assumption.
    + right. intros X. cbn [e_base] in X. congruence.
    + cbn [e_base]. congruence.
  - rewrite HA. apply X_putent; [assumption|]. split; [eapply wf_put_t; eauto|]. split; [|split].
    + intros j x. rewrite (get_put_t _ _ _ _ _ Hg Ix). destruct (i =? j); [intros [= <-]; right; apply unset_typed; assumption|apply B].
    + unfold put_t. destruct (i =? 0); cbn [e_base]; [right; intros X; congruence|exact C].
    + unfold put_t. destruct (i =? 0); cbn [e_base]; [congruence|exact E].
Qed.
Definition noR : ref -> Prop := fun _ => False.
Lemma JN_ref st r n : JN noR st -> at_ref n st r -> JN (eq r) st /\ defd st r.
Proof.
  intros HJ HR. assert (defd st r) as D. { destruct r; [exact I|]. destruct HR as [-> HR]. apply located_defd. exact HR. }
  split; [|exact D]. eapply JR_sub; [exact HJ|]. intros q <-. auto.
Qed.
Lemma JN_drop Rs st : JN Rs st -> JN noR st. Proof. intros [A _]. split; [assumption|intros r []]. Qed.
Lemma P_setstr st r s u ign : JN (eq r) st -> okO (JN (eq r)) (setstr ev st r s u ign).
Proof.
  intros HJ. pose proof (X_setstr none3 none2 ev (eq r) st r s u ign HJ (proj2 HJ r eq_refl) (fun q (E : q = r) => eq_sym E)) as X.
  destruct (setstr ev st r s u ign) as [[] st1|st1| |]; cbn [okO]; auto; apply X.
Qed.
Lemma okO_drop {A} Rs (o : out A) : okO (JN Rs) o -> okO (JN noR) o.
Proof. destruct o; cbn; eauto using JN_drop. Qed.
Lemma P_set_elems k n vals : ~ In "["%char n -> forall st i, 0 <= i -> JN noR st -> okO (JN noR) (set_elems ev st k n i vals).
Proof.
  intros Hb. induction vals as [|v vals IH]; intros st i Hi HJ; cbn [set_elems]; [exact HJ|].
  destruct (entry st k n) as [e|] eqn:E; [|exact I]. apply okO_bnd; [|intros _ st1 H1; apply IH; [lia|assumption]].
  apply (okO_drop (eq (RVar k n i))). apply P_setstr. split.
  - apply X_putent; [apply HJ|]. apply arraysearch_ok; [apply (X_ent _ _ _ _ _ _ (proj1 HJ) E)|]. split; [lia|assumption].
  - intros q <-. cbn [defd]. exists (arraysearch e i). split; [apply entry_put_same; eapply entry_some; eauto|apply arraysearch_defined].
Qed.
Lemma typed_step st o : typed st -> okop o = true ->
  match step ev fuel st o with Val _ st' => typed st' | Fail st' => attributes o = false -> typed st' | _ => True end.
Proof.
  intros HT Hok. assert (JN noR st) as HJ by (split; [apply typed_X; assumption|intros r []]).
  enough (okT noR (attributes o) (step ev fuel st o)) as X.
  { destruct (step ev fuel st o); cbn [okT] in X; auto; [apply typed_X; apply X|intros Y; apply typed_X; apply X; exact Y]. }
  assert (forall m n (fn : ref -> vars -> out bool), okR (JN noR) n m -> (forall r st1, JN (eq r) st1 -> at_ref n st1 r -> okO (JN noR) (fn r st1)) -> okO (JN noR) (bnd m fn)) as HB.
  { intros m n fn Hm Hf. eapply okR_bnd; [exact Hm|]. intros r st1 H1 H2. apply Hf; [apply (JN_ref _ _ n); assumption|assumption]. }
  destruct o; cbn [step attributes].
  - cbn in Hok. apply andb_true_iff in Hok. destruct Hok as [A B]. apply N.eqb_eq in A, B.
    assert (forall m, N.ldiff m TYPESET_BITS = 0%N -> any m ISSET = false) as Q by (intros m X; eapply any_ldiff0; eauto with bits; reflexivity).
    pose proof (P_typeset noR st var set clr field base HJ (okop_mask _ A) (okop_mask _ B) (Q _ A) (Q _ B)) as X.
    destruct (typeset _ _ _ _ _ _ _ _); cbn [bnd okT] in *; auto.
  - apply okT_ok. unfold c_unset. eapply HB; [apply X_global; assumption|]. intros r st1 H1 HR.
    destruct (rd_only st1 r) eqn:R; [apply JN_drop in H1; exact H1|]. destruct r as [|k n i]; [discriminate|]. cbn [okO]. apply P_unset; [eapply JN_drop; eauto|]. intros q [].
  - apply okT_ok. destruct (is_name n) eqn:N0; [|exact HJ]. pose proof (is_name_no_bracket _ N0) as Hb. apply okO_bnd; [|intros _ st1 H1; exact H1].
    unfold set_array. eapply okR_bnd; [apply X_global; assumption|]. intros r st1 H1 HR. destruct r as [|k m i]; [exact H1|].
    rewrite split_ref_plain in HR by assumption. destruct HR as [-> HL]. destruct (rd_only _ _); [exact H1|]. apply P_set_elems; [assumption|lia|].
    destruct reset; [|assumption]. apply P_unset; [assumption|]. intros q [].
  - apply okT_ok. unfold assign_to. eapply HB; [apply X_global; assumption|]. intros r st1 H1 HR. eapply okO_drop. apply P_setstr. assumption.
  - unfold c_read. pose proof (X_global none3 none2 ev noR st n HJ) as G. destruct (global ev st n) as [r st1|st1| |]; cbn [bnd okT] in *; auto.
    destruct G as [G1 G2]. destruct (JN_ref _ _ _ G1 G2) as [H1 _]. destruct (rd_only st1 r); [exact G1|].
    assert (okT (eq r) allexport (if allexport then typeset ev fuel st1 n EXPORT 0 0 0 else Val None st1)) as X.
    { destruct allexport; [|exact H1]. apply (P_typeset (eq r) st1 n EXPORT 0 0 0 H1); try split; reflexivity. }
    destruct (if allexport then _ else _) as [a st2|st2| |]; cbn [bnd okT] in *; auto; [|intros Y; eapply JN_drop; eauto].
    apply okT_ok. eapply okO_drop. apply P_setstr. assumption.
  - apply okT_ok. apply okO_bnd; [apply X_evaluate; assumption|]. intros r st1 H1. exact H1.
  - apply okT_ok. apply okO_bnd; [|intros r st1 H1; exact H1]. unfold get. eapply okR_bnd; [apply X_global; assumption|]. intros r st1 H1 HR.
    destruct (deref st1 r) as [t|] eqn:D; [|exact H1]. destruct (str_val t) as [[s w]| |] eqn:S; try exact I. cbn [okO]. split; [|intros q []].
    destruct (deref_some _ _ _ D) as (k & m & i & e & -> & He & Hg & HA). rewrite HA. pose proof (X_ent _ _ _ _ _ _ (proj1 H1) He) as OK.
    apply X_putent; [apply H1|]. eapply put_t_ok; eauto.
    + apply wrel_field.
    + destruct OK as (_ & B & _). destruct (B i t Hg) as [[]|B']. right. exact B'.
    + intros ->. destruct OK as (_ & _ & C & _). unfold get_t in Hg. cbn in Hg. injection Hg as <-. exact C.
    + intros ->. destruct OK as (_ & _ & _ & C). unfold get_t in Hg. cbn in Hg. injection Hg as <-. exact C.
  - apply okT_ok. apply okO_bnd; [|intros r st1 H1; exact H1]. unfold get_all. eapply okR_bnd; [apply X_global; assumption|]. intros r st1 H1 HR.
    destruct r; [exact H1|]. destruct (entry st1 k n0); exact H1.
  - cbn [okT]. split; [|intros q []]. destruct HJ as [(A & B & C) _]. split; [|split].
    + split; [discriminate|]. intros [|k] n e; [discriminate|]. intros X. eapply (proj2 A). exact X.
    + intros [|k] b; [cbn; intros [= <-]; constructor|apply B].
    + intros [|k] n e; [discriminate|]. intros X. destruct (C k n e X) as (C1 & C2 & C3). split; [|split; [|exact C3]].
      * intros i t Y. destruct (C1 i t Y) as [[]|Q]. right. exact Q.
      * destruct C2 as [[]|C2]. right. exact C2.
  - cbn [okT]. split; [|intros q []]. destruct HJ as [HJ _]. destruct st as [|b [|b' st]]; [exact HJ|exact HJ|]. destruct HJ as (A & B & C). split; [|split].
    + split; [discriminate|]. intros k n e X. apply (proj2 A (Datatypes.S k) n e). exact X.
    + intros k x X. apply (B (Datatypes.S k) x). exact X.
    + intros k n e X. destruct (C (Datatypes.S k) n e X) as (C1 & C2 & C3). split; [|split; [|exact C3]].
      * intros i t Y. destruct (C1 i t Y) as [[]|Q]. right. exact Q.
      * destruct C2 as [[]|C2]. right. exact C2.
Qed.
Lemma typed_steps l : forall st st', typed st -> forallb okop l = true -> calm ev fuel st l -> steps ev fuel st l = Some st' -> typed st'.
Proof.
  induction l as [|o l IH]; intros st st' HT Hok Hc; cbn [steps calm forallb] in *; [intros [= <-]; assumption|].
  apply andb_true_iff in Hok. destruct Hok as [O1 O2]. pose proof (typed_step st o HT O1) as X.
  destruct (step ev fuel st o); cbn [after]; try discriminate; eauto. destruct Hc as [C1 C2]. eauto.
Qed.
End P.
