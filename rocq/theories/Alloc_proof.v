From Verif Require Import Base Num_model SimplifyPath_model Alloc_model Alloc_spec.

(** ** doubly linked segments *)
Fixpoint seg (m : addr -> option node) (pv hd : option addr) (l : list (addr * N)) (pv' hd' : option addr) : Prop :=
  match l with
  | [] => pv = pv' /\ hd = hd'
  | (p, z) :: l' => hd = Some p /\ exists nx, m p = Some (Node pv nx (16 + z)) /\ seg m (Some p) nx l' pv' hd'
  end.
Notation addrs l := (map fst l).

Lemma seg_app m l1 : forall l2 pv hd pv' hd',
  seg m pv hd (l1 ++ l2) pv' hd' <-> exists pm hm, seg m pv hd l1 pm hm /\ seg m pm hm l2 pv' hd'.
Proof.
  induction l1 as [|[p z] l1 IH]; intros; cbn [seg app].
  - split; [intros H; exists pv, hd; auto|intros (pm & hm & [-> ->] & H); exact H].
  - split.
    + intros (-> & nx & H1 & H2). apply IH in H2. destruct H2 as (pm & hm & H2 & H3). exists pm, hm. split; [|exact H3]. split; [reflexivity|]. exists nx. auto.
    + intros (pm & hm & (-> & nx & H1 & H2) & H3). split; [reflexivity|]. exists nx. split; [exact H1|]. apply IH. exists pm, hm. auto.
Qed.

Lemma seg_frame m m' l : forall pv hd pv' hd', (forall q, In q (addrs l) -> m' q = m q) -> seg m pv hd l pv' hd' -> seg m' pv hd l pv' hd'.
Proof.
  induction l as [|[p z] l IH]; intros pv hd pv' hd' F; cbn [seg]; [auto|].
  intros (-> & nx & H1 & H2). split; [reflexivity|]. exists nx. split; [rewrite F; [exact H1|left; reflexivity]|].
  apply IH; [|exact H2]. intros q Hq. apply F. right. exact Hq.
Qed.

Lemma seg_last m l : forall pv hd pv' hd', seg m pv hd l pv' hd' ->
  (l = [] /\ pv' = pv /\ hd' = hd) \/ exists l0 q z, l = l0 ++ [(q, z)] /\ pv' = Some q /\ exists pq, m q = Some (Node pq hd' (16 + z)) /\ seg m pv hd l0 pq (Some q).
Proof.
  intros pv hd pv' hd' H. destruct l as [|b l _] using rev_ind.
  - left. destruct H. auto.
  - right. destruct b as [q z]. exists l, q, z. split; [reflexivity|]. apply seg_app in H. destruct H as (pm & hm & H1 & (-> & nx & H2 & H3 & H4)).
    subst. split; [reflexivity|]. exists pm. auto.
Qed.

Lemma seg_first m l pv hd pv' : seg m pv hd l pv' None ->
  (l = [] /\ hd = None) \/ exists q z l0, l = (q, z) :: l0 /\ hd = Some q.
Proof. destruct l as [|[q z] l]; cbn; [intros [_ ->]; auto|intros (-> & _)]. right. exists q, z, l. auto. Qed.

Lemma seg_live m l : forall pv hd pv' hd' p, seg m pv hd l pv' hd' -> In p (addrs l) -> m p <> None.
Proof.
  induction l as [|[q z] l IH]; intros pv hd pv' hd' p H Hin; cbn in *; [contradiction|].
  destruct H as (-> & nx & H1 & H2). destruct Hin as [<-|Hin]; [congruence|eapply IH; eauto].
Qed.
Lemma seg_size m l : forall pv hd pv' hd' p z, seg m pv hd l pv' hd' -> In (p, z) l -> exists a b, m p = Some (Node a b (16 + z)).
Proof.
  induction l as [|[q y] l IH]; intros pv hd pv' hd' p z H Hin; cbn in *; [contradiction|].
  destruct H as (-> & nx & H1 & H2). destruct Hin as [E|Hin]; [inversion E; subst; eauto|eapply IH; eauto].
Qed.

(** ** the invariant *)
Record inv (h : heap) (s : owned) : Prop := {
  i_seg : forall a, exists last, seg (mem h) None (head h a) (s a) last None;
  i_nd : forall a, NoDup (addrs (s a));
  i_dis : forall a b p, In p (addrs (s a)) -> In p (addrs (s b)) -> a = b;
  i_live : forall p, mem h p <> None <-> inuse s p;
  i_log : forall p, history (log h) p = Some (option_map n_size (mem h p))
}.

Lemma neqb p q : p <> q -> (p =? q)%N = false.
Proof. apply N.eqb_neq. Qed.

Lemma history_app l e p : history (l ++ [e]) p = hstep p (history l p) e.
Proof. unfold history. rewrite fold_left_app. reflexivity. Qed.

Lemma NoDup_split (A : Type) (l1 l2 : list A) x : NoDup (l1 ++ x :: l2) -> ~ In x l1 /\ ~ In x l2 /\ (forall y, In y l1 -> ~ In y l2) /\ NoDup (l1 ++ l2).
Proof.
  intros H. pose proof (NoDup_remove_1 _ _ _ H) as H1. pose proof (NoDup_remove_2 _ _ _ H) as H2.
  rewrite in_app_iff in H2. split; [tauto|]. split; [tauto|]. split; [|exact H1].
  clear -H1. induction l1 as [|a l1 IH]; intros y Hy; [destruct Hy|]. cbn in H1. inversion H1 as [|? ? Ha Hr]; subst.
  rewrite in_app_iff in Ha. destruct Hy as [<-|Hy]; [tauto|apply IH; assumption].
Qed.

Lemma NoDup_left (A : Type) (l1 l2 : list A) : NoDup (l1 ++ l2) -> NoDup l1.
Proof. induction l1 as [|a l1 IH]; intros H; [constructor|]. inversion H as [|? ? H1 H2]; subst. rewrite in_app_iff in H1. constructor; [tauto|auto]. Qed.
Lemma NoDup_right (A : Type) (l1 l2 : list A) : NoDup (l1 ++ l2) -> NoDup l2.
Proof. induction l1 as [|a l1 IH]; intros H; [exact H|]. inversion H; subst; auto. Qed.

Lemma inv_start : inv start (fun _ => []).
Proof.
  constructor; cbn.
  - intros a. exists None. auto.
  - intros a. constructor.
  - intros a b p [].
  - intros p. split; [congruence|]. intros [a []].
  - reflexivity.
Qed.

(** what happens in one area when only nodes of that area's list (and dead
    addresses) change *)
Lemma other_seg m m' (s : owned) a b hd : a <> b -> (forall x y p, In p (addrs (s x)) -> In p (addrs (s y)) -> x = y) ->
  (forall q, ~ In q (addrs (s a)) -> m q <> None -> m' q = m q) ->
  (exists last, seg m None hd (s b) last None) -> exists last, seg m' None hd (s b) last None.
Proof.
  intros Hab Hd Hm (last & H). exists last. eapply seg_frame; [|exact H]. intros q Hq. apply Hm.
  - intros C. apply Hab. eapply Hd; eauto.
  - eapply seg_live; eauto.
Qed.

Lemma upd_same s a l : upd s a l a = l.
Proof. unfold upd. rewrite Nat.eqb_refl. reflexivity. Qed.
Lemma upd_other s a l b : b <> a -> upd s a l b = s b.
Proof. intros H. unfold upd. destruct (Nat.eqb_spec b a); [contradiction|reflexivity]. Qed.

Lemma fits_ok z : fits z = true -> ((SIZE_MAX - LINK <? z) = false /\ (LINK + z) mod (SIZE_MAX + 1) = 16 + z)%N.
Proof. unfold fits, SIZE_MAX, LINK. intros H. split; [lia|]. apply N.mod_small. lia. Qed.
Lemma fits_no z : fits z = false -> (SIZE_MAX - LINK <? z)%N = true.
Proof. unfold fits, SIZE_MAX, LINK. lia. Qed.

Lemma alloc_ok h s a z l : inv h s -> fits z = true -> ~ inuse s l ->
  exists h', alloc h z a (Some l) = Ok (h', l) /\ inv h' (upd s a ((l, z) :: s a)).
Proof.
  intros I Hz Hn. destruct (fits_ok z Hz) as [F1 F2]. unfold alloc. rewrite F1, F2. cbn [head event_ mem setm].
  destruct I as [I1 I2 I3 I4 I5].
  assert (Hl : mem h l = None). { destruct (mem h l) eqn:E; [|reflexivity]. exfalso. apply Hn, I4. congruence. }
  assert (NotIn : forall b, ~ In l (addrs (s b))) by (intros b C; apply Hn; exists b; exact C).
  assert (Hh : history (log h ++ [EvMalloc l (16 + z)]) l = Some (Some (16 + z)%N)).
  { rewrite history_app, I5, Hl. cbn. rewrite N.eqb_refl. reflexivity. }
  assert (Hh2 : forall p, p <> l -> history (log h ++ [EvMalloc l (16 + z)]) p = Some (option_map n_size (mem h p))).
  { intros p Hp. rewrite history_app, I5. destruct (mem h p); cbn; rewrite neqb by congruence; reflexivity. }
  assert (Hlive : forall p, (p = l \/ inuse s p) <-> inuse (upd s a ((l, z) :: s a)) p).
  { intros p. unfold inuse. split.
    - intros [->|[b Hb]]; [exists a; rewrite upd_same; left; reflexivity|].
      destruct (Nat.eq_dec b a) as [->|Hne]; [exists a; rewrite upd_same; right; exact Hb|exists b; rewrite upd_other by exact Hne; exact Hb].
    - intros [b Hb]. destruct (Nat.eq_dec b a) as [->|Hne].
      + rewrite upd_same in Hb. destruct Hb as [<-|Hb]; [left; reflexivity|right; exists a; exact Hb].
      + rewrite upd_other in Hb by exact Hne. right. exists b. exact Hb. }
  assert (Hnd : forall b, NoDup (addrs (upd s a ((l, z) :: s a) b))).
  { intros b. destruct (Nat.eq_dec b a) as [->|Hne]; [rewrite upd_same; constructor; [apply NotIn|apply I2]|rewrite upd_other by exact Hne; apply I2]. }
  assert (Hdis : forall b c p, In p (addrs (upd s a ((l, z) :: s a) b)) -> In p (addrs (upd s a ((l, z) :: s a) c)) -> b = c).
  { intros b c p Hb Hc. destruct (Nat.eq_dec b a) as [->|Hbn], (Nat.eq_dec c a) as [->|Hcn]; auto.
    - rewrite upd_same in Hb. rewrite upd_other in Hc by exact Hcn. destruct Hb as [<-|Hb]; [destruct (NotIn _ Hc)|eapply I3; eauto].
    - rewrite upd_same in Hc. rewrite upd_other in Hb by exact Hbn. destruct Hc as [<-|Hc]; [destruct (NotIn _ Hb)|eapply I3; eauto].
    - rewrite upd_other in Hb, Hc by assumption. eapply I3; eauto. }
  destruct (I1 a) as (last & Sa). destruct (head h a) as [f|] eqn:Ef.
  - (* the area had a first block f *)
    destruct (s a) as [|[f' zf] r] eqn:Es; [destruct Sa; discriminate|]. cbn [seg] in Sa. destruct Sa as (E & nx & Mf & Sr). assert (f' = f) by congruence. subst f'.
    assert (Hfl : f <> l) by (intros ->; apply (NotIn a); rewrite Es; left; reflexivity).
    unfold set_prev, rdn. cbn [mem setm event_]. rewrite neqb by exact Hfl. rewrite Mf. cbn [bind n_next n_size n_prev].
    eexists. split; [reflexivity|].
    match goal with |- inv ?H _ => set (hh := H) end. set (m' := mem hh).
    assert (M1 : m' l = Some (Node None (Some f) (16 + z))) by (unfold m', hh; cbn [mem seth setm event_]; rewrite neqb by congruence; rewrite N.eqb_refl; reflexivity).
    assert (M2 : m' f = Some (Node (Some l) nx (16 + zf))) by (unfold m', hh; cbn [mem seth setm event_]; rewrite N.eqb_refl; reflexivity).
    assert (M3 : forall q, q <> l -> q <> f -> m' q = mem h q) by (intros q H1 H2; unfold m', hh; cbn [mem seth setm event_]; rewrite !neqb by assumption; reflexivity).
    constructor; fold m'; unfold hh; cbn [head seth setm event_ log].
    + intros b. destruct (Nat.eqb_spec b a) as [->|Hne].
      * rewrite upd_same. exists last. cbn [seg]. split; [reflexivity|]. exists (Some f). split; [exact M1|]. split; [reflexivity|]. exists nx. split; [exact M2|].
        eapply seg_frame; [|exact Sr]. intros q Hq. specialize (I2 a). rewrite Es in I2. cbn in I2. inversion I2; subst.
        apply M3; [intros ->; apply (NotIn a); rewrite Es; right; exact Hq|intros ->; contradiction].
      * rewrite upd_other by exact Hne. eapply (other_seg (mem h) m' s a b); eauto. intros q Hq Hl'. apply M3; [congruence|].
        intros ->. apply Hq. rewrite Es. left. reflexivity.
    + exact Hnd.
    + exact Hdis.
    + intros p. rewrite <- Hlive. destruct (N.eq_dec p l) as [->|Hp]; [rewrite M1; split; [auto|discriminate]|].
      destruct (N.eq_dec p f) as [->|Hpf]; [rewrite M2; split; [intros _; right; apply I4; congruence|discriminate]|].
      rewrite M3 by assumption. rewrite I4. tauto.
    + intros p. destruct (N.eq_dec p l) as [->|Hp]; [rewrite M1; exact Hh|]. rewrite Hh2 by exact Hp.
      destruct (N.eq_dec p f) as [->|Hpf]; [rewrite M2, Mf; reflexivity|]. rewrite M3 by assumption. reflexivity.
  - destruct (s a) as [|[f' zf] r] eqn:Es; [|destruct Sa; discriminate].
    cbn [bind]. eexists. split; [reflexivity|].
    match goal with |- inv ?H _ => set (hh := H) end. set (m' := mem hh).
    assert (M1 : m' l = Some (Node None None (16 + z))) by (unfold m', hh; cbn [mem seth setm event_]; rewrite N.eqb_refl; reflexivity).
    assert (M3 : forall q, q <> l -> m' q = mem h q) by (intros q H1; unfold m', hh; cbn [mem seth setm event_]; rewrite !neqb by assumption; reflexivity).
    constructor; fold m'; unfold hh; cbn [head seth setm event_ log].
    + intros b. destruct (Nat.eqb_spec b a) as [->|Hne].
      * rewrite upd_same. exists (Some l). cbn [seg]. split; [reflexivity|]. exists None. auto.
      * rewrite upd_other by exact Hne. eapply (other_seg (mem h) m' s a b); eauto. intros q Hq Hl'. apply M3. congruence.
    + exact Hnd.
    + exact Hdis.
    + intros p. rewrite <- Hlive. destruct (N.eq_dec p l) as [->|Hp]; [rewrite M1; split; [auto|discriminate]|].
      rewrite M3 by assumption. rewrite I4. tauto.
    + intros p. destruct (N.eq_dec p l) as [->|Hp]; [rewrite M1; exact Hh|]. rewrite Hh2 by exact Hp. rewrite M3 by assumption. reflexivity.
Qed.

(** ** changing the links around a position of a list *)
(* the pointer that leads into the rest of the list after l1 *)
Definition link_next (h : heap) (pm : option addr) (a : nat) (x : option addr) : res heap :=
  match pm with Some q => set_next h q x | None => Ok (seth h a x) end.
Definition link_prev (h : heap) (hm : option addr) (x : option addr) : res heap :=
  match hm with Some q => set_prev h q x | None => Ok h end.

Lemma link_next_ok h a l1 pm hm x : NoDup (addrs l1) -> seg (mem h) None (head h a) l1 pm hm ->
  exists h', link_next h pm a x = Ok h' /\ seg (mem h') None (head h' a) l1 pm x /\ log h' = log h /\
    (forall b, b <> a -> head h' b = head h b) /\ (forall q, ~ In q (addrs l1) -> mem h' q = mem h q) /\
    (forall q, option_map n_size (mem h' q) = option_map n_size (mem h q)).
Proof.
  intros ND S. destruct (seg_last _ _ _ _ _ _ S) as [(-> & -> & E)|(l0 & q & z & -> & -> & pq & M & S0)].
  - cbn [link_next]. eexists. split; [reflexivity|]. cbn [seth mem head log]. rewrite Nat.eqb_refl. cbn [seg]. repeat split; auto.
    intros b Hb. destruct (Nat.eqb_spec b a); [contradiction|reflexivity].
  - cbn [link_next]. unfold set_next, rdn. rewrite M. cbn [bind n_prev n_size]. eexists. split; [reflexivity|].
    cbn [setm mem head log]. rewrite map_app in ND. cbn in ND. apply NoDup_split in ND. destruct ND as (N1 & _).
    split; [|split; [reflexivity|split; [reflexivity|split]]].
    + apply seg_app. exists pq, (Some q). split.
      * eapply seg_frame; [|exact S0]. intros y Hy. rewrite neqb; [reflexivity|]. intros ->. contradiction.
      * cbn [seg]. split; [reflexivity|]. exists x. rewrite N.eqb_refl. auto.
    + intros y Hy. rewrite neqb; [reflexivity|]. intros ->. apply Hy. rewrite map_app, in_app_iff. right. left. reflexivity.
    + intros y. destruct (N.eqb_spec y q) as [->|]; [rewrite M|]; reflexivity.
Qed.

Lemma link_prev_ok h l2 pm hm last x : NoDup (addrs l2) -> seg (mem h) pm hm l2 last None ->
  exists h' last', link_prev h hm x = Ok h' /\ seg (mem h') x hm l2 last' None /\ log h' = log h /\
    (forall b, head h' b = head h b) /\ (forall q, ~ In q (addrs l2) -> mem h' q = mem h q) /\
    (forall q, option_map n_size (mem h' q) = option_map n_size (mem h q)).
Proof.
  intros ND S. destruct l2 as [|[q z] l2]; cbn [seg] in S.
  - destruct S as [_ ->]. exists h, x. cbn. auto 10.
  - destruct S as (-> & nx & M & S). cbn [link_prev]. unfold set_prev, rdn. rewrite M. cbn [bind n_next n_size].
    cbn in ND. inversion ND as [|? ? Hn ND']; subst.
    eexists. exists last. split; [reflexivity|]. cbn [setm mem head log seg]. split; [|split; [reflexivity|split; [reflexivity|split]]].
    + split; [reflexivity|]. exists nx. rewrite N.eqb_refl. split; [reflexivity|]. eapply seg_frame; [|exact S].
      intros y Hy. rewrite neqb; [reflexivity|]. intros ->. contradiction.
    + intros y Hy. rewrite neqb; [reflexivity|]. intros ->. apply Hy. left. reflexivity.
    + intros y. destruct (N.eqb_spec y q) as [->|]; [rewrite M|]; reflexivity.
Qed.

Lemma in_split_addr p (l : list (addr * N)) : In p (addrs l) -> exists l1 z l2, l = l1 ++ (p, z) :: l2.
Proof.
  intros H. apply in_map_iff in H. destruct H as ([q z] & <- & H). apply in_split in H. destruct H as (l1 & l2 & ->). exists l1, z, l2. reflexivity.
Qed.
Lemma remove_split p z (l1 l2 : list (addr * N)) : ~ In p (addrs l1) -> remove p (l1 ++ (p, z) :: l2) = l1 ++ l2.
Proof.
  induction l1 as [|[q y] l1 IH]; intros H; cbn [remove app fst].
  - rewrite N.eqb_refl. reflexivity.
  - cbn in H. rewrite neqb by tauto. rewrite IH by tauto. reflexivity.
Qed.
Lemma replace_split p q z y (l1 l2 : list (addr * N)) : ~ In p (addrs l1) -> replace p q z (l1 ++ (p, y) :: l2) = l1 ++ (q, z) :: l2.
Proof.
  induction l1 as [|[r w] l1 IH]; intros H; cbn [replace app fst].
  - rewrite N.eqb_refl. reflexivity.
  - cbn in H. rewrite neqb by tauto. rewrite IH by tauto. reflexivity.
Qed.

Lemma size_none (o : option node) (o' : option node) : option_map n_size o = option_map n_size o' -> (o <> None <-> o' <> None).
Proof. destruct o, o'; cbn; intros; split; congruence. Qed.

Lemma afree_ok h s a p : inv h s -> In p (addrs (s a)) ->
  exists h', afree h (Some p) a = Ok h' /\ inv h' (upd s a (remove p (s a))) /\ log h' = log h ++ [EvFree p].
Proof.
  intros I Hp. destruct I as [I1 I2 I3 I4 I5].
  destruct (in_split_addr _ _ Hp) as (l1 & z & l2 & Es). destruct (I1 a) as (last & S).
  specialize (I2 a) as ND. rewrite Es in S, ND. rewrite map_app in ND. cbn [map fst] in ND. apply NoDup_split in ND. destruct ND as (N1 & N2 & N3 & N4).
  rewrite Es, remove_split by exact N1.
  apply seg_app in S. destruct S as (pm & hm & S1 & (-> & nx & M & S2)).
  assert (ND1 : NoDup (addrs l1)) by (apply NoDup_left in N4; exact N4).
  assert (ND2 : NoDup (addrs l2)) by (apply NoDup_right in N4; exact N4).
  unfold afree, rdn at 1. rewrite M. cbn [bind n_prev n_next].
  destruct (link_next_ok h a l1 pm (Some p) nx ND1 S1) as (h1 & E1 & A1 & A2 & A3 & A4 & A5).
  fold (link_next h pm a nx). rewrite E1. cbn [bind].
  assert (S2' : seg (mem h1) (Some p) nx l2 last None).
  { eapply seg_frame; [|exact S2]. intros q Hq. apply A4. intros C. apply (N3 q C Hq). }
  destruct (link_prev_ok h1 l2 (Some p) nx last pm ND2 S2') as (h2 & last' & E2 & B1 & B2 & B3 & B4 & B5).
  fold (link_prev h1 nx pm). rewrite E2. cbn [bind].
  assert (Mp : mem h2 p = mem h p) by (rewrite B4, A4 by assumption; reflexivity).
  unfold free, rdn. rewrite Mp, M. cbn [bind]. eexists. split; [reflexivity|]. split; [|cbn; rewrite B2, A2; reflexivity].
  match goal with |- inv ?H _ => set (hh := H) end. set (m' := mem hh).
  assert (M1 : m' p = None) by (unfold m', hh; cbn [mem seth setm event_]; rewrite N.eqb_refl; reflexivity).
  assert (M3 : forall q, q <> p -> m' q = mem h2 q) by (intros q H; unfold m', hh; cbn [mem seth setm event_]; rewrite neqb by assumption; reflexivity).
  assert (SZ : forall q, option_map n_size (mem h2 q) = option_map n_size (mem h q)) by (intros q; rewrite B5; apply A5).
  constructor; fold m'; unfold hh; cbn [head seth setm event_ log].
  - intros b. destruct (Nat.eq_dec b a) as [->|Hne].
    + rewrite upd_same. exists last'. apply seg_app. exists pm, nx. split.
      * rewrite B3. eapply seg_frame; [|exact A1]. intros q Hq. rewrite M3 by (intros ->; contradiction). apply B4. apply N3, Hq.
      * eapply seg_frame; [|exact B1]. intros q Hq. apply M3. intros ->. contradiction.
    + rewrite upd_other by exact Hne. rewrite B3, A3 by exact Hne.
      eapply (other_seg (mem h) m' s a b); eauto. rewrite Es. intros q Hq _. rewrite map_app in Hq. cbn in Hq. rewrite in_app_iff in Hq. cbn in Hq.
      rewrite M3 by (intros ->; tauto). rewrite B4, A4 by tauto. reflexivity.
  - intros b. destruct (Nat.eq_dec b a) as [->|Hne]; [rewrite upd_same, map_app; exact N4|rewrite upd_other by exact Hne; apply I2].
  - assert (K : forall b q, In q (addrs (upd s a (l1 ++ l2) b)) -> In q (addrs (s b))).
    { intros b q. destruct (Nat.eq_dec b a) as [->|Hne]; [rewrite upd_same, Es, !map_app, !in_app_iff; cbn; tauto|rewrite upd_other by exact Hne; auto]. }
    intros b c q Hb Hc. apply (I3 b c q); apply K; assumption.
  - intros q. destruct (N.eq_dec q p) as [->|Hq].
    + rewrite M1. split; [congruence|]. intros [b Hb]. exfalso. destruct (Nat.eq_dec b a) as [->|Hne].
      * rewrite upd_same, map_app, in_app_iff in Hb. tauto.
      * rewrite upd_other in Hb by exact Hne. apply Hne. eapply I3; eauto.
    + rewrite M3 by exact Hq. rewrite (size_none _ _ (SZ q)), I4. unfold inuse. split; intros [b Hb]; exists b.
      * destruct (Nat.eq_dec b a) as [->|Hne]; [rewrite upd_same|rewrite upd_other by exact Hne; exact Hb].
        rewrite Es, map_app, in_app_iff in Hb. cbn in Hb. rewrite map_app, in_app_iff. destruct Hb as [Hb|[Hb|Hb]]; [auto|congruence|auto].
      * destruct (Nat.eq_dec b a) as [->|Hne]; [rewrite upd_same in Hb|rewrite upd_other in Hb by exact Hne; exact Hb].
        rewrite Es, map_app, in_app_iff. cbn. rewrite map_app, in_app_iff in Hb. tauto.
  - intros q. rewrite B2, A2, history_app, I5. destruct (N.eq_dec q p) as [->|Hq].
    + rewrite M, M1. cbn. rewrite N.eqb_refl. reflexivity.
    + rewrite M3 by exact Hq. rewrite SZ. destruct (mem h q); cbn; rewrite neqb by congruence; reflexivity.
Qed.

Lemma aresize_ok h s a p z q : inv h s -> fits z = true -> In p (addrs (s a)) -> (q = p \/ ~ inuse s q) ->
  exists h', aresize h (Some p) z a (Some q) = Ok (h', q) /\ inv h' (upd s a (replace p q z (s a))).
Proof.
  intros I Hz Hp Hq. destruct (fits_ok z Hz) as [F1 F2]. destruct I as [I1 I2 I3 I4 I5].
  destruct (in_split_addr _ _ Hp) as (l1 & y & l2 & Es). destruct (I1 a) as (last & S).
  specialize (I2 a) as ND. rewrite Es in S, ND. rewrite map_app in ND. cbn [map fst] in ND. apply NoDup_split in ND. destruct ND as (N1 & N2 & N3 & N4).
  rewrite Es, replace_split by exact N1.
  apply seg_app in S. destruct S as (pm & hm & S1 & (-> & nx & M & S2)).
  assert (ND1 : NoDup (addrs l1)) by (apply NoDup_left in N4; exact N4).
  assert (ND2 : NoDup (addrs l2)) by (apply NoDup_right in N4; exact N4).
  assert (Hq1 : forall b r, In r (addrs (s b)) -> r = q -> r = p).
  { intros b r Hr ->. destruct Hq as [->|Hq]; [reflexivity|]. exfalso. apply Hq. exists b. exact Hr. }
  assert (Q1 : ~ In q (addrs l1)).
  { intros C. assert (q = p) by (apply (Hq1 a q); [rewrite Es, map_app, in_app_iff; auto|reflexivity]). subst. contradiction. }
  assert (Q2 : ~ In q (addrs l2)).
  { intros C. assert (q = p) by (apply (Hq1 a q); [rewrite Es, map_app, in_app_iff; cbn; auto|reflexivity]). subst. contradiction. }
  assert (Q3 : forall b, b <> a -> ~ In q (addrs (s b))).
  { intros b Hb C. assert (q = p) by (apply (Hq1 b q); auto). subst. apply Hb. eapply I3; eauto. }
  unfold aresize, rdn at 1. rewrite F1, F2, M. cbn [bind n_prev n_next].
  set (h0 := setm _ q _).
  assert (Z1 : mem h0 q = Some (Node pm nx (16 + z))) by (unfold h0; cbn; rewrite N.eqb_refl; reflexivity).
  assert (Z2 : forall r, r <> q -> r <> p -> mem h0 r = mem h r) by (intros r H1 H2; unfold h0; cbn; rewrite !neqb by assumption; reflexivity).
  assert (Z3 : q <> p -> mem h0 p = None) by (intros H1; unfold h0; cbn; rewrite neqb by congruence; rewrite N.eqb_refl; reflexivity).
  assert (S1' : seg (mem h0) None (head h0 a) l1 pm (Some p)).
  { eapply seg_frame; [|exact S1]. intros r Hr. apply Z2; intros ->; contradiction. }
  destruct (link_next_ok h0 a l1 pm (Some p) (Some q) ND1 S1') as (h1 & E1 & A1 & A2 & A3 & A4 & A5).
  fold (link_next h0 pm a (Some q)). rewrite E1. cbn [bind].
  assert (S2' : seg (mem h1) (Some p) nx l2 last None).
  { eapply seg_frame; [|exact S2]. intros r Hr. rewrite A4 by (intros C; apply (N3 r C Hr)). apply Z2; intros ->; contradiction. }
  destruct (link_prev_ok h1 l2 (Some p) nx last (Some q) ND2 S2') as (h2 & last' & E2 & B1 & B2 & B3 & B4 & B5).
  fold (link_prev h1 nx (Some q)). rewrite E2. cbn [bind].
  assert (SZ : forall r, option_map n_size (mem h2 r) = option_map n_size (mem h0 r)) by (intros r; rewrite B5; apply A5).
  eexists. split; [reflexivity|].
  assert (LOG : log h2 = (log h ++ [EvFree p]) ++ [EvMalloc q (16 + z)]) by (rewrite B2, A2; reflexivity).
  assert (NDn : NoDup (addrs (l1 ++ (q, z) :: l2))).
  { rewrite map_app. cbn [map fst]. apply NoDup_Add with (a := q) (l := addrs l1 ++ addrs l2); [apply Add_app|]. split; [exact N4|]. rewrite in_app_iff. tauto. }
  constructor.
  - intros b. destruct (Nat.eq_dec b a) as [->|Hne].
    + rewrite upd_same. exists last'. apply seg_app. exists pm, (Some q). split.
      * rewrite B3. eapply seg_frame; [|exact A1]. intros r Hr. apply B4. apply N3, Hr.
      * cbn [seg]. split; [reflexivity|]. exists nx. split; [|exact B1]. rewrite B4, A4 by assumption. exact Z1.
    + rewrite upd_other by exact Hne. rewrite B3, A3 by exact Hne. destruct (I1 b) as (lb & Sb). exists lb. change (head h0 b) with (head h b).
      eapply seg_frame; [|exact Sb]. intros r Hr. rewrite B4, A4, Z2; auto.
      * intros ->. apply (Q3 b Hne Hr).
      * intros ->. apply Hne. eapply I3; eauto.
      * intros C. apply Hne. apply (I3 b a r); [exact Hr|]. rewrite Es, map_app, in_app_iff. auto.
      * intros C. apply Hne. apply (I3 b a r); [exact Hr|]. rewrite Es, map_app, in_app_iff. cbn. auto.
  - intros b. destruct (Nat.eq_dec b a) as [->|Hne]; [rewrite upd_same; exact NDn|rewrite upd_other by exact Hne; apply I2].
  - assert (K : forall b r, In r (addrs (upd s a (l1 ++ (q, z) :: l2) b)) -> (b = a /\ r = q) \/ In r (addrs (s b))).
    { intros b r. destruct (Nat.eq_dec b a) as [->|Hne]; [rewrite upd_same, Es, !map_app, !in_app_iff; cbn; intuition|rewrite upd_other by exact Hne; auto]. }
    intros b c r Hb Hc. apply K in Hb. apply K in Hc. destruct Hb as [[-> ->]|Hb], Hc as [[-> Hc]|Hc]; auto.
    + destruct (Nat.eq_dec c a) as [|Hne]; [auto|]. destruct (Q3 c Hne Hc).
    + subst r. destruct (Nat.eq_dec b a) as [|Hne]; [auto|]. destruct (Q3 b Hne Hb).
    + eapply I3; eauto.
  - intros r. rewrite (size_none _ _ (SZ r)). unfold inuse. destruct (N.eq_dec r q) as [->|Hr].
    + rewrite Z1. split; [intros _; exists a; rewrite upd_same, map_app, in_app_iff; cbn; auto|discriminate].
    + destruct (N.eq_dec r p) as [->|Hrp].
      * rewrite Z3 by congruence. split; [congruence|]. intros [b Hb]. exfalso. destruct (Nat.eq_dec b a) as [->|Hne].
        -- rewrite upd_same, map_app, in_app_iff in Hb. cbn in Hb. intuition.
        -- rewrite upd_other in Hb by exact Hne. apply Hne. eapply I3; eauto.
      * rewrite Z2 by assumption. rewrite I4. unfold inuse. split; intros [b Hb]; exists b.
        -- destruct (Nat.eq_dec b a) as [->|Hne]; [rewrite upd_same|rewrite upd_other by exact Hne; exact Hb].
           rewrite Es, map_app, in_app_iff in Hb. cbn in Hb. rewrite map_app, in_app_iff. cbn. destruct Hb as [Hb|[Hb|Hb]]; [auto|congruence|auto].
        -- destruct (Nat.eq_dec b a) as [->|Hne]; [rewrite upd_same in Hb|rewrite upd_other in Hb by exact Hne; exact Hb].
           rewrite Es, map_app, in_app_iff. cbn. rewrite map_app, in_app_iff in Hb. cbn in Hb. destruct Hb as [Hb|[Hb|Hb]]; [auto|congruence|auto].
  - intros r. rewrite LOG, !history_app, I5, SZ. destruct (N.eq_dec r p) as [->|Hrp].
    + rewrite M. cbn [option_map hstep]. rewrite N.eqb_refl. cbn [hstep]. destruct (N.eqb_spec q p) as [->|Hqp].
      * rewrite Z1. reflexivity.
      * rewrite Z3 by exact Hqp. reflexivity.
    + assert (E : hstep r (Some (option_map n_size (mem h r))) (EvFree p) = Some (option_map n_size (mem h r))).
      { destruct (mem h r); cbn; rewrite neqb by congruence; reflexivity. }
      rewrite E. destruct (N.eq_dec r q) as [->|Hrq].
      * rewrite Z1. destruct Hq as [->|Hq]; [congruence|]. assert (mem h q = None).
        { destruct (mem h q) eqn:Eq; [|reflexivity]. exfalso. apply Hq, I4. congruence. }
        rewrite H. cbn. rewrite N.eqb_refl. reflexivity.
      * rewrite Z2 by assumption. destruct (mem h r); cbn; rewrite neqb by congruence; reflexivity.
Qed.

(** ** tearing down *)
Lemma freeall_ok l : forall fuel h pv hd last, length l <= fuel -> NoDup (addrs l) -> seg (mem h) pv hd l last None ->
  exists h', freeall_loop fuel h hd = Ok h' /\ head h' = head h /\ log h' = log h ++ map EvFree (addrs l) /\
    (forall q, In q (addrs l) -> mem h' q = None) /\ (forall q, ~ In q (addrs l) -> mem h' q = mem h q).
Proof.
  induction l as [|[p z] l IH]; intros fuel h pv hd last Hf ND S; cbn [seg] in S.
  - destruct S as [_ ->]. exists h. destruct fuel; cbn; rewrite app_nil_r; intuition.
  - destruct S as (-> & nx & M & S). destruct fuel as [|fuel]; [cbn in Hf; lia|].
    cbn [freeall_loop]. unfold free, rdn. rewrite M. cbn [bind n_next].
    cbn in ND. inversion ND as [|? ? Hn ND']; subst.
    destruct (IH fuel (event_ (setm h p None) (EvFree p)) (Some p) nx last) as (h' & E & E1 & E2 & E3 & E4); auto.
    + cbn in Hf. lia.
    + eapply seg_frame; [|exact S]. intros q Hq. cbn. rewrite neqb; [reflexivity|]. intros ->. contradiction.
    + rewrite E. exists h'. split; [reflexivity|]. split; [rewrite E1; reflexivity|]. split; [rewrite E2; cbn; rewrite <- app_assoc; reflexivity|]. split.
      * intros q [<-|Hq]; [|apply E3, Hq]. cbn [fst]. rewrite E4 by exact Hn. cbn. rewrite N.eqb_refl. reflexivity.
      * cbn [map fst In]. intros q Hq. rewrite E4 by tauto. cbn. rewrite neqb; [reflexivity|]. intros ->. tauto.
Qed.

Lemma history_frees l : forall lg q, NoDup l -> (forall p, In p l -> exists n, history lg p = Some (Some n)) ->
  (In q l -> history (lg ++ map EvFree l) q = Some None) /\ (~ In q l -> history lg q <> None -> history (lg ++ map EvFree l) q = history lg q).
Proof.
  induction l as [|p l IH]; intros lg q ND Hl; cbn [map].
  - rewrite app_nil_r. split; [intros []|reflexivity].
  - inversion ND as [|? ? Hn ND']; subst. change (EvFree p :: map EvFree l) with ([EvFree p] ++ map EvFree l). rewrite app_assoc.
    assert (Step : forall r, r <> p -> history lg r <> None -> history (lg ++ [EvFree p]) r = history lg r).
    { intros r Hr Hh. rewrite history_app. destruct (history lg r) as [[n|]|]; cbn; try rewrite neqb by congruence; congruence. }
    destruct (IH (lg ++ [EvFree p]) q ND') as [G1 G2].
    { intros r Hr. destruct (Hl r (or_intror Hr)) as (n & E). exists n. rewrite Step; [exact E| |congruence]. intros ->. contradiction. }
    split.
    + intros [<-|Hq]; [|apply G1, Hq]. destruct (Hl p (or_introl eq_refl)) as (n & E).
      assert (E' : history (lg ++ [EvFree p]) p = Some None) by (rewrite history_app, E; cbn; rewrite N.eqb_refl; reflexivity).
      rewrite G2; [exact E'|exact Hn|congruence].
    + cbn [In]. intros Hq Hh. assert (E : history (lg ++ [EvFree p]) q = history lg q) by (apply Step; [intros ->; tauto|exact Hh]).
      rewrite G2; [exact E|tauto|congruence].
Qed.

Lemma afreeall_ok h s a fuel : inv h s -> length (s a) <= fuel ->
  exists h', afreeall fuel h a = Ok h' /\ inv h' (upd s a []) /\ log h' = log h ++ map EvFree (addrs (s a)).
Proof.
  intros I Hf. destruct I as [I1 I2 I3 I4 I5]. destruct (I1 a) as (last & S). unfold afreeall.
  destruct (freeall_ok (s a) fuel h None (head h a) last Hf (I2 a) S) as (h' & E & E1 & E2 & E3 & E4).
  rewrite E. cbn [bind]. eexists. split; [reflexivity|]. split; [|exact E2].
  constructor; cbn [seth mem head log].
  - intros b. destruct (Nat.eqb_spec b a) as [->|Hne]; [rewrite upd_same; exists None; cbn; auto|].
    rewrite upd_other by exact Hne. rewrite E1. eapply (other_seg (mem h) (mem h') s a b); eauto.
  - intros b. destruct (Nat.eq_dec b a) as [->|Hne]; [rewrite upd_same; constructor|rewrite upd_other by exact Hne; apply I2].
  - assert (K : forall b q, In q (addrs (upd s a [] b)) -> In q (addrs (s b))).
    { intros b q. destruct (Nat.eq_dec b a) as [->|Hne]; [rewrite upd_same; intros []|rewrite upd_other by exact Hne; auto]. }
    intros b c q Hb Hc. apply (I3 b c q); apply K; assumption.
  - intros q. destruct (in_dec N.eq_dec q (addrs (s a))) as [Hq|Hq].
    + rewrite E3 by exact Hq. split; [congruence|]. intros [b Hb]. exfalso. destruct (Nat.eq_dec b a) as [->|Hne]; [rewrite upd_same in Hb; exact Hb|].
      rewrite upd_other in Hb by exact Hne. apply Hne. eapply I3; eauto.
    + rewrite E4 by exact Hq. rewrite I4. split; intros [b Hb]; exists b.
      * destruct (Nat.eq_dec b a) as [->|Hne]; [contradiction|rewrite upd_other by exact Hne; exact Hb].
      * destruct (Nat.eq_dec b a) as [->|Hne]; [rewrite upd_same in Hb; destruct Hb|rewrite upd_other in Hb by exact Hne; exact Hb].
  - intros q. rewrite E2. destruct (history_frees (addrs (s a)) (log h) q (I2 a)) as [G1 G2].
    { intros p Hp. rewrite I5. destruct (mem h p) as [n|] eqn:Ep; [exists (n_size n); reflexivity|]. exfalso. revert Ep. apply I4. exists a. exact Hp. }
    destruct (in_dec N.eq_dec q (addrs (s a))) as [Hq|Hq]; [rewrite G1, E3 by exact Hq; reflexivity|].
    rewrite G2, E4, I5 by (try exact Hq; rewrite ?I5; discriminate). reflexivity.
Qed.

(** ** all operations *)
Lemma array_size h p k z a m :
  areallocarray h p k z a m = if fits (k * z) then aresize h p (k * z)%N a m else Err.
Proof.
  unfold areallocarray. destruct (fits (k * z)) eqn:F.
  - destruct (((MUL_NO_OVERFLOW <=? k) || (MUL_NO_OVERFLOW <=? z)) && (0 <? k) && (SIZE_MAX / k <? z))%N eqn:E.
    + exfalso. unfold fits in F. apply andb_prop in E. destruct E as [E1 E2]. apply andb_prop in E1. destruct E1 as [_ E1].
      apply N.ltb_lt in E1, E2. assert (z <= SIZE_MAX / k)%N; [|lia]. apply N.div_le_lower_bound; [lia|]. unfold SIZE_MAX. lia.
    + rewrite N.mod_small; [reflexivity|]. unfold fits in F. unfold SIZE_MAX. lia.
  - destruct (((MUL_NO_OVERFLOW <=? k) || (MUL_NO_OVERFLOW <=? z)) && (0 <? k) && (SIZE_MAX / k <? z))%N eqn:E; [reflexivity|].
    assert (K : (k * z <= SIZE_MAX)%N).
    { destruct (N.le_gt_cases (k * z) SIZE_MAX) as [H|H]; [exact H|]. exfalso. apply N.lt_succ_r in H || idtac.
      apply not_true_iff_false in E. apply E. rewrite !andb_true_iff, orb_true_iff.
      assert (0 < k)%N by (destruct k; [unfold SIZE_MAX in H; cbn in H|]; lia).
      split; [split|].
      - destruct (N.le_gt_cases MUL_NO_OVERFLOW k) as [H1|H1]; [left; apply N.leb_le, H1|].
        destruct (N.le_gt_cases MUL_NO_OVERFLOW z) as [H2|H2]; [right; apply N.leb_le, H2|]. exfalso.
        assert (k * z <= (2^32 - 1) * (2^32 - 1))%N by (apply N.mul_le_mono; unfold MUL_NO_OVERFLOW in *; lia).
        unfold SIZE_MAX in H. lia.
      - apply N.ltb_lt. assumption.
      - apply N.ltb_lt. apply N.div_lt_upper_bound; lia. }
    rewrite N.mod_small by lia. pose proof (fits_no _ F) as F1. unfold aresize, alloc. destruct p; rewrite F1; reflexivity.
Qed.

Lemma alloc_none h z a : kept h (alloc h z a None) = Ok h.
Proof. unfold alloc. destruct (_ <? _)%N; reflexivity. Qed.
Lemma alloc_big h z a m : fits z = false -> alloc h z a m = Err.
Proof. intros F. unfold alloc. rewrite fits_no by exact F. reflexivity. Qed.

Lemma len_remove p l : length (remove p l) <= length l.
Proof. induction l as [|[q z] l IH]; cbn; [lia|]. destruct (_ =? _)%N; cbn; lia. Qed.
Lemma len_replace p q z l : length (replace p q z l) = length l.
Proof. induction l as [|[r y] l IH]; cbn; [reflexivity|]. destruct (_ =? _)%N; cbn; auto. Qed.
Lemma sop_len s o b : length (sop s o b) <= S (length (s b)).
Proof.
  assert (K : forall a l, length l <= S (length (s a)) -> length (upd s a l b) <= S (length (s b))).
  { intros a l H. unfold upd. destruct (Nat.eqb_spec b a) as [->|]; [exact H|lia]. }
  destruct o as [a z [m|]|a [p|] k z [m|]|a [p|]|a]; cbn [sop]; try (destruct (fits _)); try lia; apply K; cbn [length]; try lia.
  - rewrite len_replace. lia.
  - pose proof (len_remove p (s a)). lia.
Qed.

Lemma do_op_ok h s o fuel : inv h s -> legal s o -> (forall a, length (s a) <= fuel) ->
  exists h', do_op fuel h o = Ok h' /\ inv h' (sop s o).
Proof.
  intros I Hl Hf. destruct o as [a z m|a p k z m|a p|a]; cbn [do_op sop].
  - destruct m as [m|]; [|exists h; rewrite alloc_none; auto]. destruct (fits z) eqn:F.
    + destruct (alloc_ok h s a z m I F Hl) as (h' & E & I'). exists h'. rewrite E. auto.
    + exists h. rewrite alloc_big by exact F. auto.
  - rewrite array_size. destruct p as [p|], m as [m|]; cbn [legal] in Hl.
    + destruct Hl as [Hp Hm]. destruct (fits (k * z)) eqn:F; [|exists h; auto].
      destruct (aresize_ok h s a p (k * z)%N m I F Hp Hm) as (h' & E & I'). exists h'. rewrite E. auto.
    + exists h. split; [|exact I]. destruct (fits (k * z)); [|reflexivity]. unfold aresize, rdn. destruct (_ <? _)%N; [reflexivity|].
      destruct (mem h p) eqn:E; [reflexivity|]. exfalso. revert E. apply (i_live h s I). exists a. exact Hl.
    + destruct (fits (k * z)) eqn:F; [|exists h; auto]. cbn [aresize].
      destruct (alloc_ok h s a (k * z)%N m I F Hl) as (h' & E & I'). exists h'. rewrite E. auto.
    + exists h. split; [|exact I]. destruct (fits (k * z)); [|reflexivity]. apply alloc_none.
  - destruct p as [p|]; [|exists h; auto]. destruct (afree_ok h s a p I Hl) as (h' & E & I' & _). exists h'. auto.
  - destruct (afreeall_ok h s a fuel I (Hf a)) as (h' & E & I' & _). exists h'. auto.
Qed.

Lemma run_ok ops : forall h s fuel, inv h s -> legal_run s ops -> (forall a, length (s a) + length ops <= fuel) ->
  exists h', run fuel h ops = Ok h' /\ inv h' (srun ops s).
Proof.
  induction ops as [|o ops IH]; intros h s fuel I Hl Hf; cbn [run srun fold_left length legal_run] in *.
  - exists h. auto.
  - destruct Hl as [Hl Hr]. destruct (do_op_ok h s o fuel I Hl) as (h1 & E & I1); [intros a; specialize (Hf a); lia|].
    rewrite E. cbn [bind]. apply IH; auto. intros a. pose proof (sop_len s o a). specialize (Hf a). lia.
Qed.

Lemma srun_len ops : forall s a, length (srun ops s a) <= length (s a) + length ops.
Proof.
  induction ops as [|o ops IH]; intros s a; cbn [srun fold_left length]; [lia|].
  fold (srun ops (sop s o)). pose proof (IH (sop s o) a). pose proof (sop_len s o a). lia.
Qed.
