From Verif Require Import Base Num_model SimplifyPath_model Mail_model Mail_spec.
Local Open Scope nat_scope.
Ltac sp := repeat match goal with |- _ /\ _ => split end.

(** ** The separator *)
Lemma chr_at_app c a r : chr_at c (a ++ r) (length a) = option_map (Nat.add (length a)) (chr_at c r 0).
Proof. induction a; cbn; [now destruct (chr_at c r 0)|]. rewrite IHa. now destruct (chr_at c r 0). Qed.
Lemma chr_none c r : chr_at c r 0 = None -> ~ In c r.
Proof.
  induction r as [|d r IH]; cbn; [tauto|]. destruct (ceq_spec d c) as [->|N]; [discriminate|].
  destruct (chr_at c r 0); [discriminate|]. intros _ [X|X]; [congruence|]. now apply IH.
Qed.
Lemma chr_some c r : forall i, chr_at c r 0 = Some i -> exists x y, r = x ++ c :: y /\ ~ In c x /\ i = length x.
Proof.
  induction r as [|d r IH]; cbn; intros i H; [discriminate|]. destruct (ceq_spec d c) as [->|N].
  - injection H as <-. exists [], r. auto.
  - destruct (chr_at c r 0) as [j|]; [|discriminate]. injection H as <-. destruct (IH j eq_refl) as (x & y & -> & B & ->).
    exists (d :: x), y. cbn. sp; auto. intros [X|X]; congruence || auto.
Qed.
Lemma plain_id x : ~ In "%"%char x -> plain x = x.
Proof.
  induction x as [|c x IH]; auto. intros H. cbn in H. cbn [plain]. rewrite IH by tauto.
  destruct (ceq c "\"); auto. destruct x as [|d x]; auto.
  destruct (ceq_spec d "%"); auto. subst. cbn in H. tauto.
Qed.
Lemma plain_step x y : ~ In "%"%char x -> plain (x ++ "\"%char :: "%"%char :: y) = x ++ "%"%char :: plain y.
Proof.
  induction x as [|c x IH]; intros H; [reflexivity|]. cbn in H. cbn [app plain]. rewrite IH by tauto.
  destruct (ceq c "\"); auto. destruct x as [|d x]; cbn [app]; auto.
  destruct (ceq_spec d "%"); auto. subst. cbn in H. tauto.
Qed.
Lemma nosep_in x : ~ In "%"%char x -> no_separator x.
Proof. intros H a b ->. exfalso. apply H, in_or_app. right. now left. Qed.
Lemma app_split {A} (p q u v : list A) c : p ++ q = u ++ c :: v ->
  (exists w, p = u ++ c :: w /\ v = w ++ q) \/ (exists w, u = p ++ w /\ q = w ++ c :: v).
Proof.
  revert u. induction p as [|a p IH]; intros u H; cbn in *.
  - right. exists u. auto.
  - destruct u as [|b u]; cbn in H; injection H as <- H.
    + left. exists p. cbn. auto.
    + destruct (IH u H) as [(w & -> & ->)|(w & -> & ->)]; [left|right]; exists w; auto.
Qed.
Lemma nosep_app p q : no_separator p -> no_separator q -> no_separator (p ++ q).
Proof.
  intros P Q u v E. apply app_split in E as [(w & -> & _)|(w & -> & ->)].
  - eapply P; eauto.
  - destruct (Q w v eq_refl) as (w' & ->). exists (p ++ w'). now rewrite app_assoc.
Qed.
Lemma nosep_pair x : ~ In "%"%char x -> no_separator (x ++ ["\"%char; "%"%char]).
Proof.
  intros H. apply nosep_app; [now apply nosep_in|]. intros u v E.
  destruct u as [|b u]; [discriminate|]. injection E as <- E. destruct u as [|b u].
  - exists []. reflexivity.
  - injection E as <- E. now destruct u.
Qed.
Lemma ends_app p q : q <> [] -> after_backslash (p ++ q) -> after_backslash q.
Proof.
  intros N (w & E). destruct (exists_last N) as (q' & c & ->). rewrite app_assoc in E. apply app_inj_tail in E as [_ ->].
  now exists q'.
Qed.

Definition settled (a : cstr) : Prop := a = [] \/ exists a', a = a' ++ ["%"%char].
Lemma percent_spec : forall fuel a r, length r < fuel -> settled a ->
  percent fuel (a ++ r) (length a) = Some (a ++ plain r, None) /\ no_separator r \/
  exists x m, r = x ++ "%"%char :: m /\ no_separator x /\ ~ after_backslash x /\
    percent fuel (a ++ r) (length a) = Some ((a ++ plain x) ++ "%"%char :: m, Some (length (a ++ plain x))).
Proof.
  induction fuel as [|fuel IH]; intros a r F S; [lia|]. cbn [percent]. rewrite chr_at_app.
  destruct (chr_at "%" r 0) as [i|] eqn:E; cbn [option_map].
  2:{ apply chr_none in E. left. rewrite plain_id by auto. split; auto. now apply nosep_in. }
  apply chr_some in E as (x & y & -> & N & ->).
  destruct (list_eq_dec ascii_dec x []) as [->|NE].
  - (* at once *)
    right. exists [], y. cbn [length app plain]. rewrite Nat.add_0_r, app_nil_r. sp; auto.
    + intros u v Z. now destruct u.
    + intros (w & Z). now destruct w.
    + destruct S as [->|(a' & ->)]; [reflexivity|].
      rewrite app_length. cbn [length]. replace (length a' + 1 - 1) with (length a') by lia.
      rewrite <- app_assoc, app_nth2, Nat.sub_diag by lia. cbn. now rewrite andb_false_r.
  - destruct (exists_last NE) as (x' & c & ->).
    replace (0 <? length a + length (x' ++ [c])) with true by (symmetry; apply Nat.ltb_lt; rewrite app_length; cbn; lia).
    replace (nth (length a + length (x' ++ [c]) - 1) (a ++ (x' ++ [c]) ++ "%"%char :: y) NUL) with c.
    2:{ rewrite app_nth2 by (rewrite app_length; cbn; lia). rewrite <- app_assoc, app_nth2 by (rewrite app_length; cbn; lia).
        rewrite app_length. cbn [length]. replace (length a + (length x' + 1) - 1 - length a - length x') with 0 by lia. reflexivity. }
    cbn [andb]. destruct (ceq_spec c "\") as [->|NB].
    + (* quoted *)
      assert (Q : squeeze (a ++ (x' ++ ["\"%char]) ++ "%"%char :: y) (length a + length (x' ++ ["\"%char])) = (a ++ x' ++ ["%"%char]) ++ y).
      { unfold squeeze. rewrite app_length. cbn [length]. replace (length a + (length x' + 1) - 1) with (length (a ++ x')) by (rewrite app_length; lia).
        replace (length a + (length x' + 1)) with (length (a ++ x' ++ ["\"%char])) by (rewrite !app_length; cbn; lia).
        replace (a ++ (x' ++ ["\"%char]) ++ "%"%char :: y) with ((a ++ x') ++ "\"%char :: "%"%char :: y) by now rewrite <- !app_assoc.
        rewrite firstn_app, firstn_all, Nat.sub_diag, firstn_O, app_nil_r.
        replace ((a ++ x') ++ "\"%char :: "%"%char :: y) with ((a ++ x' ++ ["\"%char]) ++ "%"%char :: y) by now rewrite <- !app_assoc.
        rewrite skipn_app, skipn_all, Nat.sub_diag. cbn. now rewrite <- !app_assoc. }
      rewrite Q. replace (length a + length (x' ++ ["\"%char])) with (length (a ++ x' ++ ["%"%char])) by (rewrite !app_length; cbn; lia).
      assert (N' : ~ In "%"%char x') by (intros Z; apply N, in_or_app; now left).
      replace ((x' ++ ["\"%char]) ++ "%"%char :: y) with (x' ++ "\"%char :: "%"%char :: y) by now rewrite <- app_assoc.
      destruct (IH (a ++ x' ++ ["%"%char]) y) as [(P & H)|(z & m & -> & H1 & H2 & P)].
      * rewrite !app_length in F. cbn in F. lia.
      * right. exists (a ++ x'). now rewrite <- app_assoc.
      * left. rewrite P, plain_step by auto. rewrite <- !app_assoc. split; [reflexivity|].
        replace (x' ++ "\"%char :: "%"%char :: y) with ((x' ++ ["\"%char; "%"%char]) ++ y) by now rewrite <- app_assoc.
        apply nosep_app; auto. now apply nosep_pair.
      * right. exists (x' ++ "\"%char :: "%"%char :: z), m.
        rewrite P, plain_step by auto. rewrite <- !app_assoc. sp; auto.
        -- replace (x' ++ "\"%char :: "%"%char :: z) with ((x' ++ ["\"%char; "%"%char]) ++ z) by now rewrite <- app_assoc.
           apply nosep_app; auto. now apply nosep_pair.
        -- intros Z. replace (x' ++ "\"%char :: "%"%char :: z) with ((x' ++ ["\"%char; "%"%char]) ++ z) in Z by now rewrite <- app_assoc.
           destruct z as [|d z]; [|apply H2; eapply ends_app; eauto; discriminate].
           rewrite app_nil_r in Z. destruct Z as (w & Z). change ["\"%char; "%"%char] with (["\"%char] ++ ["%"%char]) in Z.
           rewrite app_assoc in Z. apply app_inj_tail in Z as [_ Z]. discriminate.
    + right. exists (x' ++ [c]), y. rewrite plain_id by auto. sp; auto.
      * now apply nosep_in.
      * intros (w & Z). apply app_inj_tail in Z as [_ Z]. congruence.
      * rewrite <- (app_length a). f_equal. f_equal. now rewrite <- !app_assoc.
Qed.

Lemma entry_of_spec posix s : exists p m, entry posix s p m /\ entry_of posix s = Some (p, opt_msg m).
Proof.
  unfold entry_of. destruct (percent_spec (S (length s)) [] s) as [(P & H)|(x & m & E & H1 & H2 & P)]; [lia|now left| |].
  - cbn [app length] in P. rewrite P. destruct posix.
    + exists (plain s), []. split; auto. apply E_file; auto.
    + destruct (chr_at "?" (plain s) 0) as [i|] eqn:E.
      * apply chr_some in E as (x & y & E & N & ->). exists x, y. split; [eapply E_question; eauto|].
        rewrite E, firstn_app, firstn_all, Nat.sub_diag, firstn_O, app_nil_r.
        replace (x ++ "?"%char :: y) with ((x ++ ["?"%char]) ++ y) by now rewrite <- app_assoc.
        replace (S (length x)) with (length (x ++ ["?"%char])) by (rewrite app_length; cbn; lia).
        rewrite skipn_app, skipn_all, Nat.sub_diag. cbn. now destruct y.
      * apply chr_none in E. exists (plain s), []. split; auto. apply E_file; auto.
  - cbn [app length] in P. rewrite P. exists (plain x), m. split; [now apply E_percent|].
    rewrite firstn_app, firstn_all, Nat.sub_diag, firstn_O, app_nil_r.
    replace (plain x ++ "%"%char :: m) with ((plain x ++ ["%"%char]) ++ m) by now rewrite <- app_assoc.
    replace (S (length (plain x))) with (length (plain x ++ ["%"%char])) by (rewrite app_length; cbn; lia).
    rewrite skipn_app, skipn_all, Nat.sub_diag. cbn. now destruct m.
Qed.

(** ** The list of mailboxes *)
Lemma cut_last s : ~ In ":"%char s -> cut_colon s = (s, None).
Proof.
  induction s as [|c s IH]; auto. cbn. intros H. destruct (ceq_spec c ":") as [->|N]; [tauto|]. rewrite IH; tauto || auto.
Qed.
Lemma cut_more s r : ~ In ":"%char s -> cut_colon (s ++ ":"%char :: r) = (s, Some r).
Proof.
  induction s as [|c s IH]; auto. cbn. intros H. destruct (ceq_spec c ":") as [->|N]; [tauto|]. rewrite IH; tauto || auto.
Qed.
Lemma colons_all s : exists segs, segs <> [] /\ Forall no_colon segs /\ s = colons segs.
Proof.
  induction s as [|c s (segs & N & F & ->)]; [exists [[]]; sp; [discriminate|constructor; [intros []|constructor]|auto]|].
  destruct (ceq_spec c ":") as [->|NC].
  - exists ([] :: segs). sp; [discriminate|constructor; [intros []|auto]|]. cbn. now destruct segs.
  - destruct segs as [|g segs]; [congruence|]. inversion F; subst. exists ((c :: g) :: segs). sp; [discriminate| |].
    + constructor; auto. intros [X|X]; [congruence|auto].
    + cbn. now destruct segs.
Qed.

Definition box (b : mbox_) : cstr * option cstr := (mb_path b, mb_msg b).
Definition fresh (fs : fsys) (id : nat) (b : mbox_) : Prop := fst (mb_at b) = id /\ mb_mtime b = stamp fs (mb_path b).

Lemma mp_loop_spec posix fs id : forall segs fuel off l, segs <> [] -> Forall no_colon segs -> length (colons segs) < fuel ->
  exists es bs, Forall2 (is_entry posix) segs es /\ mp_loop fuel posix fs id off (colons segs) l = Some (rev bs ++ l) /\
    map box bs = boxes es /\ Forall (fresh fs id) bs /\ Forall (fun b => off <= snd (mb_at b)) bs /\
    (forall e es', es = e :: es' ->
       if has_file e then exists b bs', bs = b :: bs' /\ snd (mb_at b) = off else Forall (fun b => off < snd (mb_at b)) bs).
Proof.
  induction segs as [|s segs IH]; intros fuel off l N F FU; [congruence|]. inversion F as [|? ? FS F']; subst.
  destruct fuel as [|fuel]; [lia|]. cbn [mp_loop].
  destruct (entry_of_spec posix s) as (p & m & E & EO).
  destruct segs as [|s2 segs].
  - cbn [colons]. rewrite cut_last by auto. rewrite EO. destruct p as [|c p].
    + exists [([], m)], []. cbn. sp; auto. intros e es' [= <- <-]. cbn. auto.
    + exists [(c :: p, m)], [Mb (c :: p) (opt_msg m) (id, off) (stamp fs (c :: p))]. cbn. sp; auto.
      * repeat constructor.
      * intros e es' [= <- <-]. cbn. eauto.
  - cbn [colons]. change (match segs with [] => s2 | _ :: _ => s2 ++ ":"%char :: colons segs end) with (colons (s2 :: segs)).
    rewrite cut_more by auto. rewrite EO.
    destruct (IH fuel (off + S (length s)) (match p with [] => l | _ :: _ => Mb p (opt_msg m) (id, off) (stamp fs p) :: l end))
      as (es & bs & F2 & R & MB & FR & OFF & _); auto; [discriminate| |].
    { cbn [colons] in FU. rewrite app_length in FU. cbn [length] in FU.
      change (match segs with [] => s2 | _ :: _ => s2 ++ ":"%char :: colons segs end) with (colons (s2 :: segs)) in FU. lia. }
    rewrite R. destruct p as [|c p].
    + exists (([], m) :: es), bs. sp; auto.
      * eapply Forall_impl; [|exact OFF]. cbn. intros. lia.
      * intros e es' [= <- <-]. cbn. eapply Forall_impl; [|exact OFF]. cbn. intros. lia.
    + exists ((c :: p, m) :: es), (Mb (c :: p) (opt_msg m) (id, off) (stamp fs (c :: p)) :: bs). sp; auto.
      * cbn [rev]. now rewrite <- app_assoc.
      * cbn. f_equal. auto.
      * constructor; [split|]; auto.
      * constructor; [cbn; lia|]. eapply Forall_impl; [|exact OFF]. cbn. intros. lia.
      * intros e es' [= <- <-]. cbn. eauto.
Qed.

(** ** Freeing *)
Lemma munset_last l b lv : munset (l ++ [b]) lv =
  (if (snd (mb_at b) =? 0) && (if in_dec Nat.eq_dec (fst (mb_at b)) lv then true else false) then Ok (remove Nat.eq_dec (fst (mb_at b)) lv) else UB).
Proof. unfold munset. rewrite rev_app_distr. cbn. now destruct (mb_at b). Qed.

(** the list of mailboxes and the saved text it points into *)
Definition owned (m : mail) : Prop :=
  (forall i, In i (live m) -> i < next m) /\ NoDup (live m) /\
  (mplist m = [] \/ exists l b, mplist m = l ++ [b] /\ snd (mb_at b) = 0 /\ In (fst (mb_at b)) (live m)).

(** ** Looking *)
Definition world_of (fs : fsys) : world :=
  fun p => match fs p with Some s => if s_reg s then Some (File (s_size s) (s_mtime s) (s_atime s)) else None | None => None end.
Lemma stamp_changed fs p : stamp fs p = changed (world_of fs) p.
Proof. unfold stamp, changed, world_of. destruct (fs p) as [s|]; auto. now destruct (s_reg s). Qed.
Lemma arrived_spec w fs p seen : seen = changed w p -> reflect (new_mail w (world_of fs) p) (arrived fs p seen).
Proof.
  intros ->. unfold arrived, new_mail, world_of. destruct (fs p) as [s|].
  2:{ constructor. intros (f & X & _). discriminate. }
  destruct (s_reg s); cbn [andb].
  2:{ constructor. intros (f & X & _). discriminate. }
  destruct (Z.eqb_spec (s_size s) 0) as [Z1|Z1]; cbn [negb andb].
  { constructor. intros (f & [= <-] & X & _). cbn in X. auto. }
  destruct (Z.eqb_spec (changed w p) (s_mtime s)) as [Z2|Z2]; cbn [negb andb].
  { constructor. intros (f & [= <-] & _ & X & _). cbn in X. auto. }
  destruct (Z.leb (s_atime s) (s_mtime s)) eqn:Z3; constructor.
  - eexists. sp; [reflexivity|..]; cbn; auto; lia.
  - intros (f & [= <-] & _ & _ & X). cbn in X. lia.
Qed.
Definition kept (w : world) (b : mbox_) : Prop := mb_mtime b = changed w (mb_path b).
Lemma look_spec sets w fs : forall l, Forall (kept w) l -> (forall n, In n (map box l) -> sets n = false) ->
  exists out l', look sets fs l = Ok (out, l') /\ announced w (world_of fs) (map box l) out /\
    map box l' = map box l /\ map mb_at l' = map mb_at l /\ Forall (kept (world_of fs)) l'.
Proof.
  induction l as [|b l IH]; intros K H.
  - exists [], []. cbn. sp; auto. constructor.
  - inversion K as [|? ? K1 K2]; subst. destruct IH as (out & l' & R & A & B & C & D); auto.
    { intros n N. apply H. now right. }
    cbn [look]. fold (box b). rewrite (H (box b)) by now left. rewrite andb_false_r, R. cbn [bind].
    eexists _, _. split; [reflexivity|]. cbn [map]. sp.
    + unfold kept in K1. destruct (arrived_spec w fs (mb_path b) (mb_mtime b) K1); cbn [app]; constructor; auto.
    + now rewrite B.
    + now rewrite C.
    + constructor; auto. unfold kept. cbn. apply stamp_changed.
Qed.

(** ** Time *)
Definition ns (t : Z * Z) : Z := (fst t * 1000000000 + snd t)%Z.
Definition good_time (t : Z * Z) : Prop := (0 <= snd t < 1000000000)%Z.
Lemma elapsed_spec a b ivl : good_time a -> good_time b -> (ivl <= elapsed a b <-> ivl * 1000000000 <= ns a - ns b)%Z.
Proof. unfold good_time, elapsed, ns. intros. destruct (Z.ltb_spec (snd a - snd b) 0); lia. Qed.

Definition check_op (c : (Z * Z) * fsys) : mop := OCheck (snd c) (fst c) true.
Definition seen_at (c : (Z * Z) * fsys) : Z * world := (ns (fst c), world_of (snd c)).
Definition base (m : mail) (t : Z * Z) : Z := if first m then ns t else ns (lastchk m).

Lemma looks_cons {A} ivl last (t : Z) (w : A) r l b :
  b = (ivl * 1000000000 <=? t - last)%Z -> looks ivl (if b then t else last) r l ->
  looks ivl last ((t, w) :: r) ((if b then Some w else None) :: l).
Proof. intros -> H. destruct (Z.leb_spec (ivl * 1000000000) (t - last)); constructor; auto. Qed.

(** a list of mailboxes, whatever MAIL is *)
Lemma checks_list sets : forall (cs : list (((Z * Z) * fsys) * bool)) m w t0,
  mplist m <> [] -> Forall (kept w) (mplist m) -> (forall n, In n (map box (mplist m)) -> sets n = false) ->
  Forall (fun c => good_time (fst (fst c))) cs -> (first m = false -> good_time (lastchk m)) ->
  (forall c cs', cs = c :: cs' -> t0 = fst (fst c)) ->
  exists outs m' l, mrun sets (map (fun c => OCheck (snd (fst c)) (fst (fst c)) (snd c)) cs) m = Ok (Some (outs, m')) /\
    looks (interval m) (base m t0) (map (fun c => seen_at (fst c)) cs) l /\
    prints (map box (mplist m)) w l outs /\
    map box (mplist m') = map box (mplist m) /\ map mb_at (mplist m') = map mb_at (mplist m) /\ live m' = live m /\ next m' = next m.
Proof.
  induction cs as [|[[t fs] i] cs IH]; intros m w t0 NE K S G GL T0.
  - exists [], m, []. cbn. sp; auto; constructor.
  - inversion G as [|? ? G1 G2]; subst. cbn in G1. rewrite (T0 _ _ eq_refl). clear T0 t0. cbn [map mrun fst snd].
    assert (GL' : good_time (if first m then t else lastchk m)) by (destruct (first m); auto).
    assert (BS : base m t = ns (if first m then t else lastchk m)) by (unfold base; now destruct (first m)).
    assert (MC : mcheck sets fs t i m =
      if (interval m <=? elapsed t (if first m then t else lastchk m))%Z then
        do r <- look sets fs (mplist m) ;
        let '(out, l') := r in Ok (out, Ml l' (m_path m) (m_mtime m) t (interval m) false (live m) (next m))
      else Ok ([], Ml (mplist m) (m_path m) (m_mtime m) (if first m then t else lastchk m) (interval m) false (live m) (next m))).
    { unfold mcheck. destruct (mplist m) as [|b l]; [congruence|]. reflexivity. }
    rewrite MC. pose proof (elapsed_spec t _ (interval m) G1 GL') as EL. rewrite <- BS in EL.
    destruct (Z.leb_spec (interval m) (elapsed t (if first m then t else lastchk m))) as [Z1|Z1].
    + destruct (look_spec sets w fs (mplist m) K S) as (out & l' & R & A & B & C & D). rewrite R. cbn [bind].
      edestruct (IH (Ml l' (m_path m) (m_mtime m) t (interval m) false (live m) (next m)) (world_of fs)
                    (match cs with c :: _ => fst (fst c) | [] => t end)) as (outs & m' & l & R' & LK & PR & X1 & X2 & X3 & X4); cbn; auto.
      * intros ->. symmetry in B. apply map_eq_nil in B. auto.
      * intros n. rewrite B. auto.
      * intros c cs' ->. reflexivity.
      * cbn [mplist live next] in *. rewrite R'. cbn [bind]. exists (out :: outs), m', (Some (world_of fs) :: l). sp; auto; try congruence.
        -- change (seen_at (t, fs)) with (ns t, world_of fs). constructor; [apply EL; lia|]. cbn in LK. unfold base in LK. cbn in LK. exact LK.
        -- constructor; auto. rewrite <- B. auto.
    + cbn [bind].
      edestruct (IH (Ml (mplist m) (m_path m) (m_mtime m) (if first m then t else lastchk m) (interval m) false (live m) (next m)) w
                    (match cs with c :: _ => fst (fst c) | [] => t end)) as (outs & m' & l & R' & LK & PR & X1 & X2 & X3 & X4); cbn; auto.
      * intros c cs' ->. reflexivity.
      * rewrite R'. cbn [bind]. exists ([] :: outs), m', (None :: l). sp; auto; try congruence.
        -- change (seen_at (t, fs)) with (ns t, world_of fs). constructor; [lia|]. rewrite BS. exact LK.
        -- now constructor.
Qed.

(** MAIL alone *)
Lemma checks_mail sets : forall (cs : list ((Z * Z) * fsys)) m w p t0,
  mplist m = [] -> m_path m = Some p -> m_mtime m = changed w p ->
  Forall (fun c => good_time (fst c)) cs -> (first m = false -> good_time (lastchk m)) ->
  (forall c cs', cs = c :: cs' -> t0 = fst c) ->
  exists outs m' l, mrun sets (map check_op cs) m = Ok (Some (outs, m')) /\
    looks (interval m) (base m t0) (map seen_at cs) l /\ prints [(p, None)] w l outs.
Proof.
  induction cs as [|[t fs] cs IH]; intros m w p t0 NE MP K G GL T0.
  - exists [], m, []. cbn. sp; auto; constructor.
  - inversion G as [|? ? G1 G2]; subst. cbn in G1. rewrite (T0 _ _ eq_refl). clear T0 t0. cbn [map mrun check_op fst snd].
    assert (GL' : good_time (if first m then t else lastchk m)) by (destruct (first m); auto).
    assert (BS : base m t = ns (if first m then t else lastchk m)) by (unfold base; now destruct (first m)).
    unfold mcheck. rewrite NE, MP.
    pose proof (elapsed_spec t _ (interval m) G1 GL') as EL. rewrite <- BS in EL.
    destruct (Z.leb_spec (interval m) (elapsed t (if first m then t else lastchk m))) as [Z1|Z1].
    + cbn [bind].
      edestruct (IH (Ml [] (Some p) (stamp fs p) t (interval m) false (live m) (next m)) (world_of fs) p
                    (match cs with c :: _ => fst c | [] => t end)) as (outs & m' & l & R' & LK & PR); cbn; auto.
      * apply stamp_changed.
      * intros c cs' ->. reflexivity.
      * rewrite R'. cbn [bind]. eexists _, m', (Some (world_of fs) :: l). sp; [reflexivity|..].
        -- change (seen_at (t, fs)) with (ns t, world_of fs). constructor; [apply EL; lia|]. cbn in LK. unfold base in LK. cbn in LK. exact LK.
        -- constructor; auto. destruct (arrived_spec w fs p (m_mtime m) K); repeat constructor; auto.
    + cbn [bind].
      edestruct (IH (Ml [] (Some p) (m_mtime m) (if first m then t else lastchk m) (interval m) false (live m) (next m)) w p
                    (match cs with c :: _ => fst c | [] => t end)) as (outs & m' & l & R' & LK & PR); cbn; auto.
      * intros c cs' ->. reflexivity.
      * rewrite R'. cbn [bind]. exists ([] :: outs), m', (None :: l). sp; auto.
        -- change (seen_at (t, fs)) with (ns t, world_of fs). constructor; [lia|]. rewrite BS. exact LK.
        -- now constructor.
Qed.

(** ** Writing MAILPATH *)
Lemma written_app a b : written (a ++ b) = written a ++ written b.
Proof. induction a as [|c a IH]; auto. cbn. rewrite IH. now destruct (ceq c "%"). Qed.
Lemma plain_written p : plain (written p) = p.
Proof.
  induction p as [|c p IH]; auto. cbn [written]. destruct (ceq_spec c "%") as [->|N].
  - cbn [plain]. rewrite (ceq_refl "\"), (ceq_refl "%"). cbn. now rewrite IH.
  - cbn [plain]. rewrite IH. destruct (ceq c "\"); auto.
    destruct p as [|d p]; auto. cbn [written]. destruct (ceq_spec d "%") as [->|ND]; auto.
    destruct (ceq_spec d "%"); auto. congruence.
Qed.
Lemma nosep_written p : no_separator (written p).
Proof.
  induction p as [|c p IH]; [now apply nosep_in|]. cbn [written]. destruct (ceq_spec c "%") as [->|N].
  - change ("\"%char :: "%"%char :: written p) with (["\"%char; "%"%char] ++ written p). apply nosep_app; auto. now apply (nosep_pair []).
  - change (c :: written p) with ([c] ++ written p). apply nosep_app; auto. apply nosep_in. intros [X|[]]. auto.
Qed.
Lemma ends_written p : after_backslash (written p) -> after_backslash p.
Proof.
  intros (w & E). destruct p as [|c0 p0] eqn:P; [destruct w; discriminate|].
  destruct (@exists_last _ p) as (p' & c & X); [subst; discriminate|]. rewrite <- P in *. rewrite X in *.
  rewrite written_app in E. cbn [written] in E. destruct (ceq_spec c "%") as [->|N].
  - change ["\"%char; "%"%char] with (["\"%char] ++ ["%"%char]) in E. rewrite app_assoc in E. apply app_inj_tail in E as [_ E]. discriminate.
  - apply app_inj_tail in E as [_ ->]. now exists p'.
Qed.
Lemma first_unique (c : char) : forall a a' m m', a ++ c :: m = a' ++ c :: m' -> ~ In c a -> ~ In c a' -> a = a' /\ m = m'.
Proof.
  induction a as [|d a IH]; intros [|d' a'] m m' E N N'; cbn in *.
  - injection E as ->. auto.
  - injection E as <- _. exfalso. auto.
  - injection E as -> _. exfalso. auto.
  - injection E as <- E. destruct (IH a' m m' E) as [-> ->]; auto.
Qed.
Lemma entry_det posix s p m p' m' : entry posix s p m -> entry posix s p' m' -> p = p' /\ m = m'.
Proof.
  assert (NS : forall a x, no_separator (a ++ "%"%char :: x) -> ~ after_backslash a -> False).
  { intros a x H N. apply N. eapply H. reflexivity. }
  intros [a x E1 H1 H2|a x H1 H2 E1 H3|H1 H2] [a' x' E1' H1' H2'|a' x' H1' H2' E1' H3'|H1' H2'];
    try (subst s; exfalso; eapply NS; eauto; fail).
  - subst s. apply app_split in E1' as [(w & -> & _)|(w & -> & E)].
    + exfalso. eapply NS; eauto.
    + destruct w as [|d w]; cbn in E; injection E as E.
      * subst. now rewrite app_nil_r.
      * subst d. exfalso. eapply NS; eauto.
  - rewrite E1 in E1'. apply first_unique in E1'; auto.
  - exfalso. destruct H2' as [X|X]; [congruence|]. apply X. rewrite E1. apply in_or_app. right. now left.
  - exfalso. destruct H2 as [X|X]; [congruence|]. apply X. rewrite E1'. apply in_or_app. right. now left.
  - auto.
Qed.

(** ** Sequences of assignments and checks *)
(** the first entry names a file, or none does *)
Definition frees_well (posix : bool) (s : cstr) : Prop := forall segs e es,
  segs <> [] -> Forall no_colon segs -> s = colons segs -> Forall2 (is_entry posix) segs (e :: es) -> has_file e = true \/ boxes (e :: es) = [].
Definition names_first (posix : bool) (s : cstr) : Prop := forall segs e es,
  segs <> [] -> Forall no_colon segs -> s = colons segs -> Forall2 (is_entry posix) segs (e :: es) -> has_file e = true.

Lemma mpset_ok posix fs v m : owned m -> (forall s, v = Some s -> frees_well posix s) ->
  exists m', mpset posix fs v m = Ok (Some m') /\ owned m'.
Proof.
  intros (A & B & C) W. unfold mpset.
  assert (U : exists lv, munset (mplist m) (live m) = Ok lv /\ (forall i, In i lv -> In i (live m)) /\ NoDup lv).
  { destruct C as [->|(l & b & -> & D & E)].
    - exists (live m). auto.
    - rewrite munset_last, D. cbn [Nat.eqb andb]. destruct (in_dec Nat.eq_dec (fst (mb_at b)) (live m)) as [_|X]; [|now exfalso].
      eexists. sp; [reflexivity|intros i I; now apply in_remove in I|]. clear -B. induction B; cbn; [constructor|].
      destruct (Nat.eq_dec (fst (mb_at b)) x); auto. constructor; auto. intros I. apply in_remove in I. tauto. }
  destruct U as (lv & -> & U1 & U2). cbn [bind]. destruct v as [s|].
  - destruct (colons_all s) as (segs & N & F & E).
    destruct (mp_loop_spec posix fs (next m) segs (S (length s)) 0 []) as (es & bs & F2 & R & MB & FR & _ & OFF); auto; [subst; lia|].
    rewrite E in *. rewrite R. eexists. split; [reflexivity|]. rewrite app_nil_r. split; [|split]; cbn.
    + intros i [<-|I]; [lia|]. apply U1, A in I. lia.
    + constructor; auto. intros I. apply U1, A in I. lia.
    + destruct es as [|e es]; [inversion F2; subst; congruence|]. specialize (OFF e es eq_refl).
      destruct (W _ eq_refl segs e es N F eq_refl F2) as [H|H].
      * rewrite H in OFF. destruct OFF as (b & bs' & -> & O). right. exists (rev bs'), b. cbn. sp; auto.
        inversion FR as [|? ? [X _] _]; subst. auto.
      * left. rewrite H in MB. now destruct bs.
  - eexists. split; [reflexivity|]. split; [|split]; cbn; auto.
Qed.
Definition op_value (o : mop) : option (bool * cstr) := match o with OMailpath px _ (Some s) => Some (px, s) | _ => None end.
Lemma look_owned sets fs : forall l, (forall n, sets n = false) -> exists out l', look sets fs l = Ok (out, l') /\ map mb_at l' = map mb_at l.
Proof.
  intros l H. induction l as [|b l (out & l' & R & E)]; [exists [], []; auto|].
  cbn. rewrite H, andb_false_r, R. cbn. eexists _, _. split; [reflexivity|]. cbn. now rewrite E.
Qed.
Lemma owned_at m l' i t k : map mb_at l' = map mb_at (mplist m) -> owned m ->
  owned (Ml l' (m_path m) (m_mtime m) i t k (live m) (next m)).
Proof.
  intros E (A & B & C). split; [|split]; cbn; auto. destruct C as [C|(l & b & C & D & F)].
  - left. rewrite C in E. now apply map_eq_nil in E.
  - right. rewrite C, map_app in E. destruct (map_eq_app _ _ _ _ E) as (l1 & l2 & -> & X & Y).
    destruct l2 as [|b' [|? ?]]; try discriminate. cbn in Y. injection Y as Y. exists l1, b'. rewrite Y. auto.
Qed.
Lemma mcheck_ok sets fs now i m : (forall n, sets n = false) -> owned m ->
  exists out m', mcheck sets fs now i m = Ok (out, m') /\ owned m' /\ live m' = live m /\ (mplist m = [] <-> mplist m' = []).
Proof.
  intros H O. unfold mcheck. destruct (mplist m) as [|b l] eqn:E.
  - assert (K : forall p t ti k, owned (Ml [] p t ti (interval m) k (live m) (next m))).
    { intros. destruct O as (A & B & _). split; [|split]; cbn; auto. }
    destruct i; [|exists [], m; sp; auto; rewrite E; tauto].
    destruct (interval m <=? elapsed now (if first m then now else lastchk m))%Z.
    + destruct (m_path m); eexists _, _; (split; [reflexivity|]); cbn; sp; auto; tauto.
    + eexists _, _; (split; [reflexivity|]); cbn; sp; auto; tauto.
  - assert (K : forall x, (match i with true => x | false => x end : res (list note * mail)) = x) by (intros; now destruct i).
    rewrite <- E. destruct (interval m <=? elapsed now (if first m then now else lastchk m))%Z; cbn.
    + destruct (look_owned sets fs (mplist m) H) as (out & l' & R & X). rewrite R. cbn. eexists _, _. split; [reflexivity|]. cbn. sp; auto.
      * now apply owned_at.
      * rewrite E in *. destruct l'; cbn in X; split; discriminate.
    + eexists _, _. split; [reflexivity|]. cbn. sp; auto; tauto.
Qed.
Lemma mrun_ok sets : forall ops m, (forall n, sets n = false) -> owned m ->
  (forall o px s, In o ops -> op_value o = Some (px, s) -> frees_well px s) ->
  exists outs m', mrun sets ops m = Ok (Some (outs, m')) /\ owned m'.
Proof.
  induction ops as [|o ops IH]; intros m H O W; [exists [], m; auto|].
  assert (W' : forall o px s, In o ops -> op_value o = Some (px, s) -> frees_well px s) by (intros; eapply W; eauto; now right).
  destruct o as [px fs v|fs v|z|fs now i]; cbn [mrun].
  - destruct (mpset_ok px fs v m O) as (m' & -> & O').
    { intros s ->. eapply (W (OMailpath px fs (Some s))); [now left|reflexivity]. }
    cbn [bind]. auto.
  - apply IH; auto.
  - apply IH; auto.
  - destruct (mcheck_ok sets fs now i m H O) as (out & m' & -> & O' & _). cbn [bind].
    destruct (IH m' H O' W') as (outs & m2 & -> & O2). cbn [bind]. eauto.
Qed.

(** exactly one saved text as long as there are mailboxes *)
Definition tidy (m : mail) : Prop :=
  (mplist m = [] /\ live m = []) \/ exists l b i, mplist m = l ++ [b] /\ mb_at b = (i, 0) /\ live m = [i].
Lemma tidy_at m l' i t k : map mb_at l' = map mb_at (mplist m) -> tidy m ->
  tidy (Ml l' (m_path m) (m_mtime m) i t k (live m) (next m)).
Proof.
  intros E [[A B]|(l & b & j & A & B & C)]; [left|right]; cbn.
  - rewrite A in E. apply map_eq_nil in E. auto.
  - rewrite A, map_app in E. destruct (map_eq_app _ _ _ _ E) as (l1 & l2 & -> & X & Y).
    destruct l2 as [|b' [|? ?]]; try discriminate. cbn in Y. injection Y as Y. exists l1, b', j. rewrite Y. auto.
Qed.
Lemma mrun_tidy sets : forall ops m outs m', tidy m -> mrun sets ops m = Ok (Some (outs, m')) ->
  (forall o px s, In o ops -> op_value o = Some (px, s) -> names_first px s) -> (forall n, sets n = false) -> tidy m'.
Proof.
  induction ops as [|o ops IH]; intros m outs m' T R W H; cbn [mrun] in R.
  - injection R as <- <-. auto.
  - assert (W' : forall o px s, In o ops -> op_value o = Some (px, s) -> names_first px s) by (intros; eapply W; eauto; now right).
    destruct o as [px fs v|fs v|z|fs now i].
    + unfold mpset in R. destruct (munset (mplist m) (live m)) as [lv| |] eqn:U; [|discriminate..].
      assert (LV : lv = []).
      { destruct T as [[A B]|(l & b & j & A & B & C)].
        - rewrite A, B in U. cbn in U. congruence.
        - rewrite A, C, munset_last, B in U. cbn [fst snd Nat.eqb andb] in U.
          destruct (in_dec Nat.eq_dec j [j]) as [_|X]; [|discriminate]. cbn in U. destruct (Nat.eq_dec j j); [congruence|congruence]. }
      subst lv. cbn [bind] in R. destruct v as [s|].
      * destruct (colons_all s) as (segs & N & F & E).
        destruct (mp_loop_spec px fs (next m) segs (S (length s)) 0 []) as (es & bs & F2 & R2 & MB & FR & _ & OFF); auto; [subst; lia|].
        rewrite <- E in R2. rewrite R2 in R. cbn [bind] in R. eapply IH; [|exact R| |]; auto.
        destruct es as [|e es]; [inversion F2; subst; congruence|]. specialize (OFF e es eq_refl).
        rewrite (W (OMailpath px fs (Some s)) px s (or_introl eq_refl) eq_refl segs e es N F E F2) in OFF.
        destruct OFF as (b & bs' & -> & O). inversion FR as [|? ? [X _] _]; subst. right.
        exists (rev bs'), b, (next m). cbn. rewrite app_nil_r. sp; auto. destruct (mb_at b); cbn in *. congruence.
      * cbn [bind] in R. eapply IH; [|exact R| |]; auto. left. auto.
    + eapply IH; [|exact R| |]; auto.
    + eapply IH; [|exact R| |]; auto.
    + destruct (mcheck sets fs now i m) as [[out m1]| |] eqn:C; [|discriminate..]. cbn [bind] in R.
      destruct (mrun sets ops m1) as [[[o2 m2]|]| |] eqn:R2; [|discriminate..]. injection R as <- <-.
      eapply IH; [|exact R2| |]; auto. unfold mcheck in C.
      destruct (mplist m) as [|b l] eqn:E.
      * assert (LV : live m = []).
        { destruct T as [[_ B]|(l & b & j & A & _)]; auto. rewrite E in A. now destruct l. }
        destruct i; [|injection C as <- <-; auto].
        destruct (interval m <=? elapsed now (if first m then now else lastchk m))%Z; [destruct (m_path m)|]; injection C as <- <-; left; auto.
      * rewrite <- E in C. destruct (interval m <=? elapsed now (if first m then now else lastchk m))%Z.
        -- destruct (look_owned sets fs (mplist m) H) as (o3 & l' & R3 & X). rewrite R3 in C. cbn in C. injection C as <- <-. now apply tidy_at.
        -- injection C as <- <-. now apply tidy_at.
Qed.
