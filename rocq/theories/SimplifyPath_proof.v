From Verif Require Import Base Num_model SimplifyPath_model SimplifyPath_spec.

(** ** buffer cells *)
Lemma rd_mid a c b n : n = length a -> rd (a ++ c :: b) n = Ok c.
Proof. intros ->. unfold rd. rewrite nth_error_app2, Nat.sub_diag by lia. reflexivity. Qed.

Lemma wr_mid a c b d n : n = length a -> wr (a ++ c :: b) n d = Ok (a ++ d :: b).
Proof.
  intros ->. unfold wr. rewrite app_length. cbn [length].
  destruct (Nat.ltb_spec (length a) (length a + S (length b))); [|lia].
  rewrite firstn_app, firstn_all, Nat.sub_diag. cbn [firstn]. rewrite app_nil_r.
  rewrite skipn_app, skipn_all2 by lia.
  replace (S (length a) - length a) with 1 by lia. reflexivity.
Qed.

Lemma rd_eq buf a c b n : buf = a ++ c :: b -> n = length a -> rd buf n = Ok c.
Proof. intros ->. apply rd_mid. Qed.
Lemma wr_eq buf a c b d n : buf = a ++ c :: b -> n = length a -> wr buf n d = Ok (a ++ d :: b).
Proof. intros ->. apply wr_mid. Qed.

Definition noslash (x : cstr) : Prop := ~ In "/"%char x.
Definition stops (r : cstr) : Prop := r = [] \/ exists r', r = "/"%char :: r'.

Lemma nul_free_cons c s : nul_free (c :: s) = negb (is_nul c) && nul_free s.
Proof. reflexivity. Qed.

Lemma is_nul_NUL : is_nul NUL = true.
Proof. reflexivity. Qed.

(** ** the inner loops *)
Lemma skip_slashes_ok sl : forall fuel a b c, Forall (fun x => x = "/"%char) sl -> c <> "/"%char ->
  length sl < fuel -> skip_slashes fuel (a ++ sl ++ c :: b) (length a) = Ok (length a + length sl).
Proof.
  induction sl as [|x sl IH]; intros fuel a b c Hs Hc Hf; (destruct fuel as [|fuel]; [lia|]); cbn [skip_slashes app].
  - rewrite rd_mid by reflexivity. cbn [bind]. rewrite (proj2 (ceq_false c "/")) by assumption.
    cbn. f_equal. lia.
  - inversion Hs as [|? ? E Hs']. subst. rewrite rd_mid by reflexivity. cbn [bind]. rewrite ceq_refl.
    specialize (IH fuel (a ++ ["/"%char]) b c Hs' Hc). rewrite <- app_assoc in IH. cbn [app] in IH.
    rewrite app_length in IH. cbn [length] in IH. replace (S (length a)) with (length a + 1) by lia.
    rewrite IH by (cbn in Hf; lia). f_equal. cbn [length]. lia.
Qed.

Lemma back_up_floor y : forall a b start n, noslash y -> y <> [] -> start = length a -> n = length a + length y ->
  back_up (a ++ y ++ b) start n = Ok (length a).
Proof.
  induction y as [|c y IH] using rev_ind; intros a b start n Hs Hne -> ->; [congruence|].
  rewrite app_length. cbn [length]. replace (length a + (length y + 1)) with (S (length a + length y)) by lia.
  cbn [back_up]. destruct (Nat.ltb_spec (length a) (length a + length y)).
  - rewrite <- app_assoc. cbn [app]. rewrite (app_assoc a y). rewrite rd_mid by (rewrite app_length; reflexivity).
    cbn [bind]. rewrite (proj2 (ceq_false c "/")).
    2:{ intros ->. apply Hs. apply in_or_app. right. left. reflexivity. }
    rewrite <- app_assoc. apply IH; auto.
    + intros Hin. apply Hs. apply in_or_app. left. assumption.
    + destruct y; [cbn in *; lia|discriminate].
  - f_equal. lia.
Qed.

Lemma back_up_slash y : forall a b start n, noslash y -> start <= length a -> n = length a + 1 + length y ->
  back_up (a ++ "/"%char :: y ++ b) start n = Ok (length a).
Proof.
  induction y as [|c y IH] using rev_ind; intros a b start n Hs Hle ->.
  - cbn [length app]. replace (length a + 1 + 0) with (S (length a)) by lia. cbn [back_up].
    destruct (Nat.ltb_spec start (length a)); [|f_equal; lia].
    rewrite rd_mid by reflexivity. cbn [bind]. rewrite ceq_refl. reflexivity.
  - rewrite app_length. cbn [length].
    replace (length a + 1 + (length y + 1)) with (S (length a + 1 + length y)) by lia.
    cbn [back_up]. destruct (Nat.ltb_spec start (length a + 1 + length y)); [|lia].
    rewrite <- app_assoc. cbn [app].
    replace (a ++ "/"%char :: y ++ c :: b) with ((a ++ "/"%char :: y) ++ c :: b) by (rewrite <- app_assoc; reflexivity).
    rewrite rd_mid by (rewrite app_length; cbn [length]; lia).
    cbn [bind]. rewrite (proj2 (ceq_false c "/")).
    2:{ intros ->. apply Hs. apply in_or_app. right. left. reflexivity. }
    rewrite <- app_assoc. cbn [app]. apply IH; auto.
    intros Hin. apply Hs. apply in_or_app. left. assumption.
Qed.

Ltac triple := apply f_equal; apply f_equal2; [apply f_equal2; [reflexivity|lia]|lia].

Lemma copy_comp_ok x : forall fuel out junk r, noslash x -> nul_free x = true -> stops r -> length x < fuel ->
  exists junk', copy_comp fuel (out ++ junk ++ x ++ r ++ [NUL]) (length out) (length out + length junk)
    = Ok (out ++ x ++ junk' ++ r ++ [NUL], length out + length x, length out + length junk + length x) /\
    length junk' = length junk.
Proof.
  induction x as [|c x IH]; intros fuel out junk r Hs Hn Hr Hf; (destruct fuel as [|fuel]; [lia|]); cbn [copy_comp app length].
  - exists junk. split; [|reflexivity]. rewrite (app_assoc out junk).
    destruct Hr as [->|(r' & ->)]; cbn [app]; rewrite rd_mid by (rewrite app_length; reflexivity); cbn [bind].
    + rewrite is_nul_NUL. cbn [orb]. rewrite <- app_assoc. triple.
    + rewrite ceq_refl, orb_true_r. rewrite <- app_assoc. triple.
  - rewrite nul_free_cons in Hn. apply andb_prop in Hn. destruct Hn as [Hn1 Hn2].
    rewrite (app_assoc out junk), rd_mid by (rewrite app_length; reflexivity). cbn [bind].
    apply negb_true_iff in Hn1. rewrite Hn1. cbn [orb].
    rewrite (proj2 (ceq_false c "/")) by (intros ->; apply Hs; left; reflexivity).
    rewrite <- app_assoc.
    assert (Hs' : noslash x) by (intros Hin; apply Hs; right; exact Hin).
    assert (Hf' : length x < fuel) by (cbn in Hf; lia).
    destruct junk as [|j js]; cbn [app].
    + rewrite wr_mid by reflexivity. cbn [bind].
      destruct (IH fuel (out ++ [c]) [] r Hs' Hn2 Hr Hf') as (junk' & E & El).
      exists junk'. split; [|exact El]. rewrite <- app_assoc in E. cbn [app] in E.
      rewrite !app_length in E. cbn [length] in E |- *.
      replace (S (length out)) with (length out + 1) by lia.
      replace (S (length out + 0)) with (length out + 1 + 0) by lia.
      rewrite E. rewrite <- app_assoc. cbn [app]. triple.
    + rewrite wr_mid by reflexivity. cbn [bind].
      destruct (IH fuel (out ++ [c]) (js ++ [c]) r Hs' Hn2 Hr Hf') as (junk' & E & El).
      exists junk'. split; [|rewrite El, app_length; cbn [length]; lia].
      repeat (rewrite <- app_assoc in E; cbn [app] in E). rewrite !app_length in E. cbn [length] in E |- *.
      replace (S (length out)) with (length out + 1) by lia.
      replace (S (length out + S (length js))) with (length out + 1 + (length js + 1)) by lia.
      rewrite E. triple.
Qed.

(** ** joined text *)
Definition txt (k : nat) (names : list cstr) : cstr := join (repeat (L "..") k ++ names).

Definition good (x : cstr) : Prop := plain x /\ nul_free x = true.

Lemma join_snoc xs x : xs <> [] -> join (xs ++ [x]) = join xs ++ "/"%char :: x.
Proof.
  induction xs as [|y [|z xs] IH]; intros H; [congruence|reflexivity|].
  change (join ((y :: z :: xs) ++ [x])) with (y ++ "/"%char :: join ((z :: xs) ++ [x])).
  rewrite IH by discriminate.
  change (join (y :: z :: xs)) with (y ++ "/"%char :: join (z :: xs)). rewrite <- app_assoc. reflexivity.
Qed.

Lemma txt_up k : txt (S k) [] = match k with O => L ".." | _ => txt k [] ++ L "/.." end.
Proof.
  unfold txt. rewrite !app_nil_r. replace (S k) with (k + 1) by lia. rewrite repeat_app. cbn [repeat].
  destruct k; [reflexivity|]. rewrite join_snoc by discriminate. reflexivity.
Qed.

Definition sepd (k : nat) (names : list cstr) (x : cstr) : cstr :=
  match k, names with O, [] => x | _, _ => "/"%char :: x end.

Lemma txt_snoc k names x : txt k (names ++ [x]) = txt k names ++ sepd k names x.
Proof.
  unfold txt. rewrite app_assoc. destruct k as [|k], names as [|y names]; [reflexivity|..].
  all: cbn [sepd]; apply join_snoc; discriminate.
Qed.

Lemma good_nonempty x : good x -> x <> [].
Proof. intros [[H _] _]. exact H. Qed.

Lemma txt_len_app k names : Forall good names -> names <> [] -> length (txt k []) < length (txt k names).
Proof.
  induction names as [|x names IH] using rev_ind; intros H Hne; [congruence|].
  apply Forall_app in H. destruct H as [H1 H2]. inversion H2 as [|? ? Hx _]. subst.
  apply good_nonempty in Hx. rewrite txt_snoc, app_length.
  assert (0 < length (sepd k names x)).
  { destruct x; [congruence|]. destruct k, names; cbn; lia. }
  destruct names as [|y names]; [lia|]. specialize (IH H1). assert (y :: names <> []) by discriminate.
  specialize (IH H0). lia.
Qed.

Lemma txt_up_pos k : length (txt (S k) []) = length (txt k []) + match k with O => 2 | _ => 3 end.
Proof. rewrite txt_up. destruct k; [reflexivity|]. rewrite app_length. reflexivity. Qed.

Lemma txt_empty k names : Forall good names -> length (txt k names) = 0 -> k = 0 /\ names = [].
Proof.
  intros H E. destruct names as [|x names].
  - split; [|reflexivity]. destruct k; [reflexivity|]. rewrite txt_up_pos in E. destruct k; lia.
  - pose proof (txt_len_app k (x :: names) H ltac:(discriminate)). lia.
Qed.

Lemma dots_nul_free : nul_free (L "..") = true /\ nul_free (L "/..") = true.
Proof. split; reflexivity. Qed.

Lemma txt_nul_free k names : Forall good names -> nul_free (txt k names) = true.
Proof.
  induction names as [|x names IH] using rev_ind; intros H.
  - induction k as [|k IHk]; [reflexivity|]. rewrite txt_up. destruct k; [reflexivity|].
    rewrite nul_free_app, IHk. reflexivity.
  - apply Forall_app in H. destruct H as [H1 H2]. inversion H2 as [|? ? [_ Hx] _]. subst.
    rewrite txt_snoc, nul_free_app, IH by assumption.
    destruct k, names; cbn [sepd]; rewrite ?nul_free_cons, Hx; reflexivity.
Qed.

Lemma c_string_ok s b : nul_free s = true -> c_string (s ++ NUL :: b) = Ok s.
Proof.
  induction s as [|c s IH]; intros H; cbn [app c_string].
  - reflexivity.
  - rewrite nul_free_cons in H. apply andb_prop in H. destruct H as [H1 H2].
    apply negb_true_iff in H1. rewrite H1, IH by assumption. reflexivity.
Qed.

(** ** the abstract machine on components *)
Definition astep (rooted : bool) (st : nat * list cstr) (x : cstr) : nat * list cstr :=
  let '(k, names) := st in
  if str_eqb x [] || str_eqb x (L ".") then st
  else if str_eqb x (L "..") then
    match names with
    | [] => if rooted then st else (S k, [])
    | _ => (k, removelast names)
    end
  else (k, names ++ [x]).

Definition afinal (rooted : bool) (st : nat * list cstr) : cstr :=
  let '(k, names) := st in
  match rooted, k, names with
  | false, O, [] => L "."
  | _, _, _ => (if rooted then L "/" else []) ++ txt k names
  end.

Lemma comps_slash rooted st r : fold_left (astep rooted) (components ("/"%char :: r)) st
  = fold_left (astep rooted) (components r) st.
Proof. destruct st. reflexivity. Qed.

Lemma comps_slashes rooted st sl r : Forall (fun x => x = "/"%char) sl ->
  fold_left (astep rooted) (components (sl ++ r)) st = fold_left (astep rooted) (components r) st.
Proof.
  induction sl as [|c sl IH]; intros H; [reflexivity|]. inversion H. subst. cbn [app].
  rewrite comps_slash. auto.
Qed.

Lemma components_nonempty s : components s <> [].
Proof. destruct s as [|c s]; cbn; [discriminate|]. destruct (ceq c "/"); [discriminate|]. destruct (components s); discriminate. Qed.

Lemma components_app x r : noslash x -> components (x ++ r) =
  match components r with y :: ys => (x ++ y) :: ys | [] => [] end.
Proof.
  induction x as [|c x IH]; intros H; cbn [app components].
  - pose proof (components_nonempty r). destruct (components r); [congruence|reflexivity].
  - rewrite (proj2 (ceq_false c "/")) by (intros ->; apply H; left; reflexivity).
    rewrite IH by (intros Hin; apply H; right; exact Hin).
    pose proof (components_nonempty r). destruct (components r); [congruence|reflexivity].
Qed.

Lemma comps_comp rooted st x r : noslash x -> stops r ->
  fold_left (astep rooted) (components (x ++ r)) st = fold_left (astep rooted) (components r) (astep rooted st x).
Proof.
  intros Hx Hr. rewrite components_app by assumption. destruct Hr as [->|(r' & ->)].
  - cbn [components]. rewrite app_nil_r. cbn [fold_left]. destruct (astep rooted st x). reflexivity.
  - rewrite comps_slash. change (components ("/"%char :: r')) with ([] :: components r'). cbv beta iota. rewrite app_nil_r. reflexivity.
Qed.

(** ** splitting the unread text *)
Lemma split_slashes r : exists sl r', r = sl ++ r' /\ Forall (fun x => x = "/"%char) sl /\
  (forall t, r' <> "/"%char :: t).
Proof.
  induction r as [|c r (sl & r' & -> & H1 & H2)].
  - exists [], []. repeat split; auto; discriminate.
  - destruct (ceq_spec c "/") as [->|Hc].
    + exists ("/"%char :: sl), r'. repeat split; auto.
    + exists [], (c :: sl ++ r'). repeat split; auto. intros t E. injection E as -> _. congruence.
Qed.

Lemma split_comp r : exists x r', r = x ++ r' /\ noslash x /\ stops r'.
Proof.
  induction r as [|c r (x & r' & -> & H1 & H2)].
  - exists [], []. repeat split; auto; [intros []|left; reflexivity].
  - destruct (ceq_spec c "/") as [->|Hc].
    + exists [], ("/"%char :: x ++ r'). repeat split; auto; [intros []|right; eauto].
    + exists (c :: x), r'. repeat split; auto. intros [E|Hin]; [congruence|auto].
Qed.

Lemma stops_head r : stops r -> exists c b, r ++ [NUL] = c :: b /\ ends_comp c = true.
Proof.
  intros [->|(r' & ->)]; cbn [app]; eexists _, _; (split; [reflexivity|]); [reflexivity|reflexivity].
Qed.

Lemma not_stop c : is_nul c = false -> c <> "/"%char -> ends_comp c = false.
Proof. intros H1 H2. unfold ends_comp. rewrite H1. cbn. apply ceq_false. exact H2. Qed.

(** ** the loop *)
Section Loop.
  Variable rooted : bool.
  Let pre : cstr := if rooted then L "/" else [].

  Lemma simp_loop_ok fuel : forall k names junk rest buf cur t start,
    length rest < fuel ->
    buf = (pre ++ txt k names) ++ junk ++ rest ++ [NUL] ->
    cur = length (pre ++ txt k names) ->
    t = length (pre ++ txt k names) + length junk ->
    start = length (pre ++ txt k []) ->
    (rooted = true -> k = 0) -> Forall good names -> nul_free rest = true -> 2 <= length buf ->
    (cur <> length pre -> junk = [] -> stops rest) ->
    exists b, simp_loop fuel rooted (length pre) buf cur t start = Ok b /\
      c_string b = Ok (afinal rooted (fold_left (astep rooted) (components rest) (k, names))).
  Proof.
    induction fuel as [|fuel IH]; intros k names junk rest buf cur t start Hf Hb Hc Ht Hst Hk Hg Hn Hlen Hjunk; [lia|].
    cbn [simp_loop].
    destruct (split_slashes rest) as (sl & rest' & Er & Hsl & Hns).
    assert (Hfs : exists c b, rest' ++ [NUL] = c :: b /\ c <> "/"%char).
    { destruct rest' as [|c rest']; [exists NUL, []; split; [reflexivity|discriminate]|].
      exists c, (rest' ++ [NUL]). split; [reflexivity|]. intros ->. eapply Hns. reflexivity. }
    destruct Hfs as (fc & fb & Ef & Hfc).
    set (out := pre ++ txt k names) in *.
    set (junk1 := junk ++ sl).
    assert (Hb1 : buf = (out ++ junk) ++ sl ++ fc :: fb).
    { rewrite Hb, Er, <- !app_assoc, Ef. reflexivity. }
    assert (Hlsl : length sl < S (length buf)) by (rewrite Hb1, !app_length; cbn [length]; lia).
    assert (Hss : skip_slashes (S (length buf)) buf t = Ok (length out + length junk1)).
    { rewrite Ht. set (N := S (length buf)) in *. rewrite Hb1.
      replace (length out + length junk) with (length (out ++ junk)) by (rewrite app_length; reflexivity).
      rewrite skip_slashes_ok by assumption. unfold junk1. rewrite !app_length. f_equal. lia. }
    rewrite Hss. cbn [bind].
    assert (Hb2 : buf = (out ++ junk1) ++ fc :: fb).
    { rewrite Hb1. unfold junk1. rewrite <- !app_assoc. reflexivity. }
    rewrite (rd_eq _ _ _ _ _ Hb2) by (rewrite app_length; reflexivity). cbn [bind].
    assert (Hb3 : buf = out ++ junk1 ++ rest' ++ [NUL]).
    { rewrite Hb2, <- Ef, <- app_assoc. reflexivity. }
    assert (Hn' : nul_free rest' = true).
    { rewrite Er, nul_free_app in Hn. apply andb_prop in Hn. apply Hn. }
    rewrite Er, comps_slashes by assumption.
    assert (Hjunk1 : cur <> length pre -> junk1 = [] -> rest' = []).
    { intros H1 H2. unfold junk1 in H2. apply app_eq_nil in H2. destruct H2 as [-> ->].
      destruct (Hjunk H1 eq_refl) as [E|(r & E)]; [rewrite Er in E; cbn in E; exact E|].
      exfalso. rewrite Er in E. cbn in E. eapply Hns. exact E. }
    destruct rest' as [|c0 rest'].
    { (* end of the path *)
      cbn in Ef. injection Ef as <- <-. rewrite is_nul_NUL.
      assert (Hfin : fold_left (astep rooted) (components []) (k, names) = (k, names)) by reflexivity.
      rewrite Hfin.
      destruct (Nat.eqb_spec cur 0) as [E0|E0].
      - assert (Hpre0 : pre = [] /\ txt k names = []).
        { rewrite Hc in E0. unfold out in E0. rewrite app_length in E0.
          split; apply length_zero_iff_nil; lia. }
        destruct Hpre0 as [Hp0 Ht0].
        destruct (txt_empty k names Hg) as [-> ->]; [rewrite Ht0; reflexivity|].
        assert (Hr0 : rooted = false) by (unfold pre in Hp0; destruct rooted; [discriminate|reflexivity]).
        assert (Eo : out = []) by (unfold out; rewrite Hp0, Ht0; reflexivity).
        rewrite Eo in Hb3. cbn [app] in Hb3.
        destruct junk1 as [|j1 js].
        { rewrite Hb3 in Hlen. cbn in Hlen. lia. }
        rewrite E0. rewrite Hb3. cbn [app].
        destruct js as [|j2 js]; cbn [app]; eexists; (split; [reflexivity|]); rewrite Hr0; reflexivity.
      - destruct junk1 as [|j1 js]; cbn [app] in Hb3.
        + rewrite Hb3, wr_mid by assumption. eexists. split; [reflexivity|].
          rewrite c_string_ok.
          2:{ unfold out. rewrite nul_free_app, txt_nul_free by assumption. unfold pre. destruct rooted; reflexivity. }
          f_equal. unfold afinal. fold pre. destruct rooted, k, names; try reflexivity.
          exfalso. apply E0. rewrite Hc. reflexivity.
        + rewrite Hb3, wr_mid by assumption. eexists. split; [reflexivity|].
          rewrite c_string_ok.
          2:{ unfold out. rewrite nul_free_app, txt_nul_free by assumption. unfold pre. destruct rooted; reflexivity. }
          f_equal. unfold afinal. fold pre. destruct rooted, k, names; try reflexivity.
          exfalso. apply E0. rewrite Hc. reflexivity. }
    cbn in Ef. injection Ef as <- <-.
    rewrite nul_free_cons in Hn'. apply andb_prop in Hn'. destruct Hn' as [Hn0 Hn'].
    apply negb_true_iff in Hn0. rewrite Hn0.
    destruct (split_comp (c0 :: rest')) as (x & r & Ex & Hx & Hr).
    assert (Hxne : x <> []).
    { intros ->. cbn in Ex. destruct Hr as [->|(r' & ->)]; [discriminate|]. injection Ex as -> _. congruence. }
    assert (Hxr : nul_free x = true /\ nul_free r = true).
    { assert (nul_free (c0 :: rest') = true) as E by (rewrite nul_free_cons, Hn0, Hn'; reflexivity).
      rewrite Ex, nul_free_app in E. apply andb_prop in E. exact E. }
    destruct Hxr as [Hnx Hnr].
    assert (Hlen_r : length r + length x <= length rest).
    { rewrite Er, Ex, !app_length. lia. }
    assert (Hlx : 0 < length x) by (destruct x; [congruence|cbn; lia]).
    rewrite Ex, comps_comp by assumption.
    rewrite Ex in Hb3. rewrite <- app_assoc in Hb3.
    assert (Hcvs : (cur =? length pre) = (length (txt k names) =? 0)).
    { rewrite Hc. unfold out. rewrite app_length. destruct (Nat.eqb_spec (length (txt k names)) 0); [apply Nat.eqb_eq|apply Nat.eqb_neq]; lia. }
    assert (Hcst : (cur =? start) = match names with [] => true | _ => false end).
    { rewrite Hc, Hst. unfold out. rewrite !app_length. destruct names as [|y names]; [apply Nat.eqb_refl|].
      apply Nat.eqb_neq. pose proof (txt_len_app k (y :: names) Hg ltac:(discriminate)). lia. }
    (* the ordinary component case *)
    assert (Hord : plain x -> exists b, (do r <- ordinary (S (length buf)) buf (length pre) cur (length out + length junk1) ;
                 let '(b, cur', t') := r in simp_loop fuel rooted (length pre) b cur' t' start) = Ok b /\
      c_string b = Ok (afinal rooted (fold_left (astep rooted) (components r) (astep rooted (k, names) x)))).
    { intros Hpl. assert (Hstep : astep rooted (k, names) x = (k, names ++ [x])).
      { unfold astep. destruct Hpl as (P1 & P2 & P3 & _).
        destruct (str_eqb_spec x []); [congruence|]. destruct (str_eqb_spec x (L ".")); [congruence|].
        destruct (str_eqb_spec x (L "..")); [congruence|]. reflexivity. }
      rewrite Hstep.
      assert (Hlb : length x < S (length buf)) by (rewrite Hb3, !app_length; lia).
      assert (Hg' : Forall good (names ++ [x])).
      { apply Forall_app. split; [assumption|]. constructor; [split; assumption|constructor]. }
      unfold ordinary. rewrite Hcvs. destruct (Nat.eqb_spec (length (txt k names)) 0) as [E0|E0].
      - destruct (txt_empty k names Hg E0) as [-> ->].
        set (N := S (length buf)) in *. rewrite Hb3, Hc.
        destruct (copy_comp_ok x N out junk1 r Hx Hnx Hr Hlb) as (junk' & E & El).
        rewrite E. cbn [bind app]. apply (IH 0 [x] junk' r).
        + lia.
        + unfold txt. cbn [repeat app join]. unfold out, txt. cbn [repeat app join]. rewrite app_nil_r, <- app_assoc. reflexivity.
        + unfold out, txt. cbn [repeat app join]. rewrite !app_length. cbn [length]. lia.
        + unfold out, txt. cbn [repeat app join]. rewrite !app_length, El. cbn [length]. lia.
        + exact Hst.
        + reflexivity.
        + exact Hg'.
        + exact Hnr.
        + assert (length (out ++ x ++ junk' ++ r ++ [NUL]) = length buf) as ->; [|assumption].
          rewrite Hb3, !app_length, El. lia.
        + intros _ _. exact Hr.
      - assert (Hcp : cur <> length pre).
        { rewrite Hc. unfold out. rewrite app_length. lia. }
        destruct junk1 as [|j js] eqn:Ej1.
        { specialize (Hjunk1 Hcp eq_refl). discriminate. }
        cbn [app] in Hb3. rewrite (wr_eq _ _ _ _ _ _ Hb3) by exact Hc. cbn [bind].
        replace (out ++ "/"%char :: js ++ x ++ r ++ [NUL]) with ((out ++ ["/"%char]) ++ js ++ x ++ r ++ [NUL])
          by (rewrite <- app_assoc; reflexivity).
        replace (S cur) with (length (out ++ ["/"%char])) by (rewrite app_length; cbn [length]; lia).
        replace (length out + length (j :: js)) with (length (out ++ ["/"%char]) + length js)
          by (rewrite app_length; cbn [length]; lia).
        destruct (copy_comp_ok x (S (length buf)) (out ++ ["/"%char]) js r Hx Hnx Hr Hlb) as (junk' & E & El).
        rewrite E. cbn [bind].
        assert (Etx : txt k (names ++ [x]) = txt k names ++ "/"%char :: x).
        { rewrite txt_snoc. f_equal. destruct k, names; try reflexivity. exfalso. apply E0. reflexivity. }
        apply (IH k (names ++ [x]) junk' r).
        + lia.
        + rewrite Etx. unfold out. rewrite <- !app_assoc. reflexivity.
        + rewrite Etx. unfold out. rewrite !app_length. cbn [length]. lia.
        + rewrite Etx. unfold out. rewrite !app_length, El. cbn [length]. lia.
        + exact Hst.
        + exact Hk.
        + exact Hg'.
        + exact Hnr.
        + rewrite !app_length, El. rewrite Hb3 in Hlen. rewrite !app_length in Hlen. cbn [length] in *.
          rewrite !app_length in Hlen. cbn [length] in *. lia.
        + intros _ _. exact Hr. }
    destruct x as [|x0 x']; [congruence|]. cbn in Ex. injection Ex as <- ->.
    destruct (ceq_spec c0 ".") as [->|Hdot].
    2:{ apply Hord. split; [discriminate|]. split; [|split].
        - intros E. injection E as -> _. congruence.
        - intros E. injection E as -> _. congruence.
        - exact Hx. }
    destruct x' as [|x1 x''].
    { (* "." *)
      destruct (stops_head r Hr) as (c1 & b1 & E1 & Hc1).
      cbn [app] in Hb3. rewrite E1 in Hb3.
      replace (out ++ junk1 ++ "."%char :: c1 :: b1) with ((out ++ junk1 ++ ["."%char]) ++ c1 :: b1) in Hb3
        by (rewrite <- !app_assoc; reflexivity).
      rewrite (rd_eq _ _ _ _ _ Hb3) by (rewrite !app_length; cbn [length]; lia). cbn [bind]. rewrite Hc1.
      apply (IH k names (junk1 ++ ["."%char]) r).
      - cbn in Hlen_r. lia.
      - rewrite Hb3. fold out. rewrite <- !app_assoc. cbn [app]. rewrite E1. reflexivity.
      - exact Hc.
      - fold out. rewrite app_length. cbn [length]. lia.
      - exact Hst.
      - exact Hk.
      - exact Hg.
      - exact Hnr.
      - exact Hlen.
      - intros _ H. destruct junk1; discriminate. }
    assert (Hx1 : x1 <> "/"%char /\ is_nul x1 = false).
    { split; [intros ->; apply Hx; right; left; reflexivity|].
      rewrite !nul_free_cons in Hnx. apply andb_prop in Hnx. destruct Hnx as [_ Hnx].
      apply andb_prop in Hnx. destruct Hnx as [Hnx _]. apply negb_true_iff in Hnx. exact Hnx. }
    assert (Hb4 : buf = (out ++ junk1 ++ ["."%char]) ++ x1 :: x'' ++ r ++ [NUL]).
    { rewrite Hb3. rewrite <- !app_assoc. reflexivity. }
    rewrite (rd_eq _ _ _ _ _ Hb4) by (rewrite !app_length; cbn [length]; lia). cbn [bind].
    rewrite (not_stop x1) by apply Hx1.
    destruct (ceq_spec x1 ".") as [->|Hdot1].
    2:{ apply Hord. split; [discriminate|]. split; [|split].
        - discriminate.
        - intros E. injection E as -> _. congruence.
        - exact Hx. }
    destruct x'' as [|x2 x'''].
    2:{ assert (Hx2 : x2 <> "/"%char /\ is_nul x2 = false).
        { split; [intros ->; apply Hx; right; right; left; reflexivity|].
          rewrite !nul_free_cons in Hnx. apply andb_prop in Hnx. destruct Hnx as [_ Hnx].
          apply andb_prop in Hnx. destruct Hnx as [_ Hnx].
          apply andb_prop in Hnx. destruct Hnx as [Hnx _]. apply negb_true_iff in Hnx. exact Hnx. }
        assert (Hb5 : buf = (out ++ junk1 ++ L "..") ++ x2 :: x''' ++ r ++ [NUL]).
        { rewrite Hb3. rewrite <- !app_assoc. reflexivity. }
        rewrite (rd_eq _ _ _ _ _ Hb5) by (rewrite !app_length; cbn [length L String.list_ascii_of_string]; lia). cbn [bind].
        rewrite (not_stop x2) by apply Hx2. apply Hord.
        split; [discriminate|]. split; [|split].
        - discriminate.
        - discriminate.
        - exact Hx. }
    (* ".." *)
    destruct (stops_head r Hr) as (c2 & b2 & E2 & Hc2).
    assert (Hb5 : buf = (out ++ junk1 ++ L "..") ++ c2 :: b2).
    { rewrite Hb3. rewrite <- !app_assoc. cbn [app L String.list_ascii_of_string]. rewrite E2. reflexivity. }
    rewrite (rd_eq _ _ _ _ _ Hb5) by (rewrite !app_length; cbn [length L String.list_ascii_of_string]; lia). cbn [bind].
    rewrite Hc2. rewrite Hcst.
    cbn [length] in Hlen_r.
    assert (Hstep : astep rooted (k, names) ["."%char; "."%char] =
      match names with [] => if rooted then (k, names) else (S k, []) | _ => (k, removelast names) end) by reflexivity.
    rewrite Hstep. clear Hstep.
    destruct names as [|y names].
    - rewrite andb_true_r. destruct rooted eqn:Erooted; cbn [negb].
      + (* under / *)
        specialize (IH k [] (junk1 ++ L "..") r buf cur (length out + length junk1 + 2) start).
        apply IH; clear IH; auto.
        * cbn in Hlen_r. lia.
        * fold out. rewrite Hb5, <- E2, <- !app_assoc. reflexivity.
        * fold out. rewrite app_length. cbn [length L String.list_ascii_of_string]. lia.
      + (* another leading .. *)
        rewrite Hcvs.
        assert (Hpre : pre = []) by reflexivity.
        destruct (Nat.eqb_spec (length (txt k [])) 0) as [E0|E0].
        * destruct (txt_empty k [] Hg E0) as [-> _]. cbn [bind].
          assert (Eo : out = []) by reflexivity.
          destruct (exists_last (l := junk1 ++ ["."%char])) as (z & zl & Ez); [destruct junk1; discriminate|].
          assert (exists a b z', junk1 ++ L ".." = a :: b :: z') as (a & b & z' & Ezz).
          { destruct junk1 as [|j1 [|j2 js]]; cbn; eauto. }
          rewrite Ezz, Eo in Hb5. cbn [app] in Hb5. rewrite Hb5, Hc, Eo. cbn [length Nat.add].
          change (wr (a :: b :: z' ++ c2 :: b2) 0 ".") with (Ok ("."%char :: b :: z' ++ c2 :: b2)). cbn [bind].
          change (wr ("."%char :: b :: z' ++ c2 :: b2) 1 ".") with (Ok ("."%char :: "."%char :: z' ++ c2 :: b2)). cbn [bind].
          apply (IH 1 [] z' r).
          -- cbn in Hlen_r. lia.
          -- rewrite <- E2. reflexivity.
          -- reflexivity.
          -- assert (length (junk1 ++ L "..") = S (S (length z'))) as El by (rewrite Ezz; reflexivity).
             rewrite app_length in El. cbn [length L String.list_ascii_of_string] in El. 
             change (length (pre ++ txt 1 [])) with 2. lia.
          -- reflexivity.
          -- discriminate.
          -- constructor.
          -- exact Hnr.
          -- cbn [length]. lia.
          -- intros _ _. exact Hr.
        * assert (Hcp : cur <> length pre).
          { rewrite Hc. unfold out. rewrite app_length. lia. }
          destruct junk1 as [|j js] eqn:Ej1.
          { specialize (Hjunk1 Hcp eq_refl). discriminate. }
          cbn [app] in Hb5.
          assert (Hb6 : buf = out ++ j :: (js ++ L "..") ++ c2 :: b2) by (rewrite Hb5; repeat (rewrite <- app_assoc; cbn [app]); reflexivity).
          rewrite (wr_eq _ _ _ _ _ _ Hb6) by exact Hc. cbn [bind].
          assert (exists a b z', js ++ L ".." = a :: b :: z') as (a & b & z' & Ezz).
          { destruct js as [|j1 [|j2 js']]; cbn; eauto. }
          assert (length (js ++ L "..") = S (S (length z'))) as El by (rewrite Ezz; reflexivity).
          rewrite app_length in El. cbn [length L String.list_ascii_of_string] in El.
          rewrite Ezz. cbn [app].
          replace (out ++ "/"%char :: a :: b :: z' ++ c2 :: b2) with ((out ++ ["/"%char]) ++ a :: b :: z' ++ c2 :: b2)
            by (rewrite <- app_assoc; reflexivity).
          rewrite wr_mid by (rewrite app_length; cbn [length]; lia). cbn [bind].
          replace ((out ++ ["/"%char]) ++ "."%char :: b :: z' ++ c2 :: b2) with ((out ++ L "/.") ++ b :: z' ++ c2 :: b2)
            by (rewrite <- !app_assoc; reflexivity).
          rewrite wr_mid by (rewrite app_length; cbn [length L String.list_ascii_of_string]; lia). cbn [bind].
          assert (Etx : txt (S k) [] = txt k [] ++ L "/..").
          { rewrite txt_up. destruct k; [exfalso; apply E0; reflexivity|reflexivity]. }
          apply (IH (S k) [] z' r).
          -- cbn in Hlen_r. lia.
          -- rewrite Etx. unfold out. rewrite <- !app_assoc. cbn [app L String.list_ascii_of_string]. rewrite E2. reflexivity.
          -- rewrite Etx, app_assoc. fold out. rewrite app_length. cbn [length L String.list_ascii_of_string]. lia.
          -- rewrite Etx, app_assoc. fold out. rewrite app_length. cbn [length L String.list_ascii_of_string]. lia.
          -- rewrite Etx, app_assoc. fold out. rewrite app_length. cbn [length L String.list_ascii_of_string]. lia.
          -- discriminate.
          -- constructor.
          -- exact Hnr.
          -- rewrite !app_length. cbn [length L String.list_ascii_of_string]. lia.
          -- intros _ _. exact Hr.
    - (* drop the last name *)
      rewrite andb_false_r.
      destruct (exists_last (l := y :: names)) as (names' & z & Ez); [discriminate|].
      assert (Eout : out = pre ++ txt k (names' ++ [z])) by (unfold out; rewrite Ez; reflexivity).
      rewrite Ez in *. rewrite removelast_last.
      apply Forall_app in Hg. destruct Hg as [Hg1 Hg2]. inversion Hg2 as [|? ? Hz _]. subst x l.
      destruct Hz as [Hz Hzn]. destruct Hz as (Hz1 & Hz2 & Hz3 & Hz4).
      assert (Hbu : back_up buf start cur = Ok (length (pre ++ txt k names'))).
      { rewrite Hb3, Hc, !Eout, txt_snoc. destruct k as [|k], names' as [|y' names'']; cbn [sepd].
        - rewrite <- !app_assoc. rewrite (app_assoc pre). apply back_up_floor; auto. rewrite !app_length. lia.
        - rewrite <- !app_assoc. rewrite (app_assoc pre). apply back_up_slash; auto.
          + rewrite Hst. rewrite !app_length. pose proof (txt_len_app 0 (y' :: names'') Hg1 ltac:(discriminate)). lia.
          + rewrite !app_length. cbn [length]. lia.
        - rewrite <- !app_assoc. rewrite (app_assoc pre). apply back_up_slash; auto.
          + lia.
          + rewrite !app_length. cbn [length]. lia.
        - rewrite <- !app_assoc. rewrite (app_assoc pre). apply back_up_slash; auto.
          + rewrite Hst. rewrite !app_length. pose proof (txt_len_app (S k) (y' :: names'') Hg1 ltac:(discriminate)). lia.
          + rewrite !app_length. cbn [length]. lia. }
      rewrite Hbu. cbn [bind].
      apply (IH k names' (sepd k names' z ++ junk1 ++ L "..") r).
      + cbn in Hlen_r. lia.
      + rewrite Hb3, Eout, txt_snoc, <- !app_assoc. reflexivity.
      + reflexivity.
      + rewrite Eout, txt_snoc, !app_length. cbn [length L String.list_ascii_of_string]. lia.
      + exact Hst.
      + exact Hk.
      + exact Hg1.
      + exact Hnr.
      + exact Hlen.
      + intros _ H. apply (f_equal (@length _)) in H. rewrite !app_length in H. cbn in H. lia.
  Qed.
End Loop.

Definition simp_state (path : cstr) : nat * list cstr :=
  fold_left (astep (absolute path)) (components path) (0, []).

Lemma simplify_path_ok path : path <> [] -> nul_free path = true ->
  simplify_path path = Ok (afinal (absolute path) (simp_state path)).
Proof.
  intros Hne Hn. destruct path as [|c path]; [congruence|]. unfold simplify_path, simp_state, absolute.
  destruct (ceq_spec c "/") as [->|Hc].
  - destruct (simp_loop_ok true (S (S (length ("/"%char :: path)))) 0 [] [] path (("/"%char :: path) ++ [NUL]) 1 1 1)
      as (b & E & Eb); auto.
    + cbn [app length]. rewrite app_length. cbn [length]. lia.
    + intros H. exfalso. apply H. reflexivity.
    + change (length (L "/")) with 1 in E. rewrite E. cbn [bind]. rewrite Eb. f_equal.
  - destruct (simp_loop_ok false (S (S (length (c :: path)))) 0 [] [] (c :: path) ((c :: path) ++ [NUL]) 0 0 0)
      as (b & E & Eb); auto.
    + cbn [app length]. rewrite app_length. cbn [length]. lia.
    + intros H. exfalso. apply H. reflexivity.
    + change (length []) with 0 in E. cbn [length] in E |- *. rewrite E. cbn [bind]. exact Eb.
Qed.

(** ** properties of the abstract machine *)
Definition okst (rooted : bool) (st : nat * list cstr) : Prop :=
  Forall plain (snd st) /\ (rooted = true -> fst st = 0).

Lemma removelast_incl {A} (xs : list A) (P : A -> Prop) : Forall P xs -> Forall P (removelast xs).
Proof.
  intros H. destruct xs as [|x xs]; [constructor|].
  destruct (exists_last (l := x :: xs)) as (ys & z & E); [discriminate|]. rewrite E in *.
  rewrite removelast_last. apply Forall_app in H. apply H.
Qed.

Lemma astep_ok rooted st x : noslash x -> okst rooted st -> okst rooted (astep rooted st x).
Proof.
  intros Hx [H1 H2]. destruct st as [k names]. cbn [fst snd] in *. unfold astep.
  destruct (str_eqb_spec x []) as [E1|E1]; [split; auto|].
  destruct (str_eqb_spec x (L ".")) as [E2|E2]; [split; auto|]. cbn [orb].
  destruct (str_eqb_spec x (L "..")) as [E3|E3].
  - destruct names as [|y names].
    + destruct rooted; split; cbn; auto; discriminate.
    + split; [|exact H2]. apply removelast_incl. exact H1.
  - split; [|exact H2]. cbn [snd]. apply Forall_app. split; [assumption|]. constructor; [|constructor].
    repeat split; assumption.
Qed.

Lemma components_noslash s : Forall noslash (components s).
Proof.
  induction s as [|c s IH]; cbn [components].
  - constructor; [intros []|constructor].
  - destruct (ceq_spec c "/") as [->|Hc].
    + constructor; [intros []|assumption].
    + pose proof (components_nonempty s). destruct (components s) as [|x xs]; [congruence|].
      inversion IH. subst. constructor; [|assumption]. intros [E|Hin]; [congruence|auto].
Qed.

Lemma fold_ok rooted xs : forall st, Forall noslash xs -> okst rooted st -> okst rooted (fold_left (astep rooted) xs st).
Proof.
  induction xs as [|x xs IH]; intros st H Hst; [exact Hst|]. inversion H. subst. cbn [fold_left].
  apply IH; [assumption|]. apply astep_ok; assumption.
Qed.

Lemma simp_state_ok path : okst (absolute path) (simp_state path).
Proof. apply fold_ok; [apply components_noslash|]. split; [constructor|reflexivity]. Qed.

Lemma afinal_normal rooted st : okst rooted st -> normal_path (afinal rooted st).
Proof.
  destruct st as [k names]. intros [H1 H2]. cbn [fst snd] in *. unfold afinal.
  destruct rooted.
  - rewrite H2 by reflexivity. cbn [app]. unfold txt. cbn [repeat app]. destruct names; apply normal_abs; assumption.
  - destruct k as [|k], names as [|y names]; [apply normal_dot|..]; cbn [app]; apply normal_rel; auto; cbn; lia.
Qed.

(** locations *)
Definition locst (d : list cstr) (st : nat * list cstr) : list cstr :=
  fold_left walk1 (repeat (L "..") (fst st) ++ snd st) d.

Lemma walk1_plain d x : plain x -> walk1 d x = x :: d.
Proof.
  intros (H1 & H2 & H3 & _). unfold walk1.
  destruct (str_eqb_spec x []); [congruence|]. destruct (str_eqb_spec x (L ".")); [congruence|].
  destruct (str_eqb_spec x (L "..")); [congruence|]. reflexivity.
Qed.

Lemma locst_step rooted d st x : noslash x -> okst rooted st -> (rooted = true -> d = []) ->
  locst d (astep rooted st x) = walk1 (locst d st) x.
Proof.
  intros Hx [H1 H2] Hd. destruct st as [k names]. cbn [fst snd] in *. unfold astep, walk1.
  destruct (str_eqb_spec x []) as [E1|E1]; [reflexivity|].
  destruct (str_eqb_spec x (L ".")) as [E2|E2]; [reflexivity|]. cbn [orb].
  destruct (str_eqb_spec x (L "..")) as [E3|E3].
  - destruct names as [|y names].
    + destruct rooted.
      * rewrite H2, Hd by reflexivity. reflexivity.
      * unfold locst. cbn [fst snd]. rewrite !app_nil_r. replace (S k) with (k + 1) by lia.
        rewrite repeat_app, fold_left_app. reflexivity.
    + destruct (exists_last (l := y :: names)) as (ys & z & E); [discriminate|]. rewrite E in *.
      rewrite removelast_last. unfold locst. cbn [fst snd]. rewrite app_assoc, !(fold_left_app _ _ [z]).
      cbn [fold_left]. apply Forall_app in H1. destruct H1 as [_ H1]. inversion H1. subst.
      rewrite walk1_plain by assumption. reflexivity.
  - unfold locst. cbn [fst snd]. rewrite app_assoc, (fold_left_app _ _ [x]). cbn [fold_left].
    apply walk1_plain. repeat split; assumption.
Qed.

Lemma locst_fold rooted d xs : forall st, Forall noslash xs -> okst rooted st -> (rooted = true -> d = []) ->
  locst d (fold_left (astep rooted) xs st) = fold_left walk1 xs (locst d st).
Proof.
  induction xs as [|x xs IH]; intros st H Hst Hd; [reflexivity|]. inversion H. subst. cbn [fold_left].
  rewrite IH; auto; [|apply astep_ok; assumption]. rewrite (locst_step rooted); auto.
Qed.

Lemma components_join xs : xs <> [] -> Forall noslash xs -> components (join xs) = xs.
Proof.
  induction xs as [|x [|y xs] IH]; intros Hne H; [congruence|..].
  - inversion H. subst. cbn [join]. rewrite <- (app_nil_r x) at 1. rewrite components_app by assumption.
    cbn [components]. rewrite app_nil_r. reflexivity.
  - inversion H. subst. change (join (x :: y :: xs)) with (x ++ "/"%char :: join (y :: xs)).
    rewrite components_app by assumption.
    change (components ("/"%char :: join (y :: xs))) with ([] :: components (join (y :: xs))).
    rewrite IH by (discriminate || assumption). cbv beta iota. rewrite app_nil_r. reflexivity.
Qed.

Lemma dots_noslash k : Forall noslash (repeat (L "..") k).
Proof.
  induction k; cbn [repeat]; constructor; auto. intros [E|[E|[]]]; discriminate.
Qed.

Lemma plain_noslash names : Forall plain names -> Forall noslash names.
Proof. intros H. eapply Forall_impl; [|exact H]. intros x (_ & _ & _ & Hx). exact Hx. Qed.

Lemma txt_components k names : Forall plain names -> 0 < k + length names ->
  components (txt k names) = repeat (L "..") k ++ names.
Proof.
  intros H Hp. apply components_join.
  - destruct k, names; try discriminate. cbn in Hp. lia.
  - apply Forall_app. split; [apply dots_noslash|apply plain_noslash; assumption].
Qed.

Lemma join_relative xs : xs <> [] -> Forall (fun x => x <> [] /\ noslash x) xs -> absolute (join xs) = false.
Proof.
  destruct xs as [|x xs]; [congruence|]. intros _ H. inversion H as [|? ? [H1 H2] _]. subst.
  destruct x as [|c x]; [congruence|]. assert (c <> "/"%char) by (intros ->; apply H2; left; reflexivity).
  destruct xs; cbn; apply ceq_false; assumption.
Qed.

Lemma txt_relative k names : Forall plain names -> absolute (txt k names) = false.
Proof.
  intros H. unfold txt.
  assert (G : Forall (fun x => x <> [] /\ noslash x) (repeat (L "..") k ++ names)).
  { apply Forall_app. split.
    - clear. induction k; cbn [repeat]; constructor; auto. split; [discriminate|intros [E|[E|[]]]; discriminate].
    - eapply Forall_impl; [|exact H]. intros x (H1 & _ & _ & H2). split; assumption. }
  destruct (repeat (L "..") k ++ names); [reflexivity|]. apply join_relative; [discriminate|assumption].
Qed.

Lemma afinal_kind rooted st : okst rooted st -> absolute (afinal rooted st) = rooted.
Proof.
  destruct st as [k names]. intros [H1 H2]. cbn [fst snd] in *. unfold afinal.
  destruct rooted; [destruct k, names; reflexivity|].
  destruct k as [|k], names as [|y names]; [reflexivity|..]; apply txt_relative; assumption.
Qed.

Lemma afinal_locate rooted d st : okst rooted st ->
  locate d (afinal rooted st) = locst (if rooted then [] else d) st.
Proof.
  intros Hst. unfold locate. rewrite afinal_kind by assumption.
  destruct st as [k names]. destruct Hst as [H1 H2]. cbn [fst snd] in *. unfold afinal, locst. cbn [fst snd].
  destruct rooted.
  - rewrite H2 by reflexivity. cbn [repeat app].
    destruct names as [|y names]; [reflexivity|].
    change (components ((L "/") ++ txt 0 (y :: names))) with ([] :: components (txt 0 (y :: names))).
    rewrite txt_components by (assumption || (cbn; lia)). reflexivity.
  - destruct k as [|k], names as [|y names]; [reflexivity|..]; cbn [app];
    rewrite txt_components by (assumption || (cbn; lia)); reflexivity.
Qed.

Lemma simp_locate d path : locate d (afinal (absolute path) (simp_state path)) = locate d path.
Proof.
  rewrite afinal_locate by apply simp_state_ok. unfold simp_state, locate.
  rewrite (locst_fold (absolute path)).
  - destruct (absolute path); reflexivity.
  - apply components_noslash.
  - split; [constructor|reflexivity].
  - intros ->. reflexivity.
Qed.

(** idempotence *)
Lemma fold_names rooted k xs : forall names, Forall plain xs ->
  fold_left (astep rooted) xs (k, names) = (k, names ++ xs).
Proof.
  induction xs as [|x xs IH]; intros names H; [rewrite app_nil_r; reflexivity|].
  inversion H as [|? ? (P1 & P2 & P3 & _) Hxs]. subst. cbn [fold_left].
  assert (astep rooted (k, names) x = (k, names ++ [x])) as ->.
  { unfold astep. destruct (str_eqb_spec x []); [congruence|]. destruct (str_eqb_spec x (L ".")); [congruence|].
    destruct (str_eqb_spec x (L "..")); [congruence|]. reflexivity. }
  rewrite IH, <- app_assoc by assumption. reflexivity.
Qed.

Lemma fold_dots k : forall j, fold_left (astep false) (repeat (L "..") k) (j, []) = (j + k, []).
Proof.
  induction k as [|k IH]; intros j; cbn [repeat fold_left]; [f_equal; lia|].
  change (astep false (j, []) (L "..")) with (S j, @nil cstr). rewrite IH. f_equal. lia.
Qed.

Lemma simp_state_final rooted st : okst rooted st -> simp_state (afinal rooted st) = st.
Proof.
  intros Hst. unfold simp_state. rewrite afinal_kind by assumption.
  destruct st as [k names]. destruct Hst as [H1 H2]. cbn [fst snd] in *. unfold afinal.
  destruct rooted.
  - rewrite H2 by reflexivity. destruct names as [|y names]; [reflexivity|].
    change (components ((L "/") ++ txt 0 (y :: names))) with ([] :: components (txt 0 (y :: names))).
    rewrite txt_components by (assumption || (cbn; lia)). cbn [repeat]. cbn [fold_left app].
    change (fold_left (astep true) (y :: names) (0, []) = (0, y :: names)).
    rewrite fold_names by assumption. reflexivity.
  - destruct k as [|k], names as [|y names]; [reflexivity|..]; cbn [app];
    rewrite txt_components by (assumption || (cbn; lia)).
    all: rewrite fold_left_app, fold_dots, fold_names by assumption; reflexivity.
Qed.

(** length *)
Definition len1 (st : nat * list cstr) : nat :=
  match length (txt (fst st) (snd st)) with O => O | S n => S (S n) end.

Lemma txt_removelast k names : Forall plain names -> length (txt k (removelast names)) <= length (txt k names).
Proof.
  intros H. destruct names as [|y names]; [reflexivity|].
  destruct (exists_last (l := y :: names)) as (ys & z & E); [discriminate|]. rewrite E, removelast_last, txt_snoc, app_length. lia.
Qed.

Lemma txt_ne k names : Forall plain names -> 0 < k + length names -> 0 < length (txt k names).
Proof.
  intros H Hp. destruct (length (txt k names)) eqn:E; [|lia].
  pose proof (txt_components k names H Hp) as Hc. apply length_zero_iff_nil in E. rewrite E in Hc. cbn in Hc.
  destruct k as [|k].
  - cbn in Hc. subst names. inversion H as [|? ? (P & _) _]. congruence.
  - cbn in Hc. discriminate.
Qed.

Lemma len1_step rooted st x : noslash x -> okst rooted st -> len1 (astep rooted st x) <= len1 st + length x + 1.
Proof.
  intros Hx [H1 H2]. destruct st as [k names]. cbn [fst snd] in *. unfold astep.
  destruct (str_eqb_spec x []) as [E1|E1]; [cbn; lia|].
  destruct (str_eqb_spec x (L ".")) as [E2|E2]; [cbn; lia|]. cbn [orb].
  destruct (str_eqb_spec x (L "..")) as [E3|E3].
  - destruct names as [|y names].
    + destruct rooted; [lia|]. unfold len1. cbn [fst snd]. rewrite txt_up_pos, E3.
      change (length (L "..")) with 2.
      destruct k; [cbn; lia|]. pose proof (txt_ne (S k) [] H1 ltac:(cbn; lia)).
      destruct (length (txt (S k) [])) eqn:E; cbn; lia.
    + unfold len1. cbn [fst snd]. pose proof (txt_removelast k (y :: names) H1).
      destruct (length (txt k (removelast (y :: names)))); destruct (length (txt k (y :: names))); cbn; lia.
  - unfold len1. cbn [fst snd]. rewrite txt_snoc, app_length.
    destruct k as [|k], names as [|y names]; cbn [sepd length].
    + change (length (txt 0 [])) with 0. cbn. destruct (length x); lia.
    + pose proof (txt_ne 0 (y :: names) H1 ltac:(cbn; lia)). destruct (length (txt 0 (y :: names))); cbn; lia.
    + pose proof (txt_ne (S k) [] H1 ltac:(cbn; lia)). destruct (length (txt (S k) [])); cbn; lia.
    + pose proof (txt_ne (S k) (y :: names) H1 ltac:(cbn; lia)). destruct (length (txt (S k) (y :: names))); cbn; lia.
Qed.

Definition total (xs : list cstr) : nat := fold_right (fun x n => length x + 1 + n) 0 xs.

Lemma len1_fold rooted xs : forall st, Forall noslash xs -> okst rooted st ->
  len1 (fold_left (astep rooted) xs st) <= len1 st + total xs.
Proof.
  induction xs as [|x xs IH]; intros st H Hst; [cbn; lia|]. inversion H. subst. cbn [fold_left total fold_right].
  pose proof (len1_step rooted st x). fold (total xs).
  specialize (IH (astep rooted st x)). specialize (IH ltac:(assumption) ltac:(apply astep_ok; assumption)).
  specialize (H0 ltac:(assumption) Hst). lia.
Qed.

Lemma total_components s : total (components s) = S (length s).
Proof.
  induction s as [|c s IH]; [reflexivity|]. cbn [components]. destruct (ceq c "/").
  - cbn [total fold_right length]. fold (total (components s)). lia.
  - pose proof (components_nonempty s). destruct (components s) as [|x xs]; [congruence|].
    cbn [total fold_right length] in *. fold (total xs) in *. lia.
Qed.

Lemma simp_length path : path <> [] -> length (afinal (absolute path) (simp_state path)) <= length path.
Proof.
  intros Hne. destruct path as [|c path]; [congruence|].
  pose proof (simp_state_ok (c :: path)) as Hok.
  destruct (absolute (c :: path)) eqn:Ha.
  - cbn in Ha. apply ceq_true in Ha. subst c.
    assert (E : simp_state ("/"%char :: path) = fold_left (astep true) (components path) (0, [])) by reflexivity.
    pose proof (len1_fold true (components path) (0, []) (components_noslash path)) as Hl.
    rewrite <- E, total_components in Hl.
    specialize (Hl ltac:(split; [constructor|reflexivity])). change (len1 (0, [])) with 0 in Hl.
    destruct (simp_state ("/"%char :: path)) as [k names]. unfold len1 in Hl. cbn [fst snd] in Hl.
    assert (Hg : length (afinal true (k, names)) = 1 + length (txt k names)) by (destruct k, names; reflexivity).
    rewrite Hg. cbn [length]. destruct (length (txt k names)); lia.
  - unfold simp_state in *. rewrite Ha in *.
    pose proof (len1_fold false (components (c :: path)) (0, []) (components_noslash _)) as Hl.
    rewrite total_components in Hl.
    specialize (Hl ltac:(split; [constructor|reflexivity])). change (len1 (0, [])) with 0 in Hl.
    destruct (fold_left _ _ _) as [k names]. unfold len1 in Hl. cbn [fst snd] in Hl.
    assert (Hg : length (afinal false (k, names)) = 1 \/ length (afinal false (k, names)) = length (txt k names))
      by (destruct k, names; auto).
    destruct Hg as [->| ->]; cbn [length] in *; destruct (length (txt k names)); lia.
Qed.

(** NUL-freeness of the result, needed to apply the function again *)
Lemma nf_removelast names : Forall (fun x => nul_free x = true) names -> Forall (fun x => nul_free x = true) (removelast names).
Proof. apply removelast_incl. Qed.

Lemma components_nul_free s : nul_free s = true -> Forall (fun x => nul_free x = true) (components s).
Proof.
  induction s as [|c s IH]; intros H; cbn [components].
  - constructor; [reflexivity|constructor].
  - rewrite nul_free_cons in H. apply andb_prop in H. destruct H as [H1 H2]. specialize (IH H2).
    destruct (ceq c "/"); [constructor; [reflexivity|assumption]|].
    pose proof (components_nonempty s). destruct (components s) as [|x xs]; [congruence|]. inversion IH. subst.
    constructor; [|assumption]. rewrite nul_free_cons, H1. assumption.
Qed.

Lemma fold_nul_free rooted xs : forall st, Forall (fun x => nul_free x = true) xs ->
  Forall (fun x => nul_free x = true) (snd st) -> Forall (fun x => nul_free x = true) (snd (fold_left (astep rooted) xs st)).
Proof.
  induction xs as [|x xs IH]; intros st H Hst; [exact Hst|]. inversion H. subst. cbn [fold_left].
  apply IH; [assumption|]. destruct st as [k names]. cbn [snd] in *. unfold astep.
  destruct (str_eqb x [] || str_eqb x (L ".")); [assumption|].
  destruct (str_eqb x (L "..")).
  - destruct names; [destruct rooted; assumption|]. cbn [snd]. apply nf_removelast. assumption.
  - cbn [snd]. apply Forall_app. split; [assumption|]. constructor; [assumption|constructor].
Qed.

Lemma afinal_nul_free path : nul_free path = true -> nul_free (afinal (absolute path) (simp_state path)) = true.
Proof.
  intros H. assert (Hg : Forall good (snd (simp_state path))).
  { pose proof (simp_state_ok path) as [H1 _].
    pose proof (fold_nul_free (absolute path) (components path) (0, []) (components_nul_free _ H) (Forall_nil _)) as H2.
    fold (simp_state path) in H2. rewrite Forall_forall in *. intros x Hx. split; auto. }
  destruct (simp_state path) as [k names]. cbn [snd] in Hg. unfold afinal.
  pose proof (txt_nul_free k names Hg). destruct (absolute path), k, names; rewrite ?nul_free_app, ?H0; auto; reflexivity.
Qed.

Lemma afinal_ne rooted st : okst rooted st -> afinal rooted st <> [].
Proof.
  destruct st as [k names]. intros [H1 H2]. cbn [fst snd] in *. unfold afinal.
  destruct rooted; [destruct k, names; discriminate|].
  destruct k as [|k], names as [|y names]; [discriminate|..]; cbn [app]; intros E;
  match type of E with txt ?a ?b = [] => pose proof (txt_ne a b H1 ltac:(cbn; lia)) as P; rewrite E in P; cbn in P; lia end.
Qed.
