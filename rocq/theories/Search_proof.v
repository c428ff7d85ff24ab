From Verif Require Import Base Search_model Search_spec.

Lemma colon_list_ne s : colon_list s <> [].
Proof. destruct s as [|c s]; cbn; [discriminate|]. destruct (ceq c ":"); [discriminate|]. destruct (colon_list s); discriminate. Qed.

Lemma to_colon_spec s : let '(a, r) := to_colon s in
  s = a ++ r /\ colon_list s = a :: match after r with None => [] | Some r' => colon_list r' end /\
  length r <= length s.
Proof.
  induction s as [|c s IH]; cbn [to_colon colon_list].
  - repeat split; auto.
  - destruct (ceq_spec c ":") as [->|Hc].
    + repeat split; auto.
    + destruct (to_colon s) as [a r]. destruct IH as (-> & E & Hl). rewrite E. cbn [app length]. repeat split; auto; try lia.
Qed.

Lemma after_len r r' : after r = Some r' -> length r' < length r.
Proof. destruct r; cbn; [discriminate|]. intros E. injection E as <-. lia. Qed.

Lemma put_dir_app d f : d <> [] -> put_dir d ++ f = one_slash d f.
Proof.
  intros H. unfold put_dir, one_slash, last_char. destruct d as [|c d]; [congruence|].
  destruct (ceq (last (c :: d) NUL) "/"); [reflexivity|]. rewrite <- app_assoc. reflexivity.
Qed.

Lemma one_slash_assoc a b f : b <> [] -> one_slash a (one_slash b f) = one_slash (one_slash a b) f.
Proof.
  intros Hb. unfold one_slash at 4. destruct a as [|x a].
  - reflexivity.
  - assert (Hl : forall p, last (p ++ b) NUL = last b NUL).
    { intros p. destruct (exists_last Hb) as (b' & z & ->). rewrite app_assoc, !last_last. reflexivity. }
    destruct (ceq (last (x :: a) NUL) "/") eqn:E.
    + unfold one_slash. destruct b as [|y b]; [congruence|].
      destruct ((x :: a) ++ y :: b) as [|z q] eqn:Eq; [discriminate|]. rewrite E, <- Eq, (Hl (x :: a)).
      destruct (ceq (last (y :: b) NUL) "/"); rewrite <- app_assoc; reflexivity.
    + unfold one_slash. destruct b as [|y b]; [congruence|].
      destruct ((x :: a) ++ "/"%char :: y :: b) as [|z q] eqn:Eq; [discriminate|]. rewrite E, <- Eq.
      change ("/"%char :: y :: b) with (["/"%char] ++ y :: b). rewrite app_assoc, (Hl ((x :: a) ++ ["/"%char])).
      destruct (ceq (last (y :: b) NUL) "/"); rewrite <- !app_assoc; reflexivity.
Qed.

Lemma dot_file_spec f : dot_file f = true <-> explicit_relative f.
Proof.
  unfold explicit_relative. split.
  - destruct f as [|c0 [|c1 [|c2 f]]]; cbn [dot_file]; [discriminate|..];
    (destruct (ceq_spec c0 ".") as [->|]; [|discriminate]); auto.
    + destruct (ceq_spec c1 ".") as [->|]; [auto|]. intros E. apply ceq_true in E. subst.
      right. right. left. exists []. reflexivity.
    + destruct (ceq_spec c1 ".") as [->|].
      * intros E. apply ceq_true in E. subst. right. right. right. exists f. reflexivity.
      * intros E. apply ceq_true in E. subst. right. right. left. exists (c2 :: f). reflexivity.
  - intros [->|[->|[(t & ->)|(t & ->)]]]; reflexivity.
Qed.

Definition cwd_text (cwd : option cstr) : cstr := match cwd with Some d => d | None => [] end.

Lemma cwd_put cwd f : match cwd with Some (d :: ds) => put_dir (d :: ds) | _ => [] end ++ f = one_slash (cwd_text cwd) f.
Proof. destruct cwd as [[|d ds]|]; try reflexivity. cbn [cwd_text]. apply put_dir_app. discriminate. Qed.

(** one call using a list element *)
Lemma make_path_elt cwd file plist : is_abs file = false -> dot_file file = false ->
  let '(e, r) := to_colon plist in
  let '(s, used, ph, next) := make_path cwd file (Some plist) in
  s = one_slash (element_dir (cwd_text cwd) e) file /\ used = negb (str_eqb e []) /\ next = after r /\
  (is_abs e = true -> ph = 0) /\ (is_abs e = false -> firstn ph s ++ match e with [] => file | _ => one_slash e file end = s /\
     firstn ph s = one_slash (cwd_text cwd) []).
Proof.
  intros Ha Hd. destruct (to_colon plist) as [e r] eqn:Et.
  destruct (make_path cwd file (Some plist)) as [[[s used] ph] next] eqn:Em.
  assert (Em2 : (( if match e with [] => true | x :: _ => negb (ceq x "/") end then
        match cwd with Some (d :: ds) => put_dir (d :: ds) | _ => [] end else []) ++
      (match e with [] => [] | _ => put_dir e end) ++ file,
      match e with [] => false | _ => true end,
      length (if match e with [] => true | x :: _ => negb (ceq x "/") end then
        match cwd with Some (d :: ds) => put_dir (d :: ds) | _ => [] end else []),
      after r) = (s, used, ph, next)).
  { rewrite <- Em. unfold make_path. destruct file as [|c0 file].
    - rewrite Et. cbn [negb orb]. rewrite app_nil_r. reflexivity.
    - cbn [is_abs] in Ha. rewrite Ha, Hd. cbn [negb]. rewrite Et. cbn [negb orb]. reflexivity. }
  clear Em. injection Em2 as <- <- <- <-.
  destruct e as [|e0 e].
  - cbn [app]. rewrite cwd_put. repeat split; auto; try discriminate.
    + rewrite <- cwd_put at 1. rewrite firstn_app, Nat.sub_diag, firstn_all. cbn [firstn]. rewrite app_nil_r. apply cwd_put.
    + rewrite <- cwd_put at 1. rewrite firstn_app, Nat.sub_diag, firstn_all. cbn [firstn]. rewrite app_nil_r.
      rewrite <- cwd_put, app_nil_r. reflexivity.
  - unfold element_dir. cbn [is_abs]. destruct (ceq e0 "/") eqn:Ee; cbn [negb].
    + cbn [app]. rewrite put_dir_app by discriminate. repeat split; auto; try discriminate.
    + rewrite put_dir_app by discriminate. rewrite cwd_put.
      assert (Hs : one_slash (cwd_text cwd) (one_slash (e0 :: e) file) = one_slash (one_slash (cwd_text cwd) (e0 :: e)) file)
        by (apply one_slash_assoc; discriminate).
      repeat split; auto; try discriminate.
      * rewrite <- cwd_put at 1. rewrite firstn_app, Nat.sub_diag, firstn_all. cbn [firstn]. rewrite app_nil_r. apply cwd_put.
      * rewrite <- cwd_put at 1. rewrite firstn_app, Nat.sub_diag, firstn_all. cbn [firstn]. rewrite app_nil_r.
        rewrite <- cwd_put, app_nil_r. reflexivity.
Qed.

Definition strings (l : list (cstr * bool * nat)) : list cstr := map (fun x => fst (fst x)) l.
Definition useds (l : list (cstr * bool * nat)) : list bool := map (fun x => snd (fst x)) l.

Lemma make_paths_elts file : is_abs file = false -> dot_file file = false -> forall fuel cwd plist,
  length plist < fuel ->
  exists l, make_paths fuel cwd file (Some plist) = Some l /\
    strings l = map (fun e => one_slash (element_dir (cwd_text cwd) e) file) (colon_list plist) /\
    useds l = map (fun e => negb (str_eqb e [])) (colon_list plist).
Proof.
  intros Ha Hd. induction fuel as [|fuel IH]; intros cwd plist Hf; [lia|].
  pose proof (make_path_elt cwd file plist Ha Hd) as H. pose proof (to_colon_spec plist) as Hc.
  cbn [make_paths]. destruct (to_colon plist) as [e r].
  destruct (make_path cwd file (Some plist)) as [[[s used] ph] next].
  destruct H as (-> & -> & -> & _). destruct Hc as (E & El & Hl). rewrite El.
  destruct (after r) as [r'|] eqn:Er.
  - pose proof (after_len _ _ Er). destruct (IH cwd r') as (l & -> & E1 & E2); [lia|].
    eexists. split; [reflexivity|]. cbn [strings useds map fst snd]. split; f_equal; assumption.
  - eexists. split; [reflexivity|]. split; reflexivity.
Qed.

Lemma make_path_abs cwd file cdpath : is_abs file = true -> make_path cwd file cdpath = (file, false, 0, None).
Proof. destruct file as [|c f]; [discriminate|]. cbn [is_abs]. intros H. unfold make_path. rewrite H. reflexivity. Qed.

Lemma make_path_direct cwd file cdpath : is_abs file = false -> (dot_file file = true \/ cdpath = None) ->
  exists ph, make_path cwd file cdpath = (one_slash (cwd_text cwd) file, false, ph, None).
Proof.
  intros Ha Hd. destruct file as [|c f].
  - destruct Hd as [Hd| ->]; [discriminate|]. unfold make_path. cbn [negb orb]. rewrite cwd_put. eauto.
  - cbn [is_abs] in Ha. unfold make_path. rewrite Ha. destruct cdpath as [plist|].
    + destruct Hd as [->|]; [|discriminate]. cbn [negb orb]. cbn [app]. rewrite cwd_put. eauto.
    + cbn [negb orb app]. rewrite cwd_put. eauto.
Qed.

Section FSP.
  Variable stat : cstr -> option fileinfo.
  Variable access : cstr -> bool -> option nat.

  Lemma search_access_ok p x e : fst (search_access stat access p x e) = true <-> qualifies stat access x p.
  Proof.
    unfold search_access, qualifies. destruct (stat p) as [st|].
    - destruct (access p x) as [er|] eqn:Ea; cbn [fst].
      + split; [discriminate|]. intros (st' & _ & H & _). discriminate.
      + destruct x; cbn [andb].
        * destruct (is_reg st) eqn:E1; cbn [negb orb].
          -- destruct (any_x st) eqn:E2; cbn [negb fst].
             ++ split; [|reflexivity]. intros _. exists st. auto.
             ++ split; [discriminate|]. intros (st' & E & _ & H). injection E as <-. destruct (H eq_refl). congruence.
          -- split; [discriminate|]. intros (st' & E & _ & H). injection E as <-. destruct (H eq_refl). congruence.
        * cbn. split; [|reflexivity]. intros _. exists st. repeat split; auto; discriminate.
    - split; [discriminate|]. intros (st & H & _). discriminate.
  Qed.

  Lemma search_loop_spec fuel : forall name sp x e, length sp < fuel ->
    exists r e', search_loop stat access fuel name sp x e = Some (r, e') /\
      (r = None /\ (forall d, In d (colon_list sp) -> ~ qualifies stat access x (candidate name d)) \/
       exists before d later, colon_list sp = before ++ d :: later /\ r = Some (candidate name d) /\
         qualifies stat access x (candidate name d) /\
         forall d', In d' before -> ~ qualifies stat access x (candidate name d')).
  Proof.
    induction fuel as [|fuel IH]; intros name sp x e Hf; [lia|].
    pose proof (to_colon_spec sp) as Hc. cbn [search_loop]. destruct (to_colon sp) as [d r].
    destruct Hc as (E & El & Hl). rewrite El. fold (candidate name d).
    pose proof (search_access_ok (candidate name d) x e) as Hok.
    destruct (search_access stat access (candidate name d) x e) as [ok e1]. cbn [fst] in Hok.
    destruct ok.
    - eexists _, _. split; [reflexivity|]. right. exists [], d. eexists. split; [reflexivity|].
      split; [reflexivity|]. split; [apply Hok; reflexivity|intros ? []].
    - assert (Hn : ~ qualifies stat access x (candidate name d)) by (intros H; apply Hok in H; discriminate).
      destruct (after r) as [r'|] eqn:Er.
      + pose proof (after_len _ _ Er). destruct (IH name r' x e1) as (res & e' & -> & H0); [lia|].
        eexists _, _. split; [reflexivity|].
        destruct H0 as [[-> H0]|(before & d' & later & H1 & -> & H2 & H3)].
        * left. split; [reflexivity|]. intros d0 [<-|Hin]; auto.
        * right. exists (d :: before), d', later. rewrite H1. split; [reflexivity|]. split; [reflexivity|].
          split; [assumption|]. intros d0 [<-|Hin]; auto.
      + eexists _, _. split; [reflexivity|]. left. split; [reflexivity|]. intros d0 [<-|[]]. assumption.
  Qed.
End FSP.
