(** cd. *)
From Verif Require Import Base Num_model SimplifyPath_model SimplifyPath_spec SimplifyPath_proof SimplifyPath_props Cd_model Cd_spec Cd_proof.

Lemma parts_ne s : parts s <> [].
Proof. destruct s as [|c s]; cbn; [discriminate|]. destruct (ceq c ":"); [discriminate|]. destruct (parts s); discriminate. Qed.
Lemma parts_colon p : parts p = fst (upto_colon p) :: match snd (upto_colon p) with None => [] | Some r => parts r end.
Proof.
  induction p as [|c p IH]; cbn; [reflexivity|]. destruct (ceq c ":"); [reflexivity|]. rewrite IH.
  destruct (upto_colon p) as [e r]. reflexivity.
Qed.
Lemma colon_len p r : snd (upto_colon p) = Some r -> length r < length p.
Proof.
  induction p as [|c p IH]; cbn; [discriminate|]. destruct (ceq c ":"); cbn; [intros [= <-]; lia|].
  destruct (upto_colon p) as [e r']. cbn in *. intros H. specialize (IH H). lia.
Qed.
Lemma colon_nul p r : snd (upto_colon p) = Some r -> nul_free p = true -> nul_free r = true.
Proof.
  induction p as [|c p IH]; cbn [upto_colon]; [discriminate|]. intros H N. rewrite nul_free_cons in N. apply andb_prop in N. destruct N as [_ N].
  destruct (ceq c ":"); cbn in *; [injection H as <-; exact N|]. destruct (upto_colon p) as [e r']. cbn in *. auto.
Qed.
Lemma str_eqb_cons a s b t : str_eqb (a :: s) (b :: t) = ceq a b && str_eqb s t.
Proof. destruct (str_eqb_spec (a :: s) (b :: t)) as [H|H], (ceq_spec a b), (str_eqb_spec s t); cbn; congruence. Qed.
Lemma str_eqb_nil x : str_eqb x [] = empty x. Proof. destruct x; reflexivity. Qed.
Lemma str_eqb_one a : str_eqb [a] (L "/") = ceq a "/".
Proof. change (L "/") with ["/"%char]. rewrite str_eqb_cons, str_eqb_nil. apply andb_true_r. Qed.
Lemma inside_eq e p : inside e p = if empty e then p else with_slash e ++ p.
Proof.
  destruct e as [|c e]; [reflexivity|]. unfold inside, with_slash. cbn [empty]. generalize (c :: e). intros l.
  rewrite str_eqb_one. destruct (ceq _ _); [|rewrite <- app_assoc]; reflexivity.
Qed.
Lemma inside_absolute e p : e <> [] -> absolute (inside e p) = absolute e.
Proof. intros H. rewrite inside_eq. destruct e as [|c e]; [congruence|]. cbn [empty]. rewrite absolute_app by apply with_slash_ne. apply with_slash_absolute. discriminate. Qed.
Lemma inside_other e p : e <> [] -> inside e p <> p.
Proof.
  intros H G. apply (f_equal (@length char)) in G. rewrite inside_eq in G. destruct e as [|c e]; [congruence|]. cbn [empty] in G. rewrite app_length in G.
  pose proof (with_slash_ne (c :: e)). destruct (with_slash (c :: e)); [congruence|]. cbn in G. lia.
Qed.
Lemma dotted_spec file : nul_free file = true ->
  dotted file = match components file with x :: _ => str_eqb x (L ".") || str_eqb x (L "..") | [] => false end.
Proof.
  intros N.
  assert (H : forall s, nul_free s = true -> match components s with x :: _ => empty x | [] => false end = (ceq (nth 0 s NUL) "/" || is_nul (nth 0 s NUL))).
  { intros [|c s] Hs; cbn; [reflexivity|]. apply andb_prop in Hs. destruct Hs as [Hc _]. apply negb_true_iff in Hc. rewrite Hc, orb_false_r.
    destruct (ceq c "/"); [reflexivity|]. destruct (components s); reflexivity. }
  assert (D : forall x c, str_eqb (c :: x) (L ".") = ceq c "." && empty x).
  { intros x c. change (L ".") with ["."%char]. rewrite str_eqb_cons, str_eqb_nil. reflexivity. }
  destruct file as [|a file]; [reflexivity|]. unfold dotted. cbn [first_is nth components]. apply andb_prop in N. destruct N as [Na N].
  destruct (ceq a "/") eqn:Ea; [apply ceq_true in Ea; subst a; reflexivity|].
  pose proof (components_nonempty file) as NE. specialize (H file N) as H0.
  destruct (components file) as [|x xs] eqn:EC; [congruence|]. rewrite D. change (L "..") with ("."%char :: L "."). rewrite str_eqb_cons.
  rewrite <- andb_orb_distrib_r. unfold first_is. cbn [nth]. f_equal. rewrite H0.
  destruct file as [|b file]; [cbn in EC; injection EC as <- <-; reflexivity|]. cbn [nth] in *. destruct (ceq b ".") eqn:Eb.
  - apply ceq_true in Eb. subst b. cbn in EC. pose proof (components_nonempty file) as NE'. apply andb_prop in N. destruct N as [_ N]. specialize (H file N) as H1.
    destruct (components file) as [|y ys]; [congruence|]. injection EC as <- <-. rewrite D. cbn [ceq] in *. rewrite <- H1.
    change (is_nul "."%char) with false. change (ceq "."%char "/"%char) with false. change (ceq "."%char "."%char) with true. reflexivity.
  - destruct x as [|c x]; [cbn; rewrite orb_false_r; reflexivity|]. rewrite D. cbn in EC. destruct (ceq b "/"); [discriminate|].
    destruct (components file); injection EC as <- _ _ || injection EC as <- _; rewrite Eb, orb_false_r; reflexivity.
Qed.

(** What make_path gives *)
Lemma make_path_ok cwd file p : nul_free file = true ->
  exists t, tries file p = t :: (match snd (make_path cwd file (Some p)) with None => [] | Some r => tries file r end) /\
  fst (fst (fst (make_path cwd file (Some p)))) = full cwd t /\ skipn (snd (fst (fst (make_path cwd file (Some p))))) (full cwd t) = t /\
  (snd (fst (make_path cwd file (Some p))) = true <-> t <> file) /\
  (forall r, snd (make_path cwd file (Some p)) = Some r -> length r < length p /\ (nul_free p = true -> nul_free r = true)).
Proof.
  intros N. unfold make_path, tries. rewrite first_absolute. destruct (absolute file) eqn:Ea.
  { exists file. cbn [fst snd]. unfold full. rewrite Ea. cbn [skipn]. repeat split; auto; try discriminate; try contradiction. }
  rewrite (dotted_spec file N). pose proof (components_nonempty file) as NE. destruct (components file) as [|x xs]; [congruence|].
  destruct (str_eqb x (L ".") || str_eqb x (L "..")).
  { exists file. cbn [negb orb andb fst snd app]. unfold full. rewrite Ea, inside_eq. destruct (empty cwd); cbn [negb app length skipn].
    - repeat split; auto; try discriminate; try contradiction.
    - repeat split; auto; try discriminate; try contradiction. rewrite skipn_app, skipn_all, Nat.sub_diag. reflexivity. }
  destruct (upto_colon p) as [e r] eqn:EU. exists (inside e file). cbn [negb orb andb fst snd]. rewrite (parts_colon p), EU. cbn [fst snd map].
  split; [destruct r; reflexivity|]. split; [|split; [|split]].
  - unfold full. destruct e as [|c e].
    + cbn [empty orb negb app]. change (inside [] file) with file. rewrite Ea, inside_eq. cbn [app]. destruct (empty cwd); reflexivity.
    + cbn [empty orb negb]. rewrite inside_absolute by discriminate. rewrite first_absolute. destruct (absolute (c :: e)) eqn:Ece; cbn [negb andb].
      * rewrite inside_eq. reflexivity.
      * rewrite (inside_eq cwd), (inside_eq (c :: e)). cbn [empty]. destruct (empty cwd); reflexivity.
  - unfold full. destruct e as [|c e].
    + cbn [empty orb negb app]. change (inside [] file) with file. rewrite Ea, inside_eq. destruct (empty cwd); cbn [negb andb length skipn]; [reflexivity|].
      rewrite skipn_app, skipn_all, Nat.sub_diag. reflexivity.
    + cbn [empty orb negb]. rewrite inside_absolute by discriminate. rewrite first_absolute. destruct (absolute (c :: e)) eqn:Ece; cbn [negb andb]; [reflexivity|].
      rewrite (inside_eq cwd). destruct (empty cwd); cbn [negb length skipn]; [reflexivity|]. rewrite skipn_app, skipn_all, Nat.sub_diag. reflexivity.
  - destruct e as [|c e]; cbn [empty negb]; [split; [discriminate|intros H; contradiction H; reflexivity]|]. split; [|reflexivity]. intros _. apply inside_other. discriminate.
  - intros r' ->. split; [apply colon_len|apply colon_nul]; rewrite EU; reflexivity.
Qed.

(** ** C strings *)
Lemma nul_free_inside e p : nul_free e = true -> nul_free p = true -> nul_free (inside e p) = true.
Proof.
  intros A B. rewrite inside_eq. destruct (empty e); [exact B|]. rewrite nul_free_app, B. unfold with_slash.
  destruct (ceq _ _); [rewrite A|rewrite nul_free_app, A]; reflexivity.
Qed.
Lemma nul_free_full e p : nul_free e = true -> nul_free p = true -> nul_free (full e p) = true.
Proof. intros A B. unfold full. destruct (absolute p); [exact B|]. apply nul_free_inside; auto. Qed.
Lemma nul_free_parts s : nul_free s = true -> Forall (fun x => nul_free x = true) (parts s).
Proof.
  induction s as [|c s IH]; intros H; cbn [parts]; [repeat constructor|]. rewrite nul_free_cons in H. apply andb_prop in H. destruct H as [H1 H2]. specialize (IH H2).
  destruct (ceq c ":"); [constructor; auto|]. destruct (parts s); [repeat constructor; rewrite nul_free_cons, H1; reflexivity|].
  inversion IH; subst. constructor; auto. rewrite nul_free_cons, H1. auto.
Qed.
Lemma nul_free_tries file cdp : nul_free file = true -> nul_free cdp = true -> Forall (fun x => nul_free x = true) (tries file cdp).
Proof.
  intros A B. unfold tries. assert (F : Forall (fun x => nul_free x = true) [file]) by auto. destruct (absolute file); [exact F|].
  destruct (components file) as [|x xs]; [exact F|]. destruct (_ || _); [exact F|]. apply Forall_map. eapply Forall_impl; [|apply nul_free_parts, B].
  intros e He. apply nul_free_inside; auto.
Qed.
Lemma simplify_total t : nul_free t = true -> exists q, simplify_path t = Ok q /\ nul_free q = true.
Proof.
  intros H. destruct t as [|c t]; [exists []; auto|]. destruct (c03_simplify_path (c :: t)) as (q & A & _ & _ & _ & B & _); [discriminate|exact H|]. eauto.
Qed.
Lemma simplify_absolute t q : nul_free t = true -> simplify_path t = Ok q -> absolute q = absolute t.
Proof.
  intros H E. destruct t as [|c t]; [injection E as <-; auto|]. destruct (c03_simplify_path (c :: t)) as (q' & A & _ & B & _); [discriminate|exact H|]. congruence.
Qed.

(** ** c_ksh.c:107-117 *)
Definition refused (k : kernel) (ph : bool) (d : N) (cwd p : cstr) : Prop := exists q, asked ph cwd p q /\ k_chdir k d q = None.
Lemma try_ok k ph d cwd file : nul_free cwd = true -> nul_free file = true -> forall f p, S (length p) < f -> nul_free p = true ->
  exists r, try_dirs k ph d cwd file f (Some p) = Ok r /\
  match r with
  | None => Forall (refused k ph d cwd) (tries file p)
  | Some (i, t, node) => exists l1 x l2 q, tries file p = l1 ++ x :: l2 /\ Forall (refused k ph d cwd) l1 /\ asked ph cwd x q /\ k_chdir k d q = Some i /\
      t = (if ph then full cwd x else q) /\ (node = true <-> x <> file)
  end.
Proof.
  intros NC NF. induction f as [|f IH]; intros p Hf NP; [lia|]. cbn [try_dirs].
  destruct (make_path_ok cwd file p NF) as (t & A & B & C & C' & D). destruct (make_path cwd file (Some p)) as [[[t' ph'] node] rest]. cbn [fst snd] in *. subst t'.
  assert (NT : nul_free t = true). { pose proof (nul_free_tries file p NF NP) as G. rewrite A in G. inversion G; auto. }
  destruct (simplify_total (full cwd t)) as (q & Q1 & Q2); [apply nul_free_full; auto|].
  set (t1 := if ph then full cwd t else q). set (q1 := if ph then t else q).
  assert (E : (if ph then Ok (full cwd t) else simplify_path (full cwd t)) = Ok t1) by (unfold t1; destruct ph; auto). rewrite E. cbn [bind].
  assert (E1 : (if ph then skipn ph' t1 else t1) = q1) by (unfold q1, t1; destruct ph; auto). rewrite E1.
  assert (AS : asked ph cwd t q1) by (unfold asked, q1; destruct ph; auto).
  destruct (k_chdir k d q1) as [i|] eqn:EK.
  - eexists. split; [reflexivity|]. exists [], t, (match rest with None => [] | Some r => tries file r end), q1. repeat split; auto; try apply C'.
    unfold t1, q1. destruct ph; reflexivity.
  - assert (R : refused k ph d cwd t) by (exists q1; auto). destruct rest as [r|].
    + assert (NR : nul_free r = true).
      { apply (D r eq_refl). exact NP. }
      destruct (IH r) as (v & V1 & V2); [destruct (D r eq_refl); lia|exact NR|]. exists v. split; [exact V1|]. rewrite A.
      destruct v as [[[i t2] node2]|]; [|constructor; auto]. destruct V2 as (l1 & x & l2 & q2 & W1 & W2 & W3). exists (t :: l1), x, l2, q2.
      rewrite W1. split; [reflexivity|]. split; [constructor; auto|exact W3].
    + eexists. split; [reflexivity|]. cbn. rewrite A. constructor; auto.
Qed.

(** ** c_ksh.c:122-161 *)
Section W.
Variable f : fs.
Variable k : kernel.
Hypothesis HK : honest_kernel f k.
Hypothesis HT : tree f.
Lemma physical_names p i : is_physical f p i -> names_dir f p i.
Proof.
  intros (l & -> & H). split; [reflexivity|]. cbn [components]. change (ceq "/" "/") with true. cbv iota. apply r_stay; [auto|].
  destruct l as [|x l]; [inversion H as [E|l' ? ? ? ? ? ? E]; [apply r_stay; [auto|constructor]|destruct l'; discriminate]|].
  rewrite components_join; [apply real_reach, H|discriminate|]. apply real_plain in H. eapply Forall_impl; [|exact H]. intros a Ha. apply Ha.
Qed.
Lemma text_phys pos i : real f pos i -> Forall (fun x => nul_free x = true) pos ->
  let p := match text pos with [] => L "/" | t => t end in is_physical f p i /\ nul_free p = true.
Proof.
  intros H N. destruct pos as [|x l].
  - cbn. split; [|reflexivity]. exists []. split; [reflexivity|exact H].
  - rewrite text_join. cbv zeta iota. split; [exists (x :: l); auto|]. rewrite <- text_join. clear H. induction (x :: l) as [|y r IH]; [reflexivity|].
    inversion N; subst. cbn [text flat_map]. fold (text r). rewrite nul_free_app. change ("/"%char :: y) with (L "/" ++ y). rewrite nul_free_app, IH by auto.
    rewrite H1. reflexivity.
Qed.
Lemma get_phys_ok n p i q : names_dir f p i -> nul_free p = true -> get_phys_path k n p = POk q -> is_physical f q i /\ nul_free q = true.
Proof.
  intros [A B] N H. unfold get_phys_path in H. destruct (phys k n [] (names [] p)) as [r| |] eqn:E; [|discriminate|discriminate].
  destruct (phys_ok f k HK HT n (names [] p) [] (root f) i r E) as (pos & -> & R & NP); [constructor|constructor|apply names_comp, N|rewrite names_filter; apply (proj1 (reach_filter f _ _ _)), B|].
  pose proof (text_phys pos i R NP) as G. cbv zeta in G. destruct (text pos); injection H as <-; exact G.
Qed.
Lemma get_phys_null n p i : reads_links f k -> names_dir f p i -> nul_free p = true -> get_phys_path k n p <> PNull.
Proof.
  intros HL [A B] N. unfold get_phys_path.
  assert (G : phys k n [] (names [] p) <> PNull).
  { apply (phys_null f k HK HT HL n (names [] p) [] (root f) i); [constructor|constructor|apply names_comp, N|rewrite names_filter; apply (proj1 (reach_filter f _ _ _)), B]. }
  destruct (phys k n _ _) as [[|]| |]; congruence.
Qed.
Lemma get_phys_end p i : names_dir f p i -> nul_free p = true -> exists n0, forall n, n0 <= n -> get_phys_path k n p = get_phys_path k n0 p /\ get_phys_path k n0 p <> PFuel.
Proof.
  intros [A B] N. destruct (phys_end f k HK HT _ _ _ B) as (n0 & H).
  { apply Forall_forall. intros y Hy. split; [exact (proj1 (Forall_forall _ _) (components_noslash p) y Hy)|exact (proj1 (Forall_forall _ _) (components_nul_free p N) y Hy)]. }
  exists n0. intros n Hn. specialize (H [] (real_root f) (Forall_nil _)). rewrite <- names_filter in H. change (text []) with (@nil char) in H.
  unfold get_phys_path. rewrite (phys_mono k n0 n) by auto. split; [reflexivity|]. destruct (phys k n0 _ _) as [[|]| |]; congruence.
Qed.
End W.

Definition path_of (ph : bool) (cwd x q : cstr) : cstr := if ph then full cwd x else q.
Record went (k : kernel) (ph pp : bool) (file : cstr) (s : sh) (out : option cstr) (s' : sh) (l1 : list cstr) (x : cstr) (l2 : list cstr) (q : cstr) : Prop := {
  w_tries : tries file (val (cdpath s)) = l1 ++ x :: l2;
  w_ref : Forall (refused k ph (dir s) (wd s)) l1;
  w_asked : asked ph (wd s) x q;
  w_chdir : k_chdir k (dir s) q = Some (dir s');
  w_old : oldpwd s' = if oldpwd_ro s || str_eqb (wd s) [] then oldpwd s else Some (wd s);
  w_ro : pwd_ro s' = pwd_ro s /\ oldpwd_ro s' = oldpwd_ro s /\ home s' = home s /\ cdpath s' = cdpath s;
  w_out : out = if pp || negb (str_eqb x file) then Some (if absolute (path_of ph (wd s) x q) then wd s' else path_of ph (wd s) x q) else None;
  w_pwd : pwd s' = if pwd_ro s || negb (absolute (path_of ph (wd s) x q)) then pwd s else Some (wd s');
  w_wd : let t := path_of ph (wd s) x q in
         if absolute t then if ph then exists n, get_phys_path k n t = POk (wd s') \/ get_phys_path k n t = PNull /\ wd s' = t else wd s' = t
         else wd s' = []
}.
Lemma go_ok k n ph pp file s rc out s' : strings s -> nul_free file = true -> go_to k n ph pp file s = Ok (rc, out, s') ->
  (rc = 1 /\ out = None /\ s' = s /\ Forall (refused k ph (dir s) (wd s)) (tries file (val (cdpath s)))) \/
  (rc = 0 /\ exists l1 x l2 q, went k ph pp file s out s' l1 x l2 q).
Proof.
  intros (N1 & N2 & N3 & N4 & N5) NF H. unfold go_to in H.
  assert (NV : nul_free (val (cdpath s)) = true). { unfold nf in N5. destruct (cdpath s) as [v|]; [apply N5; reflexivity|reflexivity]. }
  destruct (try_ok k ph (dir s) (wd s) file N1 NF (S (S (length (val (cdpath s))))) (val (cdpath s))) as (r & R1 & R2); [lia|exact NV|].
  rewrite R1 in H. cbn [bind] in H. destruct r as [[[i t] node]|]; [|injection H as <- <- <-; left; auto].
  right. destruct R2 as (l1 & x & l2 & q & A & B & C & D & E & F). rewrite first_absolute in H.
  assert (EO : (if empty (wd s) || oldpwd_ro s then oldpwd s else Some (wd s)) = (if oldpwd_ro s || str_eqb (wd s) [] then oldpwd s else Some (wd s))).
  { rewrite str_eqb_nil, orb_comm. reflexivity. }
  assert (EN : node = negb (str_eqb x file)). { destruct (str_eqb_spec x file) as [EQ|NE], node; cbn; auto; [destruct (proj1 F eq_refl EQ)|rewrite (proj2 F NE); reflexivity]. }
  change (if ph then full (wd s) x else q) with (path_of ph (wd s) x q) in E. subst t. rewrite EO in H.
  destruct (absolute (path_of ph (wd s) x q)) eqn:EA.
  - destruct ph.
    + destruct (get_phys_path k n _) as [p| |] eqn:EG; [| |discriminate]; cbn [bind] in H; injection H as <- <- <-; (split; [reflexivity|]); exists l1, x, l2, q; constructor; cbn [Cd_model.dir wd pwd pwd_ro oldpwd oldpwd_ro home cdpath]; auto;
        cbv zeta; rewrite ?EA; cbn [negb]; rewrite ?orb_false_r, <- ?EN; try solve [auto]; try (exists n; rewrite EG; auto).
    + cbn [bind] in H; injection H as <- <- <-. split; [reflexivity|]. exists l1, x, l2, q. constructor; cbn [Cd_model.dir wd pwd pwd_ro oldpwd oldpwd_ro home cdpath]; auto;
        cbv zeta; rewrite ?EA; cbn [negb]; rewrite ?orb_false_r, <- ?EN; auto.
  - cbn [bind] in H. injection H as <- <- <-. split; [reflexivity|]. exists l1, x, l2, q. constructor; cbn [Cd_model.dir wd pwd pwd_ro oldpwd oldpwd_ro home cdpath]; auto; cbv zeta; rewrite ?EA; cbn [negb]; rewrite ?orb_true_r, <- ?EN; auto.
Qed.

(** ** The arguments *)
Lemma prefix_ok p : forall t, prefix p t = true <-> exists y, t = p ++ y.
Proof.
  induction p as [|a p IH]; intros t; cbn; [split; eauto|]. destruct t as [|b t]; [split; [discriminate|intros (y & H); discriminate]|].
  rewrite andb_true_iff, ceq_true, IH. split; [intros (-> & y & ->); eauto|]. intros (y & H). injection H as -> ->. eauto.
Qed.
Lemma subst_ok a b t : match subst_first a b t with
  | Some r => exists x y, t = x ++ a ++ y /\ r = x ++ b ++ y /\ forall x' y', t = x' ++ a ++ y' -> length x <= length x'
  | None => forall x y, t <> x ++ a ++ y
  end.
Proof.
  induction t as [|c t IH].
  - cbn [subst_first]. destruct (prefix a []) eqn:E.
    + apply prefix_ok in E. destruct E as (y & E). symmetry in E. apply app_eq_nil in E. destruct E as [-> ->]. exists [], []. repeat split; auto. intros. cbn. lia.
    + intros x y H. destruct x; [|discriminate]. cbn in H. rewrite (proj2 (prefix_ok a []) (ex_intro _ y H)) in E. discriminate.
  - cbn [subst_first]. destruct (prefix a (c :: t)) eqn:E.
    + apply prefix_ok in E. destruct E as (y & E). exists [], y. rewrite E. rewrite skipn_app, skipn_all, Nat.sub_diag. repeat split; auto. intros. cbn. lia.
    + assert (G : forall y, c :: t <> a ++ y). { intros y H. rewrite (proj2 (prefix_ok a (c :: t)) (ex_intro _ y H)) in E. discriminate. }
      destruct (subst_first a b t) as [r|].
      * destruct IH as (x & y & A & B & C). exists (c :: x), y. cbn. rewrite <- A, <- B. repeat split; auto.
        intros [|c' x'] y' H; [destruct (G y' H)|]. injection H as _ H. apply C in H. cbn. lia.
      * intros [|c' x'] y' H; [destruct (G y' H)|]. injection H as _ H. apply IH in H. exact H.
Qed.
Definition shown (args : list cstr) : bool := match args with [a] => str_eqb a (L "-") | [_; _] => true | _ => false end.
Lemma cd_dest k n ph args s : strings s -> Forall (fun a => nul_free a = true) args ->
  (exists file, dest s args file /\ nul_free file = true /\ c_cd k n false ph args s = go_to k n ph (shown args) file s) \/
  ((forall file, ~ dest s args file) /\ c_cd k n false ph args s = Ok (1, None, s)).
Proof.
  intros (N1 & N2 & N3 & N4 & N5) NA. destruct args as [|a [|b [|c args]]]; cbn [c_cd].
  - destruct (home s) as [d|] eqn:E; [left; exists d; split; [constructor; auto|split; [apply N4; auto|reflexivity]]|].
    right. split; [|reflexivity]. intros file H. inversion H; congruence.
  - cbn [shown]. destruct (str_eqb_spec a (L "-")) as [->|NE].
    + destruct (oldpwd s) as [d|] eqn:E; [left; exists d; split; [apply d_old; auto|split; [apply N3; auto|reflexivity]]|].
      right. split; [|reflexivity]. intros file H. inversion H as [|a' G| |]; subst; [apply G; reflexivity|congruence].
    + left. exists a. split; [constructor; auto|]. inversion NA; auto.
  - destruct (wd s) as [|c0 w] eqn:EW; cbn [empty].
    + right. split; [|reflexivity]. intros file H. inversion H; congruence.
    + pose proof (subst_ok a b (c0 :: w)) as G. destruct (subst_first a b (c0 :: w)) as [r|].
      * destruct G as (x & y & A & -> & C). left. exists (x ++ b ++ y). split; [apply (d_subst s a b x y); rewrite EW; auto; discriminate|]. split; [|reflexivity].
        rewrite A, !nul_free_app in N1. apply andb_prop in N1. destruct N1 as [N1 N1']. apply andb_prop in N1'. destruct N1' as [_ N1'].
        rewrite !nul_free_app, N1, N1'. inversion NA as [|? ? ? NB]; subst. inversion NB as [|? ? NB1 ?]; subst. rewrite NB1. reflexivity.
      * right. split; [|reflexivity]. intros file H. inversion H; subst. eapply G. rewrite <- EW. eassumption.
  - right. split; [|reflexivity]. intros file H. inversion H.
Qed.
Lemma dest_fun s args d1 d2 : dest s args d1 -> dest s args d2 -> d1 = d2.
Proof.
  intros A B. destruct A as [d H|a H|d H|a b x y H1 H2 H3]; inversion B as [d' G|a' G|d' G|a' b' x' y' G1 G2 G3]; subst; try congruence; try (contradiction H; reflexivity); try (contradiction G; reflexivity).
  pose proof (H3 x' y' G2) as L1. pose proof (G3 x y H2) as L2. assert (LE : length x = length x') by lia.
  rewrite H2 in G2. assert (EX : x = x'). { apply (f_equal (firstn (length x))) in G2. rewrite LE in G2 at 2. rewrite !firstn_app, !firstn_all, !Nat.sub_diag in G2. cbn in G2. rewrite !app_nil_r in G2. exact G2. }
  subst x'. apply app_inv_head in G2. apply app_inv_head in G2. congruence.
Qed.
Lemma cd_ok k n ph args s rc out s' : strings s -> Forall (fun a => nul_free a = true) args -> c_cd k n false ph args s = Ok (rc, out, s') ->
  (rc = 1 /\ out = None /\ s' = s /\ forall file, dest s args file -> Forall (refused k ph (dir s) (wd s)) (tries file (val (cdpath s)))) \/
  (rc = 0 /\ exists file l1 x l2 q, dest s args file /\ nul_free x = true /\ went k ph (shown args) file s out s' l1 x l2 q).
Proof.
  intros HS HA H. destruct (cd_dest k n ph args s HS HA) as [(file & D & NF & E)|(D & E)]; rewrite E in H.
  - destruct (go_ok k n ph _ file s rc out s' HS NF H) as [(A & B & C & F)|(A & l1 & x & l2 & q & W)].
    + left. repeat split; auto. intros file' D'. rewrite (dest_fun s args file' file D' D). exact F.
    + right. split; [exact A|]. exists file, l1, x, l2, q. split; [exact D|]. split; [|exact W].
      destruct HS as (N1 & N2 & N3 & N4 & N5). assert (NV : nul_free (val (cdpath s)) = true). { unfold nf in N5. destruct (cdpath s) as [v|]; [apply N5; reflexivity|reflexivity]. }
      pose proof (nul_free_tries file _ NF NV) as G. rewrite (w_tries _ _ _ _ _ _ _ _ _ _ _ W) in G. apply Forall_app in G. destruct G as [_ G]. inversion G; auto.
  - injection H as <- <- <-. left. repeat split; auto. intros file D'. destruct (D _ D').
Qed.
