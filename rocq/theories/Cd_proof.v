(** The current directory: paths and what they name. *)
From Verif Require Import Base Num_model SimplifyPath_model SimplifyPath_spec SimplifyPath_proof SimplifyPath_props Cd_model Cd_spec.

(** ** Components *)
Definition ne (x : cstr) : bool := negb (empty x).
Lemma names_comps p : forall x, names x p = match components p with y :: ys => flush (x ++ y) (filter ne ys) | [] => [] end.
Proof.
  induction p as [|c p IH]; intros x; cbn [names components]; [rewrite app_nil_r; reflexivity|].
  destruct (ceq c "/").
  - rewrite app_nil_r. f_equal. rewrite IH. destruct (components p) as [|y ys]; [reflexivity|]. cbn [filter app]. unfold flush, ne. destruct (empty y); reflexivity.
  - rewrite IH. pose proof (components_nonempty p). destruct (components p) as [|y ys]; [congruence|]. rewrite <- app_assoc. reflexivity.
Qed.
Lemma names_filter p : names [] p = filter ne (components p).
Proof. rewrite names_comps. destruct (components p) as [|y ys]; [reflexivity|]. cbn [app filter]. unfold flush, ne. destruct (empty y); reflexivity. Qed.
Lemma comps_join a b : components (a ++ "/"%char :: b) = components a ++ components b.
Proof.
  induction a as [|c a IH]; cbn [app components]; [reflexivity|]. destruct (ceq c "/"); [cbn; f_equal; exact IH|].
  rewrite IH. pose proof (components_nonempty a). destruct (components a); [congruence|reflexivity].
Qed.
Lemma first_absolute p : first_is "/" p = absolute p.
Proof. destruct p; reflexivity. Qed.
Lemma absolute_app a b : a <> [] -> absolute (a ++ b) = absolute a.
Proof. destruct a; [congruence|reflexivity]. Qed.
Lemma with_slash_cases p : p <> [] -> (exists q, p = q ++ L "/" /\ with_slash p = q ++ L "/") \/ with_slash p = p ++ L "/".
Proof.
  intros H. unfold with_slash. destruct (ceq (last p NUL) "/") eqn:E; [|auto]. apply ceq_true in E. left. exists (removelast p).
  rewrite (app_removelast_last NUL H) at 1 3. rewrite E. auto.
Qed.
Lemma with_slash_ne p : with_slash p <> [].
Proof. unfold with_slash. destruct p; cbn; [discriminate|]. destruct (ceq _ _); [discriminate|destruct p; discriminate]. Qed.
Lemma with_slash_absolute p : p <> [] -> absolute (with_slash p) = absolute p.
Proof. intros H. unfold with_slash. destruct (ceq _ _); [reflexivity|]. apply absolute_app. exact H. Qed.

(** ** Walking *)
Section W.
Variable f : fs.
Lemma reach_app l1 : forall d l2 i, reach f d (l1 ++ l2) i <-> exists e, reach f d l1 e /\ reach f e l2 i.
Proof.
  induction l1 as [|x l1 IH]; intros d l2 i; cbn [app].
  - split; [intros H; exists d; split; [constructor|exact H]|]. intros (e & H & G). inversion H; subst. exact G.
  - split.
    + intros H. inversion H as [|? ? ? ? A B|? ? ? B|? ? e ? ? A B C|? ? t e ? ? A B C D E]; subst; apply IH in B || apply IH in C || apply IH in E.
      * destruct B as (e & B1 & B2). exists e. split; [apply r_stay; auto|auto].
      * destruct B as (e & B1 & B2). exists e. split; [apply (r_up f d l1 e B1)|auto].
      * destruct C as (e' & B1 & B2). exists e'. split; [eapply r_down; eauto|auto].
      * destruct E as (e' & B1 & B2). exists e'. split; [eapply r_link; eauto|auto].
    + intros (e & H & G). inversion H as [|? ? ? ? A B|? ? ? B|? ? e' ? ? A B C|? ? t e' ? ? A B C D E]; subst.
      * apply r_stay; auto. apply IH. eauto.
      * apply (r_up f). apply IH. eauto.
      * eapply r_down; eauto. apply IH. eauto.
      * eapply r_link; eauto. apply IH. eauto.
Qed.
Lemma plain_not x : plain x -> x <> [] /\ x <> L "." /\ x <> L "..".
Proof. intros (A & B & C & _). auto. Qed.
Lemma reach_fun d l i : reach f d l i -> forall j, reach f d l j -> i = j.
Proof.
  induction 1 as [d|d x l i A B IH|d l i B IH|d x e l i A B C IH|d x t e l i A B C D IH1 E IH]; intros j H.
  - inversion H; auto.
  - inversion H as [|? ? ? ? A' B'|? ? ? B'|? ? e' ? ? A' B' C'|? ? t' e' ? ? A' B' C' D' E']; subst; auto.
    + destruct A; discriminate.
    + apply plain_not in A'. intuition.
    + apply plain_not in A'. intuition.
  - inversion H as [|? ? ? ? A' B'|? ? ? B'|? ? e' ? ? A' B' C'|? ? t' e' ? ? A' B' C' D' E']; subst; auto.
    + destruct A'; discriminate.
    + apply plain_not in A'. intuition.
    + apply plain_not in A'. intuition.
  - inversion H as [|? ? ? ? A' B'|? ? ? B'|? ? e' ? ? A' B' C'|? ? t' e' ? ? A' B' C' D' E']; subst.
    + apply plain_not in A. intuition.
    + apply plain_not in A. intuition.
    + rewrite B in B'. injection B' as <-. auto.
    + congruence.
  - inversion H as [|? ? ? ? A' B'|? ? ? B'|? ? e' ? ? A' B' C'|? ? t' e' ? ? A' B' C' D' E']; subst.
    + apply plain_not in A. intuition.
    + apply plain_not in A. intuition.
    + congruence.
    + rewrite B in B'. injection B' as <-. apply IH1 in D'. subst. auto.
Qed.
Lemma reach_filter d l i : reach f d l i <-> reach f d (filter ne l) i.
Proof.
  revert d. induction l as [|x l IH]; intros d; cbn [filter]; [reflexivity|]. destruct x as [|c x]; cbn [ne empty negb].
  - split.
    + intros H. inversion H as [|? ? ? ? A' B'|? ? ? B'|? ? e' ? ? A' B' C'|? ? t' e' ? ? A' B' C' D' E']; subst.
      * apply IH. auto.
      * apply plain_not in A'. intuition.
      * apply plain_not in A'. intuition.
    + intros H. apply IH in H. constructor; auto.
  - split; intros H; inversion H as [|? ? ? ? A' B'|? ? ? B'|? ? e' ? ? A' B' C'|? ? t' e' ? ? A' B' C' D' E']; subst.
    all: first [apply IH in B' | apply IH in C' | apply IH in E'].
    all: solve [apply r_stay; auto | apply (r_up f); auto | eapply r_down; eauto | eapply r_link; eauto].
Qed.
Lemma real_reach l d : real f l d -> reach f (root f) l d.
Proof.
  induction 1 as [|l d x i H IH A B]; [constructor|]. apply reach_app. exists d. split; [exact IH|].
  eapply r_down; eauto. constructor.
Qed.
Lemma real_plain l d : real f l d -> Forall plain l.
Proof. induction 1; [constructor|]. apply Forall_app. auto. Qed.
Lemma names_join a b d i : a <> [] -> names_dir f a d -> names_from f d b i -> absolute b = false -> names_dir f (with_slash a ++ b) i.
Proof.
  intros Ha [A B] [C D] E. unfold names_dir. rewrite absolute_app by apply with_slash_ne. rewrite with_slash_absolute by exact Ha.
  split; [exact A|]. unfold start in D. rewrite E in D. destruct (with_slash_cases a Ha) as [(q & -> & ->)| ->].
  - rewrite <- app_assoc. cbn [app L]. change (L "/" ++ b) with ("/"%char :: b). rewrite comps_join. apply reach_app. exists d. split; [|exact D].
    change (L "/") with ("/"%char :: []) in B. rewrite comps_join in B. apply reach_app in B. destruct B as (e & B1 & B2).
    cbn in B2. inversion B2 as [|? ? ? ? A' B'|? ? ? B'|? ? e' ? ? A' B' C'|? ? t' e' ? ? A' B' C' D' E']; subst.
    + inversion B'; subst. exact B1.
    + apply plain_not in A'. intuition.
    + apply plain_not in A'. intuition.
  - rewrite <- app_assoc. change (L "/" ++ b) with ("/"%char :: b). rewrite comps_join. apply reach_app. eauto.
Qed.

(** ** The physical path *)
Definition text (l : list cstr) : cstr := flat_map (fun x => "/"%char :: x) l.
Lemma text_app a b : text (a ++ b) = text a ++ text b.
Proof. apply flat_map_app. Qed.
Lemma text_join x l : text (x :: l) = "/"%char :: join (x :: l).
Proof.
  revert x. induction l as [|y l IH]; intros x; [cbn; rewrite app_nil_r; reflexivity|].
  change (text (x :: y :: l)) with ("/"%char :: x ++ text (y :: l)). rewrite IH. reflexivity.
Qed.
Lemma text_join' l x : text (l ++ [x]) = "/"%char :: join (l ++ [x]).
Proof. destruct l; [apply text_join|]. apply text_join. Qed.
Lemma drop_ok y r : ~ In "/"%char y -> drop_slash (y ++ "/"%char :: r) = r.
Proof.
  induction y as [|c y IH]; intros H; cbn [app drop_slash]; [reflexivity|].
  rewrite (proj2 (ceq_false c "/")) by (intros ->; apply H; left; reflexivity). apply IH. intros G. apply H. right. exact G.
Qed.
Lemma strip_text l x : plain x -> strip (text (l ++ [x])) = text l.
Proof.
  intros (_ & _ & _ & H). unfold strip. rewrite text_app. cbn [text flat_map]. rewrite app_nil_r, rev_app_distr. cbn [rev]. rewrite <- app_assoc. cbn [app].
  rewrite drop_ok; [apply rev_involutive|]. intros G. apply in_rev in G. contradiction.
Qed.
Variable k : kernel.
Hypothesis HK : honest_kernel f k.
Hypothesis HT : tree f.
Lemma phys_cons n out x l : phys k n out (x :: l) =
  if str_eqb x (L ".") then phys k n out l
  else if str_eqb x (L "..") then phys k n (strip out) l
  else match k_readlink k (out ++ "/"%char :: x) with
       | RInval => phys k n (out ++ "/"%char :: x) l
       | RErr => PNull
       | RLink t => match n with
                    | O => PFuel
                    | S n' => match phys k n' (if first_is "/" t then [] else out) (names [] t) with
                              | POk o => phys k n o l
                              | r => r
                              end
                    end
       end.
Proof. destruct n; reflexivity. Qed.
Lemma phys_nil n out : phys k n out [] = POk out.
Proof. destruct n; reflexivity. Qed.
Definition comp (x : cstr) : Prop := noslash x /\ x <> [] /\ nul_free x = true.
Lemma names_comp p : nul_free p = true -> Forall comp (names [] p).
Proof.
  intros H. rewrite names_filter. apply Forall_forall. intros x Hx. apply filter_In in Hx. destruct Hx as [Hx Hn].
  split; [exact (proj1 (Forall_forall _ _) (components_noslash p) x Hx)|]. split; [intros ->; discriminate|].
  exact (proj1 (Forall_forall _ _) (components_nul_free p H) x Hx).
Qed.
Lemma real_up l d : real f l d -> strip (text l) = text (removelast l) /\ real f (removelast l) (up f d).
Proof.
  intros H. inversion H as [|l' d' x i A B C]; subst.
  - cbn. rewrite (proj1 HT). split; [reflexivity|constructor].
  - rewrite strip_text by exact B. rewrite removelast_last. split; [reflexivity|]. rewrite (proj2 HT _ _ _ B C). exact A.
Qed.
Lemma comp_plain x : comp x -> x <> L "." -> x <> L ".." -> plain x.
Proof. intros (A & B & _) C D. split; [|split; [|split]]; auto. Qed.
Lemma phys_step l d x : real f l d -> plain x -> text l ++ "/"%char :: x = "/"%char :: join (l ++ [x]).
Proof. intros _ _. rewrite <- text_join', text_app. cbn [text flat_map]. rewrite app_nil_r. reflexivity. Qed.
Lemma reach_dot d l i : reach f d (L "." :: l) i -> reach f d l i.
Proof.
  intros H. inversion H as [|? ? ? ? A' B'|? ? ? B'|? ? e' ? ? A' B' C'|? ? t' e' ? ? A' B' C' D' E']; subst; auto; apply plain_not in A'; intuition.
Qed.
Lemma reach_dotdot d l i : reach f d (L ".." :: l) i -> reach f (up f d) l i.
Proof.
  intros H. inversion H as [|? ? ? ? A' B'|? ? ? B'|? ? e' ? ? A' B' C'|? ? t' e' ? ? A' B' C' D' E']; subst; auto.
  - destruct A'; discriminate.
  - apply plain_not in A'; intuition.
  - apply plain_not in A'; intuition.
Qed.
Lemma reach_plain d x l i : plain x -> reach f d (x :: l) i ->
  (exists e, entry f d x = Some (NDir e) /\ reach f e l i) \/
  (exists t e, entry f d x = Some (NLink t) /\ t <> [] /\ reach f (start f d t) (components t) e /\ reach f e l i).
Proof.
  intros P H. apply plain_not in P. inversion H as [|? ? ? ? A' B'|? ? ? B'|? ? e' ? ? A' B' C'|? ? t' e' ? ? A' B' C' D' E']; subst; intuition eauto 10.
Qed.
Lemma phys_ok n : forall l pos d i r, phys k n (text pos) l = POk r -> real f pos d -> Forall (fun x => nul_free x = true) pos -> Forall comp l -> reach f d l i ->
  exists pos', r = text pos' /\ real f pos' i /\ Forall (fun x => nul_free x = true) pos'.
Proof.
  induction n as [n IHn] using lt_wf_ind. induction l as [|x l IH]; intros pos d i r H R N C W.
  { rewrite phys_nil in H. injection H as <-. inversion W; subst. eauto. }
  inversion C as [|? ? C1 C2]; subst. rewrite phys_cons in H.
  destruct (str_eqb x (L ".")) eqn:E1; [apply str_eqb_true in E1; subst x; apply reach_dot in W; eauto|].
  destruct (str_eqb x (L "..")) eqn:E2.
  { apply str_eqb_true in E2; subst x. apply reach_dotdot in W. destruct (real_up _ _ R) as [U1 U2]. rewrite U1 in H.
    eapply IH; eauto. apply removelast_incl. exact N. }
  assert (P : plain x). { apply comp_plain; auto; intros ->; discriminate. }
  pose proof (phys_step pos d x R P) as T. rewrite T in H.
  destruct (k_readlink k _) as [t| |] eqn:EL; [| |discriminate].
  - destruct (hk_link f k HK pos d x t R P EL) as (L1 & L2 & L3). destruct n as [|n]; [discriminate|].
    destruct (reach_plain d x l i P W) as [(e & X & _)|(t' & e & X & _ & Y & Z)]; [congruence|]. rewrite L1 in X. injection X as <-.
    destruct (phys k n (if first_is "/" t then [] else text pos) (names [] t)) as [o| |] eqn:EP; try discriminate.
    assert (G : exists pos', o = text pos' /\ real f pos' e /\ Forall (fun x => nul_free x = true) pos').
    { rewrite names_filter in EP. apply reach_filter in Y. rewrite <- names_filter in Y, EP. rewrite first_absolute in EP. unfold start in Y. destruct (absolute t).
      - eapply (IHn n) with (pos := []); eauto; [constructor|apply names_comp; auto].
      - eapply (IHn n) with (pos := pos); eauto. apply names_comp; auto. }
    destruct G as (pos' & -> & R' & N'). eapply IH; eauto.
  - destruct (hk_notlink f k HK pos d x R P EL) as (e & L1 & L2).
    destruct (reach_plain d x l i P W) as [(e' & X & Y)|(t' & e' & X & _)]; [|rewrite L1 in X; injection X as ->; exfalso; eapply L2; eauto].
    rewrite <- text_join' in H. eapply IH; [exact H|eapply real_down; eauto| |auto|exact Y].
    apply Forall_app. split; [exact N|]. constructor; [apply C1|constructor].
Qed.
Lemma phys_null (HL : reads_links f k) n : forall l pos d i, real f pos d -> Forall (fun x => nul_free x = true) pos -> Forall comp l -> reach f d l i ->
  phys k n (text pos) l <> PNull.
Proof.
  induction n as [n IHn] using lt_wf_ind. induction l as [|x l IH]; intros pos d i R N C W; [rewrite phys_nil; discriminate|].
  inversion C as [|? ? C1 C2]; subst. rewrite phys_cons.
  destruct (str_eqb x (L ".")) eqn:E1; [apply str_eqb_true in E1; subst x; apply reach_dot in W; eauto|].
  destruct (str_eqb x (L "..")) eqn:E2.
  { apply str_eqb_true in E2; subst x. apply reach_dotdot in W. destruct (real_up _ _ R) as [U1 U2]. rewrite U1.
    eapply IH; eauto. apply removelast_incl. exact N. }
  assert (P : plain x). { apply comp_plain; auto; intros ->; discriminate. }
  pose proof (phys_step pos d x R P) as T. rewrite T.
  destruct (k_readlink k _) as [t| |] eqn:EL.
  - destruct (hk_link f k HK pos d x t R P EL) as (L1 & L2 & L3). destruct n as [|n]; [discriminate|].
    destruct (reach_plain d x l i P W) as [(e & X & _)|(t' & e & X & _ & Y & Z)]; [congruence|]. rewrite L1 in X. injection X as <-.
    apply reach_filter in Y. rewrite <- names_filter in Y. rewrite first_absolute. unfold start in Y.
    assert (G : exists pos1 d1, (if absolute t then [] else text pos) = text pos1 /\ real f pos1 d1 /\ Forall (fun x => nul_free x = true) pos1 /\ reach f d1 (names [] t) e).
    { destruct (absolute t); [exists [], (root f); repeat split; [constructor|constructor|exact Y]|exists pos, d; auto]. }
    destruct G as (pos1 & d1 & -> & R1 & N1 & Y1).
    destruct (phys k n (text pos1) (names [] t)) as [o| |] eqn:EP; [| |discriminate].
    + destruct (phys_ok n _ _ _ e o EP R1 N1 (names_comp t L3) Y1) as (pos' & -> & R' & N'). eapply IH; eauto.
    + exfalso. exact (IHn n (Nat.lt_succ_diag_r n) _ _ _ _ R1 N1 (names_comp t L3) Y1 EP).
  - destruct (hk_notlink f k HK pos d x R P EL) as (e & L1 & L2).
    destruct (reach_plain d x l i P W) as [(e' & X & Y)|(t' & e' & X & _)]; [|rewrite L1 in X; injection X as ->; exfalso; eapply L2; eauto].
    rewrite <- text_join'. eapply IH; [eapply real_down; eauto| |auto|exact Y].
    apply Forall_app. split; [exact N|]. constructor; [apply C1|constructor].
  - exfalso. destruct (reach_plain d x l i P W) as [(e & X & _)|(t' & e & X & _)]; eapply HL; eauto.
Qed.
Lemma phys_mono n : forall m l out, n <= m -> phys k n out l <> PFuel -> phys k m out l = phys k n out l.
Proof.
  induction n as [n IHn] using lt_wf_ind. intros m l. revert m. induction l as [|x l IH]; intros m out Hm H; [rewrite !phys_nil; reflexivity|].
  rewrite (phys_cons m), (phys_cons n) in *. destruct (str_eqb x _); [auto|]. destruct (str_eqb x _); [auto|].
  destruct (k_readlink k _) as [t| |]; auto. destruct n as [|n]; [congruence|]. destruct m as [|m]; [lia|].
  destruct (phys k n _ (names [] t)) as [o| |] eqn:E.
  - rewrite (IHn n) by (try lia; rewrite E; discriminate). rewrite E. apply IH; auto.
  - rewrite (IHn n) by (try lia; rewrite E; discriminate). rewrite E. reflexivity.
  - congruence.
Qed.
Lemma phys_end d l i : reach f d l i -> Forall (fun x => noslash x /\ nul_free x = true) l ->
  exists n, forall pos, real f pos d -> Forall (fun x => nul_free x = true) pos -> phys k n (text pos) (filter ne l) <> PFuel.
Proof.
  induction 1 as [d|d x l i A B IH|d l i B IH|d x e l i A B C IH|d x t e l i A B C D IH1 E IH]; intros HN.
  - exists 0. intros. rewrite phys_nil. discriminate.
  - inversion HN as [|? ? N1 N2]; subst. destruct (IH N2) as (n & H). exists n. intros pos R N. destruct A as [-> | ->]; [apply H; auto|].
    change (filter ne (L "." :: l)) with (L "." :: filter ne l). rewrite phys_cons. change (str_eqb (L ".") (L ".")) with true. cbv iota. auto.
  - inversion HN as [|? ? N1 N2]; subst. destruct (IH N2) as (n & H). exists n. intros pos R N.
    change (filter ne (L ".." :: l)) with (L ".." :: filter ne l). rewrite phys_cons. change (str_eqb (L "..") (L ".")) with false. change (str_eqb (L "..") (L "..")) with true.
    cbv iota. destruct (real_up _ _ R) as [U1 U2]. rewrite U1. apply H; auto. apply removelast_incl. exact N.
  - inversion HN as [|? ? N1 N2]; subst. destruct (IH N2) as (n & H). exists n. intros pos R N. destruct (plain_not _ A) as (A1 & A2 & A3).
    replace (filter ne (x :: l)) with (x :: filter ne l) by (destruct x; [congruence|reflexivity]).
    rewrite phys_cons. destruct (str_eqb x (L ".")) eqn:E1; [apply str_eqb_true in E1; congruence|].
    destruct (str_eqb x (L "..")) eqn:E2; [apply str_eqb_true in E2; congruence|].
    rewrite (phys_step pos d x R A). destruct (k_readlink k _) as [t| |] eqn:EL; [| |discriminate].
    + destruct (hk_link f k HK pos d x t R A EL) as (L1 & _). congruence.
    + rewrite <- text_join'. apply H; [eapply real_down; eauto|]. apply Forall_app. split; [exact N|]. constructor; [apply N1|constructor].
  - inversion HN as [|? ? N1 N2]; subst. destruct (IH N2) as (n2 & H2). destruct (plain_not _ A) as (A1 & A2 & A3).
    destruct (nul_free t) eqn:NT.
    + assert (NC : Forall (fun x => noslash x /\ nul_free x = true) (components t)).
      { apply Forall_forall. intros y Hy. split; [exact (proj1 (Forall_forall _ _) (components_noslash t) y Hy)|exact (proj1 (Forall_forall _ _) (components_nul_free t NT) y Hy)]. }
      destruct (IH1 NC) as (n1 & H1). exists (S (Nat.max n1 n2)). intros pos R N.
      replace (filter ne (x :: l)) with (x :: filter ne l) by (destruct x; [congruence|reflexivity]).
      rewrite phys_cons. destruct (str_eqb x (L ".")) eqn:E1; [apply str_eqb_true in E1; congruence|].
      destruct (str_eqb x (L "..")) eqn:E2; [apply str_eqb_true in E2; congruence|].
      rewrite (phys_step pos d x R A). destruct (k_readlink k _) as [t'| |] eqn:EL; [| |discriminate].
      * destruct (hk_link f k HK pos d x t' R A EL) as (L1 & _). rewrite L1 in B. injection B as ->.
        set (out := if first_is "/" t then [] else text pos). assert (O : exists pos1, out = text pos1 /\ real f pos1 (start f d t) /\ Forall (fun x => nul_free x = true) pos1).
        { unfold out, start. rewrite first_absolute. destruct (absolute t); [exists []; repeat split; constructor|eauto]. }
        destruct O as (pos1 & O1 & O2 & O3). rewrite names_filter, O1.
        pose proof (H1 pos1 O2 O3) as F1. rewrite (phys_mono n1) by (try lia; auto).
        destruct (phys k n1 (text pos1) (filter ne (components t))) as [o| |] eqn:EP; [|discriminate|congruence].
        destruct (phys_ok n1 _ _ _ e o EP O2 O3) as (pos2 & -> & Q2 & Q3).
        -- rewrite <- names_filter. apply names_comp. exact NT.
        -- apply reach_filter in D. exact D.
        -- rewrite (phys_mono n2) by (try lia; auto). auto.
      * destruct (hk_notlink f k HK pos d x R A EL) as (e' & L1 & L2). rewrite L1 in B. injection B as ->. exfalso. eapply L2; eauto.
    + exists 0. intros pos R N. replace (filter ne (x :: l)) with (x :: filter ne l) by (destruct x; [congruence|reflexivity]).
      rewrite phys_cons. destruct (str_eqb x (L ".")) eqn:E1; [apply str_eqb_true in E1; congruence|].
      destruct (str_eqb x (L "..")) eqn:E2; [apply str_eqb_true in E2; congruence|].
      rewrite (phys_step pos d x R A). destruct (k_readlink k _) as [t'| |] eqn:EL; [| |discriminate].
      * destruct (hk_link f k HK pos d x t' R A EL) as (L1 & _ & L3). rewrite L1 in B. injection B as ->. congruence.
      * destruct (hk_notlink f k HK pos d x R A EL) as (e' & L1 & L2). rewrite L1 in B. injection B as ->. exfalso. eapply L2; eauto.
Qed.
End W.
