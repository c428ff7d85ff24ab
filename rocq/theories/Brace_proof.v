From Verif Require Import Base Glob_model Brace_model Brace_spec.
Local Open Scope nat_scope.

Definition enc1 (x : sym) : cstr := match x with Plain c => [c] | Special c => [MAGIC; c] end.
Definition enc (w : word) : cstr := flat_map enc1 w.
Definition word_ok (w : word) : Prop := Forall (fun x => match x with Plain c => c <> MAGIC | Special _ => True end) w.
Lemma enc_app a b : enc (a ++ b) = enc a ++ enc b. Proof. apply flat_map_app. Qed.
Lemma enc_cons x w : enc (x :: w) = enc1 x ++ enc w. Proof. reflexivity. Qed.
Lemma ok_app a b : word_ok (a ++ b) <-> word_ok a /\ word_ok b. Proof. apply Forall_app. Qed.
Lemma ok_cons x w : word_ok (x :: w) -> word_ok w. Proof. now inversion 1. Qed.
Lemma ismagic_false c : c <> MAGIC -> ismagic c = false. Proof. unfold ismagic. apply ceq_false. Qed.

(** every string that does not end in the middle of a mark is a word *)
Lemma decode : forall n (s : cstr), length s <= n -> (exists w, word_ok w /\ s = enc w) \/ (exists w, word_ok w /\ s = enc w ++ [MAGIC]).
Proof.
  induction n as [|n IH]; intros s H; [destruct s; [|cbn in H; lia]; left; exists []; split; [constructor|reflexivity]|].
  destruct s as [|c s]; [left; exists []; split; [constructor|reflexivity]|]. cbn in H.
  destruct (ceq_spec c MAGIC) as [->|N].
  - destruct s as [|d s]; [right; exists []; split; [constructor|reflexivity]|]. cbn in H.
    destruct (IH s ltac:(lia)) as [(w & O & ->)|(w & O & ->)]; [left|right]; exists (Special d :: w); (split; [constructor; auto|reflexivity]).
  - destruct (IH s ltac:(lia)) as [(w & O & ->)|(w & O & ->)]; [left|right]; exists (Plain c :: w); (split; [constructor; auto|reflexivity]).
Qed.

(** ** Structure of words *)
Lemma balanced_app a b : balanced a -> balanced b -> balanced (a ++ b).
Proof.
  induction 1 as [|x w N1 N2 B IH|u v Bu IHu Bv IHv]; intros Hb; cbn; auto.
  - constructor; auto.
  - rewrite <- app_assoc. cbn. apply B_group; auto.
Qed.
Lemma balanced_close_inv a b : balanced a -> a <> }} :: b.
Proof. intros B E. subst. inversion B; congruence. Qed.
Lemma balanced_open_inv w : balanced ({{ :: w) -> exists a b, w = a ++ }} :: b /\ balanced a /\ balanced b.
Proof. inversion 1; subst; eauto; congruence. Qed.
Lemma balanced_other_inv x w : x <> {{ -> balanced (x :: w) -> x <> }} /\ balanced w.
Proof. intros N B. inversion B; subst; auto. congruence. Qed.

(** [k] closing braces are matched by what stands before [rest] *)
Inductive closed : nat -> word -> word -> Prop :=
| C_done w : closed 0 w w
| C_more k a b rest : balanced a -> closed k b rest -> closed (S k) (a ++ }} :: b) rest.
Lemma closed_inv k w rest : closed (S k) w rest -> exists a b, w = a ++ }} :: b /\ balanced a /\ closed k b rest.
Proof. inversion 1; subst; eauto. Qed.
Lemma closed_open k w rest : closed (S k) ({{ :: w) rest <-> closed (S (S k)) w rest.
Proof.
  split.
  - intros C. destruct (closed_inv _ _ _ C) as (a & b & E & B & C'). destruct a as [|x a]; [discriminate|]. cbn in E. injection E as <- ->.
    destruct (balanced_open_inv _ B) as (u & v & -> & Bu & Bv). rewrite <- app_assoc. cbn. constructor; auto. constructor; auto.
  - intros C. destruct (closed_inv _ _ _ C) as (a & b & E & B & C'); subst. destruct (closed_inv _ _ _ C') as (a' & b' & E' & B' & C''); subst.
    replace ({{ :: a ++ }} :: a' ++ }} :: b') with (({{ :: a ++ }} :: a') ++ }} :: b') by (cbn; now rewrite <- app_assoc).
    constructor; auto. apply B_group; auto.
Qed.
Lemma closed_close k w rest : closed (S k) (}} :: w) rest <-> closed k w rest.
Proof.
  split; [|intros C; apply (C_more k []); [constructor|exact C]].
  intros C. destruct (closed_inv _ _ _ C) as (a & b & E & B & C'). destruct a as [|x a]; [injection E as <-; auto|].
  cbn in E. injection E as <- ->. inversion B; congruence.
Qed.
Lemma closed_other k x w rest : x <> {{ -> x <> }} -> (closed (S k) (x :: w) rest <-> closed (S k) w rest).
Proof.
  intros N1 N2. split; intros C; destruct (closed_inv _ _ _ C) as (a & b & E & B & C').
  - destruct a as [|y a]; [injection E as -> _; congruence|]. cbn in E. injection E as <- ->.
    apply balanced_other_inv in B as [_ B]; auto. constructor; auto.
  - subst w. apply (C_more k (x :: a)); auto. constructor; auto.
Qed.
Lemma sym_cases x : x = {{ \/ x = }} \/ (x <> {{ /\ x <> }}).
Proof.
  destruct x as [c|c]; [right; right; split; discriminate|].
  destruct (ceq_spec c "{") as [->|N]; auto. destruct (ceq_spec c "}") as [->|N2]; auto. right; right; split; congruence.
Qed.
Lemma closed_dec : forall w k, (exists rest, closed k w rest) \/ (forall rest, ~ closed k w rest).
Proof.
  induction w as [|x w IH]; intros [|k]; try (left; eexists; constructor).
  - right. intros rest C. destruct (closed_inv _ _ _ C) as (a & b & E & B & C'). destruct a; discriminate.
  - destruct (sym_cases x) as [->|[->|[N1 N2]]].
    + destruct (IH (S (S k))) as [(r & C)|N]; [left; exists r; now apply closed_open|right; intros r C; apply (N r); now apply closed_open].
    + destruct (IH k) as [(r & C)|N]; [left; exists r; now apply closed_close|right; intros r C; apply (N r); now apply closed_close].
    + destruct (IH (S k)) as [(r & C)|N]; [left; exists r; now apply closed_other|right; intros r C; apply (N r); now apply closed_other in C].
Qed.
Lemma closed_det : forall w k r1 r2, closed k w r1 -> closed k w r2 -> r1 = r2.
Proof.
  induction w as [|x w IH]; intros [|k] r1 r2 C1 C2; try (inversion C1; inversion C2; congruence).
  - inversion C1 as [|? a b ? B C' E]; subst. destruct a; discriminate.
  - destruct (sym_cases x) as [->|[->|[N1 N2]]].
    + apply (proj1 (closed_open _ _ _)) in C1; apply (proj1 (closed_open _ _ _)) in C2; eauto.
    + apply (proj1 (closed_close _ _ _)) in C1; apply (proj1 (closed_close _ _ _)) in C2; eauto.
    + apply (proj1 (closed_other _ _ _ _ N1 N2)) in C1; apply (proj1 (closed_other _ _ _ _ N1 N2)) in C2; eauto.
Qed.
Lemma match_dec w : (exists a b, balanced a /\ w = a ++ }} :: b) \/ (forall a b, balanced a -> w <> a ++ }} :: b).
Proof.
  destruct (closed_dec w 1) as [(r & C)|N].
  - left. inversion C; subst. eauto.
  - right. intros a b B ->. apply (N b). constructor; auto. constructor.
Qed.
Lemma app_cancel_r {A} (a a' b : list A) : a ++ b = a' ++ b -> a = a'.
Proof. apply app_inv_tail. Qed.
Lemma match_det a b a' b' : balanced a -> balanced a' -> a ++ }} :: b = a' ++ }} :: b' -> a = a' /\ b = b'.
Proof.
  intros B B' E.
  assert (b = b') as <-.
  { eapply (closed_det (a ++ }} :: b) 1); [constructor; auto; constructor|rewrite E; constructor; auto; constructor]. }
  split; auto. eapply app_inv_tail; exact E.
Qed.

(** ** Commas *)
Lemma no_comma_balanced a : no_comma a -> balanced a.
Proof. induction 1; [constructor|apply B_sym; auto|apply B_group; auto]. Qed.
Lemma alternatives_balanced a l : alternatives a l -> balanced a.
Proof.
  induction 1 as [a N|a w l N A IH]; [now apply no_comma_balanced|]. apply balanced_app; [now apply no_comma_balanced|].
  constructor; auto; discriminate.
Qed.
Lemma alternatives_each a l : alternatives a l -> Forall no_comma l.
Proof. induction 1; constructor; auto. Qed.
Lemma no_comma_app a b : no_comma a -> no_comma b -> no_comma (a ++ b).
Proof.
  induction 1; intros; cbn; auto; [apply N_sym; auto|]. rewrite <- app_assoc. cbn. apply N_group; auto.
Qed.
Lemma alternatives_total a : balanced a -> exists l, alternatives a l /\ l <> [].
Proof.
  induction 1 as [|x w N1 N2 B IH|u v Bu IHu Bv IHv].
  - exists [[]]. split; [apply L_one; constructor|discriminate].
  - destruct IH as (l & A & NE). destruct l as [|h l]; [congruence|].
    assert (x = ,, \/ x <> ,,) as [->|N3] by (destruct x as [c|c]; [right; discriminate|destruct (ceq_spec c ","); [left; congruence|right; congruence]]).
    + exists ([] :: h :: l). split; [apply (L_more [] w); [constructor|exact A]|discriminate].
    + exists ((x :: h) :: l). split; [|discriminate].
      inversion A as [a N|a w' l' N A']; subst; [apply L_one; constructor; auto|].
      apply (L_more (x :: h) w'); auto. constructor; auto.
  - destruct IHv as (l & A & NE). destruct l as [|h l]; [congruence|].
    exists (({{ :: u ++ }} :: h) :: l). split; [|discriminate].
    inversion A as [a N|a w' l' N A']; subst; [apply L_one; apply N_group; auto|].
    replace ({{ :: u ++ }} :: h ++ ,, :: w') with (({{ :: u ++ }} :: h) ++ ,, :: w') by (cbn; now rewrite <- app_assoc).
    apply L_more; auto. apply N_group; auto.
Qed.
(** where the first comma is *)
Lemma first_comma a w a' w' : no_comma a -> no_comma a' -> a ++ ,, :: w = a' ++ ,, :: w' -> a = a' /\ w = w'.
Proof.
  intros N. revert a'. induction N as [|x v N1 N2 N3 N IH|u v Bu N IH]; intros a' N'; cbn.
  - destruct N' as [|y v' M1 M2 M3 M|u' v' Bu' M]; cbn; intros E; [injection E as ->; auto|congruence|discriminate].
  - destruct N' as [|y v' M1 M2 M3 M|u' v' Bu' M]; cbn; intros E; [congruence| |congruence].
    injection E as -> E. destruct (IH _ M E) as [-> ->]. auto.
  - destruct N' as [|y v' M1 M2 M3 M|u' v' Bu' M]; cbn; intros E; [discriminate|congruence|].
    injection E as E. rewrite <- !app_assoc in E. cbn in E. destruct (match_det _ _ _ _ Bu Bu' E) as [-> E2].
    destruct (IH _ M E2) as [-> ->]. auto.
Qed.
Lemma no_comma_split a w : no_comma a -> no_comma (a ++ ,, :: w) -> False.
Proof.
  intros N. induction N as [|x v N1 N2 N3 N IH|u v Bu N IH]; cbn; intros M.
  - inversion M; congruence.
  - apply IH. inversion M; subst; auto. congruence.
  - inversion M as [|? ? ? ? ? ? E|u' v' Bu' M' E]; subst; [congruence|]. rewrite <- app_assoc in E. cbn in E.
    destruct (match_det _ _ _ _ Bu' Bu E) as [-> ->]. auto.
Qed.
Lemma alternatives_det a l : alternatives a l -> forall l', alternatives a l' -> l = l'.
Proof.
  induction 1 as [a N|a w l N A IH]; intros l' A'; inversion A' as [a' N' E|a' w' l2 N' A2 E]; subst; auto.
  - exfalso. exact (no_comma_split _ _ N' N).
  - exfalso. exact (no_comma_split _ _ N N').
  - destruct (first_comma _ _ _ _ N' N E) as [-> ->]. f_equal. auto.
Qed.
Lemma alternatives_one a : no_comma a <-> alternatives a [a].
Proof.
  split; [now constructor|]. intros A. inversion A as [|a' w l N A' E1 E2]; subst; auto. inversion A'.
Qed.

(** ** Products *)
Definition prod (us ws : list word) : list word := flat_map (fun u => map (app u) ws) us.
Lemma prod_assoc us vs ws : prod (prod us vs) ws = prod us (prod vs ws).
Proof.
  unfold prod. induction us as [|u us IH]; cbn; auto. rewrite flat_map_app, IH. f_equal.
  clear IH. induction vs as [|v vs IH]; cbn; auto. rewrite map_app, IH. f_equal. rewrite map_map. apply map_ext. intros. now rewrite app_assoc.
Qed.
Lemma prod_map f us ws : (forall u v, f u ++ v = f (u ++ v)) -> prod (map f us) ws = map f (prod us ws).
Proof.
  intros H. unfold prod. induction us as [|u us IH]; cbn; auto. rewrite map_app, IH. f_equal. rewrite map_map. apply map_ext. auto.
Qed.
Lemma prod_flat {A} (F : A -> list word) l ws : prod (flat_map F l) ws = flat_map (fun x => prod (F x) ws) l.
Proof. induction l as [|x l IH]; [reflexivity|]. cbn. unfold prod at 1. rewrite flat_map_app. f_equal. exact IH. Qed.
Lemma prod_nil ws : prod [[]] ws = ws.
Proof. unfold prod. cbn. rewrite app_nil_r. apply map_id. Qed.

(** ** expands is a function *)
Lemma forall2_det {A B} (R : A -> B -> Prop) l : (forall x a b, In x l -> R x a -> R x b -> a = b) -> forall l1 l2, Forall2 R l l1 -> Forall2 R l l2 -> l1 = l2.
Proof.
  induction l as [|x l IH]; intros H l1 l2 F1 F2; inversion F1; inversion F2; subst; auto. f_equal; [eapply H; eauto; now left|apply IH; auto].
  intros; eapply H; eauto; now right.
Qed.
Lemma alternatives_size a l x : alternatives a l -> In x l -> length x <= length a.
Proof.
  induction 1 as [a N|a w l N A IH]; intros I; [destruct I as [<-|[]]; auto|].
  rewrite app_length. cbn. destruct I as [<-|I]; [lia|]. specialize (IH I). lia.
Qed.
Lemma expands_det : forall n w, length w <= n -> forall ws ws', expands w ws -> expands w ws' -> ws = ws'.
Proof.
  induction n as [|n IH]; intros w H ws ws' E E'.
  - destruct w; [|cbn in H; lia]. inversion E; inversion E'; auto.
  - inversion E as [|x v vs N E1|v NM|a v vs NC E1|a v l lss vs A LE F E1]; subst.
    + inversion E'; auto.
    + inversion E' as [|x' v' vs' N' E2|v' NM'|a' v' vs' NC' E2|a' v' l' lss' vs' A' LE' F' E2]; subst; try congruence.
      f_equal. eapply IH; eauto. cbn in H. lia.
    + inversion E' as [|x' v' vs' N' E2|v' NM'|a' v' vs' NC' E2|a' v' l' lss' vs' A' LE' F' E2]; subst; try congruence.
      * exfalso. eapply NM; [apply no_comma_balanced; eauto|reflexivity].
      * exfalso. eapply NM; [eapply alternatives_balanced; eauto|reflexivity].
    + inversion E' as [|x' v' vs' N' E2|v' NM'|a' v' vs' NC' E2 EQ|a' v' l' lss' vs' A' LE' F' E2 EQ]; subst; try congruence.
      * exfalso. eapply NM'; [apply no_comma_balanced; eauto|reflexivity].
      * destruct (match_det _ _ _ _ (no_comma_balanced _ NC') (no_comma_balanced _ NC) EQ) as [-> ->].
        assert (vs = vs') as -> by (eapply IH; eauto; cbn in H; rewrite app_length in H; cbn in H; lia). auto.
      * destruct (match_det _ _ _ _ (alternatives_balanced _ _ A') (no_comma_balanced _ NC) EQ) as [-> ->].
        rewrite (alternatives_det _ _ A' [a]) in LE'; [cbn in LE'; lia|now constructor].
    + inversion E' as [|x' v' vs' N' E2|v' NM'|a' v' vs' NC' E2 EQ|a' v' l' lss' vs' A' LE' F' E2 EQ]; subst; try congruence.
      * exfalso. eapply NM'; [eapply alternatives_balanced; eauto|reflexivity].
      * destruct (match_det _ _ _ _ (no_comma_balanced _ NC') (alternatives_balanced _ _ A) EQ) as [-> ->].
        rewrite (alternatives_det _ _ A [a]) in LE; [cbn in LE; lia|now constructor].
      * destruct (match_det _ _ _ _ (alternatives_balanced _ _ A') (alternatives_balanced _ _ A) EQ) as [-> ->].
        pose proof (alternatives_det _ _ A _ A') as <-.
        cbn in H; rewrite app_length in H; cbn in H.
        assert (vs = vs') as -> by (eapply IH; eauto; lia).
        assert (lss = lss') as ->; auto.
        eapply forall2_det; [|eauto|eauto]. intros x p q I P Q. eapply IH; [|exact P|exact Q].
        pose proof (alternatives_size _ _ _ A I). lia.
Qed.
Lemma forall2_total {A B} (R : A -> B -> Prop) l : (forall x, In x l -> exists y, R x y) -> exists l', Forall2 R l l'.
Proof.
  induction l as [|x l IH]; intros H; [exists []; constructor|].
  destruct (H x (or_introl eq_refl)) as (y & Y). destruct IH as (l' & F); [intros; apply H; now right|]. exists (y :: l'). now constructor.
Qed.
Lemma expands_total : forall n w, length w <= n -> exists ws, expands w ws.
Proof.
  induction n as [|n IH]; intros w H.
  - destruct w; [|cbn in H; lia]. eexists; constructor.
  - destruct w as [|x w]; [eexists; constructor|]. cbn in H.
    destruct (sym_cases x) as [->|D].
    2:{ assert (x <> {{) as N by (destruct D as [->|[N _]]; [discriminate|auto]). destruct (IH w ltac:(lia)) as (ws & E). eexists; constructor; eauto. }
    destruct (match_dec w) as [(a & b & B & ->)|N]; [|eexists; apply E_open; auto].
    rewrite app_length in H; cbn in H. destruct (IH b ltac:(lia)) as (ws & E).
    destruct (alternatives_total a B) as (l & A & NE). destruct l as [|h [|h2 l]]; [congruence| |].
    + assert (h = a) as -> by (inversion A as [|? ? ? ? A']; subst; auto; inversion A').
      eexists. apply E_single; eauto. now apply alternatives_one.
    + destruct (forall2_total expands (h :: h2 :: l)) as (lss & F).
      { intros y I. apply IH. pose proof (alternatives_size _ _ _ A I). lia. }
      eexists. eapply E_group; eauto. cbn. lia.
Qed.
Lemma expands_app a us : expands a us -> balanced a -> forall b ws, expands b ws -> expands (a ++ b) (prod us ws).
Proof.
  intros E. induction E as [|x v vs N E1 IH|v NM|a v vs NC E1 IH|a v l lss vs A LE F E1 IH]; intros B b ws Eb.
  - rewrite prod_nil. exact Eb.
  - cbn. rewrite prod_map by reflexivity. constructor; auto. apply IH; auto. now apply balanced_other_inv in B.
  - exfalso. destruct (balanced_open_inv _ B) as (u & w & -> & Bu & _). eapply NM; eauto.
  - cbn. rewrite <- app_assoc. cbn. rewrite prod_map by (intros; cbn; rewrite <- app_assoc; reflexivity).
    apply E_single; auto. apply IH; auto.
    destruct (balanced_open_inv _ B) as (u & w & EQ & Bu & Bw). apply match_det in EQ as [_ ->]; auto. now apply no_comma_balanced.
  - cbn. rewrite <- app_assoc. cbn. rewrite prod_flat.
    replace (flat_map _ lss) with (flat_map (fun us => flat_map (fun u => map (app u) (prod vs ws)) us) lss).
    + eapply E_group; eauto. apply IH; auto.
      destruct (balanced_open_inv _ B) as (u & w & EQ & Bu & Bw). apply match_det in EQ as [_ ->]; auto. eapply alternatives_balanced; eauto.
    + apply flat_map_ext. intros us. symmetry. apply prod_assoc.
Qed.

(** ** The code *)
Lemma find_open_enc t : word_ok t -> ~ In {{ t -> find_open (enc t) = FNone /\
  forall r, find_open (enc t ++ enc ({{ :: r)) = FAt (enc t) (enc r).
Proof.
  induction t as [|x t IH]; intros O N; [split; reflexivity|].
  destruct IH as [I1 I2]; [now apply ok_cons in O|intros I; apply N; now right|].
  rewrite enc_cons. destruct x as [c|c]; cbn [enc1 app find_open].
  - inversion O as [|? ? P _]; subst. rewrite ismagic_false by auto. rewrite I1. split; auto. intros r. rewrite I2. reflexivity.
  - change (ismagic MAGIC) with true. cbn. destruct (ceq_spec c "{") as [->|_]; [destruct N; now left|].
    rewrite I1. split; auto. intros r. specialize (I2 r). cbn in I2. rewrite I2. reflexivity.
Qed.
Lemma split_open s : ~ In {{ s \/ exists t r, s = t ++ {{ :: r /\ ~ In {{ t.
Proof.
  induction s as [|x s IH]; [left; intros []|]. destruct (sym_cases x) as [->|D].
  - right. exists [], s. split; auto.
  - assert (x <> {{) as N by (destruct D as [->|[N _]]; [discriminate|auto]).
    destruct IH as [I|(t & r & -> & I)]; [left; intros [|]; auto|right; exists (x :: t), r; split; auto; intros [|]; auto].
Qed.
Lemma expands_prefix t w ws : ~ In {{ t -> expands (t ++ w) ws -> exists ws', expands w ws' /\ ws = map (app t) ws'.
Proof.
  revert ws. induction t as [|x t IH]; intros ws N E; [exists ws; split; auto; symmetry; apply map_id|].
  cbn in E. inversion E as [|? ? vs N1 E1|v NM EQ|a v vs NC E1 EQ|a v l lss vs A LE F E1 EQ]; subst; try (destruct N; now left).
  destruct (IH _ (fun I => N (or_intror I)) E1) as (ws' & E2 & ->). exists ws'. split; auto. rewrite map_map. reflexivity.
Qed.
(** find_close counts *)
Lemma find_close_spec : forall w k, word_ok w ->
  (exists rest m inside, closed k w rest /\ w = inside ++ rest /\ find_close (enc w) k = CAt (enc inside) (enc rest) m) \/
  ((forall rest, ~ closed k w rest) /\ find_close (enc w) k = CNone).
Proof.
  induction w as [|x w IH]; intros [|k] O.
  - left. exists [], false, []. repeat split. constructor.
  - right. split; [|reflexivity]. intros rest C. destruct (closed_inv _ _ _ C) as (a & b & E & B & C'). destruct a; discriminate.
  - left. exists (x :: w), false, []. split; [constructor|]. split; [reflexivity|]. destruct x; reflexivity.
  - assert (word_ok w) as Ow by (now apply ok_cons in O).
    assert (forall k' u b, (forall rest, closed (S k) (x :: w) rest <-> closed k' w rest) -> u = enc1 x ->
      find_close (enc (x :: w)) (S k) = ccons u b (find_close (enc w) k') ->
      (exists rest m inside, closed (S k) (x :: w) rest /\ x :: w = inside ++ rest /\ find_close (enc (x :: w)) (S k) = CAt (enc inside) (enc rest) m) \/
      ((forall rest, ~ closed (S k) (x :: w) rest) /\ find_close (enc (x :: w)) (S k) = CNone)) as K.
    { intros k' u b H1 -> ->. destruct (IH k' Ow) as [(rest & m & inside & C & E & ->)|(N & ->)].
      - left. exists rest, (b || m), (x :: inside). split; [now apply H1|]. split; [cbn; congruence|]. reflexivity.
      - right. split; [|reflexivity]. intros rest C. apply (N rest). now apply H1. }
    destruct x as [c|c].
    + apply (K (S k) [c] false); auto; [intros; apply closed_other; discriminate|].
      cbn. inversion O as [|? ? P _]; subst. rewrite ismagic_false by auto. reflexivity.
    + change (enc (Special c :: w)) with (MAGIC :: c :: enc w) in *.
      destruct (ceq_spec c "{") as [->|N1]; [|destruct (ceq_spec c "}") as [->|N2]].
      * apply (K (S (S k)) [MAGIC; "{"%char] false); auto. apply closed_open.
      * apply (K k [MAGIC; "}"%char] false); auto. apply closed_close.
      * apply (K (S k) [MAGIC; c] (ceq c "," && (S k =? 1))); auto; [intros; apply closed_other; congruence|].
        cbn [find_close]. change (ismagic MAGIC) with true. cbn iota. destruct (ceq_spec c "{"); [congruence|]. destruct (ceq_spec c "}"); [congruence|]. reflexivity.
Qed.
(** commas found: only at the outermost level *)
Lemma find_close_bal a : balanced a -> word_ok a -> forall n r, find_close (enc a ++ r) (S (S n)) = ccons (enc a) false (find_close r (S (S n))).
Proof.
  assert (forall u v x y r, ccons u x (ccons v y r) = ccons (u ++ v) (x || y) r) as CC.
  { intros u v x y [|b f m|]; cbn; auto. now rewrite app_assoc, orb_assoc. }
  assert (forall r, ccons [] false r = r) as C0 by (intros [|b f m|]; reflexivity).
  induction 1 as [|x w N1 N2 B IH|u v Bu IHu Bv IHv]; intros O n r; [cbn; now rewrite C0| |].
  - assert (word_ok w) as Ow by (now apply ok_cons in O). rewrite enc_cons. destruct x as [c|c]; cbn [enc1 app find_close].
    + inversion O as [|? ? P _]; subst. rewrite ismagic_false by auto. rewrite IH by auto. rewrite CC. reflexivity.
    + change (ismagic MAGIC) with true. cbn iota. destruct (ceq_spec c "{"); [congruence|]. destruct (ceq_spec c "}"); [congruence|].
      rewrite IH by auto. rewrite CC. cbn. now rewrite andb_false_r.
  - assert (word_ok u /\ word_ok v) as [Ou Ov].
    { apply ok_cons in O. apply ok_app in O as [O1 O2]. apply ok_cons in O2. auto. }
    rewrite enc_cons, enc_app, enc_cons. cbn [enc1 app find_close]. change (ismagic MAGIC) with true. cbn iota.
    change (ceq "{" "{") with true. cbn iota. rewrite <- app_assoc, IHu by auto. cbn [app find_close]. change (ismagic MAGIC) with true. cbn iota.
    change (ceq "}" "{") with false. change (ceq "}" "}") with true. cbn iota. rewrite IHv by auto. rewrite !CC. f_equal; auto.
    cbn. rewrite <- !app_assoc. reflexivity.
Qed.
Lemma find_close_top a : no_comma a -> word_ok a -> forall r, find_close (enc a ++ r) 1 = ccons (enc a) false (find_close r 1).
Proof.
  assert (forall u v x y r, ccons u x (ccons v y r) = ccons (u ++ v) (x || y) r) as CC.
  { intros u v x y [|b0 f m|]; cbn; auto. now rewrite app_assoc, orb_assoc. }
  assert (forall r, ccons [] false r = r) as C0 by (intros [|b0 f m|]; reflexivity).
  induction 1 as [|x w N1 N2 N3 N IH|u v Bu N IH]; intros O r; [cbn; now rewrite C0| |].
  - assert (word_ok w) as Ow by (now apply ok_cons in O). rewrite enc_cons. destruct x as [c|c]; cbn [enc1 app find_close].
    + inversion O as [|? ? P _]; subst. rewrite ismagic_false by auto. rewrite IH by auto. rewrite CC. reflexivity.
    + change (ismagic MAGIC) with true. cbn iota. destruct (ceq_spec c "{"); [congruence|]. destruct (ceq_spec c "}"); [congruence|]. destruct (ceq_spec c ","); [congruence|].
      rewrite IH by auto. rewrite CC. reflexivity.
  - assert (word_ok u /\ word_ok v) as [Ou Ov].
    { apply ok_cons in O. apply ok_app in O as [O1 O2]. apply ok_cons in O2. auto. }
    rewrite enc_cons, enc_app, enc_cons. cbn [enc1 app find_close]. change (ismagic MAGIC) with true. cbn iota.
    change (ceq "{" "{") with true. cbn iota. rewrite <- app_assoc, (find_close_bal u Bu Ou). cbn [app find_close]. change (ismagic MAGIC) with true. cbn iota.
    change (ceq "}" "{") with false. change (ceq "}" "}") with true. cbn iota. rewrite IH by auto. rewrite !CC. f_equal; auto.
    cbn. rewrite <- !app_assoc. reflexivity.
Qed.
Lemma find_close_0 p : find_close p 0 = CAt [] p false. Proof. destruct p; reflexivity. Qed.
Lemma find_close_alt a l b : alternatives a l -> word_ok a ->
  find_close (enc (a ++ }} :: b)) 1 = CAt (enc (a ++ [}}])) (enc b) (2 <=? length l).
Proof.
  induction 1 as [a N|a w l N A IH]; intros O.
  - rewrite enc_app, (find_close_top a N O). cbn. rewrite find_close_0, enc_app. reflexivity.
  - apply ok_app in O as [Oa Ow]. apply ok_cons in Ow. rewrite <- app_assoc, enc_app, (find_close_top a N Oa).
    cbn [enc flat_map enc1 app find_close]. change (ismagic MAGIC) with true. cbn iota.
    change (ceq "," "{") with false. change (ceq "," "}") with false. cbn iota. change (ceq "," "," && (1 =? 1)) with true.
    specialize (IH Ow). unfold enc in IH |- *. rewrite IH. cbn.
    assert (1 <= length l) by (destruct A; cbn; lia). destruct l; [cbn in *; lia|]. cbn.
    rewrite <- app_assoc, (flat_map_app enc1 a). reflexivity.
Qed.
(** the fields *)
Lemma fields_bal a : balanced a -> word_ok a -> forall n cur r, fields (enc a ++ r) (S (S n)) cur = fields r (S (S n)) (cur ++ enc a).
Proof.
  induction 1 as [|x w N1 N2 B IH|u v Bu IHu Bv IHv]; intros O n cur r; [cbn; now rewrite app_nil_r| |].
  - assert (word_ok w) as Ow by (now apply ok_cons in O). rewrite enc_cons. destruct x as [c|c]; cbn [enc1 app fields].
    + inversion O as [|? ? P _]; subst. rewrite ismagic_false by auto. rewrite IH by auto. now rewrite <- app_assoc.
    + change (ismagic MAGIC) with true. cbn iota. destruct (ceq_spec c "{"); [congruence|]. destruct (ceq_spec c "}"); [congruence|].
      replace (ceq c "," && (S (S n) =? 1)) with false by (cbn; now rewrite andb_false_r). rewrite IH by auto. now rewrite <- app_assoc.
  - assert (word_ok u /\ word_ok v) as [Ou Ov].
    { apply ok_cons in O. apply ok_app in O as [O1 O2]. apply ok_cons in O2. auto. }
    rewrite enc_cons, enc_app, enc_cons. cbn [enc1 app fields]. change (ismagic MAGIC) with true. cbn iota.
    change (ceq "{" "{") with true. cbn iota. rewrite <- app_assoc, IHu by auto. cbn [app fields]. change (ismagic MAGIC) with true. cbn iota.
    change (ceq "}" "{") with false. change (ceq "}" "}") with true. cbn iota. cbn [Nat.sub Nat.eqb]. rewrite IHv by auto. f_equal.
    rewrite <- !app_assoc. reflexivity.
Qed.
Lemma fields_top a : no_comma a -> word_ok a -> forall cur r, fields (enc a ++ r) 1 cur = fields r 1 (cur ++ enc a).
Proof.
  induction 1 as [|x w N1 N2 N3 N IH|u v Bu N IH]; intros O cur r; [cbn; now rewrite app_nil_r| |].
  - assert (word_ok w) as Ow by (now apply ok_cons in O). rewrite enc_cons. destruct x as [c|c]; cbn [enc1 app fields].
    + inversion O as [|? ? P _]; subst. rewrite ismagic_false by auto. rewrite IH by auto. now rewrite <- app_assoc.
    + change (ismagic MAGIC) with true. cbn iota. destruct (ceq_spec c "{"); [congruence|]. destruct (ceq_spec c "}"); [congruence|]. destruct (ceq_spec c ","); [congruence|].
      cbn. rewrite IH by auto. now rewrite <- app_assoc.
  - assert (word_ok u /\ word_ok v) as [Ou Ov].
    { apply ok_cons in O. apply ok_app in O as [O1 O2]. apply ok_cons in O2. auto. }
    rewrite enc_cons, enc_app, enc_cons. cbn [enc1 app fields]. change (ismagic MAGIC) with true. cbn iota.
    change (ceq "{" "{") with true. cbn iota. rewrite <- app_assoc, (fields_bal u Bu Ou). cbn [app fields]. change (ismagic MAGIC) with true. cbn iota.
    change (ceq "}" "{") with false. change (ceq "}" "}") with true. cbn iota. cbn [Nat.sub Nat.eqb]. rewrite IH by auto. f_equal.
    rewrite <- !app_assoc. reflexivity.
Qed.
Lemma fields_alt a l : alternatives a l -> word_ok a -> fields (enc (a ++ [}}])) 1 [] = map enc l.
Proof.
  induction 1 as [a N|a w l N A IH]; intros O.
  - rewrite enc_app, (fields_top a N O). reflexivity.
  - apply ok_app in O as [Oa Ow]. apply ok_cons in Ow. rewrite <- app_assoc, enc_app, (fields_top a N Oa).
    cbn [enc flat_map enc1 app fields]. change (ismagic MAGIC) with true. cbn iota.
    change (ceq "," "{") with false. change (ceq "," "}") with false. cbn iota. change (ceq "," "," && (1 =? 1)) with true. cbn iota.
    cbn [map]. f_equal. apply IH. auto.
Qed.

Lemma alt_expand_spec : forall fuel s pre ws, length (enc s) < fuel -> word_ok s -> expands s ws ->
  alt_expand fuel pre (enc s) = BOk (map (fun v => pre ++ enc v) ws).
Proof.
  induction fuel as [|f IH]; intros s pre ws H O E; [lia|]. cbn [alt_expand].
  destruct (split_open s) as [N|(t & r & -> & N)].
  - destruct (find_open_enc s O N) as [-> _].
    destruct (expands_prefix s [] ws N) as (ws' & E' & ->); [now rewrite app_nil_r|]. inversion E'; subst. cbn. now rewrite app_nil_r.
  - apply ok_app in O as [Ot Or]. destruct (find_open_enc t Ot N) as [_ FO]. rewrite enc_app, FO.
    destruct (expands_prefix t _ ws N E) as (ws' & E' & ->). clear E.
    assert (word_ok r) as Or' by (now apply ok_cons in Or).
    rewrite enc_app, enc_cons, !app_length in H. cbn [enc1 length] in H.
    inversion E' as [|? ? ? N1 E1|v NM EQ|a v vs NC E1 EQ|a v l lss vs A LE F E1 EQ]; subst; try congruence.
    + destruct (find_close_spec r 1 Or') as [(rest & m & inside & C & _)|(_ & ->)].
      { exfalso. inversion C; subst. eapply NM; eauto. }
      cbn. rewrite enc_app. reflexivity.
    + apply ok_app in Or' as [Oa Ov]. apply ok_cons in Ov. rewrite (find_close_alt a [a] v) by (auto; now constructor). cbn [length Nat.leb].
      rewrite (IH v _ vs); auto; [|rewrite enc_app, app_length, enc_cons, app_length in H; cbn [enc1 length] in H; lia].
      f_equal. rewrite !map_map. apply map_ext. intros u. change ({{ :: a ++ }} :: u) with ([{{] ++ a ++ [}}] ++ u). rewrite !enc_app. cbn [enc enc1 flat_map]. rewrite <- !app_assoc. reflexivity.
    + apply ok_app in Or' as [Oa Ov]. apply ok_cons in Ov. rewrite (find_close_alt a l v A Oa). rewrite (proj2 (Nat.leb_le _ _) LE).
      rewrite (fields_alt a l A Oa).
      assert (forall x, In x l -> length (enc x) <= length (enc a) /\ word_ok x /\ balanced x) as SZ.
      { clear - A Oa. induction A as [a N|a w l N A IH]; intros x I.
        - destruct I as [<-|[]]. repeat split; auto. now apply no_comma_balanced.
        - apply ok_app in Oa as [O1 O2]. apply ok_cons in O2. rewrite enc_app, app_length. cbn [enc flat_map enc1 app length].
          destruct I as [<-|I]; [repeat split; auto; [lia|now apply no_comma_balanced]|]. destruct (IH O2 x I) as (? & ? & ?). unfold enc in *. repeat split; auto. lia. }
      rewrite enc_app, app_length in H. cbn [enc flat_map enc1 app length] in H. fold (enc v) in H.
      clear A LE E'. revert lss F. induction l as [|x l IHl]; intros lss F; inversion F as [|? us ? lss' Ex F']; subst; [reflexivity|].
      cbn [map fold_right flat_map]. rewrite map_app, map_app. destruct (SZ x (or_introl eq_refl)) as (S1 & S2 & S3).
      rewrite <- enc_app. rewrite (IH (x ++ v) _ (prod us vs)).
      * rewrite (IHl (fun y I => SZ y (or_intror I)) lss' F'). cbn. f_equal. f_equal.
        rewrite map_map. apply map_ext. intros u. rewrite enc_app, app_assoc. reflexivity.
      * rewrite enc_app, app_length. unfold enc in *. lia.
      * apply ok_app; auto.
      * apply expands_app; auto.
Qed.
