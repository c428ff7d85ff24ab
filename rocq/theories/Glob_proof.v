From Verif Require Import Base Glob_model Glob_spec.

Scheme elt_mut := Induction for elt Sort Prop
  with pseq_mut := Induction for pseq Sort Prop
  with alts_mut := Induction for alts Sort Prop.
Combined Scheme pat_mutind from elt_mut, pseq_mut, alts_mut.

(** ** answers *)
Definition decides (o : option bool) (P : Prop) : Prop := exists b, o = Some b /\ (b = true <-> P).

Lemma decides_iff o P Q : decides o P -> (P <-> Q) -> decides o Q.
Proof. intros (b & -> & H) HPQ. exists b. split; [reflexivity|]. rewrite H. exact HPQ. Qed.

Lemma decides_true (P : Prop) : P -> decides (Some true) P.
Proof. exists true. tauto. Qed.
Lemma decides_false (P : Prop) : ~ P -> decides (Some false) P.
Proof. exists false. split; [reflexivity|]. split; [discriminate|tauto]. Qed.

Lemma decides_and a b P Q : decides a P -> decides b Q -> decides (and_o a b) (P /\ Q).
Proof.
  intros (x & -> & Hx) (y & -> & Hy). destruct x; cbn.
  - exists y. split; [reflexivity|]. rewrite Hy. tauto.
  - apply decides_false. intros [H _]. apply Hx in H. discriminate.
Qed.

Lemma decides_or a b P Q : decides a P -> decides b Q -> decides (or_o a b) (P \/ Q).
Proof.
  intros (x & -> & Hx) (y & -> & Hy). destruct x; cbn.
  - apply decides_true. tauto.
  - exists y. split; [reflexivity|]. rewrite Hy. split; [tauto|]. intros [H|H]; [apply Hx in H; discriminate|assumption].
Qed.

Lemma decides_any {A} (f : A -> option bool) (P : A -> Prop) l :
  (forall x, In x l -> decides (f x) (P x)) -> decides (any_o f l) (exists x, In x l /\ P x).
Proof.
  induction l as [|x l IH]; intros H; cbn [any_o].
  - apply decides_false. intros (x & [] & _).
  - destruct (H x (or_introl eq_refl)) as (b & E & Hb). rewrite E. destruct b.
    + apply decides_true. exists x. split; [left; reflexivity|tauto].
    + destruct IH as (b' & E' & Hb'); [intros y Hy; apply H; right; exact Hy|].
      exists b'. split; [exact E'|]. rewrite Hb'. split.
      * intros (y & Hy & Py). exists y. split; [right; exact Hy|exact Py].
      * intros (y & [->|Hy] & Py); [apply Hb in Py; discriminate|exists y; auto].
Qed.

Lemma in_cuts k s : In k (cuts s) <-> k <= length s.
Proof. unfold cuts. rewrite in_seq. lia. Qed.

(** ** bytes that a scan passes over *)
Definition harmless (d : char) : bool := negb (ceq d ")") && negb (ceq d "|") && negb (is_ext d).
Fixpoint benign (a : cstr) : bool :=
  match a with
  | [] => true
  | c :: r => if ismagic c then match r with d :: r' => harmless d && benign r' | [] => false end
              else benign r
  end.

Lemma benign_app a : forall b, benign a = true -> benign b = true -> benign (a ++ b) = true.
Proof.
  induction a as [a IH] using (well_founded_induction (well_founded_ltof _ (@length char))).
  intros b Ha Hb. destruct a as [|c [|d r]]; cbn [app benign] in *; [assumption|..].
  - destruct (ismagic c); [discriminate|]. assumption.
  - destruct (ismagic c).
    + apply andb_prop in Ha. destruct Ha as [H1 H2]. rewrite H1. apply IH; auto. unfold ltof; cbn; lia.
    + apply (IH (d :: r)); auto. unfold ltof; cbn; lia.
Qed.

Lemma scan_benign a : forall post e sep nest, benign a = true -> e <= length post ->
  pat_scan (a ++ post) e sep nest = pat_scan post e sep nest.
Proof.
  induction a as [a IH] using (well_founded_induction (well_founded_ltof _ (@length char))).
  intros post e sep nest Ha He. destruct a as [|c r]; [reflexivity|]. cbn [app pat_scan].
  destruct (Nat.leb_spec (length (c :: r ++ post)) e) as [Hl|Hl]; [cbn [length] in Hl; rewrite app_length in Hl; lia|].
  cbn [benign] in Ha. destruct (ismagic c); cbn [negb].
  - destruct r as [|d r]; [discriminate|]. apply andb_prop in Ha. destruct Ha as [H1 H2].
    unfold harmless in H1. apply andb_prop in H1. destruct H1 as [H1 H3]. apply andb_prop in H1. destruct H1 as [H1 H4].
    apply negb_true_iff in H1, H3, H4. cbn [app]. rewrite H1, H4, H3. cbn [andb].
    rewrite Nat.add_0_r. apply IH; auto. unfold ltof; cbn; lia.
  - apply IH; auto. unfold ltof; cbn; lia.
Qed.

Lemma benign_raw c : ismagic c = false -> benign [c] = true.
Proof. intros H. cbn. rewrite H. reflexivity. Qed.

Lemma benign_m d : harmless d = true -> benign [MAGIC; d] = true.
Proof. intros H. cbn. rewrite H. reflexivity. Qed.

Lemma benign_rawcons c r : ismagic c = false -> benign (c :: r) = benign r.
Proof. intros H. cbn [benign]. rewrite H. reflexivity. Qed.

Lemma plain_magic_harmless c : plain_magic c = true -> harmless c = true.
Proof.
  assert (G : forallb (fun c => negb (plain_magic c) || harmless c) all_chars = true) by (vm_compute; reflexivity).
  intros H. pose proof (char_sweep _ G c) as K. cbv beta in K. rewrite H in K. exact K.
Qed.
Lemma plain_magic_b_harmless c : plain_magic_b c = true -> harmless c = true.
Proof.
  assert (G : forallb (fun c => negb (plain_magic_b c) || harmless c) all_chars = true) by (vm_compute; reflexivity).
  intros H. pose proof (char_sweep _ G c) as K. cbv beta in K. rewrite H in K. exact K.
Qed.

Lemma ok_lit_benign m c : ok_lit m c = true -> benign (mbyte m c) = true.
Proof.
  unfold ok_lit, mbyte. intros H. apply andb_prop in H. destruct H as [_ H]. destruct m.
  - apply benign_m, plain_magic_harmless, H.
  - apply benign_raw. unfold ismagic. apply negb_true_iff, H.
Qed.
Lemma ok_bchar_benign m c : ok_bchar m c = true -> benign (mbyte m c) = true.
Proof.
  unfold ok_bchar, mbyte. intros H. apply andb_prop in H. destruct H as [_ H]. destruct m.
  - apply benign_m, plain_magic_b_harmless, H.
  - apply benign_raw. unfold ismagic. apply negb_true_iff, H.
Qed.

Lemma class_names_nomagic n : In n class_names -> forallb (fun c => negb (ismagic c) && negb (ceq c ":") && negb (is_nul c)) n = true.
Proof.
  assert (G : forallb (fun n => forallb (fun c => negb (ismagic c) && negb (ceq c ":") && negb (is_nul c)) n) class_names = true)
    by (vm_compute; reflexivity).
  rewrite forallb_forall in G. apply G.
Qed.

Lemma nomagic_benign n : forallb (fun c => negb (ismagic c) && negb (ceq c ":") && negb (is_nul c)) n = true -> benign n = true.
Proof.
  induction n as [|c n IH]; [reflexivity|]. cbn [forallb]. intros H. apply andb_prop in H. destruct H as [H1 H2].
  apply andb_prop in H1. destruct H1 as [H1 _]. apply andb_prop in H1. destruct H1 as [H1 _]. apply negb_true_iff in H1.
  rewrite benign_rawcons by assumption. auto.
Qed.

Lemma enc_item_benign i l rest : ok_items (i :: l) rest -> benign (enc_item i) = true.
Proof.
  cbn [ok_items]. intros [H _]. destruct i as [m c|m1 c m2 d|n]; cbn [enc_item].
  - apply ok_bchar_benign, H.
  - destruct H as (H1 & H2 & _). apply benign_app; [apply ok_bchar_benign, H1|].
    apply (benign_app [MAGIC; "-"%char]); [reflexivity|apply ok_bchar_benign, H2].
  - apply (benign_app [MAGIC; "["%char; ":"%char]); [reflexivity|].
    apply benign_app; [apply nomagic_benign, class_names_nomagic, H|reflexivity].
Qed.

Lemma enc_items_benign l : forall rest, ok_items l rest -> benign (enc_items l) = true.
Proof.
  induction l as [|i l IH]; intros rest H; [reflexivity|]. cbn [enc_items].
  apply benign_app; [eapply enc_item_benign, H|]. destruct H as [_ H]. eapply IH, H.
Qed.

Lemma enc_bracket_benign b : ok_bracket b -> benign (enc_bracket b) = true.
Proof.
  intros (_ & H2 & _ & H4). unfold enc_bracket, enc_body.
  apply benign_app; [destruct (b_not b); reflexivity|].
  apply benign_app.
  - destruct (b_lead b) as [c|]; [|reflexivity].
    destruct H2 as [->|[->|[-> _]]]; reflexivity.
  - apply benign_app; [eapply enc_items_benign, H4|]. destruct (b_trail b); reflexivity.
Qed.

Lemma opbyte_ext o : is_ext (opbyte o) = true /\ ceq (opbyte o) ")" = false /\ ceq (opbyte o) "|" = false.
Proof. destruct o; repeat split; reflexivity. Qed.

Lemma scan_magic_ext o post e sep nest : e <= length post ->
  pat_scan (MAGIC :: opbyte o :: post) e sep nest = pat_scan post e sep (S nest).
Proof.
  intros He. cbn [pat_scan length]. destruct (Nat.leb_spec (S (S (length post))) e); [lia|].
  change (ismagic MAGIC) with true. cbn [negb].
  destruct (opbyte_ext o) as (-> & -> & ->). cbn [andb]. f_equal. lia.
Qed.

Lemma scan_close post e sep nest : e <= length post ->
  pat_scan ([MAGIC; ")"%char] ++ post) e sep (S nest) = pat_scan post e sep nest.
Proof.
  intros He. cbn [app pat_scan length]. destruct (Nat.leb_spec (S (S (length post))) e); [lia|].
  change (ismagic MAGIC) with true. cbn -[pat_scan]. f_equal. lia.
Qed.
Lemma scan_close0 post e sep : e <= length post ->
  pat_scan ([MAGIC; ")"%char] ++ post) e sep 0 = Some post.
Proof.
  intros He. cbn [app pat_scan length]. destruct (Nat.leb_spec (S (S (length post))) e); [lia|]. reflexivity.
Qed.
Lemma scan_bar post e sep nest : e <= length post ->
  pat_scan ([MAGIC; "|"%char] ++ post) e sep (S nest) = pat_scan post e sep (S nest).
Proof.
  intros He. cbn [app pat_scan length]. destruct (Nat.leb_spec (S (S (length post))) e); [lia|].
  change (ismagic MAGIC) with true. cbn -[pat_scan]. rewrite andb_false_r. f_equal. lia.
Qed.
Lemma scan_bar0 post e (sep : bool) : e <= length post ->
  pat_scan ([MAGIC; "|"%char] ++ post) e sep 0 = if sep then Some post else pat_scan post e sep 0.
Proof.
  intros He. cbn [app pat_scan length]. destruct (Nat.leb_spec (S (S (length post))) e); [lia|].
  change (ismagic MAGIC) with true. cbn -[pat_scan]. destruct sep; reflexivity.
Qed.

(** pat_scan over encodings *)
Lemma scan_enc :
  (forall x, ok_elt x -> forall post e sep nest, e <= length post ->
     pat_scan (enc_elt x ++ post) e sep nest = pat_scan post e sep nest) /\
  (forall q, ok_seq q -> forall post e sep nest, e <= length post ->
     pat_scan (enc_seq q ++ post) e sep nest = pat_scan post e sep nest) /\
  (forall a, ok_alts a -> forall post e sep nest, e <= length post ->
     pat_scan (enc_alts a ++ post) e sep (S nest) = pat_scan post e sep nest).
Proof.
  apply pat_mutind.
  - intros m c Hok post e sep nest He. cbn [enc_elt]. apply scan_benign; [apply ok_lit_benign, Hok|exact He].
  - intros _ post e sep nest He. apply (scan_benign [MAGIC; "?"%char]); [reflexivity|exact He].
  - intros _ post e sep nest He. apply (scan_benign [MAGIC; "*"%char]); [reflexivity|exact He].
  - intros b Hok post e sep nest He. cbn [enc_elt].
    apply (scan_benign (MAGIC :: "["%char :: enc_bracket b)); [|exact He].
    apply (benign_app [MAGIC; "["%char]); [reflexivity|apply enc_bracket_benign, Hok].
  - intros o a IH Hok post e sep nest He. cbn [enc_elt app].
    rewrite scan_magic_ext by (rewrite app_length; lia). apply IH; assumption.
  - intros _ post e sep nest He. reflexivity.
  - intros x IHx q IHq [H1 H2] post e sep nest He. cbn [enc_seq]. rewrite <- app_assoc.
    rewrite IHx by (auto; rewrite app_length; lia). apply IHq; assumption.
  - intros q IHq Hok post e sep nest He. cbn [enc_alts]. rewrite <- app_assoc.
    rewrite IHq by (auto; rewrite app_length; lia). apply scan_close. exact He.
  - intros q IHq a IHa [H1 H2] post e sep nest He. cbn [enc_alts]. rewrite <- !app_assoc.
    rewrite IHq by (auto; rewrite !app_length; lia). rewrite scan_bar by (rewrite app_length; lia).
    apply IHa; assumption.
Qed.

Lemma scan_alts_end a : ok_alts a -> forall post e, e <= length post ->
  pat_scan (enc_alts a ++ post) e false 0 = Some post.
Proof.
  destruct scan_enc as (_ & Hseq & _).
  induction a as [q|q a IH]; intros Hok post e He; cbn [enc_alts]; rewrite <- !app_assoc.
  - rewrite Hseq by (auto; rewrite app_length; lia). apply scan_close0. exact He.
  - destruct Hok as [H1 H2]. rewrite Hseq by (auto; rewrite !app_length; lia).
    rewrite scan_bar0 by (rewrite app_length; lia). apply IH; assumption.
Qed.

Fixpoint alt_list (a : alts) : list pseq :=
  match a with AOne q => [q] | ACons q a' => q :: alt_list a' end.

Lemma lang_alts_list a s : lang_alts a s <-> exists q, In q (alt_list a) /\ lang_seq q s.
Proof.
  induction a as [q|q a IH]; cbn [lang_alts alt_list].
  - split; [intros H; exists q; split; [left; reflexivity|exact H]|intros (q' & [->|[]] & H); exact H].
  - rewrite IH. split.
    + intros [H|(q' & Hin & H)]; [exists q; split; [left; reflexivity|exact H]|exists q'; split; [right; exact Hin|exact H]].
    + intros (q' & [->|Hin] & H); [left; exact H|right; exists q'; auto].
Qed.

Lemma ok_alt_list a : ok_alts a -> Forall ok_seq (alt_list a).
Proof. induction a as [q|q a IH]; cbn; [intros H; repeat constructor; exact H|intros [H1 H2]; constructor; auto]. Qed.

Lemma enc_alts_len a : 2 <= length (enc_alts a).
Proof. destruct a; cbn [enc_alts]; rewrite !app_length; cbn [length]; lia. Qed.

Lemma alt_len a q : In q (alt_list a) -> length (enc_seq q) + 2 <= length (enc_alts a).
Proof.
  induction a as [q'|q' a IH]; cbn [alt_list enc_alts].
  - intros [->|[]]. rewrite app_length. cbn [length]. lia.
  - intros [->|Hin]; rewrite !app_length; cbn [length]; [lia|]. specialize (IH Hin). lia.
Qed.

(** what may follow a (sub)pattern *)
Definition bound_ok (post : cstr) : Prop :=
  post = [] \/ (exists r, post = MAGIC :: ")"%char :: r) \/ (exists r, post = MAGIC :: "|"%char :: r).

Lemma any_alt_ok a : ok_alts a -> forall fuel post e body P,
  e <= length post -> length (enc_alts a) < fuel ->
  (forall q t, In q (alt_list a) -> bound_ok t -> decides (body (enc_seq q ++ t) (length t)) (P q)) ->
  decides (any_alt fuel (enc_alts a ++ post) e post body) (exists q, In q (alt_list a) /\ P q).
Proof.
  destruct scan_enc as (_ & Hseq & _).
  induction a as [q|q a IH]; intros Hok fuel post e body P He Hf Hb; (destruct fuel as [|fuel]; [lia|]);
    cbn [any_alt enc_alts]; rewrite <- !app_assoc.
  - rewrite Hseq by (auto; rewrite app_length; lia). rewrite scan_close0 by exact He.
    rewrite Nat.eqb_refl.
    specialize (Hb q ([MAGIC; ")"%char] ++ post)). cbn [app length] in Hb.
    replace (length post + 2) with (S (S (length post))) by lia.
    eapply decides_iff; [apply decides_or; [apply Hb; [left; reflexivity|right; left; eauto]|apply (decides_false False); tauto]|].
    cbn [alt_list]. split; [intros [H|[]]; exists q; split; [left; reflexivity|exact H]|].
    intros (q' & [->|[]] & H). left. exact H.
  - destruct Hok as [H1 H2]. rewrite Hseq by (auto; rewrite !app_length; lia).
    rewrite scan_bar0 by (rewrite app_length; lia). cbv iota.
    pose proof (enc_alts_len a) as Hlen.
    destruct (Nat.eqb_spec (length (enc_alts a ++ post)) (length post)) as [E|E]; [rewrite app_length in E; lia|].
    replace (length (enc_alts a ++ post) + 2) with (length ([MAGIC; "|"%char] ++ enc_alts a ++ post)) by (cbn [app length]; lia).
    eapply decides_iff.
    { apply decides_or.
      - apply Hb; [left; reflexivity|right; right; eexists; reflexivity].
      - apply IH; auto.
        + cbn [enc_alts] in Hf. rewrite !app_length in Hf. cbn [length] in Hf. lia.
        + intros q' t Hin Ht. apply Hb; [right; exact Hin|exact Ht]. }
    cbn [alt_list]. split.
    + intros [H|(q' & Hin & H)]; [exists q; split; [left; reflexivity|exact H]|exists q'; split; [right; exact Hin|exact H]].
    + intros (q' & [->|Hin] & H); [left; exact H|right; exists q'; auto].
Qed.

(** ** bracket expressions *)
Lemma ccode_range c : (0 <= ccode c < 256)%Z.
Proof. unfold ccode. pose proof (N_ascii_bounded c). lia. Qed.

Lemma ccode_inj a b : ccode a = ccode b -> a = b.
Proof. unfold ccode. intros H. apply N2Z.inj in H. rewrite <- (ascii_N_embedding a), <- (ascii_N_embedding b), H. reflexivity. Qed.

Lemma ceq_code a b : ceq a b = (ccode a =? ccode b)%Z.
Proof.
  destruct (ceq_spec a b) as [->|H].
  - symmetry. apply Z.eqb_refl.
  - symmetry. apply Z.eqb_neq. intros E. apply H, ccode_inj, E.
Qed.

Ltac codes :=
  unfold isalnum, isalpha, isspace, isdigit, islower, isupper, cbetween; rewrite ?ceq_code;
  change (ccode "000") with 0%Z; change (ccode "031") with 31%Z; change (ccode "127") with 127%Z;
  change (ccode "0") with 48%Z; change (ccode "9") with 57%Z; change (ccode "a") with 97%Z;
  change (ccode "z") with 122%Z; change (ccode "A") with 65%Z; change (ccode "Z") with 90%Z;
  change (ccode "!") with 33%Z; change (ccode "~") with 126%Z; change (ccode " ") with 32%Z;
  change (ccode "009") with 9%Z; change (ccode "013") with 13%Z;
  change (ccode "f") with 102%Z; change (ccode "F") with 70%Z.

Ltac one_class f :=
  exists f; split; [reflexivity|]; intros x; pose proof (ccode_range x); split;
  [codes; intros; constructor; lia|intros Hc; inversion Hc; subst; codes; lia].

Lemma class_table n : In n class_names ->
  exists f, find_class cclasses n = Some f /\ forall x, f x = true <-> in_class n x.
Proof.
  unfold class_names. cbn [In]. intros Hin.
  repeat (destruct Hin as [<-|Hin]; [|]); [..|destruct Hin].
  - one_class isalnum.
  - one_class isalpha.
  - one_class (fun c => cbetween "000" "031" c || ceq c "127").
  - one_class isdigit.
  - one_class (cbetween "!" "~").
  - one_class islower.
  - one_class (cbetween " " "~").
  - one_class (fun c => cbetween "!" "~" c && negb (isalnum c)).
  - one_class isspace.
  - one_class isupper.
  - one_class (fun c => isdigit c || cbetween "a" "f" c || cbetween "A" "F" c).
Qed.

(** *** the loop over members *)
Definition fin (p : cstr) (not found : bool) : option cstr :=
  if Bool.eqb found not then None else Some (skipn 2 p).
Definition at_end (p : cstr) : bool := ismagic (at_ p 0) && ceq (at_ p 1) "]".
Definition cont (f : nat) (orig p : cstr) (sub : char) (not found : bool) : option cstr :=
  let '(c, p1) := member true p in
  if is_nul c then (if ceq sub "[" then Some orig else None)
  else
    let '(d, p2) :=
      if ismagic (at_ p1 0) && ceq (at_ p1 1) "-" &&
         (negb (ismagic (at_ p1 2)) || negb (ceq (at_ p1 3) "]"))
      then let '(d, q) := member false (skipn 2 p1) in (Some d, q)
      else (None, p1) in
    let dd := match d with Some d => d | None => c end in
    if match d with Some d => (ccode d <? ccode c)%Z | None => false end then None
    else
      let found := if ceq c sub || ((ccode c <=? ccode sub) && (ccode sub <=? ccode dd))%Z
                   then true else found in
      if at_end p2 then fin p2 not found
      else cclass_loop f orig p2 sub not found.
Definition at_class (p : cstr) : bool := at_mclass p || (ceq (at_ p 0) "[" && ceq (at_ p 1) ":").

Lemma cclass_loop_S f orig p sub not found :
  cclass_loop (S f) orig p sub not found =
  if at_class p then
    match classes_loop (S (length p)) p sub found with
    | None => None
    | Some (found, p') => if at_end p' then fin p' not found else cont f orig p' sub not found
    end
  else cont f orig p sub not found.
Proof. reflexivity. Qed.

Definition trb (tr : bool) : cstr := if tr then [MAGIC; "-"%char] else [].

Lemma sweep_imp (P Q : char -> bool) : forallb (fun c => negb (P c) || Q c) all_chars = true ->
  forall c, P c = true -> Q c = true.
Proof. intros G c H. pose proof (char_sweep _ G c) as K. cbv beta in K. rewrite H in K. exact K. Qed.

Lemma pmb_facts c : plain_magic_b c = true ->
  ceq c "]" = false /\ ceq c "-" = false /\ ceq c "[" = false /\ high c = false /\ is_nul c = false.
Proof.
  intros H.
  assert (K : (negb (ceq c "]") && negb (ceq c "-") && negb (ceq c "[") && negb (high c) && negb (is_nul c)) = true)
    by (revert c H; apply sweep_imp; vm_compute; reflexivity).
  repeat (apply andb_prop in K; destruct K as [K ?]).
  repeat match goal with H : negb _ = true |- _ => apply negb_true_iff in H end.
  repeat split; assumption.
Qed.

Lemma member_mb paren m c r : ok_bchar m c = true -> member paren (mbyte m c ++ r) = (c, r).
Proof.
  unfold ok_bchar, mbyte. intros H. apply andb_prop in H. destruct H as [Hn H]. destruct m; cbn [app member].
  - change (ismagic MAGIC) with true. cbv iota. destruct (pmb_facts c H) as (_ & _ & _ & -> & _). reflexivity.
  - unfold ismagic. apply negb_true_iff in H. rewrite H. reflexivity.
Qed.

(** first bytes of what follows a member *)
Lemma body_first l tr post : ok_items l (trb tr ++ [MAGIC; "]"%char]) ->
  let p := enc_body l tr ++ post in
  at_end p = (match l with [] => negb tr | _ => false end) /\
  (ismagic (at_ p 0) && ceq (at_ p 1) "-" && (negb (ismagic (at_ p 2)) || negb (ceq (at_ p 3) "]"))) = false /\
  at_class p = (match l with BClass _ :: _ => true | _ => false end) /\
  at_mclass p = (match l with BClass _ :: _ => true | _ => false end).
Proof.
  intros Hok. unfold enc_body. destruct l as [|i l]; [destruct tr; repeat split; reflexivity|].
  cbn [enc_items]. rewrite <- app_assoc. destruct Hok as [Hi Hl].
  destruct i as [m c|m1 c m2 d|n]; cbn [enc_item].
  - destruct Hi as [Hc Hf]. unfold ok_bchar in Hc. apply andb_prop in Hc. destruct Hc as [Hn Hc].
    destruct m; cbn [mbyte app].
    + destruct (pmb_facts c Hc) as (H1 & H2 & H3 & H4 & H5).
      unfold at_end, at_class, at_mclass, at_; cbn [nth app]. rewrite H1, H2, H3. repeat split; reflexivity.
    + unfold at_end, at_class, at_mclass, at_; cbn [nth app]. apply negb_true_iff in Hc. change (ismagic c = false) in Hc. rewrite !Hc. cbn [andb orb].
      repeat split. destruct (ceq c "[") eqn:E; [|reflexivity]. cbn [andb negb no_fake_class] in *.
      apply negb_true_iff in Hf.
      rewrite app_assoc.
      rewrite app_nth1; [exact Hf|]. rewrite !app_length. cbn [length]. lia.
  - destruct Hi as (Hc & _). unfold ok_bchar in Hc. apply andb_prop in Hc. destruct Hc as [Hn Hc].
    destruct m1; cbn [mbyte app].
    + destruct (pmb_facts c Hc) as (H1 & H2 & H3 & H4 & H5).
      unfold at_end, at_class, at_mclass, at_; cbn [nth app]. rewrite H1, H2, H3. repeat split; reflexivity.
    + unfold at_end, at_class, at_mclass, at_; cbn [nth app]. apply negb_true_iff in Hc. change (ismagic c = false) in Hc. rewrite !Hc. cbn [andb orb].
      repeat split. apply andb_false_r.
  - unfold at_end, at_class, at_mclass, at_; cbn [nth app]. repeat split; reflexivity.
Qed.

Definition item_b (sub : char) (i : bitem) : bool :=
  match i with
  | BChar _ c => ceq c sub
  | BRange _ c _ d => ((ccode c <=? ccode sub) && (ccode sub <=? ccode d))%Z
  | BClass n => match find_class cclasses n with Some f => f sub | None => false end
  end.

Lemma item_b_ok i l rest sub : ok_items (i :: l) rest -> item_b sub i = true <-> item_has i sub.
Proof.
  intros [H _]. destruct i as [m c|m1 c m2 d|n]; cbn [item_b item_has].
  - rewrite ceq_true. intuition congruence.
  - lia.
  - destruct (class_table n H) as (f & -> & Hf). apply Hf.
Qed.

Lemma items_b_ok l : forall rest sub, ok_items l rest ->
  existsb (item_b sub) l = true <-> exists i, In i l /\ item_has i sub.
Proof.
  induction l as [|i l IH]; intros rest sub Hok; cbn [existsb].
  - split; [discriminate|intros (i & [] & _)].
  - rewrite orb_true_iff, (item_b_ok i l rest) by exact Hok. destruct Hok as [_ Hok]. rewrite (IH rest) by exact Hok.
    split.
    + intros [H|(j & Hj & H)]; [exists i; split; [left; reflexivity|exact H]|exists j; split; [right; exact Hj|exact H]].
    + intros (j & [->|Hj] & H); [left; exact H|right; exists j; auto].
Qed.

Lemma set_found (a b found : bool) : (if a then true else found) = found || a.
Proof. destruct a, found; reflexivity. Qed.

Lemma cont_char f orig p c l tr post sub not found :
  member true p = (c, enc_body l tr ++ post) -> is_nul c = false -> ok_items l (trb tr ++ [MAGIC; "]"%char]) ->
  cont f orig p sub not found =
  if (match l with [] => negb tr | _ => false end) then fin (enc_body l tr ++ post) not (found || ceq c sub)
  else cclass_loop f orig (enc_body l tr ++ post) sub not (found || ceq c sub).
Proof.
  intros Hm Hn Hok. unfold cont. rewrite Hm, Hn.
  destruct (body_first l tr post Hok) as (He & Hr & _). rewrite Hr.
  cbv beta iota. rewrite He.
  replace (ceq c sub || ((ccode c <=? ccode sub) && (ccode sub <=? ccode c))%Z) with (ceq c sub)
    by (rewrite ceq_code; lia).
  rewrite (set_found (ceq c sub) true found). reflexivity.
Qed.

Lemma cont_range f orig m1 c m2 d l tr post sub not found :
  ok_items (BRange m1 c m2 d :: l) (trb tr ++ [MAGIC; "]"%char]) ->
  cont f orig (enc_body (BRange m1 c m2 d :: l) tr ++ post) sub not found =
  if (match l with [] => negb tr | _ => false end) then fin (enc_body l tr ++ post) not (found || item_b sub (BRange m1 c m2 d))
  else cclass_loop f orig (enc_body l tr ++ post) sub not (found || item_b sub (BRange m1 c m2 d)).
Proof.
  intros [(H1 & H2 & H3) Hok]. unfold cont.
  assert (E : enc_body (BRange m1 c m2 d :: l) tr ++ post
              = mbyte m1 c ++ MAGIC :: "-"%char :: mbyte m2 d ++ enc_body l tr ++ post).
  { unfold enc_body. cbn [enc_items enc_item]. rewrite <- !app_assoc. reflexivity. }
  rewrite E, member_mb by assumption.
  assert (Hn : is_nul c = false).
  { unfold ok_bchar in H1. apply andb_prop in H1. destruct H1 as [H1 _]. apply negb_true_iff, H1. }
  rewrite Hn.
  assert (Hr : (ismagic (at_ (MAGIC :: "-"%char :: mbyte m2 d ++ enc_body l tr ++ post) 0) &&
      ceq (at_ (MAGIC :: "-"%char :: mbyte m2 d ++ enc_body l tr ++ post) 1) "-" &&
      (negb (ismagic (at_ (MAGIC :: "-"%char :: mbyte m2 d ++ enc_body l tr ++ post) 2))
       || negb (ceq (at_ (MAGIC :: "-"%char :: mbyte m2 d ++ enc_body l tr ++ post) 3) "]"))) = true).
  { unfold at_; cbn [nth]. unfold ok_bchar in H2. apply andb_prop in H2. destruct H2 as [_ H2].
    destruct m2; cbn [mbyte app nth].
    - destruct (pmb_facts d H2) as (-> & _). reflexivity.
    - unfold ismagic at 2. rewrite H2. reflexivity. }
  rewrite Hr. cbn [skipn]. rewrite member_mb by assumption. cbv beta iota.
  destruct (Z.ltb_spec (ccode d) (ccode c)); [lia|].
  destruct (body_first l tr post Hok) as (He & _). rewrite He.
  replace (ceq c sub || ((ccode c <=? ccode sub) && (ccode sub <=? ccode d))%Z) with (item_b sub (BRange m1 c m2 d))
    by (cbn [item_b]; rewrite ceq_code; lia).
  rewrite (set_found _ true found). reflexivity.
Qed.

Lemma cont_trail f orig post sub not found :
  cont f orig (enc_body [] true ++ post) sub not found = fin (enc_body [] false ++ post) not (found || ceq "-" sub).
Proof.
  rewrite (cont_char f orig _ "-" [] false post) by (try reflexivity; exact I). reflexivity.
Qed.

Lemma fin_end post not found : fin (enc_body [] false ++ post) not found = if Bool.eqb found not then None else Some post.
Proof. reflexivity. Qed.

(** classes *)
Lemma find_colon_name n r : forallb (fun c => negb (ismagic c) && negb (ceq c ":") && negb (is_nul c)) n = true ->
  find_colon (n ++ ":"%char :: r) = Some (n, ":"%char :: r).
Proof.
  induction n as [|c n IH]; [reflexivity|]. cbn [forallb app find_colon]. intros H.
  apply andb_prop in H. destruct H as [H1 H2]. apply andb_prop in H1. destruct H1 as [H1 _].
  apply andb_prop in H1. destruct H1 as [_ H1]. apply negb_true_iff in H1. rewrite H1, (IH H2). reflexivity.
Qed.

Lemma classes_step f (k : bool) n r sub found : In n class_names ->
  classes_loop (S f) ((if k then [MAGIC] else []) ++ "["%char :: ":"%char :: n ++ ":"%char :: MAGIC :: "]"%char :: r) sub found =
  let found := found || item_b sub (BClass n) in
  if at_mclass r then classes_loop f r sub found else Some (found, r).
Proof.
  intros Hn. cbn [classes_loop].
  set (X := (if k then [MAGIC] else []) ++ "["%char :: ":"%char :: n ++ ":"%char :: MAGIC :: "]"%char :: r).
  assert (E : skipn ((if ismagic (at_ X 0) then 1 else 0) + 2) X = n ++ ":"%char :: MAGIC :: "]"%char :: r)
    by (destruct k; reflexivity).
  unfold posix_cclass. rewrite E, find_colon_name by (apply class_names_nomagic, Hn).
  unfold at_ at 1; cbn [nth]. change (ismagic MAGIC) with true. cbn [negb skipn item_b].
  destruct (class_table n Hn) as (g & -> & _). cbv beta iota zeta. rewrite (set_found (g sub) true found). reflexivity.
Qed.

Definition is_class (i : bitem) : bool := match i with BClass _ => true | _ => false end.

(** the classes at the front of a member list *)
Fixpoint drop_classes (l : list bitem) : list bitem :=
  match l with BClass _ :: l' => drop_classes l' | _ => l end.
Fixpoint front_b (sub : char) (l : list bitem) : bool :=
  match l with (BClass n as i) :: l' => item_b sub i || front_b sub l' | _ => false end.

Lemma classes_run l : forall (k : bool) f n tr post sub found,
  ok_items (BClass n :: l) (trb tr ++ [MAGIC; "]"%char]) -> length l < f ->
  classes_loop f ((if k then [MAGIC] else []) ++ "["%char :: ":"%char :: n ++ ":"%char :: MAGIC :: "]"%char :: enc_body l tr ++ post) sub found
  = Some (found || item_b sub (BClass n) || front_b sub l, enc_body (drop_classes l) tr ++ post).
Proof.
  induction l as [|i l IH]; intros k f n tr post sub found [Hn Hok] Hf; (destruct f as [|f]; [lia|]);
    rewrite classes_step by exact Hn; cbv zeta; destruct (body_first _ tr post Hok) as (_ & _ & _ & ->).
  - cbn [drop_classes front_b]. rewrite orb_false_r. reflexivity.
  - destruct i as [m c|m1 c m2 d|n']; cbn [drop_classes front_b]; rewrite ?orb_false_r; try reflexivity.
    assert (E : enc_body (BClass n' :: l) tr ++ post
      = (if true then [MAGIC] else []) ++ "["%char :: ":"%char :: n' ++ ":"%char :: MAGIC :: "]"%char :: enc_body l tr ++ post).
    { unfold enc_body. cbn [enc_items enc_item]. rewrite <- !app_assoc. cbn [app]. rewrite <- ?app_assoc. reflexivity. }
    rewrite E, (IH true) by (auto; cbn [length] in Hf; lia). rewrite !orb_assoc. reflexivity.
Qed.

Lemma drop_classes_facts l rest : ok_items l rest ->
  ok_items (drop_classes l) rest /\ length (drop_classes l) <= length l /\
  (forall sub, existsb (item_b sub) l = front_b sub l || existsb (item_b sub) (drop_classes l)) /\
  match drop_classes l with BClass _ :: _ => False | _ => True end.
Proof.
  induction l as [|i l IH]; [cbn; auto|]. intros Hok.
  destruct i as [m c|m1 c m2 d|n]; cbn [drop_classes front_b]; try (repeat split; auto; fail); try exact (conj Hok (conj (le_n _) (conj (fun sub => eq_refl) I))).
  destruct Hok as [Hn Hok]. destruct (IH Hok) as (H1 & H2 & H3 & H4). repeat split; auto.
  - cbn [length]. lia.
  - intros sub. cbn [existsb]. rewrite H3, orb_assoc. reflexivity.
Qed.

Lemma enc_items_len l : forall rest, ok_items l rest -> length l <= length (enc_items l).
Proof.
  induction l as [|i l IH]; intros rest Hi; [apply le_n|]. destruct Hi as [H Hok]. cbn [enc_items]. rewrite app_length.
  specialize (IH rest Hok). cbn [length]. assert (1 <= length (enc_item i)); [|lia].
  destruct i as [m c|m1 c m2 d|n]; cbn [enc_item]; [destruct m; cbn; lia|destruct m1; cbn; lia|cbn; lia].
Qed.

(** continuing with a member that is not a class *)
Lemma bracket_loop n : forall l fuel tr post orig sub not found,
  length l <= n -> length l < fuel -> (l = [] -> tr = true) ->
  ok_items l (trb tr ++ [MAGIC; "]"%char]) ->
  cclass_loop fuel orig (enc_body l tr ++ post) sub not found =
  if Bool.eqb (found || existsb (item_b sub) l || (tr && ceq "-" sub)) not then None else Some post.
Proof.
  induction n as [n IH] using lt_wf_ind.
  assert (CONT : forall l fuel tr post orig sub not found,
    length l <= n -> length l <= fuel -> (l = [] -> tr = true) ->
    match l with BClass _ :: _ => False | _ => True end ->
    ok_items l (trb tr ++ [MAGIC; "]"%char]) ->
    cont fuel orig (enc_body l tr ++ post) sub not found =
    if Bool.eqb (found || existsb (item_b sub) l || (tr && ceq "-" sub)) not then None else Some post).
  { intros l fuel tr post orig sub not found Hn Hf Hne Hc Hok. destruct l as [|i l].
    - rewrite (Hne eq_refl), cont_trail, fin_end. cbn [existsb andb]. rewrite orb_false_r. reflexivity.
    - assert (G : cont fuel orig (enc_body (i :: l) tr ++ post) sub not found =
        if (match l with [] => negb tr | _ => false end) then fin (enc_body l tr ++ post) not (found || item_b sub i)
        else cclass_loop fuel orig (enc_body l tr ++ post) sub not (found || item_b sub i)).
      { destruct i as [m c|m1 c m2 d|nm]; [|apply cont_range, Hok|destruct Hc].
        destruct Hok as [[Hc1 _] Hok]. apply cont_char; [|unfold ok_bchar in Hc1; apply andb_prop in Hc1; destruct Hc1 as [Hc1 _]; apply negb_true_iff, Hc1|exact Hok].
        unfold enc_body. cbn [enc_items enc_item]. rewrite <- !app_assoc. rewrite member_mb by assumption. reflexivity. }
      rewrite G. clear G. destruct Hok as [_ Hok]. cbn [existsb].
      destruct l as [|j l].
      + destruct tr; cbn [negb].
        * cbn [length] in *. rewrite (IH 0) by (auto; cbn [length]; lia).
          cbn [existsb]. rewrite !orb_false_r. reflexivity.
        * rewrite fin_end. cbn [existsb andb]. rewrite !orb_false_r. reflexivity.
      + rewrite (IH (length (j :: l))) by (auto; try discriminate; cbn [length] in *; lia).
        rewrite !orb_assoc. reflexivity. }
  intros l fuel tr post orig sub not found Hn Hf Hne Hok.
  destruct fuel as [|fuel]; [lia|]. rewrite cclass_loop_S.
  destruct (body_first l tr post Hok) as (_ & _ & -> & _).
  destruct l as [|i l]; [apply CONT; auto; try exact I; lia|].
  destruct i as [m c|m1 c m2 d|nm]; try (apply CONT; auto; try exact I; lia).
  assert (E : enc_body (BClass nm :: l) tr ++ post
      = (if true then [MAGIC] else []) ++ "["%char :: ":"%char :: nm ++ ":"%char :: MAGIC :: "]"%char :: enc_body l tr ++ post).
  { unfold enc_body. cbn [enc_items enc_item]. rewrite <- !app_assoc. cbn [app]. rewrite <- ?app_assoc. reflexivity. }
  assert (Hlen : length l < S (length (enc_body (BClass nm :: l) tr ++ post))).
  { unfold enc_body. rewrite !app_length. pose proof (enc_items_len _ _ Hok). cbn [length] in *. lia. }
  rewrite E at 2. rewrite (classes_run l true) by assumption. clear E Hlen.
  destruct Hok as [Hnm Hok]. destruct (drop_classes_facts l _ Hok) as (H1 & H2 & H3 & H4).
  destruct (body_first _ tr post H1) as (-> & _). cbn [existsb]. rewrite H3.
  destruct (drop_classes l) as [|j l'] eqn:El.
  - destruct tr; cbn [negb].
    + rewrite CONT by (auto; cbn [length] in *; lia). rewrite <- !orb_assoc. reflexivity.
    + rewrite fin_end. cbn [existsb andb]. rewrite !orb_false_r, <- ?orb_assoc. reflexivity.
  - rewrite CONT by (auto; try discriminate; cbn [length] in *; lia). rewrite <- !orb_assoc. reflexivity.
Qed.

(** the code skips the MAGIC of the first member after a plain [ *)
Lemma posix_shorter back p sub rv p' : posix_cclass back p sub = (Some rv, p') -> length p' <= length p.
Proof.
  unfold posix_cclass. destruct (find_colon p) as [[nm col]|] eqn:E; [|discriminate].
  destruct (negb (ismagic (at_ col 1))); [discriminate|]. intros H.
  assert (Hp : p' = skipn 3 col) by congruence. subst p'.
  assert (G : length col <= length p).
  { clear H. revert nm col E. induction p as [|c p IH]; intros nm col; cbn [find_colon]; [discriminate|].
    destruct (ceq c ":"); [intros H; inversion H; subst; apply le_n|].
    destruct (find_colon p) as [[a q]|]; [|discriminate]. intros H. inversion H; subst.
    specialize (IH _ _ eq_refl). cbn [length]. lia. }
  rewrite skipn_length. lia.
Qed.

Lemma classes_fuel f : forall g p sub found, length p < f -> length p < g ->
  classes_loop f p sub found = classes_loop g p sub found.
Proof.
  induction f as [|f IH]; intros g p sub found Hf Hg; [lia|]. destruct g as [|g]; [lia|].
  cbn [classes_loop].
  destruct (posix_cclass _ _ sub) as [rv p'] eqn:E. destruct rv as [[b|]|]; try reflexivity.
  destruct (at_mclass p') eqn:Em; [|reflexivity].
  apply posix_shorter in E. rewrite skipn_length in E.
  assert (p' <> []) by (intros ->; discriminate Em).
  destruct p'; [congruence|]. cbn [length] in *. apply IH; cbn [length]; lia.
Qed.

Lemma drop_magic f orig x r sub not found : ismagic x = false -> high x = false ->
  cclass_loop (S f) orig (x :: r) sub not found = cclass_loop (S f) orig (MAGIC :: x :: r) sub not found.
Proof.
  intros Hx Hh. rewrite !cclass_loop_S.
  assert (E : at_class (MAGIC :: x :: r) = at_class (x :: r)).
  { unfold at_class, at_mclass, at_. cbn [nth]. rewrite Hx. change (ismagic MAGIC) with true.
    change (ceq MAGIC "[") with false. cbn [andb orb]. apply orb_false_r. }
  rewrite E. destruct (at_class (x :: r)).
  - rewrite (classes_fuel (S (length (x :: r))) (S (length (MAGIC :: x :: r)))) by (cbn [length]; lia).
    set (n := length (MAGIC :: x :: r)).
    assert (G : classes_loop (S n) (MAGIC :: x :: r) sub found = classes_loop (S n) (x :: r) sub found).
    { cbn [classes_loop]. unfold at_; cbn [nth]. rewrite Hx. reflexivity. }
    rewrite G. reflexivity.
  - unfold cont. replace (member true (MAGIC :: x :: r)) with (member true (x :: r)); [reflexivity|].
    cbn [member]. change (ismagic MAGIC) with true. cbv iota. rewrite Hh, Hx. reflexivity.
Qed.

Lemma lead_step f orig c l tr post sub not found :
  (c = "]"%char \/ c = "-"%char \/ (c = "["%char /\ no_fake_class true (enc_body l tr) = true)) ->
  ok_items l (trb tr ++ [MAGIC; "]"%char]) -> length l < f ->
  cclass_loop (S f) orig (MAGIC :: c :: enc_body l tr ++ post) sub not found =
  if Bool.eqb (found || ceq c sub || existsb (item_b sub) l || (tr && ceq "-" sub)) not then None else Some post.
Proof.
  intros Hc Hok Hf. rewrite cclass_loop_S.
  assert (E : at_class (MAGIC :: c :: enc_body l tr ++ post) = false).
  { unfold at_class, at_mclass, at_. cbn [nth]. destruct Hc as [->|[->|[-> H]]]; try reflexivity.
    cbn [no_fake_class] in H. apply negb_true_iff in H.
    assert (G : nth 0 (enc_body l tr ++ post) NUL = nth 0 (enc_body l tr) NUL).
    { apply app_nth1. unfold enc_body. rewrite !app_length. cbn [length]. lia. }
    rewrite G, H. reflexivity. }
  rewrite E.
  assert (Hm : member true (MAGIC :: c :: enc_body l tr ++ post) = (c, enc_body l tr ++ post))
    by (destruct Hc as [->|[->|[-> _]]]; reflexivity).
  assert (Hn : is_nul c = false) by (destruct Hc as [->|[->|[-> _]]]; reflexivity).
  rewrite (cont_char f orig _ c l tr post) by assumption.
  destruct l as [|j l]; [destruct tr|]; cbn [negb].
  - rewrite (bracket_loop 0) by (auto; cbn [length]; lia). cbn [existsb]. rewrite !orb_false_r. reflexivity.
  - rewrite fin_end. cbn [existsb andb]. rewrite !orb_false_r. reflexivity.
  - rewrite (bracket_loop (length (j :: l))) by (auto; discriminate). reflexivity.
Qed.

Definition set_b (b : bracket) (x : char) : bool :=
  (match b_lead b with Some c => ceq c x | None => false end) || existsb (item_b x) (b_items b) || (b_trail b && ceq "-" x).

Lemma set_b_ok b x : ok_bracket b -> set_b b x = true <-> bracket_set b x.
Proof.
  intros (_ & _ & _ & Hok). unfold set_b, bracket_set. rewrite !orb_true_iff, (items_b_ok _ _ _ Hok), andb_true_iff, ceq_true.
  assert (G : (match b_lead b with Some c => ceq c x | None => false end) = true <-> b_lead b = Some x).
  { destruct (b_lead b); [rewrite ceq_true; split; congruence|split; discriminate]. }
  rewrite G. intuition auto.
Qed.

Lemma cclass_ok b post sub : ok_bracket b ->
  cclass (enc_bracket b ++ post) sub = if xorb (set_b b sub) (b_not b) then Some post else None.
Proof.
  intros Hb. pose proof Hb as (H1 & H2 & H3 & Hok). unfold set_b.
  assert (X : forall v : bool, (if Bool.eqb v (b_not b) then None else Some post) = if xorb v (b_not b) then Some post else None).
  { intros v. destruct v, (b_not b); reflexivity. }
  destruct b as [nt lead items tr]. cbn [b_not b_lead b_items b_trail] in *.
  unfold enc_bracket. cbn [b_not b_lead b_items b_trail].
  assert (LEN : length items <= length (enc_body items tr)).
  { unfold enc_body. rewrite app_length. pose proof (enc_items_len _ _ Hok). lia. }
  destruct lead as [c|].
  - (* a leading ] - or [ *)
    assert (Hc : ceq c "!" = false /\ ismagic c = false /\ high c = false)
      by (destruct H2 as [->|[->|[-> _]]]; repeat split; reflexivity).
    destruct Hc as (Hc1 & Hc2 & Hc3).
    unfold cclass. destruct nt; cbn [app].
    + unfold at_ at 1 2; cbn [nth skipn]. change (ismagic MAGIC) with true. cbn [ceq]. change (ceq "!" "!") with true. cbv iota.
      rewrite lead_step by (auto; cbn [length]; rewrite app_length; lia). cbn [orb]. apply X.
    + unfold at_ at 1 2; cbn [nth skipn]. change (ismagic MAGIC) with true. rewrite Hc1. cbv iota.
      rewrite drop_magic by assumption. rewrite lead_step by (auto; cbn [length]; rewrite app_length; lia). cbn [orb]. apply X.
  - assert (Hne : items <> []) by (destruct H1; congruence). cbn [orb app].
    unfold cclass. destruct nt; cbn [app].
    + unfold at_ at 1 2; cbn [nth skipn]. change (ismagic MAGIC) with true. change (ceq "!" "!") with true. cbv iota.
      rewrite (bracket_loop (length items)) by (auto; try congruence; cbn [length]; rewrite app_length; lia). cbn [orb]. apply X.
    + specialize (H3 eq_refl eq_refl).
      set (p := enc_body items tr ++ post).
      assert (D : cclass_loop (S (length p)) p p sub false false =
        if xorb (existsb (item_b sub) items || (tr && ceq "-" sub)) false then Some post else None).
      { unfold p at 3. rewrite (bracket_loop (length items)) by (auto; try congruence; unfold p; rewrite app_length; lia).
        cbn [orb]. apply X. }
      destruct (ismagic (at_ p 0)) eqn:Em; [|exact D].
      assert (F : exists x r, p = MAGIC :: x :: r /\ ceq x "!" = false /\ ismagic x = false /\ high x = false).
      { destruct items as [|i items]; [congruence|]. clear D.
        assert (Ep : p = enc_item i ++ enc_body items tr ++ post) by (unfold p, enc_body; cbn [enc_items]; rewrite <- !app_assoc; reflexivity).
        rewrite Ep in Em |- *. destruct Hok as [Hi _].
        destruct i as [m c|m c m2 d|n]; cbn [enc_item] in *.
        - destruct Hi as [Hi _]. destruct m; cbn [mbyte app] in *.
          + cbn [ok_first] in H3. apply andb_prop in H3. destruct H3 as [F1 F2]. apply negb_true_iff in F1, F2.
            unfold ok_bchar in Hi. apply andb_prop in Hi. destruct Hi as [_ Hi]. destruct (pmb_facts c Hi) as (_ & _ & _ & F3 & _).
            eexists _, _. split; [reflexivity|]. auto.
          + unfold at_ in Em; cbn [nth] in Em. unfold ok_bchar in Hi. apply andb_prop in Hi. destruct Hi as [_ Hi].
            unfold ismagic in Em. rewrite Em in Hi. discriminate.
        - destruct Hi as [Hi _]. destruct m; cbn [mbyte app] in *.
          + cbn [ok_first] in H3. apply andb_prop in H3. destruct H3 as [F1 F2]. apply negb_true_iff in F1, F2.
            unfold ok_bchar in Hi. apply andb_prop in Hi. destruct Hi as [_ Hi]. destruct (pmb_facts c Hi) as (_ & _ & _ & F3 & _).
            eexists _, _. split; [reflexivity|]. auto.
          + unfold at_ in Em; cbn [nth] in Em. unfold ok_bchar in Hi. apply andb_prop in Hi. destruct Hi as [_ Hi].
            unfold ismagic in Em. rewrite Em in Hi. discriminate.
        - eexists _, _. split; [reflexivity|]. repeat split; reflexivity. }
      destruct F as (x & r & Ep & F1 & F2 & F3). rewrite Ep in *. unfold at_; cbn [nth skipn]. rewrite F1.
      rewrite drop_magic by assumption. exact D.
Qed.

(** ** the matcher *)
Lemma enc_elt_len x : 1 <= length (enc_elt x).
Proof. destruct x as [[|] c| | |b|o a]; cbn; lia. Qed.

Lemma enc_seq_nil q : length (enc_seq q) = 0 -> q = SNil.
Proof.
  destruct q as [|x q]; [reflexivity|]. cbn [enc_seq]. rewrite app_length. pose proof (enc_elt_len x). lia.
Qed.

Lemma split_iff (P Q : cstr -> Prop) s :
  (exists s1 s2, s = s1 ++ s2 /\ P s1 /\ Q s2) <-> exists k, In k (cuts s) /\ P (firstn k s) /\ Q (skipn k s).
Proof.
  split.
  - intros (s1 & s2 & -> & H1 & H2). exists (length s1). rewrite in_cuts, app_length.
    rewrite firstn_app, Nat.sub_diag, firstn_all, firstn_O, app_nil_r.
    rewrite skipn_app, Nat.sub_diag, skipn_all. auto with arith.
  - intros (k & _ & H1 & H2). exists (firstn k s), (skipn k s). rewrite firstn_skipn. auto.
Qed.

Lemma plus_cases P s : plus P s -> P s \/ exists u v, u <> [] /\ s = u ++ v /\ P u /\ plus P v.
Proof.
  induction 1 as [s H|s t H Ht IH]; [left; exact H|]. destruct s as [|c s]; [exact IH|].
  right. exists (c :: s), t. repeat split; auto. discriminate.
Qed.

Definition seqlang (P Q : cstr -> Prop) (s : cstr) : Prop := exists s1 s2, s = s1 ++ s2 /\ P s1 /\ Q s2.

Lemma firstn_len {A} (u v : list A) : firstn (length u) (u ++ v) = u.
Proof. rewrite firstn_app, Nat.sub_diag, firstn_all, firstn_O. apply app_nil_r. Qed.
Lemma skipn_len {A} (u v : list A) : skipn (length u) (u ++ v) = v.
Proof. rewrite skipn_app, Nat.sub_diag, skipn_all. reflexivity. Qed.

Lemma plus_unfold P Q s : seqlang (plus P) Q s <->
  exists k, In k (cuts s) /\ P (firstn k s) /\ (Q (skipn k s) \/ (k <> 0 /\ seqlang (plus P) Q (skipn k s))).
Proof.
  split.
  - intros (s1 & s2 & -> & H1 & H2). apply plus_cases in H1. destruct H1 as [H1|(u & v & Hu & -> & H1 & H3)].
    + exists (length s1). rewrite in_cuts, app_length, firstn_len, skipn_len. auto with arith.
    + exists (length u). rewrite in_cuts, <- app_assoc, app_length, firstn_len, skipn_len. repeat split; auto with arith.
      right. split; [destruct u; [congruence|discriminate]|]. exists v, s2. auto.
  - intros (k & Hk & H1 & [H2|[_ (s1 & s2 & E & H2 & H3)]]).
    + exists (firstn k s), (skipn k s). rewrite firstn_skipn. repeat split; [constructor; exact H1|exact H2].
    + exists (firstn k s ++ s1), s2. rewrite <- app_assoc, <- E, firstn_skipn. repeat split; [constructor 2; assumption|exact H3].
Qed.

Lemma star_unfold P Q s : seqlang (fun s => s = [] \/ plus P s) Q s <->
  Q s \/ exists k, In k (cuts s) /\ P (firstn k s) /\
    (Q (skipn k s) \/ (k <> 0 /\ seqlang (fun s => s = [] \/ plus P s) Q (skipn k s))).
Proof.
  split.
  - intros (s1 & s2 & -> & [->|H1] & H2); [left; exact H2|right].
    apply plus_cases in H1. destruct H1 as [H1|(u & v & Hu & -> & H1 & H3)].
    + exists (length s1). rewrite in_cuts, app_length, firstn_len, skipn_len. auto with arith.
    + exists (length u). rewrite in_cuts, <- app_assoc, app_length, firstn_len, skipn_len. repeat split; auto with arith.
      right. split; [destruct u; [congruence|discriminate]|]. exists v, s2. auto.
  - intros [H|(k & Hk & H1 & [H2|[_ (s1 & s2 & E & H2 & H3)]])].
    + exists [], s. auto.
    + exists (firstn k s), (skipn k s). rewrite firstn_skipn. repeat split; [right; constructor; exact H1|exact H2].
    + exists (firstn k s ++ s1), s2. rewrite <- app_assoc, <- E, firstn_skipn. repeat split; [|exact H3].
      right. destruct H2 as [->|H2]; [rewrite app_nil_r; constructor; exact H1|constructor 2; assumption].
Qed.

Lemma skip_stars_ok q post : ok_seq q -> bound_ok post ->
  exists q', skip_stars (enc_seq q ++ post) = enc_seq q' ++ post /\ ok_seq q' /\
    length (enc_seq q') <= length (enc_seq q) /\
    (forall s, lang_seq (SCons EStar q) s <-> exists k, In k (cuts s) /\ lang_seq q' (skipn k s)).
Proof.
  intros Hok Hb. revert Hok.
  enough (G : forall n q, length (enc_seq q) <= n -> ok_seq q -> exists q', skip_stars (enc_seq q ++ post) = enc_seq q' ++ post /\ ok_seq q' /\
    length (enc_seq q') <= length (enc_seq q) /\
    (forall s, lang_seq (SCons EStar q) s <-> exists k, In k (cuts s) /\ lang_seq q' (skipn k s))) by (apply (G _ q (le_n _))).
  assert (BASE : forall q, (forall s, lang_seq (SCons EStar q) s <-> exists k, In k (cuts s) /\ lang_seq q (skipn k s))).
  { intros p s. cbn [lang_seq lang_elt].
    rewrite (split_iff (fun _ => True) (lang_seq p) s). split; intros (k & H); exists k; tauto. }
  clear q. induction n as [n IH] using lt_wf_ind. intros q Hn Hok.
  destruct q as [|x q].
  - exists SNil. cbn [enc_seq app]. repeat split; auto; try (apply BASE).
    destruct Hb as [->|[(r & ->)|(r & ->)]]; reflexivity.
  - assert (D : x = EStar \/ x <> EStar) by (destruct x; (left; reflexivity) || (right; discriminate)).
    destruct D as [->|Hx].
    + destruct Hok as [_ Hok]. cbn [enc_seq enc_elt app] in *.
      destruct (IH (length (enc_seq q))) with (q := q) as (q' & E & Ho & Hl & Hs); [cbn [length] in Hn; lia|apply le_n|exact Hok|].
      exists q'. split; [exact E|]. split; [exact Ho|]. split; [cbn [length]; lia|].
      intros s. rewrite <- (Hs s). split.
      * intros (s1 & s2 & -> & _ & (t1 & t2 & -> & _ & H)). exists (s1 ++ t1), t2. rewrite app_assoc. repeat split; auto.
      * intros (s1 & s2 & -> & _ & H). exists s1, s2. repeat split; auto. exists [], s2. repeat split; auto.
    + exists (SCons x q). split; [|repeat split; try apply BASE; try apply Hok; apply le_n].
      cbn [enc_seq]. rewrite <- app_assoc. destruct Hok as [Hok _].
      destruct x as [m c| | |b|o a]; [|reflexivity|congruence|reflexivity|destruct o; reflexivity].
      cbn [enc_elt]. destruct m; cbn [mbyte app].
      * cbn [ok_elt] in Hok. unfold ok_lit in Hok. apply andb_prop in Hok. destruct Hok as [_ Hok].
        assert (E : ceq c "*" = false).
        { apply negb_true_iff. apply (sweep_imp plain_magic (fun c => negb (ceq c "*"))); [vm_compute; reflexivity|exact Hok]. }
        cbn [skip_stars]. rewrite E. reflexivity.
      * cbn [ok_elt] in Hok. unfold ok_lit in Hok. apply andb_prop in Hok. destruct Hok as [_ Hok]. apply negb_true_iff in Hok.
        cbn [skip_stars]. unfold ismagic. rewrite Hok. destruct (enc_seq q ++ post); reflexivity.
Qed.

Lemma pm_facts c : plain_magic c = true ->
  ceq c "[" = false /\ ceq c "?" = false /\ ceq c "*" = false /\ high c = false /\ is_ext c = false /\
  (ceq c (hi_of "+") || ceq c (hi_of "*") = false) /\
  (ceq c (hi_of "?") || ceq c (hi_of "@") || ceq c (hi_of " ") = false) /\ ceq c (hi_of "!") = false.
Proof.
  intros H.
  assert (K : (negb (ceq c "[") && negb (ceq c "?") && negb (ceq c "*") && negb (high c) && negb (is_ext c) &&
      negb (ceq c (hi_of "+") || ceq c (hi_of "*")) && negb (ceq c (hi_of "?") || ceq c (hi_of "@") || ceq c (hi_of " ")) &&
      negb (ceq c (hi_of "!"))) = true)
    by (revert c H; apply sweep_imp; vm_compute; reflexivity).
  repeat (apply andb_prop in K; destruct K as [K ?]).
  repeat match goal with H : negb _ = true |- _ => apply negb_true_iff in H end.
  repeat split; assumption.
Qed.

Lemma lit_lang c q s : lang_seq (SCons (ELit true c) q) s <-> exists s', s = c :: s' /\ lang_seq q s'.
Proof.
  cbn [lang_seq lang_elt]. split.
  - intros (s1 & s2 & -> & -> & H). exists s2. auto.
  - intros (s' & -> & H). exists [c], s'. auto.
Qed.

Lemma meas_lt pl pl' sl sl' N : pl' < pl -> sl' <= N -> pl' * S N + sl' < pl * S N + sl.
Proof. intros H1 H2. nia. Qed.

Section Main.
Variable N : nat.

Definition good (f : nat) : Prop := forall s q post, ok_seq q -> bound_ok post -> length s <= N ->
  length (enc_seq q) * S N + length s < f ->
  decides (do_gmatch f s (enc_seq q ++ post) (length post)) (lang_seq q s).

Lemma main_step f : good f -> good (S f).
Proof.
  intros IH s q post Hok Hb Hs Hf.
  assert (IHs : forall s' q', ok_seq q' -> length s' <= N -> length (enc_seq q') < length (enc_seq q) \/ (length (enc_seq q') <= length (enc_seq q) /\ length s' < length s) ->
     forall post', bound_ok post' -> decides (do_gmatch f s' (enc_seq q' ++ post') (length post')) (lang_seq q' s')).
  { intros s' q' Hq' Hs' Hlt post' Hb'. apply IH; auto.
    destruct Hlt as [Hlt|[H1 H2]]; [pose proof (meas_lt _ _ (length s) (length s') N Hlt Hs'); lia|nia]. }
  cbn [do_gmatch]. rewrite app_length.
  destruct q as [|x q].
  - cbn [enc_seq length Nat.add]. rewrite Nat.leb_refl. cbn [lang_seq].
    destruct s; [apply decides_true; reflexivity|apply decides_false; discriminate].
  - pose proof (enc_elt_len x) as Hx1. cbn [enc_seq] in *. rewrite app_length.
    destruct (Nat.leb_spec (length (enc_elt x) + length (enc_seq q) + length post) (length post)) as [C|_]; [lia|].
    rewrite app_length in IHs. rewrite <- app_assoc. destruct Hok as [Hx Hq].
    destruct x as [m c| | |b|o a].
    + (* literal *)
      cbn [enc_elt ok_elt] in *. unfold ok_lit in Hx. apply andb_prop in Hx. destruct Hx as [Hn Hx].
      assert (G : decides match s with
            | [] => Some false
            | c0 :: s' => if ceq c0 c then do_gmatch f s' (enc_seq q ++ post) (length post) else Some false
            end (lang_seq (SCons (ELit m c) q) s)).
      { change (lang_seq (SCons (ELit m c) q) s) with (lang_seq (SCons (ELit true c) q) s).
        destruct s as [|d s']; [apply decides_false; rewrite lit_lang; intros (s' & E & _); discriminate|].
        destruct (ceq_spec d c) as [->|Hd].
        - eapply decides_iff; [apply IHs; auto; cbn [length] in *; lia|]. rewrite lit_lang. split.
          + intros H. eauto.
          + intros (s2 & E & H). inversion E. subst. exact H.
        - apply decides_false. rewrite lit_lang. intros (s2 & E & _). inversion E. congruence. }
      destruct m; cbn [mbyte app].
      * change (ismagic MAGIC) with true. cbn [negb]. unfold at_; cbn [nth skipn].
        destruct (pm_facts c Hx) as (-> & -> & -> & _ & _ & -> & -> & ->). exact G.
      * unfold ismagic. rewrite Hx. exact G.
    + (* ? *)
      cbn [enc_elt app]. change (ismagic MAGIC) with true. cbn [negb]. unfold at_; cbn [nth skipn].
      change (ceq "?" "[") with false. change (ceq "?" "?") with true. cbv iota.
      destruct s as [|d s'].
      * apply decides_false. intros (s1 & s2 & E & (c & ->) & _). discriminate.
      * eapply decides_iff; [apply IHs; auto; cbn [length enc_elt] in *; lia|]. split.
        -- intros H. exists [d], s'. repeat split; auto. exists d. reflexivity.
        -- intros (s1 & s2 & E & (c & ->) & H). inversion E. subst. exact H.
    + (* star *)
      cbn [enc_elt app]. change (ismagic MAGIC) with true. cbn [negb]. unfold at_; cbn [nth skipn].
      change (ceq "*" "[") with false. change (ceq "*" "?") with false. change (ceq "*" "*") with true. cbv iota.
      destruct (skip_stars_ok q post Hq Hb) as (q' & -> & Hq' & Hl & Hlang).
      destruct (Nat.eqb_spec (length (enc_seq q' ++ post)) (length post)) as [E|E].
      * apply decides_true. rewrite app_length in E. assert (q' = SNil) by (apply enc_seq_nil; lia). subst q'.
        apply Hlang. exists (length s). rewrite in_cuts, skipn_all. split; [apply le_n|reflexivity].
      * eapply decides_iff; [|symmetry; apply Hlang].
        apply (decides_any _ (fun k => lang_seq q' (skipn k s))). intros k Hk.
        apply IHs; auto; [rewrite skipn_length; lia|cbn [length enc_elt]; lia].
    + (* bracket *)
      cbn [enc_elt app]. change (ismagic MAGIC) with true. cbn [negb]. unfold at_; cbn [nth skipn].
      change (ceq "[" "[") with true. cbv iota. cbn [ok_elt] in Hx.
      destruct s as [|d s'].
      * apply decides_false. intros (s1 & s2 & E & (c & -> & _) & _). discriminate.
      * rewrite cclass_ok by exact Hx.
        assert (HB : xorb (set_b b d) (b_not b) = true <-> bracket_has b d).
        { unfold bracket_has. pose proof (set_b_ok b d Hx) as G.
          destruct (b_not b), (set_b b d); cbn; intuition congruence. }
        destruct (xorb (set_b b d) (b_not b)).
        -- eapply decides_iff; [apply IHs; auto; cbn [length enc_elt] in *; lia|]. split.
           ++ intros H. exists [d], s'. repeat split; auto. exists d. split; [reflexivity|]. apply HB. reflexivity.
           ++ intros (s1 & s2 & E & (c & -> & _) & H). inversion E. subst. exact H.
        -- apply decides_false. intros (s1 & s2 & E & (c & -> & Hc) & H). inversion E. subst.
           apply HB in Hc. discriminate.
    + (* extended *)
      cbn [enc_elt app ok_elt] in *. change (ismagic MAGIC) with true. cbn [negb]. unfold at_; cbn [nth skipn].
      cbn [length] in IHs, Hf.
      assert (Hsc : pat_scan (enc_alts a ++ enc_seq q ++ post) (length post) false 0 = Some (enc_seq q ++ post))
        by (apply scan_alts_end; [exact Hx|rewrite app_length; lia]).
      assert (Halt : forall f' body P,
        length (enc_alts a) < f' ->
        (forall q' t, In q' (alt_list a) -> bound_ok t -> decides (body (enc_seq q' ++ t) (length t)) (P q')) ->
        decides (any_alt f' (enc_alts a ++ enc_seq q ++ post) (length post) (enc_seq q ++ post) body)
          (exists q', In q' (alt_list a) /\ P q')).
      { intros f' body P Hf' Hbody. apply any_alt_ok; auto. rewrite app_length. lia. }
      assert (Hfu : length (enc_alts a) < S (length (enc_alts a ++ enc_seq q ++ post))) by (rewrite app_length; lia).
      pose proof (ok_alt_list a Hx) as Hoks. rewrite Forall_forall in Hoks.
      assert (Hsub : forall q' t k, In q' (alt_list a) -> bound_ok t ->
          decides (do_gmatch f (firstn k s) (enc_seq q' ++ t) (length t)) (lang_seq q' (firstn k s))).
      { intros q' t k Hin Ht. apply IHs; auto; [rewrite firstn_length; lia|]. pose proof (alt_len a q' Hin). lia. }
      assert (Hrest : forall k, decides (do_gmatch f (skipn k s) (enc_seq q ++ post) (length post)) (lang_seq q (skipn k s))).
      { intros k. apply IHs; auto; [rewrite skipn_length; lia|lia]. }
      assert (Hrest0 : decides (do_gmatch f s (enc_seq q ++ post) (length post)) (lang_seq q s)) by apply (Hrest 0).
      assert (Hself : forall k, In k (cuts s) -> decides
          (if k =? 0 then Some false else do_gmatch f (skipn k s) (MAGIC :: opbyte o :: enc_alts a ++ enc_seq q ++ post) (length post))
          (k <> 0 /\ lang_seq (SCons (EExt o a) q) (skipn k s))).
      { intros k Hk. apply in_cuts in Hk. destruct (Nat.eqb_spec k 0) as [->|Hk0].
        - apply decides_false. tauto.
        - eapply decides_iff with (P := lang_seq (SCons (EExt o a) q) (skipn k s)); [|tauto].
          replace (MAGIC :: opbyte o :: enc_alts a ++ enc_seq q ++ post) with (enc_seq (SCons (EExt o a) q) ++ post)
            by (cbn [enc_seq enc_elt app]; rewrite <- app_assoc; reflexivity).
          apply IHs; auto; [split; assumption|rewrite skipn_length; lia|].
          right. cbn [enc_seq enc_elt app length]. rewrite app_length, skipn_length. lia. }
      assert (Hplus : decides (any_alt (S (length (enc_alts a ++ enc_seq q ++ post))) (enc_alts a ++ enc_seq q ++ post) (length post) (enc_seq q ++ post)
          (fun psub e' => any_o (fun k => and_o (do_gmatch f (firstn k s) psub e')
              (or_o (do_gmatch f (skipn k s) (enc_seq q ++ post) (length post))
                 (if k =? 0 then Some false else do_gmatch f (skipn k s) (MAGIC :: opbyte o :: enc_alts a ++ enc_seq q ++ post) (length post)))) (cuts s)))
          (exists k, In k (cuts s) /\ lang_alts a (firstn k s) /\
             (lang_seq q (skipn k s) \/ (k <> 0 /\ lang_seq (SCons (EExt o a) q) (skipn k s))))).
      { eapply decides_iff.
        - apply (Halt _ _ (fun q' => exists k, In k (cuts s) /\ lang_seq q' (firstn k s) /\
             (lang_seq q (skipn k s) \/ (k <> 0 /\ lang_seq (SCons (EExt o a) q) (skipn k s))))); [exact Hfu|].
          intros q' t Hin Ht.
          apply (decides_any _ (fun k => lang_seq q' (firstn k s) /\
             (lang_seq q (skipn k s) \/ (k <> 0 /\ lang_seq (SCons (EExt o a) q) (skipn k s))))).
          intros k Hk. apply decides_and; [apply Hsub; assumption|]. apply decides_or; auto.
        - split.
          + intros (q' & Hin & k & Hk & H1 & H2). exists k. repeat split; auto. apply lang_alts_list. eauto.
          + intros (k & Hk & H1 & H2). apply lang_alts_list in H1. destruct H1 as (q' & Hin & H1). eauto 10. }
      assert (Hone : forall cs, decides (any_alt (S (length (enc_alts a ++ enc_seq q ++ post))) (enc_alts a ++ enc_seq q ++ post) (length post) (enc_seq q ++ post)
          (fun psub e' => any_o (fun k => and_o (do_gmatch f (firstn k s) psub e')
              (do_gmatch f (skipn k s) (enc_seq q ++ post) (length post))) cs))
          (exists k, In k cs /\ lang_alts a (firstn k s) /\ lang_seq q (skipn k s))).
      { intros cs. eapply decides_iff.
        - apply (Halt _ _ (fun q' => exists k, In k cs /\ lang_seq q' (firstn k s) /\ lang_seq q (skipn k s))); [exact Hfu|].
          intros q' t Hin Ht.
          apply (decides_any _ (fun k => lang_seq q' (firstn k s) /\ lang_seq q (skipn k s))).
          intros k Hk. apply decides_and; [apply Hsub; assumption|]. apply Hrest.
        - split.
          + intros (q' & Hin & k & Hk & H1 & H2). exists k. repeat split; auto. apply lang_alts_list. eauto.
          + intros (k & Hk & H1 & H2). apply lang_alts_list in H1. destruct H1 as (q' & Hin & H1). eauto 10. }
      assert (Hcs : (exists k, In k (if length (enc_seq q ++ post) =? length post then [length s] else cuts s) /\
           lang_alts a (firstn k s) /\ lang_seq q (skipn k s)) <->
           (exists k, In k (cuts s) /\ lang_alts a (firstn k s) /\ lang_seq q (skipn k s))).
      { destruct (Nat.eqb_spec (length (enc_seq q ++ post)) (length post)) as [E|E]; [|reflexivity].
        rewrite app_length in E. assert (q = SNil) by (apply enc_seq_nil; lia). subst q. cbn [lang_seq]. split.
        - intros (k & [<-|[]] & H). exists (length s). rewrite in_cuts. auto.
        - intros (k & Hk & H1 & H2). exists k. apply in_cuts in Hk. split; [|auto]. left.
          apply (f_equal (@length char)) in H2. rewrite skipn_length in H2. cbn [length] in H2. lia. }
      assert (Hnot : decides (any_o (fun k =>
            match any_alt (S (length (enc_alts a ++ enc_seq q ++ post))) (enc_alts a ++ enc_seq q ++ post) (length post) (enc_seq q ++ post)
                    (fun psub e' => do_gmatch f (firstn k s) psub e') with
            | None => None | Some true => Some false
            | Some false => do_gmatch f (skipn k s) (enc_seq q ++ post) (length post) end) (cuts s))
          (exists k, In k (cuts s) /\ ~ lang_alts a (firstn k s) /\ lang_seq q (skipn k s))).
      { apply (decides_any _ (fun k => ~ lang_alts a (firstn k s) /\ lang_seq q (skipn k s))). intros k Hk.
        destruct (Halt (S (length (enc_alts a ++ enc_seq q ++ post))) (fun psub e' => do_gmatch f (firstn k s) psub e')
                    (fun q' => lang_seq q' (firstn k s)) Hfu) as (v & -> & Hv); [intros; apply Hsub; assumption|].
        rewrite <- lang_alts_list in Hv. destruct v.
        - apply decides_false. intros [H _]. apply H, Hv. reflexivity.
        - eapply decides_iff; [apply Hrest|]. split; [|tauto]. intros H. split; [|exact H].
          intros C. apply Hv in C. discriminate. }
      change (lang_seq (SCons (EExt o a) q) s) with (seqlang (apply_op o (lang_alts a)) (lang_seq q) s).
      rewrite Hsc.
      destruct o; cbn [opbyte apply_op] in *;
      match goal with |- context [ceq ?x "["%char] =>
        change (ceq x "["%char) with false; change (ceq x "?"%char) with false; change (ceq x "*"%char) with false end; cbv iota.
      * (* *( *)
        change (ceq "170" (hi_of "+")) with false. change (ceq "170" (hi_of "*")) with true. cbn [orb].
        eapply decides_iff; [apply decides_or; [exact Hrest0|exact Hplus]|]. symmetry. apply star_unfold.
      * (* +( *)
        change (ceq "171" (hi_of "+")) with true. change (ceq "171" (hi_of "*")) with false. cbn [orb or_o].
        eapply decides_iff; [exact Hplus|]. symmetry. apply plus_unfold.
      * (* ?( *)
        change (ceq "191" (hi_of "+")) with false. change (ceq "191" (hi_of "*")) with false.
        change (ceq "191" (hi_of "?")) with true. cbn [orb].
        eapply decides_iff; [apply decides_or; [exact Hrest0|apply Hone]|]. rewrite Hcs, <- (split_iff (lang_alts a) (lang_seq q)).
        split.
        -- intros [H|(s1 & s2 & -> & H1 & H2)]; [exists [], s; repeat split; auto; left; reflexivity|exists s1, s2; repeat split; auto; right; exact H1].
        -- intros (s1 & s2 & -> & [->|H1] & H2); [left; exact H2|right; exists s1, s2; auto].
      * (* @( *)
        change (ceq "192" (hi_of "+")) with false. change (ceq "192" (hi_of "*")) with false.
        change (ceq "192" (hi_of "?")) with false. change (ceq "192" (hi_of "@")) with true. cbn [orb or_o].
        eapply decides_iff; [apply Hone|]. rewrite Hcs. symmetry. apply split_iff.
      * (* ( *)
        change (ceq "160" (hi_of "+")) with false. change (ceq "160" (hi_of "*")) with false.
        change (ceq "160" (hi_of "?")) with false. change (ceq "160" (hi_of "@")) with false. change (ceq "160" (hi_of " ")) with true. cbn [orb or_o].
        eapply decides_iff; [apply Hone|]. rewrite Hcs. symmetry. apply split_iff.
      * (* !( *)
        change (ceq "161" (hi_of "+")) with false. change (ceq "161" (hi_of "*")) with false.
        change (ceq "161" (hi_of "?")) with false. change (ceq "161" (hi_of "@")) with false. change (ceq "161" (hi_of " ")) with false.
        change (ceq "161" (hi_of "!")) with true. cbn [orb].
        eapply decides_iff; [exact Hnot|]. symmetry. apply (split_iff (fun s => ~ lang_alts a s)).
Qed.

Lemma main f : good f.
Proof. induction f as [|f IH]; [intros s q post _ _ _ H; lia|apply main_step, IH]. Qed.
End Main.

(** ** has_globbing *)
Lemma skipn_le {A} k (l : list A) : length (skipn k l) <= length l.
Proof. rewrite skipn_length. lia. Qed.

Lemma glob_fuel f : forall g p n b saw inb, length p < f -> length p < g ->
  glob_scan f p n b saw inb = glob_scan g p n b saw inb.
Proof.
  induction f as [|f IH]; intros g p n b saw inb Hf Hg; [lia|]. destruct g as [|g]; [lia|].
  cbn [glob_scan]. destruct p as [|a r]; [reflexivity|]. cbn [length] in *.
  destruct (negb (ismagic a)); [apply IH; lia|].
  assert (H1 : length (skipn 1 r) <= length r) by apply skipn_le.
  repeat match goal with
  | |- glob_scan _ _ _ _ _ _ = glob_scan _ _ _ _ _ _ => apply IH
  | |- (if ?c then _ else _) = (if ?c then _ else _) => destruct c
  | |- ?x = ?x => reflexivity
  end; try lia.
  all: repeat match goal with |- context [if ?c then _ else _] => destruct c end; rewrite ?skipn_length; lia.
Qed.

Lemma glob_magic f d r nest bnest saw inb :
  glob_scan (S f) (MAGIC :: d :: r) nest bnest saw inb =
  if ceq d "*" || ceq d "?" then glob_scan f r nest bnest true inb
  else if ceq d "[" then
    if inb then glob_scan f r nest bnest saw inb
    else
      let q := if ismagic (at_ r 0) && ceq (at_ r 1) "!" then skipn 2 r else r in
      let q := if ismagic (at_ q 0) && ceq (at_ q 1) "]" then skipn 2 q else q in
      glob_scan f q nest bnest true true
  else if ceq d "]" then
    if inb then (if negb (bnest =? 0) then false else glob_scan f r nest bnest saw false)
    else glob_scan f r nest bnest saw inb
  else if is_ext d then
    if inb then glob_scan f r nest (S bnest) true inb else glob_scan f r (S nest) bnest true inb
  else if ceq d "|" then
    if inb && (bnest =? 0) then false else glob_scan f r nest bnest saw inb
  else if ceq d ")" then
    if inb then (if bnest =? 0 then false else glob_scan f r nest (bnest - 1) saw inb)
    else glob_scan f r (nest - 1) bnest saw inb
  else glob_scan f r nest bnest saw inb.
Proof. reflexivity. Qed.

Definition gs (p : cstr) (n : nat) (saw inb : bool) : bool := glob_scan (S (length p)) p n 0 saw inb.

Lemma gs_raw c r n saw inb : ismagic c = false -> gs (c :: r) n saw inb = gs r n saw inb.
Proof. intros H. unfold gs. cbn [glob_scan length]. rewrite H. reflexivity. Qed.

Lemma gs_pass d r n saw inb :
  (ceq d "*" || ceq d "?") = false -> ceq d "[" && negb inb = false -> ceq d "]" && inb = false ->
  is_ext d = false -> ceq d "|" = false -> ceq d ")" = false ->
  gs (MAGIC :: d :: r) n saw inb = gs r n saw inb.
Proof.
  intros H1 H2 H3 H4 H5 H6. unfold gs. cbn [length].
  rewrite glob_magic, H1, H4, H5, H6. destruct (ceq d "["); [destruct inb; [|discriminate]|destruct (ceq d "]"); [destruct inb; [discriminate|]|]];
  apply glob_fuel; lia.
Qed.

Lemma gs_wild d r n saw inb : (ceq d "*" || ceq d "?") = true ->
  gs (MAGIC :: d :: r) n saw inb = gs r n true inb.
Proof.
  intros H1. unfold gs. cbn [length].
  rewrite glob_magic, H1.
  apply glob_fuel; lia.
Qed.

Lemma gs_close r n saw : gs (MAGIC :: "]"%char :: r) n saw true = gs r n saw false.
Proof.
  unfold gs. cbn [length]. rewrite glob_magic.
  apply (glob_fuel (S (S (length r))) (S (length r))); lia.
Qed.

Lemma gs_open r n saw :
  gs (MAGIC :: "["%char :: r) n saw false =
  let q := if ismagic (at_ r 0) && ceq (at_ r 1) "!" then skipn 2 r else r in
  gs (if ismagic (at_ q 0) && ceq (at_ q 1) "]" then skipn 2 q else q) n true true.
Proof.
  unfold gs. cbn [length].
  rewrite glob_magic.
  change (ceq "[" "*") with false. change (ceq "[" "?") with false. change (ceq "[" "[") with true. cbn [orb]. cbv zeta.
  apply glob_fuel; [|lia].
  repeat match goal with |- context [if ?c then _ else _] => destruct c end; rewrite ?skipn_length; lia.
Qed.

Lemma gs_ext d r n saw : is_ext d = true -> gs (MAGIC :: d :: r) n saw false = gs r (S n) true false.
Proof.
  intros H. assert (K : (negb (ceq d "*" || ceq d "?") && negb (ceq d "[") && negb (ceq d "]")) = true).
  { revert d H. apply sweep_imp. vm_compute. reflexivity. }
  apply andb_prop in K. destruct K as [K K3]. apply andb_prop in K. destruct K as [K1 K2]. apply negb_true_iff in K1, K2, K3.
  unfold gs. cbn [length].
  rewrite glob_magic, K1, K2, K3, H.
  apply glob_fuel; lia.
Qed.

Lemma gs_bar r n saw : gs (MAGIC :: "|"%char :: r) n saw false = gs r n saw false.
Proof.
  unfold gs. cbn [length]. rewrite glob_magic.
  apply (glob_fuel (S (S (length r))) (S (length r))); lia.
Qed.
Lemma gs_paren r n saw : gs (MAGIC :: ")"%char :: r) (S n) saw false = gs r n saw false.
Proof.
  unfold gs. cbn [length]. rewrite glob_magic. cbn [Nat.sub]. rewrite ?Nat.sub_0_r.
  apply (glob_fuel (S (S (length r))) (S (length r))); lia.
Qed.

Lemma gs_nomagic w r n saw inb : forallb (fun c => negb (ismagic c) && negb (ceq c ":") && negb (is_nul c)) w = true ->
  gs (w ++ r) n saw inb = gs r n saw inb.
Proof.
  induction w as [|c w IH]; [reflexivity|]. cbn [forallb app]. intros H. apply andb_prop in H. destruct H as [H1 H2].
  apply andb_prop in H1. destruct H1 as [H1 _]. apply andb_prop in H1. destruct H1 as [H1 _]. apply negb_true_iff in H1.
  rewrite gs_raw by exact H1. auto.
Qed.

(** inside a bracket expression the scan has already seen a [; it may or may not
    still consider itself inside *)
Lemma gs_mb m c r n inb : ok_bchar m c = true -> gs (mbyte m c ++ r) n true inb = gs r n true inb.
Proof.
  unfold ok_bchar. intros H. apply andb_prop in H. destruct H as [_ H]. destruct m; cbn [mbyte app].
  - destruct (ceq c "*" || ceq c "?") eqn:E; [apply gs_wild, E|].
    assert (K : (negb (ceq c "[") && negb (ceq c "]") && negb (is_ext c) && negb (ceq c "|") && negb (ceq c ")")) = true)
      by (clear E; revert c H; apply sweep_imp; vm_compute; reflexivity).
    repeat (apply andb_prop in K; destruct K as [K ?]).
    repeat match goal with H : negb _ = true |- _ => apply negb_true_iff in H end.
    apply gs_pass; auto; [rewrite K; reflexivity|].
    match goal with H : ceq c "]" = false |- _ => rewrite H; reflexivity end.
  - apply gs_raw. unfold ismagic. apply negb_true_iff, H.
Qed.

Lemma gs_items l : forall rest r n inb, ok_items l rest ->
  exists inb', gs (enc_items l ++ r) n true inb = gs r n true inb'.
Proof.
  induction l as [|i l IH]; intros rest r n inb Hok; [exists inb; reflexivity|].
  cbn [enc_items]. rewrite <- app_assoc. destruct Hok as [Hi Hok].
  destruct i as [m c|m1 c m2 d|nm]; cbn [enc_item].
  - destruct Hi as [Hi _]. rewrite gs_mb by exact Hi. apply (IH rest); exact Hok.
  - destruct Hi as (H1 & H2 & _). rewrite <- !app_assoc. rewrite gs_mb by exact H1. cbn [app].
    rewrite gs_pass by reflexivity. rewrite gs_mb by exact H2. apply (IH rest); exact Hok.
  - cbn [app]. rewrite <- !app_assoc. cbn [app].
    assert (F : exists inb', gs (MAGIC :: "["%char :: ":"%char :: nm ++ ":"%char :: MAGIC :: "]"%char :: enc_items l ++ r) n true inb
       = gs (enc_items l ++ r) n true inb').
    { exists false. destruct inb.
      - rewrite gs_pass by reflexivity. rewrite gs_raw by reflexivity.
        rewrite gs_nomagic by (apply class_names_nomagic, Hi). rewrite gs_raw by reflexivity. apply gs_close.
      - rewrite gs_open.
        match goal with |- (let q := _ in gs _ ?n ?s ?i) = ?rhs => change (gs (":"%char :: nm ++ ":"%char :: MAGIC :: "]"%char :: enc_items l ++ r) n s i = rhs) end.
        rewrite gs_raw by reflexivity.
        rewrite gs_nomagic by (apply class_names_nomagic, Hi). rewrite gs_raw by reflexivity. apply gs_close. }
    destruct F as (inb' & ->). apply (IH rest); exact Hok.
Qed.

Lemma gs_body l tr r n inb : ok_items l (trb tr ++ [MAGIC; "]"%char]) ->
  gs (enc_body l tr ++ r) n true inb = gs r n true false.
Proof.
  intros Hok. unfold enc_body. rewrite <- !app_assoc.
  destruct (gs_items l _ ((if tr then [MAGIC; "-"%char] else []) ++ [MAGIC; "]"%char] ++ r) n inb Hok) as (inb' & ->).
  assert (E : gs ((if tr then [MAGIC; "-"%char] else []) ++ [MAGIC; "]"%char] ++ r) n true inb' = gs ([MAGIC; "]"%char] ++ r) n true inb').
  { destruct tr; [|reflexivity]. cbn [app]. apply gs_pass; try reflexivity. }
  rewrite E. cbn [app]. destruct inb'; [apply gs_close|]. apply gs_pass; reflexivity.
Qed.

Lemma body_nolead l tr r : ok_items l (trb tr ++ [MAGIC; "]"%char]) -> l <> [] ->
  ismagic (at_ (enc_body l tr ++ r) 0) && ceq (at_ (enc_body l tr ++ r) 1) "]" = false.
Proof.
  intros Hok Hne. destruct (body_first l tr r Hok) as (H & _). unfold at_end in H. rewrite H. destruct l; [congruence|reflexivity].
Qed.

Lemma body_nobang l tr r : ok_items l (trb tr ++ [MAGIC; "]"%char]) -> ok_first l = true ->
  ismagic (at_ (enc_body l tr ++ r) 0) && ceq (at_ (enc_body l tr ++ r) 1) "!" = false.
Proof.
  intros Hok Hf. unfold enc_body. destruct l as [|i l]; [destruct tr; reflexivity|].
  destruct Hok as [Hi _]. destruct i as [m c|m c m2 d|n]; cbn [enc_items enc_item]; rewrite <- ?app_assoc.
  - destruct Hi as [Hi _]. unfold ok_bchar in Hi. apply andb_prop in Hi. destruct Hi as [_ Hi].
    destruct m; unfold at_; cbn [mbyte app nth].
    + cbn [ok_first] in Hf. apply andb_prop in Hf. destruct Hf as [_ Hf]. apply negb_true_iff in Hf. rewrite Hf. apply andb_false_r.
    + unfold ismagic. apply negb_true_iff in Hi. rewrite Hi. reflexivity.
  - destruct Hi as [Hi _]. unfold ok_bchar in Hi. apply andb_prop in Hi. destruct Hi as [_ Hi].
    destruct m; unfold at_; cbn [mbyte app nth].
    + cbn [ok_first] in Hf. apply andb_prop in Hf. destruct Hf as [_ Hf]. apply negb_true_iff in Hf. rewrite Hf. apply andb_false_r.
    + unfold ismagic. apply negb_true_iff in Hi. rewrite Hi. reflexivity.
  - reflexivity.
Qed.

Lemma gs_lead c r n : c = "-"%char \/ c = "["%char -> gs (MAGIC :: c :: r) n true true = gs r n true true.
Proof. intros [->| ->]; apply gs_pass; reflexivity. Qed.

Lemma gs_bracket b r n saw : ok_bracket b ->
  gs (MAGIC :: "["%char :: enc_bracket b ++ r) n saw false = gs r n true false.
Proof.
  intros (H1 & H2 & H3 & Hok). rewrite gs_open. unfold enc_bracket.
  destruct b as [nt lead items tr]. cbn [b_not b_lead b_items b_trail] in *. rewrite <- !app_assoc.
  set (B := enc_body items tr ++ r).
  assert (SK : forall q, ismagic (at_ (match lead with Some c => [MAGIC; c] | None => [] end ++ B) 0) &&
     ceq (at_ (match lead with Some c => [MAGIC; c] | None => [] end ++ B) 1) "!" = false \/ q = true ->
     (q = true -> nt = true) -> (q = false -> nt = false) ->
     (let q0 := if ismagic (at_ ((if nt then [MAGIC; "!"%char] else []) ++ match lead with Some c => [MAGIC; c] | None => [] end ++ B) 0) &&
        ceq (at_ ((if nt then [MAGIC; "!"%char] else []) ++ match lead with Some c => [MAGIC; c] | None => [] end ++ B) 1) "!"
        then skipn 2 ((if nt then [MAGIC; "!"%char] else []) ++ match lead with Some c => [MAGIC; c] | None => [] end ++ B)
        else (if nt then [MAGIC; "!"%char] else []) ++ match lead with Some c => [MAGIC; c] | None => [] end ++ B in q0)
     = match lead with Some c => [MAGIC; c] | None => [] end ++ B).
  { intros q Hq Hq1 Hq2. cbv zeta. destruct nt; [reflexivity|]. destruct q; [specialize (Hq1 eq_refl); discriminate|].
    destruct Hq as [Hq|Hq]; [|discriminate]. cbn [app]. rewrite Hq. reflexivity. }
  specialize (SK nt). cbv zeta in SK |- *. rewrite SK; clear SK; auto.
  - destruct lead as [c|].
    + destruct H2 as [->|H2].
      * cbn [app]. unfold at_; cbn [nth skipn]. change (ismagic MAGIC) with true. change (ceq "]" "]") with true. cbn [andb].
        apply gs_body, Hok.
      * assert (E : ceq c "]" = false) by (destruct H2 as [->|[-> _]]; reflexivity).
        cbn [app]. unfold at_; cbn [nth]. rewrite E, andb_false_r.
        rewrite gs_lead by (destruct H2 as [->|[-> _]]; auto). apply gs_body, Hok.
    + cbn [app]. unfold B. rewrite body_nolead; [apply gs_body, Hok|exact Hok|]. destruct H1; congruence.
  - destruct nt; [right; reflexivity|left]. destruct lead as [c|].
    + cbn [app]. unfold at_; cbn [nth]. destruct H2 as [->|[->|[-> _]]]; reflexivity.
    + cbn [app]. unfold B. apply body_nobang; auto.
Qed.

Definition glob_elt (x : elt) : bool := match x with ELit _ _ => false | _ => true end.
Fixpoint glob_seq (q : pseq) : bool := match q with SNil => false | SCons x q' => glob_elt x || glob_seq q' end.

Lemma gs_enc :
  (forall x, ok_elt x -> forall post n saw, gs (enc_elt x ++ post) n saw false = gs post n (saw || glob_elt x) false) /\
  (forall q, ok_seq q -> forall post n saw, gs (enc_seq q ++ post) n saw false = gs post n (saw || glob_seq q) false) /\
  (forall a, ok_alts a -> forall post n, gs (enc_alts a ++ post) (S n) true false = gs post n true false).
Proof.
  apply pat_mutind.
  - intros m c Hok post n saw. cbn [enc_elt glob_elt ok_elt] in *. rewrite orb_false_r.
    unfold ok_lit in Hok. apply andb_prop in Hok. destruct Hok as [_ Hok]. destruct m; cbn [mbyte app].
    + assert (K : (negb (ceq c "|") && negb (ceq c ")")) = true)
        by (revert c Hok; apply sweep_imp; vm_compute; reflexivity).
      apply andb_prop in K. destruct K as [K1 K2]. apply negb_true_iff in K1, K2.
      destruct (pm_facts c Hok) as (E1 & E2 & E3 & _ & E4 & _). apply gs_pass; auto.
      * rewrite E2, E3. reflexivity.
      * rewrite E1. reflexivity.
      * apply andb_false_r.
    + apply gs_raw. unfold ismagic. apply negb_true_iff, Hok.
  - intros _ post n saw. cbn [enc_elt app glob_elt]. rewrite orb_true_r. apply gs_wild. reflexivity.
  - intros _ post n saw. cbn [enc_elt app glob_elt]. rewrite orb_true_r. apply gs_wild. reflexivity.
  - intros b Hok post n saw. cbn [enc_elt app glob_elt]. rewrite orb_true_r. apply gs_bracket, Hok.
  - intros o a IH Hok post n saw. cbn [enc_elt app glob_elt]. rewrite orb_true_r.
    rewrite gs_ext by apply opbyte_ext. apply IH, Hok.
  - intros _ post n saw. cbn [enc_seq app glob_seq]. rewrite orb_false_r. reflexivity.
  - intros x IHx q IHq [H1 H2] post n saw. cbn [enc_seq glob_seq]. rewrite <- app_assoc, IHx, IHq by assumption.
    rewrite orb_assoc. reflexivity.
  - intros q IHq Hok post n. cbn [enc_alts]. rewrite <- app_assoc, IHq by assumption. apply gs_paren.
  - intros q IHq a IHa [H1 H2] post n. cbn [enc_alts]. rewrite <- !app_assoc, IHq by assumption. cbn [app orb].
    rewrite gs_bar. apply IHa, H2.
Qed.

Lemma has_globbing_ok q : ok_seq q -> has_globbing (enc_seq q) = glob_seq q.
Proof.
  intros Hok. change (has_globbing (enc_seq q)) with (gs (enc_seq q) 0 false false).
  destruct gs_enc as (_ & H & _). rewrite <- (app_nil_r (enc_seq q)), H by exact Hok.
  unfold gs. cbn. destruct (glob_seq q); reflexivity.
Qed.

Lemma lit_only q : ok_seq q -> glob_seq q = false -> lang_seq q (debunk (enc_seq q)) /\ forall s, lang_seq q s -> s = debunk (enc_seq q).
Proof.
  induction q as [|x q IH]; intros Hok Hg; [cbn; auto|].
  cbn [glob_seq] in Hg. apply orb_false_elim in Hg. destruct Hg as [G1 G2].
  destruct x as [m c| | | |]; try discriminate. destruct Hok as [Hx Hq]. destruct (IH Hq G2) as [H1 H2].
  assert (E : debunk (enc_seq (SCons (ELit m c) q)) = c :: debunk (enc_seq q)).
  { cbn [enc_seq enc_elt ok_elt] in *. unfold ok_lit in Hx. apply andb_prop in Hx. destruct Hx as [_ Hx]. destruct m; cbn [mbyte app].
    - cbn [debunk]. destruct (pm_facts c Hx) as (_ & _ & _ & _ & E & _). rewrite E. reflexivity.
    - cbn [debunk]. unfold ismagic. apply negb_true_iff in Hx. rewrite Hx. reflexivity. }
  rewrite E. split.
  - exists [c], (debunk (enc_seq q)). repeat split; auto.
  - intros s (s1 & s2 & -> & -> & H). cbn [app]. f_equal. apply H2, H.
Qed.

Lemma gmatch_ok q s : ok_seq q -> decides (gmatch s (enc_seq q)) (lang_seq q s).
Proof.
  intros Hok. unfold gmatch. rewrite has_globbing_ok by exact Hok. destruct (glob_seq q) eqn:Eg.
  - pose proof (main (length s) (S (length (enc_seq q) * S (length s) + length s)) s q [] Hok) as G.
    rewrite app_nil_r in G. apply G; auto. left. reflexivity.
  - destruct (lit_only q Hok Eg) as [H1 H2].
    exists (str_eqb (debunk (enc_seq q)) s). split; [reflexivity|]. rewrite str_eqb_true. split; [intros <-; exact H1|].
    intros H. symmetry. apply H2, H.
Qed.
