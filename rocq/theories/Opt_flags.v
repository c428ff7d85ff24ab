(** Proofs about the options of the shell. *)
From Verif Require Import Base Num_model SimplifyPath_model Var_model Opt_model Opt_spec Opt_proof.
Local Open Scope nat_scope.

(** ** The table is as documented *)
Definition doc_option (d : option String.string * option char * bool) : sh_option :=
  let '(n, c, b) := d in Oo (option_map L n) c (match n, c with None, None => false | _, _ => true end) b.
Lemma table_documented : sh_options = map doc_option documented.
Proof. vm_compute. reflexivity. Qed.

Definition okset (w : what) (i : nat) : Prop := match w with OF_SET => settable i | _ => cmdline_ok i end.

Lemma nth_documented i : nth_error sh_options i = option_map doc_option (nth_error documented i).
Proof. rewrite table_documented. apply nth_error_map. Qed.

Lemma allowed_ok w i o : w <> OF_SPECIAL -> nth_error sh_options i = Some o -> (allowed w o = true <-> okset w i).
Proof.
  intros W E.
  assert (i < 37) as I. { change 37 with (length sh_options). apply nth_error_Some. congruence. }
  rewrite nth_documented in E. destruct (nth_error documented i) as [[[n c] b]|] eqn:D; [|discriminate].
  injection E as <-. destruct w; cbn.
  - unfold cmdline_ok. clear W. revert D. do 36 (destruct i as [|i]; [cbn; intros [= <- <- <-]; split; [lia|reflexivity]|]).
    destruct i as [|i]; [|lia]. cbn. intros [= <- <- <-]. split; [discriminate|lia].
  - unfold settable. split; [intros ->; eauto|]. intros (n' & c' & E). congruence.
  - congruence.
Qed.

Lemma option_from_spec l i n : match option_from l i n with
  | Some j => i <= j /\ exists o, nth_error l (j - i) = Some o /\ o_name o = Some n
  | None => forall j o, nth_error l j = Some o -> o_name o <> Some n end.
Proof.
  revert i; induction l as [|o l IH]; intros i; cbn; [intros [|j] o E; discriminate|].
  assert (match option_from l (S i) n with
    | Some j => i <= j /\ exists o', nth_error (o :: l) (j - i) = Some o' /\ o_name o' = Some n
    | None => o_name o <> Some n -> forall j o', nth_error (o :: l) j = Some o' -> o_name o' <> Some n end) as K.
  { specialize (IH (S i)). destruct (option_from l (S i) n) as [j|].
    - destruct IH as (A1 & o' & A2 & A3). split; [lia|]. exists o'. split; auto.
      replace (j - i) with (S (j - S i)) by lia. exact A2.
    - intros N [|j] o' E; [cbn in E; congruence|]. eapply IH; eauto. }
  destruct (o_name o) as [m|] eqn:EM.
  - destruct (str_eqb_spec m n) as [->|N].
    + split; [lia|]. exists o. rewrite Nat.sub_diag. auto.
    + destruct (option_from l (S i) n); auto. apply K. congruence.
  - destruct (option_from l (S i) n); auto. apply K. congruence.
Qed.
Lemma option_name n : match option_ n with Some i => has_name i n | None => forall i, ~ has_name i n end.
Proof.
  unfold option_. pose proof (option_from_spec sh_options 0 n) as H.
  destruct (option_from sh_options 0 n) as [i|].
  - destruct H as (_ & o & E & N). rewrite Nat.sub_0_r, nth_documented in E.
    destruct (nth_error documented i) as [[[m c] b]|] eqn:D; [|discriminate]. injection E as <-.
    cbn in N. destruct m as [m|]; [|discriminate]. injection N as <-. exists m, c, b. auto.
  - intros i (s & c & b & D & ->). eapply (H i); [rewrite nth_documented, D; reflexivity|reflexivity].
Qed.
(** names and letters denote one option each *)
Lemma name_inj i j n : has_name i n -> has_name j n -> i = j.
Proof.
  assert (forall i j s s' c c' b b', nth_error documented i = Some (Some s, c, b) -> nth_error documented j = Some (Some s', c', b') ->
    L s = L s' -> i = j) as H.
  { assert (forallb (fun i => forallb (fun j => match nth_error documented i, nth_error documented j with
      | Some (Some s, _, _), Some (Some s', _, _) => negb (str_eqb (L s) (L s')) || (i =? j) | _, _ => true end) (seq 0 37)) (seq 0 37) = true) as T
      by (vm_compute; reflexivity).
    intros i0 j0 s s' c c' b b' E E' Q.
    assert (In i0 (seq 0 37)) as I by (apply in_seq; split; [lia|]; change (0 + 37) with (length documented); apply nth_error_Some; congruence).
    assert (In j0 (seq 0 37)) as J by (apply in_seq; split; [lia|]; change (0 + 37) with (length documented); apply nth_error_Some; congruence).
    rewrite forallb_forall in T. specialize (T _ I). rewrite forallb_forall in T. specialize (T _ J).
    rewrite E, E', Q, str_eqb_refl in T. cbn in T. lia. }
  intros (s & c & b & E & ->) (s' & c' & b' & E' & Q). eauto.
Qed.
Lemma letter_inj i j c : has_letter i c -> has_letter j c -> i = j.
Proof.
  assert (forallb (fun i => forallb (fun j => match nth_error documented i, nth_error documented j with
      | Some (_, Some c, _), Some (_, Some c', _) => negb (ceq c c') || (i =? j) | _, _ => true end) (seq 0 37)) (seq 0 37) = true) as T
      by (vm_compute; reflexivity).
  intros (n & b & E) (n' & b' & E').
  assert (In i (seq 0 37)) as I by (apply in_seq; split; [lia|]; change (0 + 37) with (length documented); apply nth_error_Some; congruence).
  assert (In j (seq 0 37)) as J by (apply in_seq; split; [lia|]; change (0 + 37) with (length documented); apply nth_error_Some; congruence).
  rewrite forallb_forall in T. specialize (T _ I). rewrite forallb_forall in T. specialize (T _ J).
  rewrite E, E', ceq_refl in T. cbn in T. lia.
Qed.

Lemma letter_from_spec l i w z : match letter_from l i w z with
  | Some j => i <= j /\ exists o c, nth_error l (j - i) = Some o /\ o_c o = Some c /\ z = schar c /\ allowed w o = true
  | None => forall j o c, nth_error l j = Some o -> o_c o = Some c -> allowed w o = true -> z <> schar c end.
Proof.
  revert i; induction l as [|o l IH]; intros i; cbn; [intros [|j] o c E; discriminate|].
  assert (match letter_from l (S i) w z with
    | Some j => i <= j /\ exists o' c, nth_error (o :: l) (j - i) = Some o' /\ o_c o' = Some c /\ z = schar c /\ allowed w o' = true
    | None => (forall c, o_c o = Some c -> allowed w o = true -> z <> schar c) ->
       forall j o' c, nth_error (o :: l) j = Some o' -> o_c o' = Some c -> allowed w o' = true -> z <> schar c end) as K.
  { specialize (IH (S i)). destruct (letter_from l (S i) w z) as [j|].
    - destruct IH as (A1 & o' & c & A2 & A3). split; [lia|]. exists o', c. split; auto.
      replace (j - i) with (S (j - S i)) by lia. exact A2.
    - intros N [|j] o' c E; [cbn in E; injection E as <-; auto|]. eapply IH; eauto. }
  destruct (o_c o) as [c|] eqn:EM.
  - destruct ((z =? schar c)%Z && allowed w o) eqn:Q.
    + apply andb_true_iff in Q as [Q1 Q2]. split; [lia|]. exists o, c. rewrite Nat.sub_diag. repeat split; auto. lia.
    + destruct (letter_from l (S i) w z); auto. apply K. intros c' [= <-] A. rewrite A in Q. lia.
  - destruct (letter_from l (S i) w z); auto. apply K. congruence.
Qed.

Lemma nm (i : nat) (s : String.string) c b : nth_error documented i = Some (Some s, c, b) -> has_name i (L s).
Proof. intros E. exists s, c, b. auto. Qed.
Lemma name_vi : has_name FVI (L "vi"). Proof. exact (nm FVI "vi" None true eq_refl). Qed.
Lemma name_emacs : has_name FEMACS (L "emacs"). Proof. exact (nm FEMACS "emacs" None true eq_refl). Qed.
Lemma name_gmacs : has_name FGMACS (L "gmacs"). Proof. exact (nm FGMACS "gmacs" None true eq_refl). Qed.
Lemma name_posix : has_name FPOSIX (L "posix"). Proof. exact (nm FPOSIX "posix" None true eq_refl). Qed.
Lemma name_brace : has_name FBRACEEXPAND (L "braceexpand"). Proof. exact (nm FBRACEEXPAND "braceexpand" None true eq_refl). Qed.
Lemma name_inter : has_name FTALKING (L "interactive"). Proof. exact (nm FTALKING "interactive" (Some "i"%char) false eq_refl). Qed.
Lemma editing_iff i : editing i <-> i = FVI \/ i = FEMACS \/ i = FGMACS.
Proof.
  unfold editing. split.
  - intros [H|[H|H]]; eauto using name_inj, name_vi, name_emacs, name_gmacs.
  - intros [->|[->| ->]]; auto using name_vi, name_emacs, name_gmacs.
Qed.
Lemma posix_iff i : has_name i (L "posix") <-> i = FPOSIX.
Proof. split; [intros H; eauto using name_inj, name_posix|intros ->; apply name_posix]. Qed.
Lemma brace_iff i : has_name i (L "braceexpand") <-> i = FBRACEEXPAND.
Proof. split; [intros H; eauto using name_inj, name_brace|intros ->; apply name_brace]. Qed.
Lemma inter_iff i : has_name i (L "interactive") <-> i = FTALKING.
Proof. split; [intros H; eauto using name_inj, name_inter|intros ->; apply name_inter]. Qed.

Definition inter (self : bool) (w : what) : bool := match w with OF_SPECIAL => false | _ => self end.
Ltac crunch := repeat match goal with |- context [?a =? ?b] => destruct (Nat.eqb_spec a b); try lia end.
Lemma change_flag_switched self fl i w v : i <> FTALKING_I -> switched (inter self w) fl i v (change_flag self fl i w v).
Proof.
  intros NI. unfold switched. setoid_rewrite editing_iff. setoid_rewrite posix_iff. setoid_rewrite brace_iff. setoid_rewrite inter_iff.
  fold (inter self w). unfold change_flag. fold (inter self w).
  unfold FMONITOR, FVI, FEMACS, FGMACS, FPOSIX, FBRACEEXPAND, FTALKING, FTALKING_I, upd in *.
  destruct (Z.eqb_spec v 0) as [V|V]; destruct (inter self w); cbn [negb andb orb];
  (split; [crunch; cbn; crunch; reflexivity || lia|]);
  (split; [intros NV [->|[->| ->]]; intros j [->|[->| ->]] NJ; cbn; congruence || reflexivity|]);
  (split; [intros NV -> j ->; cbn; congruence || reflexivity|]);
  (split; [intros X ->; cbn; congruence || reflexivity|]);
  (intros j NJ C1 C2 C3; crunch; cbn; crunch; try reflexivity; try (exfalso; lia)).
Qed.

(** ** The option strings of set and of the command line *)
Definition kindb (opts : cstr) (c : char) : option kind :=
  if mem c (L "?:;,#") then None else
  match after_chr opts c with Some (d :: _) => Some (kind_char d) | Some [] => Some Plain | None => None end.
Lemma kindb_declares opts c k : declares opts c k -> kindb opts c = Some k.
Proof.
  intros D. apply declares_after in D as (LT & o & E & ->). unfold kindb. rewrite E.
  destruct (mem c (L "?:;,#")) eqn:M; [|destruct o; reflexivity]. exfalso. apply LT, mem_In, M.
Qed.
Definition kind_eqb (a b : kind) : bool := match a, b with Plain, Plain | Needs, Needs | Optional, Optional | Attached, Attached | Number, Number => true | _, _ => false end.
Definition string_ok (w : what) (c : char) : bool :=
  match kindb (opts_of w) c with
  | None => true
  | Some Plain => negb (ceq c "A") && negb (ceq c "o") && negb (ceq c "?") &&
      match w with OF_SET => ceq c "s" | _ => false end || match letter_from sh_options 0 w (ccode c) with Some _ => negb (ceq c "A") && negb (ceq c "o") && negb (ceq c "?") && negb (ceq c "s" && match w with OF_SET => true | _ => false end) | None => false end
  | Some Needs => match w with OF_SET => ceq c "A" | _ => ceq c "o" end
  | Some Optional => match w with OF_SET => ceq c "o" | _ => false end
  | _ => false
  end && ((ccode c <? 128)%Z || match kindb (opts_of w) c with None => true | _ => false end).
Lemma strings_ok w c : w <> OF_SPECIAL -> string_ok w c = true.
Proof. intros W. revert c. destruct w; [| |congruence]; apply char_sweep; vm_compute; reflexivity. Qed.
Lemma no255 w : ~ In "255"%char (opts_of w).
Proof. destruct w; vm_compute; intuition discriminate. Qed.

Lemma schar_small c : (ccode c < 128)%Z -> schar c = ccode c.
Proof. unfold schar. intros H. now rewrite (proj2 (Z.ltb_lt _ _) H). Qed.
Lemma ccode_inj a b : ccode a = ccode b -> a = b.
Proof. intros E. rewrite <- (ascii_of_code a), <- (ascii_of_code b). now rewrite E. Qed.
Lemma ret_code c z : (-128 <= z < 128)%Z -> (z mod 256 = ccode c)%Z -> (ccode c < 128)%Z -> z = ccode c.
Proof.
  intros R M B. assert (0 <= ccode c)%Z by (unfold ccode; lia).
  pose proof (Z.div_mod z 256). lia.
Qed.
Lemma ccode_eqb a b : (ccode a =? ccode b)%Z = ceq a b.
Proof.
  destruct (ceq_spec a b) as [->|N]; [apply Z.eqb_refl|]. apply Z.eqb_neq. intros E. now apply N, ccode_inj.
Qed.

Lemma has_letter_allowed w i c : w <> OF_SPECIAL -> has_letter i c -> okset w i ->
  exists o, nth_error sh_options i = Some o /\ o_c o = Some c /\ allowed w o = true.
Proof.
  intros W (n & b & D) O. exists (doc_option (n, Some c, b)).
  assert (nth_error sh_options i = Some (doc_option (n, Some c, b))) as E by (rewrite nth_documented, D; reflexivity).
  split; [exact E|]. split; [destruct n; reflexivity|]. eapply allowed_ok; eauto.
Qed.

(** one event, seen *)
Lemma parse_one_ev self w s e z b a old : w <> OF_SPECIAL -> agree (opts_of w) e z b a -> kept (opts_of w) e old a ->
  match parse_one self w s (Seen z b a) with
  | PGo s' => (forall evs fl', obeys (inter self w) (okset w) (pa_flags s') evs fl' -> obeys (inter self w) (okset w) (pa_flags s) (e :: evs) fl')
  | PBad s' => pa_flags s' = pa_flags s /\ refused (okset w) (pa_flags s) e
  | PInternal => False
  end.
Proof.
  intros W AG KP.
  unfold parse_one. cbn [s_ret s_plus s_arg].
  assert (~ silent (opts_of w)) as NS by (destruct w; intros (o & E); discriminate).
  destruct e as [p k c x|p c|p c]; cbn in AG, KP.
  2:{ destruct AG as (-> & -> & _). cbn. split; auto. constructor. }
  2:{ destruct AG as (-> & _ & A2). rewrite (A2 NS). cbn. split; auto. constructor. }
  destruct AG as (-> & AK & Z1 & Z2), KP as (D & KP).
  pose proof (kindb_declares _ _ _ D) as KB.
  pose proof (strings_ok w c W) as SO. unfold string_ok in SO. rewrite KB in SO.
  apply andb_true_iff in SO as [SO SMALL]. rewrite orb_false_r in SMALL. apply Z.ltb_lt in SMALL.
  rewrite (ret_code c z Z1 Z2 SMALL) in *. clear Z1 Z2.
  change (schar "A") with (ccode "A"). change (schar "o") with (ccode "o"). change (schar "?") with (ccode "?"). change (schar "s") with (ccode "s").
  rewrite !ccode_eqb.
  assert (a = x \/ k = Plain) as AX by (destruct k; auto; left; apply AK; discriminate).
  assert (ceq c "A" = true -> forall i v, ~ asks (okset w) (Opt p k c x) i v) as NA.
  { intros E i v AS. apply ceq_true in E. subst c. inversion AS as [|p' c' i' HL OK]; subst.
    destruct HL as (n & b' & D'). assert (In i (seq 0 37)) as I by (apply in_seq; split; [lia|]; change (0 + 37) with (length documented); apply nth_error_Some; congruence).
    assert (forallb (fun i => match nth_error documented i with Some (_, Some c, _) => negb (ceq c "A") | _ => true end) (seq 0 37) = true) as T by (vm_compute; reflexivity).
    rewrite forallb_forall in T. specialize (T _ I). rewrite D' in T. discriminate. }
  destruct (ceq c "A") eqn:CA.
  { intros evs fl' O. apply O_none; auto. }
  destruct (ceq_spec c "o") as [->|CO].
  { assert (k = Needs \/ k = Optional) as KO by (destruct w, k; try discriminate; auto).
    assert (a = x) as -> by (destruct AX as [|E]; auto; destruct KO; congruence).
    destruct x as [n|].
    - pose proof (option_name n) as ON. destruct (option_ n) as [i|].
      + destruct (_ =? pa_flags s i)%Z eqn:EQ.
        * intros evs fl' O. eapply O_same; eauto. apply Z.eqb_eq in EQ. destruct p; symmetry; exact EQ.
        * destruct (nth_error sh_options i) as [o|] eqn:EO.
          -- pose proof (allowed_ok w i o W EO) as AO. destruct (allowed w o).
             ++ intros evs fl' O. cbn in O. eapply O_name; eauto; [now apply AO|apply Z.eqb_neq in EQ; destruct p; intros X; apply EQ; symmetry; exact X|].
                replace (sign_value p) with (if negb p then 1%Z else 0%Z) by (destruct p; reflexivity).
                apply change_flag_switched. destruct ON as (s' & c' & b' & DD & _). intros ->. discriminate.
             ++ split; auto. eapply R_notset; eauto; [intros O; apply AO in O; discriminate|].
                apply Z.eqb_neq in EQ. destruct p; intros X; apply EQ; symmetry; exact X.
          -- exfalso. destruct ON as (s' & c' & b' & DD & _). rewrite nth_documented, DD in EO. discriminate.
      + split; auto. now constructor.
    - intros evs fl' O. apply O_none; auto. intros i v AS. inversion AS as [|p' c' i' HL OK]; subst.
      destruct KO; congruence. }
  assert (k = Plain) as ->.
  { destruct k; auto; destruct w; try discriminate; apply ceq_true in SO; congruence. }
  destruct (KP eq_refl) as [-> ->].
  destruct (ceq_spec c "?") as [->|CQ]; [destruct w; discriminate|].
  pose proof (letter_from_spec sh_options 0 w (ccode c)) as LS.
  assert (match letter_from sh_options 0 w (ccode c) with
    | Some i => forall evs fl', obeys (inter self w) (okset w) (change_flag self (pa_flags s) i w (if negb p then 1%Z else 0%Z)) evs fl' ->
        obeys (inter self w) (okset w) (pa_flags s) (Opt p Plain c None :: evs) fl'
    | None => True end) as LT.
  { destruct (letter_from sh_options 0 w (ccode c)) as [i|]; auto.
    destruct LS as (_ & o & c' & EN & EC & SC & AL). rewrite Nat.sub_0_r in EN.
    assert (c' = c) as ->.
    { assert (schar c = schar c') as Q by (rewrite <- SC; now apply schar_small).
      pose proof (schar_spec c) as [_ S1]. pose proof (schar_spec c') as [_ S2]. apply ccode_inj. congruence. }
    assert (has_letter i c) as HL.
    { rewrite nth_documented in EN. destruct (nth_error documented i) as [[[n cc] bb]|] eqn:DD; [|discriminate].
      injection EN as <-. cbn in EC. exists n, bb. congruence. }
    intros evs fl' O. eapply O_letter; eauto; [eapply allowed_ok; eauto|].
    replace (sign_value p) with (if negb p then 1%Z else 0%Z) by (destruct p; reflexivity).
    apply change_flag_switched. destruct HL as (n & bb & DD). intros ->. discriminate. }
  destruct w; [| |congruence].
  - destruct (letter_from sh_options 0 OF_CMDLINE (ccode c)) as [i|]; [exact LT|exfalso; clear - SO; rewrite ?andb_false_r in SO; discriminate SO].
  - destruct (ceq_spec c "s") as [->|CS].
    + intros evs fl' O. apply O_none; auto. intros i v AS. inversion AS as [|p' c' i' HL OK]; subst.
      assert (i = 27) as -> by (eapply letter_inj; [exact HL|exists (Some "stdin"%string), false; reflexivity]).
      destruct OK as (n & c & X). discriminate.
    + destruct (letter_from sh_options 0 OF_SET (ccode c)) as [i|]; [exact LT|exfalso; clear - SO; rewrite ?andb_false_r in SO; discriminate SO].
Qed.

Lemma parse_one_side self s e z b a old : agree (opts_of OF_SET) e z b a -> kept (opts_of OF_SET) e old a ->
  match parse_one self OF_SET s (Seen z b a) with
  | PGo s' => pa_array s' = array_one (pa_array s) e /\ pa_sort s' = pa_sort s || sort_one e
  | _ => True
  end.
Proof.
  intros AG KP.
  unfold parse_one. cbn [s_ret s_plus s_arg].
  assert (~ silent (opts_of OF_SET)) as NS by (intros (o & E); discriminate).
  destruct e as [p k c x|p c|p c]; cbn in AG, KP.
  2:{ destruct AG as (-> & -> & _). cbn. exact I. }
  2:{ destruct AG as (-> & _ & A2). rewrite (A2 NS). cbn. exact I. }
  destruct AG as (-> & AK & Z1 & Z2), KP as (D & KP).
  pose proof (kindb_declares _ _ _ D) as KB.
  assert (OF_SET <> OF_SPECIAL) as W by discriminate. change (kindb (opts_of OF_SET) c = Some k) in KB.
  pose proof (strings_ok OF_SET c W) as SO. unfold string_ok in SO. rewrite KB in SO.
  apply andb_true_iff in SO as [SO SMALL]. rewrite orb_false_r in SMALL. apply Z.ltb_lt in SMALL.
  rewrite (ret_code c z Z1 Z2 SMALL) in *. clear Z1 Z2.
  change (schar "A") with (ccode "A"). change (schar "o") with (ccode "o"). change (schar "?") with (ccode "?"). change (schar "s") with (ccode "s").
  rewrite !ccode_eqb.
  assert (forall q, c <> "A"%char -> array_one q (Opt p k c x) = q) as N1.
  { intros q N. unfold array_one. destruct k; auto. destruct c as [[] [] [] [] [] [] [] []]; auto; congruence. }
  assert (c <> "s"%char -> sort_one (Opt p k c x) = false) as N2.
  { intros N. unfold sort_one. destruct k; auto. destruct c as [[] [] [] [] [] [] [] []]; auto; congruence. }
  destruct (ceq_spec c "A") as [->|NA].
  { vm_compute in KB. injection KB as <-. rewrite (AK ltac:(discriminate)). cbn. rewrite orb_false_r. split; auto. }
  destruct (ceq_spec c "o") as [->|CO].
  { assert (forall s', pa_array s' = pa_array s -> pa_sort s' = pa_sort s ->
      pa_array s' = array_one (pa_array s) (Opt p k "o" x) /\ pa_sort s' = pa_sort s || sort_one (Opt p k "o" x)) as Q
      by (intros s' -> ->; rewrite N1, N2, orb_false_r by discriminate; auto).
    destruct a as [n|]; [|now apply Q].
    destruct (option_ n) as [i|]; auto. destruct (_ =? pa_flags s i)%Z; [now apply Q|].
    destruct (nth_error sh_options i) as [o|]; auto. destruct (allowed OF_SET o); auto. }
  destruct (ceq_spec c "?") as [->|CQ]; auto.
  destruct (ceq_spec c "s") as [->|CS].
  { vm_compute in KB. injection KB as <-. cbn. rewrite orb_true_r. auto. }
  destruct (letter_from sh_options 0 OF_SET (ccode c)) as [i|]; auto. cbn [pa_array pa_sort]. rewrite N1, N2, orb_false_r by auto. auto.
Qed.

Lemma parse_loop_spec self w argv : w <> OF_SPECIAL -> cstrings argv -> forall fuel s g cur args,
  at_ argv g cur args -> size_ cur args < fuel ->
  exists evs rest mm, scan (opts_of w) (plusopt g) cur args evs rest mm /\
    ((exists s' g', parse_loop fuel self w argv s g = Ok (Some (PEnd s' g')) /\
        obeys (inter self w) (okset w) (pa_flags s) evs (pa_flags s') /\
        (w = OF_SET -> pa_array s' = fold_left array_one evs (pa_array s) /\ pa_sort s' = pa_sort s || existsb sort_one evs) /\
        optind g' <= length argv /\ skipn (optind g') argv = rest /\ g_mm g' = g_mm g || mm) \/
     (exists s' evs1 e evs2, parse_loop fuel self w argv s g = Ok (Some (PErr s')) /\ evs = evs1 ++ e :: evs2 /\
        obeys (inter self w) (okset w) (pa_flags s) evs1 (pa_flags s') /\ refused (okset w) (pa_flags s') e)).
Proof.
  intros W CS. induction fuel as [|f IH]; intros s g cur args A SZ; [lia|].
  cbn [parse_loop]. destruct (getopt_step argv g (opts_of w) cur args CS (no255 w) A) as (z & g' & E & ST).
  rewrite E. cbn [bind]. destruct ST as [rest mm Z SC M I K AT P U O|e cur' args' Z AG KP AT SZ' P M U SC].
  - rewrite (proj2 (Z.eqb_eq _ _) Z). exists [], rest, mm. split; auto. left. exists s, g'. repeat split; auto; [constructor|]. now rewrite orb_false_r.
  - rewrite (proj2 (Z.eqb_neq _ _) Z).
    pose proof (parse_one_ev self w s e z (g_plus g') (optarg g') (optarg g) W AG KP) as PO.
    assert (w = OF_SET -> match parse_one self w s (Seen z (g_plus g') (optarg g')) with
      | PGo s' => pa_array s' = array_one (pa_array s) e /\ pa_sort s' = pa_sort s || sort_one e | _ => True end) as PS
      by (clear PO; intros ->; eapply parse_one_side; eauto).
    destruct (parse_one self w s (Seen z (g_plus g') (optarg g'))) as [s1|s1|]; [| |destruct PO].
    + destruct (IH s1 g' cur' args' AT) as (evs & rest & mm & S2 & R); [lia|].
      exists (e :: evs), rest, mm. split; [apply SC; now rewrite <- P|].
      destruct R as [(s' & g2 & E2 & OB & RS & R1 & R2 & R3)|(s' & e1 & e0 & e2 & E2 & -> & OB & RF)].
      * left. exists s', g2. rewrite M in R3. split; [exact E2|]. split; [auto|]. split; [|auto].
        intros WE. destruct (RS WE) as [-> ->]. destruct (PS WE) as [-> ->]. cbn. rewrite orb_assoc. auto.
      * right. exists s', (e :: e1), e0, e2. repeat split; auto.
    + (* the rest of the arguments would have been scanned all the same *)
      destruct (getopt_loop_spec argv (opts_of w) CS (no255 w) (S (size_ cur' args')) g' cur' args' AT) as
        (l & g2 & evs & rest & mm & _ & S2 & _); [lia|].
      exists (e :: evs), rest, mm. split; [apply SC; now rewrite <- P|].
      right. exists s1, [], e, evs. destruct PO as [-> RF]. repeat split; auto. constructor.
Qed.

(** ** Consequences *)
Lemma obeys_app it ok fl evs1 evs2 fl1 fl2 : obeys it ok fl evs1 fl1 -> obeys it ok fl1 evs2 fl2 -> obeys it ok fl (evs1 ++ evs2) fl2.
Proof.
  induction 1; intros O; cbn; auto; [apply O_none|eapply O_same|eapply O_name|eapply O_letter]; eauto.
Qed.

Definition one_editor (fl : nat -> Z) : Prop := at_most_one (fl FVI) (fl FEMACS) (fl FGMACS).
Lemma switched_one it fl i v fl' : switched it fl i v fl' -> one_editor fl -> one_editor fl'.
Proof.
  intros (A1 & A2 & A3 & A4 & A5) O. unfold one_editor, at_most_one in *.
  assert (editing FVI /\ editing FEMACS /\ editing FGMACS) as (E1 & E2 & E3) by (rewrite !editing_iff; auto).
  destruct (Z.eq_dec v 0) as [V|V].
  - assert (forall j, j = i \/ ~ j = 36 /\ True \/ j = 36) as D by (intros; lia).
    assert (forall j, j <> i -> j <> 36 -> fl' j = fl j) as K by (intros j N1 N2; apply A5; auto; intros X; tauto).
    assert (forall j, j <> 36 -> fl' j = 0%Z \/ fl' j = fl j) as K2.
    { intros j N. destruct (Nat.eq_dec j i) as [->|NE]; [left; congruence|right; auto]. }
    pose proof (K2 FVI ltac:(discriminate)). pose proof (K2 FEMACS ltac:(discriminate)). pose proof (K2 FGMACS ltac:(discriminate)). lia.
  - destruct (Nat.eq_dec i FVI) as [->|N1]; [|destruct (Nat.eq_dec i FEMACS) as [->|N2]; [|destruct (Nat.eq_dec i FGMACS) as [->|N3]]].
    + pose proof (A2 V E1 FEMACS E2 ltac:(discriminate)). pose proof (A2 V E1 FGMACS E3 ltac:(discriminate)). lia.
    + pose proof (A2 V E2 FVI E1 ltac:(discriminate)). pose proof (A2 V E2 FGMACS E3 ltac:(discriminate)). lia.
    + pose proof (A2 V E3 FEMACS E2 ltac:(discriminate)). pose proof (A2 V E3 FVI E1 ltac:(discriminate)). lia.
    + assert (~ editing i) as NE by (rewrite editing_iff; lia).
      assert (forall j, editing j -> fl' j = fl j) as K.
      { intros j EJ. apply A5.
        - intros ->. auto.
        - tauto.
        - intros (_ & _ & B). apply brace_iff in B. subst. apply editing_iff in EJ. cbv in EJ. lia.
        - intros (_ & _ & B). subst. apply editing_iff in EJ. cbv in EJ. lia. }
      rewrite !K by auto. exact O.
Qed.
Lemma obeys_one it ok fl evs fl' : obeys it ok fl evs fl' -> one_editor fl -> one_editor fl'.
Proof. induction 1; eauto using switched_one. Qed.

Lemma obeys_untouched it ok fl evs fl' i : obeys it ok fl evs fl' -> ~ ok i -> ~ editing i ->
  ~ has_name i (L "braceexpand") -> (ok FTALKING -> i <> 36) -> fl' i = fl i.
Proof.
  intros O NO NE NB NT. induction O as [fl|fl e evs fl' NA O IH|fl b k n j evs fl' HN E O IH|fl b k n j fl1 evs fl' HN OK NQ SW O IH|fl b c j fl1 evs fl' HN OK SW O IH]; auto;
    rewrite IH; destruct SW as (A1 & A2 & A3 & A4 & A5); apply A5; try tauto; try (intros ->; tauto);
    intros (_ & B & C); apply inter_iff in B; subst; apply NT; auto.
Qed.

Definition ordinary (i : nat) : Prop := ~ editing i /\ ~ has_name i (L "braceexpand") /\ i < 36.
Lemma switched_ordinary it fl i v fl' j : switched it fl i v fl' -> ordinary j -> j <> i -> fl' j = fl j.
Proof. intros (A1 & A2 & A3 & A4 & A5) (O1 & O2 & O3) N. apply A5; auto; intros X; try tauto. lia. Qed.
Lemma asks_i ok b k n i j v : has_name i n -> asks ok (Opt b k "o"%char (Some n)) j v -> j = i.
Proof. intros H A. inversion A; subst. eapply name_inj; eauto. Qed.
Lemma asks_l ok b c i j v : has_letter i c -> asks ok (Opt b Plain c None) j v -> j = i.
Proof. intros H A. inversion A; subst. eapply letter_inj; eauto. Qed.

Lemma obeys_never it ok fl evs fl' i : obeys it ok fl evs fl' -> ordinary i -> (forall e v, In e evs -> ~ asks ok e i v) -> fl' i = fl i.
Proof.
  intros O OI. induction O as [fl|fl e evs fl' NA O IH|fl b k n j evs fl' HN E O IH|fl b k n j fl1 evs fl' HN OK NQ SW O IH|fl b c j fl1 evs fl' HN OK SW O IH];
    intros N; auto; rewrite IH by (intros e' v' I'; apply N; now right); auto.
  - eapply switched_ordinary; eauto. intros ->. eapply N; [now left|]. constructor; eauto.
  - eapply switched_ordinary; eauto. intros ->. eapply N; [now left|]. constructor; eauto.
Qed.
Lemma obeys_last it ok fl e1 e e2 fl' i v : obeys it ok fl (e1 ++ e :: e2) fl' -> ordinary i -> asks ok e i v ->
  (forall e' v', In e' e2 -> ~ asks ok e' i v') -> fl' i = v.
Proof.
  intros O OI A N. revert fl O. induction e1 as [|x e1 IH]; cbn; intros fl O.
  - inversion O as [|? ? ? ? NA O' E1|? ? ? ? j ? ? HN E O'|? ? ? ? j ? ? ? HN OK NQ SW O'|? ? ? j ? ? ? HN OK SW O']; subst.
    + destruct (NA _ _ A).
    + rewrite (obeys_never _ _ _ _ _ _ O' OI N). rewrite (asks_i _ _ _ _ _ _ _ HN A). inversion A; subst. congruence.
    + rewrite (obeys_never _ _ _ _ _ _ O' OI N). rewrite (asks_i _ _ _ _ _ _ _ HN A). destruct SW as [-> _]. inversion A; subst; congruence.
    + rewrite (obeys_never _ _ _ _ _ _ O' OI N). rewrite (asks_l _ _ _ _ _ _ HN A). destruct SW as [-> _]. inversion A; subst; congruence.
  - inversion O; subst; eauto.
Qed.

(** ** Restoring: when everything that is asked for agrees with a target *)
Definition toward (ok : nat -> Prop) (T : nat -> Z) (evs : list ev) : Prop := forall e i v, In e evs -> asks ok e i v -> v = T i.
Lemma switched_toward it fl j fl' T i : switched it fl j (T j) fl' -> one_editor T -> i < 36 -> ~ has_name i (L "braceexpand") ->
  (fl i = T i \/ i = j) -> fl' i = T i.
Proof.
  intros (A1 & A2 & A3 & A4 & A5) O1 LI NB H. destruct (Nat.eq_dec i j) as [->|NE]; [exact A1|].
  destruct H as [H|H]; [|contradiction].
  destruct (Z.eq_dec (T j) 0) as [Z|Z].
  - rewrite A5; auto; intros X; try tauto. lia.
  - assert (editing i \/ ~ editing i) as [EI|EI] by (rewrite editing_iff; lia).
    + assert (editing j \/ ~ editing j) as [EJ|EJ] by (rewrite editing_iff; lia).
      * rewrite (A2 Z EJ i EI NE). revert Z NE. apply editing_iff in EI, EJ. unfold one_editor, at_most_one in O1.
        destruct EI as [->|[->| ->]], EJ as [->|[->| ->]]; lia.
      * rewrite A5; auto; intros X; try tauto. lia.
    + rewrite A5; auto; intros X; try tauto. lia.
Qed.
Lemma obeys_toward it ok fl evs fl' T i : obeys it ok fl evs fl' -> toward ok T evs -> one_editor T -> i < 36 ->
  ~ has_name i (L "braceexpand") -> (fl i = T i \/ exists e, In e evs /\ exists v, asks ok e i v) -> fl' i = T i.
Proof.
  intros O TW O1 LI NB. induction O as [fl|fl e evs fl' NA O IH|fl b k n j evs fl' HN E O IH|fl b k n j fl1 evs fl' HN OK NQ SW O IH|fl b c j fl1 evs fl' HN OK SW O IH]; intros H.
  - destruct H as [H|(e & [] & _)]; auto.
  - apply IH; [intros e' i' v' I'; apply TW; now right|]. destruct H as [H|(e' & [->|I'] & v & A)]; auto; [destruct (NA _ _ A)|right; eauto].
  - assert (sign_value b = T j) as TJ by (eapply TW; [now left|constructor; auto]).
    apply IH; [intros e' i' v' I'; apply TW; now right|]. destruct H as [H|(e' & [<-|I'] & v & A)]; auto; [|right; eauto].
    left. rewrite (asks_i _ _ _ _ _ _ _ HN A). congruence.
  - assert (sign_value b = T j) as TJ by (eapply TW; [now left|constructor; auto]). rewrite TJ in SW.
    apply IH; [intros e' i' v' I'; apply TW; now right|]. destruct H as [H|(e' & [<-|I'] & v & A)]; [left|left|right; eauto].
    + eapply switched_toward; eauto.
    + eapply switched_toward; eauto. right. eapply asks_i; eauto.
  - assert (sign_value b = T j) as TJ by (eapply TW; [now left|constructor; auto]). rewrite TJ in SW.
    apply IH; [intros e' i' v' I'; apply TW; now right|]. destruct H as [H|(e' & [<-|I'] & v & A)]; [left|left|right; eauto].
    + eapply switched_toward; eauto.
    + eapply switched_toward; eauto. right. eapply asks_l; eauto.
Qed.
Lemma posix_no_letter c : ~ has_letter FPOSIX c.
Proof. intros (n & b & E). discriminate. Qed.
Lemma obeys_toward_brace it ok fl evs fl' T : obeys it ok fl evs fl' -> toward ok T evs -> one_editor T ->
  (T FBRACEEXPAND = 0%Z \/ T FPOSIX = 0%Z \/ fl FPOSIX = T FPOSIX) ->
  (fl FBRACEEXPAND = T FBRACEEXPAND \/ exists e, In e evs /\ exists v, asks ok e FBRACEEXPAND v) -> fl' FBRACEEXPAND = T FBRACEEXPAND.
Proof.
  intros O TW O1. assert (~ has_name FPOSIX (L "braceexpand")) as PB by (rewrite brace_iff; discriminate).
  assert (forall fl j fl1, switched it fl j (T j) fl1 ->
    (T FBRACEEXPAND = 0%Z \/ T FPOSIX = 0%Z \/ fl FPOSIX = T FPOSIX) ->
    (j = FPOSIX -> fl FPOSIX <> T FPOSIX) ->
    (fl FBRACEEXPAND = T FBRACEEXPAND \/ j = FBRACEEXPAND) -> fl1 FBRACEEXPAND = T FBRACEEXPAND) as SB.
  { intros f j f1 SW C NP H. destruct (Nat.eq_dec j FBRACEEXPAND) as [->|NE]; [apply SW|].
    destruct H as [H|H]; [|contradiction]. destruct SW as (A1 & A2 & A3 & A4 & A5).
    destruct (Nat.eq_dec j FPOSIX) as [->|NPX].
    - destruct (Z.eq_dec (T FPOSIX) 0) as [Z|Z].
      + rewrite A5; auto; intros X; try tauto. destruct X as (_ & _ & X). discriminate.
      + specialize (NP eq_refl). rewrite (A3 Z name_posix FBRACEEXPAND name_brace). destruct C as [C|[C|C]]; congruence.
    - rewrite A5; auto.
      + intros (_ & _ & X). apply editing_iff in X. cbv in X. lia.
      + intros (_ & X & _). apply posix_iff in X. auto.
      + intros (_ & _ & X). discriminate. }
  assert (forall fl j fl1, switched it fl j (T j) fl1 ->
    (T FBRACEEXPAND = 0%Z \/ T FPOSIX = 0%Z \/ fl FPOSIX = T FPOSIX) -> T FBRACEEXPAND = 0%Z \/ T FPOSIX = 0%Z \/ fl1 FPOSIX = T FPOSIX) as SP.
  { intros f j f1 SW [C|[C|C]]; auto. right. right. eapply switched_toward; eauto. unfold FPOSIX. lia. }
  induction O as [fl|fl e evs fl' NA O IH|fl b k n j evs fl' HN E O IH|fl b k n j fl1 evs fl' HN OK NQ SW O IH|fl b c j fl1 evs fl' HN OK SW O IH]; intros C H.
  - destruct H as [H|(e & [] & _)]; auto.
  - apply IH; auto; [intros e' i' v' I'; apply TW; now right|]. destruct H as [H|(e' & [->|I'] & v & A)]; auto; [destruct (NA _ _ A)|right; eauto].
  - assert (sign_value b = T j) as TJ by (eapply TW; [now left|constructor; auto]).
    apply IH; auto; [intros e' i' v' I'; apply TW; now right|]. destruct H as [H|(e' & [<-|I'] & v & A)]; auto; [|right; eauto].
    left. rewrite (asks_i _ _ _ _ _ _ _ HN A). congruence.
  - assert (sign_value b = T j) as TJ by (eapply TW; [now left|constructor; auto]). rewrite TJ in SW, NQ.
    apply IH; eauto; [intros e' i' v' I'; apply TW; now right|]. destruct H as [H|(e' & [<-|I'] & v & A)]; [left|left|right; eauto].
    + eapply SB; eauto. intros ->. auto.
    + eapply SB; eauto; [intros ->; auto|]. right. symmetry. eapply asks_i; eauto.
  - assert (sign_value b = T j) as TJ by (eapply TW; [now left|constructor; auto]). rewrite TJ in SW.
    assert (j = FPOSIX -> fl FPOSIX <> T FPOSIX) as NP by (intros ->; destruct (posix_no_letter _ HN)).
    apply IH; eauto; [intros e' i' v' I'; apply TW; now right|]. destruct H as [H|(e' & [<-|I'] & v & A)]; [left|left|right; eauto].
    + eapply SB; eauto.
    + eapply SB; eauto. right. symmetry. eapply asks_l; eauto.
Qed.
