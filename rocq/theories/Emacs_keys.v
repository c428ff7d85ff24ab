(** Keys and bindings (C64, C65). *)
From Verif Require Import Base Num_model Emacs_model Emacs_spec Emacs_proof Emacs_kill Emacs_pop.
From Coq Require Import ZArith Lia.

(** ** The bytes that are read *)
Lemma to_char_uchar : forall c, to_char (uchar c) = c.
Proof. intros c. pose proof (char_sweep (fun c => ceq (to_char (uchar c)) c) eq_refl c) as H. cbv beta in H. apply ceq_true. exact H. Qed.
Lemma uchar_range : forall c, (0 <= uchar c < 256)%Z.
Proof. intros c. unfold uchar. pose proof (nat_ascii_bounded c). lia. Qed.
Lemma uchar_to_char : forall z, (0 <= z < 256)%Z -> uchar (to_char z) = z.
Proof. intros z R. unfold uchar, to_char. rewrite Z.mod_small by exact R. rewrite nat_ascii_embedding by lia. lia. Qed.
Lemma getc_view : forall s, byte_ok s ->
  match view s with
  | [] => getc s = ((-1)%Z, with_in None None [] s)
  | c :: v => exists s', getc s = (uchar c, s') /\ byte_ok s' /\ unget s' = None /\ view s' = v /\ s' = with_in None None (input s') s
  end.
Proof.
  intros s (M & U). unfold view, getc, x_getc. rewrite M. destruct (unget s) as [z|] eqn:E; cbn.
  - rewrite uchar_to_char by exact U. eexists. split; [ reflexivity | ]. unfold byte_ok, view. cbn. sp; auto.
  - destruct (input s) as [|c i]; [ reflexivity | ]. eexists. split; [ reflexivity | ]. unfold byte_ok, view. cbn. sp; auto.
Qed.
Lemma conts_view : forall c n s, byte_ok s -> unget s = None -> exists r s', conts c n s = (r, s') /\ view s = r ++ view s' /\ byte_ok s' /\
  s' = with_in (unget s') None (input s') s /\ length r <= n - 1 /\ Forall goes_on r.
Proof.
  intros c n. induction n as [|n IH]; intros s B U.
  - exists [], s. cbn. sp; auto. destruct s; destruct B as (M & _); cbn in *; subst; reflexivity.
  - destruct n as [|n'].
    + exists [], s. cbn. sp; auto. destruct s; destruct B as (M & _); cbn in *; subst; reflexivity.
    + pose proof (conts_shape c (S (S n')) s) as CS. cbn [conts] in *. pose proof (getc_view s B) as G. destruct (view s) as [|x v] eqn:V.
      * rewrite G. cbn. eexists. eexists. split; [ reflexivity | ]. cbn. sp; auto; try lia. split; cbn; auto.
      * destruct G as (s1 & G & B1 & U1 & V1 & E1). rewrite G in *. pose proof (uchar_range x) as RX.
        replace (uchar x =? -1)%Z with false in * by (symmetry; apply Z.eqb_neq; lia).
        set (bad := _ || _ || _ || _ || _) in *. destruct bad eqn:BB.
        { eexists. eexists. split; [ reflexivity | ]. unfold ungetc. replace (uchar x <? 0)%Z with false by (symmetry; apply Z.ltb_ge; lia).
          unfold view, byte_ok. cbn. rewrite to_char_uchar. destruct B1 as (M1 & _). sp; auto; try lia.
          - f_equal. unfold view in V1. rewrite U1 in V1. cbn in V1. congruence.
          - rewrite E1. cbn. reflexivity. }
        { destruct (IH s1 B1 U1) as (r & s2 & C2 & V2 & B2 & E2 & L2 & _). rewrite C2 in CS. rewrite C2. eexists. eexists. split; [ reflexivity | ].
          destruct (CS _ _ eq_refl) as (_ & CL & _ & CG). sp; auto.
          - rewrite to_char_uchar. cbn [app]. congruence.
          - rewrite E2. cbn. rewrite E1. reflexivity. }
Qed.
Lemma getu8_view : forall s, byte_ok s ->
  match view s with
  | [] => getu8 s = (None, with_in None None [] s)
  | c :: v => exists b s', getu8 s = (Some (c :: b), s') /\ v = b ++ view s' /\ byte_ok s' /\ s' = with_in (unget s') None (input s') s /\
                length b <= 3 /\ Forall goes_on b /\ (nat_of_ascii c < 128 -> b = [] /\ unget s' = None)
  end.
Proof.
  intros s B. unfold getu8. pose proof (getc_view s B) as G. destruct (view s) as [|c v] eqn:V; [ rewrite G; reflexivity | ].
  destruct G as (s1 & G & B1 & U1 & V1 & E1). rewrite G. pose proof (uchar_range c) as RX. replace (uchar c =? -1)%Z with false by (symmetry; apply Z.eqb_neq; lia).
  match goal with |- context [conts _ ?x _] => set (n := x) end. assert (N : n <= 4) by (unfold n; repeat match goal with |- context [if ?b then _ else _] => destruct b end; lia).
  assert (A : nat_of_ascii c < 128 -> n = 1).
  { intros A. pose proof (char_sweep (fun c => implb (nat_of_ascii c <? 128) ((if (Z.land (uchar c) 248 =? 240)%Z && (uchar c <? 245)%Z then 4
             else if (Z.land (uchar c) 240 =? 224)%Z then 3 else if (Z.land (uchar c) 224 =? 192)%Z && (193 <? uchar c)%Z then 2 else 1) =? 1)) eq_refl c) as H. cbv beta in H.
    replace (nat_of_ascii c <? 128) with true in H by (symmetry; apply Nat.ltb_lt; exact A). cbn [implb] in H. apply Nat.eqb_eq in H. exact H. }
  destruct (conts_view (uchar c) n s1 B1 U1) as (r & s2 & C2 & V2 & B2 & E2 & L2 & F2). rewrite C2. exists r, s2. rewrite to_char_uchar. sp; auto; try lia; try congruence.
  - rewrite E2. rewrite E1. reflexivity.
  - intros Q. rewrite (A Q) in C2. cbn in C2. inversion C2. subst. auto.
Qed.

(** ** Finding a binding *)
Lemma look_skip : forall l l1 ks n m, (forall k, In k l1 -> ~ is_prefix l (seq_of k)) -> look l (l1 ++ ks) n m = look l ks n m.
Proof.
  intros l l1. induction l1 as [|k l1 IH]; intros ks n m H; [ reflexivity | ]. cbn [app look]. rewrite IH by (intros; apply H; right; assumption).
  destruct (_ <? _); [ reflexivity | ]. destruct (prefix l (seq_of k)) eqn:P; [ exfalso; apply (H k); [ left; reflexivity | apply prefix_iff; exact P ] | reflexivity ].
Qed.
Lemma look_none : forall l ks n m, (forall k, In k ks -> ~ is_prefix l (seq_of k)) -> look l ks n m = (n, m).
Proof. intros l ks n m H. rewrite <- (app_nil_r ks). rewrite look_skip by exact H. reflexivity. Qed.
Lemma is_prefix_len : forall a b, is_prefix a b -> length a <= length b.
Proof. intros a b (c & ->). rewrite app_length. lia. Qed.
Lemma is_prefix_refl : forall a, is_prefix a a. Proof. intros a. exists []. symmetry. apply app_nil_r. Qed.
Lemma is_prefix_trans : forall a b c, is_prefix a b -> is_prefix b c -> is_prefix a c.
Proof. intros a b c (x & ->) (y & ->). exists (x ++ y). symmetry. apply app_assoc. Qed.
Lemma look_found : forall ks k, prefix_free ks -> In k ks -> look (seq_of k) ks 0 None = (1, Some k).
Proof.
  intros ks k (_ & PF) I. destruct (in_split _ _ I) as (l1 & l2 & ->).
  assert (N : forall k', In k' (l1 ++ l2) -> ~ is_prefix (seq_of k) (seq_of k')) by (intros k' I'; apply (PF l1 k l2 k' eq_refl I')).
  rewrite look_skip by (intros k' I'; apply N; apply in_or_app; left; exact I'). cbn [look]. rewrite Nat.ltb_irrefl.
  replace (prefix (seq_of k) (seq_of k)) with true by (symmetry; apply prefix_iff; apply is_prefix_refl). rewrite Nat.eqb_refl. cbn.
  apply look_none. intros k' I'. apply N. apply in_or_app. right. exact I'.
Qed.
Lemma look_some : forall l ks n m k, In k ks -> is_prefix l (seq_of k) -> n < fst (look l ks n m).
Proof.
  intros l ks. induction ks as [|k0 ks IH]; intros n m k I P; [ destruct I | ]. cbn [look]. destruct I as [->|I].
  - replace (length (seq_of k) <? length l) with false by (symmetry; apply Nat.ltb_ge; apply is_prefix_len; exact P).
    replace (prefix l (seq_of k)) with true by (symmetry; apply prefix_iff; exact P). cbv zeta. destruct (1 <=? n); [ cbn; lia | ].
    match goal with |- context [look l ks (S n) ?m] => destruct (look l ks (S n) m) as (c, r) eqn:E; apply look_spec in E end. cbn [fst]. lia.
  - destruct (_ <? _); [ eapply IH; eauto | ]. destruct (prefix _ _); [ | eapply IH; eauto ]. cbv zeta. destruct (1 <=? n); [ cbn; lia | ].
    match goal with |- context [look l ks (S n) ?m] => pose proof (IH (S n) m k I P) end. lia.
Qed.
(** The keys so far are less than a binding has. *)
Lemma look_more : forall ks k l d z, prefix_free ks -> In k ks -> seq_of k = l ++ d :: z ->
  match look l ks 0 None with (O, _) => False | (1, Some _) => False | _ => True end.
Proof.
  intros ks k l d z (NE & PF) I E. assert (P : is_prefix l (seq_of k)) by (exists (d :: z); exact E).
  pose proof (look_some l ks 0 None k I P) as C. destruct (look l ks 0 None) as (c, r) eqn:LK. cbn [fst] in C. apply look_spec in LK. destruct LK as (_ & _ & [->|(k' & -> & I' & S')]).
  - destruct c as [|[|]]; auto; lia.
  - exfalso. destruct (in_split _ _ I') as (l1 & l2 & ->). apply (PF l1 k' l2 k eq_refl).
    + apply in_app_or in I. apply in_or_app. destruct I as [I|[I|I]]; auto. subst k'. rewrite S' in E. apply (f_equal (@length char)) in E. rewrite app_length in E. cbn in E. lia.
    + rewrite S'. exact P.
Qed.
(** One key of many *)
Definition what (e : env) (f : nat) (k : binding) (s : ed) : res turn :=
  match fn k, args k with
  | F_ins_string, Some m => Ok (TGo (with_last (Some F_ins_string) (with_arg None (with_in (unget s) (Some m) (input s) s))))
  | g, _ => do r <- run e f g (last (seq_of k) NUL) (arg s) s ; Ok (after (Some g) (func_beq g F_set_arg) r)
  end.
Lemma with_in_in : forall u m i u' m' i' s, with_in u m i (with_in u' m' i' s) = with_in u m i s. Proof. reflexivity. Qed.
Lemma key_seq : forall e k, prefix_free (keys e) -> In k (keys e) -> ascii_seq (seq_of k) -> length (seq_of k) <= line_max e ->
  forall z l d n f rest s, seq_of k = l ++ d :: z -> byte_ok s -> lit s = false -> view s = d :: z ++ rest -> length z < f ->
  exists s', key e f l n s = what e (f - length z) k s' /\ s' = with_in None None rest s.
Proof.
  intros e k PF I AS LM z. induction z as [|d' z IH]; intros l d n f rest s E B LT V F; (destruct f as [|f]; [ cbn in F; lia | ]); cbn [key].
  - pose proof (getu8_view s B) as G. rewrite V in G. destruct G as (b & s1 & G & VB & B1 & E1 & _ & _ & A). rewrite G.
    destruct A as (-> & U1); [ apply AS; rewrite E; apply in_or_app; right; left; reflexivity | ]. cbn in VB.
    assert (S1 : s1 = with_in None None rest s).
    { rewrite E1, U1. f_equal. rewrite VB. unfold view. rewrite U1. reflexivity. }
    rewrite <- E. replace (line_max e <? length (seq_of k)) with false by (symmetry; apply Nat.ltb_ge; exact LM).
    rewrite S1. cbn [lit with_in]. rewrite LT. rewrite (look_found _ k PF I). exists (with_in None None rest s). split; [ | reflexivity ].
    unfold what. cbn [length]. rewrite Nat.sub_0_r. cbn [macro with_in]. destruct (fn k); reflexivity.
  - pose proof (getu8_view s B) as G. rewrite V in G. destruct G as (b & s1 & G & VB & B1 & E1 & _ & _ & A). rewrite G.
    destruct A as (-> & U1); [ apply AS; rewrite E; apply in_or_app; right; left; reflexivity | ]. cbn [app] in VB.
    assert (E' : seq_of k = (l ++ [d]) ++ d' :: z) by (rewrite <- app_assoc; exact E).
    replace (line_max e <? length (l ++ [d])) with false by (symmetry; apply Nat.ltb_ge; rewrite E' in LM; rewrite app_length in LM; lia).
    assert (LT1 : lit s1 = false) by (rewrite E1; exact LT). rewrite LT1.
    assert (R : exists s', key e f (l ++ [d]) (S n) s1 = what e (S f - length (d' :: z)) k s' /\ s' = with_in None None rest s).
    { destruct (IH (l ++ [d]) d' (S n) f rest s1 E' B1 LT1 (eq_sym VB)) as (s' & K & ->); [ cbn in F; lia | ]. eexists. split; [ rewrite K; cbn [length]; replace (S f - S (length z)) with (f - length z) by lia; reflexivity | ].
      rewrite E1. reflexivity. }
    pose proof (look_more _ k (l ++ [d]) d' z PF I E') as LK. destruct (look (l ++ [d]) (keys e) 0 None) as ([|[|c]], [r|]); try contradiction; exact R.
Qed.
(** A key that begins no binding is inserted. *)
Lemma key_plain : forall e f s c v, byte_ok s -> 4 <= line_max e -> view s = c :: v -> lit s = true \/ unbound e c -> c <> NUL -> arg s = None ->
  exists b w s', v = b ++ w /\ length b <= 3 /\ Forall goes_on b /\ (nat_of_ascii c < 128 -> b = []) /\ key e (S f) [] 0 s = Ok (TGo s') /\ s' = with_last (if lit s then last_cmd s else None) (with_in (unget s') None (input s') (with_arg None (with_lit false (ins e (c :: b) s)))) /\ byte_ok s' /\ view s' = w.
Proof.
  intros e f s c v B LM V UN NN AR. cbn [key]. pose proof (getu8_view s B) as G. rewrite V in G. destruct G as (b & s1 & G & VB & B1 & E1 & LB & FB & AB). rewrite G. cbn [app].
  replace (line_max e <? length (c :: b)) with false by (symmetry; apply Nat.ltb_ge; cbn [length]; lia).
  exists b, (view s1).
  assert (INS : forall t x, with_in (unget x) None (input x) (ins e t s) = ins e t (with_in (unget x) None (input x) s)).
  { intros t x. unfold ins, do_ins. cbn [txt with_in]. destruct (_ <=? _); reflexivity. }
  assert (P : forall x, arg x = None -> match b with [] => x_insert e (match arg x with None => 1 | Some n => n end) c x | _ => ins e (c :: b) x end = ins e (c :: b) x).
  { intros x AX. destruct b; [ | reflexivity ]. rewrite AX. unfold x_insert. replace (is_nul c) with false; [ reflexivity | ]. symmetry. destruct (is_nul c) eqn:N; auto. exfalso. apply NN. apply ceq_true. exact N. }
  assert (LS : lit s1 = lit s) by (rewrite E1; reflexivity). assert (AS : arg s1 = None) by (rewrite E1; exact AR). rewrite LS.
  assert (LKN : lit s = false -> look (c :: b) (keys e) 0 None = (0, None)).
  { intros LF. destruct UN as [UN|UN]; [ congruence | ]. apply look_none. intros k I (z & Z). apply (UN k I (b ++ z)). exact Z. }
  assert (UI : forall t x, unget (ins e t x) = unget x /\ input (ins e t x) = input x /\ macro (ins e t x) = macro x /\ last_cmd (ins e t x) = last_cmd x) by (intros t x; unfold ins, do_ins; destruct (_ <=? _); cbn; auto).
  assert (INL : forall t x, ins e t (with_lit false x) = with_lit false (ins e t x)) by (intros t x; unfold ins, do_ins; cbn [txt with_lit]; destruct (_ <=? _); reflexivity).
  destruct (lit s) eqn:LT.
  - eexists. split; [ exact VB | ]. split; [ exact LB | ]. split; [ exact FB | ]. split; [ intros Q1; apply AB; exact Q1 | ]. split.
    { change (0 =? 0) with true; cbv iota; rewrite P by exact AS. unfold after. cbn [fst snd]. rewrite INL. reflexivity. }
    destruct (UI (c :: b) s1) as (U1 & U2 & U3 & U4). unfold byte_ok, view. cbn. rewrite U1, U2, U3. split; [ | split; [ exact B1 | reflexivity ] ].
    replace (last_cmd s1) with (last_cmd s) by (rewrite E1; reflexivity).
    rewrite E1 at 1. rewrite <- INS. unfold with_last, with_arg, with_lit, with_in. cbn. reflexivity.
  - rewrite LKN by reflexivity. eexists. split; [ exact VB | ]. split; [ exact LB | ]. split; [ exact FB | ]. split; [ intros Q1; apply AB; exact Q1 | ]. split.
    { change (0 =? 0) with true; cbv iota; rewrite P by exact AS. unfold after. cbn [fst snd]. reflexivity. }
    destruct (UI (c :: b) s1) as (U1 & U2 & U3 & U4). unfold byte_ok, view. cbn. rewrite U1, U2, U3. split; [ | split; [ exact B1 | reflexivity ] ].
    rewrite E1 at 1. rewrite <- INS. unfold with_last, with_arg, with_lit, with_in. cbn. f_equal. unfold ins, do_ins. destruct (_ <=? _); cbn; congruence.
Qed.

(** ** Typing a line *)
Lemma split_cont : forall b t k z w, t ++ k :: z = b ++ w -> Forall goes_on b -> nat_of_ascii k < 128 -> exists t', t = b ++ t' /\ w = t' ++ k :: z.
Proof.
  intros b. induction b as [|x b IH]; intros t k z w E F K; cbn in E; [ exists t; auto | ]. inversion F as [|? ? GX FB]. subst. destruct t as [|y t]; cbn in E; injection E as -> E.
  - unfold goes_on in *. lia.
  - destruct (IH t k z w E FB K) as (t' & -> & ->). exists t'. auto.
Qed.
Lemma typed_line : forall e f k l r rest, prefix_free (keys e) -> In k (keys e) -> ascii_seq (seq_of k) -> fn k = F_newline -> 4 <= line_max e ->
  length (seq_of k) <= line_max e -> length (seq_of k) <= S f ->
  forall m t pre s g, length t <= m -> no_nul t -> (forall c, In c t -> unbound e c) -> byte_ok s -> lit s = false -> arg s = None ->
  view s = t ++ seq_of k ++ rest -> txt s = l ++ pre ++ r -> cur s = length (l ++ pre) -> length (l ++ pre ++ t ++ r) < cap e -> length t < g ->
  exists s', edit e (S f) g s = Ok (TLine (l ++ pre ++ t ++ r ++ [NL]) s') /\ cur s' = length (l ++ pre ++ t) /\ view s' = rest /\ byte_ok s'.
Proof.
  intros e f k l r rest PF IK AS FN LM4 LM LF. destruct (seq_of k) as [|k1 kz] eqn:SK; [ exfalso; apply (proj1 PF k IK); exact SK | ].
  assert (K1 : nat_of_ascii k1 < 128) by (apply AS; left; reflexivity).
  intros m. induction m as [|m IH]; intros t pre s g LT NN UB_ B LI AR V T C FIT G; (destruct g as [|g]; [ lia | ]).
  - destruct t; [ | cbn in LT; lia ]. cbn [app] in *. cbn [edit].
    destruct (key_seq e k PF IK ltac:(rewrite SK; exact AS) ltac:(rewrite SK; exact LM) kz [] k1 0 (S f) rest s SK B LI V ltac:(cbn in LF; lia)) as (s' & K & S').
    rewrite K. unfold what. rewrite FN. subst s'. cbn [run]. unfold x_newline. cbn [txt with_in]. rewrite T.
    replace (cap e <=? length (l ++ pre ++ r)) with false by (symmetry; apply Nat.leb_gt; exact FIT). cbn. eexists. split.
    + rewrite <- !app_assoc. reflexivity.
    + cbn. rewrite app_nil_r. sp; auto. split; cbn; auto.
  - destruct t as [|c t].
    { apply (IH [] pre s (S g)); auto. cbn. lia. }
    cbn [edit]. inversion NN. subst. cbn [app] in V.
    destruct (key_plain e f s c _ B LM4 V (or_intror (UB_ c (or_introl eq_refl))) H1 AR) as (b & w & s' & VB & LB & FB & _ & K & E & B' & V').
    apply split_cont in VB; auto. destruct VB as (t' & -> & ->). rewrite K. cbn [then_].
    assert (INS : ins e (c :: b) s = with_txt (l ++ (pre ++ c :: b) ++ r) (length (l ++ pre ++ c :: b)) s).
    { rewrite ins_fits; [ | rewrite T; rewrite !app_length in *; cbn [length] in *; rewrite app_length in *; lia ]. rewrite T, C. rewrite (app_assoc l pre r), firstn_app_exact, skipn_app_exact. f_equal; [ rewrite <- !app_assoc; reflexivity | rewrite !app_length; lia ]. }
    apply Forall_app in H2. destruct H2 as (_ & N2).
    destruct (IH t' (pre ++ c :: b) s' g) as (s2 & E2 & C2 & V2 & B2); auto.
    + cbn in LT. rewrite app_length in LT. lia.
    + intros c' I'. apply UB_. right. apply in_or_app. right. exact I'.
    + rewrite E, INS. reflexivity.
    + rewrite E, INS. reflexivity.
    + rewrite E, INS. reflexivity.
    + rewrite E, INS. reflexivity.
    + replace (l ++ (pre ++ c :: b) ++ t' ++ r) with (l ++ pre ++ (c :: b ++ t') ++ r); [ exact FIT | ]. rewrite <- !app_assoc. cbn [app]. rewrite <- app_assoc. reflexivity.
    + cbn in G. rewrite app_length in G. lia.
    + exists s2. rewrite E2. sp; auto.
      * do 2 f_equal. rewrite <- !app_assoc. cbn [app]. rewrite <- app_assoc. reflexivity.
      * rewrite C2. f_equal. rewrite <- !app_assoc. reflexivity.
Qed.

(** ** The table *)
Lemma kb_match_iff : forall s ks, kb_match s ks = true <-> exists k, In k ks /\ is_prefix s (seq_of k).
Proof.
  intros s ks. unfold kb_match. rewrite existsb_exists. split; intros (k & I & H); exists k; (split; [ exact I | ]).
  - apply andb_true_iff in H. apply prefix_iff. apply H.
  - apply andb_true_iff. split; [ apply Nat.leb_le; apply is_prefix_len; exact H | apply prefix_iff; exact H ].
Qed.
Lemma add_free : forall g a s ks, prefix_free ks -> s <> [] -> (forall k, In k ks -> is_prefix (seq_of k) s -> seq_of k = s) -> prefix_free (kb_add g a s ks).
Proof.
  intros g a s ks (NE & PF) N H. unfold kb_add. destruct (kb_match s ks) eqn:M; [ split; assumption | ].
  assert (NM : forall k, In k ks -> ~ is_prefix s (seq_of k)) by (intros k I P; assert (X : kb_match s ks = true) by (apply kb_match_iff; exists k; auto); congruence).
  split.
  - intros k I. apply in_app_or in I. destruct I as [I|[<-|[]]]; [ apply NE; exact I | exact N ].
  - intros l1 k l2 k' E I'. assert (DL : l2 = [] \/ l2 <> []) by (destruct l2; [ left; reflexivity | right; discriminate ]). destruct DL as [->|L2].
    + apply app_inj_tail in E. destruct E as (<- & <-). rewrite app_nil_r in I'. cbn [seq_of]. apply NM. exact I'.
    + destruct (exists_last L2) as (l3 & x & ->). rewrite app_comm_cons, app_assoc in E. apply app_inj_tail in E. destruct E as (E & <-).
      rewrite app_assoc in I'. apply in_app_or in I'. destruct I' as [I'|[<-|[]]].
      * eapply PF; eassumption.
      * cbn [seq_of]. intros P. assert (IK : In k ks) by (rewrite E; apply in_or_app; right; left; reflexivity). pose proof (H k IK P) as Q.
        apply (NM k IK). rewrite Q. apply is_prefix_refl.
Qed.
Lemma free_sub : forall l1 k l2, prefix_free (l1 ++ k :: l2) -> prefix_free (l1 ++ l2).
Proof.
  intros l1 k l2 (NE & PF). split.
  - intros x I. apply NE. apply in_app_or in I. apply in_or_app. destruct I; [ left | right; right ]; assumption.
  - intros a x b y E I. assert (Q : exists a' b', l1 ++ k :: l2 = a' ++ x :: b' /\ In y (a' ++ b')).
    { revert a E I. induction l1 as [|z l1 IH]; intros a E I.
      - cbn in E. subst l2. exists (k :: a), b. split; [ reflexivity | right; exact I ].
      - destruct a as [|z' a]; cbn in E; inversion E; subst.
        + exists [], (l1 ++ k :: l2). split; [ reflexivity | ]. cbn in *. apply in_app_or in I. apply in_or_app. destruct I; [ left | right; right ]; assumption.
        + destruct I as [<-|I].
          * clear IH. assert (J : exists a' b', l1 ++ k :: l2 = a' ++ x :: b').
            { assert (IX : In x (l1 ++ k :: l2)). { assert (IY : In x (l1 ++ l2)) by (rewrite H1; apply in_or_app; right; left; reflexivity). apply in_app_or in IY. apply in_or_app. destruct IY; [ left | right; right ]; assumption. }
              apply in_split in IX. exact IX. }
            destruct J as (a' & b' & J). exists (z' :: a'), b'. split; [ cbn; rewrite J; reflexivity | left; reflexivity ].
          * destruct (IH ltac:(intros w Iw; apply NE; right; exact Iw)
                         ltac:(intros p q r s Eq Is; apply (PF (z' :: p) q r s); [ cbn; rewrite Eq; reflexivity | right; exact Is ]) a H1 I) as (a' & b' & Q1 & Q2).
            exists (z' :: a'), b'. split; [ cbn; rewrite Q1; reflexivity | right; exact Q2 ]. }
    destruct Q as (a' & b' & Q1 & Q2). eapply PF; eassumption.
Qed.
Lemma del_split : forall s ks, (exists l1 k l2, ks = l1 ++ k :: l2 /\ seq_of k = s /\ kb_del s ks = l1 ++ l2) \/ (kb_del s ks = ks /\ forall k, In k ks -> seq_of k <> s).
Proof.
  intros s ks. induction ks as [|k ks IH]; cbn [kb_del]; [ right; split; [ reflexivity | intros k [] ] | ]. destruct (str_eqb (seq_of k) s) eqn:E.
  - left. exists [], k, ks. sp; auto. apply str_eqb_true. exact E.
  - assert (NEQ : seq_of k <> s) by (intros Q; apply str_eqb_true in Q; congruence). destruct IH as [(l1 & k' & l2 & -> & Q & ->)|(-> & H)].
    + left. exists (k :: l1), k', l2. sp; auto.
    + right. split; [ reflexivity | ]. intros x [<-|I]; auto.
Qed.
Lemma del_free : forall s ks, prefix_free ks -> prefix_free (kb_del s ks).
Proof. intros s ks PF. destruct (del_split s ks) as [(l1 & k & l2 & -> & _ & ->)|(-> & _)]; [ eapply free_sub; eassumption | exact PF ]. Qed.
Lemma del_in : forall s ks b, prefix_free ks -> (In b (kb_del s ks) <-> In b ks /\ seq_of b <> s).
Proof.
  intros s ks b (NE & PF). destruct (del_split s ks) as [(l1 & k & l2 & -> & Q & ->)|(-> & H)].
  - split.
    + intros I. split; [ apply in_app_or in I; apply in_or_app; destruct I; [ left | right; right ]; assumption | ]. intros E. apply (PF l1 k l2 b eq_refl I). rewrite Q, E. apply is_prefix_refl.
    + intros (I & N). apply in_app_or in I. apply in_or_app. destruct I as [I|[->|I]]; auto. congruence.
  - split; [ intros I; split; auto | tauto ].
Qed.
Lemma encode_decode : forall s, (forall l c d r, s = l ++ c :: d :: r -> c = "^"%char -> is_cntrl d = false /\ ctrl_of d = false) -> encode (decode s) = s.
Proof.
  intros s. induction s as [|c s IH]; intros H; [ reflexivity | ].
  assert (H' : forall l c d r, s = l ++ c :: d :: r -> c = "^"%char -> is_cntrl d = false /\ ctrl_of d = false) by (intros l x d r E; apply (H (c :: l) x d r); rewrite E; reflexivity).
  cbn [decode]. destruct (is_cntrl c) eqn:CC.
  - pose proof (char_sweep (fun c => implb (is_cntrl c) (ctrl_of (unctrl c) && ceq (ctrl (unctrl c)) c)) eq_refl c) as W. cbv beta in W. rewrite CC in W. cbn [implb] in W.
    apply andb_true_iff in W. destruct W as (W1 & W2). apply ceq_true in W2. cbn [encode]. rewrite ceq_refl, W1, W2. f_equal. apply IH. exact H'.
  - cbn [encode]. destruct (ceq c "^") eqn:K; [ | f_equal; apply IH; exact H' ]. apply ceq_true in K. subst c. destruct s as [|d s]; [ reflexivity | ].
    destruct (H [] "^"%char d s eq_refl eq_refl) as (D1 & D2). specialize (IH H'). cbn [decode] in *. rewrite D1 in *. rewrite D2. f_equal. exact IH.
Qed.
