(** The fields the items give. *)
From Verif Require Import Base Num_model Glob_model Trim_model Trim_spec Trim_proof Word_model Expand_model Expand_spec Expand_proof.

Lemma ifsws_white c : c_ifsws c = white c.
Proof. pose proof (char_sweep (fun c => Bool.eqb (c_ifsws c) (white c)) eq_refl c) as H. cbv beta in H. now apply Bool.eqb_prop. Qed.
Lemma filter_closed (cur : option (list tok)) : filter nonempty (closed cur) = filter nonempty [opened cur].
Proof. destruct cur; reflexivity. Qed.
Lemma fields_open n : forall its cur cur', (length its <= n)%nat -> opened cur = opened cur' -> filter nonempty (fields cur its) = filter nonempty (fields cur' its).
Proof.
  induction n as [|n IH]; intros its cur cur' HL Q; (destruct its as [|i r]; [cbn; rewrite !filter_closed; congruence|]); cbn in HL; [lia|].
  assert (IH' : forall c c', opened c = opened c' -> filter nonempty (fields c r) = filter nonempty (fields c' r)) by (intros; apply IH; auto; lia).
  destruct i as [f t|c| | | | | | |l|]; cbn [fields].
  - now rewrite Q.
  - rewrite !filter_app, !filter_closed, Q. reflexivity.
  - destruct r as [|[] r]; apply IH'; cbn; congruence.
  - auto.
  - apply IH'. cbn. congruence.
  - auto.
  - auto.
  - auto.
  - destruct l as [|a l]; [auto|]. now rewrite Q.
  - rewrite !filter_app, !filter_closed, Q. reflexivity.
Qed.
Lemma fields_quo cur r : filter nonempty (fields cur (Quo :: r)) = filter nonempty (fields cur r).
Proof.
  cbn [fields]. destruct r as [|[] r]; try (eapply fields_open; [apply Nat.le_refl|reflexivity]). reflexivity.
Qed.

(** * All words: the fields that have text *)
Lemma nonempty_fields its : forall s cur, opened cur = icur s -> (icur s <> [] -> iw s = WORD) ->
  filter nonempty (ifinish (irun true s its)) = filter nonempty (idone s) ++ filter nonempty (fields cur its).
Proof.
  induction its as [|i r IH]; intros s cur Q INV.
  - cbn. unfold ifinish. rewrite filter_app. f_equal. rewrite filter_closed, Q. destruct (icur s) as [|t ts] eqn:C; [now destruct (iw s)|]. rewrite INV by discriminate. reflexivity.
  - cbn [irun fold_left]. fold (irun true (istep true s i) r). destruct i as [f t|c| | | | | | |l|].
    + rewrite (IH _ (Some (opened cur ++ [t]))); [|cbn; now rewrite Q|reflexivity]. cbn [istep idone fields]. rewrite filter_app.
      replace (filter nonempty (match f, iw s, icur s with true, NWS, [] => [[]] | _, _, _ => [] end)) with (@nil (list tok)); [now rewrite app_nil_r|].
      destruct f, (iw s), (icur s); reflexivity.
    + cbn [istep]. unfold isep. cbn [fields]. rewrite filter_app, filter_closed, Q.
      set (b := match iw s with WORD | QUOTE => true | IWS | NWS => negb (c_ifsws c) | WS => false end).
      destruct b eqn:B.
      * rewrite (IH _ None); [|reflexivity|now intros []]. cbn [iflush idone]. rewrite filter_app, <- app_assoc. reflexivity.
      * assert (C : icur s = []). { destruct (icur s) as [|t ts]; auto. unfold b in B. rewrite INV in B by discriminate. discriminate. }
        rewrite (IH _ None); [|cbn; auto|cbn; rewrite C; now intros []]. cbn [idone]. now rewrite C.
    + rewrite (IH _ cur); [|exact Q|]. 2: { cbn. intros N. now rewrite (INV N). }
      cbn [istep idone]. rewrite fields_quo. reflexivity.
    + rewrite (IH _ cur); auto.
    + rewrite (IH _ (Some (opened cur))); [reflexivity|cbn; auto|reflexivity].
    + rewrite (IH _ cur); [reflexivity|exact Q|]. cbn. intros N. now rewrite (INV N).
    + rewrite (IH _ cur); cbn [istep].
      * destruct (icur s), (iw s); reflexivity.
      * destruct (icur s) eqn:C, (iw s) eqn:W; cbn; congruence.
      * destruct (icur s) eqn:C, (iw s) eqn:W; cbn; rewrite ?C, ?W; auto; try (now intros []); try (intros; apply INV; discriminate).
    + rewrite (IH _ cur); cbn [istep].
      * destruct (icur s); reflexivity.
      * destruct (icur s) eqn:C; cbn; congruence.
      * destruct (icur s) eqn:C; cbn; [now intros []|]. rewrite C. auto.
    + destruct l as [|a l]; [cbn [istep fields]; apply IH; auto|].
      rewrite (IH _ (Some (last ((opened cur ++ a) :: l) []))); cbn [istep icur iw]; [|cbn; now rewrite Q|reflexivity].
      cbn [idone fields]. rewrite !filter_app, Q, <- app_assoc. reflexivity.
    + cbn [istep fields]. rewrite filter_app, filter_closed, Q. destruct (iw s) eqn:W.
      2: { assert (C : icur s = []). { destruct (icur s) as [|t ts]; auto. discriminate INV. intros [=]. }
           rewrite (IH _ None); [|cbn; auto|rewrite C; now intros []]. now rewrite C. }
      all: rewrite (IH _ None); [|reflexivity|now intros []]; cbn [iflush idone]; rewrite filter_app, <- app_assoc; reflexivity.
Qed.

(** * Exact fields *)
Definition at_place (p : place) (s : ist) (cur : option (list tok)) : Prop :=
  match p with
  | Between => iw s = WS /\ icur s = [] /\ cur = None
  | AfterAlt => iw s = IWS /\ icur s = [] /\ cur = None
  | AfterMark => iw s = NWS /\ icur s = [] /\ cur = None
  | Quoted => iw s = QUOTE /\ icur s = [] /\ cur = Some []
  | Empty => iw s = WORD /\ icur s = [] /\ cur = Some []
  | Text => iw s = WORD /\ icur s <> [] /\ cur = Some (icur s)
  end.
Lemma exact_at n : forall its p s cur, (length its <= n)%nat -> at_place p s cur -> tame p its = true ->
  ifinish (irun true s its) = idone s ++ fields cur its.
Proof.
  assert (NE : forall (l : list tok) x, l ++ [x] <> []) by (intros [|] ? [=]).
  induction n as [|n IH]; intros its p s cur HL H T; destruct its as [|i r].
  1,3: destruct p; cbn in H; destruct H as (W & C & ->); unfold ifinish; cbn; rewrite W; now rewrite ?C.
  1: cbn [length] in HL; lia. cbn [length] in HL.
  assert (LR : (length r <= n)%nat) by lia. destruct s as [w c0 dn]. cbn [irun fold_left]. fold (irun true (istep true (I w c0 dn) i) r).
  destruct i as [f t|c| | | | | | |l|]; cbn [fields].
  - destruct p; cbn in H; destruct H as (-> & C & ->); cbn [tame] in T; cbn [istep iw icur idone opened];
      try (rewrite (IH r Text _ (Some (c0 ++ [t])) LR); [cbn [idone]; subst; destruct f; rewrite ?app_nil_r; reflexivity|cbn; auto|now destruct f]).
    subst. destruct f; [discriminate|]. rewrite (IH r Text _ (Some [t]) LR); cbn; rewrite ?app_nil_r; auto. repeat split; auto. discriminate.
  - cbn [tame] in T. destruct (white c) eqn:WH.
    + destruct p; cbn in H; destruct H as (-> & C & ->); cbn [istep]; unfold isep, ws_after; rewrite ifsws_white, WH; cbn [negb iw icur idone iflush closed];
        (erewrite (IH r _ _ None LR); [| |exact T]); cbn; rewrite ?app_nil_r, <- ?app_assoc; subst; auto.
    + destruct p; try discriminate; cbn in H; destruct H as (-> & C & ->); cbn [istep]; unfold isep, ws_after; rewrite ifsws_white, WH; cbn [negb iw icur idone iflush closed];
        (erewrite (IH r _ _ None LR); [| |exact T]); cbn; rewrite ?app_nil_r, <- ?app_assoc; subst; auto.
  - destruct r as [|i r']; [|destruct (match i with Null => true | _ => false end) eqn:NL].
    + destruct p; cbn in H; destruct H as (-> & C & ->); cbn; subst; auto.
    + destruct i; try discriminate. cbn [tame] in T. cbn [irun fold_left]. cbn [length] in LR. assert (LR' : (length r' <= n)%nat) by lia.
      match goal with |- context [fold_left _ r' ?s0] => change (fold_left (istep true) r' s0) with (irun true s0 r') end.
      destruct p; cbn in H; destruct H as (-> & C & ->); cbn [istep iw icur idone];
        (erewrite (IH r' _ _ _ LR'); [| |exact T]); subst; try (destruct c0; [now destruct C|]); cbn; auto; repeat split; auto; discriminate.
    + assert (Q : fields cur (Quo :: i :: r') = fields (Some (opened cur)) (i :: r')) by (destruct i; try discriminate; reflexivity).
      cbn [fields] in Q. cbn [fields]. rewrite Q.
      assert (T' : tame (match p with Text => Text | Quoted | Empty => Empty | _ => Quoted end) (i :: r') = true) by (destruct i; try discriminate; exact T).
      erewrite (IH (i :: r') _ _ _ LR); [| |exact T']; [reflexivity|]. destruct p; cbn in H; destruct H as (-> & C & ->); cbn; subst; auto.
  - cbn [tame istep] in *. eauto.
  - cbn [tame] in T. erewrite (IH r _ _ _ LR); [| |exact T]; [reflexivity|]. destruct p; cbn in H; destruct H as (-> & C & ->); cbn; subst; auto.
  - cbn [tame] in T. erewrite (IH r _ _ _ LR); [| |exact T]; [reflexivity|]. destruct p; cbn in H; destruct H as (-> & C & ->); cbn; subst; auto.
  - cbn [tame] in T. destruct p; try discriminate; cbn in H; destruct H as (-> & C & ->); cbn [istep iw icur idone];
      (erewrite (IH r _ _ _ LR); [| |exact T]); subst; try (destruct c0; [now destruct C|]); cbn; auto; repeat split; auto; discriminate.
  - cbn [tame] in T. destruct p; try discriminate; cbn in H; destruct H as (-> & C & ->); cbn [istep iw icur idone];
      (erewrite (IH r _ _ _ LR); [| |exact T]); subst; try (destruct c0; [now destruct C|]); cbn; auto; repeat split; auto; discriminate.
  - destruct l as [|a l]; cbn [tame istep] in *; [eauto|].
    assert (O : c0 = opened cur) by (destruct p; cbn in H; destruct H as (_ & C & ->); auto).
    cbn [iw icur idone]. rewrite O. erewrite (IH r _ _ _ LR); [| |exact T].
    + cbn [idone]. rewrite <- app_assoc. reflexivity.
    + destruct l as [|b l]; cbn [last].
      * assert (PT : (match p with Text => true | _ => false end) = nonempty c0) by (destruct p; cbn in H; destruct H as (_ & C & ->); subst; auto; now destruct c0).
        rewrite PT, O. destruct (opened cur ++ a) as [|x xs] eqn:Q; [apply app_eq_nil in Q as [-> ->]; cbn; auto|].
        replace (nonempty (opened cur) || nonempty a) with true by (destruct (opened cur), a; auto; discriminate). cbn. repeat split; auto. discriminate.
      * set (z := match l with [] => b | _ => _ end). destruct z eqn:Z; cbn; repeat split; auto; try discriminate.
  - cbn [tame] in T. destruct p; try discriminate; cbn in H; destruct H as (-> & C & ->); cbn [istep iw icur idone iflush closed];
      (erewrite (IH r _ _ None LR); [| |exact T]); cbn; rewrite ?app_nil_r, <- ?app_assoc; subst; auto.
Qed.
Lemma exact_fields its : tame Between its = true -> ifinish (irun true (I WS [] []) its) = fields None its.
Proof. intros T. rewrite (exact_at _ its Between _ None (Nat.le_refl _)); cbn; auto. Qed.

(** * Nothing is lost *)
Lemma concat_nonempty {A} (l : list (list A)) : concat (filter nonempty l) = concat l.
Proof. induction l as [|[|x a] l IH]; cbn; auto. now rewrite IH. Qed.
Lemma concat_removelast (l : list (list tok)) : l <> [] -> concat (removelast l) ++ last l [] = concat l.
Proof.
  intros H. rewrite (app_removelast_last [] H) at 3. rewrite concat_app. cbn. now rewrite app_nil_r.
Qed.
Lemma concat_closed cur : concat (closed cur) = opened cur.
Proof. destruct cur; cbn; auto. apply app_nil_r. Qed.
Lemma concat_fields n : forall its cur, (length its <= n)%nat -> concat (fields cur its) = opened cur ++ texts its.
Proof.
  induction n as [|n IH]; intros its cur HL; (destruct its as [|i r]; [cbn; rewrite concat_closed, app_nil_r; reflexivity|]); cbn [length] in HL; [lia|].
  assert (LR : (length r <= n)%nat) by lia. destruct i as [f t|c| | | | | | |l|]; cbn [fields texts flat_map].
  - rewrite (IH r _ LR). cbn [opened]. now rewrite <- app_assoc.
  - rewrite concat_app, concat_closed, (IH r _ LR). reflexivity.
  - assert (Q : concat (fields cur (Quo :: r)) = opened cur ++ texts r); [|exact Q].
    cbn [fields]. destruct r as [|[] r]; try (rewrite (IH _ _ LR); reflexivity). apply (IH (Null :: r) cur LR).
  - apply (IH r _ LR).
  - rewrite (IH r _ LR). reflexivity.
  - apply (IH r _ LR).
  - apply (IH r _ LR).
  - apply (IH r _ LR).
  - destruct l as [|a l]; [apply (IH r _ LR)|]. rewrite concat_app, (IH r _ LR). cbn [opened].
    rewrite app_assoc, concat_removelast by discriminate. cbn [concat]. rewrite <- !app_assoc. reflexivity.
  - rewrite concat_app, concat_closed, (IH r _ LR). reflexivity.
Qed.
Lemma nothing_lost its : concat (ifinish (irun true (I WS [] []) its)) = texts its.
Proof.
  rewrite <- concat_nonempty, (nonempty_fields _ _ None) by (auto; now intros []). cbn. rewrite concat_nonempty. now rewrite (concat_fields _ _ None (Nat.le_refl _)).
Qed.

(** * Where fields are not split *)
Definition is_sep (i : item) : bool := match i with Sep _ | Brk | Args (_ :: _ :: _) => true | _ => false end.
Definition none (g : item -> bool) (its : list item) : bool := negb (existsb g its).
Lemma none_cons g i r : none g (i :: r) = true -> g i = false /\ none g r = true.
Proof. unfold none. cbn. intros H. apply negb_true_iff, orb_false_iff in H as [H1 H2]. split; auto. now apply negb_true_iff. Qed.
Lemma none_app g a b : none g (a ++ b) = none g a && none g b.
Proof. unfold none. now rewrite existsb_app, negb_orb. Qed.
Definition wok (s : ist) : Prop := iw s = WORD \/ ((iw s = QUOTE \/ iw s = IWS) /\ icur s = []).
Lemma whole_run its : forall s, none is_sep its = true -> wok s ->
  idone (irun false s its) = idone s /\ icur (irun false s its) = icur s ++ texts its /\ wok (irun false s its).
Proof.
  induction its as [|i r IH]; intros s N W; [cbn; rewrite app_nil_r; auto|]. apply none_cons in N as [N1 N]. cbn [irun fold_left]. fold (irun false (istep false s i) r).
  assert (ST : idone (istep false s i) = idone s /\ icur (istep false s i) = icur s ++ texts [i] /\ wok (istep false s i)).
  { destruct s as [w c dn]. destruct W as [W|[[W|W] C]]; cbn in W |- *; subst w; destruct i as [f t|c1| | | | | | |l|]; try discriminate; cbn [istep texts flat_map iw icur idone app]; unfold wok;
      cbn in *; rewrite ?app_nil_r; subst; auto;
      try (destruct f; rewrite ?app_nil_r; auto; fail); try (destruct c; cbn; auto; fail);
      try (destruct l as [|a [|b l]]; try discriminate; cbn; rewrite ?app_nil_r); auto 10.
    destruct c; cbn; auto 10. }
  destruct ST as (S1 & S2 & S3). destruct (IH _ N S3) as (R1 & R2 & R3). rewrite R1, R2, S1, S2, <- app_assoc. repeat split; auto.
  f_equal. cbn. now rewrite app_nil_r.
Qed.
Lemma whole_fields its : none is_sep its = true -> 
  ifinish (irun false (I WORD [] []) its) = [texts its] \/ (texts its = [] /\ ifinish (irun false (I WORD [] []) its) = []).
Proof.
  intros N. destruct (whole_run its (I WORD [] []) N) as (D & C & W); [now left|]. unfold ifinish. rewrite D, C. cbn. destruct W as [->|[[->| ->] C2]]; auto.
  right. split; auto. now rewrite C in C2.
Qed.
(** * One value, any IFS *)
Section Value.
Context {E : Type}.
Variables (y : sys E) (e : E).
Notation w := (ifs y e).
Notation it f s := (chars y true false e f s).
Lemma sep_is c : sep_at y true false e c = mem c w.
Proof. reflexivity. Qed.
Lemma posix_run s : forall n dn, (length s < n)%nat ->
  (forall cur, ifinish (irun true (I WORD cur dn) (it false s)) = dn ++ (let '(a, b) := upto_ifs w s in (cur ++ map TU a) :: map (map TU) (posix_fields n w (after_delim w b)))) /\
  ifinish (irun true (I WS [] dn) (it false s)) = dn ++ map (map TU) (posix_fields n w (after_delim w s)) /\
  ifinish (irun true (I NWS [] dn) (it false s)) = dn ++ map (map TU) (posix_fields n w (skip_white w s)).
Proof.
  induction s as [|c r IH]; intros n dn HL.
  { destruct n; [cbn in HL; lia|]. cbn. unfold ifinish. cbn. repeat split; intros; now rewrite ?app_nil_r. }
  cbn [length] in HL. destruct n as [|n]; [lia|]. cbn [chars upto_ifs]. rewrite sep_is. destruct (mem c w) eqn:M.
  - cbn [irun fold_left istep]. unfold isep, ws_after, after_delim, non. cbn [skip_white iw icur idone]. rewrite M. rewrite ?ifsws_white. destruct (white c) eqn:W; cbn [negb andb iw icur idone iflush].
    + repeat split; [intros cur|..].
      * destruct (IH (S n) (dn ++ [cur]) ltac:(lia)) as (_ & H & _). etransitivity; [exact H|]. rewrite <- app_assoc, app_nil_r. reflexivity.
      * destruct (IH (S n) dn ltac:(lia)) as (_ & H & _). exact H.
      * destruct (IH (S n) dn ltac:(lia)) as (_ & _ & H). exact H.
    + rewrite M, W. cbn [negb andb]. repeat split; [intros cur|..].
      * destruct (IH (S n) (dn ++ [cur]) ltac:(lia)) as (_ & _ & H). etransitivity; [exact H|]. rewrite <- app_assoc, app_nil_r. reflexivity.
      * destruct (IH (S n) dn ltac:(lia)) as (_ & _ & H). exact H.
      * destruct (IH n (dn ++ [[]]) ltac:(lia)) as (_ & _ & H). etransitivity; [exact H|]. cbn [posix_fields upto_ifs]. rewrite M. unfold after_delim, non. cbn [skip_white]. rewrite M, W. cbn [negb andb].
        rewrite M, W. cbn [negb andb map]. rewrite <- app_assoc. reflexivity.
  - assert (SK : skip_white w (c :: r) = c :: r) by (cbn; now rewrite M). assert (AD : after_delim w (c :: r) = c :: r) by (unfold after_delim, non; now rewrite SK, M).
    rewrite SK, AD. cbn [irun fold_left istep tk iw icur idone]. rewrite !app_nil_r.
    assert (WD : forall k cur, (length r < k)%nat -> ifinish (irun true (I WORD (cur ++ [TU c]) dn) (it false r)) = dn ++ (let '(a, b) := upto_ifs w r in (cur ++ map TU (c :: a)) :: map (map TU) (posix_fields k w (after_delim w b)))).
    { intros k cur HK. destruct (IH k dn HK) as (H & _). rewrite H. destruct (upto_ifs w r). cbn. now rewrite <- app_assoc. }
    repeat split; [intros cur|..].
    + specialize (WD (S n) cur ltac:(lia)). unfold irun in WD. etransitivity; [exact WD|]. destruct (upto_ifs w r). reflexivity.
    + specialize (WD n [] ltac:(lia)). unfold irun in WD. etransitivity; [exact WD|]. cbn [posix_fields upto_ifs]. rewrite M. destruct (upto_ifs w r). reflexivity.
    + specialize (WD n [] ltac:(lia)). unfold irun in WD. etransitivity; [exact WD|]. cbn [posix_fields upto_ifs]. rewrite M. destruct (upto_ifs w r). reflexivity.
Qed.
Lemma posix_owed s : forall n dn, (length s < n)%nat -> existsb (fun c => negb (mem c w)) s = true ->
  ifinish (irun true (I NWS [] dn) (it true s)) = dn ++ [] :: map (map TU) (posix_fields n w (skip_white w s)).
Proof.
  induction s as [|c r IH]; intros n dn HL X; [discriminate|]. cbn [length] in HL. destruct n as [|n]; [lia|]. cbn [chars]. rewrite sep_is. cbn [existsb] in X. destruct (mem c w) eqn:M.
  - cbn [negb orb] in X. cbn [irun fold_left istep]. unfold isep, ws_after. cbn [skip_white iw icur idone]. rewrite M. rewrite ?ifsws_white. destruct (white c) eqn:W; cbn [negb andb iw icur idone iflush].
    + apply (IH (S n) dn); auto. lia.
    + etransitivity; [apply (IH n (dn ++ [[]])); auto; lia|]. rewrite <- app_assoc. cbn [posix_fields upto_ifs]. rewrite M. unfold after_delim, non. cbn [skip_white]. rewrite M, W. cbn [negb andb].
      rewrite M, W. reflexivity.
  - cbn [skip_white]. rewrite M. cbn [andb irun fold_left istep tk iw icur idone app posix_fields upto_ifs]. rewrite M.
    destruct (posix_run r n (dn ++ [[]]) ltac:(lia)) as (H & _). etransitivity; [apply (H [TU c])|]. destruct (upto_ifs w r). cbn. now rewrite <- app_assoc.
Qed.
Lemma posix_value s : existsb (fun c => negb (mem c w)) s || forallb (fun c => negb (non c w)) s = true ->
  forall n, (length s < n)%nat -> ifinish (irun true (I WS [] []) (it true s)) = map (map TU) (posix_fields n w (skip_white w s)).
Proof.
  induction s as [|c r IH]; intros X n HL.
  { destruct n; [cbn in HL; lia|]. reflexivity. }
  cbn [length] in HL. destruct n as [|n]; [lia|]. cbn [chars]. rewrite sep_is. cbn [existsb forallb] in X. unfold non in X at 1. destruct (mem c w) eqn:M; cbn [negb orb andb] in X.
  - cbn [irun fold_left istep]. unfold isep, ws_after. cbn [skip_white iw icur idone]. rewrite M. rewrite ?ifsws_white. destruct (white c) eqn:W; cbn [negb andb iw icur idone iflush] in X |- *.
    + apply IH; auto. lia.
    + rewrite orb_false_r in X. etransitivity; [apply (posix_owed r n []); auto; lia|]. cbn [posix_fields upto_ifs app]. rewrite M. unfold after_delim, non. cbn [skip_white]. rewrite M, W. cbn [negb andb].
      rewrite M, W. reflexivity.
  - cbn [skip_white]. rewrite M. cbn [andb irun fold_left istep tk iw icur idone app posix_fields upto_ifs]. rewrite M.
    destruct (posix_run r n [] ltac:(lia)) as (H & _). etransitivity; [apply (H [TU c])|]. destruct (upto_ifs w r). reflexivity.
Qed.
End Value.

(** * The second pass *)
Lemma emit_plain_ p b (c : char) : magic_tok p (TU c) = false -> b && ceq c "{" = false -> emit p b false (TU c) = ([c], false).
Proof.
  revert c. assert (X : forall c, implb (negb (magic_tok p (TU c)) && negb (b && ceq c "{")) (str_eqb (fst (emit p b false (TU c))) [c] && negb (snd (emit p b false (TU c)))) = true).
  { apply char_sweep. destruct p, b; vm_compute; reflexivity. }
  intros c H1 H2. specialize (X c). rewrite H1, H2 in X. cbn [negb andb implb] in X. apply andb_true_iff in X as [X1 X2]. apply str_eqb_true in X1. apply negb_true_iff in X2.
  destruct (emit p b false (TU c)) as [x1 x2]. cbn [fst snd] in *. now subst.
Qed.
Lemma emits_quiet p b ts : existsb (magic_tok p) ts = false -> brace_seen b ts = false -> emits p b false ts = ftext ts.
Proof.
  induction ts as [|t ts IH]; intros H1 H2; [reflexivity|]. cbn [existsb brace_seen] in H1, H2. apply orb_false_iff in H1 as [M1 M2]. apply orb_false_iff in H2 as [B1 B2].
  cbn [emits ftext flat_map]. destruct t; cbn [magic_tok] in M1; try discriminate.
  - cbn [emit]. rewrite M1. cbn. f_equal. now apply IH.
  - rewrite emit_plain_; auto. cbn. f_equal. now apply IH.
Qed.
Lemma second_of fl ts : forallb tok_ok ts = true -> pat fl = false -> glob fl && existsb is_glob_tok ts = false -> brace_seen (brace fl) ts = false ->
  second (raw_of fl ts) = Some (ftext ts).
Proof.
  intros K P G B. unfold second, raw_of. cbn [r_brace r_glob r_pat r_magic r_text]. rewrite P, G, B, !orb_false_r. cbn [orb].
  destruct (existsb (magic_tok (glob fl)) ts) eqn:M; cbn [negb]; [now rewrite debunk_emits|]. now rewrite emits_quiet.
Qed.
Lemma second_quoted fl (s : cstr) : nul_free s = true -> pat fl = false -> second (raw_of fl (map TQ s)) = Some s.
Proof.
  intros N P. assert (X : forall (s : cstr), ftext (map TQ s) = s) by (intros z; unfold ftext; induction z; cbn; congruence). rewrite second_of, X; auto.
  - unfold nul_free in N. rewrite forallb_forall in *. intros t HT. apply in_map_iff in HT as (c & <- & HC). exact (N c HC).
  - rewrite <- (andb_false_r (glob fl)). f_equal. induction s; cbn; auto. apply IHs. cbn in N. now apply andb_true_iff in N.
  - unfold brace_seen. induction s; cbn; auto. apply IHs. cbn in N. now apply andb_true_iff in N.
Qed.

(** * What the items of a word are *)
Ltac sems H := repeat match type of H with
  | match ?x with _ => _ end = Some _ => let Q := fresh "Q" in destruct x eqn:Q; try discriminate H
  | (if ?x then _ else _) = Some _ => let Q := fresh "Q" in destruct x eqn:Q; try discriminate H
  end.
Ltac its_of H := apply (f_equal (fun x : option (list item * _) => match x with Some (i, _) => i | None => [] end)) in H; cbv beta iota in H; rewrite <- H; clear H.
Section Items.
Context {E : Type}.
Variables (y : sys E) (bl : bool).
Section All.
Variable g : item -> bool.
Hypothesis (G1 : forallb g [Quo; Unq; Full; Begin; Null; Alt; Txt false TBar; Txt false TClose] = true).
Hypothesis (G2 : forall c, mem c (L "*+?@!") = true -> g (Txt false (TOpen c)) = true).
Hypothesis (G3 : forall q e c f, negb (is_nul c) = true -> g (if sep_at y bl q e c then Sep c else Txt f (tk q c)) = true).
Hypothesis (G4 : forall f q c, negb (is_nul c) = true -> g (Txt f (tk q c)) = true).
Hypothesis (G5 : forall e q v n, kind y e n = Some v -> forallb g (subst y bl q e v) = true).
Hypothesis (Y : sys_ok y).
Lemma chars_all q e s : nul_free s = true -> forall f, forallb g (chars y bl q e f s) = true.
Proof.
  induction s as [|c r IH]; intros N f; cbn in *; auto. apply andb_true_iff in N as [N1 N2]. pose proof (G3 q e c f N1) as Z. destruct (sep_at _ _ _ _ _); cbn; rewrite Z; now apply IH.
Qed.
Lemma nul_free_in c s : nul_free s = true -> In c s -> negb (is_nul c) = true.
Proof. unfold nul_free. rewrite forallb_forall. auto. Qed.
Lemma drop_nl_in c s : In c (drop_nl s) -> In c s.
Proof.
  induction s as [|x s IH]; cbn; auto. destruct (drop_nl s) as [|z zs].
  - destruct (ceq x NL); [now intros []|]. intros [->|[]]. auto.
  - intros [->|H]; auto.
Qed.
Lemma printed_nul_free o : nul_free (printed o) = true.
Proof.
  unfold nul_free. apply forallb_forall. intros c H. apply drop_nl_in, filter_In in H. tauto.
Qed.
Lemma sem_all p : forall q d e its e', sem y bl q d e p = Some (its, e') -> lexed p = true -> forallb g its = true.
Proof.
  cbn in G1. repeat (apply andb_true_iff in G1 as [? G1]).
  induction p as [|c k IH|c k IH|l IHl k IH|b n k IH|n col o l IHl k IH|t k IH|t k IH|c l IHl k IH|k IH]; intros q d e its e' HS HX; cbn [sem lexed] in HS, HX;
    repeat match goal with X : _ && _ = true |- _ => apply andb_true_iff in X as [? ?] end.
  - now injection HS as <- <-.
  - sems HS. its_of HS. rewrite forallb_app, (IH _ _ _ _ _ Q) by auto. rewrite andb_true_r. cbn.
    match goal with N : negb (is_nul c) = true |- _ => pose proof (G3 q e c false N) as Z; pose proof (G4 false q c N) as Z2 end.
    destruct (sep_at _ _ _ _ _), d; cbn in *; now rewrite ?Z, ?Z2.
  - sems HS. its_of HS. rewrite forallb_app, (IH _ _ _ _ _ Q) by auto. cbn. match goal with N : negb (is_nul c) = true |- _ => pose proof (G4 false true c N) as Z end. cbn in Z. now rewrite Z.
  - sems HS. its_of HS. rewrite forallb_app, (IH _ _ _ _ _ Q1) by auto. cbn. rewrite forallb_app, (IHl _ _ _ _ _ Q) by auto. cbn. now rewrite H, H0.
  - sems HS. its_of HS. rewrite forallb_app, (IH _ _ _ _ _ Q1) by auto. rewrite (G5 _ _ _ _ Q). reflexivity.
  - sems HS; its_of HS.
    + match goal with X : sem _ _ q d _ k = Some _ |- _ => rewrite forallb_app, (IH _ _ _ _ _ X) by auto end.
      match goal with X : sem _ _ q true _ l = Some _ |- _ => cbn; rewrite (IHl _ _ _ _ _ X) by auto end. destruct q; cbn; now rewrite ?H1, ?H2, ?H4.
    + match goal with X : sem _ _ q d _ k = Some _ |- _ => rewrite forallb_app, (IH _ _ _ _ _ X) by auto end. now rewrite (G5 _ _ _ _ Q).
    + match goal with X : sem _ _ q d _ k = Some _ |- _ => rewrite forallb_app, (IH _ _ _ _ _ X) by auto end. now rewrite (G5 _ _ _ _ Q).
  - sems HS; [its_of HS|now apply (IH _ _ _ _ _ HS)].
    rewrite forallb_app, (IH _ _ _ _ _ Q2) by auto. rewrite chars_all; auto. apply printed_nul_free.
  - sems HS. its_of HS. rewrite forallb_app, (IH _ _ _ _ _ Q1) by auto. rewrite andb_true_r. cbn. rewrite H1. cbn.
    assert (V : forallb (fun c => negb (ismagic c) && negb (is_nul c)) l = true) by (eapply Y; eauto). rewrite forallb_forall in V |- *.
    intros i HI. apply in_map_iff in HI as (x & <- & HX). apply (G4 false true). specialize (V x HX). now apply andb_true_iff in V.
  - sems HS. its_of HS. rewrite forallb_app, (IH _ _ _ _ _ Q1) by auto. cbn. rewrite forallb_app, (IHl _ _ _ _ _ Q) by auto. cbn. rewrite G2 by auto. now rewrite H6.
  - sems HS. its_of HS. rewrite forallb_app, (IH _ _ _ _ _ Q) by auto. cbn. now rewrite H5.
Qed.
End All.
Lemma kind_vector (Y : sys_ok y) e n a l : kind y e n = Some (Vector a l) -> Forall (fun s => nul_free s = true) l.
Proof.
  unfold kind. destruct Y as (Y1 & _ & Y3 & _). destruct (str_eqb n (L "@")); [intros [= <- <-]; auto|]. destruct (str_eqb n (L "*")); [intros [= <- <-]; auto|].
  destruct (scalar_name n); [discriminate|]. destruct (array_name n); [intros [= <- <-]; auto|discriminate].
Qed.
Lemma kind_scalar (Y : sys_ok y) e n s : kind y e n = Some (Scalar (Some s)) -> nul_free s = true.
Proof.
  unfold kind. destruct Y as (_ & Y2 & _). destruct (str_eqb n (L "@")); [discriminate|]. destruct (str_eqb n (L "*")); [discriminate|].
  destruct (scalar_name n); [intros [=]; eauto|]. destruct (array_name n); discriminate.
Qed.
End Items.
Definition item_ok (i : item) : bool := match i with Txt _ t => tok_ok t | Args l => forallb (forallb tok_ok) l | _ => true end.
Section Items2.
Context {E : Type}.
Variables (y : sys E) (bl : bool).
Hypothesis Y : sys_ok y.
Lemma ifs0_ok e : is_nul (ifs0 (ifs y e)) = false -> negb (is_nul (ifs0 (ifs y e))) = true.
Proof. intros ->. reflexivity. Qed.
Lemma between_all (g : item -> bool) q e : (bl = true -> g Brk = true) -> (bl = true -> forall c, g (Sep c) = true) -> (bl = false -> ifs y e <> []) ->
  (forall f q c, negb (is_nul c) = true -> g (Txt f (tk q c)) = true) -> forallb g (between y bl q e) = true.
Proof.
  intros B SP NE G. unfold between. destruct (is_nul (ifs0 (ifs y e))) eqn:N.
  - destruct q; auto. destruct bl; [cbn; rewrite B; auto|]. destruct Y as (_ & _ & _ & YI & _). specialize (YI e). destruct (ifs y e) as [|c r] eqn:I; [now destruct NE|].
    cbn in N, YI. rewrite N in YI. discriminate.
  - destruct (negb q && bl) eqn:Q; cbn; [apply andb_true_iff in Q as [_ Q]; now rewrite SP|]. rewrite G; auto. now rewrite N.
Qed.
Lemma joined_all (g : item -> bool) q e l : (forall s, nul_free s = true -> forall f, forallb g (chars y bl q e f s) = true) -> forallb g (between y bl q e) = true ->
  Forall (fun s => nul_free s = true) l -> forallb g (joined y bl q e l) = true.
Proof.
  intros C B F. induction l as [|s l IH]; auto. inversion F as [|? ? F1 F2]; subst. cbn [joined]. destruct l as [|s2 l]; [now apply C|].
  rewrite !forallb_app, C, B by auto. cbn. now apply IH.
Qed.
Lemma sem_tok_ok p q d e its e' : sem y bl q d e p = Some (its, e') -> lexed p = true -> forallb item_ok its = true.
Proof.
  assert (G4 : forall f q c, negb (is_nul c) = true -> item_ok (Txt f (tk q c)) = true) by (intros ? [] c H; exact H).
  assert (G3 : forall q e c f, negb (is_nul c) = true -> item_ok (if sep_at y bl q e c then Sep c else Txt f (tk q c)) = true) by (intros q1 e1 c f H; destruct (sep_at _ _ _ _ _); auto).
  assert (CH := chars_all y bl item_ok G3).
  apply sem_all; auto.
  - intros c H. cbn. revert c H. intros c. apply (Glob_proof.sweep_imp (fun c => mem c (L "*+?@!")) (fun c => mem c (L "*+?@! "))). vm_compute. reflexivity.
  - clear q e. intros e q v n K. destruct v as [[s|]|[] [|a l]]; cbn [subst]; auto.
    + cbn. apply CH. now apply (kind_scalar y Y e n).
    + pose proof (kind_vector y Y _ _ _ _ K) as F. change (forallb item_ok (Begin :: ?x)) with (forallb item_ok x). destruct q; [destruct (bl || is_nul (ifs0 (ifs y e))) eqn:W|].
      * change (forallb (forallb tok_ok) (map (map TQ) (a :: l)) && true = true). rewrite andb_true_r. rewrite forallb_forall. rewrite Forall_forall in F. intros x Hx. apply in_map_iff in Hx as (s & <- & Hs).
        specialize (F s Hs). unfold nul_free in F. rewrite forallb_forall in F |- *. intros t Ht. apply in_map_iff in Ht as (c & <- & Hc). now apply F.
      * apply orb_false_iff in W as [_ W]. clear K. revert a F. induction l as [|b l IH]; intros a F; inversion F; subst; cbn [at_joined]; rewrite forallb_app, CH by auto; auto.
        cbn [forallb app item_ok tok_ok]. rewrite W. apply IH; auto.
      * apply joined_all; auto. unfold between. destruct (is_nul (ifs0 (ifs y e))) eqn:N; auto. destruct (negb false && bl); auto. cbn. now rewrite N.
    + pose proof (kind_vector y Y _ _ _ _ K) as F. change (forallb item_ok (Begin :: ?x)) with (forallb item_ok x). apply joined_all; auto. unfold between. destruct (is_nul (ifs0 (ifs y e))) eqn:N; [now destruct q|]. destruct (negb q && bl); auto. cbn. destruct q; cbn; now rewrite N.
Qed.
(** quoted text without $@ *)
Definition calm (i : item) : bool := match i with Txt _ _ | Quo | Unq | Full | Begin => true | _ => false end.
Lemma chars_calm e s f : forallb calm (chars y bl true e f s) = true.
Proof. revert f. induction s; intros f; cbn; auto. Qed.
Lemma inner_calm p : forall d e its e', inner p = true -> sem y bl true d e p = Some (its, e') -> forallb calm its = true.
Proof.
  assert (SB : forall e n v, scalar_name n = true -> kind y e n = Some v -> forallb calm (subst y bl true e v) = true).
  { intros e n v S K. unfold kind in K. destruct (str_eqb n (L "@")) eqn:N1; [apply str_eqb_true in N1; subst; discriminate|].
    destruct (str_eqb n (L "*")) eqn:N2; [apply str_eqb_true in N2; subst; discriminate|]. rewrite S in K. injection K as <-. cbn. apply chars_calm. }
  assert (QE : forall p, inner p = true -> qend true p = true).
  { induction p0; cbn; intros H; repeat match goal with X : _ && _ = true |- _ => apply andb_true_iff in X as [? ?] end; auto; try discriminate. rewrite IHp0_1 by auto. auto. }
  induction p as [|c k IH|c k IH|l IHl k IH|b n k IH|n col o l IHl k IH|t k IH|t k IH|c l IHl k IH|k IH]; intros d e its e' HX HS; cbn [sem inner] in HS, HX;
    repeat match goal with X : _ && _ = true |- _ => apply andb_true_iff in X as [? ?] end; try discriminate.
  - now injection HS as <- <-.
  - sems HS. its_of HS. rewrite forallb_app, (IH _ _ _ _ HX Q). reflexivity.
  - sems HS. its_of HS. rewrite forallb_app, (IH _ _ _ _ HX Q). reflexivity.
  - sems HS. its_of HS. rewrite forallb_app. apply andb_true_iff. split; [eapply SB; eauto|eapply IH; eauto].
  - sems HS; its_of HS; rewrite forallb_app; apply andb_true_iff; (split; [|eapply (IH d); eauto; fail]).
    + cbn. eapply IHl; eauto.
    + eapply SB; eauto.
    + eapply SB; eauto.
  - sems HS; [its_of HS|now apply (IH _ _ _ _ HX HS)]. rewrite forallb_app. apply andb_true_iff. split; [apply chars_calm|eapply IH; eauto].
  - sems HS. its_of HS. rewrite forallb_app. apply andb_true_iff. split; [|eapply IH; eauto]. cbn. rewrite forallb_forall. intros i HI. apply in_map_iff in HI as (x & <- & _). reflexivity.
  - sems HS. its_of HS. rewrite QE in * by auto. rewrite forallb_app. apply andb_true_iff. split; [|eapply (IH d); eauto]. cbn. rewrite forallb_app. apply andb_true_iff. split; [eapply IHl; eauto|reflexivity].
  - sems HS. its_of HS. rewrite forallb_app. apply andb_true_iff. split; [reflexivity|eapply IH; eauto].
Qed.
End Items2.
Lemma calm_run b its : forall s, forallb calm its = true -> iw s = WORD \/ iw s = QUOTE ->
  idone (irun b s its) = idone s /\ icur (irun b s its) = icur s ++ texts its /\ (iw (irun b s its) = WORD \/ iw (irun b s its) = QUOTE).
Proof.
  induction its as [|i r IH]; intros s N W; [cbn; rewrite app_nil_r; auto|]. apply andb_true_iff in N as [N1 N]. cbn [irun fold_left]. fold (irun b (istep b s i) r).
  assert (ST : idone (istep b s i) = idone s /\ icur (istep b s i) = icur s ++ texts [i] /\ (iw (istep b s i) = WORD \/ iw (istep b s i) = QUOTE)).
  { destruct s as [w c dn]. cbn in W |- *. destruct i as [f t| | | | | | | | |]; try discriminate; destruct W as [->| ->]; cbn; rewrite ?app_nil_r; auto; destruct f; rewrite ?app_nil_r; auto. }
  destruct ST as (S1 & S2 & S3). destruct (IH _ N S3) as (R1 & R2 & R3). rewrite R1, R2, S1, S2, <- app_assoc. repeat split; auto.
  f_equal. cbn. now rewrite app_nil_r.
Qed.
Lemma calm_field b its : forallb calm its = true -> ifinish (irun b (I (if b then WS else WORD) [] []) (Quo :: its)) = [texts its].
Proof.
  intros N. cbn [irun fold_left]. fold (irun b (istep b (I (if b then WS else WORD) [] []) Quo) its).
  destruct (calm_run b its (istep b (I (if b then WS else WORD) [] []) Quo) N) as (D & C & W); [destruct b; cbn; auto|].
  unfold ifinish. rewrite D, C. destruct W as [->| ->]; reflexivity.
Qed.
(** without splitting, and an IFS that is not empty *)
Lemma whole_items {E} (y : sys E) (Y : sys_ok y) p q d e its e' : (forall e, ifs y e <> []) -> sem y false q d e p = Some (its, e') -> lexed p = true -> none is_sep its = true.
Proof.
  intros NE HS W. set (g := fun i => negb (is_sep i)).
  assert (G4 : forall f q c, negb (is_nul c) = true -> g (Txt f (tk q c)) = true) by reflexivity.
  assert (SA : forall q e c, sep_at y false q e c = false) by (intros; unfold sep_at; now rewrite andb_false_r).
  assert (G3 : forall q e c f, negb (is_nul c) = true -> g (if sep_at y false q e c then Sep c else Txt f (tk q c)) = true) by (intros; now rewrite SA).
  assert (CH := chars_all y false g G3).
  assert (X : forallb g its = true).
  { revert HS W. apply sem_all; auto. clear - NE Y CH G4. intros e q v n K.
    assert (I0 : is_nul (ifs0 (ifs y e)) = false). { destruct Y as (_ & _ & _ & YI & _). specialize (YI e). specialize (NE e). destruct (ifs y e); [now destruct NE|]. cbn in YI |- *. apply andb_true_iff in YI as [YI _]. now apply negb_true_iff. }
    assert (B : forallb g (between y false q e) = true) by (unfold between; rewrite I0, andb_false_r; reflexivity).
    destruct v as [[s|]|[] [|a l]]; cbn [subst]; auto.
    - cbn. apply CH. now apply (kind_scalar y Y e n).
    - pose proof (kind_vector y Y _ _ _ _ K) as F. change (forallb g (Begin :: ?x)) with (forallb g x). rewrite I0. cbn [orb]. destruct q; [|apply joined_all; auto].
      clear K. revert a F. induction l as [|b l IH]; intros a F; inversion F; subst; cbn [at_joined]; rewrite forallb_app, CH by auto; auto.
      cbn [forallb app]. apply IH; auto.
    - pose proof (kind_vector y Y _ _ _ _ K) as F. change (forallb g (Begin :: ?x)) with (forallb g x). apply joined_all; auto. }
  unfold none. clear - X. induction its as [|i r IH]; auto. cbn in *. apply andb_true_iff in X as [X1 X2]. rewrite negb_orb. unfold g in X1. rewrite X1. now apply IH.
Qed.
Lemma texts_ok its : forallb item_ok its = true -> forallb tok_ok (texts its) = true.
Proof.
  induction its as [|i r IH]; intros H; auto. cbn [forallb] in H. apply andb_true_iff in H as [H1 H2].
  change (texts (i :: r)) with ((match i with Txt _ t => [t] | Args l => concat l | _ => [] end) ++ texts r). rewrite forallb_app, (IH H2), andb_true_r.
  destruct i as [f t| | | | | | | |l|]; cbn [item_ok forallb] in *; rewrite ?H1; auto. clear - H1. induction l; cbn in *; auto. apply andb_true_iff in H1 as [? ?]. rewrite forallb_app. now rewrite H, IHl.
Qed.
Lemma concat_ok {A} (g : A -> bool) l : forallb g (concat l) = true -> Forall (fun a => forallb g a = true) l.
Proof. induction l as [|a l IH]; cbn; intros H; constructor; rewrite forallb_app in H; apply andb_true_iff in H as [? ?]; auto. Qed.
