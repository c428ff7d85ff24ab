(** Proofs about read. *)
From Verif Require Import Base Num_model SimplifyPath_model XString_model Read_model Read_spec.
Local Open Scope nat_scope.

Definition wf (x : xstr) : Prop := xalloc x = xlen x + 8 /\ length (xtext x) <= xlen x.
Lemma wf_check x : wf x -> wf (xcheckn 1 x) /\ xtext (xcheckn 1 x) = xtext x /\ length (xtext x) < xlen (xcheckn 1 x).
Proof.
  intros [A B]. unfold xcheckn, xgrow. destruct (Nat.ltb_spec (xlen x) (length (xtext x) + 1)); cbn; unfold wf; cbn; (split; [lia|]); (split; [reflexivity|]); lia.
Qed.
Lemma wf_put c x : wf x -> length (xtext x) < xlen x -> exists y, xput c x = Some y /\ wf y /\ xtext y = xtext x ++ [c].
Proof.
  intros [A B] H. unfold xput. destruct (Nat.ltb_spec (length (xtext x)) (xalloc x)); [|lia]. eexists. split; [reflexivity|].
  unfold wf. cbn. rewrite app_length. cbn. (split; [lia|reflexivity]).
Qed.
Lemma wf_nul x : wf x -> exists y, xput NUL x = Some y /\ wf (xback 0 y) /\ xtext y = xtext x ++ [NUL].
Proof.
  intros [A B]. unfold xput. destruct (Nat.ltb_spec (length (xtext x)) (xalloc x)); [|lia]. eexists. split; [reflexivity|].
  unfold wf, xback. cbn. split; [lia|reflexivity].
Qed.
Lemma white_ok c : ifsws c = true <-> white c.
Proof. unfold ifsws, white. rewrite mem_In. reflexivity. Qed.

Section P.
Context (ifs : char -> bool) (expand savehist : bool).
Lemma ifswhite_ok c : ifs c && ifsws c = true <-> ifswhite ifs c.
Proof. unfold ifswhite. rewrite <- white_ok. apply andb_true_iff. Qed.
Definition hist_of (h hs : cstr) : cstr := if savehist then h ++ hs else h.
Lemma hput_ok c xs : wf xs -> exists ys, hput savehist c xs = Ok ys /\ wf ys /\ xtext ys = hist_of (xtext xs) [c].
Proof.
  intros W. unfold hput, hist_of. destruct savehist; [|eauto]. destruct (wf_check xs W) as (W' & E & LT).
  destruct (wf_put c _ W') as (y & -> & W2 & E2); [now rewrite E|]. exists y. rewrite E2, E. auto.
Qed.
Lemma hist_of_nil h : hist_of h [] = h.
Proof. unfold hist_of. destruct savehist; auto using app_nil_r. Qed.
Lemma hist_of_app h a b : hist_of (hist_of h a) b = hist_of h (a ++ b).
Proof. unfold hist_of. destruct savehist; auto. now rewrite app_assoc. Qed.

Definition last_of (e : ending) : lastc := match e with Newline => LNl | End => LEof 0 | Killed c => LEof c end.
(** the rest of a field of which [t] has been collected *)
Definition indent (t : cstr) (toks body : list tok) : Prop :=
  match t with [] => unindented ifs toks body | _ => toks = body end.
Lemma indent_quoted t c toks : exists body, indent t (T true c :: toks) (T true c :: body) /\ body = toks.
Proof.
  exists toks. split; auto. destruct t; cbn; auto. exists []. split; auto. split; auto. intros t r [= <- <-] (d & E & _). discriminate.
Qed.
Lemma indent_skip c toks body : ifs c = true -> ifsws c = true -> indent [] toks body -> indent [] (T false c :: toks) body.
Proof.
  intros I W (ws & -> & F & N). exists (T false c :: ws). split; auto. split; auto. constructor; auto. exists c. apply white_ok in W. auto.
Qed.
Lemma indent_put t c toks : ~ (t = [] /\ ifs c = true /\ ifsws c = true) -> indent t (T false c :: toks) (T false c :: toks).
Proof.
  intros N. destruct t; cbn; auto. exists []. split; auto. split; auto. intros t r [= <- <-] (d & [= <-] & I & W).
  apply white_ok in W. auto.
Qed.

Definition stopped (more : bool) (t h : cstr) toks e hs rest (r : fres) : Prop :=
  (exists cs xs body, r = FStop (last_of e) cs xs rest /\ wf cs /\ wf xs /\ xtext xs = hist_of h hs /\ xtext cs = t ++ map chr body /\
      indent t toks body /\ (more = true -> Forall (fun t => ~ delim ifs t) body)) \/
  (more = true /\ exists cs xs fld d toks' evs' hs1 hs2, r = FStop LChar cs xs evs' /\ wf cs /\ wf xs /\ hs = hs1 ++ hs2 /\
      xtext xs = hist_of h hs1 /\ xtext cs = t ++ map chr fld /\ indent t toks (fld ++ d :: toks') /\
      Forall (fun t => ~ delim ifs t) fld /\ delim ifs d /\ line expand false evs' toks' e hs2 rest).
Lemma stopped_hist more t h c toks e hs rest r : stopped more t (hist_of h [c]) toks e hs rest r -> stopped more t h toks e (c :: hs) rest r.
Proof.
  intros [(cs & xs & body & -> & W1 & W2 & H & E & I & F)|(M & cs & xs & fld & d & toks' & evs' & hs1 & hs2 & -> & W1 & W2 & -> & H & E & I & F & D & LN)].
  - left. exists cs, xs, body. rewrite hist_of_app in H. auto 10.
  - right. split; auto. exists cs, xs, fld, d, toks', evs', (c :: hs1), hs2. rewrite hist_of_app in H. auto 15.
Qed.
(** one more character of the field *)
Lemma stopped_put more t h q c toks e hs rest r : stopped more (t ++ [c]) h toks e hs rest r ->
  (q = false -> ~ (t = [] /\ ifs c = true /\ ifsws c = true)) -> (q = false -> more = true -> ifs c = false) ->
  stopped more t h (T q c :: toks) e hs rest r.
Proof.
  assert (forall toks body, indent (t ++ [c]) toks body -> toks = body) as IN by (intros ? ? X; destruct t; exact X).
  intros S1 N D.
  assert (forall body, indent t (T q c :: body) (T q c :: body)) as IT.
  { intros body. destruct q; [destruct (indent_quoted t c body) as (b & X & ->); exact X|]. apply indent_put. auto. }
  assert (more = true -> ~ delim ifs (T q c)) as ND.
  { intros M (d & [= -> <-] & X). rewrite D in X by auto. discriminate. }
  destruct S1 as [(cs & xs & body & -> & W1 & W2 & H & E & I & F)|(M & cs & xs & fld & d & toks' & evs' & hs1 & hs2 & -> & W1 & W2 & -> & H & E & I & F & DD & LN)].
  - apply IN in I. subst. left. exists cs, xs, (T q c :: body). rewrite E, <- app_assoc. auto 12.
  - apply IN in I. subst. right. split; auto. exists cs, xs, (T q c :: fld), d, toks', evs', hs1, hs2. rewrite E, <- app_assoc. repeat (split; [solve [auto]|]). split; [apply IT|]. auto.
Qed.
Lemma stopped_skip more h c toks e hs rest r : ifs c = true -> ifsws c = true ->
  stopped more [] h toks e hs rest r -> stopped more [] h (T false c :: toks) e hs rest r.
Proof.
  intros I W [(cs & xs & body & -> & W1 & W2 & H & E & IN & F)|(M & cs & xs & fld & d & toks' & evs' & hs1 & hs2 & -> & W1 & W2 & -> & H & E & IN & F & DD & LN)].
  - left. exists cs, xs, body. auto 12 using indent_skip.
  - right. split; auto. exists cs, xs, fld, d, toks', evs', hs1, hs2. auto 15 using indent_skip.
Qed.

Lemma nl_neq c : c <> NL -> ceq c "010" = false.
Proof. intros. now apply ceq_false. Qed.
Lemma nul_neq c : c <> NUL -> is_nul c = false.
Proof. intros. now apply ceq_false. Qed.
Lemma unind_nil : unindented ifs [] [].
Proof. exists []. split; auto. split; auto. discriminate. Qed.
Lemma field_ok more esc evs toks e hs rest : line expand esc evs toks e hs rest -> forall cs xs, wf cs -> wf xs ->
  exists r, field ifs expand savehist more evs esc cs xs = Ok r /\ stopped more (xtext cs) (xtext xs) toks e hs rest r.
Proof.
  induction 1 as [esc x evs toks e hs rest NO LN IH|rest|esc rest|esc code rest NZ|evs toks e hs rest EX LN IH|evs toks e hs rest LN IH|c evs toks e hs rest NN NU LN IH|c evs toks e hs rest NN NU NB LN IH]; intros cs xs W1 W2.
  - destruct NO as [-> | ->]; cbn; auto.
  - cbn [field]. change (is_nul NL) with false. cbn iota. destruct (hput_ok NL xs W2) as (ys & -> & W3 & E). cbn [bind].
    change (ceq NL "\") with false. rewrite andb_false_r. change (ceq NL "010") with true. cbn iota.
    destruct (wf_check cs W1) as (W4 & E4 & _). eexists. split; [reflexivity|]. left. exists (xcheckn 1 cs), ys, []. cbn [map last_of]. rewrite app_nil_r.
    repeat (split; [solve [auto; congruence]|]). split; auto. destruct (xtext cs); cbn; auto using unind_nil.
  - cbn [field]. destruct (hput_ok EOFBYTE xs W2) as (ys & -> & W3 & E). cbn [bind].
    destruct (wf_check cs W1) as (W4 & E4 & _). eexists. split; [reflexivity|]. left. exists (xcheckn 1 cs), ys, []. cbn [map last_of]. rewrite app_nil_r.
    repeat (split; [solve [auto; congruence]|]). split; auto. destruct (xtext cs); cbn; auto using unind_nil.
  - destruct code as [|code]; [congruence|]. cbn [field]. destruct (hput_ok EOFBYTE xs W2) as (ys & -> & W3 & E). cbn [bind].
    destruct (wf_check cs W1) as (W4 & E4 & _). eexists. split; [reflexivity|]. left. exists (xcheckn 1 cs), ys, []. cbn [map last_of]. rewrite app_nil_r.
    repeat (split; [solve [auto; congruence]|]). split; auto. destruct (xtext cs); cbn; auto using unind_nil.
  - cbn [field]. change (is_nul "\") with false. cbn iota. destruct (hput_ok "\" xs W2) as (ys & -> & W3 & E). cbn [bind]. rewrite EX.
    change (true && ceq "\" "\") with true. cbn iota. destruct (wf_check cs W1) as (W4 & E4 & _).
    destruct (IH (xcheckn 1 cs) ys W4 W3) as (r & ER & S1). exists r. rewrite EX in ER. split; auto. rewrite E4, E in S1. now apply stopped_hist.
  - cbn [field]. change (is_nul NL) with false. cbn iota. destruct (hput_ok NL xs W2) as (ys & -> & W3 & E). cbn [bind].
    change (ceq NL "010") with true. cbn iota. destruct (wf_check cs W1) as (W4 & E4 & _).
    destruct (IH (xcheckn 1 cs) ys W4 W3) as (r & ER & S1). exists r. split; auto. rewrite E4, E in S1. now apply stopped_hist.
  - cbn [field]. rewrite (nul_neq _ NU). destruct (hput_ok c xs W2) as (ys & -> & W3 & E). cbn [bind]. rewrite (nl_neq _ NN).
    destruct (wf_check cs W1) as (W4 & E4 & LT). unfold cput. destruct (wf_put c _ W4) as (cs' & -> & W5 & E5); [now rewrite E4|]. cbn [bind].
    destruct (IH cs' ys W5 W3) as (r & ER & S1). exists r. split; auto. rewrite E5, E4, E in S1. apply stopped_hist. apply stopped_put; auto; discriminate.
  - cbn [field]. rewrite (nul_neq _ NU). destruct (hput_ok c xs W2) as (ys & -> & W3 & E). cbn [bind].
    assert (expand && ceq c "\" = false) as ->. { destruct expand; auto. apply ceq_false. auto. }
    rewrite (nl_neq _ NN). destruct (wf_check cs W1) as (W4 & E4 & LT). rewrite E4.
    destruct (ifs c && (length (xtext cs) =? 0) && ifsws c) eqn:EW.
    { apply andb_true_iff in EW as [EW E3]. apply andb_true_iff in EW as [E1 E2]. apply Nat.eqb_eq in E2. apply length_zero_iff_nil in E2.
      destruct (IH (xcheckn 1 cs) ys W4 W3) as (r & ER & S1). exists r. split; auto. rewrite E4, E, E2 in S1. rewrite E2. apply stopped_hist. apply stopped_skip; auto. }
    assert (~ (xtext cs = [] /\ ifs c = true /\ ifsws c = true)) as NW.
    { intros (X1 & X2 & X3). rewrite X1, X2, X3 in EW. discriminate. }
    destruct (ifs c && more) eqn:EM.
    + apply andb_true_iff in EM as [E1 ->]. eexists. split; [reflexivity|]. right. split; auto.
      exists (xcheckn 1 cs), ys, [], (T false c), toks, evs, [c], hs. cbn [map app]. rewrite app_nil_r, E4.
      repeat (split; [solve [auto; congruence]|]). split; [apply indent_put; auto|]. split; auto. split; [exists c; auto|auto].
    + unfold cput. destruct (wf_put c _ W4) as (cs' & -> & W5 & E5); [now rewrite E4|]. cbn [bind].
      destruct (IH cs' ys W5 W3) as (r & ER & S1). exists r. split; auto. rewrite E5, E4, E in S1. apply stopped_hist. apply stopped_put; auto.
      intros _ ->. now rewrite andb_true_r in EM.
Qed.

Lemma strip_ok n t : n <= length t -> exists v tail, firstn n t = v ++ tail /\ strip ifs n t = length v /\ Forall (ifswhite ifs) tail /\
  forall u c, v = u ++ [c] -> ~ ifswhite ifs c.
Proof.
  induction n as [|n IH]; intros LE.
  - exists [], []. cbn. repeat split; auto. intros [|] ? X; discriminate.
  - cbn [strip]. destruct (nth_error t n) as [c|] eqn:E; [|apply nth_error_None in E; lia].
    destruct (nth_error_split t n E) as (l1 & l2 & -> & EL).
    assert (firstn (S n) (l1 ++ c :: l2) = l1 ++ [c]) as EF.
    { rewrite firstn_app, firstn_all2 by lia. f_equal. now replace (S n - length l1) with 1 by lia. }
    assert (firstn n (l1 ++ c :: l2) = l1) as EF2.
    { rewrite firstn_app, firstn_all2 by lia. replace (n - length l1) with 0 by lia. apply app_nil_r. }
    rewrite EF. destruct (ifs c && ifsws c) eqn:EW.
    + destruct IH as (v & tail & E1 & E2 & F & N); [rewrite app_length in *; cbn in *; lia|]. rewrite EF2 in E1.
      exists v, (tail ++ [c]). split; [now rewrite E1, app_assoc|]. split; [exact E2|]. split; [|exact N]. apply Forall_app. split; auto. constructor; auto. now apply ifswhite_ok.
    + exists (l1 ++ [c]), []. rewrite app_nil_r. repeat split; auto.
      * rewrite app_length. cbn. lia.
      * intros u d X. apply app_inj_tail in X as [_ <-]. rewrite <- ifswhite_ok. congruence.
Qed.

Context {St : Type} (assign : St -> cstr -> cstr -> option St).
Definition finished names st toks e rest h (r : rres) : Prop :=
  exists vals ok st', values ifs (length names) toks vals /\ assigned assign st names vals ok st' /\
    if ok then r = RDone (exit_code e) (if savehist then Some (h ++ [NUL]) else None) st' rest
    else exists rest', r = RFailed st' rest' /\ exists hs' toks' esc', rest' = rest \/ line expand esc' rest' toks' e hs' rest.

Lemma line_killed esc evs toks e hs rest : line expand esc evs toks e hs rest -> e <> Killed 0.
Proof. induction 1; congruence. Qed.
Lemma vars_ok : forall names c evs cs xs st toks e hs rest h, e <> Killed 0 -> names <> [] -> wf (xback 0 cs) -> wf xs ->
  ((c = LChar /\ line expand false evs toks e hs rest /\ h = hist_of (xtext xs) hs) \/ (c = last_of e /\ toks = [] /\ evs = rest /\ h = xtext xs)) ->
  exists r, vars ifs expand savehist assign names c evs cs xs st = Ok r /\ finished names st toks e rest h r.
Proof.
  induction names as [|v names IH]; intros c evs cs xs st toks e hs rest h K0 NE W1 W2 H; [congruence|]. cbn [vars].
  set (more := match names with [] => false | _ => true end).
  assert (exists r, match c with LChar => field ifs expand savehist more evs false (xback 0 cs) xs | _ => Ok (FStop c (xback 0 cs) xs evs) end = Ok r /\
    ((exists cs' xs' body, r = FStop (last_of e) cs' xs' rest /\ wf cs' /\ wf xs' /\ xtext xs' = h /\ xtext cs' = map chr body /\
        unindented ifs toks body /\ (more = true -> Forall (fun t => ~ delim ifs t) body)) \/
     (more = true /\ exists cs' xs' fld d toks' evs' hs', r = FStop LChar cs' xs' evs' /\ wf cs' /\ wf xs' /\ h = hist_of (xtext xs') hs' /\
        xtext cs' = map chr fld /\ unindented ifs toks (fld ++ d :: toks') /\ Forall (fun t => ~ delim ifs t) fld /\ delim ifs d /\
        line expand false evs' toks' e hs' rest))) as (r & -> & S1).
  { destruct H as [(-> & LN & ->)|(-> & -> & -> & ->)].
    - destruct (field_ok more false evs toks e hs rest LN (xback 0 cs) xs W1 W2) as (r & -> & S1). exists r. split; auto.
      change (xtext (xback 0 cs)) with (@nil char) in S1.
      destruct S1 as [(cs' & xs' & body & -> & W3 & W4 & E1 & E2 & I & F)|(M & cs' & xs' & fld & d & toks' & evs' & hs1 & hs2 & -> & W3 & W4 & -> & E1 & E2 & I & F & D & LN')].
      + left. exists cs', xs', body. auto 12.
      + right. split; auto. exists cs', xs', fld, d, toks', evs', hs2. rewrite E1, hist_of_app. auto 15.
    - exists (FStop (last_of e) (xback 0 cs) xs rest). split; [destruct e; reflexivity|]. left. exists (xback 0 cs), xs, []. auto 15 using unind_nil. }
  cbn [bind]. destruct S1 as [(cs' & xs' & body & -> & W3 & W4 & E1 & E2 & I & F)|(M & cs' & xs' & fld & d & toks' & evs' & hs' & -> & W3 & W4 & E1 & E2 & I & F & D & LN')].
  - destruct names as [|v2 names].
    + subst more. cbn iota. destruct (strip_ok (length (xtext cs')) (xtext cs') (le_n _)) as (u & tail & E3 & E4 & F1 & F2). rewrite firstn_all in E3.
      rewrite E4. set (cs2 := xback (length u) cs').
      assert (xtext cs2 = u) as EU. { unfold cs2, xback. cbn. rewrite E3, firstn_app, Nat.sub_diag, firstn_O, app_nil_r. apply firstn_all. }
      assert (wf cs2) as W5. { destruct W3 as [X Y]. split; [exact X|]. rewrite EU. cbn. rewrite E3, app_length in Y. lia. }
      destruct (wf_nul cs2 W5) as (cs3 & EP & W6 & _). unfold cput. rewrite EP. cbn [bind]. rewrite EU.
      assert (values ifs 1 toks [u]) as V by (eapply V_last; eauto; congruence).
      destruct (assign st v u) as [st1|] eqn:EA.
      * cbn [vars]. unfold finished. destruct savehist eqn:SH.
        -- destruct (wf_nul xs' W4) as (xs3 & EP3 & _ & E5). rewrite EP3. eexists. split; [reflexivity|]. exists [u], true, st1. split; auto.
           split; [econstructor; eauto; constructor|]. rewrite E5, E1. destruct e as [| |[|]]; reflexivity || congruence.
        -- eexists. split; [reflexivity|]. exists [u], true, st1. split; auto. split; [econstructor; eauto; constructor|]. destruct e as [| |[|]]; reflexivity || congruence.
      * eexists. split; [reflexivity|]. exists [u], false, st. split; auto. split; [now constructor|]. eexists. split; [reflexivity|]. exists [], [], false. auto.
    + subst more. cbn iota. specialize (F eq_refl). destruct (wf_nul cs' W3) as (cs3 & EP & W6 & _). unfold cput. rewrite EP. cbn [bind]. rewrite E2.
      destruct (assign st v (map chr body)) as [st1|] eqn:EA.
      * destruct (IH (last_of e) rest cs3 xs' st1 [] e [] rest h K0 ltac:(discriminate) W6 W4) as (r & -> & (vals & ok & st' & V & AS & R)); [right; auto|].
        exists r. split; auto. exists (map chr body :: vals), ok, st'. split; [|split; [econstructor; eauto|exact R]]. now apply V_end.
      * eexists. split; [reflexivity|].
        destruct (IH (last_of e) rest cs3 xs' st [] e [] rest h K0 ltac:(discriminate) W6 W4) as (r & _ & (vals & ok & st' & V & _)); [right; auto|].
        exists (map chr body :: vals), false, st. split; [now apply V_end|]. split; [now constructor|]. eexists. split; [reflexivity|]. exists [], [], false. auto.
  - destruct names as [|v2 names]; [discriminate|]. subst more. cbn iota. destruct (wf_nul cs' W3) as (cs3 & EP & W6 & _). unfold cput. rewrite EP. cbn [bind]. rewrite E2.
    destruct (assign st v (map chr fld)) as [st1|] eqn:EA.
    + destruct (IH LChar evs' cs3 xs' st1 toks' e hs' rest h K0 ltac:(discriminate) W6 W4) as (r & -> & (vals & ok & st' & V & AS & R)); [left; auto|].
      exists r. split; auto. exists (map chr fld :: vals), ok, st'. split; [|split; [econstructor; eauto|exact R]]. eapply V_field; eauto.
    + destruct (IH LChar evs' cs3 xs' st toks' e hs' rest h K0 ltac:(discriminate) W6 W4) as (r & _ & (vals & ok & st' & V & _)); [left; auto|].
      eexists. split; [reflexivity|]. exists (map chr fld :: vals), false, st. split; [eapply V_field; eauto|]. split; [now constructor|].
      eexists. split; [reflexivity|]. exists hs', toks', false. auto.
Qed.

(** ** Input that ends too early *)
Lemma field_wait more : forall evs esc cs xs, wf cs -> wf xs -> (forall toks e hs rest, ~ line expand esc evs toks e hs rest) ->
  exists r, field ifs expand savehist more evs esc cs xs = Ok r /\
   (r = FBlock \/ more = true /\ exists cs' xs' evs', r = FStop LChar cs' xs' evs' /\ wf cs' /\ wf xs' /\ forall toks e hs rest, ~ line expand false evs' toks e hs rest).
Proof.
  induction evs as [|x evs IH]; intros esc cs xs W1 W2 N; [cbn; eauto|].
  destruct x as [c| |[|code]].
  - cbn [field]. destruct (is_nul c) eqn:E0.
    { apply IH; auto. intros toks e hs rest LN. eapply N. apply Ln_noise; [|exact LN]. left. f_equal. now apply ceq_true. }
    assert (c <> NUL) as NU by (now apply ceq_false).
    destruct (hput_ok c xs W2) as (ys & -> & W3 & _). cbn [bind]. destruct (wf_check cs W1) as (W4 & E4 & LT).
    assert (forall esc, (forall toks e hs rest, ~ line expand esc evs toks e hs rest) -> exists r, (do cs <- cput c (xcheckn 1 cs) ; field ifs expand savehist more evs esc cs ys) = Ok r /\
      (r = FBlock \/ more = true /\ exists cs' xs' evs', r = FStop LChar cs' xs' evs' /\ wf cs' /\ wf xs' /\ forall toks e hs rest, ~ line expand false evs' toks e hs rest)) as PUT.
    { intros esc' N'. unfold cput. destruct (wf_put c _ W4) as (cs' & -> & W5 & E5); [now rewrite E4|]. cbn [bind]. auto. }
    destruct (ceq_spec c "010") as [->|NN].
    + destruct esc.
      * apply IH; auto. intros toks e hs rest LN. eapply N. apply Ln_join. exact LN.
      * exfalso. eapply N. apply Ln_newline.
    + destruct esc.
      * apply PUT. intros toks e hs rest LN. eapply N. apply Ln_quoted; eauto.
      * destruct (expand && ceq c "\") eqn:EX.
        { apply andb_true_iff in EX as [E1 E2]. apply ceq_true in E2. subst c. apply IH; auto. intros toks e hs rest LN. eapply N. apply Ln_backslash; eauto. }
        assert (forall toks e hs rest, ~ line expand false evs toks e hs rest) as N'.
        { intros toks e hs rest LN. eapply N. apply Ln_char; eauto. intros ->. now apply ceq_false in EX. }
        destruct (ifs c && (length (xtext (xcheckn 1 cs)) =? 0) && ifsws c); [apply IH; auto|].
        destruct (ifs c && more) eqn:EM; [|apply PUT; auto].
        apply andb_true_iff in EM as [_ ->]. eexists. split; [reflexivity|]. right. split; auto. exists (xcheckn 1 cs), ys, evs. auto.
  - exfalso. eapply N. apply Ln_end.
  - cbn [field]. apply IH; auto. intros toks e hs rest LN. eapply N. apply Ln_noise; [|exact LN]. now right.
  - exfalso. eapply N. apply Ln_killed. discriminate.
Qed.
Lemma vars_wait : forall names evs cs xs st, names <> [] -> wf (xback 0 cs) -> wf xs -> (forall toks e hs rest, ~ line expand false evs toks e hs rest) ->
  exists st', vars ifs expand savehist assign names LChar evs cs xs st = Ok (RWait st') \/ exists rest, vars ifs expand savehist assign names LChar evs cs xs st = Ok (RFailed st' rest).
Proof.
  induction names as [|v names IH]; intros evs cs xs st NE W1 W2 N; [congruence|]. cbn [vars].
  destruct (field_wait match names with [] => false | _ => true end evs false (xback 0 cs) xs W1 W2 N) as (r & -> & [->|(M & cs' & xs' & evs' & -> & W3 & W4 & N')]); cbn [bind].
  - eauto.
  - rewrite M. destruct names as [|v2 names]; [discriminate|]. destruct (wf_nul cs' W3) as (cs3 & EP & W6 & _). unfold cput. rewrite EP. cbn [bind].
    destruct (assign st v (xtext cs')); [|eauto]. apply IH; auto. discriminate.
Qed.
End P.
