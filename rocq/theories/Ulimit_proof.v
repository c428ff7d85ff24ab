From Verif Require Import Base Num_model SimplifyPath_model Var_model Opt_model Opt_spec Opt_proof Ulimit_kernel Ulimit_model Ulimit_spec.
Local Open Scope nat_scope.
Ltac sp := repeat match goal with |- _ /\ _ => split end.

(** ** The two passes over what ksh_getopt returns *)
Fixpoint p1 (l : list seen) (h : how) (all : bool) : option (how * bool) :=
  match l with
  | [] => Some (h, all)
  | x :: l => let z := s_ret x in
    if (z =? schar "H")%Z then p1 l (Hw false true) all
    else if (z =? schar "S")%Z then p1 l (Hw true false) all
    else if (z =? schar "a")%Z then p1 l h true
    else if (z =? schar "?")%Z then None else p1 l h all
  end.
Lemma pass1_list wp : forall fuel g l g' h all, getopt_loop fuel wp g ulimit_options = Ok (Some (l, g')) ->
  pass1 fuel wp g h all = Ok (Some (match p1 l h all with Some (h, a) => Some (h, a, g') | None => None end)).
Proof.
  induction fuel as [|f IH]; intros g l g' h all R; [discriminate|]. cbn [getopt_loop pass1] in *.
  destruct (ksh_getopt wp g ulimit_options) as [[z g1]| |]; [|discriminate..]. cbn [bind] in *.
  destruct (z =? -1)%Z.
  - injection R as <- <-. reflexivity.
  - destruct (getopt_loop f wp g1 ulimit_options) as [[[l1 g2]|]| |] eqn:E; [|discriminate..]. cbn in R. injection R as <- <-.
    cbn [p1 s_ret]. destruct (z =? schar "H")%Z; [auto|]. destruct (z =? schar "S")%Z; [auto|]. destruct (z =? schar "a")%Z; [auto|].
    destruct (z =? schar "?")%Z; auto.
Qed.
Section P2.
Variable eval : cstr -> option Z.
Variable allow : kernel.
Fixpoint p2 (l : list seen) (h : how) (st : limits) (out : list line) : bool * limits * list line :=
  match l with
  | [] => (true, st, out)
  | x :: l => let z := s_ret x in
    if (z =? schar "a")%Z || (z =? schar "H")%Z || (z =? schar "S")%Z then p2 l h st out
    else if (z =? schar "?")%Z then (false, st, out)
    else match find_limit z with
         | None => (false, st, out)
         | Some m => match s_arg x with
                     | Some v => match set_ulimit eval allow m v h st with Some st => p2 l h st out | None => (false, st, out) end
                     | None => p2 l h st (out ++ [(None, print_ulimit m h st)])
                     end
         end
  end.
Lemma pass2_list wp : forall fuel g l g' h st out, getopt_loop fuel wp g ulimit_options = Ok (Some (l, g')) ->
  pass2 eval allow fuel wp g h st out =
    Ok (Some (let '(b, st, out) := p2 l h st out in (if b then Some g' else None, st, out))).
Proof.
  induction fuel as [|f IH]; intros g l g' h st out R; [discriminate|]. cbn [getopt_loop pass2] in *.
  destruct (ksh_getopt wp g ulimit_options) as [[z g1]| |]; [|discriminate..]. cbn [bind] in *.
  destruct (z =? -1)%Z.
  - injection R as <- <-. reflexivity.
  - destruct (getopt_loop f wp g1 ulimit_options) as [[[l1 g2]|]| |] eqn:E; [|discriminate..]. cbn in R. injection R as <- <-.
    cbn [p2 s_ret s_arg]. destruct ((z =? schar "a")%Z || (z =? schar "H")%Z || (z =? schar "S")%Z); [auto|].
    destruct (z =? schar "?")%Z; auto. destruct (find_limit z) as [m|]; auto.
    destruct (optarg g1) as [v|]; auto. destruct (set_ulimit eval allow m v h st); auto.
Qed.
End P2.

(** ** What the options can be *)
Definition limit_letters : cstr := L "tfcdslmnp".
Lemma declared c k : declares option_string c k -> (In c (L "HSa") /\ k = Plain) \/ (In c limit_letters /\ k = Number).
Proof.
  intros D. assert (LT : is_letter c) by (inversion D; auto).
  inversion D as [a _ N E|a d b _ N E]; subst.
  - exfalso. assert (Q : last option_string NUL = c) by (rewrite E; now rewrite last_last). vm_compute in Q. subst c. apply LT. cbn. tauto.
  - revert N E. unfold option_string. cbn [L list_ascii_of_string].
    repeat (destruct a as [|? a]; [intros N E; injection E as <- <- ?; first [left; split; [cbn; tauto|reflexivity] | right; split; [cbn; tauto|reflexivity] | exfalso; apply LT; cbn; tauto]|];
            intros N E; cbn in E; injection E as <- E; revert N E).
    intros N E. destruct a as [|? [|? ?]]; discriminate.
Qed.
Inductive fine : ev -> Prop :=
| F_flag c a : In c (L "HSa") -> fine (Opt false Plain c a)
| F_limit c a : In c limit_letters -> fine (Opt false Number c a)
| F_unknown c : fine (Unknown false c).
Definition arg_fine (e : ev) : Prop := match e with Opt _ Number _ (Some a) => is_number a | _ => True end.
Lemma scan_fine cur args evs rest mm : scan option_string false cur args evs rest mm ->
  (forall b t, cur = Some (b, t) -> b = false) -> Forall fine evs /\ Forall arg_fine evs.
Proof.
  assert (DF : forall c k a, declares option_string c k -> fine (Opt false k c a)).
  { intros c k a D. destruct (declared c k D) as [[A ->]|[A ->]]; constructor; auto. }
  assert (DN : forall c k, (k = Needs \/ k = Optional \/ k = Attached) -> declares option_string c k -> False).
  { intros c k H D. destruct (declared c k D) as [[A ->]|[A ->]]; intuition discriminate. }
  induction 1; intros B; try (split; constructor; fail);
    try (exfalso; eapply DN; [|eassumption]; tauto);
    try (match goal with H : context [Some (?b, _) = Some _] |- _ => assert (b = false) by eauto; subst b end);
    try (destruct IHscan as [I1 I2]; [now eauto || (intros ? ? [= <- <-]; auto) || discriminate|split; try constructor; auto; constructor; auto]; fail).
  - destruct H as (s' & c & t' & E & [->|[X _]] & _); [|discriminate]. injection E as -> _. apply IHscan. intros ? ? [= <- <-]. reflexivity.
Qed.
Lemma z_letter z c d : (-128 <= z < 128)%Z -> (z mod 256 = ccode c)%Z -> (z =? schar d)%Z = ceq c d.
Proof.
  intros R M. destruct (schar_spec d) as [A B]. destruct (ceq_spec c d) as [->|N].
  - apply Z.eqb_eq. assert ((z mod 256 = schar d mod 256)%Z) by congruence.
    pose proof (Z.div_mod z 256 ltac:(lia)). pose proof (Z.div_mod (schar d) 256 ltac:(lia)). lia.
  - apply Z.eqb_neq. intros ->. apply N. rewrite B in M. clear -M. unfold ccode in M.
    rewrite <- (ascii_N_embedding c), <- (ascii_N_embedding d). f_equal. lia.
Qed.
Lemma z_schar z c : (-128 <= z < 128)%Z -> (z mod 256 = ccode c)%Z -> z = schar c.
Proof. intros A B. apply Z.eqb_eq. rewrite (z_letter z c c A B). apply ceq_refl. Qed.

Definition how_of (w : which) : how := match w with Both => Hw true true | Soft => Hw true false | Hard => Hw false true end.
Definition agrees (e : ev) (x : seen) : Prop := agree option_string e (s_ret x) (s_plus x) (s_arg x).
Definition known (e : ev) : Prop := forall b c, e <> Unknown b c.

Lemma p1_unknown evs l : Forall2 agrees evs l -> Forall fine evs -> forall h all, (exists b c, In (Unknown b c) evs) -> p1 l h all = None.
Proof.
  induction 1 as [|e x evs l A F2 IH]; intros F h all (b & c & I); [destruct I|].
  inversion F as [|? ? F1 F']; subst. cbn [p1]. destruct I as [->|I].
  - cbn in A. destruct A as (_ & -> & _). reflexivity.
  - assert (IH' : forall h all, p1 l h all = None) by (intros; apply IH; eauto). rewrite !IH'.
    repeat (match goal with |- context [if ?b then _ else _] => destruct b end; auto).
Qed.
Definition no_hs (evs : list ev) : Prop := forall b k a, ~ In (Opt b k "H" a) evs /\ ~ In (Opt b k "S" a) evs.
Lemma meant_cons e evs w : w <> Both -> meant evs w -> meant (e :: evs) w.
Proof.
  intros N M. inversion M as [? ? EV|e1 b k a e2 H EV|e1 b k a e2 H EV]; subst; [congruence| |].
  - change (e :: e1 ++ Opt b k "H" a :: e2) with ((e :: e1) ++ Opt b k "H" a :: e2). now constructor.
  - change (e :: e1 ++ Opt b k "S" a :: e2) with ((e :: e1) ++ Opt b k "S" a :: e2). now constructor.
Qed.
Lemma p1_ok evs l : Forall2 agrees evs l -> Forall fine evs -> Forall known evs -> forall h all,
  exists h' all', p1 l h all = Some (h', all') /\
    (all' = true <-> all = true \/ exists b k a, In (Opt b k "a" a) evs) /\
    (no_hs evs /\ h' = h \/ exists w, w <> Both /\ meant evs w /\ h' = how_of w).
Proof.
  induction 1 as [|e x evs l A F2 IH]; intros F K h all.
  - exists h, all. cbn. sp; auto.
    + split; [auto|]. intros [X|(b & k & a & [])]; auto.
    + left. split; auto. intros b k a. auto.
  - inversion F as [|? ? F1 F']; subst. inversion K as [|? ? K1 K']; subst. specialize (IH F' K'). cbn [p1].
    assert (SKIP : forall h all, (forall b k a, e <> Opt b k "a" a) -> (forall b k a, e <> Opt b k "H" a) -> (forall b k a, e <> Opt b k "S" a) ->
      exists h' all', p1 l h all = Some (h', all') /\
       (all' = true <-> all = true \/ exists b k a, In (Opt b k "a" a) (e :: evs)) /\
       (no_hs (e :: evs) /\ h' = h \/ exists w, w <> Both /\ meant (e :: evs) w /\ h' = how_of w)).
    { intros h0 all0 N1 N2 N3. destruct (IH h0 all0) as (h' & all' & R & AL & HS). exists h', all'. sp; auto.
      - rewrite AL. split; intros [X|(b & k & a & X)]; auto; right; exists b, k, a; [now right|]. destruct X as [X|X]; auto. now apply N1 in X.
      - destruct HS as [[X Y]|(w & X & Y & Z)]; [left|right].
        + split; auto. intros b k a. destruct (X b k a). split; intros [Q|Q]; eauto; [now apply N2 in Q|now apply N3 in Q].
        + exists w. sp; auto. now apply meant_cons. }
    destruct F1 as [c a I|c a I|c]; [| |exfalso; eapply K1; reflexivity].
    + cbn in A. destruct A as (_ & _ & RG & MD). apply z_schar in MD; [|auto]. rewrite MD. cbn in I.
      destruct I as [<-|[<-|[<-|[]]]].
      * cbn - [p1]. change (schar "H") with 72%Z. destruct (IH (Hw false true) all) as (h' & all' & R & AL & HS). rewrite R. exists h', all'. sp; auto.
        -- rewrite AL. split; intros [X|(b & k & a' & X)]; auto; right; exists b, k, a'; [now right|]. destruct X as [X|X]; auto. discriminate.
        -- right. destruct HS as [[X Y]|(w & X & Y & Z)].
           ++ exists Hard. sp; auto; [discriminate|]. apply (M_hard [] false Plain a evs). intros b k a0. apply (X b k a0).
           ++ exists w. sp; auto. now apply meant_cons.
      * change (schar "S" =? schar "H")%Z with false. change (schar "S" =? schar "S")%Z with true. cbv iota.
        destruct (IH (Hw true false) all) as (h' & all' & R & AL & HS). rewrite R. exists h', all'. sp; auto.
        -- rewrite AL. split; intros [X|(b & k & a' & X)]; auto; right; exists b, k, a'; [now right|]. destruct X as [X|X]; auto. discriminate.
        -- right. destruct HS as [[X Y]|(w & X & Y & Z)].
           ++ exists Soft. sp; auto; [discriminate|]. apply (M_soft [] false Plain a evs). intros b k a0. apply (X b k a0).
           ++ exists w. sp; auto. now apply meant_cons.
      * change (schar "a" =? schar "H")%Z with false. change (schar "a" =? schar "S")%Z with false. change (schar "a" =? schar "a")%Z with true. cbv iota.
        destruct (IH h true) as (h' & all' & R & AL & HS). rewrite R. exists h', all'. sp; auto.
        -- rewrite AL. split; intros [X|X]; auto; right; exists false, Plain, a; now left.
        -- destruct HS as [[X Y]|(w & X & Y & Z)]; [left|right].
           ++ split; auto. intros b k a0. destruct (X b k a0). split; intros [Q|Q]; eauto; discriminate.
           ++ exists w. sp; auto. now apply meant_cons.
    + cbn in A. destruct A as (_ & _ & RG & MD). apply z_schar in MD; [|auto]. rewrite MD.
      assert (Q : (schar c =? schar "H")%Z = false /\ (schar c =? schar "S")%Z = false /\ (schar c =? schar "a")%Z = false /\ (schar c =? schar "?")%Z = false /\ c <> "a"%char /\ c <> "H"%char /\ c <> "S"%char).
      { cbn in I. repeat (destruct I as [<-|I]; [repeat split; discriminate|]). destruct I. }
      destruct Q as (-> & -> & -> & -> & Q1 & Q2 & Q3). apply SKIP; congruence.
Qed.
Lemma meant_det evs w w' : meant evs w -> meant evs w' -> w = w'.
Proof.
  assert (X : forall e1 b k a e2 f1 b' k' a' f2, e1 ++ Opt b k "H" a :: e2 = f1 ++ Opt b' k' "S" a' :: f2 ->
     (forall b k a, ~ In (Opt b k "S" a) e2) -> (forall b k a, ~ In (Opt b k "H" a) f2) -> False).
  { induction e1 as [|e e1 IH]; intros b k a e2 f1 b' k' a' f2 E N1 N2; destruct f1 as [|f f1]; cbn in E.
    - discriminate.
    - injection E as _ ->. apply (N1 b' k' a'), in_or_app. right. now left.
    - injection E as _ <-. apply (N2 b k a), in_or_app. right. now left.
    - injection E as _ E. eapply IH; eauto. }
  intros M M'. inversion M as [? H EV|e1 b k a e2 H EV|e1 b k a e2 H EV]; inversion M' as [? H' EV'|e1' b' k' a' e2' H' EV'|e1' b' k' a' e2' H' EV']; subst; auto; exfalso.
  - destruct (H b' k' a') as [A _]. apply A, in_or_app. right. now left.
  - destruct (H b' k' a') as [_ A]. apply A, in_or_app. right. now left.
  - destruct (H' b k a) as [A _]. apply A, in_or_app. right. now left.
  - symmetry in EV'. eapply X; eauto.
  - destruct (H' b k a) as [_ A]. apply A, in_or_app. right. now left.
  - eapply X; eauto.
Qed.

Section Carry.
Variable eval : cstr -> option Z.
Variable allow : kernel.
Lemma limit_letter c : In c limit_letters -> exists m, find_limit (schar c) = Some m /\
  In (c, l_resource m, l_factor m, l_name m) documented_limits /\ (1 <= l_factor m)%Z /\
  ((schar c =? schar "a")%Z || (schar c =? schar "H")%Z || (schar c =? schar "S")%Z) = false /\ (schar c =? schar "?")%Z = false.
Proof.
  intros I. cbn in I.
  repeat (destruct I as [<-|I]; [eexists; split; [vm_compute; reflexivity|]; cbn [l_resource l_factor l_name]; sp; [cbn; tauto|lia|reflexivity|reflexivity]|]).
  destruct I.
Qed.
Lemma print_shown m w st : (1 <= l_factor m)%Z -> plain_limits st -> shown w (l_factor m) (st (l_resource m)) (print_ulimit m (how_of w) st).
Proof.
  intros U P. specialize (P (l_resource m)). unfold shown, print_ulimit.
  assert (G : forall v, plain_limit v -> exists v0, v0 = v /\
     (v0 = rlim_infinity /\ (if (v =? rlim_infinity)%Z then None else Some (let z := (v / l_factor m)%Z in if (z <? 9223372036854775808)%Z then z else (z - 18446744073709551616)%Z)) = None \/
      v0 <> rlim_infinity /\ exists n, (if (v =? rlim_infinity)%Z then None else Some (let z := (v / l_factor m)%Z in if (z <? 9223372036854775808)%Z then z else (z - 18446744073709551616)%Z)) = Some n
         /\ (n * l_factor m <= v0 < (n + 1) * l_factor m)%Z)).
  { intros v V. exists v. split; auto. destruct (Z.eqb_spec v rlim_infinity) as [->|N]; [left; auto|right]. split; auto.
    destruct V as [V|V]; [|contradiction]. exists (v / l_factor m)%Z.
    assert (B : (v / l_factor m <= v)%Z) by (apply Z.div_le_upper_bound; nia). cbv zeta.
    split; [f_equal; destruct (Z.ltb_spec (v / l_factor m) 9223372036854775808); lia|].
    pose proof (Z.mul_div_le v (l_factor m) ltac:(lia)). pose proof (Z.mul_succ_div_gt v (l_factor m) ltac:(lia)). lia. }
  destruct w; cbn [how_of h_soft h_hard]; apply G; tauto.
Qed.
Definition in_range (evs : list ev) : Prop := forall b k c r u nm a n,
  In (c, r, u, nm) documented_limits -> In (Opt b k c (Some a)) evs -> eval a = Some n -> (0 <= n * u < 9223372036854775808)%Z.
Lemma set_amount m a w st c : In (c, l_resource m, l_factor m, l_name m) documented_limits -> is_number a ->
  (forall n, eval a = Some n -> 0 <= n * l_factor m < 9223372036854775808)%Z ->
  (amount eval (l_factor m) a None /\ set_ulimit eval allow m a (how_of w) st = None) \/
  (exists v, amount eval (l_factor m) a (Some v) /\ plain_limit v /\
     set_ulimit eval allow m a (how_of w) st =
       (if allow (l_resource m) (st (l_resource m)) (changed_limit w (st (l_resource m)) v)
        then Some (set_limit st (l_resource m) (changed_limit w (st (l_resource m)) v)) else None)).
Proof.
  intros _ NU R. unfold set_ulimit. destruct (str_eqb_spec a (L "unlimited")) as [->|N].
  - right. exists rlim_infinity. sp; [constructor|now right|]. now destruct w.
  - destruct (eval a) as [n|] eqn:E.
    + right. specialize (R n eq_refl). exists (n * l_factor m)%Z. sp; [now constructor|left; lia|].
      replace ((n =? 0)%Z && negb (isdigit (hd NUL a))) with false.
      * rewrite Z.mod_small by lia. now destruct w.
      * destruct NU as [(d & s' & -> & D)|X]; [|contradiction]. cbn. rewrite D. now rewrite andb_false_r.
    + left. split; auto. now constructor.
Qed.
Lemma plain_set st r w v : plain_limits st -> plain_limit v -> plain_limits (set_limit st r (changed_limit w (st r) v)).
Proof.
  intros P V x. unfold set_limit. destruct (resource_eqb x r); [|auto]. destruct (P r). destruct w; cbn; auto.
Qed.
Lemma p2_ok w evs l : Forall2 agrees evs l -> Forall fine evs -> Forall arg_fine evs -> Forall known evs -> in_range evs ->
  forall st out, plain_limits st ->
  exists ok st' xs, p2 eval allow l (how_of w) st out = (ok, st', out ++ map (pair None) xs) /\
    carried eval allow w st evs st' xs ok /\ plain_limits st'.
Proof.
  induction 1 as [|e x evs l A F2 IH]; intros F AF K R st out P.
  - exists true, st, []. cbn. rewrite app_nil_r. sp; auto. constructor.
  - inversion F as [|? ? F1 F']; subst. inversion K as [|? ? K1 K']; subst. inversion AF as [|? ? AF1 AF']; subst.
    assert (R' : in_range evs) by (intros b k c r u nm a n I1 I2; apply (R b k c r u nm a n I1); now right).
    specialize (IH F' AF' K' R'). cbn [p2].
    destruct F1 as [c a I|c a I|c]; [| |exfalso; eapply K1; reflexivity].
    + cbn in A. destruct A as (_ & _ & RG & MD). apply z_schar in MD; [|auto]. rewrite MD.
      replace ((schar c =? schar "a")%Z || (schar c =? schar "H")%Z || (schar c =? schar "S")%Z) with true
        by (cbn in I; destruct I as [<-|[<-|[<-|[]]]]; reflexivity).
      destruct (IH st out P) as (ok & st' & xs & E & C & P'). exists ok, st', xs. sp; auto. now apply C_flag.
    + cbn in A. destruct A as (_ & AA & RG & MD). apply z_schar in MD; [|auto]. rewrite MD, AA by discriminate.
      destruct (limit_letter c I) as (m & FM & ID & U & -> & ->). rewrite FM. destruct a as [a|].
      * cbn in AF1. destruct (set_amount m a w st c ID AF1) as [[AM S]|(v & AM & PV & S)].
        { intros n E. eapply R; [exact ID|now left|exact E]. }
        -- rewrite S. exists false, st, []. cbn. rewrite app_nil_r. sp; auto. eapply C_bad; eauto.
        -- rewrite S. destruct (allow _ _ _) eqn:AL.
           ++ destruct (IH (set_limit st (l_resource m) (changed_limit w (st (l_resource m)) v)) out) as (ok & st' & xs & E & C & P').
              { now apply plain_set. }
              exists ok, st', xs. sp; auto. eapply C_set; eauto.
           ++ exists false, st, []. cbn. rewrite app_nil_r. sp; auto. eapply C_refused; eauto.
      * destruct (IH st (out ++ [(None, print_ulimit m (how_of w) st)]) P) as (ok & st' & xs & E & C & P').
        exists ok, st', (print_ulimit m (how_of w) st :: xs). sp; auto.
        -- rewrite E. cbn. now rewrite <- app_assoc.
        -- eapply C_show; eauto. now apply print_shown.
Qed.
End Carry.
