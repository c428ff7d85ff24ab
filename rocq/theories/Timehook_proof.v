From Verif Require Import Base Num_model SimplifyPath_model Opt_model Opt_spec Opt_proof Timehook_model.
From Coq Require Import Lia.
Local Open Scope nat_scope.

Definition is_p (e : ev) : Prop := exists b, e = Opt b Plain "p" None.

Lemma no255 : ~ In "255"%char (L ":p").
Proof. cbn. intros [H|[H|[]]]; discriminate. Qed.
Lemma silent_p : silent (L ":p").
Proof. exists (L "p"). reflexivity. Qed.
Lemma declares_p c k : declares (L ":p") c k -> c = "p"%char /\ k = Plain.
Proof.
  intros [a I N E|a d b I N E].
  - destruct a as [|x [|y a]]; cbn in E; try discriminate.
    + inversion E; auto.
    + destruct a; discriminate.
  - destruct a as [|x [|y a]]; cbn in E; try discriminate.
    + exfalso. inversion E; subst. apply I. cbn. auto.
    + destruct a; discriminate.
Qed.

(** what one call gives *)
Lemma agree_p e z plus arg old : agree (L ":p") e z plus arg -> kept (L ":p") e old arg -> (forall b c, e <> Missing b c) ->
  is_p e /\ z = ccode "p" \/ exists b c, e = Unknown b c /\ z = ccode "?" /\ arg = Some [c].
Proof.
  destruct e as [b k c a|b c|b c]; cbn [agree kept]; intros A K M.
  - left. destruct K as [D K]. destruct (declares_p _ _ D) as [-> ->]. destruct (K eq_refl) as [_ ->].
    split; [exists b; reflexivity|]. destruct A as (_ & _ & R & Z). change (ccode "p") with 112%Z in *.
    pose proof (Z.div_mod z 256 ltac:(lia)). lia.
  - right. exists b, c. destruct A as (_ & Z & S). repeat split; auto. apply S, silent_p.
  - destruct (M b c eq_refl).
Qed.
Lemma scan_no_missing plus cur args evs rest mm : scan (L ":p") plus cur args evs rest mm -> forall b c, ~ In (Missing b c) evs.
Proof.
  induction 1; intros b0 c0 I; cbn in I; repeat match goal with H : _ \/ _ |- _ => destruct H | H : declares _ _ _ |- _ => apply declares_p in H as [? ?] end;
    try discriminate; try contradiction; try (eapply IHscan; eassumption).
Qed.

Lemma scan_total wp : cstrings wp -> forall g cur args, at_ wp g cur args ->
  exists evs rest mm, scan (L ":p") (plusopt g) cur args evs rest mm.
Proof.
  intros CS g cur args A. destruct (getopt_loop_spec wp _ CS no255 (S (size_ cur args)) g cur args A ltac:(lia)) as (l & g' & evs & rest & mm & _ & S & _).
  eauto.
Qed.

Definition outcome (wp : list cstr) (posix : bool) (evs : list ev) (rest : list cstr) (o : opts_out) : Prop :=
  match o with
  | ODone p g => Forall is_p evs /\ p = posix || negb (match evs with [] => true | _ => false end) /\ optind g <= length wp /\ skipn (optind g) wp = rest
  | OErr t => exists pre b c post, evs = pre ++ Unknown b c :: post /\ Forall is_p pre /\ t = L "time: -" ++ [c] ++ L " unknown option"
  end.

(** one call of ksh_getopt, the rest given *)
Lemma hook_step wp g cur args z g' f posix : cstrings wp -> plusopt g = false ->
  ksh_getopt wp g (L ":p") = Ok (z, g') -> stepped wp (L ":p") g cur args z g' ->
  (forall cur' args', at_ wp g' cur' args' -> size_ cur' args' < size_ cur args -> plusopt g' = false ->
     exists o evs rest mm, hook_opts f wp g' true = Ok (Some o) /\ scan (L ":p") false cur' args' evs rest mm /\ outcome wp true evs rest o) ->
  exists o evs rest mm, hook_opts (S f) wp g posix = Ok (Some o) /\ scan (L ":p") false cur args evs rest mm /\ outcome wp posix evs rest o.
Proof.
  intros CS PF E S IH. cbn [hook_opts]. rewrite E. cbn [bind].
  destruct S as [rest mm Z S M I K AT P U O|e cur' args' Z AG KP AT SZ' P M U SC].
  - subst z. change (-1 =? -1)%Z with true. cbv iota. rewrite PF in S. eexists _, [], rest, mm. split; [reflexivity|]. split; auto.
    cbn. rewrite orb_false_r. auto.
  - rewrite (proj2 (Z.eqb_neq _ _) Z).
    destruct (scan_total wp CS g' cur' args' AT) as (evs0 & rest0 & mm0 & S0). rewrite P in S0. pose proof (SC _ _ _ S0) as S1.
    assert (forall b c, e <> Missing b c) as NM by (intros b c ->; eapply (scan_no_missing _ _ _ _ _ _ S1); left; reflexivity).
    destruct (agree_p _ _ _ _ _ AG KP NM) as [[IP ->]|(b & c & -> & -> & EA)].
    + rewrite Z.eqb_refl. destruct (IH cur' args' AT SZ' ltac:(congruence)) as (o & evs & rest & mm & E2 & S2 & O2).
      rewrite E2. rewrite PF in SC. exists o, (e :: evs), rest, mm. split; auto. split; auto.
      destruct o as [t|p g2]; cbn in *.
      * destruct O2 as (pre & b & c & post & -> & F & ->). exists (e :: pre), b, c, post. split; [reflexivity|]. split; auto.
      * destruct O2 as (F & -> & I2 & K2). split; [constructor; auto|]. rewrite orb_true_r. auto.
    + change (ccode "?" =? ccode "p")%Z with false. rewrite Z.eqb_refl. cbv iota. unfold optarg_text. rewrite EA. cbn [bind].
      rewrite PF in S1. eexists _, _, rest0, mm0. split; [reflexivity|]. split; [exact S1|].
      exists [], b, c, evs0. repeat split; auto.
Qed.
Lemma hook_opts_ok wp : cstrings wp -> forall fuel g cur args posix, at_ wp g cur args -> size_ cur args < fuel -> plusopt g = false ->
  exists o evs rest mm, hook_opts fuel wp g posix = Ok (Some o) /\ scan (L ":p") false cur args evs rest mm /\ outcome wp posix evs rest o.
Proof.
  intros CS. induction fuel as [|f IH]; intros g cur args posix A SZ PF; [lia|].
  destruct (getopt_step wp g (L ":p") cur args CS no255 A) as (z & g' & E & S).
  eapply hook_step; eauto. intros cur' args' A' SZ' P'. apply IH; auto. lia.
Qed.

(** the first call, with optind 0 *)
Lemma first_call wp : cstrings wp ->
  let g := with_ind (getopt_reset 0 false) 0 in
  (exists g' rest mm, ksh_getopt wp g (L ":p") = Ok ((-1)%Z, g') /\ scan (L ":p") false None wp [] rest mm /\
      optind g' <= length wp /\ skipn (optind g') wp = rest) \/
  (exists z g' , ksh_getopt wp g (L ":p") = Ok (z, g') /\ stepped wp (L ":p") g None wp z g').
Proof.
  intros CS g. unfold ksh_getopt. change (g_p g =? 0) with true. cbv iota. unfold getopt_next. rewrite argv_at_ok by (cbn; lia). cbn [bind].
  change (optind g) with 0. destruct wp as [|w wp].
  { left. do 3 eexists. split; [reflexivity|]. split; [constructor|]. split; [cbn; lia|reflexivity]. }
  cbn [nth_error]. destruct (str_eqb_spec w (L "--")) as [->|ND].
  { left. do 3 eexists. split; [reflexivity|]. split; [constructor|]. cbn. split; [lia|reflexivity]. }
  assert (~ option_word false w -> exists g' rest mm, Ok ((-1)%Z, with_p g 0) = Ok ((-1)%Z, g') /\ scan (L ":p") false None (w :: wp) [] rest mm /\
      optind g' <= length (w :: wp) /\ skipn (optind g') (w :: wp) = rest) as NOP.
  { intros NO. do 3 eexists. split; [reflexivity|]. split; [now apply S_operand|]. cbn. split; [lia|reflexivity]. }
  destruct w as [|f [|c t]].
  - left. apply NOP. intros (s & c' & t' & E & _). discriminate.
  - left. apply NOP. intros (s & c' & t' & E & _). discriminate.
  - change (plusopt g) with false. rewrite andb_false_l, orb_false_r. destruct (ceq f "-") eqn:EF.
    2:{ left. apply NOP. intros (s & c' & t' & E & [Es|[P Es]] & _); [|discriminate]. assert (f = s) as -> by congruence. subst. discriminate. }
    right. set (g1 := Go _ _ _ _ _ _ _).
    destruct (opt_step ((f :: c :: t) :: wp) g1 (L ":p") 0 (f :: c :: t) (negb (ceq f "-")) c t wp)
      as (z & g' & e & cur' & args' & E & NZ & AG & KP & AT & SZ & Q1 & Q2 & Q3 & SC); cbn -[skipn]; try rewrite EF; auto using no255.
    exists z, g'. split; [exact E|]. eapply St_ev; eauto.
    + revert SZ. unfold size_. cbn. lia.
    + intros evs rest mm S. apply S_word; [|apply SC; exact S].
      exists f, c, t. split; auto. split; auto. left. now apply ceq_true.
Qed.

Lemma free_words_ok n wp : n <= length wp -> free_words n (map Some wp ++ [None]) = Ok (firstn n wp).
Proof. revert wp. induction n as [|n IH]; intros [|w wp] H; cbn in *; auto; try lia. rewrite IH by lia. reflexivity. Qed.

Lemma nth_error_skipn_hd {A} (l : list A) j x r : skipn j l = x :: r -> nth_error l j = Some x /\ skipn (S j) l = r /\ j < length l.
Proof.
  revert l. induction j as [|j IH]; intros [|y l] H; cbn in H; try discriminate.
  - inversion H; subst. cbn. repeat split; lia.
  - destruct (IH _ H) as (A1 & A2 & A3). cbn. repeat split; auto; lia.
Qed.
Lemma copy_down_ok rest : forall fuel cells i j, i < j -> skipn j cells = map Some rest ++ [None] -> length rest < fuel ->
  exists cells', copy_down fuel cells i j = Ok (Some cells') /\ length cells' = length cells /\ firstn (i + S (length rest)) cells' = firstn i cells ++ map Some rest ++ [None].
Proof.
  assert (forall (cells : list (option cstr)) i x, i < length cells -> length (set_cell cells i x) = length cells) as LS.
  { intros. unfold set_cell. rewrite app_length, firstn_length. cbn [length]. rewrite skipn_length. lia. }
  assert (forall (cells : list (option cstr)) i x, i < length cells -> firstn (S i) (set_cell cells i x) = firstn i cells ++ [x]) as FS.
  { intros. unfold set_cell. rewrite firstn_app, firstn_firstn, firstn_length.
    replace (Nat.min (S i) i) with i by lia. replace (S i - Nat.min i (length cells)) with 1 by lia. reflexivity. }
  assert (forall (cells : list (option cstr)) i x j, i < length cells -> i < j -> skipn j (set_cell cells i x) = skipn j cells) as SS.
  { intros cells i x j Hi Hj. unfold set_cell. rewrite skipn_app, firstn_length. rewrite skipn_all2 by (rewrite firstn_length; lia). cbn [app].
    replace (j - Nat.min i (length cells)) with (S (j - S i)) by lia. cbn [skipn]. rewrite <- (firstn_skipn (S i) cells) at 2.
    rewrite skipn_app, firstn_length. rewrite (skipn_all2 (firstn _ _)) by (rewrite firstn_length; lia). cbn [app]. f_equal. lia. }
  induction rest as [|w rest IH]; intros [|f] cells i j L E F; cbn in F; try lia; cbn [map app] in E;
    destruct (nth_error_skipn_hd _ _ _ _ E) as (N & K & J); cbn [copy_down]; rewrite N; cbv zeta iota.
  - eexists. split; [reflexivity|]. split; [apply LS; lia|]. replace (i + S (length (@nil cstr))) with (S i) by (cbn; lia). rewrite FS by lia. reflexivity.
  - destruct (IH f (set_cell cells i (Some w)) (S i) (S j)) as (cells' & E' & L' & F'); [lia|rewrite SS by lia; exact K|lia|].
    exists cells'. split; [exact E'|]. split; [rewrite L'; apply LS; lia|]. rewrite FS in F' by lia. rewrite <- app_assoc in F'. cbn [app] in F'.
    cbn [length map app]. replace (i + S (S (length rest))) with (S i + S (length rest)) by lia. exact F'.
Qed.
