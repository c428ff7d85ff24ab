(** C69: the ulimit command. *)
From Verif Require Import Base Num_model SimplifyPath_model Var_model Var_array Opt_model Opt_spec Opt_proof Opt_props Ulimit_kernel Ulimit_model Ulimit_spec Ulimit_proof.
Local Open Scope nat_scope.

(** The lines after those of the options: all limits with -a; the file size when
    there are no arguments. *)
Definition closing (w : which) (args : list cstr) (evs : list ev) (st : limits) (more : list line) : Prop :=
  ((exists b k a, In (Opt b k "a" a) evs) ->
     Forall2 (fun d l => let '(c, r, u, nm) := d in fst l = Some nm /\ shown w u (st r) (snd l)) documented_limits more) /\
  ((forall b k a, ~ In (Opt b k "a" a) evs) ->
     (args = [] -> exists x, more = [(None, x)] /\ shown w 512 (st RFsize) x) /\ (args <> [] -> more = [])).

(** Whatever the arguments are: an unknown option or an operand changes and shows
    nothing; otherwise every option is carried out, in order, up to the first that
    fails; the limits meant are the ones that the last of -H and -S names.  For
    limits in bytes below 2^63. *)
Theorem c69_ulimit : forall eval allow name args st, cstrings (name :: args) -> plain_limits st ->
  exists evs rest mm, scan option_string false None args evs rest mm /\
    ((exists b c, In (Unknown b c) evs) \/ rest <> [] -> c_ulimit eval allow (enough args) (name :: args) st = Ok (Some (1%Z, st, []))) /\
    ((forall b c, ~ In (Unknown b c) evs) -> rest = [] -> in_range eval evs ->
      exists w st' xs ok more, meant evs w /\ carried eval allow w st evs st' xs ok /\
        c_ulimit eval allow (enough args) (name :: args) st =
          Ok (Some ((if ok then 0 else 1)%Z, st', map (pair None) xs ++ more)) /\
        (ok = false -> more = []) /\ (ok = true -> closing w args evs st' more)).
Proof.
  intros eval allow name args st CS P.
  destruct (c19_scan option_string false name args CS) as (l & g & evs & rest & mm & R & SC & AG & OI & SK & _).
  { vm_compute. intuition discriminate. }
  exists evs, rest, mm. split; [exact SC|].
  destruct (scan_fine None args evs rest mm SC) as [FI AF]; [discriminate|].
  change option_string with ulimit_options in R.
  assert (RS : argv_at (name :: args) (optind g) = Ok (match rest with [] => None | s :: _ => Some s end)).
  { unfold argv_at. rewrite (proj2 (Nat.leb_le _ _) OI). rewrite <- SK. f_equal.
    clear. generalize (optind g). induction (name :: args) as [|a t IH]; intros [|n]; cbn; auto. }
  split.
  - intros H. unfold c_ulimit. rewrite (pass1_list _ _ _ _ _ _ _ R). cbn [bind].
    destruct (p1 l (Hw true true) false) as [[h all]|] eqn:E1; [|reflexivity].
    destruct H as [H|H]; [rewrite (p1_unknown evs l) in E1; auto; discriminate|].
    rewrite RS. cbn [bind]. now destruct rest.
  - intros NU -> IR.
    assert (KN : Forall known evs).
    { apply Forall_forall. intros e I b c ->. now apply (NU b c). }
    destruct (p1_ok evs l AG FI KN (Hw true true) false) as (h & all & E1 & AL & HS).
    assert (W : exists w, meant evs w /\ h = how_of w).
    { destruct HS as [[X ->]|(w & _ & M & ->)]; [exists Both|exists w]; split; auto. now constructor. }
    destruct W as (w & M & ->).
    destruct (p2_ok eval allow w evs l AG FI AF KN IR st [] P) as (ok & st' & xs & E2 & C & P').
    unfold c_ulimit. rewrite (pass1_list _ _ _ _ _ _ _ R), E1. cbn [bind]. rewrite RS. cbn [bind].
    rewrite (pass2_list eval allow _ _ _ _ _ _ _ _ R), E2. cbn [bind app].
    assert (SH : forall m, In m limit_table -> shown w (l_factor m) (st' (l_resource m)) (print_ulimit m (how_of w) st')).
    { intros m I. apply print_shown; auto. cbn in I. repeat (destruct I as [<-|I]; [cbn; lia|]). destruct I. }
    destruct ok.
    2:{ exists w, st', xs, false, []. rewrite app_nil_r. sp; auto. discriminate. }
    destruct all.
    + eexists w, st', xs, true, _. sp; eauto; [discriminate|]. intros _. split.
      * intros _. unfold limit_table, documented_limits in *. cbn [map].
        repeat (constructor; [cbn [fst snd l_name]; split; [reflexivity|]; match goal with |- context [print_ulimit ?m _ _] => apply (SH m); cbn; tauto end|]). constructor.
      * intros N. destruct AL as [AL _]. destruct (AL eq_refl) as [X|(b & k & a & X)]; [discriminate|]. exfalso. eapply N; eauto.
    + assert (NA : forall b k a, ~ In (Opt b k "a" a) evs).
      { intros b k a I. destruct AL as [_ AL]. discriminate AL. right. eauto. }
      destruct (Nat.eqb_spec (optind g) 1) as [O1|O1].
      * cbn [limit_table]. rewrite RS. cbn [bind].
        eexists w, st', xs, true, _. sp; eauto; [discriminate|]. intros _. split.
        -- intros (b & k & a & I). exfalso. eapply NA; eauto.
        -- intros _. split.
           ++ intros _. eexists. split; [reflexivity|]. match goal with |- context [print_ulimit ?m _ _] => apply (SH m); cbn; tauto end.
           ++ intros NE. rewrite O1 in SK. cbn in SK. contradiction.
      * exists w, st', xs, true, []. rewrite app_nil_r. sp; auto. intros _. split.
        -- intros (b & k & a & I). exfalso. eapply NA; eauto.
        -- intros _. split; auto. intros ->. exfalso. apply O1.
           clear -R. cbn in R. injection R as _ <-. reflexivity.
Qed.
Print Assumptions c69_ulimit.
(** What is meant is unambiguous (and so are the options, c19_unambiguous). *)
Theorem c69_meant : forall evs w w', meant evs w -> meant evs w' -> w = w'.
Proof. exact meant_det. Qed.
Print Assumptions c69_meant.

(** Limits never change when the kernel refuses, and only the named ones do. *)
Theorem c69_only_named : forall eval allow w st evs st' xs ok r, carried eval allow w st evs st' xs ok ->
  (forall b k c u nm a, In (Opt b k c (Some a)) evs -> ~ In (c, r, u, nm) documented_limits) -> st' r = st r.
Proof.
  intros eval allow w st evs st' xs ok r C. induction C; intros N; auto.
  - apply IHC. intros b0 k0 c0 u nm a0 I. eapply N. right. exact I.
  - apply IHC. intros b0 k0 c0 u0 nm0 a0 I. eapply N. right. exact I.
  - rewrite IHC.
    + unfold set_limit. destruct (resource_eqb r r0) eqn:E; auto. exfalso. eapply N; [left; reflexivity|].
      assert (r = r0) by (destruct r, r0; auto; discriminate). subst r0. eassumption.
    + intros b0 k0 c0 u0 nm0 a0 I. eapply N. right. exact I.
Qed.
Print Assumptions c69_only_named.

Definition dec (s : cstr) : option Z := match s with c :: _ => if isdigit c then Some (fold_left (fun n c => n * 10 + (ccode c - 48))%Z s 0%Z) else None | [] => None end.
Definition lowering : kernel := fun _ old new => (rlim_max new <=? rlim_max old)%Z && (rlim_cur new <=? rlim_max new)%Z.
Definition st0 : limits := fun r => match r with RFsize => Rl 1048576 rlim_infinity | RNofile => Rl 1024 4096 | _ => Rl rlim_infinity rlim_infinity end.
Example c69_ex : exists st, c_ulimit dec lowering 30 [L "ulimit"; L "-n"; L "-f100"; L "-f"; L "-S"; L "-n2000n"; L "-c"; L "unlimited"] st0
   = Ok (Some (1%Z, st, [(None, Some 1024%Z); (None, Some 100%Z)])) /\ st RFsize = Rl 51200 rlim_infinity /\ st RNofile = st0 RNofile.
Proof. eexists. split; [vm_compute; reflexivity|]. vm_compute. auto. Qed.
Example c69_ex_ok : exists st, c_ulimit dec lowering 30 [L "ulimit"; L "-n"; L "-f100"; L "-f"; L "-S"; L "-n"; L "2000"; L "-n"] st0
   = Ok (Some (0%Z, st, [(None, Some 1024%Z); (None, Some 100%Z); (None, Some 2000%Z)])) /\ st RFsize = Rl 51200 rlim_infinity /\ st RNofile = Rl 2000 4096.
Proof. eexists. split; [vm_compute; reflexivity|]. vm_compute. auto. Qed.
Example c69_ex_plain : plain_limits st0.
Proof. intros r. destruct r; split; vm_compute; (right; reflexivity) || (left; split; [discriminate|reflexivity]). Qed.
Example c69_ex_none : exists st, c_ulimit dec lowering 30 [L "ulimit"] st0 = Ok (Some (0%Z, st, [(None, Some 2048%Z)])).
Proof. eexists. vm_compute. reflexivity. Qed.
(** -H or -S alone show nothing, and a bare value is refused. *)
Example c69_ex_flag : exists st, c_ulimit dec lowering 30 [L "ulimit"; L "-H"] st0 = Ok (Some (0%Z, st, [])).
Proof. eexists. vm_compute. reflexivity. Qed.
Example c69_ex_operand : exists st, c_ulimit dec lowering 30 [L "ulimit"; L "100"] st0 = Ok (Some (1%Z, st, [])).
Proof. eexists. vm_compute. reflexivity. Qed.

(** A number of blocks whose number of bytes does not fit wraps around: 2^55
    blocks become a limit of no bytes. *)
Theorem c69_wraps_refuted : exists st, c_ulimit dec lowering 40 [L "ulimit"; L "-f"; L "36028797018963968"] st0 = Ok (Some (0%Z, st, [])) /\ st RFsize = Rl 0 0.
Proof. eexists. split; [vm_compute; reflexivity|]. vm_compute. reflexivity. Qed.
Print Assumptions c69_wraps_refuted.
(** A negative limit is no limit, or one that is not the one asked for. *)
Theorem c69_negative_refuted : exists st, c_ulimit (fun _ => Some (-1)%Z) (fun _ _ _ => true) 40 [L "ulimit"; L "-n"; L "0-1"] st0 = Ok (Some (0%Z, st, [])) /\
  st RNofile = Rl rlim_infinity rlim_infinity.
Proof. eexists. split; [vm_compute; reflexivity|]. vm_compute. reflexivity. Qed.
Print Assumptions c69_negative_refuted.
(** A limit of 2^63 or more is shown as a negative number. *)
Theorem c69_shown_refuted : exists st, c_ulimit dec lowering 40 [L "ulimit"; L "-n"] (fun _ => Rl 9223372036854775808 rlim_infinity) = Ok (Some (0%Z, st, [(None, Some (-9223372036854775808)%Z)])).
Proof. eexists. vm_compute. reflexivity. Qed.
Print Assumptions c69_shown_refuted.
