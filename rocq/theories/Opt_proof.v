(** Proofs about option parsing. *)
From Verif Require Import Base Num_model SimplifyPath_model Opt_model Opt_spec.
Local Open Scope nat_scope.

Lemma skipn_cons_inv {A} (l : list A) n x r : skipn n l = x :: r ->
  nth_error l n = Some x /\ skipn (S n) l = r /\ n < length l.
Proof.
  revert n; induction l as [|y l IH]; intros [|n] H; cbn in *; try discriminate.
  - injection H as -> ->. repeat split; lia.
  - destruct (IH n H) as (A1 & A2 & A3). repeat split; auto; lia.
Qed.
Lemma skipn_nil_inv {A} (l : list A) n : skipn n l = [] -> nth_error l n = None /\ length l <= n.
Proof.
  intros H. assert (length l <= n) by (pose proof (skipn_length n l) as E; rewrite H in E; cbn in E; lia).
  split; auto. now apply nth_error_None.
Qed.
Lemma nth_error_skipn {A} (l : list A) n x : nth_error l n = Some x -> skipn n l = x :: skipn (S n) l.
Proof. revert n; induction l as [|y l IH]; intros [|n] H; cbn in *; try discriminate; [congruence|now apply IH]. Qed.
Lemma nth_skipn_ {A} (l : list A) n d x r : skipn n l = x :: r -> nth n l d = x.
Proof. revert n; induction l as [|y l IH]; intros [|n] H; cbn in *; try discriminate; [congruence|now apply IH]. Qed.

Lemma argv_at_ok argv i : i <= length argv -> argv_at argv i = Ok (nth_error argv i).
Proof. intros H. unfold argv_at. now rewrite (proj2 (Nat.leb_le _ _) H). Qed.

(** ** Specifications *)
Lemma after_chr_split opts c : match after_chr opts c with
  | Some o => exists a, opts = a ++ c :: o /\ ~ In c a
  | None => ~ In c opts end.
Proof.
  induction opts as [|d o IH]; cbn; [tauto|].
  destruct (ceq_spec d c) as [->|N]; [exists []; cbn; tauto|].
  destruct (after_chr o c) as [r|].
  - destruct IH as (a & -> & B). exists (d :: a). cbn. split; auto. intros [E|E]; auto.
  - intros [E|E]; auto.
Qed.
Lemma declares_after opts c k : declares opts c k ->
  is_letter c /\ exists o, after_chr opts c = Some o /\ k = match o with d :: _ => kind_char d | [] => Plain end.
Proof.
  assert (forall a o, ~ In c a -> after_chr (a ++ c :: o) c = Some o) as F.
  { intros a o; induction a as [|d a IH]; cbn; intros N; [now rewrite ceq_refl|].
    destruct (ceq_spec d c) as [->|E]; [exfalso; auto|]. apply IH; auto. }
  intros [a Lt N ->|a d b Lt N ->]; (split; [exact Lt|]); rewrite F by auto; eauto.
Qed.
Lemma after_declares opts c o : is_letter c -> after_chr opts c = Some o ->
  declares opts c (match o with d :: _ => kind_char d | [] => Plain end).
Proof.
  intros Lt E. pose proof (after_chr_split opts c) as S. rewrite E in S. destruct S as (a & -> & N).
  destruct o as [|d b]; [eapply D_last|eapply D_next]; eauto.
Qed.
Lemma declares_det opts c k k' : declares opts c k -> declares opts c k' -> k = k'.
Proof.
  intros D D'. apply declares_after in D, D'. destruct D as (_ & o & E & ->), D' as (_ & o' & E' & ->). now replace o' with o by congruence.
Qed.
Lemma declares_undeclared opts c k : declares opts c k -> undeclared opts c -> False.
Proof.
  intros D [U|U]; apply declares_after in D; destruct D as (Lt & o & E & _); [auto|].
  pose proof (after_chr_split opts c) as S. rewrite E in S. destruct S as (a & -> & _).
  apply U, in_elt.
Qed.
Lemma numeric_number s : numeric s = true <-> is_number s.
Proof.
  unfold numeric, is_number. destruct s as [|d s]; split.
  - discriminate.
  - intros [(? & ? & ? & ?)|?]; discriminate.
  - intros H. apply orb_true_iff in H as [H|H]; [left; eauto|right; now apply str_eqb_true].
  - intros [(d' & s' & E & H)|E]; apply orb_true_iff; [left; congruence|right; now apply str_eqb_true].
Qed.
Lemma numeric_false s : numeric s = false <-> ~ is_number s.
Proof. rewrite <- numeric_number. destruct (numeric s); split; congruence. Qed.

(** ** The state of the scan *)
Definition cstrings (argv : list cstr) : Prop := Forall (fun s => nul_free s = true) argv.
Inductive at_ (argv : list cstr) (g : getopt) : option (bool * cstr) -> list cstr -> Prop :=
| At_none args : g_p g = 0 -> 1 <= optind g -> optind g <= length argv -> skipn (optind g) argv = args -> at_ argv g None args
| At_word i w b t args : optind g = S i -> nth_error argv i = Some w -> 0 < g_p g -> g_p g <= length w ->
    skipn (g_p g) w = t -> skipn (S i) argv = args -> g_plus g = b -> at_ argv g (Some (b, t)) args.

Definition size_ (cur : option (bool * cstr)) (args : list cstr) : nat :=
  match cur with Some (_, t) => S (length t) | None => 0 end + fold_right (fun a n => S (length a) + n) 0 args.

Definition agree (opts : cstr) (e : ev) (z : Z) (plus : bool) (arg : option cstr) : Prop :=
  match e with
  | Opt b k c a => plus = b /\ (k <> Plain -> arg = a) /\ (-128 <= z < 128)%Z /\ (z mod 256 = ccode c)%Z
  | Unknown b c => plus = b /\ z = ccode "?" /\ (silent opts -> arg = Some [c])
  | Missing b c => plus = b /\ (silent opts -> z = ccode ":" /\ arg = Some [c]) /\ (~ silent opts -> z = ccode "?")
  end.

(** the old optarg stays where nothing is said about it *)
Definition kept (opts : cstr) (e : ev) (old new : option cstr) : Prop :=
  match e with
  | Opt _ k c a => declares opts c k /\ (k = Plain -> new = old /\ a = None)
  | _ => ~ silent opts -> new = old
  end.

Lemma schar_spec c : (-128 <= schar c < 128)%Z /\ (schar c mod 256 = ccode c)%Z.
Proof.
  assert (forall c, ((-128 <=? schar c) && (schar c <? 128) && (schar c mod 256 =? ccode c))%Z = true) as H
    by (apply char_sweep; vm_compute; reflexivity).
  specialize (H c). lia.
Qed.
Lemma schar_m1 c : schar c = (-1)%Z -> c = "255"%char.
Proof.
  assert (forall c, (negb (schar c =? -1)%Z || ceq c "255") = true) as H by (apply char_sweep; vm_compute; reflexivity).
  specialize (H c). intros E. rewrite E in H. cbn in H. now apply ceq_true.
Qed.

Lemma getopt_err_spec g opts c r : let '(z, g') := getopt_err g opts c r in
  (silent opts -> z = schar r /\ optarg g' = Some [c]) /\ (~ silent opts -> z = schar "?") /\
  (~ silent opts -> optarg g' = optarg g) /\
  (z = schar r \/ z = schar "?") /\ optind g' = optind g /\ uoptind g' = uoptind g /\
  plusopt g' = plusopt g /\ g_plus g' = g_plus g /\ g_mm g' = g_mm g /\ g_p g' = g_p g.
Proof.
  unfold getopt_err, silent. destruct opts as [|o r']; [cbn; repeat split; auto; match goal with H : exists _, _ |- _ => destruct H; discriminate end|].
  destruct (ceq_spec o ":") as [->|N]; cbn; repeat split; auto; try (intros S; exfalso; apply S; eauto; fail);
    match goal with H : exists _, _ |- _ => destruct H; congruence end.
Qed.

Lemma skipn_S_cons {A} (w : list A) p c t : skipn p w = c :: t -> skipn (S p) w = t /\ S p <= length w.
Proof. intros H. destruct (skipn_cons_inv _ _ _ _ H) as (_ & A1 & A2). split; auto. Qed.

(** one option character *)
Lemma opt_step argv g opts i w b c t args :
  ~ In "255"%char opts ->
  optind g = S i -> nth_error argv i = Some w -> 0 < g_p g -> skipn (g_p g) w = c :: t ->
  skipn (S i) argv = args -> g_plus g = b ->
  exists z g' e cur' args',
    getopt_opt argv g opts c = Ok (z, g') /\ z <> (-1)%Z /\ agree opts e z (g_plus g') (optarg g') /\ kept opts e (optarg g) (optarg g') /\
    at_ argv g' cur' args' /\ size_ cur' args' < size_ (Some (b, c :: t)) args /\
    plusopt g' = plusopt g /\ g_mm g' = g_mm g /\ uoptind g' = uoptind g /\
    forall pk evs rest mm, scan opts pk cur' args' evs rest mm -> scan opts pk (Some (b, c :: t)) args (e :: evs) rest mm.
Proof.
  intros H255 EI EW PP ES EA EB.
  destruct (skipn_S_cons _ _ _ _ ES) as (ES' & PL).
  assert (i < length argv) as IL by (apply nth_error_Some; congruence).
  unfold getopt_opt. set (g1 := with_p g (S (g_p g))).
  assert (at_ argv g1 (Some (b, t)) args) as A1.
  { eapply At_word; cbn; eauto; lia. }
  assert (forall a, at_ argv (with_p (with_arg g1 a) 0) None args) as A0.
  { intros a. apply At_none; cbn; rewrite ?EI; auto; lia. }
  assert (forall a s args', args = s :: args' -> at_ argv (with_p (with_ind (with_arg g1 a) (S (optind g1))) 0) None args') as AN.
  { intros a s args' E. rewrite E in EA. destruct (skipn_cons_inv _ _ _ _ EA) as (_ & S2 & L2).
    apply At_none; cbn -[skipn]; rewrite ?EI; auto; lia. }
  assert (argv_at argv (optind g1 - 1) = Ok (Some w)) as R1.
  { cbn. rewrite EI. replace (S i - 1) with i by lia. rewrite argv_at_ok by lia. now rewrite EW. }
  assert (g_p g1 <=? length w = true) as R2 by (apply Nat.leb_le; cbn; lia).
  assert (skipn (g_p g1) w = t) as R3 by exact ES'.
  assert (argv_at argv (optind g1) = Ok (nth_error argv (S i))) as R4.
  { cbn. rewrite EI. apply argv_at_ok. lia. }
  assert (forall k, declares opts c k -> schar c <> (-1)%Z) as NM.
  { intros k D E. apply schar_m1 in E. apply declares_after in D. destruct D as (_ & o & E1 & _).
    pose proof (after_chr_split opts c) as S. rewrite E1 in S. destruct S as (a & -> & _).
    apply H255. rewrite <- E. apply in_elt. }
  pose proof (schar_spec c) as [SC1 SC2].
  destruct (if mem c (L "?:;,#") then None else after_chr opts c) as [o|] eqn:EO.
  2:{ destruct (getopt_err g1 opts c "?") as [z g'] eqn:GE.
      pose proof (getopt_err_spec g1 opts c "?") as GS. rewrite GE in GS.
      destruct GS as (Q1 & Q2 & Q0 & Q3 & Q4 & Q5 & Q6 & Q7 & Q8 & Q9).
      exists z, g', (Unknown b c), (Some (b, t)), args.
      split; [reflexivity|]. split; [destruct Q3 as [->| ->]; discriminate|].
      split. { cbn. split; [rewrite Q7; exact EB|]. split; [destruct Q3 as [->| ->]; reflexivity|]. intros S; apply Q1; auto. }
      split; [exact Q0|].
      split. { eapply At_word; rewrite ?Q4, ?Q9, ?Q7; cbn; eauto; lia. }
      split; [cbn; lia|]. split; [exact Q6|]. split; [exact Q8|]. split; [exact Q5|].
      intros. apply S_unknown; auto. destruct (mem c (L "?:;,#")) eqn:M.
      - left. intros X. apply X, mem_In, M.
      - right. pose proof (after_chr_split opts c) as S. now rewrite EO in S. }
  assert (is_letter c) as LT.
  { intros X. apply mem_In in X. rewrite X in EO. discriminate. }
  assert (after_chr opts c = Some o) as EO' by (destruct (mem c (L "?:;,#")); congruence).
  pose proof (after_declares _ _ _ LT EO') as D.
  set (k := match o with d :: _ => d | [] => NUL end).
  assert (declares opts c (kind_char k)) as D'. { unfold k. destruct o; exact D. }
  clear D EO EO'.
  unfold kind_char in D'.
  destruct (ceq_spec k ":") as [K|K1]; [|destruct (ceq_spec k ";") as [K|K2]].
  - (* : *)
    cbn [orb]. rewrite R1; cbn [bind]. rewrite R2, R3; cbn [bind].
    destruct t as [|c1 t1].
    + rewrite R4; cbn [bind]. destruct (nth_error argv (S i)) as [s|] eqn:EN.
      * assert (args = s :: skipn (S (S i)) argv) as EA' by (rewrite <- EA; now apply nth_error_skipn).
        eexists _, _, (Opt b Needs c (Some s)), None, (skipn (S (S i)) argv).
        split; [reflexivity|]. split; [eauto|]. split; [cbn; auto|]. split; [split; [exact D'|discriminate]|]. split; [eapply AN; eauto|].
        split; [rewrite EA'; cbn; lia|]. repeat (split; [reflexivity|]).
        intros. rewrite EA'. eapply S_next; eauto.
      * assert (args = []) as -> by (rewrite <- EA; apply skipn_all2; now apply nth_error_None).
        destruct (ceq_spec k ";") as [X|_]; [congruence|].
        destruct (getopt_err g1 opts c ":") as [z g'] eqn:GE.
        pose proof (getopt_err_spec g1 opts c ":") as GS. rewrite GE in GS.
        destruct GS as (Q1 & Q2 & Q0 & Q3 & Q4 & Q5 & Q6 & Q7 & Q8 & Q9).
        exists z, g', (Missing b c), (Some (b, [])), [].
        split; [reflexivity|]. split; [destruct Q3 as [->| ->]; discriminate|].
        split. { cbn. split; [rewrite Q7; exact EB|]. auto. }
        split; [exact Q0|].
        split. { eapply At_word; rewrite ?Q4, ?Q9, ?Q7; cbn; eauto; lia. }
        split; [cbn; lia|]. split; [exact Q6|]. split; [exact Q8|]. split; [exact Q5|].
        intros pk evs rest mm S. inversion S as [ | | | |? ? ? ? ? S'| | | | | | | | | | |]; subst. inversion S'; subst. now apply S_missing.
    + eexists _, _, (Opt b Needs c (Some (c1 :: t1))), None, args.
      split; [reflexivity|]. split; [eauto|]. split; [cbn; auto|]. split; [split; [exact D'|discriminate]|]. split; [now apply A0|].
      split; [cbn; lia|]. repeat (split; [reflexivity|]).
      intros. eapply S_rest; eauto. discriminate.
  - (* ; *)
    cbn [orb]. rewrite R1; cbn [bind]. rewrite R2, R3; cbn [bind].
    destruct t as [|c1 t1].
    + rewrite R4; cbn [bind]. destruct (nth_error argv (S i)) as [s|] eqn:EN.
      * assert (args = s :: skipn (S (S i)) argv) as EA' by (rewrite <- EA; now apply nth_error_skipn).
        eexists _, _, (Opt b Optional c (Some s)), None, (skipn (S (S i)) argv).
        split; [reflexivity|]. split; [eauto|]. split; [cbn; auto|]. split; [split; [exact D'|discriminate]|]. split; [eapply AN; eauto|].
        split; [rewrite EA'; cbn; lia|]. repeat (split; [reflexivity|]).
        intros. rewrite EA'. eapply S_next; eauto.
      * assert (args = []) as -> by (rewrite <- EA; apply skipn_all2; now apply nth_error_None).
        eexists _, _, (Opt b Optional c None), None, [].
        split; [reflexivity|]. split; [eauto|]. split; [cbn; auto|]. split; [split; [exact D'|discriminate]|]. split; [now apply A0|].
        split; [cbn; lia|]. repeat (split; [reflexivity|]).
        intros pk evs rest mm S. inversion S; subst. now apply S_without.
    + eexists _, _, (Opt b Optional c (Some (c1 :: t1))), None, args.
      split; [reflexivity|]. split; [eauto|]. split; [cbn; auto|]. split; [split; [exact D'|discriminate]|]. split; [now apply A0|].
      split; [cbn; lia|]. repeat (split; [reflexivity|]).
      intros. eapply S_rest; eauto. discriminate.
  - cbn [orb]. destruct (ceq_spec k ",") as [K|K3]; [|destruct (ceq_spec k "#") as [K|K4]].
    + rewrite R1; cbn [bind]. rewrite R2, R3; cbn [bind].
      eexists _, _, (Opt b Attached c (Some t)), None, args.
      split; [reflexivity|]. split; [eauto|]. split; [cbn; auto|]. split; [split; [exact D'|discriminate]|]. split; [now apply A0|].
      split; [cbn; lia|]. repeat (split; [reflexivity|]).
      intros. eapply S_attached; eauto.
    + rewrite R1; cbn [bind]. rewrite R2, R3; cbn [bind].
      destruct t as [|c1 t1].
      * rewrite R4; cbn [bind].
        assert (at_ argv (with_arg g1 None) (Some (b, [])) args) as A2 by (eapply At_word; cbn; eauto; lia).
        destruct (nth_error argv (S i)) as [s|] eqn:EN.
        -- assert (args = s :: skipn (S (S i)) argv) as EA' by (rewrite <- EA; now apply nth_error_skipn).
           destruct (numeric s) eqn:EM.
           ++ eexists _, _, (Opt b Number c (Some s)), None, (skipn (S (S i)) argv).
              split; [reflexivity|]. split; [eauto|]. split; [cbn; auto|]. split; [split; [exact D'|discriminate]|]. split; [eapply AN; eauto|].
              split; [rewrite EA'; cbn; lia|]. repeat (split; [reflexivity|]).
              intros. rewrite EA'. eapply S_num_next; eauto. now apply numeric_number.
           ++ eexists _, _, (Opt b Number c None), (Some (b, [])), args.
              split; [reflexivity|]. split; [eauto|]. split; [cbn; auto|]. split; [split; [exact D'|discriminate]|]. split; [exact A2|].
              split; [cbn; lia|]. repeat (split; [reflexivity|]).
              intros pk evs rest mm S. inversion S; subst. eapply S_num_end; eauto.
              intros a args' E. assert (a = s) as -> by congruence. now apply numeric_false.
        -- assert (args = []) as -> by (rewrite <- EA; apply skipn_all2; now apply nth_error_None).
           eexists _, _, (Opt b Number c None), (Some (b, [])), [].
           split; [reflexivity|]. split; [eauto|]. split; [cbn; auto|]. split; [split; [exact D'|discriminate]|]. split; [exact A2|].
           split; [cbn; lia|]. repeat (split; [reflexivity|]).
           intros pk evs rest mm S. inversion S; subst. eapply S_num_end; eauto. discriminate.
      * destruct (numeric (c1 :: t1)) eqn:EM.
        -- eexists _, _, (Opt b Number c (Some (c1 :: t1))), None, args.
           split; [reflexivity|]. split; [eauto|]. split; [cbn; auto|]. split; [split; [exact D'|discriminate]|]. split; [now apply A0|].
           split; [cbn; lia|]. repeat (split; [reflexivity|]).
           intros. eapply S_num_rest; eauto. now apply numeric_number.
        -- eexists _, _, (Opt b Number c None), (Some (b, c1 :: t1)), args.
           split; [reflexivity|]. split; [eauto|]. split; [cbn; auto|]. split; [split; [exact D'|discriminate]|].
           split; [eapply At_word; cbn; eauto; lia|].
           split; [cbn; lia|]. repeat (split; [reflexivity|]).
           intros. eapply S_num_none; eauto; [discriminate|]. now apply numeric_false.
    + eexists _, _, (Opt b Plain c None), (Some (b, t)), args.
      split; [reflexivity|]. split; [eauto|].
      split; [cbn; repeat split; auto; try lia; intros X; destruct (X eq_refl)|]. split; [split; [exact D'|auto]|]. split; [exact A1|].
      split; [cbn; lia|]. repeat (split; [reflexivity|]).
      intros. eapply S_plain; eauto.
Qed.

(** the outcome of one call *)
Inductive stepped (argv : list cstr) (opts : cstr) (g : getopt) (cur : option (bool * cstr)) (args : list cstr) (z : Z) (g' : getopt) : Prop :=
| St_end rest mm : z = (-1)%Z -> scan opts (plusopt g) cur args [] rest mm -> g_mm g' = g_mm g || mm ->
    optind g' <= length argv -> skipn (optind g') argv = rest -> at_ argv g' None rest ->
    plusopt g' = plusopt g -> uoptind g' = uoptind g -> optarg g' = optarg g -> stepped argv opts g cur args z g'
| St_ev e cur' args' : z <> (-1)%Z -> agree opts e z (g_plus g') (optarg g') -> kept opts e (optarg g) (optarg g') -> at_ argv g' cur' args' ->
    size_ cur' args' < size_ cur args -> plusopt g' = plusopt g -> g_mm g' = g_mm g -> uoptind g' = uoptind g ->
    (forall evs rest mm, scan opts (plusopt g) cur' args' evs rest mm -> scan opts (plusopt g) cur args (e :: evs) rest mm) ->
    stepped argv opts g cur args z g'.

Lemma next_step argv g opts args :
  ~ In "255"%char opts -> 1 <= optind g -> optind g <= length argv -> skipn (optind g) argv = args ->
  exists z g', getopt_next argv g opts = Ok (z, g') /\ stepped argv opts g None args z g'.
Proof.
  intros H255 I1 IL EA. unfold getopt_next. rewrite argv_at_ok by auto. cbn [bind].
  assert (at_ argv (with_p g 0) None args) as A0 by (apply At_none; auto).
  destruct (nth_error argv (optind g)) as [w|] eqn:EN.
  2:{ assert (args = []) as -> by (rewrite <- EA; apply skipn_all2; now apply nth_error_None).
      do 2 eexists; split; [reflexivity|]. eapply St_end with (mm := false); cbn; eauto; [constructor|now rewrite orb_false_r]. }
  assert (args = w :: skipn (S (optind g)) argv) as EA' by (rewrite <- EA; now apply nth_error_skipn).
  assert (optind g < length argv) by (apply nth_error_Some; congruence).
  destruct (str_eqb_spec w (L "--")) as [->|ND].
  { do 2 eexists; split; [reflexivity|]. eapply St_end with (mm := true); cbn -[skipn]; eauto.
    - rewrite EA'. constructor.
    - now rewrite orb_true_r.
    - apply At_none; cbn; auto; lia. }
  assert (~ option_word (plusopt g) w -> exists z g', Ok ((-1)%Z, with_p g 0) = Ok (z, g') /\ stepped argv opts g None args z g') as NOP.
  { intros NO. do 2 eexists; split; [reflexivity|]. eapply St_end with (mm := false) (rest := args); cbn; eauto.
    - rewrite EA'. now apply S_operand.
    - now rewrite orb_false_r. }
  assert (forall f c t, w = f :: c :: t -> option_word (plusopt g) w -> (ceq f "-" || (plusopt g && ceq f "+")) = true) as OW.
  { intros f c t -> (s & c' & t' & E & [Es|[P Es]] & _); assert (f = s) as -> by congruence; subst; rewrite ?P; reflexivity. }
  destruct w as [|f [|c t]].
  - apply NOP; auto. intros (s & c' & t' & E & _). discriminate.
  - apply NOP; auto. intros (s & c' & t' & E & _). discriminate.
  - destruct (ceq f "-" || (plusopt g && ceq f "+")) eqn:EF.
    2:{ apply NOP; auto. intros O. specialize (OW _ _ _ eq_refl O). congruence. }
    set (g1 := Go _ _ _ _ _ _ _).
    destruct (opt_step argv g1 opts (optind g) (f :: c :: t) (negb (ceq f "-")) c t (skipn (S (optind g)) argv))
      as (z & g' & e & cur' & args' & E & NZ & AG & KP & AT & SZ & Q1 & Q2 & Q3 & SC); cbn -[skipn]; auto.
    exists z, g'; split; [exact E|]. eapply St_ev; eauto.
    + rewrite EA'. revert SZ. unfold size_. cbn -[skipn]. lia.
    + intros evs rest mm S. rewrite EA'. apply S_word; [|apply SC; exact S].
      exists f, c, t. split; auto. split; auto. apply orb_true_iff in EF as [EF|EF].
      * left. now apply ceq_true.
      * apply andb_true_iff in EF as [P1 P2]. right. split; auto. now apply ceq_true.
Qed.

Lemma cstr_char argv i w p c t : cstrings argv -> nth_error argv i = Some w -> skipn p w = c :: t -> is_nul c = false.
Proof.
  intros C E S. apply nth_error_In in E. pose proof (proj1 (Forall_forall _ _) C _ E) as N. cbn in N.
  unfold nul_free in N. rewrite forallb_forall in N. rewrite <- negb_true_iff. apply N.
  rewrite <- (firstn_skipn p w). apply in_or_app. right. rewrite S. now left.
Qed.

Lemma size_close argv opts g b args z g' : stepped argv opts g None args z g' -> stepped argv opts g (Some (b, [])) args z g'.
Proof.
  intros [rest mm Z S M I K A P U O|e cur' args' Z AG KP A SZ P M U SC].
  - eapply St_end; eauto. now apply S_done.
  - eapply St_ev; eauto.
    + cbn in *. lia.
    + intros. apply S_done. auto.
Qed.

Lemma getopt_step argv g opts cur args : cstrings argv -> ~ In "255"%char opts -> at_ argv g cur args ->
  exists z g', ksh_getopt argv g opts = Ok (z, g') /\ stepped argv opts g cur args z g'.
Proof.
  intros CS H255 A. unfold ksh_getopt. destruct A as [args P I0 I EA|i w b t args EI EW PP PL ES EA EB].
  - rewrite P. cbn. now apply next_step.
  - replace (g_p g =? 0) with false by lia. rewrite EI.
    assert (i < length argv) as IL by (apply nth_error_Some; congruence).
    unfold argv_char. rewrite argv_at_ok by lia. cbn [bind]. rewrite EW. unfold char_at.
    rewrite (proj2 (Nat.leb_le _ _) PL). cbn [bind].
    destruct t as [|c t].
    + replace (nth (g_p g) w NUL) with NUL.
      2:{ symmetry. apply nth_overflow. apply skipn_nil_inv in ES. lia. }
      change (is_nul NUL) with true. cbv iota.
      destruct (next_step argv g opts args) as (z & g' & E & S); auto; try (rewrite EI; lia || assumption).
      exists z, g'. split; auto. now apply size_close.
    + rewrite (nth_skipn_ _ _ _ _ _ ES), (cstr_char _ _ _ _ _ _ CS EW ES).
      destruct (opt_step argv g opts i w b c t args) as (z & g' & e & cur' & args' & E & NZ & AG & KP & AT & SZ & Q1 & Q2 & Q3 & SC); auto.
      exists z, g'; split; [exact E|]. eapply St_ev; eauto.
Qed.

Lemma getopt_loop_spec argv opts : cstrings argv -> ~ In "255"%char opts -> forall fuel g cur args,
  at_ argv g cur args -> size_ cur args < fuel ->
  exists l g' evs rest mm, getopt_loop fuel argv g opts = Ok (Some (l, g')) /\
    scan opts (plusopt g) cur args evs rest mm /\
    Forall2 (fun e x => agree opts e (s_ret x) (s_plus x) (s_arg x)) evs l /\
    optind g' <= length argv /\ skipn (optind g') argv = rest /\ g_mm g' = g_mm g || mm.
Proof.
  intros CS H255. induction fuel as [|f IH]; intros g cur args A SZ; [lia|].
  cbn [getopt_loop]. destruct (getopt_step argv g opts cur args CS H255 A) as (z & g' & E & S).
  rewrite E. cbn [bind]. destruct S as [rest mm Z S M I K AT P U O|e cur' args' Z AG KP AT SZ' P M U SC].
  - rewrite (proj2 (Z.eqb_eq _ _) Z). exists [], g', [], rest, mm. repeat split; auto.
  - rewrite (proj2 (Z.eqb_neq _ _) Z).
    destruct (IH g' cur' args' AT) as (l & g2 & evs & rest & mm & E2 & S2 & F2 & I2 & K2 & M2); [lia|].
    rewrite E2. cbn [bind]. eexists _, _, (e :: evs), rest, mm. split; [reflexivity|].
    split; [apply SC; now rewrite <- P|]. split; [constructor; auto|]. repeat split; auto. now rewrite M2, M.
Qed.

(** ** The specification is a function *)
Ltac scan_clash :=
  repeat match goal with
  | H : declares ?o ?c ?k, H' : declares ?o ?c ?k' |- _ =>
      lazymatch k with k' => fail | _ => idtac end;
      pose proof (declares_det _ _ _ _ H H'); clear H'; try discriminate; subst
  | H : declares _ ?c _, U : undeclared _ ?c |- _ => destruct (declares_undeclared _ _ _ H U)
  | H : Needs = _ \/ _ |- _ => destruct H; try discriminate; subst
  | H : ?k = Needs \/ ?k = Optional |- _ => destruct H; try discriminate; subst
  | H : ?x <> ?x |- _ => destruct (H eq_refl)
  end.

Lemma scan_det opts pk cur args evs rest mm : scan opts pk cur args evs rest mm -> forall evs' rest' mm',
  scan opts pk cur args evs' rest' mm' -> evs = evs' /\ rest = rest' /\ mm = mm'.
Proof.
  assert (forall (e : ev) evs evs' (rest rest' : list cstr) (mm mm' : bool),
    evs = evs' /\ rest = rest' /\ mm = mm' -> e :: evs = e :: evs' /\ rest = rest' /\ mm = mm') as CC
    by (intros ? ? ? ? ? ? ? (-> & -> & ->); auto).
  assert (~ option_word pk (L "--")) as NDD by (intros (s & c & t & _ & _ & N); now apply N).
  assert (~ is_number []) as NN by (intros [(? & ? & E & _)|E]; discriminate).
  induction 1; intros evs' rest' mm' S; inversion S; subst; auto; scan_clash; auto; try congruence;
    try (exfalso; eauto; fail); try (apply CC; eauto; fail).
  all: try (exfalso; match goal with H : forall a args', _ = _ -> ~ is_number _, N : is_number _ |- _ => exact (H _ _ eq_refl N) end).
Qed.

(** ** getopts: the saved state can be used with any arguments *)
Definition sane (g : getopt) : Prop := 1 <= optind g.
Lemma reset_sane g v px : sane g -> sane (getopts_reset g v px).
Proof. unfold getopts_reset, sane. destruct (1 <=? v)%Z eqn:E; auto. cbn. lia. Qed.

(** safety alone needs no restriction on the options *)
Lemma opt_safe argv g opts i w c t :
  optind g = S i -> nth_error argv i = Some w -> 0 < g_p g -> skipn (g_p g) w = c :: t ->
  exists z g', getopt_opt argv g opts c = Ok (z, g') /\ sane g'.
Proof.
  intros EI EW PP ES. destruct (skipn_S_cons _ _ _ _ ES) as (ES' & PL).
  assert (i < length argv) as IL by (apply nth_error_Some; congruence).
  unfold getopt_opt, sane. set (g1 := with_p g (S (g_p g))).
  assert (argv_at argv (optind g1 - 1) = Ok (Some w)) as R1.
  { cbn. rewrite EI. replace (S i - 1) with i by lia. rewrite argv_at_ok by lia. now rewrite EW. }
  assert (g_p g1 <=? length w = true) as R2 by (apply Nat.leb_le; cbn; lia).
  assert (skipn (g_p g1) w = t) as R3 by exact ES'.
  assert (argv_at argv (optind g1) = Ok (nth_error argv (S i))) as R4.
  { cbn. rewrite EI. apply argv_at_ok. lia. }
  destruct (if mem c (L "?:;,#") then None else after_chr opts c) as [o|].
  2:{ pose proof (getopt_err_spec g1 opts c "?") as GS. destruct (getopt_err g1 opts c "?") as [z g'].
      do 2 eexists; split; [reflexivity|]. destruct GS as (_ & _ & _ & _ & -> & _). cbn. lia. }
  rewrite R1; cbn [bind]. rewrite R2, R3; cbn [bind]. rewrite R4. cbn [bind].
  pose proof (getopt_err_spec g1 opts c ":") as GS. destruct (getopt_err g1 opts c ":") as [z g'].
  destruct GS as (_ & _ & _ & _ & GI & _).
  repeat match goal with
  | |- context [match ?x with _ => _ end] => destruct x
  | |- context [if ?x then _ else _] => destruct x
  end; do 2 eexists; (split; [reflexivity|]); rewrite ?GI; cbn; lia.
Qed.
Lemma next_safe argv g opts : sane g -> optind g <= length argv ->
  exists z g', getopt_next argv g opts = Ok (z, g') /\ sane g'.
Proof.
  unfold sane. intros S I. unfold getopt_next. rewrite argv_at_ok by auto. cbn [bind].
  destruct (nth_error argv (optind g)) as [w|] eqn:EN; [|do 2 eexists; split; [reflexivity|exact S]].
  destruct (str_eqb w (L "--")); [do 2 eexists; split; [reflexivity|cbn; lia]|].
  destruct w as [|f [|c t]]; try (do 2 eexists; split; [reflexivity|exact S]).
  destruct (_ || _); [|do 2 eexists; split; [reflexivity|exact S]].
  eapply opt_safe; cbn; eauto.
Qed.

Lemma c_getopts_safe g wp opts : sane g -> exists r g', c_getopts g wp opts = Ok (r, g') /\ sane g'.
Proof.
  intros SN. unfold c_getopts. destruct (length wp <? optind g) eqn:E; [eauto|].
  assert (optind g <= length wp) as I by lia.
  assert (forall long, long = false \/ long = true ->
    (long = false -> g_p g = 0 \/ exists i w, optind g = S i /\ nth_error wp i = Some w /\ g_p g <= length w) ->
    exists r g', (if long : bool then Ok (GError, g) else
      do r <- ksh_getopt wp (with_arg g None) opts ; let '(z, g) := r in
      let buf := if (0 <=? z)%Z && negb (z =? schar "?")%Z && g_plus g then ["+"%char; ascii_of_N (Z.to_N z)]
                 else [if (z <? 0)%Z then "?"%char else ascii_of_N (Z.to_N z)] in
      let g := if (z =? schar "?")%Z then g else with_uind g (optind g) in
      Ok (GSet buf (optarg g) (if (z <? 0)%Z then 1%Z else 0%Z), g)) = Ok (r, g') /\ sane g') as K.
  { intros long _ H. destruct long; [eauto|]. specialize (H eq_refl).
    assert (exists z g', ksh_getopt wp (with_arg g None) opts = Ok (z, g') /\ sane g') as (z & g' & E1 & S1).
    { unfold ksh_getopt. cbn. destruct (g_p g =? 0) eqn:EP; [apply next_safe; auto|].
      destruct H as [H|(i & w & EI & EW & PL)]; [lia|]. rewrite EI.
      assert (i < length wp) as IL by (apply nth_error_Some; congruence).
      unfold argv_char. rewrite argv_at_ok by lia. cbn [bind]. rewrite EW. unfold char_at.
      rewrite (proj2 (Nat.leb_le _ _) PL). cbn [bind].
      destruct (skipn (g_p g) w) as [|c t] eqn:ES.
      - replace (nth (g_p g) w NUL) with NUL.
        2:{ symmetry. apply nth_overflow. apply skipn_nil_inv in ES. lia. }
        change (is_nul NUL) with true. cbv iota. apply next_safe; auto.
      - rewrite (nth_skipn_ _ _ _ _ _ ES). destruct (is_nul c); [apply next_safe; auto|].
        eapply opt_safe; cbn; eauto; lia. }
    rewrite E1. cbn [bind]. do 2 eexists; split; [reflexivity|]. destruct (_ =? _)%Z; exact S1. }
  destruct (g_p g =? 0) eqn:EP.
  - cbn [bind]. apply (K false); auto. intros _. left. lia.
  - destruct (optind g) as [|i] eqn:EI; [unfold sane in SN; lia|].
    rewrite argv_at_ok by lia. cbn [bind].
    destruct (nth_error wp i) as [w|] eqn:EW; [|apply nth_error_None in EW; lia].
    assert (length w <? g_p g = false \/ length w <? g_p g = true) as B by (destruct (length w <? g_p g); auto).
    apply (K (length w <? g_p g) B). clear K. intros LW. right. exists i, w. repeat split; auto. apply Nat.ltb_ge; exact LW.
Qed.

(** ** getopts on the same arguments again and again *)
Definition gagree (opts : cstr) (e : ev) (r : gres) : Prop :=
  match e with
  | Opt b k c a => r = GSet (if b then ["+"%char; c] else [c]) a 0
  | Unknown b c => exists v, r = GSet ["?"%char] v 0 /\ (silent opts -> v = Some [c]) /\ (~ silent opts -> v = None)
  | Missing b c => (silent opts -> r = GSet (if b then L "+:" else L ":") (Some [c]) 0) /\ (~ silent opts -> r = GSet ["?"%char] None 0)
  end.

Lemma ascii_of_code c : ascii_of_N (Z.to_N (ccode c)) = c.
Proof. unfold ccode. rewrite N2Z.id. apply ascii_N_embedding. Qed.
Lemma silent_dec opts : silent opts \/ ~ silent opts.
Proof.
  destruct opts as [|c o]; [right; intros (? & ?); discriminate|].
  destruct (ascii_dec c ":") as [->|N]; [left; eexists; reflexivity|right; intros (? & E); congruence].
Qed.

Lemma getopts_loop_spec wp opts : cstrings wp -> Forall (fun c => (ccode c < 128)%Z) opts -> forall fuel g cur args,
  1 <= optind g -> at_ wp g cur args -> size_ cur args < fuel ->
  exists l g' evs rest mm, getopts_loop fuel g wp opts = Ok (Some (l ++ [GSet ["?"%char] None 1], g')) /\
    scan opts (plusopt g) cur args evs rest mm /\ Forall2 (gagree opts) evs l /\
    uoptind g' <= length wp /\ skipn (uoptind g') wp = rest.
Proof.
  intros CS HA. assert (~ In "255"%char opts) as H255.
  { intros I. pose proof (proj1 (Forall_forall _ _) HA _ I) as X. vm_compute in X. discriminate. }
  induction fuel as [|f IH]; intros g cur args SN A SZ; [lia|].
  cbn [getopts_loop]. unfold c_getopts.
  assert (optind g <= length wp) as IL.
  { destruct A as [? ? ? ? ?|i w b t args EI EW ? ? ? ? ?]; auto. assert (i < length wp) by (apply nth_error_Some; congruence). lia. }
  replace (length wp <? optind g) with false by lia.
  assert ((if g_p g =? 0 then Ok false
                else match optind g with
                     | O => UB
                     | S i => do a <- argv_at wp i ;
                              match a with Some s => Ok (length s <? g_p g) | None => UB end
                     end) = Ok false) as ->.
  { destruct A as [? P ? ? ?|i w b t args EI EW ? PL ? ? ?]; [now rewrite P|].
    replace (g_p g =? 0) with false by lia. rewrite EI. rewrite argv_at_ok by lia. cbn [bind]. rewrite EW.
    now replace (length w <? g_p g) with false by lia. }
  cbn [bind].
  assert (at_ wp (with_arg g None) cur args) as A' by (destruct A; [apply At_none|eapply At_word]; eauto).
  destruct (getopt_step wp (with_arg g None) opts cur args CS H255 A') as (z & g' & E & ST).
  rewrite E. cbn [bind].
  destruct ST as [rest mm Z SC M I K AT P U O|e cur' args' Z AG KP AT SZ' P M U SC].
  - subst z. cbn. rewrite O. cbn.
    exists [], (with_uind g' (optind g')), [], rest, mm. repeat split; auto.
  - cbn in KP.
    set (g2 := if (z =? schar "?")%Z then g' else with_uind g' (optind g')).
    assert (at_ wp g2 cur' args') as AT2 by (unfold g2; destruct (_ =? _)%Z; auto; destruct AT; [apply At_none|eapply At_word]; eauto).
    assert (1 <= optind g2) as SN2.
    { enough (1 <= optind g') by (unfold g2; destruct (_ =? _)%Z; auto).
      destruct AT; lia. }
    assert (plusopt g2 = plusopt g) as P2 by (unfold g2; destruct (_ =? _)%Z; auto).
    assert (optarg g2 = optarg g') as O2 by (unfold g2; destruct (_ =? _)%Z; auto).
    assert (0 <= z)%Z as Z0.
    { destruct e as [b k c a|b c|b c]; cbn in AG.
      - destruct AG as (_ & _ & Z1 & Z2). destruct KP as [D _].
        assert (In c opts) as IC.
        { apply declares_after in D. destruct D as (_ & o & E1 & _).
          pose proof (after_chr_split opts c) as S. rewrite E1 in S. destruct S as (a' & -> & _). apply in_elt. }
        pose proof (proj1 (Forall_forall _ _) HA _ IC) as X. cbn in X.
        assert (0 <= ccode c)%Z by (unfold ccode; lia).
        assert (z = ccode c \/ z = ccode c - 256)%Z by (pose proof (Z.div_mod z 256); lia). lia.
      - destruct AG as (_ & -> & _). discriminate.
      - destruct (silent_dec opts) as [SI|SI]; [destruct AG as (_ & AG & _), (AG SI) as (-> & _)|destruct AG as (_ & _ & AG); rewrite (AG SI)]; discriminate. }
    replace (z <? 0)%Z with false by lia. replace (0 <=? z)%Z with true by lia.
    destruct (IH g2 cur' args' SN2 AT2) as (l & g3 & evs & rest & mm & E3 & S3 & F3 & I3 & K3); [lia|].
    rewrite E3. cbn [bind]. eexists (_ :: l), g3, (e :: evs), rest, mm. split; [reflexivity|].
    split; [apply SC; cbn; now rewrite <- P2|]. split; [constructor; auto|auto].
    rewrite O2. clear - AG KP Z0. destruct e as [b k c a|b c|b c]; cbn in AG, KP |- *.
    + destruct AG as (-> & AK & Z1 & Z2), KP as (D & KP).
      assert (z = ccode c) as ->.
      { assert (0 <= ccode c < 256)%Z by (pose proof (N_ascii_bounded c); unfold ccode; lia).
        pose proof (Z.div_mod z 256). lia. }
      assert (ccode c <> schar "?") as NQ.
      { intros X. apply declares_after in D as (LT & _). apply LT. rewrite <- (ascii_of_code c), X. now left. }
      rewrite ascii_of_code. replace (ccode c =? schar "?")%Z with false by lia. cbn [negb andb].
      assert (optarg g' = a) as -> by (destruct k; [destruct (KP eq_refl) as [-> ->]; reflexivity|apply AK; discriminate ..]).
      change (schar "?") with 63%Z in *. rewrite (proj2 (Z.eqb_neq _ _) NQ). reflexivity.
    + destruct AG as (-> & -> & AK). exists (optarg g'). repeat split; auto.
    + destruct AG as (-> & A1 & A2). split; intros SI.
      * destruct (A1 SI) as [-> ->]. destruct (g_plus g'); reflexivity.
      * rewrite (A2 SI), (KP SI). reflexivity.
Qed.
