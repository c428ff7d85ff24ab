(** Theorems about shell variables: C11, C12, C14, C57. *)
From Verif Require Import Base Num_model SimplifyPath_model Printf_model Justify_model Arith_model Var_model Var_spec Var_proof Var_inv Var_array Var_typed Var_env Var_refuse.
From Coq Require Import Sorted.
Local Open Scope Z_scope.

(** An evaluator for the examples: decimal numbers; "E" is an error that unwinds,
    "n++" style assignments are written n=z; anything else an arithmetic error. *)
Definition ev0 (_ : vars) (s : cstr) : list asn * evres :=
  if str_eqb s (L "E") then ([], EvErr) else
  if str_eqb s (L "r=1") then ([Asn (L "r") 0 1 10], EvOk 1 10) else
  match getint true false s with Ok (b, z) => ([], EvOk z b) | _ => ([], EvFail) end.
Definition run0 := steps ev0 10 [[]].

(** ** C11: read-only variables *)
Lemma nth_popblock (st : vars) k : (1 < length st)%nat -> nth_error (popblock st) k = nth_error st (S k).
Proof. destruct st as [|b [|b' st]]; cbn [length]; try lia. reflexivity. Qed.
Lemma length_popblock (st : vars) : length (popblock st) = if (length st <=? 1)%nat then length st else pred (length st).
Proof. destruct st as [|b [|b' st]]; reflexivity. Qed.
Lemma wf_popblock st : wf st -> wf (popblock st).
Proof.
  intros H. destruct st as [|b [|b' st]]; [assumption|assumption|]. destruct H as [_ H]. split; [discriminate|].
  intros k n e X. apply (H (S k) n e). exact X.
Qed.
Lemma wf_newblock st : wf st -> wf (newblock st).
Proof. intros [_ H]. split; [discriminate|]. intros [|k] n e X; [discriminate|]. apply (H k n e). exact X. Qed.
Lemma at_level_inv st k n e : at_level st k n = Some e -> (k < length st)%nat /\ entry st (length st - 1 - k) n = Some e.
Proof. unfold at_level. destruct (Nat.ltb_spec k (length st)); [auto|discriminate]. Qed.
Lemma at_level_intro st k n : (k < length st)%nat -> at_level st k n = entry st (length st - 1 - k) n.
Proof. unfold at_level. destruct (Nat.ltb_spec k (length st)); [reflexivity|lia]. Qed.

Section C11.
Variable ev : vars -> cstr -> list asn * evres.
Variable fuel : nat.
(** In any sequence of commands (assignments, typeset, read, unset, arithmetic, set -A, function
    calls and returns), each succeeding or failing, a read-only variable keeps
    its values and stays read only as long as its block is there. *)
Theorem c11_readonly_stays l : forall st st' k n e, wf st -> at_level st k n = Some e -> readonly e ->
  forallb okop l = true -> stays (length st) k l = true -> steps ev fuel st l = Some st' ->
  exists e', at_level st' k n = Some e' /\ readonly e' /\ forall i, valof e' i = valof e i.
Proof.
  induction l as [|o l IH]; intros st st' k n e Hw He Hr Hok Hst; cbn [steps].
  - intros [= <-]. exists e. auto.
  - cbn [forallb] in Hok. apply andb_true_iff in Hok. destruct Hok as [Ho Hl]. destruct (at_level_inv _ _ _ _ He) as [Hk He1].
    assert (forall st1, wf st1 /\ (exists e1, at_level st1 k n = Some e1 /\ readonly e1 /\ forall i, valof e1 i = valof e i) /\ stays (length st1) k l = true ->
      steps ev fuel st1 l = Some st' -> exists e', at_level st' k n = Some e' /\ readonly e' /\ forall i, valof e' i = valof e i) as Go.
    { intros st1 (W1 & (e1 & A1 & R1 & V1) & S1) HS. destruct (IH st1 st' k n e1 W1 A1 R1 Hl S1 HS) as (e' & A & B & C). exists e'. split; [assumption|]. split; [assumption|].
      intros i. rewrite C. apply V1. }
    assert (o <> NewBlock -> o <> PopBlock -> match after (step ev fuel st o) with Some st' => steps ev fuel st' l | None => None end = Some st' ->
      exists e', at_level st' k n = Some e' /\ readonly e' /\ forall i, valof e' i = valof e i) as Plain.
    { intros N1 N2. assert (inst (length st - 1 - k) n e (length st) st) as HI by (split; [assumption|]; split; [reflexivity|]; exists e; auto).
      pose proof (inst_step _ _ _ _ ev fuel st o HI Ho N1 N2) as X. assert (stays (length st) k l = true) as Hs1 by (destruct o; try exact Hst; congruence).
      assert (forall st1, inst (length st - 1 - k) n e (length st) st1 -> wf st1 /\ (exists e1, at_level st1 k n = Some e1 /\ readonly e1 /\ forall i, valof e1 i = valof e i) /\ stays (length st1) k l = true) as Y.
      { intros st1 (A & B & e1 & C & D & E). rewrite B. split; [assumption|]. split; [|assumption]. exists e1. split; [|auto]. rewrite at_level_intro by lia. rewrite B. exact C. }
      destruct (step ev fuel st o) as [b st1|st1| |]; cbn [after okO] in *; try discriminate; apply Go, Y; exact X. }
    destruct o; try (apply Plain; discriminate); cbn [step after].
    + apply Go. split; [apply wf_newblock; assumption|]. split; [|exact Hst]. exists e. split; [|auto]. unfold newblock. rewrite at_level_intro by (cbn; lia).
      cbn [length]. replace (S (length st) - 1 - k)%nat with (S (length st - 1 - k)) by lia. exact He1.
    + cbn [stays] in Hst. apply andb_true_iff in Hst. destruct Hst as [Hk2 Hst]. apply Nat.ltb_lt in Hk2. apply Go.
      split; [apply wf_popblock; assumption|]. rewrite length_popblock. split; [|exact Hst]. exists e. split; [|auto].
      rewrite at_level_intro by (rewrite length_popblock; exact Hk2). rewrite length_popblock.
      destruct (Nat.leb_spec (length st) 1) as [L1|L1].
      * destruct st as [|b [|b' s]]; cbn [popblock] in *; [exact He1|exact He1|cbn in L1; lia].
      * unfold entry. rewrite nth_popblock by lia. replace (S (pred (length st) - 1 - k)) with (length st - 1 - k)%nat by lia. exact He1.
Qed.
(** While the name denotes a read-only variable, a command that writes to it or
    to an element of it never succeeds. *)
Theorem c11_writes_fail st k n e o : wf st -> is_name n = true -> binds st k n e -> readonly e -> writes n o \/ assigns ev n o ->
  match step ev fuel st o with Val ok _ => ok = false | Fail _ | Bad | Fuel => True end.
Proof.
  intros Hw Hn (He & Hd & Hb) Hr Ho.
  assert (instL k n e (length st) st) as HJ by (split; [split; [assumption|]; split; [reflexivity|]; exists e; auto|intros j Hj x Hx; eapply Hb; eauto]).
  destruct Ho as [Ho|Ho]; [eapply refused; eauto|eapply refused_let; eauto].
Qed.
End C11.
Print Assumptions c11_readonly_stays.
Print Assumptions c11_writes_fail.

(** readonly a with a[0], a[3] set; a function is called, and everything is tried *)
Definition c11_cmds : list vop :=
  [Typeset (L "a=1") 0 0 0 0; Typeset (L "a[3]=x") 0 0 0 0; Typeset (L "a") RDONLY 0 0 0].
Definition c11_tries : list vop :=
  [Typeset (L "a=2") 0 0 0 0; NewBlock; Unset (L "a[3]"); Read (L "a[3]") (L "y") false; Typeset (L "a") INTEGER 0 0 0; SetArray (L "a") true [L "p"];
   Assign (L "a") (L "q") true; Typeset (L "a=5") LOCAL 0 0 0; Typeset (L "a=6") 0 0 0 0; PopBlock; Typeset (L "a") 0 RDONLY 0 0].
Example c11_ex : match run0 c11_cmds with
  | Some st => match at_level st 0 (L "a"), steps ev0 10 st c11_tries with
               | Some e, Some st' => forallb (fun t => on t RDONLY) (e_base e :: e_elems e) && on (e_base e) DEFINED && forallb okop c11_tries && stays (length st) 0 c11_tries = true /\
                   valof e 0 = Some (Ok (L "1")) /\ valof e 3 = Some (Ok (L "x")) /\
                   option_map (fun e => (valof e 0, valof e 3)) (at_level st' 0 (L "a")) = Some (Some (Ok (L "1")), Some (Ok (L "x")))
               | _, _ => False end
  | None => False end.
Proof. vm_compute. repeat split; reflexivity. Qed.
Example c11_let_ex : match run0 [Typeset (L "r=7") RDONLY 0 0 0] with Some st => step ev0 10 st (Let (L "r=1")) = Val false st | None => False end.
Proof. vm_compute. reflexivity. Qed.

(** ** What does change a read-only variable *)
(** A change of the window size (x_sigwinch, edit.c:79-86) calls setint, which does not
    look at RDONLY when the variable is an integer ... *)
Theorem c11_winch_changes_integer_refuted : match run0 [Typeset (L "COLUMNS=80") (N.lor INTEGER RDONLY) 0 0 0] with
  | Some st => match winch ev0 10 st (L "COLUMNS") 132 with
               | Val _ st' => option_map (fun e => valof e 0) (at_level st 0 (L "COLUMNS")) = Some (Some (Ok (L "80"))) /\
                              option_map (fun e => valof e 0) (at_level st' 0 (L "COLUMNS")) = Some (Some (Ok (L "132")))
               | _ => False end
  | None => False end.
Proof. vm_compute. split; reflexivity. Qed.
Print Assumptions c11_winch_changes_integer_refuted.
(** ... and marks a read-only unset one as set, although nothing was stored: the next use reads a wild pointer. *)
Theorem c11_winch_sets_unset_refuted : match run0 [Typeset (L "LINES") RDONLY 0 0 0] with
  | Some st => match winch ev0 10 st (L "LINES") 24 with Val _ st' => get ev0 st' (L "LINES") = Bad | _ => False end
  | None => False end.
Proof. vm_compute. reflexivity. Qed.
Print Assumptions c11_winch_sets_unset_refuted.
(** getopts clears the attribute of OPTARG. *)
Theorem c11_getopts_unlocks_OPTARG_refuted : match run0 [Typeset (L "OPTARG=keep") RDONLY 0 0 0] with
  | Some st => match getopts_arg ev0 10 st (Some (L "new")) with
               | Val _ st' => match at_level st' 0 (L "OPTARG") with Some e => valof e 0 = Some (Ok (L "new")) /\ on (e_base e) RDONLY = false | None => False end
               | _ => False end
  | None => False end.
Proof. vm_compute. split; reflexivity. Qed.
Print Assumptions c11_getopts_unlocks_OPTARG_refuted.
(** makenv (for exec, in the same process) clears it for exported integers. *)
Theorem c11_makenv_unlocks_integer_refuted : match run0 [Typeset (L "i=5") (N.lor INTEGER (N.lor EXPORT RDONLY)) 0 0 0] with
  | Some st => match makenv st with
               | Ok (l, st') => l = [L "i=5"] /\ match at_level st' 0 (L "i") with Some e => on (e_base e) RDONLY = false | None => False end
               | _ => False end
  | None => False end.
Proof. vm_compute. split; reflexivity. Qed.
Print Assumptions c11_makenv_unlocks_integer_refuted.
(** readonly that fails half way (here typeset -ir a with a[0] an expression with a bad subscript)
    leaves element 0 read only and the others writable. *)
Theorem c11_half_readonly_refuted : match run0 [Typeset (L "a=E") 0 0 0 0; Typeset (L "a[1]=2") 0 0 0 0; Typeset (L "a") (N.lor INTEGER RDONLY) 0 0 0] with
  | Some st => match at_level st 0 (L "a") with Some e => on (e_base e) RDONLY = true /\ forallb (fun t => on t RDONLY) (e_elems e) = false | None => False end
  | None => False end.
Proof. vm_compute. split; reflexivity. Qed.
Print Assumptions c11_half_readonly_refuted.

(** ** C12: arrays are finite maps *)
Section C12.
Variable ev : vars -> cstr -> list asn * evres.
Variable fuel : nat.
Variable idx : cstr -> Z.
Variable n : cstr.
Hypothesis Hn : is_name n = true.

(** Any sequence of array commands succeeds and does to the values what the
    finite map says; variables with other names are left alone. *)
Theorem c12_array_is_map l : forall st m, is_array st n m -> (forall o s, In o l -> In s (subs o) -> good_sub ev idx s) ->
  exists st', steps ev fuel st (map (command n) l) = Some st' /\ is_array st' n (fold_left (fun m o => meaning idx o m) l m) /\
    forall k x, x <> n -> entry st' k x = entry st k x.
Proof.
  induction l as [|o l IH]; intros st m HA Hs; cbn [map steps fold_left].
  - exists st. auto.
  - destruct (arr_step ev fuel idx n Hn st m o HA (fun s H => Hs o s (or_introl eq_refl) H)) as (st1 & E1 & A1 & F1). rewrite E1. cbn [after].
    destruct (IH st1 _ A1 (fun o s H => Hs o s (or_intror H))) as (st2 & E2 & A2 & F2). exists st2. split; [assumption|]. split; [assumption|].
    intros k x Hx. rewrite F2 by assumption. apply F1. congruence.
Qed.
(** Reading an element gives the value of the map; ${#a[*]} and the list of
    elements go through the set indices, each once, in increasing order. *)
Theorem c12_read_element st m s : is_array st n m -> good_sub ev idx s -> exists st', get ev st (elem n s) = Val (m (idx s)) st'.
Proof. intros. eapply get_val; eauto. Qed.
Theorem c12_elements_in_order st m : is_array st n m ->
  exists l, StronglySorted Z.lt l /\ (forall i, In i l <-> m i <> None) /\
    (exists vals st', get_all ev st (n ++ L "[*]") = Val vals st' /\
       map (fun r => match r with Ok (s, _) => Some s | _ => None end) vals = map m l) /\
    exists st', count_all ev st (n ++ L "[*]") = Val (Z.of_nat (length l)) st'.
Proof.
  intros H. destruct (all_vals ev idx n Hn st m H) as (l & A & B & C & D). exists l. auto.
Qed.
(** a variable that is not there is an empty array *)
Theorem c12_start st : wf st -> (forall k, entry st k n = None) -> is_array st n (fun _ => None).
Proof. intros H1 H2. split; [assumption|]. split; [intros j e _ X; rewrite H2 in X; discriminate|]. rewrite H2. reflexivity. Qed.
End C12.
Print Assumptions c12_array_is_map.
Print Assumptions c12_read_element.
Print Assumptions c12_elements_in_order.
(** The order of the chains and the absence of duplicates hold after any commands whatever. *)
Theorem c12_chains_sorted ev fuel l : forall st st', wf st -> forallb okop l = true -> steps ev fuel st l = Some st' -> wf st'.
Proof.
  induction l as [|o l IH]; intros st st' Hw; cbn [forallb steps]; [intros _ [= <-]; assumption|]. intros Hok.
  apply andb_true_iff in Hok. destruct Hok as [O1 O2]. pose proof (wf_step ev fuel st o Hw O1) as X.
  destruct (step ev fuel st o); cbn [after okO] in *; try discriminate; eauto.
Qed.
Print Assumptions c12_chains_sorted.
(** a[7]=x; a[2]=y; a=z; a[7]=w; unset a[2]; set +A a p *)
Definition c12_cmds : list aop := [ASet (L "7") (L "x"); ASet (L "2") (L "y"); AScalar (L "z"); ASet (L "7") (L "w"); AUnset (L "2"); AFill false [L "p"]].
Definition idx0 (s : cstr) : Z := match getint true false s with Ok (_, z) => z | _ => 0 end.
Example c12_ex : match run0 (map (command (L "a")) c12_cmds) with
  | Some st => count_all ev0 st (L "a[*]") = Val 2 st /\ get ev0 st (L "a[7]") = Val (Some (L "w")) st /\
      map (fold_left (fun m o => meaning idx0 o m) c12_cmds (fun _ => None)) [0; 2; 7; 8] = [Some (L "p"); None; Some (L "w"); None]
  | None => False end.
Proof. vm_compute. repeat split; reflexivity. Qed.
Example c12_good : forall o s, In o c12_cmds -> In s (subs o) -> good_sub ev0 idx0 s.
Proof.
  assert (forall s, existsb (fun c => ceq c "[" || ceq c "]") s = false -> (0 <= idx0 s <= INT_MAX) -> ev0 [] s = ([], EvOk (idx0 s) 10) -> good_sub ev0 idx0 s) as H.
  { intros s H1 H2 H3. assert (forall c, In c s -> (ceq c "[" || ceq c "]") = false) as Q.
    { intros c Hc. destruct (ceq c "[" || ceq c "]") eqn:E; [|reflexivity]. rewrite <- H1. symmetry. apply existsb_exists. exists c. auto. }
    repeat split; try lia.
    - intros X. specialize (Q _ X). discriminate.
    - intros X. specialize (Q _ X). discriminate.
    - intros st. exists 10. exact H3. }
  intros o s Ho Hs. repeat (destruct Ho as [<-|Ho]; [cbn [subs In] in Hs; repeat (destruct Hs as [<-|Hs]; [apply H; [reflexivity|vm_compute; split; discriminate|vm_compute; reflexivity]|]); contradiction|]). contradiction.
Qed.

(** ** C14: locals, resolution, the environment *)
Lemma located_binds st k n : located st k n <-> exists e, binds st k n e.
Proof.
  split.
  - intros [[H1 H2] (e & He & Hd)]. exists e. split; [assumption|]. split; [assumption|]. intros j x Hj Hx. eapply H2; eauto.
  - intros (e & He & Hd & H). split; [|eauto]. split; [eapply entry_some; eauto|]. intros j Hj x Hx. eapply H; eauto.
Qed.
Lemma global_binds ev st k n e : is_name n = true -> binds st k n e -> global ev st n = Val (RVar k n 0) st.
Proof.
  intros Hn Hb. apply global_plain; [apply located_binds; eauto|apply is_name_no_bracket; assumption|apply is_name_letter; assumption].
Qed.
Section C14.
Variable ev : vars -> cstr -> list asn * evres.
Variable fuel : nat.
(** The value of a name is the value it has in the innermost block that defines it. *)
Theorem c14_get_innermost st k n e v st' : is_name n = true -> binds st k n e -> get ev st n = Val v st' -> option_map Ok v = valof e 0.
Proof.
  intros Hn Hb. unfold get. rewrite (global_binds ev _ _ _ _ Hn Hb). cbn [bnd deref]. destruct Hb as [-> _]. unfold valof, get_t. cbn.
  unfold text. destruct (str_val (e_base e)) as [[s w]| |]; try discriminate. intros [= <- _]. destruct (on (e_base e) ISSET); reflexivity.
Qed.
(** An assignment changes the innermost definition and nothing else. *)
Theorem c14_assign_innermost st k n e v u : is_name n = true -> binds st k n e -> on (e_base e) INTEGER = false -> on (e_base e) RDONLY = false ->
  on (e_base e) (N.lor UCASEV_AL (N.lor LCASEV (N.lor LJUST RJUST))) = false ->
  exists st' e', step ev fuel st (Assign n v u) = Val true st' /\ entry st' k n = Some e' /\ valof e' 0 = Some (Ok v) /\
    (forall i, i <> 0 -> valof e' i = valof e i) /\ forall j m, (j, m) <> (k, n) -> entry st' j m = entry st j m.
Proof.
  intros Hn Hb HI HR HF. cbn [step]. unfold assign_to. rewrite (global_binds ev _ _ _ _ Hn Hb). cbn [bnd]. destruct Hb as (He & Hd & _).
  assert (deref st (RVar k n 0) = Some (e_base e)) as D by (cbn [deref]; rewrite He; reflexivity).
  unfold setstr, rd_only. rewrite D, HR, HI. cbn [andb negb ref_name].
  unfold setstr_string. set (t1 := set_type _ 0).
  assert (on t1 (N.lor UCASEV_AL (N.lor LCASEV (N.lor LJUST RJUST))) = false) as F1.
  { rewrite <- HF. unfold t1, on. cbn [set_type set_flag t_flag]. rewrite !any_lor_r, !any_ldiff by auto with bits. cbn. rewrite ?andb_true_r. reflexivity. }
  assert (on t1 INTEGER = false) as I1. { rewrite <- HI. unfold t1, on. cbn [set_type set_flag t_flag]. rewrite any_ldiff by auto with bits. cbn. apply andb_true_r. }
  assert (t_type t1 = 0 /\ t_index t1 = t_index (e_base e)) as [T1 X1] by (split; reflexivity). clearbody t1. rewrite F1. cbn [bind].
  set (t2 := set_field t1 (t_field t1)). assert (on t2 INTEGER = false /\ t_type t2 = 0 /\ t_index t2 = t_index (e_base e)) as (I2 & T2 & X2) by (repeat split; assumption). clearbody t2.
  set (t3 := if on t2 EXPORT then _ else _). set (t4 := set_flag t3 _).
  assert (on t4 ISSET = true /\ text t4 = Ok v /\ t_index t4 = t_index (e_base e)) as (Is & Tx & X4).
  { unfold t4, t3. destruct (on t2 EXPORT).
    - split; [fl; reflexivity|]. split; [|exact X2]. unfold text, str_val, export, on, set_flag. cbn [t_flag t_type t_val]. unfold on in I2.
      rewrite !any_lor, I2, orb_true_r. change (any ALLOC INTEGER) with false. change (any ISSET INTEGER) with false. cbn [negb orb].
      assert ((0 <=? strlen n + 1) && (strlen n + 1 <=? strlen (n ++ "="%char :: v)) = true) as -> by (unfold strlen; rewrite app_length; cbn [length]; apply andb_true_iff; lia).
      rewrite skipn_export. reflexivity.
    - split; [fl; reflexivity|]. split; [|exact X2]. unfold text, str_val, on, set_flag, set_val. cbn [t_flag t_type t_val]. unfold on in I2.
      rewrite !any_lor, I2, orb_true_r, T2. change (any ALLOC INTEGER) with false. change (any ISSET INTEGER) with false. cbn [negb orb].
      assert ((0 <=? 0) && (0 <=? strlen v) = true) as -> by (unfold strlen; cbn; lia). reflexivity. }
  clearbody t4. exists (assign_t st (RVar k n 0) t4), (put_t e 0 t4). cbn [assign_t]. rewrite He. split; [reflexivity|].
  split; [apply entry_put_same; eapply entry_some; eauto|]. split; [unfold valof, get_t, put_t; cbn; rewrite Is, Tx; reflexivity|].
  split; [intros i Hi; unfold valof, get_t, put_t; cbn; destruct (Z.eqb_spec i 0); [contradiction|reflexivity]|].
  intros j m Hjm. apply entry_put_other. exact Hjm.
Qed.

(** What is done while n is local to a block does not touch the definitions of
    n in the outer blocks, provided the local is not unset. *)
Theorem c14_local_does_not_leak l : forall st st' k n e, wf st -> at_level st k n = Some e -> on (e_base e) DEFINED = true ->
  forallb okop l = true -> stays (length st) k l = true -> (forall o m, In o l -> unsets o m -> m <> n) -> steps ev fuel st l = Some st' ->
  (k < length st')%nat /\ forall k', (k' < k)%nat -> at_level st' k' n = at_level st k' n.
Proof.
  intros st st' k n e Hw He Hd Hok Hst Hun.
  assert (exists e, at_level st k n = Some e /\ on (e_base e) DEFINED = true) as HE by eauto. clear e He Hd.
  enough (forall st, wf st -> (exists e, at_level st k n = Some e /\ on (e_base e) DEFINED = true) -> stays (length st) k l = true -> steps ev fuel st l = Some st' ->
    (k < length st')%nat /\ forall k', (k' < k)%nat -> at_level st' k' n = at_level st k' n) as X by (intros; apply X; assumption). clear st Hw HE Hst.
  induction l as [|o l IH]; intros st Hw (e & He & Hd) Hst; cbn [steps].
  - intros [= <-]. destruct (at_level_inv _ _ _ _ He). auto.
  - cbn [forallb] in Hok. apply andb_true_iff in Hok. destruct Hok as [Ho Hl]. destruct (at_level_inv _ _ _ _ He) as [Hk He1].
    assert (forall o m, In o l -> unsets o m -> m <> n) as Hun' by (intros o' m Hin; apply Hun; right; exact Hin). specialize (IH Hl Hun').
    assert (forall st1, wf st1 -> (exists e, at_level st1 k n = Some e /\ on (e_base e) DEFINED = true) -> stays (length st1) k l = true ->
      (forall k', (k' < k)%nat -> at_level st1 k' n = at_level st k' n) -> steps ev fuel st1 l = Some st' ->
      (k < length st')%nat /\ forall k', (k' < k)%nat -> at_level st' k' n = at_level st k' n) as Go.
    { intros st1 W1 A1 S1 E1 HS. destruct (IH st1 W1 A1 S1 HS) as [B1 B2]. split; [assumption|]. intros k' Hk'. rewrite B2, E1 by assumption. reflexivity. }
    assert (o <> NewBlock -> o <> PopBlock -> match after (step ev fuel st o) with Some st' => steps ev fuel st' l | None => None end = Some st' ->
      (k < length st')%nat /\ forall k', (k' < k)%nat -> at_level st' k' n = at_level st k' n) as Plain.
    { intros N1 N2. set (k0 := (length st - 1 - k)%nat). assert (shad k0 n (length st) (fun j => entry st j n) st) as HI.
      { split; [assumption|]. split; [reflexivity|]. split; [eauto|]. reflexivity. }
      pose proof (shad_step _ _ _ _ ev fuel st o HI Ho N1 N2 (fun m => Hun o m (or_introl eq_refl))) as X.
      assert (stays (length st) k l = true) as Hs1 by (destruct o; try exact Hst; congruence).
      assert (forall st1, shad k0 n (length st) (fun j => entry st j n) st1 -> steps ev fuel st1 l = Some st' ->
        (k < length st')%nat /\ forall k', (k' < k)%nat -> at_level st' k' n = at_level st k' n) as Y.
      { intros st1 (A & B & (e1 & C & D) & E). apply Go; [assumption| |rewrite B; assumption|].
        - exists e1. split; [|assumption]. rewrite at_level_intro by lia. rewrite B. exact C.
        - intros k' Hk'. rewrite !at_level_intro by lia. rewrite B. apply E. unfold k0. lia. }
      destruct (step ev fuel st o) as [b st1|st1| |]; cbn [after okO] in *; try discriminate; apply Y; exact X. }
    destruct o; try (apply Plain; discriminate); cbn [step after].
    + apply Go; [apply wf_newblock; assumption| |exact Hst|].
      * exists e. split; [|assumption]. unfold newblock. rewrite at_level_intro by (cbn; lia).
        cbn [length]. replace (S (length st) - 1 - k)%nat with (S (length st - 1 - k)) by lia. exact He1.
      * intros k' Hk'. unfold newblock. rewrite !at_level_intro by (cbn; lia). cbn [length]. replace (S (length st) - 1 - k')%nat with (S (length st - 1 - k')) by lia. reflexivity.
    + cbn [stays] in Hst. apply andb_true_iff in Hst. destruct Hst as [Hk2 Hst]. apply Nat.ltb_lt in Hk2.
      assert (forall j, (j <= k)%nat -> at_level (popblock st) j n = at_level st j n) as Same.
      { intros j Hj. rewrite !at_level_intro by (rewrite ?length_popblock; lia). rewrite length_popblock in *. destruct (Nat.leb_spec (length st) 1) as [L1|L1].
        - destruct st as [|b [|b' s]]; cbn [popblock] in *; [reflexivity|reflexivity|cbn in L1; lia].
        - unfold entry. rewrite nth_popblock by lia. replace (S (pred (length st) - 1 - j)) with (length st - 1 - j)%nat by lia. reflexivity. }
      apply Go; [apply wf_popblock; assumption| |rewrite length_popblock; exact Hst|].
      * exists e. rewrite Same by lia. auto.
      * intros k' Hk'. apply Same. lia.
Qed.
End C14.
Print Assumptions c14_get_innermost.
Print Assumptions c14_assign_innermost.
Print Assumptions c14_local_does_not_leak.
(** x=out; a function makes x local, assigns to it, calls another function that assigns to it; return *)
Definition c14_call : list vop := [Typeset (L "x=out") EXPORT 0 0 0; NewBlock; Typeset (L "x=in") (N.lor LOCAL LOCAL_COPY) 0 0 0].
Definition c14_body : list vop := [Assign (L "x") (L "1") true; NewBlock; Typeset (L "x=2") 0 0 0 0; PopBlock; Let (L "3")].
Example c14_ex : match run0 c14_call with
  | Some st => match steps ev0 10 st c14_body with
      | Some st' => forallb okop c14_body && stays (length st) 1 c14_body = true /\
          option_map (fun e => valof e 0) (at_level st' 1 (L "x")) = Some (Some (Ok (L "2"))) /\
          option_map (fun e => valof e 0) (at_level (popblock st') 0 (L "x")) = Some (Some (Ok (L "out"))) /\
          makenv (popblock st') = Ok ([L "x=out"], popblock st')
      | None => False end
  | None => False end.
Proof. vm_compute. repeat split; reflexivity. Qed.
(** unset of the local makes later assignments reach the outer variable *)
Theorem c14_unset_local_leaks_refuted : match run0 (c14_call ++ [Unset (L "x"); Typeset (L "x=leak") 0 0 0 0; PopBlock]) with
  | Some st => option_map (fun e => valof e 0) (at_level st 0 (L "x")) = Some (Some (Ok (L "leak")))
  | None => False end.
Proof. vm_compute. reflexivity. Qed.
Print Assumptions c14_unset_local_leaks_refuted.

(** The environment: for each name, in some order and once, NAME=value with the
    value from the innermost block where the name is set and exported; no other strings. *)
Theorem c14_environment st l st' : typed st -> makenv st = Ok (l, st') ->
  exists names, NoDup names /\ (forall n, In n names <-> env_binding st n <> None) /\
    Forall2 (fun n x => exists t, env_binding st n = Some t /\ env_string n t x) names l.
Proof. intros HT. unfold makenv. apply makenv_spec; [lia|apply typed_blocks; assumption]. Qed.
Print Assumptions c14_environment.
(** But a name whose innermost definition is unset, or not exported (typeset +x), still gets the outer value. *)
Theorem c14_hidden_value_exported_refuted : match run0 (c14_call ++ [Typeset (L "x") 0 EXPORT 0 0]) with
  | Some st => get ev0 st (L "x") = Val (Some (L "in")) st /\
               match makenv st with Ok (l, _) => l = [L "x=out"] | _ => False end
  | None => False end.
Proof. vm_compute. split; reflexivity. Qed.
Print Assumptions c14_hidden_value_exported_refuted.

(** ** C57: the union val is read at the type it was written with *)
Theorem c57_typed_values_partial ev fuel l st st' : typed st -> forallb okop l = true -> calm ev fuel st l -> steps ev fuel st l = Some st' -> typed st'.
Proof. apply typed_steps. Qed.
Print Assumptions c57_typed_values_partial.
Theorem c57_start : typed [[]].
Proof.
  split; [split; [discriminate|]; intros [|[|k]] n e; discriminate|]. split.
  - intros [|[|k]] b; cbn; try discriminate. intros [= <-]. constructor.
  - intros [|[|k]] n e; discriminate.
Qed.
(** in a typed state a string variable can be read *)
Theorem c57_strings_readable st k n e i t : typed st -> entry st k n = Some e -> get_t e i = Some t -> on t ISSET = true -> on t INTEGER = false ->
  exists s, text t = Ok s.
Proof.
  intros (_ & _ & C) He Hg Is Int. destruct (C _ _ _ He) as (T & _). specialize (T _ _ Hg Is). rewrite Int in T. unfold text, str_val. rewrite Is, Int. cbn [negb].
  destruct T as (s & [[-> ->]|[-> ->]]).
  - assert ((0 <=? 0) && (0 <=? strlen s) = true) as -> by (unfold strlen; cbn; lia). eauto.
  - assert ((0 <=? strlen n + 1) && (strlen n + 1 <=? strlen (n ++ "="%char :: s)) = true) as ->; [|eauto].
    unfold strlen. rewrite app_length. cbn [length]. apply andb_true_iff. lia.
Qed.
Print Assumptions c57_strings_readable.
Definition c57_cmds : list vop := c11_cmds ++ c14_call ++ c14_body ++ [Typeset (L "y=12") 0 0 0 0; Typeset (L "y") (N.lor INTEGER EXPORT) 0 0 16; Typeset (L "y=1+") 0 0 0 0; Typeset (L "y") 0 INTEGER 0 0; PopBlock].
Example c57_ex : calm ev0 10 [[]] c57_cmds /\ match run0 c57_cmds with Some st => option_map (fun e => valof e 0) (at_level st 0 (L "y")) = Some (Some (Ok (L "16#c"))) | None => False end.
Proof. vm_compute. repeat split; reflexivity. Qed.
(** x=abc; typeset -i x=1+ fails in the expression and leaves x an integer whose
    value is the pointer to "abc": echo $x prints an address *)
Theorem c57_failed_integer_refuted : match run0 [Typeset (L "x=abc") 0 0 0 0; Typeset (L "x=1+") INTEGER 0 0 0] with
  | Some st => match at_level st 0 (L "x") with Some e => on (e_base e) ISSET = true /\ on (e_base e) INTEGER = true /\ t_val (e_base e) = VStr (L "abc") | None => False end /\
               get ev0 st (L "x") = Bad
  | None => False end.
Proof. vm_compute. repeat split; reflexivity. Qed.
Print Assumptions c57_failed_integer_refuted.
(** x='b[-1]'; typeset -i x: the error in the subscript unwinds out of typeset *)
Theorem c57_unwound_integer_refuted : match run0 [Typeset (L "x=E") 0 0 0 0; Typeset (L "x") INTEGER 0 0 0] with
  | Some st => get ev0 st (L "x") = Bad | None => False end.
Proof. vm_compute. reflexivity. Qed.
Print Assumptions c57_unwound_integer_refuted.
(** x=x; typeset -i x: the expression x is evaluated when x is already an
    integer but still holds the pointer (expr.c:587-600 then uses val.i) *)
Definition ev_self (st : vars) (s : cstr) : list asn * evres :=
  match s, at_level st 0 s with
  | _ :: _, Some e => if on (e_base e) ISSET && on (e_base e) INTEGER then match t_val (e_base e) with VInt z => ([], EvOk z 10) | _ => ([], EvOk (-1) 10) (* the address *) end
                      else ([], EvFail)
  | _, _ => ([], EvFail)
  end.
Theorem c57_self_reference_refuted : match steps ev_self 10 [[]] [Typeset (L "x=x") 0 0 0 0; Typeset (L "x") INTEGER 0 0 0] with
  | Some st => get ev_self st (L "x") = Val (Some (L "-1")) st | None => False end.
Proof. vm_compute. reflexivity. Qed.
Print Assumptions c57_self_reference_refuted.
