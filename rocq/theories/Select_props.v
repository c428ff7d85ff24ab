(** C76: the select command. *)
From Verif Require Import Base Num_model Num_spec Read_model Read_spec Read_props Columns_model Columns_props Kill_model Kill_spec Kill_proof Select_model Select_spec Select_proof.
From Coq Require Import Permutation.
Local Open Scope Z_scope.
Local Notation NL := Read_spec.NL.

(** The menu shows each word exactly once, after its number, the numbers right-aligned; no
    entry is cut off. *)
Theorem c76_menu : forall x_cols ap, 0 < x_cols -> Z.of_nat (length ap) < 2147483647 -> menu ap (pr_menu x_cols ap).
Proof. exact menu_ok. Qed.
Print Assumptions c76_menu.

(** No line of the menu is longer than the terminal is wide, if the longest word fits with
    its number. *)
Theorem c76_menu_fits : forall x_cols ap, 0 < x_cols -> Z.of_nat (length ap) < 2147483647 ->
  (forall d x, decimal d (Z.of_nat (length ap)) -> In x ap -> Z.of_nat (length d + 2 + length x) <= x_cols) ->
  exists lines, pr_menu x_cols ap = concat (map (fun r => r ++ [NL]) lines) /\ forall r, In r lines -> Z.of_nat (length r) <= x_cols.
Proof.
  intros x_cols ap X AL F. eexists. split; [reflexivity|]. destruct ap as [|a0 ap']; [intros r H; exfalso|].
  { unfold print_columns, lay in H. change (Z.of_nat (length (@nil cstr))) with 0 in H. change (dwidth [] + nwidth [] + 2) with 3 in H. rewrite andb_false_r in H. cbn [andb rows] in H.
    set (c := if x_cols / (3 + 1) =? 0 then 1 else x_cols / (3 + 1)) in H.
    assert (1 <= c). { subst c. pose proof (Z.div_pos x_cols (3 + 1) ltac:(lia) ltac:(lia)). destruct (Z.eqb_spec (x_cols / (3 + 1)) 0); lia. }
    rewrite (Z.div_small (0 + c - 1) c) in H by lia. destruct H. }
  set (ap := a0 :: ap') in *.
  assert (N1 : 1 <= Z.of_nat (length ap)) by (subst ap; cbn [length]; lia).
  destruct (ndigits_ok 10 (Z.of_nat (length ap))) as (D1 & D2 & D3); [split; [lia|]; change (10 ^ Z.of_nat 11) with 100000000000; lia|].
  assert (DW : ndigits 10 (Z.of_nat (length ap)) = dwidth ap) by reflexivity. rewrite DW in D1, D2, D3.
  pose proof (dec_decimal (Z.of_nat (length ap)) ltac:(lia)) as DD. destruct (decimal_len _ (Z.of_nat (length ap)) N1 DD) as (L1 & L2 & L3).
  pose proof (pow_le_inv (dwidth ap) (Z.of_nat (length (dec (Z.of_nat (length ap))))) _ _ D1 ltac:(lia) D2 L3 ltac:(lia)) as LE.
  assert (NW : exists x, In x ap /\ nwidth ap = Z.of_nat (length x)).
  { unfold nwidth. assert (K : forall l w, (exists x, In x l /\ fold_left (fun w (s : cstr) => let i := Z.of_nat (length s) in if w <? i then i else w) l w = Z.of_nat (length x))
      \/ fold_left (fun w (s : cstr) => let i := Z.of_nat (length s) in if w <? i then i else w) l w = w).
    { induction l as [|y l IH]; intros w; cbn [fold_left]; [auto|]. cbv zeta in *. destruct (IH (if w <? Z.of_nat (length y) then Z.of_nat (length y) else w)) as [(x & I & E)|E].
      - left. exists x. split; [right|]; auto.
      - rewrite E. destruct (w <? Z.of_nat (length y)); [left; exists y; split; [left|]; auto|auto]. }
    pose proof (nwidth_ge ap a0 ltac:(left; reflexivity)) as G. destruct (K ap 0) as [?|E]; auto. unfold nwidth in G. cbv zeta in *. rewrite E in *. exists a0. split; [left; reflexivity|lia]. }
  destruct NW as (xm & XI & XE). specialize (F _ xm DD XI). intros r H. eapply c48_fits; [..|exact H]; try lia.
  intros i. unfold select_fmt_entry. rewrite firstn_length. pose proof (nwidth_pos ap). lia.
Qed.
Print Assumptions c76_menu_fits.

(** One question: what is written, what is read, and which word that asks for.  Nothing is
    undefined, and the answer is determined. *)
Theorem c76_ask : forall St x_cols ifs (assign : St -> cstr -> cstr -> option St) value ap again evs st t r, Z.of_nat (length ap) < 2147483647 ->
  do_selectargs x_cols ifs assign value (S (length evs)) ap again evs st = Ok (t, r) <-> asked ifs assign value ap (pr_menu x_cols ap) again st evs t r.
Proof.
  intros St x_cols ifs assign value ap again evs st t r AL. destruct (ask_ok x_cols ifs assign value ap AL (S (length evs)) again evs st) as (t1 & r1 & E & A); [lia|].
  split; [intros H; rewrite E in H; injection H as <- <-; auto|]. intros B. destruct (asked_det _ _ _ _ _ _ _ _ _ _ A _ _ B) as [<- <-]. auto.
Qed.
Print Assumptions c76_ask.
Theorem c76_ask_total : forall St x_cols ifs (assign : St -> cstr -> cstr -> option St) value ap again evs st, Z.of_nat (length ap) < 2147483647 ->
  exists t r, asked ifs assign value ap (pr_menu x_cols ap) again st evs t r.
Proof. intros St x_cols ifs assign value ap again evs st AL. destruct (ask_ok x_cols ifs assign value ap AL (S (length evs)) again evs st) as (t1 & r1 & E & A); [lia|]. eauto. Qed.
Print Assumptions c76_ask_total.
Theorem c76_choice_unique : forall ap s w w', selects ap s w -> selects ap s w' -> w = w'.
Proof. exact selects_det. Qed.
Print Assumptions c76_choice_unique.

(** The whole command: exactly the runs of the specification are those of the code. *)
Theorem c76_select : forall St x_cols ifs (assign : St -> cstr -> cstr -> option St) value body name ap evs st t r, Z.of_nat (length ap) < 2147483647 ->
  (exists fuel, select_cmd x_cols ifs assign value body name ap fuel evs st = Ok (t, r)) <->
  selecting ifs assign value ap (pr_menu x_cols ap) body name true st evs t r.
Proof.
  intros St x_cols ifs assign value body name ap evs st t r AL. split.
  - intros (fuel & H). eapply loop_sound; eauto.
  - intros H. destruct (loop_complete x_cols ifs assign value ap AL body name _ _ _ _ _ H) as (fuel & E). exists (fuel + 0)%nat. apply E.
Qed.
Print Assumptions c76_select.
(** A run is determined. *)
Theorem c76_select_unique : forall St x_cols ifs (assign : St -> cstr -> cstr -> option St) value body name ap evs st t r t' r', Z.of_nat (length ap) < 2147483647 ->
  selecting ifs assign value ap (pr_menu x_cols ap) body name true st evs t r ->
  selecting ifs assign value ap (pr_menu x_cols ap) body name true st evs t' r' -> t = t' /\ r = r'.
Proof.
  intros St x_cols ifs assign value body name ap evs st t r t' r' AL H H'.
  destruct (loop_complete x_cols ifs assign value ap AL body name _ _ _ _ _ H) as (f1 & E1). destruct (loop_complete x_cols ifs assign value ap AL body name _ _ _ _ _ H') as (f2 & E2).
  specialize (E1 f2). specialize (E2 f1). rewrite (Nat.add_comm f2 f1) in E2. rewrite E1 in E2. injection E2 as <- <-. auto.
Qed.
Print Assumptions c76_select_unique.
(** With commands that do not put anything back into the input, select comes to an end of the
    input, a break, an error, or waits for more; no behaviour is undefined. *)
Theorem c76_total : forall St x_cols ifs (assign : St -> cstr -> cstr -> option St) value body name ap, Z.of_nat (length ap) < 2147483647 ->
  (forall st rest b st' rest', body st rest = (b, st', rest') -> (length rest' <= length rest)%nat) ->
  forall evs st, exists t r, selecting ifs assign value ap (pr_menu x_cols ap) body name true st evs t r.
Proof.
  intros St x_cols ifs assign value body name ap AL SH evs st.
  assert (K : forall n first evs st, (length evs < n)%nat -> exists t r, select_loop x_cols ifs assign value body name ap n first evs st = Ok (t, r)).
  { induction n as [|n IH]; intros first evs0 st0 LN; [lia|]. cbn [select_loop].
    destruct (ask_ok x_cols ifs assign value ap AL (S (length evs0)) first evs0 st0) as (t1 & a & -> & A); [lia|].
    destruct a as [w st1 rest1|st1|st1]; eauto. destruct (assign st1 name w) as [st2|]; eauto. destruct (body st2 rest1) as [[b st3] rest3] eqn:B.
    apply SH in B. assert (SR : (length rest1 < length evs0)%nat).
    { clear - A. remember (AWord w st1 rest1) as a eqn:E. induction A as [again st evs t st' rest w0 A B C D|again st evs t st' rest t' r A (a & b & c & LN & _) C D IH| | |]; try discriminate.
      - injection E as _ _ ->. destruct B as (a & b & c & LN & _). eapply line_shorter; eauto.
      - specialize (IH E). apply line_shorter in LN. lia. }
    destruct b; eauto; destruct (IH false rest3 st3) as (t' & r & ->); eauto; lia. }
  destruct (K (S (length evs)) true evs st) as (t & r & E); [lia|]. exists t, r. eapply loop_sound; eauto.
Qed.
Print Assumptions c76_total.

(** The variables as a list of values, the last assignment first. *)
Definition vars_ := list (cstr * cstr).
Definition get_ (st : vars_) (n : cstr) : cstr := match find (fun e => str_eqb (fst e) n) st with Some e => snd e | None => [] end.
Definition set_ (st : vars_) (n v : cstr) : option vars_ := Some ((n, v) :: st).
Definition white_ (_ : vars_) (c : char) : bool := match c with " "%char => true | _ => false end.
Definition in_ (s : cstr) : list rdev := map RByte s.

(** Typing the number of a word gives that word, whatever the list of words. *)
Theorem c76_number : forall x_cols ap i w d rest st, Z.of_nat (length ap) < 2147483647 -> nth_error ap i = Some w -> decimal d (Z.of_nat i + 1) ->
  exists t, asked white_ set_ get_ ap (pr_menu x_cols ap) true st (in_ d ++ RByte NL :: rest) t (AWord w ((L "REPLY", d) :: st) rest).
Proof.
  intros x_cols ap i w d rest st AL N D. assert (ID : int_text d (Z.of_nat i + 1) /\ Forall (fun c => c <> NUL /\ c <> NL /\ ~ ifswhite (white_ st) c) d).
  { destruct D as [(_ & DN & _)|(X & _)]; [|lia]. split.
    - assert (i < length ap)%nat by (apply nth_error_Some; congruence). exists [], [], d, (Z.of_nat i + 1). cbn. sp; auto; try lia; try (intros c []; fail).
    - clear - DN. induction DN as [c v DG R|ds n c v DN IH DG R]; [constructor; [|constructor]|apply Forall_app; split; [exact IH|constructor; [|constructor]]];
        (split; [|split]; [intros ->; discriminate DG..|intros [W _]; destruct c as [[] [] [] [] [] [] [] []]; try discriminate W; discriminate DG]). }
  destruct ID as [IT FA]. eexists. eapply As_word with (st' := (L "REPLY", d) :: st).
  - left. split; auto.
  - exists (map (T false) d), (d ++ [NL]), d. sp; auto.
    + apply raw_line; intros I; rewrite Forall_forall in FA; apply FA in I; destruct I as (A & B & _); congruence.
    + eapply V_last with (body := map (T false) d) (tail := []); auto.
      * exists []. sp; auto. intros t r E (c & -> & WC). destruct d as [|x d]; [discriminate|]. injection E as -> _. inversion FA as [|? ? (_ & _ & NW)]; subst. apply NW. exact WC.
      * rewrite map_map, app_nil_r. cbn [chr]. now rewrite map_id.
      * intros u c ->. rewrite Forall_forall in FA. apply FA. apply in_or_app. right. now left.
  - change (get_ ((L "REPLY", d) :: st) (L "REPLY")) with d. destruct IT as (sp_ & sg & ds & v & -> & _ & DN & _). destruct sp_; [|discriminate]. destruct sg; [|discriminate]. inversion DN; subst; try discriminate. destruct ds0; discriminate.
  - left. exists i. split; auto.
Qed.
Print Assumptions c76_number.

(** The manual says that the variable is unset if the selection is not valid: it is set, to
    the empty string. *)
Definition stop_ (st : vars_) (rest : list rdev) : bout * vars_ * list rdev := (BBreak, st, rest).
Theorem c76_unset_refuted : forall x_cols, exists t,
  select_cmd x_cols white_ set_ get_ stop_ (L "x") [L "a"; L "b"] 5 (in_ (L "no") ++ [RByte NL]) [(L "x", L "old")] =
    Ok (t, SBreak [(L "x", []); (L "REPLY", L "no"); (L "x", L "old")] []).
Proof. intros x_cols. eexists. cbn -[pr_menu]. reflexivity. Qed.
Print Assumptions c76_unset_refuted.
Definition colon_ (_ : vars_) (c : char) : bool := match c with ":"%char => true | _ => false end.
(** The manual says that a line of IFS characters only has the menu printed again: the list is
    executed if one of them is not white space. *)
Theorem c76_separators_refuted : forall x_cols, exists t,
  select_cmd x_cols colon_ set_ get_ stop_ (L "x") [L "a"; L "b"] 5 (in_ (L ":") ++ [RByte NL]) [] = Ok (t, SBreak [(L "x", []); (L "REPLY", L ":")] []).
Proof. intros x_cols. eexists. cbn -[pr_menu]. reflexivity. Qed.
Print Assumptions c76_separators_refuted.
(** A last line without newline is given to REPLY but is not taken for an answer. *)
Theorem c76_last_line_refuted : forall x_cols, exists t,
  select_cmd x_cols white_ set_ get_ stop_ (L "x") [L "a"; L "b"] 5 (in_ (L "2") ++ [REof]) [] = Ok (t, SEnd [(L "REPLY", L "2")]).
Proof. intros x_cols. eexists. cbn -[pr_menu]. reflexivity. Qed.
Print Assumptions c76_last_line_refuted.

Example c76_menu_ex : pr_menu 80 [L "one"; L "two"] = L "1) one" ++ [NL] ++ L "2) two" ++ [NL].
Proof. vm_compute. reflexivity. Qed.
Example c76_menu_ex10 : pr_menu 20 (repeat (L "a") 10) =
  L " 1) a  5) a  9) a" ++ [NL] ++ L " 2) a  6) a 10) a" ++ [NL] ++ L " 3) a  7) a " ++ [NL] ++ L " 4) a  8) a " ++ [NL].
Proof. vm_compute. reflexivity. Qed.
(** the second word, then the first, then the end of the input: the menu is shown once *)
Definition go_ (st : vars_) (rest : list rdev) : bout * vars_ * list rdev := (BDone, st, rest).
Example c76_ex : select_cmd 80 white_ set_ get_ go_ (L "x") [L "a"; L "b"] 9 (in_ (L " 2 ") ++ RByte NL :: in_ (L "1") ++ [RByte NL; REof]) [(L "PS3", L "#? ")] =
  Ok (L "1) a" ++ [NL] ++ L "2) b" ++ [NL] ++ L "#? #? #? ",
      SEnd [(L "REPLY", []); (L "x", L "a"); (L "REPLY", L "1"); (L "x", L "b"); (L "REPLY", L "2"); (L "PS3", L "#? ")]).
Proof. vm_compute. reflexivity. Qed.
