(** Words that are the same ([same]) expand to the same. *)
From Verif Require Import Base Num_model SimplifyPath_model Glob_model Trim_model Word_model Word_spec Word_props Expand_model Tput_spec.
Local Open Scope nat_scope.
Scheme same_mut := Induction for same Sort Prop with samep_mut := Induction for samep Sort Prop.

Section Same.
Variable E : Type.
Variable y : sys E.
Notation st := (st E).

(** What is left of two words that are the same, as expand sees it. *)
Inductive rest_ok : bool -> list sub -> cstr -> cstr -> Prop :=
| r_eos q stk t t' : rest_ok q stk (EOS :: t) (EOS :: t')
| r_sub q s stk e w w' q2 k k' : same (s_quote s) w w' q2 -> good w -> good w' -> rest_ok q2 stk k k' -> rest_ok q (s :: stk) (CSUBST :: e :: enc w ++ k) (CSUBST :: e :: enc w' ++ k')
| r_spat q stk ps ps' q1 w w' q2 k k' : samep q ps ps' q1 -> goodp ps -> goodp ps' -> same q1 w w' q2 -> good w -> good w' -> rest_ok q2 stk k k' ->
    rest_ok q stk (SPAT :: encp ps ++ CPAT :: enc w ++ k) (SPAT :: encp ps' ++ CPAT :: enc w' ++ k')
| r_cpat q stk w w' q2 k k' : same q w w' q2 -> good w -> good w' -> rest_ok q2 stk k k' -> rest_ok q stk (CPAT :: enc w ++ k) (CPAT :: enc w' ++ k').
Inductive sync (q : bool) (stk : list sub) (p p' : cstr) : Prop :=
| sy w w' q2 k k' : same q w w' q2 -> good w -> good w' -> rest_ok q2 stk k k' -> p = enc w ++ k -> p' = enc w' ++ k' -> sync q stk p p'.
Definition quoted (m : st) : bool := match ty E m with XARG true _ _ _ => true | _ => quote E m end.
Definition rel (m : st) (p' : cstr) : Prop := sync (quoted m) (stk E m) (sp E m) p'.
Definition rel_out (o o' : out E) : Prop :=
  match o with
  | Next _ m => exists p', o' = Next E (set_sp E m p') /\ rel m p'
  | Done _ m => exists p', o' = Done E (set_sp E m p')
  | _ => o' = o
  end.

(** ** A tilde *)
Lemma tilde_stop c r b : ceq c CHAR = false -> tilde_name (c :: r) b = ([], c :: r).
Proof. intros H. destruct r; cbn [tilde_name]; [reflexivity|]. now rewrite H. Qed.
Lemma tilde_item i w k b : (forall c, i <> Chr c) -> tilde_name (enc (i :: w) ++ k) b = ([], enc (i :: w) ++ k).
Proof. intros H. destruct i; [congruence|..]; (cbn [enc flat_map enc1 app]; apply tilde_stop; reflexivity). Qed.
Lemma rest_hd q stk k k' : rest_ok q stk k k' -> exists c t t', k = c :: t /\ k' = c :: t' /\ ceq c CHAR = false.
Proof. intros R. destruct R; do 3 eexists; (split; [reflexivity|split; reflexivity]). Qed.
Lemma tilde_same w : forall w' q2 stk k k' b n r, same false w w' q2 -> good w -> good w' -> rest_ok q2 stk k k' -> tilde_name (enc w ++ k) b = (n, r) ->
  exists r', tilde_name (enc w' ++ k') b = (n, r') /\ hd_error r = hd_error r' /\ sync false stk r r'.
Proof.
  induction w as [|i w IH]; intros w' q2 stk k k' b n r S G G' R T.
  - inversion S; subst. destruct (rest_hd _ _ _ _ R) as (c & t & t' & -> & -> & C). cbn [enc flat_map app] in *. rewrite tilde_stop in T by auto. injection T as <- <-. exists (c :: t'). rewrite tilde_stop by auto. do 2 (split; [reflexivity|]). apply sy with [] [] false (c :: t) (c :: t'); auto; constructor.
  - destruct i as [c| | | | | | | ].
    2-8: inversion S; subst; (rewrite tilde_item in T by discriminate); injection T as <- <-; (eexists; split; [apply tilde_item; discriminate|]; split; [reflexivity|]; exact (sy _ _ _ _ _ _ _ _ _ S G G' R eq_refl eq_refl)).
    + inversion S as [|? ? ? ? ? SS| | | | | | | | |]; subst. destruct G as (_ & G). destruct G' as (_ & G'). cbn [enc flat_map enc1 app] in *. fold (enc w) in *. fold (enc w'0) in *. cbn [tilde_name] in *. destruct (ceq CHAR CHAR && negb (ceq c "/") && (negb b || negb (ceq c ":"))) eqn:X.
      * destruct (tilde_name (enc w ++ k) b) as [n1 r1] eqn:T1. injection T as <- <-. destruct (IH _ _ _ _ _ _ _ _ SS G G' R T1) as (r' & A & B). exists r'. rewrite A. auto.
      * injection T as <- <-. eexists. split; [reflexivity|]. split; [reflexivity|]. apply sy with (Chr c :: w) (Chr c :: w'0) q2 k k'; auto; cbn; auto.
Qed.
Lemma maybe_same m p' : sync false (stk E m) (sp E m) p' ->
  match maybe_tilde E y m with
  | Some m1 => exists p1, maybe_tilde E y (set_sp E m p') = Some (set_sp E m1 p1) /\ sync false (stk E m1) (sp E m1) p1 /\ ty E m1 = ty E m /\ quote E m1 = quote E m
  | None => maybe_tilde E y (set_sp E m p') = None
  end.
Proof.
  intros [w w' q2 k k' S G G' R P P']. unfold maybe_tilde. cbn [sp set_sp f]. rewrite P, P'. destruct (tilde_name (enc w ++ k) (asn (f E m))) as [n r] eqn:T.
  destruct (tilde_same _ _ _ _ _ _ _ _ _ S G G' R T) as (r' & T' & H & SY). rewrite T'. destruct r as [|c r]; destruct r' as [|c' r']; try discriminate; [reflexivity|]. injection H as <-. destruct (_ || _); [|reflexivity].
  change (env E (set_sp E m (enc w' ++ k'))) with (env E m). destruct (tilde y (env E m) n) as [s|]; [|reflexivity]. destruct s; cbn; (eexists; split; [reflexivity|]; auto).
Qed.

(** ** A character *)
Definition pre (m : st) : st :=
  let m := match ty E m with
           | XSUB false s =>
             let m := match word E m, dp E m with NWS, [] => set_outs E m (outs E m ++ [Raw false false false (pat (f E m)) (markd (f E m)) []]) | _, _ => m end in
             set_ty E m (XSUB true s)
           | _ => m end in
  set_til E m (saw_eq E m) false (tok1 E m).
Definition fin (c : char) (magic : bool) (m : st) : out E :=
  let m := if magic then set_dp E (set_fdo E m (fbrace E m) (fglob E m || glob (f E m)) true) (dp E m ++ [MAGIC; c])
           else if ismagic c then set_dp E (set_fdo E m (fbrace E m) (fglob E m) true) (dp E m ++ [MAGIC; c])
           else set_dp E m (dp E m ++ [c]) in
  Next E (set_word E m WORD).
Lemma put_eq m c q magic : put E y m c q magic = 
  (let m := pre m in
  if q then fin c magic m
  else if mem c (L "[!-]") then
    fin c magic (if pat (f E m) || glob (f E m) then
              set_dp E (set_fdo E m (fbrace E m) (fglob E m || (ceq c "[" && glob (f E m))) true) (dp E m ++ [MAGIC])
            else m)
  else if mem c (L "*?") then
    fin c magic (if pat (f E m) || glob (f E m) then set_dp E (set_fdo E m (fbrace E m) (fglob E m || glob (f E m)) true) (dp E m ++ [MAGIC]) else m)
  else if mem c (L "{,}") then
    fin c magic (if brace (f E m) && (ceq c "{" || fbrace E m) then set_dp E (set_fdo E m true (fglob E m) true) (dp E m ++ [MAGIC]) else m)
  else if ceq c "=" then fin c magic (if negb (temp (f E m)) && negb (saw_eq E m) then set_til E m true true false else m)
  else if ceq c ":" then fin c magic (if negb (temp (f E m)) && asn (f E m) then set_til E m (saw_eq E m) true false else m)
  else if ceq c "~" then
    match ty E m with
    | XBASE => if (dotilde (f E m) || asn (f E m)) && tok2 E m then
                 match maybe_tilde E y m with Some m => Next E m | None => fin c magic m end
               else fin c magic m
    | _ => fin c magic m
    end
  else fin c magic m).
Proof. reflexivity. Qed.
Lemma pre_same m p' : pre (set_sp E m p') = set_sp E (pre m) p' /\ sp E (pre m) = sp E m /\ stk E (pre m) = stk E m /\ quote E (pre m) = quote E m /\ quoted (pre m) = quoted m /\ (ty E (pre m) = XBASE -> ty E m = XBASE).
Proof.
  unfold quoted, pre. cbn [ty set_sp]. destruct (ty E m) as [|[] s|[]| |] eqn:T; cbn; rewrite ?T; repeat split; auto; try discriminate.
  all: destruct (word E m), (dp E m); reflexivity.
Qed.
Lemma fin_same m m1 c mg p' : rel m p' -> sp E m1 = sp E m -> stk E m1 = stk E m -> quoted m1 = quoted m -> rel_out (fin c mg m1) (fin c mg (set_sp E m1 p')).
Proof.
  intros R A B C. unfold rel in R. rewrite <- A, <- B, <- C in R. unfold fin, rel_out. destruct mg; [|cbn [set_sp dp]; destruct (ismagic c)]; (eexists; split; [reflexivity|exact R]).
Qed.
Lemma fin_same2 m m1 m1' c mg p' : rel m p' -> m1' = set_sp E m1 p' -> sp E m1 = sp E m -> stk E m1 = stk E m -> quoted m1 = quoted m -> rel_out (fin c mg m1) (fin c mg m1').
Proof. intros R ->. now apply fin_same. Qed.
Lemma put_same m c q mg p' : rel m p' -> (ty E m = XBASE -> quote E m = true -> q = true) -> rel_out (put E y m c q mg) (put E y (set_sp E m p') c q mg).
Proof.
  intros R Q. rewrite !put_eq. cbv zeta. destruct (pre_same m p') as (-> & A & B & C & D & F). set (m0 := pre m) in *. assert (rel m0 p') as R0 by (unfold rel in *; rewrite A, B, D; exact R). clearbody m0.
  change (pat (Expand_model.f E (set_sp E m0 p'))) with (pat (Expand_model.f E m0)).
  change (glob (Expand_model.f E (set_sp E m0 p'))) with (glob (Expand_model.f E m0)).
  change (Expand_model.brace (Expand_model.f E (set_sp E m0 p'))) with (Expand_model.brace (Expand_model.f E m0)).
  change (temp (Expand_model.f E (set_sp E m0 p'))) with (temp (Expand_model.f E m0)).
  change (asn (Expand_model.f E (set_sp E m0 p'))) with (asn (Expand_model.f E m0)).
  change (dotilde (Expand_model.f E (set_sp E m0 p'))) with (dotilde (Expand_model.f E m0)).
  change (saw_eq E (set_sp E m0 p')) with (saw_eq E m0). change (fbrace E (set_sp E m0 p')) with (fbrace E m0). change (tok2 E (set_sp E m0 p')) with (tok2 E m0). change (ty E (set_sp E m0 p')) with (ty E m0).
  destruct q; [apply (fin_same m0); auto|].
  destruct (mem c (L "[!-]")); [destruct (_ || _); [|apply (fin_same m0); auto]; eapply (fin_same2 m0); [exact R0|reflexivity|reflexivity|reflexivity|reflexivity]|].
  destruct (mem c (L "*?")); [destruct (_ || _); [|apply (fin_same m0); auto]; eapply (fin_same2 m0); [exact R0|reflexivity|reflexivity|reflexivity|reflexivity]|].
  destruct (mem c (L "{,}")); [destruct (_ && _); [|apply (fin_same m0); auto]; eapply (fin_same2 m0); [exact R0|reflexivity|reflexivity|reflexivity|reflexivity]|].
  destruct (ceq c "="); [destruct (_ && _); [|apply (fin_same m0); auto]; eapply (fin_same2 m0); [exact R0|reflexivity|reflexivity|reflexivity|reflexivity]|].
  destruct (ceq c ":"); [destruct (_ && _); [|apply (fin_same m0); auto]; eapply (fin_same2 m0); [exact R0|reflexivity|reflexivity|reflexivity|reflexivity]|].
  destruct (ceq c "~"); [|apply (fin_same m0); auto].
  destruct (ty E m0) eqn:T; try (apply (fin_same m0); auto). destruct (_ && _); [|apply (fin_same m0); auto].
  assert (quote E m0 = false) as Q0 by (destruct (quote E m0) eqn:X; [|auto]; symmetry in C; discriminate (Q (F eq_refl) C)).
  assert (sync false (stk E m0) (sp E m0) p') as R1 by (unfold rel, quoted in R0; rewrite T, Q0 in R0; exact R0). pose proof (maybe_same m0 p' R1) as M. destruct (maybe_tilde E y m0) as [m1|].
  - destruct M as (p1 & -> & M1 & M2 & M3). exists p1. split; [reflexivity|]. unfold rel, quoted. rewrite M2, T, M3, Q0. exact M1.
  - rewrite M. apply (fin_same m0); auto.
Qed.
Lemma emit_same m p' : emit_word E (set_sp E m p') = set_sp E (emit_word E m) p'.
Proof. reflexivity. Qed.
Lemma after_same m c p' : after_split E (set_sp E m p') c = set_sp E (after_split E m c) p' /\ sp E (after_split E m c) = sp E m /\ stk E (after_split E m c) = stk E m /\ quoted (after_split E m c) = quoted m.
Proof. unfold after_split. cbn [word set_sp]. destruct (word E m); auto. Qed.
Lemma split_same m c p' : rel m p' -> rel_out (split_at E m c) (split_at E (set_sp E m p') c).
Proof.
  intros R. unfold split_at. cbn [word set_sp]. destruct (match word E m with WORD | QUOTE => true | IWS | NWS => _ | WS => false end).
  - change (emit_word E (set_sp E m p')) with (set_sp E (emit_word E m) p'). destruct (is_nul c); [eexists; reflexivity|]. destruct (after_same (emit_word E m) c p') as (-> & A & B & C). eexists. split; [reflexivity|]. unfold rel in *. rewrite A, B, C. exact R.
  - destruct (is_nul c); [eexists; reflexivity|]. destruct (after_same m c p') as (-> & A & B & C). eexists. split; [reflexivity|]. unfold rel in *. rewrite A, B, C. exact R.
Qed.
Lemma char_same m c q mg p' : rel m p' -> (ty E m = XBASE -> quote E m = true -> q = true) -> rel_out (char_out E y m c q mg) (char_out E y (set_sp E m p') c q mg).
Proof.
  intros R Q. unfold char_out. change (blank (f E (set_sp E m p'))) with (blank (f E m)). change (doblank E (set_sp E m p')) with (doblank E m). change (env E (set_sp E m p')) with (env E m).
  destruct (_ || _); [now apply split_same|now apply put_same].
Qed.

(** ** Patterns *)
Lemma sync_pats q ps ps' q1 w w' q2 stk k k' : samep q ps ps' q1 -> goodp ps -> goodp ps' -> same q1 w w' q2 -> good w -> good w' -> rest_ok q2 stk k k' ->
  sync q stk (encp ps ++ CPAT :: enc w ++ k) (encp ps' ++ CPAT :: enc w' ++ k').
Proof.
  intros S G G' W GW GW' R. destruct S as [q v v' q1 S|q v v' q1 ps ps' q3 S SP]; cbn [encp goodp] in *.
  - apply good_fix in G. apply good_fix in G'. eapply sy; [exact S|exact G|exact G'| |reflexivity|reflexivity]. econstructor; eauto.
  - destruct G as (G1 & G2). destruct G' as (G1' & G2'). apply good_fix in G1. apply good_fix in G1'. eapply sy; [exact S|exact G1|exact G1'| |rewrite <- app_assoc; reflexivity|rewrite <- app_assoc; reflexivity]. cbn [app]. econstructor; eauto.
Qed.

(** ** Substitutions *)
Lemma to_nul_ok n : forall r, ~ In NUL n -> to_nul (n ++ NUL :: r) = Some (n, r).
Proof.
  induction n as [|c n IH]; intros r N; [reflexivity|]. cbn -[is_nul]. rewrite IH by (intros I; apply N; now right). destruct (is_nul c) eqn:X; [|reflexivity]. apply ceq_true in X. exfalso. apply N. now left.
Qed.
Lemma char_at_same v v' q2 stk k k' : same false v v' q2 -> rest_ok q2 stk k k' -> char_at (enc v ++ k) = char_at (enc v' ++ k').
Proof.
  intros S R. inversion S; subst; try reflexivity. 
  - destruct (rest_hd _ _ _ _ R) as (c & t & t' & -> & -> & C). cbn [enc flat_map app char_at]. rewrite C. destruct t, t'; reflexivity.
  - cbn [enc flat_map enc1 app char_at]. destruct (flat_map enc1 w ++ k), (flat_map enc1 w' ++ k'); reflexivity.
  - cbn [enc flat_map enc1 app char_at]. destruct (flat_map enc1 w ++ k), (flat_map enc1 w' ++ k'); reflexivity.
  - cbn [enc flat_map enc1 app char_at]. destruct s; reflexivity.
  - cbn [enc flat_map enc1 app char_at]. destruct s; reflexivity.
Qed.
Lemma char_at_chr c r : char_at (CHAR :: c :: r) = c.
Proof. reflexivity. Qed.
Lemma op_cases c : operator c = true -> In c (L "-=?+#%").
Proof. apply mem_In. Qed.
Lemma qual_one c r : is_subop1 c = true -> qualifier (CHAR :: c :: r) = Some (Some (false, c), 2).
Proof. intros H. unfold qualifier. rewrite char_at_chr. destruct (ceq_spec c ":"%char) as [->|]; [discriminate|]. now rewrite H. Qed.
Lemma qual_colon c r : is_subop1 c = true -> qualifier (CHAR :: ":"%char :: CHAR :: c :: r) = Some (Some (true, c), 4).
Proof. intros H. unfold qualifier. rewrite char_at_chr. change (ceq ":" ":") with true. cbn iota. cbn [skipn]. rewrite char_at_chr. now rewrite H. Qed.
Lemma qual_trim c r : is_subop2 c = true -> qualifier (CHAR :: c :: r) = if ceq c (char_at r) then Some (Some (true, c), 4) else Some (Some (false, c), 2).
Proof. intros H. unfold qualifier. rewrite char_at_chr. assert (ceq c ":" = false /\ is_subop1 c = false) as (-> & ->) by (apply mem_In in H; cbn in H; repeat (destruct H as [<-|H]; [split; reflexivity|]); contradiction). now rewrite H. Qed.
Lemma qual_ctrim c r : is_subop2 c = true -> qualifier (CHAR :: ":"%char :: CHAR :: c :: r) = if ceq c (char_at r) then Some (Some (true, c), 6) else Some (Some (false, c), 4).
Proof. intros H. unfold qualifier. rewrite char_at_chr. change (ceq ":" ":") with true. cbn iota. cbn [skipn]. rewrite char_at_chr. assert (is_subop1 c = false) as -> by (apply mem_In in H; cbn in H; repeat (destruct H as [<-|H]; [reflexivity|]); contradiction). now rewrite H. Qed.
Lemma op_two c : operator c = true -> is_subop1 c = true /\ is_subop2 c = false /\ mem c (L "#%") = false \/ is_subop1 c = false /\ is_subop2 c = true /\ mem c (L "#%") = true.
Proof. intros H. apply mem_In in H. cbn in H. repeat (destruct H as [<-|H]; [auto|]). contradiction. Qed.
Lemma op_colon c : operator c = true -> c <> ":"%char.
Proof. intros H ->. discriminate. Qed.
Lemma trims_op c w : operator c = true -> trims (Chr c :: w) = mem c (L "#%").
Proof. intros H. apply mem_In in H. cbn in H. repeat (destruct H as [<-|H]; [reflexivity|]). contradiction. Qed.
Lemma char_at_item i w k : (forall c, i <> Chr c) -> char_at (enc (i :: w) ++ k) = NUL.
Proof. intros H. destruct i; [congruence|..]; cbn [enc flat_map enc1 app char_at]; try reflexivity; [destruct (s ++ [NUL])|destruct (s ++ [NUL])|destruct (flat_map enc1 w ++ k)|destruct (flat_map enc1 w ++ k)]; try reflexivity; cbn; destruct (_ ++ k); reflexivity. Qed.
(* a doubled # or % *)
Lemma doubled (c : char) u u' q1 stk k k' : c <> NUL -> same false u u' q1 -> good u -> good u' -> rest_ok q1 stk k k' -> ceq c (char_at (enc u ++ k)) = true ->
  exists w w', u = Chr c :: w /\ u' = Chr c :: w' /\ same false w w' q1 /\ good w /\ good w'.
Proof.
  intros N S G G' R C. apply ceq_true in C. destruct u as [|i u].
  - exfalso. inversion S; subst q1 u'. destruct (rest_hd _ _ _ _ R) as (c0 & t & t' & -> & -> & C0). cbn [enc flat_map app char_at] in C. rewrite C0 in C. destruct t; congruence.
  - assert ((forall c, i <> Chr c) -> False) as X by (intros X; rewrite char_at_item in C by auto; congruence).
    destruct i as [e| | | | | | | ]; try (exfalso; apply X; discriminate). change (c = e) in C. subst e. inversion S; subst. destruct G, G'. eauto 8.
Qed.
Lemma qual_same v v' (q q1 : bool) stk k k' : after_name v <> None -> same (negb (trims v) && q) v v' q1 -> good v -> good v' -> rest_ok q1 stk k k' ->
  qualifier (enc v ++ k) = qualifier (enc v' ++ k') /\ at0 (enc v ++ k) = at0 (enc v' ++ k') /\
  forall t slen, qualifier (enc v ++ k) = Some (t, slen) -> exists u u', skipn slen (enc v ++ k) = enc u ++ k /\ skipn slen (enc v' ++ k') = enc u' ++ k' /\ good u /\ good u' /\
    is_subop2 (op_of t) = trims v /\ same (negb (trims v) && q) u u' q1.
Proof.
  intros AN S G G' R. unfold after_name in AN. destruct v as [|[c| | | | | | | ] w]; try congruence.
  - inversion S; subst. destruct (rest_hd _ _ _ _ R) as (c0 & t & t' & -> & -> & C0). cbn [enc flat_map app] in *. assert (forall t, qualifier (c0 :: t) = Some (None, 0)) as Q by (intros t0; unfold qualifier; cbn [char_at]; destruct t0; [reflexivity|]; now rewrite C0).
    rewrite !Q. split; [reflexivity|]. split; [reflexivity|]. intros t0 sl [= <- <-]. exists [], []. repeat split; auto.
  - inversion S as [|? ? ? w' ? SW| | | | | | | | |]; subst. clear S. destruct G as (_ & G). destruct G' as (_ & G'). change (enc (Chr c :: w) ++ k) with (CHAR :: c :: enc w ++ k). change (enc (Chr c :: w') ++ k') with (CHAR :: c :: enc w' ++ k').
    destruct (operator c) eqn:O.
    + rewrite trims_op in * by auto. destruct (op_two c O) as [(O1 & O2 & O3)|(O1 & O2 & O3)]; rewrite O3 in *.
      * rewrite !qual_one by auto. split; [reflexivity|]. split; [reflexivity|]. intros t sl [= <- <-]. exists w, w'. repeat split; auto.
      * rewrite !qual_trim by auto. cbn [negb andb] in *. rewrite (char_at_same _ _ _ _ _ _ SW R). split; [reflexivity|]. split; [reflexivity|]. destruct (ceq c (char_at (enc w' ++ k'))) eqn:D.
        -- rewrite <- (char_at_same _ _ _ _ _ _ SW R) in D. intros t sl [= <- <-]. destruct (doubled c w w' q1 stk k k') as (u & u' & -> & -> & SU & GU & GU'); auto; [intros ->; discriminate|]. exists u, u'. repeat split; auto.
        -- intros t sl [= <- <-]. exists w, w'. repeat split; auto.
    + destruct (ceq_spec c ":"%char) as [->|]; [|congruence]. destruct w as [|[o| | | | | | | ] w]; try congruence. destruct (operator o) eqn:Oo; [|congruence].
      inversion SW as [|? ? ? w2 ? SW2| | | | | | | | |]; subst. clear SW. destruct G as (_ & G). destruct G' as (_ & G'). change (enc (Chr o :: w) ++ k) with (CHAR :: o :: enc w ++ k). change (enc (Chr o :: w2) ++ k') with (CHAR :: o :: enc w2 ++ k').
      change (trims (Chr ":" :: Chr o :: w)) with (mem o (L "#%")) in *. destruct (op_two o Oo) as [(O1 & O2 & O3)|(O1 & O2 & O3)]; rewrite O3 in *.
      * rewrite !qual_colon by auto. split; [reflexivity|]. split; [reflexivity|]. intros t sl [= <- <-]. exists w, w2. repeat split; auto.
      * rewrite !qual_ctrim by auto. cbn [negb andb] in *. rewrite (char_at_same _ _ _ _ _ _ SW2 R). split; [reflexivity|]. split; [reflexivity|]. destruct (ceq o (char_at (enc w2 ++ k'))) eqn:D.
        -- rewrite <- (char_at_same _ _ _ _ _ _ SW2 R) in D. intros t sl [= <- <-]. destruct (doubled o w w2 q1 stk k k') as (u & u' & -> & -> & SU & GU & GU'); auto; [intros ->; discriminate|]. exists u, u'. repeat split; auto.
        -- intros t sl [= <- <-]. exists w, w2. repeat split; auto.
Qed.

Lemma varsub_same e n w w' : qualifier w = qualifier w' -> at0 w = at0 w' -> varsub E y e n w = varsub E y e n w'.
Proof. intros Q A. unfold varsub. now rewrite Q, A. Qed.
Lemma varsub_qual e n w s slen var : varsub E y e n w = V XBASE s slen var -> qualifier w = Some (s, slen).
Proof.
  unfold varsub. destruct n as [|c r]; [discriminate|]. destruct (at0 w) as [w0|]; [|discriminate]. destruct (ceq c "#" && _).
  - destruct (ceq w0 CSUBST); [|discriminate]. unfold length_sub. destruct (match vector r with Some _ => _ | None => _ end) as [k ok]. destruct (_ && _); [discriminate|]. destruct (u64ton _ _); discriminate.
  - destruct (qualifier w) as [[t sl]|]; [|discriminate]. destruct (_ && _); [discriminate|]. cbv zeta. destruct (star_or_at (c :: r)) as [a|].
    + destruct (_ || _); [discriminate|]. destruct (params y e); destruct (_ && _); try discriminate; intros H; injection H; congruence.
    + destruct (vector (c :: r)) as [a|].
      * destruct (_ || _); [discriminate|]. destruct (elems y e (c :: r)); destruct (_ && _); try discriminate; intros H; injection H; congruence.
      * destruct (_ && _); [discriminate|]. destruct (_ && _); [discriminate|]. intros H. injection H. congruence.
Qed.
Lemma began_same m t p' : began E (set_sp E m p') t = set_sp E (began E m t) p' /\ sp E (began E m t) = sp E m /\ stk E (began E m t) = stk E m /\ quote E (began E m t) = quote E m /\ ty E (began E m t) = t.
Proof.
  unfold began, up. cbn [f set_ty set_sp]. destruct (blank (f E m)); cbn; destruct (word E m), t; repeat split; reflexivity.
Qed.
Lemma open_same m b n v v' q1 e w w' q2 k k' p' : ~ In NUL n -> after_name v <> None -> same (negb (trims v) && quote E m) v v' q1 -> good v -> good v' ->
  same (quote E m) w w' q2 -> good w -> good w' -> rest_ok q2 (stk E m) k k' -> (ty E m = XBASE) ->
  sp E m = b :: n ++ NUL :: enc v ++ CSUBST :: e :: enc w ++ k -> p' = b :: n ++ NUL :: enc v' ++ CSUBST :: e :: enc w' ++ k' ->
  rel_out (open_sub E y m) (open_sub E y (set_sp E m p')).
Proof.
  intros N AN SV GV GV' SW GW GW' R T P ->. unfold open_sub. cbn [sp set_sp]. rewrite P, !to_nul_ok by auto.
  set (K := CSUBST :: e :: enc w ++ k). set (K' := CSUBST :: e :: enc w' ++ k').
  assert (forall s, s_quote s = quote E m -> rest_ok q1 (s :: stk E m) K K') as RK by (intros s SQ; econstructor; [rewrite SQ; exact SW|auto..]).
  destruct (qual_same v v' (quote E m) q1 _ K K' AN SV GV GV' (RK (Sub None 0%Z (f E m) None (quote E m)) eq_refl)) as (Q1 & Q2 & Q3).
  change (env E (set_sp E m (b :: n ++ NUL :: enc v' ++ K'))) with (env E m). rewrite <- (varsub_same (env E m) n _ _ Q1 Q2).
  destruct (varsub E y (env E m) n (enc v ++ K)) as [| | |t s slen var] eqn:VS; [reflexivity..|].
  destruct (began_same m t (b :: n ++ NUL :: enc v' ++ K')) as (-> & B1 & B2 & B3 & B4). set (m1 := began E m t) in *. clearbody m1.
  assert (t <> XBASE -> rel_out (match wdscan (enc v ++ K) CSUBST with WAt r => Next E (set_sp E m1 r) | WOob => Bad E end)
                                (match wdscan (enc v' ++ K') CSUBST with WAt r => Next E (set_sp E (set_sp E m1 (b :: n ++ NUL :: enc v' ++ K')) r) | WOob => Bad E end)) as SK.
  { intros _. unfold K, K'. rewrite !c23_scan_close by auto. eexists. split; [reflexivity|]. unfold rel, quoted. cbn [ty set_sp quote stk sp]. rewrite B2, B3, B4. 
    replace (match t with XARG true _ _ _ => true | _ => quote E m end) with (quote E m).
    - eapply sy; eauto.
    - destruct t as [| |[]| |]; try reflexivity. exfalso. revert VS. clear. unfold varsub. destruct n as [|c r]; [discriminate|]. destruct (at0 _) as [w0|]; [|discriminate]. destruct (ceq c "#" && _).
      + destruct (ceq w0 CSUBST); [|discriminate]. unfold length_sub. destruct (match vector r with Some _ => _ | None => _ end) as [k0 ok]. destruct (_ && _); [discriminate|]. destruct (u64ton _ _); discriminate.
      + destruct (qualifier _) as [[t sl]|]; [|discriminate]. destruct (_ && _); [discriminate|]. cbv zeta. destruct (star_or_at (c :: r)) as [a|].
        * destruct (_ || _); [discriminate|]. destruct (params y _) as [|p ps]; destruct (_ && _); try discriminate; destruct (_ || _); try discriminate; destruct a; discriminate.
        * destruct (vector (c :: r)) as [a|].
          -- destruct (_ || _); [discriminate|]. destruct (elems y _ (c :: r)); destruct (_ && _); try discriminate; destruct (_ || _); try discriminate; destruct a; discriminate.
          -- destruct (_ && _); [discriminate|]. destruct (_ && _); [discriminate|]. destruct (_ || _); discriminate. }
  destruct t; try (apply SK; discriminate). clear SK. apply varsub_qual in VS. destruct (Q3 _ _ VS) as (u & u' & U1 & U2 & GU & GU' & TR & SU).
  unfold open_word. cbn [f set_sp set_stk stk quote dp env]. rewrite U1, U2, B2, B3.
  assert (forall z z', z' = set_sp E z (enc u' ++ K') -> rel z (enc u' ++ K') -> rel_out (Next E z) (Next E z')) as NX by (intros z z' -> H1; exists (enc u' ++ K'); auto).
  destruct (is_subop2 (op_of s)) eqn:S2.
  - rewrite <- TR in SU. eapply NX; [reflexivity|]. unfold rel, quoted. cbn. rewrite B4. eapply sy; [exact SU|auto|auto|apply RK; reflexivity|reflexivity|reflexivity].
  - rewrite <- TR in SU. cbn [negb andb] in SU. destruct (ceq (op_of s) "=").
    + destruct var; [|reflexivity]. eapply NX; [reflexivity|]. unfold rel, quoted. cbn. rewrite B3, B4. eapply sy; [exact SU|auto|auto|apply RK; reflexivity|reflexivity|reflexivity].
    + assert (forall z, ty E z = XBASE -> quote E z = quote E m -> sp E z = enc u ++ K -> (exists s0, s_quote s0 = quote E m /\ stk E z = s0 :: stk E m) -> rel z (enc u' ++ K')) as RZ.
      { intros z Z1 Z2 Z3 (s0 & Z4 & Z5). unfold rel, quoted. rewrite Z1, Z2, Z3, Z5. eapply sy; [exact SU|auto|auto|apply RK; auto|reflexivity|reflexivity]. }
      cbn [set_f set_til f word set_word dp]. destruct (quote E m) eqn:Q, (ceq (op_of s) "?"), (dp E m1); cbn; (eapply NX; [reflexivity|]; apply RZ; cbn; auto; eexists; split; [|reflexivity]; reflexivity).
Qed.

Lemma next_same z z' p' : z' = set_sp E z p' -> rel z p' -> rel_out (Next E z) (Next E z').
Proof. intros -> H. exists p'. auto. Qed.
Lemma close_same m s stk' e w w' q2 k k' p' : stk E m = s :: stk' -> same (s_quote s) w w' q2 -> good w -> good w' -> rest_ok q2 stk' k k' -> ty E m = XBASE ->
  sp E m = e :: enc w ++ k -> p' = e :: enc w' ++ k' -> rel_out (close_sub E y m) (close_sub E y (set_sp E m p')).
Proof.
  intros ST S G G' R T P ->. unfold close_sub. cbn [sp set_sp stk]. rewrite P, ST. cbv zeta.
  assert (forall m z z', z' = set_sp E z (enc w' ++ k') -> sp E z = enc w ++ k -> stk E z = stk' -> quote E z = s_quote s -> (forall a b c, ty E z <> XARG true a b c) -> z = m -> rel_out (Next E z) (Next E z')) as NX.
  { intros m0 z z' Z1 Z2 Z3 Z4 Z5 _. apply next_same with (enc w' ++ k'); [auto|]. unfold rel, quoted. rewrite Z2, Z3, Z4. replace (match ty E z with XARG true _ _ _ => true | _ => s_quote s end) with (s_quote s); [eapply sy; eauto|]. destruct (ty E z) as [| |[]| |]; try reflexivity. exfalso. eapply Z5. reflexivity. }
  set (m1 := down E (set_f E (set_quote E (no_tilde E (set_sp E m (enc w ++ k))) (s_quote s)) (s_f s))).
  assert (down E (set_f E (set_quote E (no_tilde E (set_sp E (set_sp E m (e :: enc w' ++ k')) (enc w' ++ k'))) (s_quote s)) (s_f s)) = set_sp E m1 (enc w' ++ k')) as -> by (unfold m1, down; cbn [f set_f]; destruct (blank (s_f s)); reflexivity).
  assert (sp E m1 = enc w ++ k /\ quote E m1 = s_quote s /\ ty E m1 = XBASE) as (M1 & M2 & M3) by (unfold m1, down; cbn [f set_f]; destruct (blank (s_f s)); cbn; auto).
  clearbody m1. destruct m1 as [e1 p1 ty1 qu1 dp1 fb fg fm wd1 db stk1 se t1 t2 fl os]. cbn in M1, M2, M3. subst p1 qu1 ty1. unfold up. cbn [dp set_sp quote env f set_dp set_ty set_word set_stk set_doblank set_env blank word ty].
  destruct (is_subop2 (op_of (s_type s))).
  - destruct (if _ && _ then _ else _) as [[d p]|]; [|reflexivity]. destruct (s_var s) as [x|]; [|reflexivity]. destruct (trimsub _ _ _) as [[r r0]| |]; [|reflexivity..]. destruct r as [|r1 r].
    + destruct (s_quote s) eqn:Q; [|destruct d]; cbn; destruct (blank fl); (eapply NX; [reflexivity|cbn; auto..|reflexivity]; try discriminate).
    + cbn. destruct (blank fl); (eapply NX; [reflexivity|cbn; auto..|reflexivity]; try discriminate).
  - destruct (ceq (op_of (s_type s)) "=").
    + destruct (if _ && _ then _ else _) as [[d p]|]; [|reflexivity]. destruct (s_var s) as [x|]; [|reflexivity]. destruct (assign y e1 x (debunk p)) as [[e0 v]|]; [|reflexivity]. cbn. destruct (blank fl); cbn; (eapply NX; [reflexivity|cbn; auto..|reflexivity]; try discriminate).
    + destruct (ceq (op_of (s_type s)) "?"); [destruct (s_var s); reflexivity|]. eapply NX; [reflexivity|cbn; auto..|reflexivity]; discriminate.
Qed.
Lemma down_same m p' : down E (set_sp E m p') = set_sp E (down E m) p' /\ sp E (down E m) = sp E m /\ stk E (down E m) = stk E m /\ quote E (down E m) = quote E m /\ ty E (down E m) = ty E m.
Proof. unfold down. cbn [f set_sp]. destruct (blank (f E m)); auto. Qed.
(** a state that does not read the word *)
Lemma base_same m p' : rel m p' -> (forall a b c, ty E m <> XARG true a b c) -> rel_out (Next E (down E (set_ty E m XBASE))) (Next E (down E (set_ty E (set_sp E m p') XBASE))).
Proof.
  intros R N. destruct (down_same (set_ty E m XBASE) p') as (A & B & C & D & F). change (set_ty E (set_sp E m p') XBASE) with (set_sp E (set_ty E m XBASE) p'). rewrite A. apply next_same with p'; [reflexivity|].
  unfold rel, quoted in *. rewrite B, C, D, F. cbn. destruct (ty E m) as [| |[]| |]; try exact R. exfalso. eapply N. reflexivity.
Qed.
Lemma char_same2 z z' c q mg p' : z' = set_sp E z p' -> rel z p' -> (ty E z = XBASE -> quote E z = true -> q = true) -> rel_out (char_out E y z c q mg) (char_out E y z' c q mg).
Proof. intros -> R Q. now apply char_same. Qed.
Section Codes.
Variable m : st.
Hypothesis T : ty E m = XBASE.
Lemma step_eos r : sp E m = EOS :: r -> step E y m = split_at E (set_sp E m r) NUL.
Proof. intros P. unfold step. rewrite T, P. reflexivity. Qed.
Lemma step_chr c r : sp E m = CHAR :: c :: r -> step E y m = char_out E y (set_sp E m r) c (quote E m) false.
Proof. intros P. unfold step. rewrite T, P. reflexivity. Qed.
Lemma step_qch c r : sp E m = QCHAR :: c :: r -> step E y m = char_out E y (set_sp E m r) c true false.
Proof. intros P. unfold step. rewrite T, P. reflexivity. Qed.
Lemma step_oq r : sp E m = OQUOTE :: r -> step E y m = Next E (set_quote E (no_tilde E (set_word E (set_sp E m r) (match word E m with QUOTE | WORD => WORD | _ => QUOTE end))) true).
Proof. intros P. unfold step. rewrite T, P. reflexivity. Qed.
Lemma step_cq r : sp E m = CQUOTE :: r -> step E y m = Next E (set_quote E (set_sp E m r) false).
Proof. intros P. unfold step. rewrite T, P. reflexivity. Qed.
Lemma step_com t r : sp E m = COMSUB :: t ++ NUL :: r -> ~ In NUL t -> step E y m =
  let m := no_tilde E (set_sp E m (t ++ NUL :: r)) in
  if dont (f E m) then Next E (set_sp E (set_dp E (set_word E m WORD) (dp E m ++ L "$(" ++ t ++ L ")")) (NUL :: r))
  else match command y (env E m) t with
       | None => Err E (env E m)
       | Some (e, None) => Next E (set_sp E (set_env E m e) r)
       | Some (e, Some o) => Next E (set_sp E (set_ty E (up E (set_env E m e)) (XCOM 0 o)) r)
       end.
Proof. intros P N. unfold step. rewrite T, P. change (ceq COMSUB EOS) with false. change (ceq COMSUB CHAR) with false. change (ceq COMSUB QCHAR) with false. change (ceq COMSUB OQUOTE) with false. change (ceq COMSUB CQUOTE) with false. change (ceq COMSUB COMSUB) with true. cbn iota. rewrite to_nul_ok by auto. reflexivity. Qed.
Lemma step_exp t r : sp E m = EXPRSUB :: t ++ NUL :: r -> ~ In NUL t -> step E y m =
  let m := no_tilde E (set_word E (set_sp E m (t ++ NUL :: r)) WORD) in
  if dont (f E m) then Next E (set_sp E (set_dp E m (dp E m ++ L "$((" ++ t ++ L "))")) (NUL :: r))
  else match arith y (env E m) t with
       | None => Err E (env E m)
       | Some (e, v) => Next E (set_sp E (set_dp E (set_env E m e) (dp E m ++ v)) r)
       end.
Proof. intros P N. unfold step. rewrite T, P. change (ceq EXPRSUB EOS) with false. change (ceq EXPRSUB CHAR) with false. change (ceq EXPRSUB QCHAR) with false. change (ceq EXPRSUB OQUOTE) with false. change (ceq EXPRSUB CQUOTE) with false. change (ceq EXPRSUB COMSUB) with false. change (ceq EXPRSUB EXPRSUB) with true. cbn iota. rewrite to_nul_ok by auto. reflexivity. Qed.
Lemma step_osub r : sp E m = OSUBST :: r -> step E y m = open_sub E y (set_sp E m r).
Proof. intros P. unfold step. rewrite T, P. reflexivity. Qed.
Lemma step_csub r : sp E m = CSUBST :: r -> step E y m = close_sub E y (set_sp E m r).
Proof. intros P. unfold step. rewrite T, P. reflexivity. Qed.
Lemma step_opat c r : sp E m = OPAT :: c :: r -> step E y m = char_out E y (set_sp E m r) (hi_of c) (quote E m) true.
Proof. intros P. unfold step. rewrite T, P. reflexivity. Qed.
Lemma step_spat r : sp E m = SPAT :: r -> step E y m = char_out E y (set_sp E m r) "|"%char (quote E m) true.
Proof. intros P. unfold step. rewrite T, P. reflexivity. Qed.
Lemma step_cpat r : sp E m = CPAT :: r -> step E y m = char_out E y (set_sp E m r) ")"%char (quote E m) true.
Proof. intros P. unfold step. rewrite T, P. reflexivity. Qed.
End Codes.
Lemma split_done m p' : rel_out (split_at E m NUL) (split_at E (set_sp E m p') NUL).
Proof. unfold split_at. cbn [word set_sp]. change (is_nul NUL) with true. destruct (match word E m with WORD | QUOTE => true | IWS | NWS => _ | WS => false end); eexists; reflexivity. Qed.
Definition no_sep (t : source) : Prop := match t with XARG true _ _ _ => False | _ => True end.
Lemma open_same2 m m' b n v v' q1 e w w' q2 k k' p p' : m' = set_sp E m p' -> ~ In NUL n -> after_name v <> None -> same (negb (trims v) && quote E m) v v' q1 -> good v -> good v' ->
  same (quote E m) w w' q2 -> good w -> good w' -> rest_ok q2 (stk E m) k k' -> (ty E m = XBASE) ->
  p = b :: n ++ NUL :: enc v ++ CSUBST :: e :: enc w ++ k -> p' = b :: n ++ NUL :: enc v' ++ CSUBST :: e :: enc w' ++ k' ->
  rel_out (open_sub E y (set_sp E m p)) (open_sub E y m').
Proof. intros -> N AN SV GV GV' SW GW GW' R T P P'. exact (open_same (set_sp E m p) b n v v' q1 e w w' q2 k k' p' N AN SV GV GV' SW GW GW' R T P P'). Qed.
Theorem step_same m p' : rel m p' -> rel_out (step E y m) (step E y (set_sp E m p')).
Proof.
  intros R. destruct (ty E m) as [|mid s|sep s rs split|nl o|] eqn:T.
  - (* the word *) unfold rel, quoted in R. rewrite T in R. destruct R as [w w' q2 k k' W G G' RK P P'].
    assert (forall u u' q, same q u u' q2 -> good u -> good u' -> forall z, stk E z = stk E m -> no_sep (ty E z) -> quote E z = q -> sp E z = enc u ++ k -> rel z (enc u' ++ k')) as RZ.
    { intros u u' q S0 G0 G0' z Z1 Z2 Z3 Z4. unfold rel, quoted. rewrite Z1, Z3, Z4. replace (match ty E z with XARG true _ _ _ => true | _ => q end) with q; [eapply sy; eauto|]. destruct (ty E z) as [| |[]| |]; try reflexivity. contradiction. }
    assert (forall u u' q, same q u u' q2 -> good u -> good u' -> forall z z', z' = set_sp E z (enc u' ++ k') -> stk E z = stk E m -> no_sep (ty E z) -> quote E z = q -> sp E z = enc u ++ k -> rel_out (Next E z) (Next E z')) as RN.
    { intros u u' q S0 G0 G0' z z' Z0 Z1 Z2 Z3 Z4. eapply next_same; [exact Z0|]. eapply RZ; eauto. }
    remember (quote E m) as qm eqn:QM. subst p'. destruct W as [q|q c w w' q2 W|q c w w' q2 W|c w w' q2 W|q w w' q2 W|q w w' q2 W|q s w w' q2 W|q s w w' q2 W|q s w w' q2 W|q s v v' q1 w w' q2 AN SV W|q k0 ps ps' q1 w w' q2 SP W].
    + clear RZ RN. cbn [enc flat_map app] in *. remember (stk E m) as sm eqn:SM. destruct RK as [q stk t t'|q s stk e w w' q2 k k' W Gw Gw' RK|q stk ps ps' q1 w w' q2 k k' SP GP GP' W Gw Gw' RK|q stk w w' q2 k k' W Gw Gw' RK].
      * rewrite (step_eos m T _ P), (step_eos (set_sp E m (EOS :: t')) T t' eq_refl). apply (split_done (set_sp E m t)).
      * rewrite (step_csub m T _ P), (step_csub (set_sp E m (CSUBST :: e :: enc w' ++ k')) T _ eq_refl). eapply (close_same (set_sp E m (e :: enc w ++ k))); [symmetry; exact SM|exact W|auto|auto|exact RK|auto|reflexivity|reflexivity].
      * rewrite (step_spat m T _ P), (step_spat (set_sp E m (SPAT :: encp ps' ++ CPAT :: enc w' ++ k')) T _ eq_refl). eapply char_same2; [reflexivity| |cbn; rewrite <- QM; auto]. unfold rel, quoted. cbn. rewrite T, <- QM, <- SM. eapply sync_pats; eauto.
      * rewrite (step_cpat m T _ P), (step_cpat (set_sp E m (CPAT :: enc w' ++ k')) T _ eq_refl). eapply char_same2; [reflexivity| |cbn; rewrite <- QM; auto]. unfold rel, quoted. cbn. rewrite T, <- QM, <- SM. eapply sy; eauto.
    + destruct G as (_ & G), G' as (_ & G'). rewrite (step_chr m T c (enc w ++ k)), (step_chr (set_sp E m (enc (Chr c :: w') ++ k')) T c (enc w' ++ k')) by auto.
      eapply char_same2; [reflexivity| |cbn; rewrite <- QM; auto]. eapply RZ; [exact W|auto..|cbn; rewrite T; exact I|auto|auto].
    + destruct G as (_ & G), G' as (_ & G'). rewrite (step_qch m T c (enc w ++ k)), (step_qch (set_sp E m (enc (Qch c :: w') ++ k')) T c (enc w' ++ k')) by auto.
      eapply char_same2; [reflexivity| |auto]. eapply RZ; [exact W|auto..|cbn; rewrite T; exact I|auto|auto].
    + destruct G as (_ & G), G' as (_ & G'). rewrite (step_qch m T c (enc w ++ k)), (step_chr (set_sp E m (enc (Chr c :: w') ++ k')) T c (enc w' ++ k')) by auto. cbn [quote set_sp]. rewrite <- QM.
      eapply char_same2; [reflexivity| |auto]. eapply RZ; [exact W|auto..|cbn; rewrite T; exact I|auto|auto].
    + destruct G as (_ & G), G' as (_ & G'). rewrite (step_oq m T (enc w ++ k)), (step_oq (set_sp E m (enc (OQ :: w') ++ k')) T (enc w' ++ k')) by auto. 
      eapply RN; [exact W|auto|auto|reflexivity|auto|cbn; rewrite T; exact I|auto|auto].
    + destruct G as (_ & G), G' as (_ & G'). rewrite (step_cq m T (enc w ++ k)), (step_cq (set_sp E m (enc (CQ :: w') ++ k')) T (enc w' ++ k')) by auto. 
      eapply RN; [exact W|auto|auto|reflexivity|auto|cbn; rewrite T; exact I|auto|auto].
    + destruct G as (N & G), G' as (_ & G'). cbn in N. assert (forall w k, enc (Com s :: w) ++ k = COMSUB :: s ++ NUL :: enc w ++ k) as EC by (intros; cbn [enc flat_map enc1 app]; now rewrite <- !app_assoc). rewrite !EC in *.
      rewrite (step_com m T s (enc w ++ k)), (step_com (set_sp E m (COMSUB :: s ++ NUL :: enc w' ++ k')) T s (enc w' ++ k')) by auto. cbv zeta. cbn [f no_tilde set_til set_sp env]. destruct (dont (f E m)).
      * eapply next_same; [reflexivity|]. unfold rel, quoted. cbn. rewrite T. change NUL with EOS. eapply (sy _ _ _ _ [] []); [constructor|exact I|exact I|constructor|reflexivity|reflexivity].
      * destruct (command y (env E m) s) as [[e [o|]]|]; [|eapply RN; [exact W|auto|auto|reflexivity|auto|cbn; rewrite T; exact I|auto|auto]|reflexivity].
        unfold up. cbn. destruct (blank (f E m)); (eapply RN; [exact W|auto|auto|reflexivity|auto|exact I|auto|auto]).
    + destruct G as (N & G), G' as (_ & G'). cbn in N. assert (forall w k, enc (Exp s :: w) ++ k = EXPRSUB :: s ++ NUL :: enc w ++ k) as EC by (intros; cbn [enc flat_map enc1 app]; now rewrite <- !app_assoc). rewrite !EC in *.
      rewrite (step_exp m T s (enc w ++ k)), (step_exp (set_sp E m (EXPRSUB :: s ++ NUL :: enc w' ++ k')) T s (enc w' ++ k')) by auto. cbv zeta. cbn [f no_tilde set_til set_sp env set_word]. destruct (dont (f E m)).
      * eapply next_same; [reflexivity|]. unfold rel, quoted. cbn. rewrite T. change NUL with EOS. eapply (sy _ _ _ _ [] []); [constructor|exact I|exact I|constructor|reflexivity|reflexivity].
      * destruct (arith y (env E m) s) as [[e o]|]; [|reflexivity]. eapply RN; [exact W|auto|auto|reflexivity|auto|cbn; rewrite T; exact I|auto|auto].
    + destruct G as (N & G), G' as (_ & G'). destruct N as (N & _). assert (forall w k, enc (Word_spec.Sub false s [] :: w) ++ k = OSUBST :: "X"%char :: s ++ NUL :: enc [] ++ CSUBST :: "X"%char :: enc w ++ k) as EC by (intros; cbn [enc flat_map enc1 app]; now rewrite <- !app_assoc). rewrite !EC in *.
      rewrite (step_osub m T _ P), (step_osub (set_sp E m (OSUBST :: "X"%char :: s ++ NUL :: enc [] ++ CSUBST :: "X"%char :: enc w' ++ k')) T _ eq_refl).
      subst q. eapply (open_same2 m _ "X"%char s [] [] (quote E m) "X"%char w w' q2 k k'); [reflexivity|auto|discriminate|constructor|exact I|exact I|auto..].
    + destruct G as (N & G), G' as (N' & G'). destruct N as (N & NV), N' as (_ & NV'). apply good_fix in NV. apply good_fix in NV'. assert (forall v w k, enc (Word_spec.Sub true s v :: w) ++ k = OSUBST :: "{"%char :: s ++ NUL :: enc v ++ CSUBST :: "}"%char :: enc w ++ k) as EC by (intros; cbn [enc flat_map enc1 app]; rewrite <- !app_assoc; cbn [app]; rewrite <- !app_assoc; reflexivity). rewrite !EC in *.
      rewrite (step_osub m T _ P), (step_osub (set_sp E m (OSUBST :: "{"%char :: s ++ NUL :: enc v' ++ CSUBST :: "}"%char :: enc w' ++ k')) T _ eq_refl).
      subst q. eapply (open_same2 m _ "{"%char s v v' q1 "}"%char w w' q2 k k'); [reflexivity|auto..].
    + destruct G as (N & G), G' as (N' & G'). cbn [good1] in N, N'. assert (forall ps w k, enc (Pat k0 ps :: w) ++ k = OPAT :: k0 :: encp ps ++ CPAT :: enc w ++ k) as EC by (intros; cbn [enc flat_map enc1 app]; rewrite <- !app_assoc; reflexivity). rewrite !EC in *.
      rewrite (step_opat m T _ _ P), (step_opat (set_sp E m (OPAT :: k0 :: encp ps' ++ CPAT :: enc w' ++ k')) T _ _ eq_refl). eapply char_same2; [reflexivity| |cbn; rewrite <- QM; auto]. unfold rel, quoted. cbn. rewrite T, <- QM. eapply sync_pats; eauto.
  - (* a value *) unfold step. cbn [ty set_sp]. rewrite T. destruct s as [|c r].
    + apply base_same; [auto|rewrite T; discriminate].
    + eapply char_same2; [reflexivity| |discriminate]. unfold rel, quoted in *. rewrite T in R. exact R.
  - (* parameters *) unfold step. cbn [ty set_sp]. rewrite T. set (m1 := if sep then set_quote E m true else m).
    assert ((if sep then set_quote E (set_sp E m p') true else set_sp E m p') = set_sp E m1 p') as -> by (destruct sep; reflexivity).
    assert (sync (quote E m1) (stk E m1) (sp E m1) p') as R1 by (unfold rel, quoted in R; rewrite T in R; destruct sep; exact R). clearbody m1. clear R T sep. destruct s as [|c r].
    + cbn [quote set_sp]. set (m2 := if quote E m1 && split then set_word E m1 WORD else m1). assert ((if quote E m1 && split then set_word E (set_sp E m1 p') WORD else set_sp E m1 p') = set_sp E m2 p') as -> by (unfold m2; destruct (_ && _); reflexivity).
      assert (sync (quote E m2) (stk E m2) (sp E m2) p') as R2 by (unfold m2; destruct (_ && _); exact R1). assert (quote E m2 = quote E m1) as Q2 by (unfold m2; destruct (_ && _); reflexivity). clearbody m2. destruct rs as [|s rs].
      * destruct (down_same (set_ty E m2 XBASE) p') as (A & B & C & D & F). change (set_ty E (set_sp E m2 p') XBASE) with (set_sp E (set_ty E m2 XBASE) p'). rewrite A. apply next_same with p'; [reflexivity|]. unfold rel, quoted. rewrite B, C, D, F. exact R2.
      * cbn [env set_sp quote word set_ty]. destruct (is_nul (ifs0 (ifs y (env E m2)))).
        -- destruct (quote E m2 && negb split); [eapply next_same; [reflexivity|exact R2]|]. destruct (_ && _); [eapply next_same; [reflexivity|exact R2]|].
           destruct (after_same (emit_word E (set_ty E m2 (XARG false s rs split))) SP p') as (A & B & C & D). eapply next_same; [exact A|]. unfold rel. rewrite B, C, D. exact R2.
        -- destruct (quote E m2 && split) eqn:QS; (eapply char_same2; [reflexivity| |discriminate]); [|exact R2]. apply andb_prop in QS as (QS & _). unfold rel, quoted. cbn. rewrite QS in R2. exact R2.
    + eapply char_same2; [reflexivity| |discriminate]. exact R1.
  - (* output of a command *) unfold step. cbn [ty set_sp]. rewrite T. assert (sync (quote E m) (stk E m) (sp E m) p') as R1 by (unfold rel, quoted in R; rewrite T in R; exact R). destruct nl as [|nl].
    + destruct (skip_nl o 0) as [[|nl] [|c o']].
      * apply base_same; [auto|rewrite T; discriminate].
      * eapply char_same2; [reflexivity|exact R1|discriminate].
      * apply base_same; [auto|rewrite T; discriminate].
      * eapply char_same2; [reflexivity|exact R1|discriminate].
    + eapply char_same2; [reflexivity|exact R1|discriminate].
  - (* $@ without parameters *) unfold step. cbn [ty set_sp]. rewrite T. assert (sync (quote E m) (stk E m) (sp E m) p') as R1 by (unfold rel, quoted in R; rewrite T in R; exact R). cbn [f set_ty set_sp]. unfold down. cbn [f set_ty set_sp]. destruct (blank (f E m)).
    + cbn. destruct (dp E m), (word E m); (eapply next_same; [reflexivity|exact R1]).
    + eapply next_same; [reflexivity|exact R1].
Qed.
Lemma run_same n : forall m p', rel m p' -> rel_out (run E y n m) (run E y n (set_sp E m p')).
Proof.
  induction n as [|n IH]; intros m p' R; [exists p'; auto|]. cbn [run]. pose proof (step_same m p' R) as S. destruct (step E y m) as [m1|m1|e|]; cbn [rel_out] in S.
  - destruct S as (p1 & -> & R1). auto.
  - destruct S as (p1 & ->). exists p1. reflexivity.
  - rewrite S. reflexivity.
  - rewrite S. reflexivity.
Qed.
End Same.

(** * Whole words *)
Lemma same_good q w w' q2 : same q w w' q2 -> good w -> good w'.
Proof.
  apply (same_mut (fun q w w' q2 _ => good w -> good w') (fun q ps ps' q2 _ => goodp ps -> goodp ps')); intros; cbn [good good1 goodp] in *; rewrite ?good_fix in *; tauto.
Qed.
(** the fields and the environment an expansion ends with *)
Inductive outcome (E : Type) := Running | Fields (l : list raw) (e : E) | Fails (e : E) | Outside.
Arguments Running {E}. Arguments Fields {E}. Arguments Fails {E}. Arguments Outside {E}.
Definition outcome_of {E} (o : out E) : outcome E :=
  match o with Next _ _ => Running | Done _ m => Fields (outs E m) (env E m) | Err _ e => Fails e | Bad _ => Outside end.
Theorem same_expands w w' q : same false w w' q -> good w -> forall E (y : sys E) o1 o2 o3 fl e n rest rest',
  outcome_of (run E y n (start E o1 o2 o3 fl e (enc w' ++ EOS :: rest'))) = outcome_of (run E y n (start E o1 o2 o3 fl e (enc w ++ EOS :: rest))).
Proof.
  intros S G E y o1 o2 o3 fl e n rest rest'. set (m := start E o1 o2 o3 fl e (enc w ++ EOS :: rest)).
  change (start E o1 o2 o3 fl e (enc w' ++ EOS :: rest')) with (set_sp E m (enc w' ++ EOS :: rest')).
  assert (rel E m (enc w' ++ EOS :: rest')) as R by (eapply sy; [exact S|auto|eapply same_good; eauto|constructor|reflexivity|reflexivity]).
  pose proof (run_same E y n m _ R) as X. destruct (run E y n m) as [m1|m1|e1|]; cbn [rel_out] in X.
  - destruct X as (p1 & -> & _). reflexivity.
  - destruct X as (p1 & ->). reflexivity.
  - rewrite X. reflexivity.
  - rewrite X. reflexivity.
Qed.
