(** Variables: attempts to change a read-only variable fail. *)
From Verif Require Import Base Num_model SimplifyPath_model Printf_model Justify_model Arith_model Var_model Var_spec Var_proof Var_inv Var_array.
Local Open Scope Z_scope.

Section RF.
Variables (k0 : nat) (n0 : cstr) (e0 : ent) (len0 : nat).
Hypothesis Hn0 : is_name n0 = true.
Definition instL (st : vars) : Prop := inst k0 n0 e0 len0 st /\ forall j, (j < k0)%nat -> undef_at st j n0.
Lemma instL_at st k : instL st -> located st k n0 -> k = k0.
Proof.
  intros [(_ & _ & e & He & (Hd & _) & _) H] [[_ Hr] (x & Hx & Hxd)]. destruct (Nat.lt_trichotomy k k0) as [L|[|L]]; [|assumption|].
  - specialize (H _ L _ Hx). congruence.
  - specialize (Hr _ L _ He). congruence.
Qed.
Lemma instL_put st k n e : instL st -> inst k0 n0 e0 len0 (put st k n e) -> (n = n0 -> ~ (k < k0)%nat) -> instL (put st k n e).
Proof.
  intros [A B] C D. split; [assumption|]. intros j Hj x. destruct (here_dec k n j n0) as [X|[-> <-]].
  - rewrite entry_put_other by exact X. apply B. assumption.
  - exfalso. apply D; [reflexivity|assumption].
Qed.
Lemma instL_look st k n st' : instL st -> looked st k n st' -> instL st'.
Proof.
  intros HJ H. pose proof (inst_look _ _ _ _ _ _ _ _ (proj1 HJ) H) as HI.
  destruct H as [k n e Hl He|k n e v Hl He Hb|k n e v Hk Hne Hb Hu He]; [assumption| |]; apply instL_put; auto.
  - intros ->. rewrite (instL_at _ _ HJ Hl). lia.
  - intros ->. destruct HJ as [(_ & _ & x & Hx & (Hd & _) & _) _]. rewrite (Hu _ _ Hx) in Hd. discriminate.
Qed.
Variable ev : vars -> cstr -> list asn * evres.
Variable fuel : nat.
Lemma instL_write st k n e i t t' : instL st -> elsewhere k0 n0 k n -> entry st k n = Some e -> get_t e i = Some t -> wrel t t' ->
  instL (put st k n (put_t e i t')).
Proof.
  intros HJ HW He Hg Hw. split; [apply inst_other; auto; [apply HJ|]; eapply wf_write; eauto; apply HJ|]. intros j Hj x.
  destruct (here_dec k n j n0) as [X|[-> <-]]; [rewrite entry_put_other by exact X; apply HJ; assumption|].
  rewrite entry_put_same by (eapply entry_some; eauto). intros [= <-]. pose proof (proj2 HJ _ Hj _ He) as U. destruct Hw as (_ & _ & W3).
  unfold put_t, get_t in *. destruct (i =? 0); cbn [e_base]; [|assumption]. injection Hg as <-. congruence.
Qed.
Lemma instL_global st n : instL st -> okR instL (fst (split_ref n)) (global ev st n).
Proof.
  apply (walk_global ev fuel instL (elsewhere k0 n0) (fun _ _ => True)).
  - intros s H. apply H.
  - apply instL_look.
  - auto.
  - intros s k m i H _. eapply inst_W. apply H.
  - apply instL_write.
Qed.
Lemma instL_evaluate st s : instL st -> okO instL (evaluate ev st s).
Proof.
  apply (walk_evaluate ev fuel instL (elsewhere k0 n0) (fun _ _ => True)).
  - intros x H. apply H.
  - apply instL_look.
  - auto.
  - intros x k m i H _. eapply inst_W. apply H.
  - apply instL_write.
Qed.
Lemma instL_rd st k i : instL st -> located st k n0 -> rd_only st (RVar k n0 i) = true.
Proof.
  intros HJ HL. rewrite (instL_at _ _ HJ HL). unfold rd_only. destruct (deref st (RVar k0 n0 i)) as [t|] eqn:D; [|reflexivity].
  cbn [deref] in D. destruct HJ as [(_ & _ & e & He & Hr & _) _]. rewrite He in D. eapply readonly_elem; eauto.
Qed.
Lemma split_written w : (w = n0 \/ exists s, ~ In "["%char s /\ ~ In "]"%char s /\ w = elem n0 s) -> fst (split_ref w) = n0.
Proof.
  intros [->|(s & A & B & ->)]; [rewrite split_ref_plain by (apply is_name_no_bracket; assumption); reflexivity|].
  rewrite split_elem by assumption. reflexivity.
Qed.
Lemma typeset_name_set var set : any set IMPORT = false -> typeset_name var set = typeset_name var 0.
Proof. intros H. unfold typeset_name. rewrite H, !any_0. reflexivity. Qed.
Lemma typeset_name_elem_bare s : ~ In "["%char s -> ~ In "]"%char s -> typeset_name (elem n0 s) 0 = Some (elem n0 s, None).
Proof.
  intros H1 H2. unfold typeset_name, elem. rewrite skip_name by (assumption || reflexivity). destruct (is_name_letter _ Hn0) as (c & r & Hc & _).
  rewrite Hc at 1. change (L "[" ++ s ++ L "]") with (L "[" ++ s ++ "]"%char :: []). rewrite array_ref_len_sub by assumption.
  assert ((length s + 2 =? 0)%nat = false) as -> by (apply Nat.eqb_neq; lia). cbn [andb]. rewrite !any_0.
  assert (skipn (length s + 2) (L "[" ++ s ++ "]"%char :: []) = []) as ->.
  { apply skipn_all2. rewrite !app_length. cbn. lia. }
  rewrite !andb_false_r. reflexivity.
Qed.
Lemma typeset_name_bare : typeset_name n0 0 = Some (n0, None).
Proof.
  unfold typeset_name. pose proof (skip_name n0 [] Hn0 I) as X. rewrite app_nil_r in X. rewrite X. destruct (is_name_letter _ Hn0) as (c & r & -> & _). reflexivity.
Qed.

Lemma refuse_typeset st vp tvar v set clr f b : instL st -> (exists c r, tvar = c :: r /\ letter c = true) ->
  at_ref n0 st vp -> fst (split_ref tvar) = n0 -> (v <> None \/ clr <> 0%N \/ N.ldiff set EXPORT <> 0%N) -> exists st', typeset_var ev fuel st vp tvar v set clr f b = Fail st'.
Proof.
  intros HJ Hl HR HS Hv. unfold typeset_var. destruct (deref st vp) as [t|] eqn:D; [|eauto].
  destruct vp as [|k n i]; [discriminate|]. destruct HR as [-> HL].
  assert (exists j, (if on t ARRAY then global ev st (arrayname tvar) else Val (RVar k n0 i) st) = Val (RVar k n0 j) st) as (j & ->).
  { destruct (on t ARRAY) eqn:A; [|eauto]. exists 0. rewrite <- HS in *. eapply base_of; eauto. apply HJ. }
  cbn [bnd]. rewrite (instL_rd _ _ j HJ HL). cbn [andb].
  assert ((match v with Some _ => true | None => false end || negb (clr =? 0)%N || negb (N.ldiff set EXPORT =? 0)%N) = true) as ->; [|eauto].
  destruct Hv as [H|[H|H]].
  - destruct v; [reflexivity|congruence].
  - apply N.eqb_neq in H. rewrite H. cbn. rewrite orb_true_r. reflexivity.
  - apply N.eqb_neq in H. rewrite H. cbn. rewrite orb_true_r. reflexivity.
Qed.
Definition failed {A} (o : out A) (no : A -> bool) : Prop := match o with Val a st => no a = true /\ instL st | Fail st => instL st | _ => True end.
Lemma refused st o : instL st -> writes n0 o -> match step ev fuel st o with Val b _ => b = false | Fail _ => True | Bad | Fuel => True end.
Proof.
  intros HJ (w & Hw & HO). pose proof (split_written _ Hw) as HS. pose proof (instL_global st w HJ) as G. rewrite HS in G.
  assert (exists c r, w = c :: r /\ letter c = true) as Hl.
  { destruct (is_name_letter _ Hn0) as (c & r & E & L0). destruct Hw as [->|(s & _ & _ & ->)]; [eauto|]. unfold elem. rewrite E. cbn. eauto. }
  assert (forall r st1, instL st1 -> at_ref n0 st1 r -> rd_only st1 r = true) as RD.
  { intros [|k n i] st1 H1 H2; [reflexivity|]. destruct H2 as [-> H2]. apply instL_rd; assumption. }
  destruct o; try contradiction; cbn [step].
  - destruct HO as (L1 & L2 & HO). unfold typeset. rewrite typeset_name_set, L1 by assumption.
    assert (exists v, typeset_name var 0 = Some (w, v) /\ (v <> None \/ clr <> 0%N \/ N.ldiff (N.ldiff set (N.lor LOCAL LOCAL_COPY)) EXPORT <> 0%N)) as (v & -> & Hv).
    { destruct HO as [(x & ->)|[-> HO]].
      - exists (Some x). split; [|left; discriminate]. destruct Hw as [->|(s & A & B & ->)]; [apply typeset_name_scalar; assumption|].
        apply typeset_name_elem; assumption.
      - exists None. split; [|right; exact HO]. destruct Hw as [->|(s & A & B & ->)]; [apply typeset_name_bare|apply typeset_name_elem_bare; assumption]. }
    destruct (global ev st w) as [r st1|st1| |]; cbn [bnd okR] in *; auto. destruct G as [G1 G2].
    destruct (refuse_typeset st1 r w v (N.ldiff set (N.lor LOCAL LOCAL_COPY)) clr field base G1 Hl G2 HS Hv) as (st2 & ->). exact I.
  - subst id. unfold c_unset. destruct (global ev st w) as [r st1|st1| |]; cbn [bnd okR] in *; auto. destruct G as [G1 G2]. rewrite (RD _ _ G1 G2). reflexivity.
  - subst n. rewrite Hn0. unfold set_array. pose proof (instL_global st n0 HJ) as G'. rewrite split_ref_plain in G' by (apply is_name_no_bracket; assumption).
    destruct (global ev st n0) as [r st1|st1| |]; cbn [bnd okR fst] in *; auto. destruct G' as [G1 G2]. rewrite (RD _ _ G1 G2). destruct r; cbn [bnd]; exact I.
  - subst n. unfold assign_to. destruct (global ev st w) as [r st1|st1| |]; cbn [bnd okR] in *; auto. destruct G as [G1 G2]. unfold setstr. rewrite (RD _ _ G1 G2).
    cbn [andb negb]. destruct unwind; [exact I|reflexivity].
  - subst n. unfold c_read. destruct (global ev st w) as [r st1|st1| |]; cbn [bnd okR] in *; auto. destruct G as [G1 G2]. rewrite (RD _ _ G1 G2). reflexivity.
Qed.
Lemma refused_let st o : instL st -> assigns ev n0 o -> match step ev fuel st o with Val b _ => b = false | Fail _ => True | Bad | Fuel => True end.
Proof.
  intros HJ HO. destruct o; try contradiction. cbn [step]. cbn [assigns] in HO. destruct (HO st) as (a & l & r & E & Ha). unfold evaluate. rewrite E.
  cbn [arith_asns]. unfold arith_asn. rewrite Ha, Hn0. cbn [negb]. destruct ((a_idx a <? 0) || (INT_MAX <? a_idx a)) eqn:Hx; [exact I|].
  assert (subok (if a_idx a =? 0 then None else Some (a_idx a)) n0) as HSU.
  { destruct (a_idx a =? 0); cbn; [auto|]. split; [|apply is_name_no_bracket; assumption]. apply orb_false_iff in Hx. lia. }
  destruct (global_at st n0 _) as [q st'] eqn:G. pose proof (global_at_looked _ _ _ _ _ (proj1 (proj1 (proj1 HJ))) HSU G) as HL.
  destruct q as [|k n i]; [cbn; reflexivity|]. destruct HL as (-> & HL & _).
  rewrite (instL_rd st' k i); [reflexivity|eapply instL_look; eauto|apply (looked_located _ _ _ _ HL)].
Qed.
End RF.
