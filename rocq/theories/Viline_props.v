(** C60: what is typed is what the shell reads. *)
From Verif Require Import Base Vi_model Vi_spec Vi_keep Viline_spec Viline_proof.
Local Open Scope Z_scope.

(** Whatever was edited before ([l0]), whatever the line buffer holds ([b]) and the history ([h], [n]): a line that is
    typed with inserting and erasing keys and ended with return is the text that the keys mean. *)
Theorem c60_typed_line k m l u b h n l0 s c : okcfg k -> Z.of_nat (length b) = LINE -> run k l0 st0 = Ok s ->
  edits k l [] u -> c = CR \/ c = NL -> not_editing k c ->
  exists s', run k (Start b h n :: typing m l ++ [Key c m None]) s = Ok s' /\ fin s' = true /\ line s' = u.
Proof.
  intros K Hb H0 He Hc Hn.
  assert (Hi : Z.of_nat (length (ib s)) = LINE).
  { rewrite (run_Q k l0 _ _ H0). change (ib st0) with (repeat NUL (Z.to_nat LINE)). rewrite repeat_length. reflexivity. }
  cbn [run step bind]. rewrite run_app.
  destruct (typing_T k m l [] u K He _ (start_T b h n s Hb Hi)) as (s1 & -> & H1). cbn [bind run].
  destruct (enter_T k c m s1 u H1 Hc Hn) as (s2 & -> & H2). cbn [bind]. exists s2. auto.
Qed.
Print Assumptions c60_typed_line.
(** The keys mean one text, ... *)
Theorem c60_meaning_unique k l : forall t u v, edits k l t u -> edits k l t v -> u = v.
Proof.
  induction l as [|i l IH]; intros t u v A B; inversion A as [|? ? ? a1 ? A1 A2]; inversion B as [|? ? ? b1 ? B1 B2]; subst; auto.
  assert (a1 = b1).
  { destruct i as [c|c]; cbn in A1, B1.
    - destruct A1 as [_ A1], B1 as [_ B1]. destruct (_ || _); [eapply erased_1; eauto|]. destruct (is_key (kill k) c); [congruence|].
      destruct (is_key (werase k) c); [eapply werased_1; eauto|]. destruct A1 as [_ A1], B1 as [_ B1]. destruct (_ || _); congruence.
    - destruct A1 as (_ & _ & ->), B1 as (_ & _ & ->). auto. }
  subst b1. eapply IH; eauto.
Qed.
Print Assumptions c60_meaning_unique.
(** ... and any keys of those kinds mean something. *)
Theorem c60_meaning_total k l :
  Forall (fun i => match i with
                   | Plain c => c <> cV /\ (is_key (erase k) c || ceq c cH || is_key (kill k) c || is_key (werase k) c = true \/ plain k c)
                   | Lit _ => False
                   end) l -> exists u, edits k l [] u.
Proof.
  intros H. assert (G : forall s t, T s t -> exists u, edits k l t u).
  { induction H as [|i l Hi Hl IH]; intros s t HT; [eexists; constructor|]. destruct i as [c|]; [|contradiction]. destruct Hi as [HV Hi].
    assert (E : exists t', ed1 k (Plain c) t t').
    { cbn. destruct (_ || ceq c cH) eqn:E1.
      - destruct (erase_T k s t HT) as (s' & t' & _ & _ & X). exists t'. auto.
      - destruct (is_key (kill k) c) eqn:E2; [exists []; auto|]. destruct (is_key (werase k) c) eqn:E3.
        + destruct (werase_T s t HT) as (s' & t' & _ & _ & X). exists t'. auto.
        + destruct Hi as [Hi|Hi]; [discriminate|]. destruct (ceq c cE || ceq c cL || ceq c cR || _); eexists; eauto. }
    destruct E as [t' E]. destruct (plain_step k false c t t' s HT E) as (s' & _ & HT'). destruct (IH s' t' HT') as [u Hu].
    exists u. econstructor; eauto. }
  apply (G (vi_reset (zeros LINE) [] 0 st0)). apply start_T; unfold zeros; cbn [ib st0]; rewrite ?repeat_length; reflexivity.
Qed.
Print Assumptions c60_meaning_total.

Definition k1 := Cfg (Some DEL) (Some "021"%char) (Some "023"%char) false false false.
(** xx ^U echo aéb DEL DEL ^V^C "  fo.ba" ^W: the kill leaves nothing, the first DEL takes b, the second both bytes
    of é, ^W the word ba. *)
Definition example_items : list item :=
  map Plain (L "xx" ++ ["021"%char] ++ L "echo a" ++ ["195"; "169"]%char ++ L "b" ++ [DEL; DEL]) ++ [Lit "003"%char] ++
  map Plain (L "  fo.ba" ++ ["023"%char]).
Definition shown (r : res st) : option cstr := match r with Ok s => if fin s then Some (line s) else None | _ => None end.
Example c60_example :
  shown (run k1 (Start (zeros LINE) [] 0 :: typing false example_items ++ [Key NL false None]) st0) = Some (L "echo a" ++ ["003"%char] ++ L "  fo.").
Proof. vm_compute. reflexivity. Qed.
Lemma pl c t u : plain k1 c -> is_key (erase k1) c || ceq c cH || is_key (kill k1) c || is_key (werase k1) c || ceq c cV || ceq c cE || ceq c cL || ceq c cR = false ->
  Z.of_nat (length t) < LINE - 1 -> u = t ++ [c] -> ed1 k1 (Plain c) t u.
Proof.
  intros P H L ->. repeat (apply orb_false_elim in H as [H ?H]). cbn [ed1].
  split; [intros ->; discriminate|]. rewrite H, H6, H5, H4, H2, H1, H0. cbn [orb]. split; auto. replace (_ <=? _) with false by lia. auto.
Qed.
Ltac put := eapply edits_cons; [apply pl; [split; [intros X; cbn in X; intuition discriminate|intros X; discriminate X]|reflexivity|reflexivity|reflexivity]|cbn [app]].
Example c60_example_meaning : edits k1 example_items [] (L "echo a" ++ ["003"%char] ++ L "  fo.").
Proof.
  unfold example_items. cbn [map app L String.list_ascii_of_string].
  put. put. eapply edits_cons; [cbn; split; [discriminate|reflexivity]|].
  do 9 put.
  apply edits_cons with (t' := L "echo a" ++ ["195"; "169"]%char).
  { split; [discriminate|]. right. exists "b"%char, []. split; [reflexivity|]. split; [apply Forall_nil|left; reflexivity]. }
  apply edits_cons with (t' := L "echo a").
  { split; [discriminate|]. right. exists "195"%char, ["169"%char]. split; [reflexivity|]. split; [repeat constructor|left; reflexivity]. }
  eapply edits_cons; [split; [cbn; intuition discriminate|split; reflexivity]|]. cbn [app].
  do 7 put.
  eapply edits_cons; [|constructor]. split; [discriminate|]. exists (L "ba"), []. split; [reflexivity|]. split; [constructor|].
  split; [split; [repeat constructor|exists true; repeat constructor; right; reflexivity]|]. right. split; [discriminate|].
  exists (L "echo a" ++ ["003"%char] ++ L "  fo"), "."%char. split; [reflexivity|].
  intros [_ [b B]]. inversion B as [|? ? B1 B2]; subst. inversion B2 as [|? ? B3 B4]; subst. cbn in B1, B3. destruct B1 as [B1|B1], B3 as [B3|B3]; try lia; congruence.
Qed.
