(** Undo in the vi editor. *)
From Verif Require Import Base Vi_model Vi_frame Vi_keep Viundo_spec.
Local Open Scope Z_scope.

Lemma wr0 b i c t : wr b i c = Ok t -> cmd0 t = if i =? 0 then c else cmd0 b.
Proof.
  unfold wr. destruct ((i <? 0) || _) eqn:E; [discriminate|]. intros [= <-]. unfold splice, cmd0.
  destruct (i =? 0) eqn:E0; [replace i with 0 by lia; reflexivity|]. destruct b as [|a b]; [cbn in E; lia|].
  destruct (Z.to_nat i) eqn:En; [lia|]. reflexivity.
Qed.
Section U.
Variable k : cfg.
(** A command is being read: nothing has been done yet. *)
Definition R (s0 s : st) : Prop := es s = es s0 /\ ins s = COMMAND /\ fin s = false /\ un s = un s0.
(** The line of [s0] is kept. *)
Definition V (s0 s : st) : Prop :=
  firstn (Z.to_nat (len (un s))) (buf (un s)) = text s0 /\ len (un s) = len (es s0) /\ cur (un s) = cur (es s0).

Lemma push_R s0 c s : R s0 s -> ph (push_cmd c s) (fun s' => R s0 s' /\ cl s' = cl s + 1 /\ cmd0 (cc s') = (if cl s =? 0 then c else cmd0 (cc s)) /\ vs s' = vs s).
Proof.
  intros H. unfold push_cmd. destruct (wr (cc s) (cl s) c) as [t| |] eqn:E; cbn [bind ph]; auto. apply wr0 in E.
  split; [exact H|]. split; [reflexivity|]. split; [exact E|reflexivity].
Qed.
Lemma is19_facts c : is19 c = true -> ceq c CR || ceq c NL = false /\ isdigit c = true.
Proof.
  intros H. pose proof (char_sweep (fun c => implb (is19 c) (negb (ceq c CR || ceq c NL) && isdigit c)) eq_refl c) as G. cbv beta in G.
  rewrite H in G. cbn [implb] in G. apply andb_true_iff in G. destruct G as [G1 G2]. apply negb_true_iff in G1. auto.
Qed.
Definition idle (v : vstate) : Prop := v = VNORMAL \/ v = VARG1 \/ v = VEXTCMD \/ v = VARG2 \/ v = VXCH.
Lemma hook2_idle m x s : idle (vs s) -> hook2 k m x s = Ok (0, s).
Proof. intros [H|[H|[H|[H|H]]]]; unfold hook2; rewrite H; reflexivity. Qed.
Lemma step_idle c x s (P : st -> Prop) : fin s = false ->
  ph (hook1 k c x s) (fun y => (fst y = None \/ fst y = Some 0) /\ idle (vs (snd y)) /\ P (snd y)) -> ph (step k (Key c false x) s) P.
Proof.
  intros F H. cbn [step]. rewrite F. unfold vi_hook. destruct (hook1 k c x s) as [[r s1]| |]; cbn [bind ph fst snd] in *; auto.
  destruct H as (Hr & Hv & HP). destruct Hr as [Hr|Hr]; subst r; cbn [bind ph]; [rewrite hook2_idle by exact Hv|]; cbn [bind ph]; exact HP.
Qed.
(** The count before the command *)
Lemma digits_1 x0 l : forall s0 s x, Forall (fun c => cbetween "0" "9" c = true) l -> R s0 s -> vs s = VARG1 -> cl s = 0 -> x = x0 ->
  ph (run k (typed l x) s) (fun s' => R s0 s' /\ vs s' = VARG1 /\ cl s' = 0).
Proof.
  revert x0. induction l as [|c l IH]; intros x0 s0 s x Hl HR Hv Hc Hx; cbn [typed run]; [cbn; auto|].
  inversion Hl as [|? ? H1 H2]; subst. apply (ph_bind _ _ (fun s' => R s0 s' /\ vs s' = VARG1 /\ cl s' = 0)).
  - apply step_idle; [apply HR|]. unfold hook1. rewrite Hv. unfold isdigit. rewrite H1. apply ph_any. intros n. unfold brk. cbn [ph fst snd].
    split; [auto|]. split; [right; left; exact Hv|]. split; [exact HR|]. split; [exact Hv|exact Hc].
  - intros s1 (A & B & C). eapply IH; eauto.
Qed.
Lemma count_1 n s0 s x : count n -> R s0 s -> vs s = VNORMAL ->
  ph (run k (typed n x) s) (fun s' => R s0 s' /\ (vs s' = VNORMAL \/ vs s' = VARG1 /\ cl s' = 0)).
Proof.
  intros Hn HR Hv. destruct Hn as [|d l Hd Hl]; [cbn; auto|]. cbn [typed run].
  apply (ph_bind _ _ (fun s' => R s0 s' /\ vs s' = VARG1 /\ cl s' = 0)).
  - apply step_idle; [apply HR|]. unfold hook1. rewrite Hv. destruct HR as (A & B & C). rewrite B. cbn [is_ins].
    destruct (is19_facts _ Hd) as [D _]. rewrite D. change (is19 d) with (cbetween "1" "9" d). rewrite Hd. unfold brk. cbn [ph fst snd].
    split; [auto|]. split; [right; left; reflexivity|]. split; [split; [exact A|split; [exact B|exact C]]|]. split; reflexivity.
  - intros s1 (A & B & C). eapply ph_mono; [eapply digits_1; eauto|]. cbn. intuition.
Qed.
Definition cmdchar (c : char) : Prop := isdigit c = false /\ ceq c CR || ceq c NL = false /\ nextstate c <> VSEARCH.
(** The first key of the command itself *)
Lemma key_0 c x s0 s : isdigit c = false \/ vs s = VNORMAL /\ is19 c = false -> ceq c CR || ceq c NL = false -> nextstate c <> VSEARCH -> R s0 s -> vs s = VNORMAL \/ vs s = VARG1 /\ cl s = 0 ->
  ph (hook1 k c x s) (fun y => fst y = None /\ R s0 (snd y) /\ cl (snd y) = 1 /\ cmd0 (cc (snd y)) = c /\ vs (snd y) = nextstate c).
Proof.
  intros Hd Hr Hs HR Hv. unfold hook1. cbv zeta. destruct Hv as [Hv|[Hv Hc]]; rewrite Hv in *.
  - destruct HR as (A & B & C). rewrite B. cbn [is_ins]. rewrite Hr. destruct (is19 c) eqn:E19.
    + destruct Hd as [Hd|[_ Hd]]; [|congruence]. apply is19_facts in E19. destruct E19. congruence.
    + eapply ph_bind; [apply (push_R s0); split; [exact A|split; [exact B|exact C]]|].
      intros s1 (G1 & G2 & G3 & G4). change (cl (set_cl 0 (set_a1 0 s))) with 0 in G2, G3. cbn [Z.eqb Z.add] in G2, G3.
      cbn [vs set_vs].
      assert (G : fst (@None Z, set_vs (nextstate c) s1) = None /\ R s0 (set_vs (nextstate c) s1) /\ cl (set_vs (nextstate c) s1) = 1
        /\ cmd0 (cc (set_vs (nextstate c) s1)) = c /\ vs (set_vs (nextstate c) s1) = nextstate c) by (repeat split; try apply G1; auto).
      change (vs (set_vs (nextstate c) s1)) with (nextstate c) in *. destruct (nextstate c); try exact G. contradiction.
  - destruct Hd as [Hd|[Hd _]]; [|discriminate]. rewrite Hd. eapply ph_bind; [apply (push_R s0 _ _ HR)|]. intros s1 (G1 & G2 & G3 & G4). rewrite Hc in *. cbn [Z.eqb Z.add] in *.
    unfold brk. cbn [ph fst snd]. repeat split; auto; apply G1.
Qed.
Lemma key_1 c x s0 s : cmdchar c -> R s0 s -> vs s = VNORMAL \/ vs s = VARG1 /\ cl s = 0 ->
  ph (hook1 k c x s) (fun y => fst y = None /\ R s0 (snd y) /\ cl (snd y) = 1 /\ cmd0 (cc (snd y)) = c /\ vs (snd y) = nextstate c).
Proof. intros (Hd & Hr & Hs). apply key_0; auto. Qed.
Definition E (o : char) (s0 s : st) : Prop := R s0 s /\ cl s = 1 /\ cmd0 (cc s) = o.
(** The count after c or d *)
Lemma digits_2 l : forall o s0 s x, Forall (fun c => cbetween "0" "9" c = true) l -> E o s0 s -> vs s = VARG2 ->
  ph (run k (typed l x) s) (fun s' => E o s0 s' /\ vs s' = VARG2).
Proof.
  induction l as [|c l IH]; intros o s0 s x Hl HR Hv; cbn [typed run]; [cbn; auto|].
  inversion Hl as [|? ? H1 H2]; subst. apply (ph_bind _ _ (fun s' => E o s0 s' /\ vs s' = VARG2)).
  - apply step_idle; [apply HR|]. unfold hook1. rewrite Hv. unfold isdigit. rewrite H1. apply ph_any. intros n. unfold brk. cbn [ph fst snd].
    split; [auto|]. split; [right; right; right; left; exact Hv|]. split; [exact HR|exact Hv].
  - intros s1 (A & B). eapply IH; eauto.
Qed.
Lemma count_2 n o s0 s x : count n -> E o s0 s -> vs s = VEXTCMD ->
  ph (run k (typed n x) s) (fun s' => E o s0 s' /\ (vs s' = VEXTCMD /\ n = [] \/ vs s' = VARG2 /\ n <> [])).
Proof.
  intros Hn HR Hv. destruct Hn as [|d l Hd Hl]; [cbn; auto|]. cbn [typed run].
  apply (ph_bind _ _ (fun s' => E o s0 s' /\ vs s' = VARG2)).
  - apply step_idle; [apply HR|]. unfold hook1. rewrite Hv. cbv zeta. change (is19 d) with (cbetween "1" "9" d). rewrite Hd.
    unfold ret. cbn [ph fst snd]. split; [auto|]. split; [right; right; right; left; reflexivity|]. split; [exact HR|reflexivity].
  - intros s1 (A & B). eapply ph_mono; [eapply digits_2; eauto|]. cbn. intros s' [A' B']. split; [exact A'|]. right. split; [exact B'|discriminate].
Qed.
(** What comes after c or d *)
Lemma ext_R o s0 c s : E o s0 s -> ph (ext_char c s) (fun s' => R s0 s' /\ cl s' = 2 /\ cmd0 (cc s') = o /\
  vs s' = if ceq c o && negb (hi8 c) then VCMD else if is_move c then nextstate c else VFAIL).
Proof.
  intros (HR & Hc & Ho). unfold ext_char. eapply ph_bind; [apply (push_R s0 _ _ HR)|]. intros s1 (G1 & G2 & G3 & G4).
  rewrite Hc in *. cbn [Z.eqb Z.add Pos.eqb] in *. cbn [ph]. rewrite Ho in G3. repeat split; try apply G1; auto.
  change (vs (set_vs ?v s1)) with v. rewrite G3. reflexivity.
Qed.
Lemma key_2 c x o s0 s : isdigit c = false \/ vs s = VEXTCMD /\ is19 c = false -> E o s0 s -> vs s = VEXTCMD \/ vs s = VARG2 ->
  ph (hook1 k c x s) (fun y => fst y = None /\ R s0 (snd y) /\ cl (snd y) = 2 /\ cmd0 (cc (snd y)) = o /\
    vs (snd y) = if ceq c o && negb (hi8 c) then VCMD else if is_move c then nextstate c else VFAIL).
Proof.
  intros Hd HE Hv. unfold hook1. cbv zeta. destruct Hv as [Hv|Hv]; rewrite Hv in *.
  - assert (is19 c = false) as ->.
    { destruct Hd as [Hd|[_ Hd]]; [|exact Hd]. destruct (is19 c) eqn:X; auto. apply is19_facts in X. destruct X. congruence. }
    eapply ph_bind; [apply (ext_R o s0 c (set_a2 0 s)); exact HE|]. intros s1 G. exact (conj eq_refl G).
  - destruct Hd as [Hd|[Hd _]]; [|discriminate]. rewrite Hd. apply ph_any. intros n.
    eapply ph_bind; [apply (ext_R o s0 c (set_a1 n s)); exact HE|]. intros s1 G. exact (conj eq_refl G).
Qed.

(** The command is carried out *)
Lemma vi_cmd_V a cmd x s0 s : is_undoable (cmd0 cmd) = true -> is_move (cmd0 cmd) = false -> cmd0 cmd <> "u"%char -> es s = es s0 -> 0 <= len (es s) ->
  vs s = VNORMAL -> fin s = false -> ph (vi_cmd k a cmd false x s) (fun y => V s0 (snd y) /\ vs (snd y) = VNORMAL /\ fin (snd y) = false).
Proof.
  intros Hu Hm Hn He Hl Hv Hf. unfold vi_cmd. cbv zeta. rewrite Hu, Hm. cbn [negb andb].
  apply (ph_bind _ _ (fun s' => V s0 s' /\ vs s' = VNORMAL /\ fin s' = false)).
  - destruct (move (buf (un s)) 0 (buf (es s)) 0 (len (es s))) as [b| |] eqn:E1; cbn [bind ph]; auto.
    split; [|split; [exact Hv|exact Hf]]. unfold V. cbn [un set_un len buf cur]. change (un (set_un ?a ?b)) with a. cbn [len buf cur]. unfold text.
    rewrite <- He. split; [|auto]. unfold move in E1. destruct (len (es s) =? 0) eqn:E0.
    + replace (len (es s)) with 0 by lia. reflexivity.
    + destruct (_ || _) eqn:E2; [discriminate|]. injection E1 as <-. repeat (apply orb_false_iff in E2; destruct E2 as [E2 ?]).
      unfold splice. cbn [Z.to_nat firstn app skipn]. rewrite firstn_app, firstn_firstn, Nat.min_id.
      rewrite firstn_length. replace (Z.to_nat (len (es s)) - _)%nat with 0%nat by lia. rewrite app_nil_r. reflexivity.
  - intros s1 (G1 & G2 & G3). eapply ph_bind; [apply command_K; [apply K_refl|exact Hn]|]. intros [r s2] (A1 & A2 & A3 & A4 & A5). cbn [snd] in *.
    assert (V s0 s2 /\ vs s2 = VNORMAL /\ fin s2 = false) as G.
    { unfold V in *. rewrite A1, A2, A4. auto. }
    destruct r; [exact G|]. destruct (_ && _); [apply ph_any; intros i|]; exact G.
Qed.
Lemma hook2_V x s0 s : vs s = VCMD -> R s0 s -> 0 <= len (es s0) -> is_undoable (cmd0 (cc s)) = true -> is_move (cmd0 (cc s)) = false -> cmd0 (cc s) <> "u"%char ->
  ph (hook2 k false x s) (fun y => V s0 (snd y) /\ vs (snd y) = VNORMAL /\ fin (snd y) = false).
Proof.
  intros Hv (A & B & C & _) Hl H1 H2 H3. unfold hook2. rewrite Hv. eapply ph_bind.
  - apply (vi_cmd_V (a1 s) (cc s) x s0 (set_vs VNORMAL s)); auto. change (es (set_vs VNORMAL s)) with (es s). rewrite A. exact Hl.
  - intros [r s1] G. cbn [snd] in G. destruct (_ =? _); [destruct (is_ins _); exact G|]. destruct (_ =? _); exact G.
Qed.
Definition chg (c : char) : Prop := is_undoable c = true /\ is_move c = false /\ c <> "u"%char.
Definition W (s0 s : st) : Prop := V s0 s /\ vs s = VNORMAL.
Lemma step_V c x s0 s o : fin s = false -> 0 <= len (es s0) -> chg o ->
  ph (hook1 k c x s) (fun y => fst y = None /\ R s0 (snd y) /\ vs (snd y) = VCMD /\ cmd0 (cc (snd y)) = o) -> ph (step k (Key c false x) s) (W s0).
Proof.
  intros F Hl (O1 & O2 & O3) H. cbn [step]. rewrite F. unfold vi_hook. destruct (hook1 k c x s) as [[r s1]| |]; cbn [bind ph fst snd] in *; auto.
  destruct H as (-> & HR & Hv & Ho). eapply ph_bind; [apply (hook2_V x s0); auto; rewrite Ho; auto|]. intros [r s2] (G1 & G2 & G3).
  cbn [snd] in *. destruct (_ =? _); split; auto.
Qed.
Lemma run_ph l1 : forall l2 s (P P' : st -> Prop), ph (run k l1 s) P -> (forall s', P s' -> ph (run k l2 s') P') -> ph (run k (l1 ++ l2) s) P'.
Proof.
  induction l1 as [|v l1 IH]; intros l2 s P P' H G; cbn [run app] in *; [apply G; exact H|].
  destruct (step k v s) as [s1| |]; cbn [bind ph] in *; auto. eapply IH; eauto.
Qed.
Lemma typed_app a : forall b x, exists y, typed (a ++ b) x = typed a x ++ typed b y.
Proof.
  induction a as [|c a IH]; intros b x; cbn [typed app]; [eauto|]. destruct (IH b (tl x)) as [y ->]. eauto.
Qed.
Lemma run_one v s P : ph (step k v s) P -> ph (run k [v] s) P.
Proof. intros H. cbn [run]. destruct (step k v s); cbn; auto. Qed.
Lemma plain_facts c : In c (cN :: cP :: cI :: cF :: cX :: ESC :: L "aACDiIpPRsSxX~+-gU_*#\") -> cmdchar c /\ nextstate c = VCMD /\ chg c.
Proof.
  intros H. assert (G : isdigit c = false /\ ceq c CR || ceq c NL = false /\ nextstate c = VCMD /\ is_undoable c = true /\ is_move c = false /\ ceq c "u" = false).
  { cbn in H. repeat (destruct H as [<-|H]; [repeat split; reflexivity|]). contradiction. }
  destruct G as (G1 & G2 & G3 & G4 & G5 & G6). split; [split; [|split]; auto; rewrite G3; discriminate|]. split; auto. split; [|split]; auto.
  intros ->. discriminate.
Qed.
Lemma op_facts o : In o (L "cd") -> cmdchar o /\ nextstate o = VEXTCMD /\ chg o /\ hi8 o = false.
Proof.
  intros H. cbn in H. destruct H as [<-|[<-|[]]].
  all: (split; [split; [|split]; [reflexivity|reflexivity|discriminate]|]; split; [reflexivity|]; split; [|reflexivity]; split; [|split]; [reflexivity|reflexivity|discriminate]).
Qed.
Lemma R_refl s : ready s -> R s s.
Proof. intros ((A & B & C) & _). repeat split; auto. Qed.
(** c or d up to where its end is read *)
Lemma op_run n n' o s0 s x : count n -> count n' -> In o (L "cd") -> R s0 s -> vs s = VNORMAL ->
  ph (run k (typed (n ++ [o] ++ n') x) s) (fun s' => E o s0 s' /\ (vs s' = VEXTCMD /\ n' = [] \/ vs s' = VARG2 /\ n' <> [])).
Proof.
  intros Hn Hn' Ho HR Hv. destruct (typed_app n ([o] ++ n') x) as [y ->]. eapply run_ph; [apply (count_1 n s0 s x Hn HR Hv)|].
  intros s1 [R1 V1]. destruct (typed_app [o] n' y) as [z ->]. destruct (op_facts _ Ho) as (F1 & F2 & F3 & _).
  apply run_ph with (P := fun s' => E o s0 s' /\ vs s' = VEXTCMD).
  - apply run_one. apply step_idle; [apply R1|]. eapply ph_mono; [apply (key_1 o _ s0 s1 F1 R1 V1)|].
    intros [r s2] (G1 & G2 & G3 & G4 & G5). cbn [fst snd] in *. rewrite F2 in G5. split; [auto|]. split; [right; right; left; exact G5|].
    split; [split; [|split]|]; auto.
  - intros s2 [E2 V2]. apply count_2; auto.
Qed.
Lemma changing_W l s x : changing l -> ready s -> ph (run k (typed l x) s) (W s).
Proof.
  intros Hc Hr. pose proof (R_refl s Hr) as HR. destruct Hr as ((Hv & Hi & Hf) & H0 & Hl).
  assert (Hlen : 0 <= len (es s)) by lia. inversion Hc as [n c Hn H|n c Hn H|n n' o Hn Hn' Ho|n n' o t Hn Hn' Ho Ht]; subst l.
  - destruct (typed_app n [c] x) as [y ->]. eapply run_ph; [apply (count_1 n s s x Hn HR Hv)|]. intros s1 [R1 V1].
    destruct (plain_facts _ H) as (F1 & F2 & F3). apply run_one, (step_V _ _ s s1 c); auto; [apply R1|].
    eapply ph_mono; [apply (key_1 c _ s s1 F1 R1 V1)|]. intros [r s2] (G1 & G2 & G3 & G4 & G5). cbn [fst snd] in *. rewrite F2 in G5. auto.
  - destruct (typed_app n ["r"%char; c] x) as [y ->]. eapply run_ph; [apply (count_1 n s s x Hn HR Hv)|]. intros s1 [R1 V1].
    change (typed ["r"%char; c] y) with (typed ["r"%char] y ++ typed [c] (tl y)).
    assert (F1 : cmdchar "r") by (split; [|split]; [reflexivity|reflexivity|discriminate]).
    apply run_ph with (P := fun s' => R s s' /\ cl s' = 1 /\ cmd0 (cc s') = "r"%char /\ vs s' = VXCH).
    + apply run_one. apply step_idle; [apply R1|]. eapply ph_mono; [apply (key_1 "r" _ s s1 F1 R1 V1)|].
      intros [r s2] (G1 & G2 & G3 & G4 & G5). cbn [fst snd] in *. change (nextstate "r") with VXCH in G5. split; [auto|]. split; [right; right; right; right; exact G5|]. auto.
    + intros s2 (G1 & G2 & G3 & G4). apply run_one, (step_V _ _ s s2 "r"); auto; [apply G1|split; [|split]; [reflexivity|reflexivity|discriminate]|].
      unfold hook1. rewrite G4. destruct (ceq c ESC) eqn:X; [apply ceq_true in X; contradiction|].
      eapply ph_bind; [apply (push_R s _ _ G1)|]. intros s3 (A1 & A2 & A3 & A4). rewrite G2, G3 in *. cbn [Z.eqb] in *. unfold brk. cbn [ph fst snd].
      split; [auto|]. split; [exact A1|]. split; [reflexivity|exact A3].
  - replace (n ++ [o] ++ n' ++ [o]) with ((n ++ [o] ++ n') ++ [o]) by (rewrite <- !app_assoc; reflexivity).
    destruct (typed_app (n ++ [o] ++ n') [o] x) as [y ->]. eapply run_ph; [apply (op_run n n' o s s x); auto|]. intros s1 [E1 V1].
    destruct (op_facts _ Ho) as ((Fd & _) & F2 & F3 & F4). apply run_one, (step_V _ _ s s1 o); auto; [apply E1|].
    eapply ph_mono; [apply (key_2 o _ o s s1); [auto|exact E1|destruct V1 as [[V1 _]|[V1 _]]; auto]|].
    intros [r s2] (G1 & G2 & G3 & G4 & G5). cbn [fst snd] in *. rewrite ceq_refl, F4 in G5. auto.
  - replace (n ++ [o] ++ n' ++ t) with ((n ++ [o] ++ n') ++ t) by (rewrite <- !app_assoc; reflexivity).
    destruct (typed_app (n ++ [o] ++ n') t x) as [y ->]. eapply run_ph; [apply (op_run n n' o s s x); auto|]. intros s1 [E1 V1].
    destruct (op_facts _ Ho) as ((Fd & _) & F2 & F3 & F4).
    assert (V1' : vs s1 = VEXTCMD \/ vs s1 = VARG2) by (destruct V1 as [[V1 _]|[V1 _]]; auto).
    inversion Ht as [c Hm|Hm|f c Hm He]; subst t.
    + apply run_one, (step_V _ _ s s1 o); auto; [apply E1|].
      assert (isdigit c = false /\ ceq c o = false /\ is_move c = true /\ nextstate c = VCMD) as (M1 & M2 & M3 & M4).
      { cbn in Ho. destruct Ho as [<-|[<-|[]]]; cbn in Hm; repeat (destruct Hm as [<-|Hm]; [repeat split; reflexivity|]); contradiction. }
      eapply ph_mono; [apply (key_2 c _ o s s1); [auto|exact E1|exact V1']|].
      intros [r s2] (G1 & G2 & G3 & G4 & G5). cbn [fst snd] in *. rewrite M2, M3, M4 in G5. auto.
    + apply run_one, (step_V _ _ s s1 o); auto; [apply E1|].
      assert (ceq "0" o = false) as M2 by (cbn in Ho; destruct Ho as [<-|[<-|[]]]; reflexivity).
      destruct V1 as [[V1 _]|[_ V1]]; [|contradiction].
      eapply ph_mono; [apply (key_2 "0" _ o s s1); [auto|exact E1|exact V1']|].
      intros [r s2] (G1 & G2 & G3 & G4 & G5). cbn [fst snd] in *. rewrite M2 in G5. auto.
    + assert (isdigit f = false /\ ceq f o = false /\ is_move f = true /\ nextstate f = VXCH) as (M1 & M2 & M3 & M4).
      { cbn in Ho. destruct Ho as [<-|[<-|[]]]; cbn in Hm; repeat (destruct Hm as [<-|Hm]; [repeat split; reflexivity|]); contradiction. }
      change (typed [f; c] y) with (typed [f] y ++ typed [c] (tl y)).
      apply run_ph with (P := fun s' => R s s' /\ cl s' = 2 /\ cmd0 (cc s') = o /\ vs s' = VXCH).
      * apply run_one. apply step_idle; [apply E1|]. eapply ph_mono; [apply (key_2 f _ o s s1); [auto|exact E1|exact V1']|].
        intros [r s2] (G1 & G2 & G3 & G4 & G5). cbn [fst snd] in *. rewrite M2, M3, M4 in G5. split; [auto|]. split; [right; right; right; right; exact G5|]. auto.
      * intros s2 (G1 & G2 & G3 & G4). apply run_one, (step_V _ _ s s2 o); auto; [apply G1|].
        unfold hook1. rewrite G4. destruct (ceq c ESC) eqn:X; [apply ceq_true in X; contradiction|].
        eapply ph_bind; [apply (push_R s _ _ G1)|]. intros s3 (A1 & A2 & A3 & A4). rewrite G2, G3 in *. cbn [Z.eqb] in *. unfold brk. cbn [ph fst snd].
        split; [auto|]. split; [exact A1|]. split; [reflexivity|exact A3].
Qed.
(** Movements *)
Lemma domove_ins a c0 c1 sub s : ph (domove k a c0 c1 sub s) (fun y => ins (snd y) = ins s).
Proof.
  unfold domove. cbv zeta.
  repeat match goal with
         | |- ph (if mem ?a ?b then _ else _) _ => destruct (mem a b)
         | |- ph (if ?b then _ else _) _ => destruct b
         | |- ph (bind _ _) _ => apply ph_any; intros ?
         | |- ph (match ?b with _ => _ end) _ => destruct b as [[? ?]|]
         end; try reflexivity; cbn [ph snd]; destruct (mem c0 (L "fFtT")); reflexivity.
Qed.
Lemma move_run n t s x : count n -> motion n t -> command_mode s -> ph (run k (typed (n ++ t) x) s) (fun s' => command_mode s' /\ un s' = un s).
Proof.
  intros Hn Ht (Hv & Hi & Hf). assert (HR : R s s) by (repeat split; auto).
  assert (D : forall s1 c, R s s1 -> vs s1 = VCMD -> cmd0 (cc s1) = c -> is_move c = true ->
    forall y, ph (hook2 k false y s1) (fun z => fst z = 0 /\ command_mode (snd z) /\ un (snd z) = un s)).
  { intros s1 c (A1 & A2 & A3 & A4) B C M y. unfold hook2. rewrite B.
    apply (ph_bind _ _ (fun z => (fst z = 0 \/ fst z = -1) /\ command_mode (snd z) /\ un (snd z) = un s)).
    - unfold vi_cmd. rewrite C, M. cbv zeta. set (a := if _ && _ then 1 else _). clearbody a.
      pose proof (domove_K k (set_vs VNORMAL s1) a c (cmd1 (cc s1)) false (set_vs VNORMAL s1) (K_refl _)) as G1.
      pose proof (domove_ins a c (cmd1 (cc s1)) false (set_vs VNORMAL s1)) as G2.
      destruct (domove k a c (cmd1 (cc s1)) false (set_vs VNORMAL s1)) as [[r s2]| |]; cbn [bind ph snd] in *; auto.
      destruct G1 as (K1 & K2 & _ & K4 & _). change (un (set_vs VNORMAL s1)) with (un s1) in K1. change (vs (set_vs VNORMAL s1)) with VNORMAL in K2.
      change (fin (set_vs VNORMAL s1)) with (fin s1) in K4. change (ins (set_vs VNORMAL s1)) with (ins s1) in G2.
      assert (G : command_mode s2 /\ un s2 = un s) by (repeat split; congruence).
      destruct r; [|split; [cbn; auto|exact G]]. apply ph_any. intros i. split; [cbn; auto|]. exact G.
    - intros [r s2] (Hr & G). cbn [fst snd] in *. destruct G as [(G1 & G2 & G3) G4]. rewrite G2. cbn [is_ins].
      destruct Hr as [->| ->]; cbn [Z.eqb ph fst snd]; repeat split; auto. }
  assert (D1 : forall c y s1 o, fin s1 = false -> is_move o = true ->
    ph (hook1 k c y s1) (fun z => fst z = None /\ R s (snd z) /\ vs (snd z) = VCMD /\ cmd0 (cc (snd z)) = o) ->
    ph (step k (Key c false y) s1) (fun s' => command_mode s' /\ un s' = un s)).
  { intros c y s1 o F M H. cbn [step]. rewrite F. unfold vi_hook. destruct (hook1 k c y s1) as [[r s2]| |]; cbn [bind ph fst snd] in *; auto.
    destruct H as (-> & H1 & H2 & H3). eapply ph_bind; [apply (D s2 o); auto|]. intros [r s3] (G1 & G2). cbn [fst snd] in *. subst r. exact G2. }
  destruct (typed_app n t x) as [y ->]. apply run_ph with (P := fun s' => (R s s' /\ (vs s' = VNORMAL \/ vs s' = VARG1 /\ cl s' = 0)) /\ (n = [] -> vs s' = VNORMAL)).
  { destruct n; [cbn; auto|]. eapply ph_mono; [apply (count_1 _ s s x Hn HR Hv)|]. intros s1 H. split; [exact H|discriminate]. }
  intros s1 [[R1 V1] N1].
  assert (ONE : forall c, cmdchar c -> nextstate c = VCMD -> is_move c = true -> ph (run k (typed [c] y) s1) (fun s' => command_mode s' /\ un s' = un s)).
  { intros c C1 C2 C3. apply run_one, (D1 c _ s1 c); auto; [apply R1|]. eapply ph_mono; [apply (key_1 c _ s s1 C1 R1 V1)|].
    intros [r s2] (G1 & G2 & G3 & G4 & G5). cbn [fst snd] in *. rewrite C2 in G5. auto. }
  inversion Ht as [c Hm|Hm|f c Hm He]; subst t.
  - apply ONE.
    + split; [|split]; cbn in Hm; repeat (destruct Hm as [<-|Hm]; [first [reflexivity|discriminate]|]); contradiction.
    + cbn in Hm; repeat (destruct Hm as [<-|Hm]; [reflexivity|]); contradiction.
    + cbn in Hm; repeat (destruct Hm as [<-|Hm]; [reflexivity|]); contradiction.
  - apply run_one, (D1 "0"%char _ s1 "0"%char); auto; [apply R1|].
    eapply ph_mono; [apply (key_0 "0" _ s s1); [right; split; [|reflexivity]|reflexivity|discriminate|exact R1|exact V1]|].
    + apply N1; auto.
    + intros [r s2] (G1 & G2 & G3 & G4 & G5). cbn [fst snd] in *. auto.
  - assert (cmdchar f /\ is_move f = true /\ nextstate f = VXCH) as (M1 & M3 & M4).
    { split; [|split].
      - split; [|split]; cbn in Hm; repeat (destruct Hm as [<-|Hm]; [first [reflexivity|discriminate]|]); contradiction.
      - cbn in Hm; repeat (destruct Hm as [<-|Hm]; [reflexivity|]); contradiction.
      - cbn in Hm; repeat (destruct Hm as [<-|Hm]; [reflexivity|]); contradiction. }
    change (typed [f; c] y) with (typed [f] y ++ typed [c] (tl y)).
    apply run_ph with (P := fun s' => R s s' /\ cl s' = 1 /\ cmd0 (cc s') = f /\ vs s' = VXCH).
    + apply run_one. apply step_idle; [apply R1|]. eapply ph_mono; [apply (key_1 f _ s s1 M1 R1 V1)|].
      intros [r s2] (G1 & G2 & G3 & G4 & G5). cbn [fst snd] in *. rewrite M4 in G5. split; [auto|]. split; [right; right; right; right; exact G5|]. auto.
    + intros s2 (G1 & G2 & G3 & G4). apply run_one, (D1 c _ s2 f); auto; [apply G1|].
      unfold hook1. rewrite G4. destruct (ceq c ESC) eqn:X; [apply ceq_true in X; contradiction|].
      eapply ph_bind; [apply (push_R s _ _ G1)|]. intros s3 (A1 & A2 & A3 & A4). rewrite G2, G3 in *. cbn [Z.eqb] in *. unfold brk. cbn [ph fst snd].
      split; [auto|]. split; [exact A1|]. split; [reflexivity|exact A3].
Qed.
Lemma moving_run l : moving l -> forall s x, command_mode s -> ph (run k (typed l x) s) (fun s' => command_mode s' /\ un s' = un s).
Proof.
  induction 1 as [|n t l Hn Ht Hl IH]; intros s x Hs; [cbn; auto|]. rewrite app_assoc. destruct (typed_app (n ++ t) l x) as [y ->].
  eapply run_ph; [apply (move_run n t s x Hn Ht Hs)|]. intros s1 [A B]. eapply ph_mono; [apply IH; exact A|]. intros s2 [C D]. split; [exact C|congruence].
Qed.
Lemma inserted_run l : forall s, inserted k l s -> vs s = VNORMAL \/ vs s = VLIT -> ph (run k l s) (fun s' => un s' = un s).
Proof.
  induction l as [|v l IH]; intros s Hi Hv; [cbn; auto|]. cbn [run inserted] in *. destruct Hi as ((c & m & x & ->) & Hi & Hn).
  pose proof (insert_un k c m x s Hi Hv) as G. destruct (step k (Key c m x) s) as [s1| |]; cbn [bind ph] in *; auto. destruct G as [G1 G2].
  eapply ph_mono; [apply IH; auto|]. cbn. intros s2 H. congruence.
Qed.
(** u *)
Lemma command_u a cmd x s : cmd0 cmd = "u"%char -> command k a cmd x s = brk (set_es (un s) (set_un (es s) (set_swapped (negb (swapped s)) s))).
Proof. intros H. unfold command. rewrite H. reflexivity. Qed.
Lemma vi_cmd_u a cmd m x s : cmd0 cmd = "u"%char -> ins s = COMMAND -> cur (un s) < len (un s) \/ cur (un s) = 0 /\ len (un s) = 0 ->
  exists s', vi_cmd k a cmd m x s = Ok (0, s') /\ es s' = un s /\ un s' = es s /\ vs s' = vs s /\ ins s' = ins s /\ fin s' = fin s.
Proof.
  intros H Hi Hc. unfold vi_cmd. cbv zeta. rewrite H. change (is_move "u") with false. change (is_undoable "u") with false. cbn [andb bind].
  rewrite command_u by exact H. unfold brk. cbn [bind]. set (u := set_es _ _).
  assert (U : es u = un s /\ un u = es s /\ vs u = vs s /\ ins u = ins s /\ fin u = fin s) by (repeat split). clearbody u.
  destruct U as (U1 & U2 & U3 & U4 & U5). rewrite U4, Hi. cbn [is_ins negb andb]. rewrite U1.
  destruct (len (un s) <=? cur (un s)) eqn:Ec.
  - destruct Hc as [Hc|[Hc Hl]]; [lia|]. rewrite Hc. change (back0 k (buf (un s)) 0) with (@Ok Z 0). cbn [bind].
    exists (setcur 0 u). split; [reflexivity|]. split; [|rewrite Hi in U4; repeat split; assumption].
    change (es (setcur 0 u)) with (set_cur 0 (es u)). rewrite U1. destruct (un s); cbn in *; subst; reflexivity.
  - exists u. repeat split; congruence.
Qed.
Lemma hook1_u x s : vs s = VNORMAL -> ins s = COMMAND ->
  hook1 k "u" x s = (let! s' := push_cmd "u" (set_cl 0 (set_a1 0 s)) in brk (set_vs VCMD s')).
Proof. intros Hv Hi. unfold hook1. rewrite Hv, Hi. reflexivity. Qed.
Lemma u_run m x s : command_mode s -> cur (un s) < len (un s) \/ cur (un s) = 0 /\ len (un s) = 0 ->
  ph (run k [Key "u" m x] s) (fun s' => command_mode s' /\ es s' = un s /\ un s' = es s).
Proof.
  intros (Hv & Hi & Hf) Hc. apply run_one. cbn [step]. rewrite Hf. unfold vi_hook. rewrite hook1_u by auto.
  unfold push_cmd. destruct (wr _ _ _) as [t| |] eqn:E1; cbn [bind ph]; auto. apply wr0 in E1. change (cl (set_cl 0 (set_a1 0 s)) =? 0) with true in E1.
  unfold brk. cbn [bind]. set (v := set_vs VCMD _).
  assert (U : es v = es s /\ un v = un s /\ vs v = VCMD /\ ins v = ins s /\ fin v = fin s /\ cc v = t) by (repeat split). clearbody v.
  destruct U as (U1 & U2 & U3 & U4 & U5 & U6). unfold hook2. rewrite U3, U6.
  destruct (vi_cmd_u (a1 v) t m x (set_vs VNORMAL v) E1) as (s' & -> & A1 & A2 & A3 & A4 & A5).
  - change (ins (set_vs VNORMAL v)) with (ins v). congruence.
  - change (un (set_vs VNORMAL v)) with (un v). rewrite U2. exact Hc.
  - change (un (set_vs VNORMAL v)) with (un v) in *. change (es (set_vs VNORMAL v)) with (es v) in *. change (vs (set_vs VNORMAL v)) with VNORMAL in *.
    change (ins (set_vs VNORMAL v)) with (ins v) in *. change (fin (set_vs VNORMAL v)) with (fin v) in *.
    assert (I' : ins s' = COMMAND) by congruence. cbn [bind]. rewrite I'. cbn. repeat split; congruence.
Qed.
End U.
