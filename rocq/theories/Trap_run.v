(** Running the traps. *)
From Coq Require Import ZArith List Bool Lia.
From Verif Require Import Base Trap_model Trap_spec Trap_proof.
Import ListNotations.
Local Open Scope Z_scope.

Definition keeps (s s' : st) : Prop :=
  (forall q, pend (ents s' q) = pend (ents s q) /\ tr (ents s' q) = tr (ents s q) /\ uset (ents s' q) = uset (ents s q) /\ chg (ents s' q) = chg (ents s q) /\ dfli (ents s' q) = dfli (ents s q) /\ fatal (ents s' q) = fatal (ents s q)) /\
  trapf s' = trapf s /\ intrf s' = intrf s /\ cut s' = cut s /\ exstat s' = exstat s /\ errexit s' = errexit s /\ log s' = log s.
Lemma keeps_refl s : keeps s s.
Proof. unfold keeps. auto 20. Qed.
Lemma keeps_trans a b c : keeps a b -> keeps b c -> keeps a c.
Proof.
  intros (A0 & A) (B0 & B). split; [|decompose [and] A; decompose [and] B; repeat split; congruence].
  intros q. specialize (A0 q). specialize (B0 q). decompose [and] A0. decompose [and] B0. repeat split; congruence.
Qed.
Lemma keeps_ent s p e : pend e = pend (ents s p) -> tr e = tr (ents s p) -> uset e = uset (ents s p) -> chg e = chg (ents s p) -> dfli e = dfli (ents s p) -> fatal e = fatal (ents s p) -> keeps s (with_ent s p e).
Proof.
  intros H1 H2 H3 H4 H5 H6. split; [|cbn; auto 20]. intros q. cbn. unfold upd. destruct (q =? p) eqn:E; [|auto 20]. apply Z.eqb_eq in E. subst. auto 20.
Qed.
Lemma keeps_sigaction s p h : keeps s (sigaction s p h).
Proof. unfold sigaction. destruct (settable p); [|apply keeps_refl]. unfold keeps. cbn. auto 20. Qed.
Lemma keeps_undef s : keeps s (with_undef s).
Proof. unfold keeps. cbn. auto 20. Qed.
Lemma keeps_setsig s p f r a b c : keeps s (snd (setsig s p f r a b c)).
Proof.
  unfold setsig. destruct ((p =? SIGEXIT) || (p =? SIGERR)); [apply keeps_refl|]. cbv zeta.
  set (s1 := match orig (ents s p) with Some _ => s | None => _ end). assert (keeps s s1) as F1.
  { subst s1. destruct (orig (ents s p)); [apply keeps_refl|]. eapply keeps_trans; [|apply keeps_ent; reflexivity].
    eapply keeps_trans; [|apply keeps_sigaction]. destruct (settable p); [apply keeps_refl|apply keeps_undef]. }
  clearbody s1. destruct (is_ign _ && _ && _); [exact F1|]. cbn [snd].
  set (s2 := setexecsig s1 p r). assert (keeps s1 s2) as F2 by (apply keeps_ent; reflexivity). clearbody s2.
  set (s3 := if b then s2 else _). assert (keeps s2 s3) as F3 by (subst s3; destruct b; [apply keeps_refl|apply keeps_ent; reflexivity]). clearbody s3.
  eapply keeps_trans; [exact F1|]. eapply keeps_trans; [exact F2|]. eapply keeps_trans; [exact F3|].
  destruct (heq _ f); [apply keeps_refl|]. eapply keeps_trans; [|apply keeps_sigaction]. apply keeps_ent; reflexivity.
Qed.
Lemma keeps_settrap s p t : keeps (note (with_ent s p (set_uset (set_chg (set_tr (ents s p) t) true))) (Set_ p t)) (settrap s p t).
Proof.
  unfold settrap. cbv zeta. destruct (_ && _); [apply keeps_setsig|]. destruct (uses _); [|apply keeps_setsig].
  destruct (_ || _); [|apply keeps_refl]. set (s1 := note _ _).
  assert (ents s1 p = set_uset (set_chg (set_tr (ents s p) t) true)) as E by (cbn; apply upd_same).
  apply keeps_ent; rewrite E; reflexivity.
Qed.
Lemma settrap_eq s p t : let s' := settrap s p t in
  (forall q, pend (ents s' q) = pend (ents s q) /\ tr (ents s' q) = (if q =? p then t else tr (ents s q)) /\ uset (ents s' q) = ((q =? p) || uset (ents s q)) /\ dfli (ents s' q) = dfli (ents s q) /\ fatal (ents s' q) = fatal (ents s q)) /\
  trapf s' = trapf s /\ intrf s' = intrf s /\ cut s' = cut s /\ exstat s' = exstat s /\ errexit s' = errexit s /\ log s' = Set_ p t :: log s.
Proof.
  destruct (keeps_settrap s p t) as (A & B). cbv zeta. split; [|exact B]. intros q. specialize (A q). cbn in A. unfold upd in A.
  destruct (q =? p) eqn:E; [|decompose [and] A; auto 20]. apply Z.eqb_eq in E. subst. cbn in A. decompose [and] A. auto 20.
Qed.

(** ** Induction over runs *)
Definition special (p : Z) : bool := (p =? SIGEXIT) || (p =? SIGERR).
Definition take (s : st) (p : Z) : st := note (with_ent s p (set_pend (ents s p) false)) (Take p (tr (ents s p))).
Section Ind.
Variable body : text -> list op.
Variable P : st -> Prop.
Hypothesis Htrap : forall s p t, P s -> P (settrap s p t).
Hypothesis Hsig : forall s p, P s -> P (deliver s p).
Hypothesis Herr : forall s, P s -> P (trapsig s SIGERR).
Hypothesis Hflags : forall s a b c, P s -> P (with_flags s a b c).
Hypothesis Hexstat : forall s v, P s -> P (with_exstat s v).
Hypothesis Herrexit : forall s b, P s -> P (with_errexit s b).
Hypothesis Hcut : forall s, P s -> P (with_cut s).
Variable C : st -> Z -> Prop.
Hypothesis HC : forall s p, pend (ents s p) = true \/ special p = true -> C s p.
Hypothesis Htake : forall s p, P s -> C s p -> P (take s p).
Hypothesis Hspec : forall s p e, special p = true -> P s -> P (with_ent s p e).
Lemma run_ind n : forall t s s', (forall p, t = TTrap p -> C s p) -> P s -> state (run body n t s) = Some s' -> P s'.
Proof.
  induction n as [|n IH]; [discriminate|]. intros t s s' TT Ps.
  assert (forall t s s', (forall p, t <> TTrap p) -> P s -> state (run body n t s) = Some s' -> P s') as IH'.
  { intros t1 s1 s1' N. apply IH. intros p ->. exfalso. exact (N p eq_refl). }
  assert (forall r k, (forall s1, state r = Some s1 -> P s1) -> (forall s1 s2, P s1 -> state (k s1) = Some s2 -> P s2) -> state (bind r k) = Some s' -> P s') as B.
  { intros r k R K H. destruct r as [s2|s2|s2|]; cbn in H; [|injection H as <-; apply R; reflexivity..|discriminate]. eapply K; [|exact H]. apply R. reflexivity. }
  destruct t as [[|o l]|o|f|f [|p l]|p|ex]; cbn [run].
  - intros [= <-]. auto.
  - apply B; intros; eapply IH'; eauto; discriminate.
  - destruct o as [p t|p|v| | | | | |l|b].
    + intros [= <-]. auto.
    + intros [= <-]. auto.
    + destruct (v =? 0); [intros [= <-]; auto|]. cbv zeta. destruct (errexit _); [|intros [= <-]; auto]. apply IH'; [discriminate|auto].
    + destruct (trapf s); [apply IH'; [discriminate|auto]|]. intros [= <-]. auto.
    + destruct (intrf s); [apply IH'; [discriminate|auto]|]. intros [= <-]. auto.
    + intros [= <-]. auto.
    + apply IH'; [discriminate|auto].
    + apply IH'; [discriminate|auto].
    + destruct (run body n (TList l) s) eqn:E; cbn; intros H; try discriminate; injection H as <-; (apply (IH' (TList l) s); [discriminate|auto|rewrite E; reflexivity]).
    + intros [= <-]. auto.
  - set (s1 := match f with RAll => _ | RIntr => _ | RFatal => _ end). assert (P s1) as F1 by (subst s1; destruct f; auto).
    clearbody s1. destruct (run body n (TLoop f sigs) s1) eqn:E; cbn; intros H; try discriminate; injection H as <-; try apply Hcut; (eapply (IH' (TLoop f sigs)); [discriminate|eauto|rewrite E; reflexivity]).
  - intros [= <-]. auto.
  - destruct (pend (ents s p)) eqn:PE; cbn [andb]; [destruct (wanted f (ents s p))|].
    + apply B; [|intros; eapply IH'; eauto; discriminate]. intros s1. apply IH; [|auto]. intros q [= <-]. auto.
    + apply IH'; [discriminate|auto].
    + apply IH'; [discriminate|auto].
  - pose proof (Htake s p Ps (TT p eq_refl)) as F1. unfold take in F1. set (s1 := note _ _) in *. clearbody s1.
    destruct (tr (ents s p)) as [[|c a]|].
    + intros [= <-]. auto.
    + cbv zeta. change ((p =? SIGEXIT) || (p =? SIGERR)) with (special p). destruct (special p) eqn:SP.
      * apply B; [intros s3; apply IH'; [discriminate|auto]|]. intros s3 s4 P3 H. injection H as <-. auto.
      * apply B; [intros s3; apply IH'; [discriminate|auto]|]. intros s3 s4 P3 H. injection H as <-. auto.
    + destruct (fatal (ents s p)); [intros [= <-]; auto|]. destruct (dfli (ents s p)); [|intros [= <-]; auto]. apply IH'; [discriminate|auto].
  - assert (forall q, special q = true -> state (bind (if trapf s then run body n (TRun RAll) s else Fin s) (fun s => match run body n (TTrap q) s with Fin s => Gone s | Unw s => Unw (with_cut s) | r => r end)) = Some s' -> P s') as X.
    { intros q Q. apply B.
      - intros s2. destruct (trapf s); [apply IH'; [discriminate|auto]|]. intros [= <-]. auto.
      - intros s2 s3 P2. destruct (run body n (TTrap q) s2) eqn:E; cbn; intros H; try discriminate; injection H as <-; try apply Hcut; (apply (IH (TTrap q) s2); [intros r [= <-]; auto|auto|rewrite E; reflexivity]). }
    destruct (ex || _); [apply X; reflexivity|]. destruct (errexit s); [apply X; reflexivity|]. intros [= <-]. auto.
Qed.
End Ind.

Lemma deliver_or s p : deliver s p = s \/ disp s p = HTrap /\ deliver s p = trapsig s p.
Proof. unfold deliver. destruct (disp s p); auto. Qed.
Definition mono (P : st -> Prop) := forall s l, P s -> P (act s l).

(** ** The log *)
Definition touched (p : Z) (l : list event) : bool := existsb (fun e => match e with Set_ q _ => q =? p | _ => false end) l.
Definition linv (p : Z) (s : st) : Prop :=
  pend (ents s p) = waiting p (log s) /\ tr (ents s p) = in_force p (log s) /\ uset (ents s p) = touched p (log s) /\ orderly p (log s).
Lemma linv_trapsig p s q : linv p s -> linv p (trapsig s q).
Proof.
  intros (A & B & C & D). destruct (trapsig_eq s q) as (E & _ & _ & _ & _ & _ & _ & _ & F). unfold linv. rewrite E, F. unfold upd, waiting, last_of. cbn [find of_sig in_force touched existsb orderly].
  rewrite (Z.eqb_sym q p). destruct (p =? q) eqn:K; [|auto]. apply Z.eqb_eq in K. subst. cbn. auto.
Qed.
Lemma linv_run body n p : special p = false -> forall t s s', (forall q, t = TTrap q -> pend (ents s q) = true \/ special q = true) -> linv p s -> state (run body n t s) = Some s' -> linv p s'.
Proof.
  intros SP. apply run_ind; [..|auto| |].
  - intros s q t (A & B & C & D). destruct (settrap_eq s q t) as (E & _ & _ & _ & _ & _ & F). destruct (E p) as (E1 & E2 & E3 & _). unfold linv. rewrite E1, E2, E3, F.
    unfold waiting, last_of. cbn [find of_sig in_force touched existsb orderly]. rewrite (Z.eqb_sym q p). destruct (p =? q); auto.
  - intros s q H. destruct (deliver_or s q) as [->|(_ & ->)]; [auto|]. apply linv_trapsig; auto.
  - intros s H. apply linv_trapsig; auto.
  - auto.
  - auto.
  - auto.
  - auto.
  - intros s q (A & B & C & D) W. unfold linv, take. cbn. unfold upd, waiting, last_of. cbn [find of_sig in_force touched existsb orderly].
    destruct (p =? q) eqn:K.
    + apply Z.eqb_eq in K. subst q. rewrite Z.eqb_refl. cbn. split; [auto|]. split; [auto|]. split; [auto|]. split; [|auto]. intros _. split; [|congruence].
      change (waiting p (log s) = true). destruct W as [W|W]; congruence.
    + rewrite (Z.eqb_sym q p), K. split; [auto|]. split; [auto|]. split; [auto|]. split; [|auto]. intros ->. rewrite Z.eqb_refl in K. discriminate.
  - intros s q e Q (A & B & C & D). unfold linv. cbn. unfold upd. destruct (p =? q) eqn:K; [|unfold linv; auto]. apply Z.eqb_eq in K. congruence.
Qed.
Lemma linv_init o talk p : is_sig p -> linv p (init o talk).
Proof.
  intros _. unfold init. cbv zeta. set (fl := fun p : Z => _). set (s0 := St fl _ _ _ _ _ _ _ _ _ _ _).
  assert (forall s q f r a b c, linv p s -> linv p (snd (setsig s q f r a b c))) as X.
  { intros s q f r a b c (A & B & C & D). destruct (keeps_setsig s q f r a b c) as (E & _ & _ & _ & _ & _ & F). destruct (E p) as (E1 & E2 & E3 & _). unfold linv. rewrite E1, E2, E3, F. auto. }
  do 5 apply X. unfold linv, s0. cbn. unfold fl. repeat match goal with |- context [if ?b then _ else _] => destruct b end; cbn; auto.
Qed.
Lemma trapf_init o talk : trapf (init o talk) = false /\ cut (init o talk) = false /\ log (init o talk) = [] /\ forall p, pend (ents (init o talk) p) = false.
Proof.
  unfold init. cbv zeta. set (fl := fun p : Z => _). set (s0 := St fl _ _ _ _ _ _ _ _ _ _ _).
  assert (forall s q f r a b c, (trapf s = false /\ cut s = false /\ log s = [] /\ forall p, pend (ents s p) = false) -> let s' := snd (setsig s q f r a b c) in (trapf s' = false /\ cut s' = false /\ log s' = [] /\ forall p, pend (ents s' p) = false)) as X.
  { intros s q f r a b c (A & B & C & D). destruct (keeps_setsig s q f r a b c) as (E & E1 & _ & E2 & _ & _ & E3). cbv zeta. rewrite E1, E2, E3. split; [auto|]. split; [auto|]. split; [auto|].
    intros p. destruct (E p) as (-> & _). auto. }
  do 5 apply X. cbn. repeat (split; [auto|]). intros p. unfold fl. repeat match goal with |- context [if ?b then _ else _] => destruct b end; reflexivity.
Qed.

(** ** The exit status *)
Lemma run_status body n : forall t s s', (exists f l, t = TLoop f l) \/ (exists f, t = TRun f) \/ (exists p, t = TTrap p) -> run body n t s = Fin s' -> exstat s' = exstat s.
Proof.
  assert (forall n ex s s', run body n (TUnwind ex) s <> Fin s') as NU.
  { intros [|m] ex s s'; [discriminate|]. cbn [run].
    assert (forall q, bind (if trapf s then run body m (TRun RAll) s else Fin s) (fun s => match run body m (TTrap q) s with Fin s => Gone s | Unw s => Unw (with_cut s) | r => r end) <> Fin s') as X.
    { intros q. destruct (if trapf s then _ else _); cbn; try discriminate. destruct (run body m (TTrap q) s0); discriminate. }
    destruct (ex || _); [apply X|]. destruct (errexit s); [apply X|]. discriminate. }
  induction n as [|n IH]; [discriminate|]. intros t s s' [(f & [|p l] & ->)|[(f & ->)|(p & ->)]]; cbn [run].
  - intros [= <-]. auto.
  - destruct (_ && _); [|intros H; apply IH in H; eauto]. destruct (run body n (TTrap p) s) as [s1| | |] eqn:E; cbn [bind]; try discriminate. intros H. apply IH in H; [|eauto]. apply IH in E; [|eauto]. congruence.
  - set (s1 := match f with RAll => _ | RIntr => _ | RFatal => _ end). assert (exstat s1 = exstat s) as <- by (destruct f; reflexivity). clearbody s1.
    destruct (run body n (TLoop f sigs) s1) as [s2| | |] eqn:E; try discriminate. intros [= <-]. apply IH in E; eauto.
  - set (s1 := note _ _). assert (exstat s1 = exstat s) as <- by reflexivity. destruct (tr (ents s p)) as [[|c a]|].
    + intros [= <-]. auto.
    + cbv zeta. match goal with |- bind ?r _ = _ -> _ => destruct r; cbn [bind]; try discriminate end. intros [= <-]. destruct (_ || _); reflexivity.
    + destruct (fatal _); [discriminate|]. destruct (dfli _); [intros H; apply NU in H; destruct H|]. intros [= <-]. auto.
Qed.

Lemma run_log body n t s s' : state (run body n t s) = Some s' -> exists new, log s' = new ++ log s.
Proof.
  apply (run_ind body (fun s' => exists new, log s' = new ++ log s)) with (C := fun _ _ => True); auto; try (intros s1 p t1 (new & H) || intros s1 p (new & H) || intros s1 (new & H)).
  - destruct (settrap_eq s1 p t1) as (_ & _ & _ & _ & _ & _ & ->). exists (Set_ p t1 :: new). now rewrite H.
  - destruct (deliver_or s1 p) as [->|(_ & ->)]; [eauto|]. destruct (trapsig_eq s1 p) as (_ & _ & _ & _ & _ & _ & _ & _ & ->). exists (Deliv p :: new). now rewrite H.
  - destruct (trapsig_eq s1 SIGERR) as (_ & _ & _ & _ & _ & _ & _ & _ & ->). exists (Deliv SIGERR :: new). now rewrite H.
  - intros _. exists (Take p (tr (ents s1 p)) :: new). cbn. now rewrite H.
  - exists []. reflexivity.
Qed.
Lemma run_cut body n t s s' : state (run body n t s) = Some s' -> cut s' = false -> cut s = false.
Proof.
  intros H N. destruct (cut s) eqn:E; [|auto]. rewrite <- N. symmetry. revert H. apply (run_ind body (fun s => cut s = true)) with (C := fun _ _ => True); auto.
  - intros s1 p t1 <-. apply settrap_eq.
  - intros s1 p <-. destruct (deliver_or s1 p) as [->|(_ & ->)]; [auto|]. apply trapsig_eq.
  - intros s1 <-. apply trapsig_eq.
Qed.

(** ** Nothing is forgotten *)
Definition owed (L : Z -> Prop) (s : st) : Prop := forall p, 0 <= p <= 65 -> pend (ents s p) = true -> trapf s = true \/ L p.
Definition owes (t : task) (L : Z -> Prop) (s : st) : Prop :=
  match t with TLoop RAll l => owed (fun q => L q \/ In q l) s | TTrap p => owed (fun q => L q \/ q = p) s | _ => owed L s end.
Definition goes_on (t : task) (r : res) (s' : st) : Prop := r = Fin s' \/ r = Unw s' /\ match t with TLoop _ _ => False | _ => True end.
Lemma goes_state t r s' : goes_on t r s' -> state r = Some s'.
Proof. intros [->|(-> & _)]; reflexivity. Qed.
Lemma bind_goes t r k s' : goes_on t (bind r k) s' -> (r = Unw s' /\ match t with TLoop _ _ => False | _ => True end) \/ exists s1, r = Fin s1 /\ goes_on t (k s1) s'.
Proof. intros [H|(H & T)]; destruct r; cbn in H; try discriminate; [right; eexists; split; [reflexivity|left; auto]|right; eexists; split; [reflexivity|right; auto]|left; split; [congruence|auto]]. Qed.
Lemma owed_weak (L L' : Z -> Prop) s : (forall p, L p -> L' p) -> owed L s -> owed L' s.
Proof. intros W H p R P. destruct (H p R P); auto. Qed.
Lemma owed_same L s s' : (forall q, pend (ents s' q) = pend (ents s q)) -> trapf s' = trapf s -> owed L s -> owed L s'.
Proof. intros H1 H2 H p R P. rewrite H2. rewrite H1 in P. auto. Qed.
Lemma run_owed body n : forall t L s s', goes_on t (run body n t s) s' -> cut s' = false -> owes t L s -> owed L s'.
Proof.
  induction n as [|n IH]; [intros t L s s' [H|(H & _)]; discriminate|]. intros t L s s' H NC OW.
  assert (forall q k L1 s1, owes (TTrap q) L1 s1 -> (forall s2, k s2 = Fin s' -> False) -> (forall s2, k s2 = Unw s' -> False) -> goes_on (TTrap q) (bind (run body n (TTrap q) s1) k) s' -> owed L1 s') as BT.
  { intros q k L1 s1 O K1 K2 G. destruct (bind_goes _ _ _ _ G) as [(E & _)|(s2 & E & [K|(K & _)])]; [|destruct (K1 s2 K)|destruct (K2 s2 K)].
    eapply IH; [right; split; [exact E|exact I]|auto|auto]. }
  destruct t as [[|o l]|o|f|f [|p l]|p|ex]; cbn [run] in H.
  - destruct H as [[= <-]|([=] & _)]. exact OW.
  - destruct (bind_goes _ _ _ _ H) as [(E & _)|(s1 & E & G)].
    + apply (IH (TOp o) L s s'); auto. right. auto.
    + apply (IH (TList l) L s1 s'); auto. assert (cut s1 = false) as NC1 by (eapply run_cut; [apply (goes_state _ _ _ G)|auto]). apply (IH (TOp o) L s s1); auto. left. auto.
  - cbn [owes] in OW. destruct o as [p t|p|v| | | | | |l|b].
    + destruct H as [[= <-]|([=] & _)]. destruct (settrap_eq s p t) as (E & F & _). eapply owed_same; [| |exact OW]; [|exact F]. intros q. apply E.
    + destruct H as [[= <-]|([=] & _)]. destruct (deliver_or s p) as [->|(_ & ->)]; [auto|]. intros q R P. left. apply trapsig_eq.
    + destruct (v =? 0); [destruct H as [[= <-]|([=] & _)]; exact OW|]. cbv zeta in H.
      assert (owed L (trapsig (with_exstat s v) SIGERR)) as O1 by (intros q R P; left; apply trapsig_eq). set (s1 := trapsig _ _) in *. clearbody s1.
      destruct (errexit s1); [|destruct H as [[= <-]|([=] & _)]; exact O1]. apply (IH (TUnwind false) L s1 s'); auto.
    + destruct (trapf s) eqn:TF; [|destruct H as [[= <-]|([=] & _)]; auto]. apply (IH (TRun RAll) L s s'); auto.
    + destruct (intrf s) eqn:TF; [|destruct H as [[= <-]|([=] & _)]; auto]. apply (IH (TRun RIntr) L s s'); auto.
    + destruct H as [[=]|([= <-] & _)]. auto.
    + apply (IH (TUnwind false) L s s'); auto.
    + apply (IH (TUnwind true) L s s'); auto.
    + destruct (run body n (TList l) s) as [s1|s1|s1|] eqn:E; destruct H as [[=]|([=] & _)]; subst; (apply (IH (TList l) L s s'); auto).
      * left. auto.
      * right. auto.
    + destruct H as [[= <-]|([=] & _)]. exact OW.
  - cbn [owes] in OW. set (s1 := match f with RAll => _ | RIntr => _ | RFatal => _ end) in H. assert (owes (TLoop f sigs) L s1) as O1.
    { subst s1. destruct f; cbn; [|exact OW..]. intros q R P. right. right. apply sigs_in. auto. }
    clearbody s1. destruct (run body n (TLoop f sigs) s1) eqn:E; destruct H as [[= <-]|([= <-] & _)]; [|discriminate NC]. apply (IH (TLoop f sigs) L s1); auto. left. auto.
  - destruct H as [[= <-]|([=] & _)]. destruct f; cbn in OW; [|exact OW..]. eapply owed_weak; [|exact OW]. cbn. tauto.
  - destruct (pend (ents s p)) eqn:PE; cbn [andb] in H; [destruct (wanted f (ents s p)) eqn:W|].
    + destruct (bind_goes _ _ _ _ H) as [(E & [])|(s1 & E & G)]. assert (cut s1 = false) as NC1 by (eapply run_cut; [apply (goes_state _ _ _ G)|auto]).
      apply (IH (TLoop f l) L s1 s'); auto. destruct f; cbn in OW |- *.
      * apply (IH (TTrap p) (fun q => L q \/ In q l) s s1); [left; auto|auto|]. eapply owed_weak; [|exact OW]. cbn. intuition congruence.
      * apply (IH (TTrap p) L s s1); [left; auto|auto|]. eapply owed_weak; [|exact OW]. cbn. auto.
      * apply (IH (TTrap p) L s s1); [left; auto|auto|]. eapply owed_weak; [|exact OW]. cbn. auto.
    + destruct f; [discriminate|apply (IH (TLoop RIntr l) L s s'); auto|apply (IH (TLoop RFatal l) L s s'); auto].
    + apply (IH (TLoop f l) L s s'); auto. destruct f; cbn in OW |- *; [|exact OW..]. intros q R P. destruct (OW q R P) as [X|[X|[->|X]]]; auto. congruence.
  - set (s1 := note _ _) in H. assert (owed L s1) as O1.
    { subst s1. intros q R P. cbn in P. unfold upd in P. destruct (q =? p) eqn:K; [discriminate|]. apply Z.eqb_neq in K. destruct (OW q R P) as [X|[X|X]]; [auto|auto|congruence]. }
    clearbody s1. destruct (tr (ents s p)) as [[|c a]|].
    + destruct H as [[= <-]|([=] & _)]. auto.
    + cbv zeta in H. set (s2 := if (p =? SIGEXIT) || (p =? SIGERR) then with_ent s1 p _ else s1) in H. assert (owed L s2) as O2.
      { subst s2. destruct (_ || _); [|exact O1]. eapply owed_same; [| |exact O1]; [|reflexivity]. intros q. cbn. unfold upd. destruct (q =? p) eqn:K; [|auto]. apply Z.eqb_eq in K. subst. auto. }
      clearbody s2. destruct (bind_goes _ _ _ _ H) as [(E & _)|(s3 & E & G)].
      * eapply IH; [right; split; [exact E|exact I]|auto|exact O2].
      * assert (exists s4, s4 = with_exstat s3 (exstat s1) /\ (s' = s4 \/ exists e, s' = with_ent s4 p e /\ pend e = pend (ents s4 p))) as (s4 & E4 & X).
        { eexists. split; [reflexivity|]. destruct G as [[= G]|([=] & _)]. destruct (_ || _); [right|left; auto]. eexists. split; [symmetry; exact G|]. cbn. destruct (chg (ents s3 p)); reflexivity. }
        assert (owed L s4) as O4.
        { subst s4. eapply owed_same; [| |eapply (IH _ L s2 s3); [left; exact E| |exact O2]]; [reflexivity|reflexivity|]. destruct X as [->|(e & -> & _)]; exact NC. }
        destruct X as [->|(e & -> & EE)]; [exact O4|]. eapply owed_same; [| |exact O4]; [|reflexivity]. intros q. cbn. unfold upd. destruct (q =? p) eqn:K; [|auto]. apply Z.eqb_eq in K. subst. auto.
    + destruct (fatal _); [destruct H as [[=]|([=] & _)]|]. destruct (dfli _); [|destruct H as [[= <-]|([=] & _)]; auto]. apply (IH (TUnwind false) L _ s') in H; auto.
  - cbn [owes] in OW. assert (forall q, goes_on (TUnwind ex) (bind (if trapf s then run body n (TRun RAll) s else Fin s) (fun s => match run body n (TTrap q) s with Fin s => Gone s | Unw s => Unw (with_cut s) | r => r end)) s' -> owed L s') as X.
    { clear BT H. intros q H. destruct (bind_goes _ _ _ _ H) as [(E & _)|(s1 & E & G)].
      - destruct (trapf s); [|discriminate]. apply (IH (TRun RAll) L s s'); auto. right. auto.
      - exfalso. destruct (run body n (TTrap q) s1); destruct G as [[=]|([=] & _)]. subst s'. discriminate NC. }
    destruct (ex || _); [apply (X SIGEXIT); auto|]. destruct (errexit s); [apply (X SIGERR); auto|]. destruct H as [[=]|([= <-] & _)]. auto.
Qed.

(** ** Once each, in order *)
Definition ord (p : Z) : bool := negb (special p).
Lemma takes_app a b : takes (a ++ b) = takes b ++ takes a.
Proof. unfold takes. now rewrite rev_app_distr, flat_map_app. Qed.
Definition silent (new : list event) : Prop := forall p, delivs p new = false.
Lemma silent_app a b : silent (a ++ b) -> silent a /\ silent b.
Proof. intros H. split; intros p; specialize (H p); unfold delivs in *; rewrite existsb_app in H; apply orb_false_iff in H; apply H. Qed.
Definition quiet (t : task) (s s' : st) (new : list event) : Prop :=
  match t with
  | TLoop RAll l => NoDup l -> filter ord (takes new) = filter (fun p => ord p && pend (ents s p)) l /\ forall q, ord q = true -> pend (ents s' q) = pend (ents s q) && negb (existsb (Z.eqb q) l)
  | TTrap p => filter ord (takes new) = filter ord [p] /\ forall q, ord q = true -> pend (ents s' q) = pend (ents s q) && negb (q =? p)
  | _ => filter ord (takes new) = [] /\ forall q, ord q = true -> pend (ents s' q) = pend (ents s q)
  end.
Lemma app_self {A} (a b : list A) : b = a ++ b -> a = [].
Proof. intros H. apply (f_equal (@length A)) in H. rewrite app_length in H. destruct a; [auto|cbn in H; lia]. Qed.
Lemma quiet_same t s new : (match t with TLoop _ _ | TTrap _ => False | _ => True end) -> log s = new ++ log s -> quiet t s s new.
Proof. intros T H. apply app_self in H. subst new. destruct t; try destruct T; cbn; auto. Qed.
Lemma filter_none {A} (f : A -> bool) l : (forall x, In x l -> f x = false) -> filter f l = [].
Proof. induction l as [|x l IH]; intros H; [auto|]. cbn. rewrite (H x (or_introl eq_refl)). apply IH. intros y Y. apply H. right. auto. Qed.

Lemma run_quiet body n : forall t s s' new, t <> TRun RAll -> goes_on t (run body n t s) s' -> trapf s = false -> cut s' = false -> log s' = new ++ log s -> silent new -> trapf s' = false /\ quiet t s s' new.
Proof.
  induction n as [|n IH]; [intros t s s' new _ [H|(H & _)]; discriminate|]. intros t s s' new NT H TF NC LG SI.
  assert (forall p s, ~ silent (Deliv p :: s)) as ND by (intros p s1 S1; specialize (S1 p); cbn in S1; rewrite Z.eqb_refl in S1; discriminate).
  assert (forall s1 p (e : event), log s = new ++ log s1 -> log s1 = Deliv p :: log s -> False) as NL.
  { intros s1 p e A B. rewrite B in A. apply (f_equal (@length event)) in A. rewrite app_length in A. cbn in A. lia. }
  assert (forall t1 s1, t1 <> TRun RAll -> goes_on t1 (run body n t1 s1) s' -> trapf s1 = false -> log s1 = log s -> (forall q, pend (ents s1 q) = pend (ents s q)) ->
    match t1 with TLoop _ _ | TTrap _ => False | _ => True end -> trapf s' = false /\ filter ord (takes new) = [] /\ forall q, ord q = true -> pend (ents s' q) = pend (ents s q)) as SUB.
  { intros t1 s1 N G T1 L1 P1 K. rewrite <- L1 in LG. destruct (IH t1 s1 s' new N G T1 NC LG SI) as (A & B). split; [auto|]. destruct t1; try destruct K; cbn in B; destruct B as (B1 & B2); (split; [auto|]; intros q Q; rewrite <- P1; auto). }
  assert (forall r k (t1 : task) s1, goes_on t (k s1) s' -> r = Fin s1 -> state r = Some s1 -> (forall s2, state (k s1) = Some s2 -> exists nw, log s2 = nw ++ log s1) -> (exists nw, log s1 = nw ++ log s) ->
     exists n1 n2, new = n2 ++ n1 /\ log s1 = n1 ++ log s /\ log s' = n2 ++ log s1 /\ silent n1 /\ silent n2) as SPL.
  { intros r k t1 s1 G _ _ K (n1 & L1). destruct (K s' (goes_state _ _ _ G)) as (n2 & L2). exists n1, n2. rewrite L2, L1, app_assoc in LG. apply app_inv_tail in LG. subst new. apply silent_app in SI as (S2 & S1). auto. }
  destruct t as [[|o l]|o|f|f [|p l]|p|ex]; cbn [run] in H.
  - destruct H as [[= <-]|([=] & _)]. split; [auto|]. apply quiet_same; auto.
  - destruct (bind_goes _ _ _ _ H) as [(E & _)|(s1 & E & G)].
    + apply (IH (TOp o) s s' new); auto; [discriminate|]. right. auto.
    + destruct (SPL _ _ (TOp o) s1 G E) as (n1 & n2 & -> & L1 & L2 & S1 & S2); [rewrite E; reflexivity|intros s2; apply run_log|apply (run_log body n (TOp o)); rewrite E; reflexivity|].
      assert (cut s1 = false) as NC1 by (eapply run_cut; [apply (goes_state _ _ _ G)|auto]).
      destruct (IH (TOp o) s s1 n1) as (A1 & A2 & A3); auto; [discriminate|left; auto|]. destruct (IH (TList l) s1 s' n2) as (B1 & B2 & B3); auto; [discriminate|].
      split; [auto|]. cbn. rewrite takes_app, filter_app, A2, B2. split; [auto|]. intros q Q. rewrite B3, A3; auto.
  - destruct o as [p t|p|v| | | | | |l|b].
    + destruct H as [[= <-]|([=] & _)]. destruct (settrap_eq s p t) as (E & F & _ & _ & _ & _ & LL). split; [congruence|]. rewrite LL in LG. change (Set_ p t :: log s) with ([Set_ p t] ++ log s) in LG. apply app_inv_tail in LG. subst new. split; [reflexivity|]. intros q _. apply E.
    + destruct H as [[= <-]|([=] & _)]. destruct (deliver_or s p) as [E|(_ & E)]; rewrite E in *; [split; [auto|apply quiet_same; auto]|].
      destruct (trapsig_eq s p) as (_ & _ & _ & _ & _ & _ & _ & _ & LL). rewrite LL in LG. change (Deliv p :: log s) with ([Deliv p] ++ log s) in LG. apply app_inv_tail in LG. subst new. destruct (ND p [] SI).
    + destruct (v =? 0); [destruct H as [[= <-]|([=] & _)]; split; [auto|exact (quiet_same (TOp (OStatus v)) s new I LG)]|]. exfalso. cbv zeta in H.
      pose proof (trapsig_eq (with_exstat s v) SIGERR) as (_ & _ & _ & _ & _ & _ & _ & _ & LL). cbn [with_exstat log] in LL. set (s1 := trapsig _ _) in *. clearbody s1.
      assert (exists nw, log s' = nw ++ log s1) as (nw & LN).
      { destruct (errexit s1); [eapply run_log; eapply goes_state; exact H|]. destruct H as [[= <-]|([=] & _)]. exists []. auto. }
      rewrite LN, LL in LG. change (Deliv SIGERR :: log s) with ([Deliv SIGERR] ++ log s) in LG. rewrite app_assoc in LG. apply app_inv_tail in LG. subst new. apply silent_app in SI as (_ & SI). destruct (ND _ _ SI).
    + rewrite TF in H. destruct H as [[= <-]|([=] & _)]. split; [auto|apply quiet_same; auto].
    + destruct (intrf s); [|destruct H as [[= <-]|([=] & _)]; split; [auto|apply quiet_same; auto]]. apply (SUB (TRun RIntr) s); auto. discriminate.
    + destruct H as [[=]|([= <-] & _)]. split; [auto|apply quiet_same; auto].
    + apply (SUB (TUnwind false) s); auto. discriminate.
    + apply (SUB (TUnwind true) s); auto. discriminate.
    + apply (SUB (TList l) s); auto; [discriminate|]. destruct (run body n (TList l) s) as [s1|s1|s1|] eqn:E; destruct H as [[= <-]|([=] & _)]; [left; auto|right; auto].
    + destruct H as [[= <-]|([=] & _)]. split; [auto|exact (quiet_same (TOp (OErrexit b)) s new I LG)].
  - destruct f; [congruence| |].
    + set (s1 := with_flags _ _ _ _) in H. destruct (run body n (TLoop RIntr sigs) s1) eqn:E; destruct H as [[= <-]|([= <-] & _)]; [|discriminate NC].
      destruct (IH (TLoop RIntr sigs) s1 s0 new) as (A & B & C); auto; [discriminate|left; auto|]. cbn. auto.
    + set (s1 := with_flags _ _ _ _) in H. destruct (run body n (TLoop RFatal sigs) s1) eqn:E; destruct H as [[= <-]|([= <-] & _)]; [|discriminate NC].
      destruct (IH (TLoop RFatal sigs) s1 s0 new) as (A & B & C); auto; [discriminate|left; auto|]. cbn. auto.
  - destruct H as [[= <-]|([=] & _)]. apply app_self in LG. subst new. split; [auto|]. destruct f; cbn; auto. intros _. split; [auto|]. intros q _. now rewrite andb_true_r.
  - destruct (pend (ents s p)) eqn:PE; cbn [andb] in H; [destruct (wanted f (ents s p)) eqn:W|].
    + destruct (bind_goes _ _ _ _ H) as [(E & [])|(s1 & E & G)]. assert (cut s1 = false) as NC1 by (eapply run_cut; [apply (goes_state _ _ _ G)|auto]).
      destruct f.
      * destruct (SPL _ _ (TTrap p) s1 G E) as (n1 & n2 & -> & L1 & L2 & S1 & S2); [rewrite E; reflexivity|intros s2; apply run_log|apply (run_log body n (TTrap p)); rewrite E; reflexivity|].
        destruct (IH (TTrap p) s s1 n1) as (A1 & A2 & A3); auto; [discriminate|left; auto|]. destruct (IH (TLoop RAll l) s1 s' n2) as (B1 & BB); auto; [discriminate|].
        split; [auto|]. cbn. intros ND1. inversion ND1 as [|? ? NI ND2]; subst. destruct (BB ND2) as (B2 & B3). rewrite takes_app, filter_app, A2, B2, PE, andb_true_r. split.
        -- assert (filter (fun q => ord q && pend (ents s1 q)) l = filter (fun q => ord q && pend (ents s q)) l) as ->.
           { apply filter_ext_in. intros q Q. destruct (ord q) eqn:OQ; [|auto]. cbn. rewrite A3; auto. destruct (q =? p) eqn:K; [apply Z.eqb_eq in K; congruence|]. now rewrite andb_true_r. }
           cbn. destruct (ord p); reflexivity.
        -- intros q Q. rewrite B3, A3; auto. now rewrite negb_orb, andb_assoc.
      * exfalso. clear - E W. destruct n as [|m]; [discriminate|]. cbn in E, W. destruct (tr (ents s p)); [rewrite andb_false_r in W; discriminate|]. rewrite andb_true_r in W.
        destruct (fatal (ents s p)); [discriminate|]. rewrite orb_false_r in W. rewrite W in E. destruct m; [discriminate|]. cbn [run] in E.
        match type of E with (if ?b then _ else _) = _ => destruct b end; [|match type of E with (if ?b then _ else _) = _ => destruct b end; [|discriminate]];
        match type of E with bind ?r _ = _ => destruct r; cbn in E; try discriminate end; match type of E with match ?r with _ => _ end = _ => destruct r; discriminate end.
      * exfalso. clear - E W. destruct n as [|m]; [discriminate|]. cbn in E, W. destruct (tr (ents s p)); [rewrite andb_false_r in W; discriminate|]. rewrite andb_true_r in W. rewrite W in E. discriminate.
    + destruct f; [discriminate| |]; [apply (IH (TLoop RIntr l) s s' new)|apply (IH (TLoop RFatal l) s s' new)]; auto; discriminate.
    + destruct (IH (TLoop f l) s s' new) as (A & B); auto; [discriminate|]. split; [auto|]. destruct f; [|exact B..]. cbn in *. intros ND1. inversion ND1 as [|? ? NI ND2]; subst. destruct (B ND2) as (B1 & B2). rewrite PE, andb_false_r. split; [auto|].
      intros q Q. rewrite B2; auto. destruct (q =? p) eqn:K; [|auto]. apply Z.eqb_eq in K. subst. now rewrite PE.
  - set (s1 := note _ _) in H. assert (log s1 = [Take p (tr (ents s p))] ++ log s) as L1 by reflexivity.
    assert (forall q, pend (ents s1 q) = pend (ents s q) && negb (q =? p)) as P1 by (intros q; subst s1; cbn; unfold upd; destruct (q =? p); cbn; [now rewrite andb_false_r|now rewrite andb_true_r]).
    assert (trapf s1 = false) as T1 by exact TF. clearbody s1.
    assert (exists nw, log s' = nw ++ log s1 -> True) as _ by (exists []; auto).
    assert (forall t1 s2, t1 <> TRun RAll -> goes_on t1 (run body n t1 s2) s' -> trapf s2 = false -> log s2 = log s1 -> (forall q, ord q = true -> pend (ents s2 q) = pend (ents s1 q)) ->
      match t1 with TLoop _ _ | TTrap _ => False | _ => True end -> trapf s' = false /\ quiet (TTrap p) s s' new) as SUB2.
    { intros t1 s2 N G T2 L2 P2 K. destruct (run_log body n t1 s2 s' (goes_state _ _ _ G)) as (n2 & LN). rewrite L2, L1, app_assoc in LN. rewrite LN in LG. apply app_inv_tail in LG. subst new. apply silent_app in SI as (S2 & S1).
      destruct (IH t1 s2 s' n2) as (A & B); auto; [rewrite L2, L1, app_assoc; exact LN|]. split; [auto|]. assert (filter ord (takes n2) = [] /\ forall q, ord q = true -> pend (ents s' q) = pend (ents s2 q)) as (B1 & B2) by (destruct t1; try destruct K; exact B).
      cbn. rewrite takes_app, filter_app, B1, app_nil_r. split; [reflexivity|]. intros q Q. rewrite B2, P2, P1; auto. }
    assert (forall s2, log s2 = log s1 -> trapf s2 = false -> (forall q, pend (ents s2 q) = pend (ents s1 q)) -> s' = s2 -> trapf s' = false /\ quiet (TTrap p) s s' new) as SAME.
    { intros s2 L2 T2 P2 ->. rewrite L2, L1 in LG. apply app_inv_tail in LG. subst new. split; [auto|]. cbn. split; [reflexivity|]. intros q Q. rewrite P2, P1. auto. }
    destruct (tr (ents s p)) as [[|c a]|] eqn:TR.
    + destruct H as [[= <-]|([=] & _)]. apply (SAME s1); auto.
    + cbv zeta in H. set (s2 := if (p =? SIGEXIT) || (p =? SIGERR) then with_ent s1 p _ else s1) in H.
      assert (trapf s2 = false /\ log s2 = log s1 /\ forall q, pend (ents s2 q) = pend (ents s1 q)) as (T2 & L2 & P2).
      { subst s2. destruct (_ || _); [|auto]. split; [exact T1|]. split; [reflexivity|]. intros q. cbn. unfold upd. destruct (q =? p) eqn:K; [|auto]. apply Z.eqb_eq in K. subst. auto. }
      clearbody s2. destruct (bind_goes _ _ _ _ H) as [(E & _)|(s3 & E & G)].
      * apply (SUB2 (TList (OPoint :: body (c :: a) ++ [OPoint])) s2); auto; [discriminate|]. right. auto.
      * assert (trapf s' = trapf s3 /\ cut s' = cut s3 /\ log s' = log s3 /\ forall q, pend (ents s' q) = pend (ents s3 q)) as (T3 & C3 & L3 & P3).
        { destruct G as [[= <-]|([=] & _)]. destruct (_ || _); [|auto]. split; [reflexivity|]. split; [reflexivity|]. split; [reflexivity|]. intros q. cbn. unfold upd. destruct (q =? p) eqn:K; [|auto]. apply Z.eqb_eq in K. subst. destruct (chg (ents s3 p)); reflexivity. }
        assert (trapf s3 = false /\ quiet (TTrap p) s s3 new) as (A & B & C).
        { clear SAME SUB SPL. rewrite L3 in LG. destruct (run_log body n _ _ s3 (f_equal state E)) as (n2 & LN). rewrite L2, L1, app_assoc in LN. rewrite LN in LG. apply app_inv_tail in LG. subst new. apply silent_app in SI as (S2 & S1).
          destruct (IH (TList (OPoint :: body (c :: a) ++ [OPoint])) s2 s3 n2) as (A & B1 & B2); auto; [discriminate|left; exact E|congruence|rewrite L2, L1, app_assoc; exact LN|]. split; [auto|]. cbn. rewrite takes_app, filter_app, B1, app_nil_r. split; [reflexivity|]. intros q Q. rewrite B2, P2, P1; auto. }
        split; [congruence|]. cbn in *. split; [auto|]. intros q Q. rewrite P3. auto.
    + destruct (fatal _); [destruct H as [[=]|([=] & _)]|]. destruct (dfli _); [|destruct H as [[= <-]|([=] & _)]; apply (SAME s1); auto]. apply (SUB2 (TUnwind false) (with_exstat s1 (128 + p))); auto. discriminate.
  - rewrite TF in H. cbn [bind] in H.
    assert (forall q, special q = true -> goes_on (TUnwind ex) (match run body n (TTrap q) s with Fin s => Gone s | Unw s => Unw (with_cut s) | r => r end) s' -> trapf s' = false /\ quiet (TUnwind ex) s s' new) as X.
    { intros q Q G. exfalso. destruct (run body n (TTrap q) s); destruct G as [[=]|([=] & _)]. subst s'. discriminate NC. }
    destruct (ex || _); [apply (X SIGEXIT); auto|]. destruct (errexit s); [apply (X SIGERR); auto|]. destruct H as [[=]|([= <-] & _)]. split; [auto|apply quiet_same; auto].
Qed.

(** ** The EXIT and ERR traps
    [inner p None]: outside of the action of [p]; [inner p (Some a)]: while [a] is run *)
Definition inner (p : Z) (m : option text) (s : st) : Prop :=
  faithful p (log s) /\
  match m with
  | None => tr (ents s p) = in_force p (log s)
  | Some a => (chg (ents s p) = false -> tr (ents s p) = None /\ in_force p (log s) = Some a) /\ (chg (ents s p) = true -> tr (ents s p) = in_force p (log s))
  end.
Definition ends (t : task) (r : res) (s' : st) : Prop := r = Fin s' \/ r = Unw s' /\ match t with TLoop _ _ | TTrap _ => False | _ => True end.
Lemma ends_state t r s' : ends t r s' -> state r = Some s'.
Proof. intros [->|(-> & _)]; reflexivity. Qed.
Lemma bind_ends t r k s' : ends t (bind r k) s' -> (r = Unw s' /\ match t with TLoop _ _ | TTrap _ => False | _ => True end) \/ exists s1, r = Fin s1 /\ ends t (k s1) s'.
Proof. intros [H|(H & T)]; destruct r; cbn in H; try discriminate; [right; eexists; split; [reflexivity|left; auto]|right; eexists; split; [reflexivity|right; auto]|left; split; [congruence|auto]]. Qed.
Lemma inner_same p m s s' : tr (ents s' p) = tr (ents s p) -> chg (ents s' p) = chg (ents s p) -> log s' = log s -> inner p m s -> inner p m s'.
Proof. unfold inner. intros -> -> ->. auto. Qed.
Lemma inner_trapsig p m s q : inner p m s -> inner p m (trapsig s q).
Proof.
  unfold inner. destruct (trapsig_eq s q) as (-> & _ & _ & _ & _ & _ & _ & _ & ->). cbn [faithful in_force]. unfold upd. destruct (p =? q) eqn:K; auto. apply Z.eqb_eq in K. subst. auto.
Qed.
Lemma inner_deliver p m s q : inner p m s -> inner p m (deliver s q).
Proof. destruct (deliver_or s q) as [->|(_ & ->)]; auto using inner_trapsig. Qed.
Lemma inner_settrap p m s q t : inner p m s -> inner p m (settrap s q t).
Proof.
  unfold inner. destruct (keeps_settrap s q t) as (E & B). destruct B as (_ & _ & _ & _ & _ & ->). destruct (E p) as (_ & -> & _ & -> & _). cbn. unfold upd. rewrite (Z.eqb_sym q p). destruct (p =? q) eqn:K; auto.
  cbn. intros (A & _). split; [auto|]. destruct m; [|auto]. split; [discriminate|auto].
Qed.
Lemma inner_take p m s q : inner p m s -> inner p m (take s q).
Proof.
  unfold inner, take. cbn. unfold upd. intros (A & B). assert (q = p -> tr (ents s q) = None \/ tr (ents s q) = in_force p (log s)) as X.
  { intros ->. destruct m as [a|]; [|auto]. destruct (chg (ents s p)); [right; apply B; auto|left; apply B; auto]. }
  split; [auto|]. destruct (p =? q) eqn:K; [|exact B]. apply Z.eqb_eq in K. subst. exact B.
Qed.
Lemma run_inner body n p : special p = true -> forall t m s s', ends t (run body n t s) s' -> cut s' = false -> inner p m s -> inner p m s'.
Proof.
  intros SP. induction n as [|n IH]; [intros t m s s' [H|(H & _)]; discriminate|]. intros t m s s' H NC I.
  destruct t as [[|o l]|o|f|f [|q l]|q|ex]; cbn [run] in H.
  - destruct H as [[= <-]|([=] & _)]. auto.
  - destruct (bind_ends _ _ _ _ H) as [(E & _)|(s1 & E & G)].
    + apply (IH (TOp o) m s s'); auto. right. auto.
    + apply (IH (TList l) m s1 s'); auto. assert (cut s1 = false) as NC1 by (eapply run_cut; [apply (ends_state _ _ _ G)|auto]). apply (IH (TOp o) m s s1); auto. left. auto.
  - destruct o as [q t|q|v| | | | | |l|b].
    + destruct H as [[= <-]|([=] & _)]. now apply inner_settrap.
    + destruct H as [[= <-]|([=] & _)]. now apply inner_deliver.
    + destruct (v =? 0); [destruct H as [[= <-]|([=] & _)]; exact I|]. cbv zeta in H.
      assert (inner p m (trapsig (with_exstat s v) SIGERR)) as O1 by (apply inner_trapsig; exact I). set (s1 := trapsig _ _) in *. clearbody s1.
      destruct (errexit s1); [|destruct H as [[= <-]|([=] & _)]; exact O1]. apply (IH (TUnwind false) m s1 s'); auto.
    + destruct (trapf s) eqn:TF; [|destruct H as [[= <-]|([=] & _)]; auto]. apply (IH (TRun RAll) m s s'); auto.
    + destruct (intrf s) eqn:TF; [|destruct H as [[= <-]|([=] & _)]; auto]. apply (IH (TRun RIntr) m s s'); auto.
    + destruct H as [[=]|([= <-] & _)]. auto.
    + apply (IH (TUnwind false) m s s'); auto.
    + apply (IH (TUnwind true) m s s'); auto.
    + destruct (run body n (TList l) s) as [s1|s1|s1|] eqn:E; destruct H as [[=]|([=] & _)]; subst; (apply (IH (TList l) m s s'); auto).
      * left. auto.
      * right. auto.
    + destruct H as [[= <-]|([=] & _)]. exact I.
  - set (s1 := match f with RAll => _ | RIntr => _ | RFatal => _ end) in H. assert (inner p m s1) as O1 by (subst s1; destruct f; exact I).
    clearbody s1. destruct (run body n (TLoop f sigs) s1) eqn:E; destruct H as [[= <-]|([= <-] & _)]; [|discriminate NC]. apply (IH (TLoop f sigs) m s1); auto. left. auto.
  - destruct H as [[= <-]|([=] & _)]. auto.
  - destruct (_ && _).
    + destruct (bind_ends _ _ _ _ H) as [(E & [])|(s1 & E & G)]. assert (cut s1 = false) as NC1 by (eapply run_cut; [apply (ends_state _ _ _ G)|auto]).
      apply (IH (TLoop f l) m s1 s'); auto. apply (IH (TTrap q) m s s1); auto. left. auto.
    + apply (IH (TLoop f l) m s s'); auto.
  - pose proof (inner_take p m s q I) as O1. fold (take s q) in H. cbv zeta in H. destruct (tr (ents s q)) as [[|c a]|] eqn:TR.
    + destruct H as [[= <-]|([=] & _)]. auto.
    + fold (special q) in H. destruct (Z.eq_dec q p) as [->|NE].
      * rewrite SP in H. destruct (bind_ends _ _ _ _ H) as [(E & [])|(s3 & E & [[= G]|([=] & _)])].
        assert (in_force p (log s) = Some (c :: a)) as IF.
        { transitivity (tr (ents s p)); [|exact TR]. symmetry. destruct I as (_ & I). destruct m; [|exact I]. destruct (chg (ents s p)) eqn:CH; [apply I; auto|]. destruct I as (I & _). destruct (I eq_refl) as (X & _). change (tr (ents s p) = None) in X. exfalso. rewrite TR in X. discriminate X. }
        assert (inner p (Some (c :: a)) s3) as I3.
        { eapply IH; [left; exact E|subst s'; exact NC|].
          split; [apply O1|]. cbn. rewrite !upd_same. cbn. split; [auto|discriminate]. }
        subst s'. destruct I3 as (F3 & A3 & B3). split; [exact F3|]. cbn. rewrite upd_same.
        destruct (chg (ents s3 p)) eqn:CH; cbn; rewrite ?CH; cbn; [destruct m; [split; [discriminate|auto]|auto]|].
        destruct (A3 eq_refl) as (_ & IF3). destruct m as [b|]; [|auto]. destruct I as (_ & I1 & _). destruct (chg (ents s p)) eqn:CS; [split; [discriminate|auto]|]. destruct (I1 eq_refl). congruence.
      * assert (forall s e, inner p m s -> inner p m (with_ent s q e)) as WE by (intros s1 e; apply inner_same; cbn; rewrite ?upd_other by auto; auto).
        destruct (bind_ends _ _ _ _ H) as [(E & [])|(s3 & E & [[= G]|([=] & _)])].
        assert (cut s3 = false) as NC3 by (subst s'; destruct (special q); exact NC).
        assert (inner p m s3) as I3 by (eapply IH; [left; exact E|auto|]; destruct (special q); auto).
        subst s'. destruct (special q); [apply WE|]; exact I3.
    + destruct (fatal _); [destruct H as [[=]|([=] & _)]|]. destruct (dfli _); [|destruct H as [[= <-]|([=] & _)]; auto].
      destruct H as [H|(_ & [])]. eapply (IH (TUnwind false) m); [left; exact H|auto|exact O1].
  - assert (forall q, ends (TUnwind ex) (bind (if trapf s then run body n (TRun RAll) s else Fin s) (fun s => match run body n (TTrap q) s with Fin s => Gone s | Unw s => Unw (with_cut s) | r => r end)) s' -> inner p m s') as X.
    { clear H. intros q H. destruct (bind_ends _ _ _ _ H) as [(E & _)|(s1 & E & G)].
      - destruct (trapf s); [|discriminate]. apply (IH (TRun RAll) m s s'); auto. right. auto.
      - exfalso. destruct (run body n (TTrap q) s1); destruct G as [[=]|([=] & _)]. subst s'. discriminate NC. }
    destruct (ex || _); [apply (X SIGEXIT); auto|]. destruct (errexit s); [apply (X SIGERR); auto|]. destruct H as [[=]|([= <-] & _)]. auto.
Qed.
Lemma inner_init o talk p : inner p None (init o talk).
Proof.
  unfold init. cbv zeta. set (fl := fun p : Z => _). set (s0 := St fl _ _ _ _ _ _ _ _ _ _ _).
  assert (forall s q f r a b c, inner p None s -> inner p None (snd (setsig s q f r a b c))) as X.
  { intros s q f r a b c. destruct (keeps_setsig s q f r a b c) as (E & _ & _ & _ & _ & _ & F). destruct (E p) as (_ & E2 & _ & E3 & _). apply inner_same; auto. }
  do 5 apply X. unfold inner, s0. cbn. unfold fl. repeat match goal with |- context [if ?b then _ else _] => destruct b end; cbn; auto.
Qed.
