(** C62: the current directory. *)
From Verif Require Import Base Num_model SimplifyPath_model SimplifyPath_spec SimplifyPath_proof SimplifyPath_props Cd_model Cd_spec Cd_proof Cd_step Cd_inst.

Ltac wf W := repeat match goal with
  | |- context[w_tries] => fail 1
  | _ => first [apply (w_tries _ _ _ _ _ _ _ _ _ _ _ W)|apply (w_ref _ _ _ _ _ _ _ _ _ _ _ W)|apply (w_asked _ _ _ _ _ _ _ _ _ _ _ W)|apply (w_chdir _ _ _ _ _ _ _ _ _ _ _ W)]
  end.

Section C.
Variable k : kernel.

(** C62.  cd goes to the first directory, of those that its argument and CDPATH give, that chdir(2) accepts.  It prints where it
    went if that is not as it was asked.  Else it changes nothing. *)
Theorem c62_first_directory n ph args s rc out s' : strings s -> Forall (fun a => nul_free a = true) args ->
  c_cd k n false ph args s = Ok (rc, out, s') ->
  (rc = 1 /\ out = None /\ s' = s /\ forall file, dest s args file -> Forall (fun p => goes k ph s p None) (tries file (val (cdpath s)))) \/
  (rc = 0 /\ exists file l1 p l2, dest s args file /\ tries file (val (cdpath s)) = l1 ++ p :: l2 /\
     Forall (fun p => goes k ph s p None) l1 /\ goes k ph s p (Some (dir s')) /\
     (out = None <-> args <> [L "-"] /\ length args < 2 /\ p = file)).
Proof.
  intros HS HA H. destruct (cd_ok k n ph args s rc out s' HS HA H) as [G|(A & file & l1 & x & l2 & q & D & N & W)]; [left; exact G|].
  right. split; [exact A|]. exists file, l1, x, l2. split; [exact D|]. split; [wf W|]. split; [wf W|].
  split; [exists q; split; wf W|].
  rewrite (w_out _ _ _ _ _ _ _ _ _ _ _ W).
  assert (SH : shown args = false <-> args <> [L "-"] /\ length args < 2).
  { destruct D as [d H1|a H1|d H1|a b x' y H1 H2 H3]; cbn [shown length]; split; auto.
    - intros _. split; [discriminate|lia].
    - intros _. split; [congruence|lia].
    - intros _. destruct (str_eqb_spec a (L "-")); [congruence|reflexivity].
    - change (str_eqb (L "-") (L "-")) with true. discriminate.
    - intros [E _]. congruence.
    - discriminate.
    - intros [_ E]. lia. }
  destruct (shown args) eqn:ES; cbn [orb].
  - split; [discriminate|]. intros (B1 & B2 & B3). pose proof (proj2 SH (conj B1 B2)); discriminate.
  - destruct (proj1 SH eq_refl) as [B1 B2]. destruct (str_eqb_spec x file); cbn [negb]; split; auto; [discriminate|]. intros (_ & _ & E). congruence.
Qed.

(** A restricted shell stays where it is. *)
Lemma cd_restricted n ph args s : c_cd k n true ph args s = Ok (1, None, s).
Proof. reflexivity. Qed.

Variable f : fs.
Hypothesis HK : honest_kernel f k.
Hypothesis HT : tree f.

Lemma step_knows ph pp file s out s' l1 x l2 q : knows f s -> strings s -> nul_free x = true -> went k ph pp file s out s' l1 x l2 q ->
  let t := path_of ph (wd s) x q in
  nul_free t = true /\ (absolute t = true -> names_dir f t (dir s') /\ names_dir f (wd s') (dir s') /\ nul_free (wd s') = true) /\ (wd s <> [] -> absolute t = true).
Proof.
  intros HN HS NX W t. destruct HS as (N1 & _). pose proof (hk_chdir f k HK _ _ _ (w_chdir _ _ _ _ _ _ _ _ _ _ _ W)) as C.
  pose proof (w_asked _ _ _ _ _ _ _ _ _ _ _ W) as AS. pose proof (w_wd _ _ _ _ _ _ _ _ _ _ _ W) as WD. cbv zeta in WD. fold t in WD.
  assert (AF : wd s <> [] -> absolute (full (wd s) x) = true).
  { intros NE. unfold full. destruct (absolute x) eqn:EX; [exact EX|]. rewrite inside_absolute by exact NE. destruct HN as [E|[E _]]; [congruence|exact E]. }
  assert (G : nul_free t = true /\ (absolute t = true -> names_dir f t (dir s')) /\ (wd s <> [] -> absolute t = true)).
  { unfold t, path_of, asked in *. destruct ph.
    - subst q. split; [apply nul_free_full; auto|]. split; [|exact AF]. intros EA. unfold full in *. destruct (absolute x) eqn:EX.
      + destruct C as [_ C]. unfold start in C. rewrite EX in C. split; auto.
      + rewrite inside_eq in *. destruct (wd s) as [|c w] eqn:EW; cbn [empty] in *; [congruence|]. rewrite <- EW in *.
        apply (names_join f (wd s) x (dir s)); auto; [congruence|]. destruct HN as [E|E]; [congruence|exact E].
    - destruct (simplify_total (full (wd s) x)) as (q' & Q1 & Q2); [apply nul_free_full; auto|]. rewrite Q1 in AS. injection AS as ->.
      split; [exact Q2|]. split; [|intros NE; rewrite (simplify_absolute _ _ (nul_free_full _ _ N1 NX) Q1); auto].
      intros EA. destruct C as [_ C]. unfold start in C. rewrite EA in C. split; auto. }
  destruct G as (G1 & G2 & G3). split; [exact G1|]. split; [|exact G3]. intros EA. specialize (G2 EA). split; [exact G2|].
  rewrite EA in WD. destruct ph; [|rewrite WD; auto]. destruct WD as (n & [E|[_ ->]]); [|auto].
  destruct (get_phys_ok f k HK HT n t (dir s') (wd s') G2 G1 E) as [P1 P2]. split; [apply physical_names; exact P1|exact P2].
Qed.

(** C62.  Wherever cd commands lead, the shell knows where it is, or knows that it does not know. *)
Lemma cd_knows n ph args s rc out s' : strings s -> knows f s -> Forall (fun a => nul_free a = true) args ->
  c_cd k n false ph args s = Ok (rc, out, s') -> strings s' /\ knows f s'.
Proof.
  intros HS HN HA H. destruct (cd_ok k n ph args s rc out s' HS HA H) as [(_ & _ & -> & _)|(A & file & l1 & x & l2 & q & D & N & W)]; [auto|].
  pose proof (step_knows _ _ _ _ _ _ _ _ _ _ HN HS N W) as (G1 & G2 & G3). cbv zeta in *.
  pose proof (w_wd _ _ _ _ _ _ _ _ _ _ _ W) as WD. cbv zeta in WD. destruct HS as (N1 & N2 & N3 & N4 & N5).
  destruct (w_ro _ _ _ _ _ _ _ _ _ _ _ W) as (_ & _ & E1 & E2).
  destruct (absolute (path_of ph (wd s) x q)) eqn:EA.
  - destruct (G2 eq_refl) as (_ & G4 & G5). split; [|right; exact G4]. unfold strings. rewrite E1, E2. repeat split; auto.
    + rewrite (w_pwd _ _ _ _ _ _ _ _ _ _ _ W). destruct (_ || _); [auto|]. intros t [= <-]. exact G5.
    + rewrite (w_old _ _ _ _ _ _ _ _ _ _ _ W). destruct (_ || _); [auto|]. intros t [= <-]. exact N1.
  - split; [|left; exact WD]. unfold strings. rewrite E1, E2, WD. repeat split; auto.
    + rewrite (w_pwd _ _ _ _ _ _ _ _ _ _ _ W), EA, orb_true_r. auto.
    + rewrite (w_old _ _ _ _ _ _ _ _ _ _ _ W). destruct (_ || _); [auto|]. intros t [= <-]. exact N1.
Qed.
Theorem c62_knows_where n l : forall s s', strings s -> knows f s -> Forall (fun x => Forall (fun a => nul_free a = true) (snd x)) l ->
  cds k n l s = Ok s' -> strings s' /\ knows f s'.
Proof.
  induction l as [|[ph args] l IH]; intros s s' HS HN HA H; [injection H as <-; auto|]. cbn [cds] in H. inversion HA as [|? ? A1 A2]; subst.
  destruct (c_cd k n false ph args s) as [[[rc out] s1]| |] eqn:E; [|discriminate|discriminate].
  destruct (cd_knows n ph args s rc out s1 HS HN A1 E). eapply IH; eauto.
Qed.

(** C62.  If the shell knew where it was: PWD names the directory where it is, OLDPWD is PWD as it was. *)
Theorem c62_pwd_names n ph args s out s' : strings s -> knows f s -> wd s <> [] -> Forall (fun a => nul_free a = true) args ->
  c_cd k n false ph args s = Ok (0, out, s') ->
  names_dir f (wd s') (dir s') /\ (pwd_ro s = false -> pwd s' = Some (wd s')) /\ (oldpwd_ro s = false -> oldpwd s' = Some (wd s)) /\
  (forall p, out = Some p -> p = wd s').
Proof.
  intros HS HN NE HA H. destruct (cd_ok k n ph args s 0 out s' HS HA H) as [(E & _)|(A & file & l1 & x & l2 & q & D & N & W)]; [discriminate|].
  pose proof (step_knows _ _ _ _ _ _ _ _ _ _ HN HS N W) as (G1 & G2 & G3). cbv zeta in *. specialize (G3 NE). destruct (G2 G3) as (_ & G4 & _).
  split; [exact G4|]. split; [|split].
  - intros E. rewrite (w_pwd _ _ _ _ _ _ _ _ _ _ _ W), E, G3. reflexivity.
  - intros E. rewrite (w_old _ _ _ _ _ _ _ _ _ _ _ W), E. destruct (str_eqb_spec (wd s) []); [congruence|reflexivity].
  - intros p E. rewrite (w_out _ _ _ _ _ _ _ _ _ _ _ W), G3 in E. destruct (_ || _); [|discriminate]. congruence.
Qed.

Lemma locate_inside cwd x : cwd <> [] -> absolute cwd = true -> absolute x = false -> locate [] (inside cwd x) = locate (locate [] cwd) x.
Proof.
  intros NE A B. unfold locate. rewrite inside_absolute, A, B by exact NE. rewrite inside_eq. destruct cwd as [|c cwd]; [congruence|]. cbn [empty].
  destruct (with_slash_cases (c :: cwd) NE) as [(q & E & ->)| ->].
  - rewrite E. rewrite <- app_assoc. cbn [app L list_ascii_of_string]. change (L "/" ++ x) with ("/"%char :: x). change (L "/") with ("/"%char :: []). rewrite !comps_join. rewrite !fold_left_app. cbn [components fold_left]. reflexivity.
  - rewrite <- app_assoc. change (L "/" ++ x) with ("/"%char :: x). rewrite comps_join, fold_left_app. reflexivity.
Qed.

(** C62.  Without -P: the new path is the old one with the argument's components applied to it. *)
Theorem c62_logical n args s out s' : strings s -> knows f s -> wd s <> [] -> Forall (fun a => nul_free a = true) args ->
  c_cd k n false false args s = Ok (0, out, s') ->
  normal_path (wd s') /\ exists file p, dest s args file /\ In p (tries file (val (cdpath s))) /\ locate [] (wd s') = locate (locate [] (wd s)) p.
Proof.
  intros HS HN NE HA H. destruct (cd_ok k n false args s 0 out s' HS HA H) as [(E & _)|(A & file & l1 & x & l2 & q & D & N & W)]; [discriminate|].
  pose proof (step_knows _ _ _ _ _ _ _ _ _ _ HN HS N W) as (G1 & G2 & G3). cbv zeta in *. specialize (G3 NE).
  pose proof (w_wd _ _ _ _ _ _ _ _ _ _ _ W) as WD. cbv zeta in WD. rewrite G3 in WD. unfold path_of in *. pose proof (w_asked _ _ _ _ _ _ _ _ _ _ _ W) as AS. unfold asked in AS.
  assert (NF : full (wd s) x <> []). { intros E. rewrite E in AS. injection AS as <-. discriminate. }
  destruct (c03_simplify_path (full (wd s) x) NF) as (q' & Q1 & Q2 & _ & _ & _ & Q3); [apply nul_free_full; [exact (proj1 HS)|exact N]|].
  rewrite Q1 in AS. injection AS as ->. subst q. split; [exact Q2|]. exists file, x. split; [exact D|]. split; [rewrite (w_tries _ _ _ _ _ _ _ _ _ _ _ W); apply in_or_app; right; left; reflexivity|].
  rewrite Q3. unfold full. destruct (absolute x) eqn:EX; [unfold locate at 1 2; rewrite EX; reflexivity|].
  apply locate_inside; auto. destruct HN as [E|[E _]]; [congruence|exact E].
Qed.

(** C62.  With -P: the new path has no symbolic link, no . and no .. in it, if readlink(2) does not fail for what exists. *)
Theorem c62_physical n args s out s' : strings s -> knows f s -> wd s <> [] -> Forall (fun a => nul_free a = true) args ->
  reads_links f k ->
  c_cd k n false true args s = Ok (0, out, s') -> is_physical f (wd s') (dir s').
Proof.
  intros HS HN NE HA HR H. destruct (cd_ok k n true args s 0 out s' HS HA H) as [(E & _)|(A & file & l1 & x & l2 & q & D & N & W)]; [discriminate|].
  pose proof (step_knows _ _ _ _ _ _ _ _ _ _ HN HS N W) as (G1 & G2 & G3). cbv zeta in *. specialize (G3 NE).
  pose proof (w_wd _ _ _ _ _ _ _ _ _ _ _ W) as WD. cbv zeta in WD. rewrite G3 in WD. destruct WD as (n' & [E|[E _]]); destruct (G2 G3) as (G4 & _); [|destruct (get_phys_null f k HK HT _ _ _ HR G4 G1 E)].
  apply (get_phys_ok f k HK HT n' _ _ _ G4 G1 E).
Qed.

(** C62.  cd ends, although links may be followed without any limit. *)
Theorem c62_ends r ph args s : strings s -> knows f s -> Forall (fun a => nul_free a = true) args ->
  exists n0 v, forall n, n0 <= n -> c_cd k n r ph args s = Ok v.
Proof.
  intros HS HN HA. destruct r; [exists 0, (1, None, s); intros; reflexivity|].
  destruct (cd_dest k 0 ph args s HS HA) as [(file & D & NF & _)|(D & E)].
  2:{ exists 0, (1, None, s). intros n _. destruct (cd_dest k n ph args s HS HA) as [(file & D' & _)|(_ & E')]; [destruct (D file D')|exact E']. }
  assert (EQ : forall n, c_cd k n false ph args s = go_to k n ph (shown args) file s).
  { intros n. destruct (cd_dest k n ph args s HS HA) as [(file' & D' & _ & E')|(D' & _)]; [rewrite (dest_fun s args file file' D D'); exact E'|destruct (D' file D)]. }
  destruct HS as (N1 & N2 & N3 & N4 & N5).
  assert (NV : nul_free (val (cdpath s)) = true). { unfold nf in N5. destruct (cdpath s) as [v|]; [apply N5; reflexivity|reflexivity]. }
  destruct (try_ok k ph (dir s) (wd s) file N1 NF (S (S (length (val (cdpath s))))) (val (cdpath s))) as (r & R1 & R2); [lia|exact NV|].
  setoid_rewrite EQ. unfold go_to. setoid_rewrite R1. cbn [bind]. destruct r as [[[i t] node]|]; [|exists 0; eexists; intros; reflexivity].
  destruct (first_is "/" t) eqn:EF; [|exists 0; eexists; intros; reflexivity]. destruct ph; [|exists 0; eexists; intros; reflexivity].
  rewrite first_absolute in EF. destruct R2 as (l1 & x & l2 & q & A & B & C & DD & E & _). unfold asked in C. subst q.
  assert (NX : nul_free x = true). { pose proof (nul_free_tries file _ NF NV) as G. rewrite A in G. apply Forall_app in G. destruct G as [_ G]. inversion G; auto. }
  assert (NT : names_dir f t i).
  { pose proof (hk_chdir f k HK _ _ _ DD) as C. subst t. unfold full in *. destruct (absolute x) eqn:EX.
    - destruct C as [_ C]. unfold start in C. rewrite EX in C. split; auto.
    - rewrite inside_eq in *. destruct (wd s) as [|c w] eqn:EW; cbn [empty] in *; [congruence|]. rewrite <- EW in *.
      apply (names_join f (wd s) x (dir s)); auto; [congruence|]. destruct HN as [E|E]; [congruence|exact E]. }
  destruct (get_phys_end f k HK HT t i NT) as (n0 & H); [subst t; apply nul_free_full; auto|].
  exists n0. destruct (H n0 (le_n n0)) as (_ & HP). destruct (get_phys_path k n0 t) as [p| |] eqn:EP; [| |congruence]; eexists; intros n Hn; destruct (H n Hn) as [-> _]; reflexivity.
Qed.

(** C62.  cd - goes back. *)
Theorem c62_back n ph args s out s' : strings s -> knows f s -> wd s <> [] -> normal_path (wd s) -> oldpwd_ro s = false ->
  Forall (fun a => nul_free a = true) args -> c_cd k n false ph args s = Ok (0, out, s') ->
  k_chdir k (dir s') (wd s) = Some (dir s) ->
  forall n', exists s'', c_cd k n' false false [L "-"] s' = Ok (0, Some (wd s), s'') /\ dir s'' = dir s /\ wd s'' = wd s.
Proof.
  intros HS HN NE NP RO HA H KC n'. destruct (c62_pwd_names n ph args s out s' HS HN NE HA H) as (_ & _ & EO & _). specialize (EO RO).
  cbn [c_cd]. change (str_eqb (L "-") (L "-")) with true. cbv iota. rewrite EO. unfold go_to.
  assert (AB : absolute (wd s) = true) by (destruct HN as [E|[E _]]; [congruence|exact E]).
  cbn [try_dirs]. unfold make_path. rewrite first_absolute, AB. rewrite (c03_normal_unchanged (wd s) (proj1 HS) NP). cbn [bind]. rewrite KC. cbn [bind].
  rewrite first_absolute, AB. cbn [bind orb]. eexists. split; [reflexivity|]. auto.
Qed.

(** C62.  What pwd prints names the directory where the shell is, and has no links in it with -P. *)
Theorem c62_pwd n ph s p : strings s -> knows f s -> c_pwd k n ph s = Ok (Some p) ->
  names_dir f p (dir s) /\ (ph = true -> is_physical f p (dir s)).
Proof.
  intros HS HN H. unfold c_pwd in H.
  assert (GC : forall p, k_getcwd k (dir s) = Some p -> names_dir f p (dir s) /\ (ph = true -> is_physical f p (dir s))).
  { intros p0 E. destruct (hk_getcwd f k HK _ _ E) as [G _]. split; [apply physical_names; exact G|auto]. }
  destruct (wd s) as [|c w] eqn:EW; cbn [empty] in H; [cbn in H; injection H as H; auto|]. rewrite <- EW in *.
  assert (ND : names_dir f (wd s) (dir s)) by (destruct HN as [E|E]; [congruence|exact E]).
  destruct ph.
  - destruct (get_phys_path k n (wd s)) as [q| |] eqn:EG; [| |discriminate]; cbn [bind] in H; [|injection H as H; auto].
    destruct (k_access k q); injection H as H; [|auto]. subst q. destruct (get_phys_ok f k HK HT n _ _ _ ND (proj1 HS) EG) as [P _].
    split; [apply physical_names; exact P|auto].
  - cbn [bind] in H. destruct (k_access k (wd s)); injection H as H; [|auto]. subst p. split; [exact ND|discriminate].
Qed.

(** C62.  The shell knows where it is started, if PWD is normal. *)
Theorem c62_startup d v old h c s : (forall p, v = Some p -> nul_free p = true) -> (forall p, v = Some p -> absolute p = true -> normal_path p) ->
  startup k d v old h c = Ok s -> knows f s /\ dir s = d /\ nul_free (wd s) = true /\ (wd s = [] \/ pwd s = Some (wd s)).
Proof.
  intros NV NO H. unfold startup in H.
  set (same := match k_stat k d (val v), k_stat k d (L ".") with Some i, Some j => (i =? j)%N | _, _ => false end) in H.
  destruct (first_is "/" (val v) && same) eqn:E.
  - apply andb_prop in E. destruct E as [E1 E2]. rewrite first_absolute in E1. destruct v as [p|]; [|discriminate]. cbn [val] in *.
    rewrite (c03_normal_unchanged p (NV p eq_refl) (NO p eq_refl E1)) in H. cbn [bind] in H. injection H as <-. unfold knows. cbn [wd dir pwd].
    split; [|split; [reflexivity|split; [auto|right; destruct (empty p); reflexivity]]]. right. split; [exact E1|]. unfold same in E2.
    destruct (k_stat k d p) as [i|] eqn:S1; [|discriminate]. destruct (k_stat k d (L ".")) as [j|] eqn:S2; [|discriminate]. apply N.eqb_eq in E2. subst j.
    apply (hk_stat f k HK) in S1, S2. destruct S1 as [_ S1], S2 as [_ S2]. unfold start in *. rewrite E1 in S1. cbn in S2. 
    rewrite (reach_fun f d [L "."] d (r_stay f d (L ".") [] d (or_intror eq_refl) (r_end f d)) i S2). exact S1.
  - destruct (k_getcwd k d) as [p|] eqn:EG; cbn [val] in H.
    + destruct (hk_getcwd f k HK _ _ EG) as [(l & E1 & E2) NP].
      rewrite (c03_normal_unchanged p NP) in H by (rewrite E1; constructor; apply (real_plain f l d E2)). cbn [bind] in H. injection H as <-. unfold knows. cbn [wd dir pwd].
      split; [right; apply physical_names; exists l; auto|]. split; [reflexivity|]. split; [exact NP|]. right. destruct p; [discriminate|reflexivity].
    + rewrite c03_empty_path in H. cbn [bind] in H. injection H as <-. unfold knows. cbn. auto.
Qed.
End C.
Print Assumptions c62_first_directory.
Print Assumptions c62_knows_where.
Print Assumptions c62_pwd_names.
Print Assumptions c62_logical.
Print Assumptions c62_physical.
Print Assumptions c62_ends.
Print Assumptions c62_back.
Print Assumptions c62_pwd.
Print Assumptions c62_startup.

(** ** Examples *)
(** /a, /b, /a/c; the link /b/l to /a/c, and the link /s to b/l; a file /b/file *)
Definition ex_entry (d : N) (x : cstr) : option node :=
  match d with
  | 0%N => if str_eqb x (L "a") then Some (NDir 1) else if str_eqb x (L "b") then Some (NDir 2) else if str_eqb x (L "s") then Some (NLink (L "b/l")) else None
  | 1%N => if str_eqb x (L "c") then Some (NDir 3) else None
  | 2%N => if str_eqb x (L "l") then Some (NLink (L "/a/c")) else if str_eqb x (L "file") then Some NFile else None
  | _ => None
  end.
Definition ex_fs : fs := Fs 0 ex_entry (fun d => match d with 3%N => 1%N | _ => 0%N end).
Lemma ex_tree : tree ex_fs.
Proof.
  split; [reflexivity|]. intros d x i _ H. cbn in *. unfold ex_entry in H. destruct d as [|[p|p|]]; [| |destruct p; [..|]|]; try discriminate;
  repeat match type of H with (if ?b then _ else _) = _ => destruct b end; try discriminate; injection H as <-; reflexivity.
Qed.
Definition ex_cwd (d : N) : option cstr := match d with 3%N => Some (L "/a/c") | 1%N => Some (L "/a") | _ => None end.
Definition ex_kernel : kernel := kernel_of ex_fs ex_cwd.
Lemma ex_honest : honest_kernel ex_fs ex_kernel.
Proof.
  apply kernel_honest. intros d p H.
  assert (P : forall c, plain (L (String c EmptyString)) \/ c = "."%char \/ c = "/"%char).
  { intros c. destruct (Ascii.eqb_spec c "."); [auto|]. destruct (Ascii.eqb_spec c "/"); [auto|]. left. repeat split; try discriminate; [intros E; injection E as E; congruence|].
    intros [E|[]]. congruence. }
  assert (P1 : plain (L "a")) by (destruct (P "a"%char) as [G|[G|G]]; [exact G|discriminate|discriminate]).
  assert (P2 : plain (L "c")) by (destruct (P "c"%char) as [G|[G|G]]; [exact G|discriminate|discriminate]).
  assert (R1 : real ex_fs [L "a"] 1) by (apply (real_down ex_fs [] 0%N (L "a") 1%N); [apply real_root|exact P1|reflexivity]).
  assert (R2 : real ex_fs [L "a"; L "c"] 3) by (apply (real_down ex_fs [L "a"] 1%N (L "c") 3%N); [exact R1|exact P2|reflexivity]).
  unfold ex_cwd in H. destruct d as [|[p'|p'|]]; [discriminate| |discriminate|].
  - destruct p'; try discriminate. injection H as <-. split; [|reflexivity]. exists [L "a"; L "c"]. auto.
  - injection H as <-. split; [|reflexivity]. exists [L "a"]. auto.
Qed.
Definition ex_start : sh := Sh 2 (L "/b") (Some (L "/b")) false None false (Some (L "/a")) (Some (L ":/a:/b")).

(** cd l: through the link; then .. is lexical, and goes back to /b; with -P it is the parent *)
Example ex_cd_link : c_cd ex_kernel 9 false false [L "l"] ex_start
  = Ok (0, None, Sh 3 (L "/b/l") (Some (L "/b/l")) false (Some (L "/b")) false (Some (L "/a")) (Some (L ":/a:/b"))).
Proof. vm_compute. reflexivity. Qed.
Example ex_cd_up : cds ex_kernel 9 [(false, [L "l"]); (false, [L ".."])] ex_start
  = Ok (Sh 2 (L "/b") (Some (L "/b")) false (Some (L "/b/l")) false (Some (L "/a")) (Some (L ":/a:/b"))).
Proof. vm_compute. reflexivity. Qed.
Example ex_cd_up_physical : cds ex_kernel 9 [(false, [L "l"]); (true, [L ".."])] ex_start
  = Ok (Sh 1 (L "/a") (Some (L "/a")) false (Some (L "/b/l")) false (Some (L "/a")) (Some (L ":/a:/b"))).
Proof. vm_compute. reflexivity. Qed.
(** Two links *)
Example ex_cd_physical : c_cd ex_kernel 9 false true [L "/s/."] ex_start
  = Ok (0, None, Sh 3 (L "/a/c") (Some (L "/a/c")) false (Some (L "/b")) false (Some (L "/a")) (Some (L ":/a:/b"))).
Proof. vm_compute. reflexivity. Qed.
(** CDPATH *)
Example ex_cdpath : c_cd ex_kernel 9 false false [L "c"] ex_start
  = Ok (0, Some (L "/a/c"), Sh 3 (L "/a/c") (Some (L "/a/c")) false (Some (L "/b")) false (Some (L "/a")) (Some (L ":/a:/b"))).
Proof. vm_compute. reflexivity. Qed.
Example ex_cdpath_tries : tries (L "c") (L ":/a:/b") = [L "c"; L "/a/c"; L "/b/c"].
Proof. vm_compute. reflexivity. Qed.
Example ex_cdpath_dot : c_cd ex_kernel 9 false false [L "./c"] ex_start = Ok (1, None, ex_start).
Proof. vm_compute. reflexivity. Qed.
Example ex_subst : c_cd ex_kernel 9 false false [L "b"; L "a/c"] ex_start
  = Ok (0, Some (L "/a/c"), Sh 3 (L "/a/c") (Some (L "/a/c")) false (Some (L "/b")) false (Some (L "/a")) (Some (L ":/a:/b"))).
Proof. vm_compute. reflexivity. Qed.
Example ex_back : cds ex_kernel 9 [(false, []); (false, [L "-"])] ex_start
  = Ok (Sh 2 (L "/b") (Some (L "/b")) false (Some (L "/a")) false (Some (L "/a")) (Some (L ":/a:/b"))).
Proof. vm_compute. reflexivity. Qed.
Example ex_strings : strings ex_start /\ knows ex_fs ex_start.
Proof.
  split; [repeat split; intros t [= <-] || discriminate; reflexivity|]. right. split; [reflexivity|].
  apply (hk_chdir _ _ ex_honest 0%N (L "/b") 2%N). vm_compute. reflexivity.
Qed.
Example ex_reads_links : reads_links ex_fs ex_kernel.
Proof.
  intros l d x e R P E. cbn [ex_kernel kernel_of k_readlink]. rewrite (readlink_eq ex_fs l d x R P). rewrite E.
  destruct e as [i|t|]; try discriminate. cbn in E. unfold ex_entry in E. destruct d as [|[p|p|]]; [| |destruct p; [..|]|]; try discriminate;
  repeat match type of E with (if ?b then _ else _) = _ => destruct b end; try discriminate; injection E as <-; discriminate.
Qed.
Example ex_pwd : c_pwd ex_kernel 9 true (Sh 3 (L "/s") None false None false None None) = Ok (Some (L "/a/c")).
Proof. vm_compute. reflexivity. Qed.
Example ex_startup : startup ex_kernel 3 (Some (L "/b/l")) None None None = Ok (Sh 3 (L "/b/l") (Some (L "/b/l")) false None false None None).
Proof. vm_compute. reflexivity. Qed.

(** ** What does not hold *)
(** A directory that does not exist is passed through, since .. is taken away first. *)
Example ex_nowhere : c_cd ex_kernel 9 false false [L "none/.."] ex_start = Ok (0, None, Sh 2 (L "/b") (Some (L "/b")) false (Some (L "/b")) false (Some (L "/a")) (Some (L ":/a:/b"))).
Proof. vm_compute. reflexivity. Qed.
(** Without an empty entry in CDPATH the current directory is not tried. *)
Example ex_not_here : c_cd ex_kernel 9 false false [L "l"] (Sh 2 (L "/b") None false None false None (Some (L "/a"))) = Ok (1, None, Sh 2 (L "/b") None false None false None (Some (L "/a"))).
Proof. vm_compute. reflexivity. Qed.

(** C62.  A PWD that is not normal is checked as it is, but then simplified: the shell believes to be elsewhere. *)
Theorem c62_startup_refuted : exists f k d v s, honest_kernel f k /\ tree f /\ nul_free v = true /\ startup k d (Some v) None None None = Ok s /\ ~ knows f s.
Proof.
  exists ex_fs, ex_kernel, 1%N, (L "/b/l/.."). eexists. split; [exact ex_honest|]. split; [exact ex_tree|]. split; [reflexivity|]. split; [vm_compute; reflexivity|].
  intros [H|[_ H]]; [discriminate|]. cbn in H. assert (G : reach ex_fs 0 [[]; L "b"] 2) by (apply (resolve_reach ex_fs 0); [apply (components_noslash (L "/b"))|reflexivity]).
  pose proof (reach_fun ex_fs _ _ _ G _ H). discriminate.
Qed.
Print Assumptions c62_startup_refuted.

(** C62.  When the shell does not know where it is, PWD is not changed, and names another directory. *)
Theorem c62_stale_pwd_refuted : exists f k n s args s', honest_kernel f k /\ tree f /\ knows f s /\ strings s /\ pwd_ro s = false /\
  c_cd k n false false args s = Ok (0, None, s') /\ exists p, pwd s' = Some p /\ ~ names_dir f p (dir s').
Proof.
  exists ex_fs, ex_kernel, 9, (Sh 2 [] (Some (L "/b")) false None false None None), [L "l"]. eexists. split; [exact ex_honest|]. split; [exact ex_tree|].
  split; [left; reflexivity|]. split; [repeat split; intros t [= <-] || discriminate; reflexivity|]. split; [reflexivity|]. split; [vm_compute; reflexivity|]. exists (L "/b"). split; [reflexivity|].
  intros [_ H]. cbn in H. assert (G : reach ex_fs 0 [[]; L "b"] 2) by (apply (resolve_reach ex_fs 0); [apply (components_noslash (L "/b"))|reflexivity]).
  pose proof (reach_fun ex_fs _ _ _ G _ H). discriminate.
Qed.
Print Assumptions c62_stale_pwd_refuted.
