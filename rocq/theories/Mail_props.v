(** Properties C67 (MAILPATH) and C68 (announcing mail). *)
From Verif Require Import Base Num_model SimplifyPath_model Mail_model Mail_spec Mail_proof.
Local Open Scope nat_scope.

(** ** C67: what MAILPATH says *)
(** Every value of MAILPATH is read as its entries; they are checked from the
    last to the first, and what is in the files when it is assigned counts as seen. *)
Theorem c67_entries : forall posix fs segs m m', segs <> [] -> Forall no_colon segs ->
  mpset posix fs (Some (colons segs)) m = Ok (Some m') ->
  exists es, Forall2 (is_entry posix) segs es /\
    map (fun b => (mb_path b, mb_msg b)) (mplist m') = rev (boxes es) /\
    Forall (fun b => mb_mtime b = changed (world_of fs) (mb_path b)) (mplist m').
Proof.
  intros posix fs segs m m' N F R. unfold mpset in R. destruct (munset (mplist m) (live m)) as [lv| |]; [|discriminate..]. cbn [bind] in R.
  destruct (mp_loop_spec posix fs (next m) segs (S (length (colons segs))) 0 [] N F) as (es & bs & F2 & R2 & MB & FR & _); [lia|].
  rewrite R2, app_nil_r in R. injection R as <-. exists es. cbn. split; [auto|split].
  - rewrite map_rev. f_equal. exact MB.
  - apply Forall_rev. eapply Forall_impl; [|exact FR]. intros b [_ ->]. apply stamp_changed.
Qed.
Print Assumptions c67_entries.
Theorem c67_unambiguous : forall posix s p m p' m', entry posix s p m -> entry posix s p' m' -> p = p' /\ m = m'.
Proof. exact entry_det. Qed.
Print Assumptions c67_unambiguous.
(** Every value is a list of entries, and every entry has a reading. *)
Theorem c67_readable : forall posix s, exists segs es, segs <> [] /\ Forall no_colon segs /\ s = colons segs /\ Forall2 (is_entry posix) segs es.
Proof.
  intros posix s. destruct (colons_all s) as (segs & N & F & E). exists segs.
  destruct (mp_loop_spec posix (fun _ => None) 0 segs (S (length (colons segs))) 0 [] N F) as (es & _ & F2 & _); [lia|]. eauto.
Qed.
Print Assumptions c67_readable.
(** Any file name that does not end in a backslash can be written with any message. *)
Theorem c67_written : forall posix p m, ~ after_backslash p -> entry posix (written p ++ "%"%char :: m) p m.
Proof.
  intros posix p m H. rewrite <- (plain_written p) at 2. apply E_percent; auto; [apply nosep_written|].
  intros X. now apply ends_written in X.
Qed.
Print Assumptions c67_written.
Theorem c67_written_alone : forall posix p, (posix = true \/ ~ In "?"%char p) -> entry posix (written p) p [].
Proof. intros posix p H. rewrite <- (plain_written p) at 2. apply E_file; [apply nosep_written|now rewrite plain_written]. Qed.
Print Assumptions c67_written_alone.
(** A backslash before the separator quotes it: such a file cannot have a message after %. *)
Theorem c67_written_refuted : ~ entry true (written (L "a\") ++ "%"%char :: L "new") (L "a\") (L "new").
Proof.
  intros H. destruct (entry_of_spec true (L "a\%new")) as (p & m & E & R).
  destruct (entry_det _ _ _ _ _ _ H E) as [<- <-]. revert R. vm_compute. discriminate.
Qed.
Print Assumptions c67_written_refuted.

Definition quiet (n : note) : bool := false.
Definition nofs : fsys := fun _ => None.
Example c67_ex : exists m, mpset false nofs (Some (L "/m/a:/m/b\%c%50% more\%::/m/c?hi")) mail0 = Ok (Some m) /\
  map (fun b => (mb_path b, mb_msg b)) (mplist m) =
    [(L "/m/c", Some (L "hi")); (L "/m/b%c", Some (L "50% more\%")); (L "/m/a", None)].
Proof. eexists. vm_compute. auto. Qed.
Example c67_ex_split : colons [L "/m/a"; L "/m/b\%c%50% more\%"; []; L "/m/c?hi"] = L "/m/a:/m/b\%c%50% more\%::/m/c?hi".
Proof. reflexivity. Qed.
Example c67_ex_written : written (L "/m/b%c") ++ "%"%char :: L "50% more\%" = L "/m/b\%c%50% more\%".
Proof. reflexivity. Qed.

(** Assigning, unsetting and checking in any order frees only what was allocated,
    and once, if in no value an entry without a file comes before one with a file. *)
Theorem c67_freed_partial : forall sets ops, (forall n, sets n = false) ->
  (forall o px s, In o ops -> op_value o = Some (px, s) -> frees_well px s) ->
  exists outs m, mrun sets ops mail0 = Ok (Some (outs, m)).
Proof.
  intros sets ops H W. destruct (mrun_ok sets ops mail0 H) as (outs & m & R & _); eauto.
  split; [intros i []|split; [constructor|now left]].
Qed.
Print Assumptions c67_freed_partial.
(** At most one value of MAILPATH is kept, if the first entry of each names a file. *)
Theorem c67_kept : forall sets ops outs m, (forall n, sets n = false) ->
  (forall o px s, In o ops -> op_value o = Some (px, s) -> names_first px s) ->
  mrun sets ops mail0 = Ok (Some (outs, m)) -> length (live m) <= 1.
Proof.
  intros sets ops outs m H W R. destruct (mrun_tidy sets ops mail0 outs m) as [[_ ->]|(l & b & i & _ & _ & ->)]; auto.
  left. auto.
Qed.
Print Assumptions c67_kept.
(** After a value whose first entry has no file and that has a mailbox, the next
    assignment frees an address that was never allocated. *)
Theorem c67_freed_wrong : forall posix fs segs e es m m', segs <> [] -> Forall no_colon segs ->
  Forall2 (is_entry posix) segs (e :: es) -> has_file e = false -> boxes es <> [] ->
  mpset posix fs (Some (colons segs)) m = Ok (Some m') ->
  forall posix' fs' v, mpset posix' fs' v m' = UB.
Proof.
  intros posix fs segs e es m m' N F F2 HF B R posix' fs' v. unfold mpset in R.
  destruct (munset (mplist m) (live m)) as [lv| |]; [|discriminate..]. cbn [bind] in R.
  destruct (mp_loop_spec posix fs (next m) segs (S (length (colons segs))) 0 [] N F) as (es2 & bs & F2' & R2 & MB & FR & _ & OFF); [lia|].
  assert (E2 : es2 = e :: es).
  { clear -F2 F2'. revert es2 F2'. induction F2 as [|s [p q] ss l H F2 IH]; intros es2 F2'; inversion F2' as [|? [p' q'] ? ? H' F2'']; subst; auto.
    unfold is_entry in H, H'. cbn in *. destruct (entry_det _ _ _ _ _ _ H H') as [<- <-]. f_equal. auto. }
  subst es2. specialize (OFF e es eq_refl). rewrite HF in OFF. rewrite R2, app_nil_r in R. injection R as <-.
  unfold mpset. cbn [mplist live]. destruct bs as [|b bs].
  - exfalso. apply B. unfold boxes in *. cbn [filter] in MB. rewrite HF in MB. now rewrite <- MB.
  - inversion OFF as [|? ? O _]; subst. cbn [rev]. rewrite munset_last. destruct (snd (mb_at b)); [lia|reflexivity].
Qed.
Print Assumptions c67_freed_wrong.
Theorem c67_freed_refuted : mrun quiet [OMailpath false nofs (Some (L ":/m/a")); OMailpath false nofs None] mail0 = UB.
Proof. reflexivity. Qed.
Print Assumptions c67_freed_refuted.
(** An empty value is never freed. *)
Theorem c67_kept_refuted : exists m, mrun quiet [OMailpath false nofs (Some []); OMailpath false nofs (Some []); OMailpath false nofs None] mail0
  = Ok (Some ([], m)) /\ live m = [1; 0].
Proof. eexists. vm_compute. auto. Qed.
Print Assumptions c67_kept_refuted.
Example c67_ex_names_first : names_first false (L "/m/a:").
Proof.
  intros segs e es N F E F2. inversion F2 as [|s e0 ss l H _]; subst. inversion F as [|? ? F1 _]; subst.
  assert (S : s = L "/m/a").
  { destruct ss as [|s2 ss]; cbn [colons] in E.
    - subst s. exfalso. apply F1. cbn. tauto.
    - assert (Q : cut_colon (L "/m/a:") = (s, Some (colons (s2 :: ss)))) by (rewrite E; now apply cut_more). vm_compute in Q. injection Q as <- _. reflexivity. }
  subst s. unfold is_entry in H. destruct e as [p m]. cbn in H. destruct (entry_of_spec false (L "/m/a")) as (p' & m' & E' & R).
  destruct (entry_det _ _ _ _ _ _ H E') as [-> ->]. vm_compute in R. injection R as <- _. reflexivity.
Qed.

(** ** C68: announcing mail *)
(** The prompts that look are those at least MAILCHECK seconds after the last one
    that did; each announces the files that have unread mail which was not there
    at the look before (or when MAILPATH was assigned), and only these. *)
Theorem c68_mailpath : forall sets posix fs0 segs m m1 (cs : list (((Z * Z) * fsys) * bool)) t0,
  segs <> [] -> Forall no_colon segs -> mpset posix fs0 (Some (colons segs)) m = Ok (Some m1) ->
  Forall (fun c => good_time (fst (fst c))) cs -> (first m = false -> good_time (lastchk m)) ->
  (forall c cs', cs = c :: cs' -> t0 = fst (fst c)) ->
  exists es, Forall2 (is_entry posix) segs es /\
    (boxes es <> [] -> (forall n, In n (boxes es) -> sets n = false) ->
     exists outs m' l, mrun sets (map (fun c => OCheck (snd (fst c)) (fst (fst c)) (snd c)) cs) m1 = Ok (Some (outs, m')) /\
       looks (interval m) (base m t0) (map (fun c => seen_at (fst c)) cs) l /\
       prints (rev (boxes es)) (world_of fs0) l outs).
Proof.
  intros sets posix fs0 segs m m1 cs t0 N F R G GL T0.
  destruct (c67_entries posix fs0 segs m m1 N F R) as (es & F2 & MB & KE). exists es. split; auto. intros NB S.
  assert (I : interval m1 = interval m /\ first m1 = first m /\ lastchk m1 = lastchk m).
  { unfold mpset in R. destruct (munset (mplist m) (live m)); [|discriminate..]. cbn [bind] in R.
    destruct (mp_loop _ _ _ _ _ _ _); [|discriminate]. injection R as <-. auto. }
  destruct I as (I1 & I2 & I3).
  destruct (checks_list sets cs m1 (world_of fs0) t0) as (outs & m' & l & X & LK & PR & _); auto.
  - intros Z. rewrite Z in MB. cbn in MB. apply NB. rewrite <- (rev_involutive (boxes es)), <- MB. reflexivity.
  - intros n HI. apply S. apply in_rev. rewrite <- MB. exact HI.
  - rewrite I2, I3. auto.
  - exists outs, m', l. rewrite <- I1. unfold base. rewrite <- I2, <- I3. change (fun b : mbox_ => (mb_path b, mb_msg b)) with box in MB.
    rewrite <- MB. auto.
Qed.
Print Assumptions c68_mailpath.
(** The same for MAIL while MAILPATH has no mailbox. *)
Theorem c68_mail : forall sets fs0 p m (cs : list ((Z * Z) * fsys)) t0,
  mplist m = [] -> Forall (fun c => good_time (fst c)) cs -> (first m = false -> good_time (lastchk m)) ->
  (forall c cs', cs = c :: cs' -> t0 = fst c) ->
  exists outs m' l, mrun sets (map check_op cs) (mbset fs0 (Some p) m) = Ok (Some (outs, m')) /\
    looks (interval m) (base m t0) (map seen_at cs) l /\ prints [(p, None)] (world_of fs0) l outs.
Proof.
  intros sets fs0 p m cs t0 E G GL T0. apply (checks_mail sets cs (mbset fs0 (Some p) m) (world_of fs0) p t0); auto. cbn. apply stamp_changed.
Qed.
Print Assumptions c68_mail.
(** MAIL is not looked at while MAILPATH has mailboxes, nor when it is unset. *)
Theorem c68_exclusive : forall sets fs now m, mplist m = [] -> mcheck sets fs now false m = Ok ([], m).
Proof. intros sets fs now m E. unfold mcheck. now rewrite E. Qed.
Print Assumptions c68_exclusive.

Definition one (f : cstr) (s : stat_) : fsys := fun p => if str_eqb p f then Some s else None.
Definition sp_box := L "/m/a".
(** the file is there at first, mail comes, it is read, the file is removed, new mail comes *)
Definition story : list (((Z * Z) * fsys) * bool) :=
  [((5, 999999999)%Z, one sp_box (St true 10 100 50), true);
   ((65, 0)%Z, one sp_box (St true 20 130 110), true);
   ((66, 0)%Z, one sp_box (St true 20 130 110), true);
   ((126, 0)%Z, one sp_box (St true 20 130 110), false);
   ((200, 0)%Z, nofs, false);
   ((300, 0)%Z, one sp_box (St true 5 290 280), false)].
Example c68_ex : exists m m', mrun quiet [OInterval 60; OMailpath false (one sp_box (St true 10 100 50)) (Some (L "/m/a?new mail"))] mail0 = Ok (Some ([], m)) /\
  mrun quiet (map (fun c => OCheck (snd (fst c)) (fst (fst c)) (snd c)) story) m =
    Ok (Some ([[]; []; [(sp_box, Some (L "new mail"))]; []; []; [(sp_box, Some (L "new mail"))]], m')).
Proof. do 2 eexists. split; [vm_compute; reflexivity|]. vm_compute; reflexivity. Qed.

(** Mail that arrives in the second of an earlier change is not announced. *)
Theorem c68_same_second_refuted : exists m m',
  mrun quiet [OMail (one sp_box (St true 10 100 50)) (Some sp_box)] mail0 = Ok (Some ([], m)) /\
  mrun quiet (map check_op [((5, 0)%Z, one sp_box (St true 900 100 50))]) m = Ok (Some ([[]], m')).
Proof. do 2 eexists. split; [vm_compute; reflexivity|]. vm_compute; reflexivity. Qed.
Print Assumptions c68_same_second_refuted.
(** A message whose evaluation assigns MAILPATH frees the mailbox it belongs to,
    which is then written. *)
Theorem c68_message_refuted : mrun (fun n => str_eqb (fst n) sp_box)
  [OMailpath false nofs (Some (L "/m/a?$((MAILPATH=0))")); OCheck (one sp_box (St true 20 130 110)) (5, 0)%Z false] mail0 = UB.
Proof. vm_compute. reflexivity. Qed.
Print Assumptions c68_message_refuted.
